(** The three-dimensional generalized Hilbert curve. *)
From Verif Require Import Base Gilbert GilbertFacts.
Local Open Scope Z_scope.

(** ** Vectors *)
Definition vscale (k : Z) (u : v3) : v3 := let '(a, b, c) := u in (k * a, k * b, k * c).
Definition unit3 (u : v3) : Prop :=
  let '(a, b, c) := u in
  ((a = 1 \/ a = -1) /\ b = 0 /\ c = 0) \/ (a = 0 /\ (b = 1 \/ b = -1) /\ c = 0) \/ (a = 0 /\ b = 0 /\ (c = 1 \/ c = -1)).
Lemma v3_eq : forall a b c x y z : Z, a = x -> b = y -> c = z -> (a, b, c) = (x, y, z).
Proof. intros; subst; reflexivity. Qed.
Lemma vsize_scale : forall k u, 0 <= k -> unit3 u -> vsize (vscale k u) = k.
Proof.
  intros k [[a b] c] H U. unfold vsize, vscale, iabs, unit3 in *. destruct (_ <? 0) eqn:E; rewrite ?Z.ltb_lt, ?Z.ltb_ge in E;
    destruct U as [([-> | ->] & -> & ->)|[(-> & [-> | ->] & ->)|(-> & -> & [-> | ->])]]; lia.
Qed.
Lemma vsgn_scale : forall k u, 0 < k -> unit3 u -> vsgn (vscale k u) = u.
Proof. intros k [[a b] c] H U. unfold vsgn, vscale, unit3 in *. rewrite !sgn_mul by lia. reflexivity. Qed.
Lemma vhalf_scale : forall k u, 0 <= k -> unit3 u -> vhalf (vscale k u) = vscale (k / 2) u.
Proof. intros k [[a b] c] H U. unfold vhalf, vscale, unit3 in *. rewrite !quot_mul by lia. reflexivity. Qed.
Lemma vsub_scale : forall k j u, vsub (vscale k u) (vscale j u) = vscale (k - j) u.
Proof. intros k j [[a b] c]. cbn. apply v3_eq; ring. Qed.
Lemma vneg_scale : forall k u, vneg (vscale k u) = vscale k (vneg u).
Proof. intros k [[a b] c]. cbn [vneg vscale]. apply v3_eq; ring. Qed.
Lemma estep_scale : forall k u, (if odd_step (k / 2) k then vadd (vscale (k / 2) u) u else vscale (k / 2) u) = vscale (ehalf k) u.
Proof. intros k [[a b] c]. unfold ehalf. destruct (odd_step (k / 2) k); [|reflexivity]. cbn [vadd vscale]. apply v3_eq; ring. Qed.
Lemma unit3_neg : forall u, unit3 u -> unit3 (vneg u).
Proof. intros [[a b] c] U. unfold unit3, vneg in *. lia. Qed.

(** the cell with local coordinates (i,j,k) *)
Definition aff3 (p u v t : v3) (c : v3) : v3 :=
  let '(i, j, k) := c in vadd (vadd (vadd p (vscale i u)) (vscale j v)) (vscale k t).
Definition line (n : Z) : list v3 := map (fun i => (Z.of_nat i, 0, 0)) (seq 0 (Z.to_nat n)).
Lemma run3_line : forall n p u v t, run3 (Z.to_nat n) p u = map (aff3 p u v t) (line n).
Proof.
  intros n p u v t. unfold line.
  enough (Q : forall m k, run3 m (vadd p (vscale (Z.of_nat k) u)) u = map (aff3 p u v t) (map (fun i => (Z.of_nat i, 0, 0)) (seq k m))).
  { rewrite <- Q. f_equal. destruct p as [[x y] z], u as [[a b] c]. cbn [vadd vscale]. apply v3_eq; lia. }
  induction m as [|m IH]; intros k; [reflexivity|]. cbn [run3 seq map]. f_equal.
  - unfold aff3. destruct p as [[x y] z], u as [[a b] c], v as [[e f] g], t as [[r s] q]. cbn [vadd vscale]. apply v3_eq; ring.
  - rewrite <- IH. f_equal. destruct p as [[x y] z], u as [[a b] c]. cbn [vadd vscale]. apply v3_eq; lia.
Qed.

(** ** Pieces of the curve *)
Record seg (ev : Prop) (R : Z -> Z -> Z -> Prop) (s e : v3) (l : list v3) : Prop := {
  s_nodup : NoDup l;
  s_in : forall i j k, In (i, j, k) l <-> R i j k;
  s_start : starts l s;
  s_end : ends l e;
  s_touch : consecutive touch3 l;
  s_even : ev -> breaks edge3 l = 0%nat
}.
Lemma seg_app : forall (ev : Prop) R1 R2 s1 e1 s2 e2 l1 l2, seg ev R1 s1 e1 l1 -> seg ev R2 s2 e2 l2 ->
  touch3 e1 s2 -> (ev -> edge3 e1 s2 = true) -> (forall i j k, R1 i j k -> R2 i j k -> False) ->
  seg ev (fun i j k => R1 i j k \/ R2 i j k) s1 e2 (l1 ++ l2).
Proof.
  intros ev R1 R2 s1 e1 s2 e2 l1 l2 [N1 I1 S1 E1 T1 B1] [N2 I2 S2 E2 T2 B2] T E D. constructor.
  - apply NoDup_app'; [exact N1|exact N2|]. intros [[i j] k] A B. apply (D i j k); [apply I1|apply I2]; assumption.
  - intros i j k. rewrite in_app_iff, I1, I2. tauto.
  - apply starts_app. exact S1.
  - apply ends_app. exact E2.
  - apply (cons_app _ _ _ _ _ _ T1 T2 E1 S2 T).
  - intros V. rewrite (breaks_app _ _ _ _ _ _ E1 S2), (B1 V), (B2 V), (E V). reflexivity.
Qed.
Lemma seg_ext : forall ev R R' s e l, seg ev R s e l -> (forall i j k, R i j k <-> R' i j k) -> seg ev R' s e l.
Proof. intros ev R R' s e l [N I S E T B] H. constructor; try assumption. intros i j k. rewrite I. apply H. Qed.
(** a rigid motion [f] with inverse [g] *)
Definition iso3 (f g : v3 -> v3) : Prop :=
  (forall p q, touch3 p q -> touch3 (f p) (f q)) /\ (forall p q, edge3 (f p) (f q) = edge3 p q) /\ (forall c, g (f c) = c) /\ (forall c, f (g c) = c).
Lemma seg_map : forall (ev ev' : Prop) R s e l f g, iso3 f g -> seg ev' R s e l -> (ev -> ev') ->
  seg ev (fun i j k => let '(a, b, c) := g (i, j, k) in R a b c) (f s) (f e) (map f l).
Proof.
  intros ev ev' R s e l f g (F1 & F2 & F3 & F4) [N I S E T B] Ev. constructor.
  - apply NoDup_map_inj; [|exact N]. intros x y _ _ Q. rewrite <- (F3 x), Q, F3. reflexivity.
  - intros i j k. rewrite in_map_iff. destruct (g (i, j, k)) as [[a b] c] eqn:G. split.
    + intros ([[x y] z] & Q & J). rewrite <- Q, F3 in G. injection G as -> -> ->. apply I. exact J.
    + intros J. exists (a, b, c). split; [|apply I; exact J]. rewrite <- G. apply F4.
  - apply starts_map. exact S.
  - apply ends_map. exact E.
  - apply cons_map; assumption.
  - intros V. rewrite (breaks_map _ _ _ _ F2). apply B, Ev, V.
Qed.
Ltac iso := unfold iso3, touch3, edge3; split; [intros [[? ?] ?] [[? ?] ?]; lia|split;
  [intros [[? ?] ?] [[? ?] ?]; f_equal; lia|split; intros [[? ?] ?]; apply v3_eq; lia]].

Definition box (w h d : Z) (i j k : Z) : Prop := 0 <= i < w /\ 0 <= j < h /\ 0 <= k < d.
Definition even1 (x : Z) : Prop := x mod 2 = 0 \/ x = 1.
Definition sizes (w h d : Z) : Prop :=
  1 <= w /\ 1 <= h /\ 1 <= d /\ (w = 1 -> (h = 1 /\ d <= 2) \/ (d = 1 /\ h <= 2)).
(** where the piece of size w x h x d ends *)
Definition last3 (w h d : Z) : v3 := if w =? 1 then (0, h - 1, d - 1) else (w - 1, 0, 0).
Definition good3 (w h d : Z) (l : list v3) : Prop :=
  seg (even1 w /\ even1 h /\ even1 d) (box w h d) (0, 0, 0) (last3 w h d) l.

Lemma line_seg : forall n ev, 1 <= n -> seg ev (box n 1 1) (0, 0, 0) (n - 1, 0, 0) (line n).
Proof.
  intros n ev H. unfold line. constructor.
  - apply NoDup_map_inj; [|apply seq_NoDup]. intros a b _ _ E. injection E. lia.
  - intros i j k. rewrite in_map_iff. unfold box. split.
    + intros (x & E & J). apply in_seq in J. injection E. lia.
    + intros J. exists (Z.to_nat i). split; [apply v3_eq; lia|apply in_seq; lia].
  - destruct (Z.to_nat n) eqn:E; [lia|]. cbn. eexists. reflexivity.
  - destruct (Z.to_nat n) as [|k] eqn:E; [lia|]. rewrite seq_S, map_app. cbn [map]. exists (map (fun i => (Z.of_nat i, 0, 0)) (seq 0 k)). replace (Z.of_nat (0 + k)) with (n - 1) by lia. reflexivity.
  - enough (Q : forall k s, consecutive touch3 (map (fun i : nat => (Z.of_nat i, 0, 0)) (seq s k))) by apply Q.
    intros k. induction k as [|[|k] IH]; intros s; [exact I|exact I|].
    specialize (IH (S s)). cbn [seq map consecutive] in IH |- *. split; [|exact IH]. unfold touch3. lia.
  - intros _. enough (Q : forall k s, breaks edge3 (map (fun i : nat => (Z.of_nat i, 0, 0)) (seq s k)) = 0%nat) by apply Q.
    intros k. induction k as [|[|k] IH]; intros s; [reflexivity|reflexivity|].
    specialize (IH (S s)). cbn [seq map breaks] in IH |- *. rewrite IH.
    unfold edge3. replace (_ =? 1) with true; [reflexivity|]. symmetry. apply Z.eqb_eq. lia.
Qed.

(** the placements of the recursive pieces *)
Definition kij (c : v3) : v3 := let '(i, j, k) := c in (k, i, j).
Definition jki (c : v3) : v3 := let '(i, j, k) := c in (j, k, i).
Definition sh1 (n : Z) (c : v3) : v3 := let '(i, j, k) := c in (n + i, j, k).
Definition sh2 (n : Z) (c : v3) : v3 := let '(i, j, k) := c in (i, n + j, k).
Definition sh3 (n : Z) (c : v3) : v3 := let '(i, j, k) := c in (i, j, n + k).
Definition back2 (w n : Z) (c : v3) : v3 := let '(i, j, k) := c in (w - 1 - k, n - 1 - i, j).
Definition back2' (w n : Z) (c : v3) : v3 := let '(i, j, k) := c in (n - 1 - j, k, w - 1 - i).
Definition back3 (w n : Z) (c : v3) : v3 := let '(i, j, k) := c in (w - 1 - j, k, n - 1 - i).
Definition back3' (w n : Z) (c : v3) : v3 := let '(i, j, k) := c in (n - 1 - k, w - 1 - i, j).
Definition r2 (n : Z) (c : v3) : v3 := let '(i, j, k) := c in (j, n + k, i).
Definition r2' (n : Z) (c : v3) : v3 := let '(i, j, k) := c in (k, i, j - n).
Definition r3 (n d : Z) (c : v3) : v3 := let '(i, j, k) := c in (i, n - 1 - j, d - 1 - k).
Definition r4 (w n d : Z) (c : v3) : v3 := let '(i, j, k) := c in (w - 1 - j, n + k, d - 1 - i).
Definition r4' (w n d : Z) (c : v3) : v3 := let '(i, j, k) := c in (d - 1 - k, w - 1 - i, j - n).
Lemma iso_kij : iso3 kij jki. Proof. unfold kij, jki. iso. Qed.
Lemma iso_jki : iso3 jki kij. Proof. unfold kij, jki. iso. Qed.
Lemma iso_sh1 : forall n, iso3 (sh1 n) (sh1 (- n)). Proof. intros n. unfold sh1. iso. Qed.
Lemma iso_sh2 : forall n, iso3 (sh2 n) (sh2 (- n)). Proof. intros n. unfold sh2. iso. Qed.
Lemma iso_sh3 : forall n, iso3 (sh3 n) (sh3 (- n)). Proof. intros n. unfold sh3. iso. Qed.
Lemma iso_back2 : forall w n, iso3 (back2 w n) (back2' w n). Proof. intros w n. unfold back2, back2'. iso. Qed.
Lemma iso_back3 : forall w n, iso3 (back3 w n) (back3' w n). Proof. intros w n. unfold back3, back3'. iso. Qed.
Lemma iso_r2 : forall n, iso3 (r2 n) (r2' n). Proof. intros n. unfold r2, r2'. iso. Qed.
Lemma iso_r3 : forall n d, iso3 (r3 n d) (r3 n d). Proof. intros n d. unfold r3. iso. Qed.
Lemma iso_r4 : forall w n d, iso3 (r4 w n d) (r4' w n d). Proof. intros w n d. unfold r4, r4'. iso. Qed.

Lemma seg_weak : forall (ev ev' : Prop) R s e l, seg ev' R s e l -> (ev -> ev') -> seg ev R s e l.
Proof. intros ev ev' R s e l [N I S E T B] H. constructor; try assumption. intros V. apply B, H, V. Qed.
Lemma seg_place : forall (ev ev' : Prop) R s e l f g (R' : Z -> Z -> Z -> Prop) s' e', iso3 f g -> seg ev' R s e l -> (ev -> ev') -> f s = s' -> f e = e' ->
  (forall i j k, (let '(a, b, c) := g (i, j, k) in R a b c) <-> R' i j k) -> seg ev R' s' e' (map f l).
Proof.
  intros ev ev' R s e l f g R' s' e' F S V <- <- H. apply (seg_ext _ _ _ _ _ _ (seg_map _ _ _ _ _ _ _ _ F S V) H).
Qed.
Lemma even1_half : forall w, 2 <= w -> even1 w -> even1 (ehalf w) /\ even1 (w - ehalf w).
Proof. intros w H [E|E]; [|lia]. pose proof (ehalf_facts w H) as (B1 & B2 & B3 & B4). unfold even1. destruct B2 as [[? ?]|[? ?]]; [lia|]. div2. lia. Qed.
Lemma last3_big : forall w h d, 2 <= w -> last3 w h d = (w - 1, 0, 0).
Proof. intros w h d H. unfold last3. replace (w =? 1) with false; [reflexivity|]. symmetry. apply Z.eqb_neq. lia. Qed.
Lemma last3_one : forall h d, last3 1 h d = (0, h - 1, d - 1).
Proof. reflexivity. Qed.
Ltac edge := unfold edge3; apply Z.eqb_eq; lia.

Lemma good3_wide : forall w h d l1 l2, 1 <= h -> 1 <= d -> (2 <= h \/ 2 <= d) -> 3 * h < 2 * w -> 3 * d < 2 * w ->
  good3 (ehalf w) h d l1 -> good3 (w - ehalf w) h d l2 -> good3 w h d (l1 ++ map (sh1 (ehalf w)) l2).
Proof.
  intros w h d l1 l2 Hh Hd O H1 H2 G1 G2. unfold good3 in *. pose proof (ehalf_facts w ltac:(lia)) as (B1 & B2 & B3 & B4).
  pose proof (even1_half w ltac:(lia)) as EV.
  set (k := ehalf w) in *. assert (K : k mod 2 = 0) by lia. assert (K2 : 2 <= k) by (clear B2; div2; lia). assert (K3 : 2 <= w - k) by (clear B2; div2; lia).
  rewrite last3_big in G1, G2 by lia. rewrite last3_big by lia.
  eapply seg_ext; [eapply seg_app|].
  - apply (seg_weak _ _ _ _ _ _ G1). tauto.
  - apply (seg_place _ _ _ _ _ _ (sh1 k) (sh1 (- k)) (fun i j c => k <= i < w /\ 0 <= j < h /\ 0 <= c < d) (k, 0, 0) (w - 1, 0, 0) (iso_sh1 k) G2);
      [tauto|unfold sh1; apply v3_eq; lia|unfold sh1; apply v3_eq; lia|intros i j c; unfold sh1, box; lia].
  - unfold touch3. lia.
  - intros _. edge.
  - unfold box. lia.
  - unfold box. lia.
Qed.

Lemma good3_h : forall w h d l1 l2 l3, 1 <= d -> 2 <= w -> 4 * d < 3 * h -> (2 * w <= 3 * h \/ 2 * w <= 3 * d) ->
  good3 (ehalf h) d (ehalf w) l1 -> good3 w (h - ehalf h) d l2 -> good3 (ehalf h) d (w - ehalf w) l3 ->
  good3 w h d (map kij l1 ++ map (sh2 (ehalf h)) l2 ++ map (back2 w (ehalf h)) l3).
Proof.
  intros w h d l1 l2 l3 Hd Hw H1 H2 G1 G2 G3. unfold good3 in *. pose proof (ehalf_facts w Hw) as (A1 & A2 & A3 & A4).
  pose proof (ehalf_facts h ltac:(lia)) as (B1 & B2 & B3 & B4).
  pose proof (even1_half w Hw) as EVw. pose proof (even1_half h ltac:(lia)) as EVh.
  set (k := ehalf h) in *. set (a := ehalf w) in *. rewrite (last3_big w) in G2 by lia. rewrite last3_big by lia.
  assert (J1 : exists e1, kij (last3 k d a) = e1 /\ touch3 e1 (0, k, 0) /\ (even1 w /\ even1 h /\ even1 d -> edge3 e1 (0, k, 0) = true)).
  { eexists. split; [reflexivity|]. destruct (Z.eq_dec k 1) as [K|K].
    - rewrite K, last3_one. unfold kij, touch3. assert (h = 2 /\ d = 1) as [-> ->] by lia. split; [lia|]. intros (Ew & _ & _).
      unfold even1 in Ew. assert (w = 2) as -> by (clear A2 B2; div2; lia). unfold a, ehalf. cbn. reflexivity.
    - rewrite last3_big by lia. unfold kij, touch3. split; [lia|]. intros _. edge. }
  assert (J3 : back2 w k (last3 k d (w - a)) = (w - 1, 0, 0)).
  { destruct (Z.eq_dec k 1) as [K|K].
    - assert (h = 2 /\ d = 1 /\ (w = 2 \/ w = 3)) as (-> & -> & [-> | ->]) by lia; rewrite K; unfold a, ehalf; cbn; reflexivity.
    - rewrite last3_big by lia. unfold back2. apply v3_eq; lia. }
  destruct J1 as (e1 & J1 & T1 & E1).
  eapply seg_ext; [eapply seg_app; [|eapply seg_app|..]|].
  - apply (seg_place _ _ _ _ _ _ kij jki (fun i j c => 0 <= i < a /\ 0 <= j < k /\ 0 <= c < d) (0, 0, 0) e1 iso_kij G1);
      [tauto|reflexivity|exact J1|intros i j c; unfold jki, box; lia].
  - apply (seg_place _ _ _ _ _ _ (sh2 k) (sh2 (- k)) (fun i j c => 0 <= i < w /\ k <= j < h /\ 0 <= c < d) (0, k, 0) (w - 1, k, 0) (iso_sh2 k) G2);
      [tauto|unfold sh2; apply v3_eq; lia|unfold sh2; apply v3_eq; lia|intros i j c; unfold sh2, box; lia].
  - apply (seg_place _ _ _ _ _ _ (back2 w k) (back2' w k) (fun i j c => a <= i < w /\ 0 <= j < k /\ 0 <= c < d) (w - 1, k - 1, 0) (w - 1, 0, 0) (iso_back2 w k) G3);
      [tauto|unfold back2; apply v3_eq; lia|exact J3|intros i j c; unfold back2', box; lia].
  - unfold touch3. lia.
  - intros _. edge.
  - cbv beta. lia.
  - exact T1.
  - exact E1.
  - cbv beta. lia.
  - intros i j c. cbv beta. unfold box. lia.
Qed.

Lemma good3_d : forall w h d l1 l2 l3, 1 <= h -> 2 <= w -> 4 * h < 3 * d -> (2 * w <= 3 * h \/ 2 * w <= 3 * d) ->
  good3 (ehalf d) (ehalf w) h l1 -> good3 w h (d - ehalf d) l2 -> good3 (ehalf d) (w - ehalf w) h l3 ->
  good3 w h d (map jki l1 ++ map (sh3 (ehalf d)) l2 ++ map (back3 w (ehalf d)) l3).
Proof.
  intros w h d l1 l2 l3 Hh Hw H1 H2 G1 G2 G3. unfold good3 in *. pose proof (ehalf_facts w Hw) as (A1 & A2 & A3 & A4).
  pose proof (ehalf_facts d ltac:(lia)) as (B1 & B2 & B3 & B4).
  pose proof (even1_half w Hw) as EVw. pose proof (even1_half d ltac:(lia)) as EVd.
  set (k := ehalf d) in *. set (a := ehalf w) in *. rewrite (last3_big w) in G2 by lia. rewrite last3_big by lia.
  assert (J1 : exists e1, jki (last3 k a h) = e1 /\ touch3 e1 (0, 0, k) /\ (even1 w /\ even1 h /\ even1 d -> edge3 e1 (0, 0, k) = true)).
  { eexists. split; [reflexivity|]. destruct (Z.eq_dec k 1) as [K|K].
    - rewrite K, last3_one. unfold jki, touch3. assert (d = 2 /\ h = 1) as [-> ->] by lia. split; [lia|]. intros (Ew & _ & _).
      unfold even1 in Ew. assert (w = 2) as -> by (clear A2 B2; div2; lia). unfold a, ehalf. cbn. reflexivity.
    - rewrite last3_big by lia. unfold jki, touch3. split; [lia|]. intros _. edge. }
  assert (J3 : back3 w k (last3 k (w - a) h) = (w - 1, 0, 0)).
  { destruct (Z.eq_dec k 1) as [K|K].
    - assert (d = 2 /\ h = 1 /\ (w = 2 \/ w = 3)) as (-> & -> & [-> | ->]) by lia; rewrite K; unfold a, ehalf; cbn; reflexivity.
    - rewrite last3_big by lia. unfold back3. apply v3_eq; lia. }
  destruct J1 as (e1 & J1 & T1 & E1).
  eapply seg_ext; [eapply seg_app; [|eapply seg_app|..]|].
  - apply (seg_place _ _ _ _ _ _ jki kij (fun i j c => 0 <= i < a /\ 0 <= j < h /\ 0 <= c < k) (0, 0, 0) e1 iso_jki G1);
      [tauto|reflexivity|exact J1|intros i j c; unfold kij, box; lia].
  - apply (seg_place _ _ _ _ _ _ (sh3 k) (sh3 (- k)) (fun i j c => 0 <= i < w /\ 0 <= j < h /\ k <= c < d) (0, 0, k) (w - 1, 0, k) (iso_sh3 k) G2);
      [tauto|unfold sh3; apply v3_eq; lia|unfold sh3; apply v3_eq; lia|intros i j c; unfold sh3, box; lia].
  - apply (seg_place _ _ _ _ _ _ (back3 w k) (back3' w k) (fun i j c => a <= i < w /\ 0 <= j < h /\ 0 <= c < k) (w - 1, 0, k - 1) (w - 1, 0, 0) (iso_back3 w k) G3);
      [tauto|unfold back3; apply v3_eq; lia|exact J3|intros i j c; unfold back3', box; lia].
  - unfold touch3. lia.
  - intros _. edge.
  - cbv beta. lia.
  - exact T1.
  - exact E1.
  - cbv beta. lia.
  - intros i j c. cbv beta. unfold box. lia.
Qed.

Lemma good3_all : forall w h d l1 l2 l3 l4 l5, 2 <= w -> 2 <= h -> 2 <= d -> 3 * h <= 4 * d -> 3 * d <= 4 * h -> (2 * w <= 3 * h \/ 2 * w <= 3 * d) ->
  good3 (ehalf h) (ehalf d) (ehalf w) l1 -> good3 d (ehalf w) (h - ehalf h) l2 -> good3 w (ehalf h) (d - ehalf d) l3 ->
  good3 d (w - ehalf w) (h - ehalf h) l4 -> good3 (ehalf h) (ehalf d) (w - ehalf w) l5 ->
  good3 w h d (map kij l1 ++ map (r2 (ehalf h)) l2 ++ map (r3 (ehalf h) d) l3 ++ map (r4 w (ehalf h) d) l4 ++ map (back2 w (ehalf h)) l5).
Proof.
  intros w h d l1 l2 l3 l4 l5 Hw Hh Hd H1 H2 H3 G1 G2 G3 G4 G5. unfold good3 in *. pose proof (ehalf_facts w Hw) as (A1 & A2 & A3 & A4).
  pose proof (ehalf_facts h Hh) as (B1 & B2 & B3 & B4). pose proof (ehalf_facts d Hd) as (C1 & C2 & C3 & C4).
  pose proof (even1_half w Hw) as EVw. pose proof (even1_half h Hh) as EVh. pose proof (even1_half d Hd) as EVd.
  set (k := ehalf h) in *. set (a := ehalf w) in *. set (m := ehalf d) in *.
  rewrite (last3_big d) in G2 by lia. rewrite (last3_big w) in G3 by lia. rewrite (last3_big d) in G4 by lia. rewrite (last3_big w) by lia.
  assert (J1 : exists e1, kij (last3 k m a) = e1 /\ touch3 e1 (0, k, 0) /\ (even1 w /\ even1 h /\ even1 d -> edge3 e1 (0, k, 0) = true)).
  { eexists. split; [reflexivity|]. destruct (Z.eq_dec k 1) as [K|K].
    - rewrite K, last3_one. unfold kij, touch3. assert (h = 2 /\ d = 2) as [-> ->] by lia. assert (m = 1) as -> by lia. split; [lia|]. intros (Ew & _ & _).
      unfold even1 in Ew. assert (w = 2) as -> by (clear A2 B2 C2; div2; lia). unfold a, ehalf. cbn. reflexivity.
    - rewrite last3_big by lia. unfold kij, touch3. split; [lia|]. intros _. edge. }
  assert (J3 : back2 w k (last3 k m (w - a)) = (w - 1, 0, 0)).
  { destruct (Z.eq_dec k 1) as [K|K].
    - assert (h = 2 /\ d = 2 /\ (w = 2 \/ w = 3)) as (-> & -> & [-> | ->]) by lia; rewrite K; unfold a, m, ehalf; cbn; reflexivity.
    - rewrite last3_big by lia. unfold back2. apply v3_eq; lia. }
  destruct J1 as (e1 & J1 & T1 & E1).
  eapply seg_ext; [eapply seg_app; [|eapply seg_app; [|eapply seg_app; [|eapply seg_app|..]|..]|..]|].
  - apply (seg_place _ _ _ _ _ _ kij jki (fun i j c => 0 <= i < a /\ 0 <= j < k /\ 0 <= c < m) (0, 0, 0) e1 iso_kij G1);
      [tauto|reflexivity|exact J1|intros i j c; unfold jki, box; lia].
  - apply (seg_place _ _ _ _ _ _ (r2 k) (r2' k) (fun i j c => 0 <= i < a /\ k <= j < h /\ 0 <= c < d) (0, k, 0) (0, k, d - 1) (iso_r2 k) G2);
      [tauto|unfold r2; apply v3_eq; lia|unfold r2; apply v3_eq; lia|intros i j c; unfold r2', box; lia].
  - apply (seg_place _ _ _ _ _ _ (r3 k d) (r3 k d) (fun i j c => 0 <= i < w /\ 0 <= j < k /\ m <= c < d) (0, k - 1, d - 1) (w - 1, k - 1, d - 1) (iso_r3 k d) G3);
      [tauto|unfold r3; apply v3_eq; lia|unfold r3; apply v3_eq; lia|intros i j c; unfold r3, box; lia].
  - apply (seg_place _ _ _ _ _ _ (r4 w k d) (r4' w k d) (fun i j c => a <= i < w /\ k <= j < h /\ 0 <= c < d) (w - 1, k, d - 1) (w - 1, k, 0) (iso_r4 w k d) G4);
      [tauto|unfold r4; apply v3_eq; lia|unfold r4; apply v3_eq; lia|intros i j c; unfold r4', box; lia].
  - apply (seg_place _ _ _ _ _ _ (back2 w k) (back2' w k) (fun i j c => a <= i < w /\ 0 <= j < k /\ 0 <= c < m) (w - 1, k - 1, 0) (w - 1, 0, 0) (iso_back2 w k) G5);
      [tauto|unfold back2; apply v3_eq; lia|exact J3|intros i j c; unfold back2', box; lia].
  - unfold touch3. lia.
  - intros _. edge.
  - cbv beta. lia.
  - unfold touch3. lia.
  - intros _. edge.
  - cbv beta. lia.
  - unfold touch3. lia.
  - intros _. edge.
  - cbv beta. lia.
  - exact T1.
  - exact E1.
  - cbv beta. lia.
  - intros i j c. cbv beta. unfold box. lia.
Qed.

Lemma aff_map : forall p u v t l q x y z (f : v3 -> v3), (forall c, aff3 q x y z c = aff3 p u v t (f c)) -> map (aff3 q x y z) l = map (aff3 p u v t) (map f l).
Proof. intros. rewrite map_map. apply map_ext. assumption. Qed.
Ltac vec p u v t := intros [[?i ?j] ?k]; destruct p as [[?x ?y] ?z], u as [[?a ?b] ?c], v as [[?e ?f] ?g], t as [[?r ?s] ?q];
  unfold aff3, kij, jki, sh1, sh2, sh3, back2, back3, r2, r3, r4; cbn [vadd vsub vneg vscale]; apply v3_eq; ring.

Lemma gen3_law : forall fuel w h d p u v t, sizes w h d -> unit3 u -> unit3 v -> unit3 t -> w + h + d <= Z.of_nat fuel ->
  exists l, generate3d fuel p (vscale w u) (vscale h v) (vscale d t) = Ok (map (aff3 p u v t) l) /\ good3 w h d l.
Proof.
  induction fuel as [|f IH]; intros w h d p u v t (Hw & Hh & Hd & Th) Uu Uv Ut Hf; [lia|].
  cbn [generate3d].
  rewrite (vsize_scale w u), (vsize_scale h v), (vsize_scale d t) by (assumption || lia).
  rewrite (vsgn_scale w u), (vsgn_scale h v), (vsgn_scale d t) by (assumption || lia).
  rewrite (vhalf_scale w u), (vhalf_scale h v), (vhalf_scale d t) by (assumption || lia).
  rewrite (vsize_scale (w / 2) u), (vsize_scale (h / 2) v), (vsize_scale (d / 2) t) by (assumption || (div2; lia)).
  rewrite !estep_scale.
  destruct ((h =? 1) && (d =? 1)) eqn:T1.
  { apply andb_prop in T1. destruct T1 as [T1 T2]. apply Z.eqb_eq in T1, T2. subst h d. exists (line w). split; [f_equal; apply run3_line|].
    unfold good3. replace (last3 w 1 1) with (w - 1, 0, 0); [apply line_seg; exact Hw|]. unfold last3. destruct (w =? 1) eqn:E; [apply Z.eqb_eq in E; subst w|]; reflexivity. }
  destruct ((w =? 1) && (d =? 1)) eqn:T2.
  { apply andb_prop in T2. destruct T2 as [T3 T2]. apply Z.eqb_eq in T3, T2. subst w d. exists (map kij (line h)). split.
    - f_equal. rewrite (run3_line h p v t u). apply aff_map. vec p u v t.
    - unfold good3. rewrite last3_one.
      apply (seg_place _ True (box h 1 1) (0, 0, 0) (h - 1, 0, 0) _ kij jki _ _ _ iso_kij (line_seg h True Hh));
        [trivial|reflexivity|reflexivity|intros i j k; unfold jki, box; lia]. }
  destruct ((w =? 1) && (h =? 1)) eqn:T3.
  { apply andb_prop in T3. destruct T3 as [T4 T3]. apply Z.eqb_eq in T4, T3. subst w h. exists (map jki (line d)). split.
    - f_equal. rewrite (run3_line d p t u v). apply aff_map. vec p u v t.
    - unfold good3. rewrite last3_one.
      apply (seg_place _ True (box d 1 1) (0, 0, 0) (d - 1, 0, 0) _ jki kij _ _ _ iso_jki (line_seg d True Hd));
        [trivial|reflexivity|reflexivity|intros i j k; unfold kij, box; lia]. }
  assert (W2 : 2 <= w /\ (2 <= h \/ 2 <= d)) by (rewrite andb_false_iff, !Z.eqb_neq in *; lia). destruct W2 as [W2 HD]. clear T1 T2 T3 Th.
  pose proof (ehalf_facts w W2) as (A1 & A2 & A3 & A4). rewrite !vsub_scale, !vneg_scale.
  destruct ((3 * h <? 2 * w) && (3 * d <? 2 * w)) eqn:C1.
  { apply andb_prop in C1. destruct C1 as [C1 C2]. apply Z.ltb_lt in C1, C2.
    assert (K2 : 2 <= ehalf w /\ 2 <= w - ehalf w) by (destruct A2 as [A2|[_ A2]]; [lia|]; revert A2 A3 A4; generalize (ehalf w); intros; div2; lia).
    destruct (IH (ehalf w) h d p u v t) as (l1 & -> & G1); [unfold sizes; lia|assumption..|lia|].
    destruct (IH (w - ehalf w) h d (vadd p (vscale (ehalf w) u)) u v t) as (l2 & -> & G2); [unfold sizes; lia|assumption..|lia|].
    cbn [obind]. exists (l1 ++ map (sh1 (ehalf w)) l2). split; [|apply good3_wide; assumption].
    f_equal. rewrite map_app. f_equal. apply aff_map. vec p u v t. }
  assert (NW : 2 * w <= 3 * h \/ 2 * w <= 3 * d) by (rewrite andb_false_iff, !Z.ltb_ge in C1; lia). clear C1.
  pose proof (unit3_neg u Uu) as Uu'. pose proof (unit3_neg v Uv) as Uv'. pose proof (unit3_neg t Ut) as Ut'.
  destruct (4 * d <? 3 * h) eqn:C2; [apply Z.ltb_lt in C2|apply Z.ltb_ge in C2].
  { pose proof (ehalf_facts h ltac:(lia)) as (B1 & B2 & B3 & B4).
    destruct (IH (ehalf h) d (ehalf w) p v t u) as (l1 & -> & G1); [unfold sizes; lia|assumption..|lia|].
    destruct (IH w (h - ehalf h) d (vadd p (vscale (ehalf h) v)) u v t) as (l2 & -> & G2); [unfold sizes; lia|assumption..|lia|].
    destruct (IH (ehalf h) d (w - ehalf w) (vadd (vadd p (vsub (vscale w u) u)) (vsub (vscale (ehalf h) v) v)) (vneg v) t (vneg u)) as (l3 & -> & G3);
      [unfold sizes; lia|assumption..|lia|].
    cbn [obind]. exists (map kij l1 ++ map (sh2 (ehalf h)) l2 ++ map (back2 w (ehalf h)) l3). split; [|apply good3_h; assumption].
    f_equal. rewrite !map_app. f_equal; [|f_equal]; apply aff_map; vec p u v t. }
  destruct (4 * h <? 3 * d) eqn:C3; [apply Z.ltb_lt in C3|apply Z.ltb_ge in C3].
  { pose proof (ehalf_facts d ltac:(lia)) as (B1 & B2 & B3 & B4).
    destruct (IH (ehalf d) (ehalf w) h p t u v) as (l1 & -> & G1); [unfold sizes; lia|assumption..|lia|].
    destruct (IH w h (d - ehalf d) (vadd p (vscale (ehalf d) t)) u v t) as (l2 & -> & G2); [unfold sizes; lia|assumption..|lia|].
    destruct (IH (ehalf d) (w - ehalf w) h (vadd (vadd p (vsub (vscale w u) u)) (vsub (vscale (ehalf d) t) t)) (vneg t) (vneg u) v) as (l3 & -> & G3);
      [unfold sizes; lia|assumption..|lia|].
    cbn [obind]. exists (map jki l1 ++ map (sh3 (ehalf d)) l2 ++ map (back3 w (ehalf d)) l3). split; [|apply good3_d; assumption].
    f_equal. rewrite !map_app. f_equal; [|f_equal]; apply aff_map; vec p u v t. }
  assert (H2 : 2 <= h /\ 2 <= d) by lia. destruct H2 as [H2 D2].
  pose proof (ehalf_facts h H2) as (B1 & B2 & B3 & B4). pose proof (ehalf_facts d D2) as (F1 & F2 & F3 & F4).
  destruct (IH (ehalf h) (ehalf d) (ehalf w) p v t u) as (l1 & -> & G1); [unfold sizes; lia|assumption..|lia|].
  destruct (IH d (ehalf w) (h - ehalf h) (vadd p (vscale (ehalf h) v)) t u v) as (l2 & -> & G2); [unfold sizes; lia|assumption..|lia|].
  destruct (IH w (ehalf h) (d - ehalf d) (vadd (vadd p (vsub (vscale (ehalf h) v) v)) (vsub (vscale d t) t)) u (vneg v) (vneg t)) as (l3 & -> & G3);
    [unfold sizes; lia|assumption..|lia|].
  destruct (IH d (w - ehalf w) (h - ehalf h) (vadd (vadd (vadd p (vsub (vscale w u) u)) (vscale (ehalf h) v)) (vsub (vscale d t) t)) (vneg t) (vneg u) v) as (l4 & -> & G4);
    [unfold sizes; lia|assumption..|lia|].
  destruct (IH (ehalf h) (ehalf d) (w - ehalf w) (vadd (vadd p (vsub (vscale w u) u)) (vsub (vscale (ehalf h) v) v)) (vneg v) t (vneg u)) as (l5 & -> & G5);
    [unfold sizes; lia|assumption..|lia|].
  cbn [obind]. eexists. split; [|apply (good3_all w h d l1 l2 l3 l4 l5); assumption].
  f_equal. rewrite !map_app. f_equal; [|f_equal; [|f_equal; [|f_equal]]]; apply aff_map; vec p u v t.
Qed.

Lemma gen3_mono : forall f1 p a b c l, generate3d f1 p a b c = Ok l -> forall f2, (f1 <= f2)%nat -> generate3d f2 p a b c = Ok l.
Proof.
  induction f1 as [|f1 IH]; intros p a b c l H f2 L; [discriminate H|]. destruct f2 as [|f2]; [lia|].
  cbn [generate3d] in H |- *. destruct ((vsize b =? 1) && (vsize c =? 1)); [exact H|].
  destruct ((vsize a =? 1) && (vsize c =? 1)); [exact H|]. destruct ((vsize a =? 1) && (vsize b =? 1)); [exact H|].
  repeat match type of H with
  | context [obind (generate3d f1 ?p ?a ?b ?c) _] =>
      let E := fresh "E" in destruct (generate3d f1 p a b c) eqn:E in H; try discriminate H; rewrite (IH _ _ _ _ _ E f2) by lia; cbn [obind] in H |- *
  | (if ?b then _ else _) = _ => destruct b
  end; exact H.
Qed.

Theorem gilbert3d_law : forall w h d, 1 <= w -> 1 <= h -> 1 <= d ->
  exists l, (forall fuel, w + h + d <= Z.of_nat fuel -> gilbert3d fuel w h d = Ok l) /\
    NoDup l /\ (forall i j k, In (i, j, k) l <-> 0 <= i < w /\ 0 <= j < h /\ 0 <= k < d) /\
    consecutive touch3 l /\
    (w mod 2 = 0 -> h mod 2 = 0 -> d mod 2 = 0 -> breaks edge3 l = 0%nat).
Proof.
  intros w h d Hw Hh Hd.
  assert (U1 : unit3 (1, 0, 0)) by (unfold unit3; lia). assert (U2 : unit3 (0, 1, 0)) by (unfold unit3; lia). assert (U3 : unit3 (0, 0, 1)) by (unfold unit3; lia).
  assert (X : forall n, vscale n (1, 0, 0) = (n, 0, 0)) by (intros n; cbn [vscale]; apply v3_eq; lia).
  assert (Y : forall n, vscale n (0, 1, 0) = (0, n, 0)) by (intros n; cbn [vscale]; apply v3_eq; lia).
  assert (W : forall n, vscale n (0, 0, 1) = (0, 0, n)) by (intros n; cbn [vscale]; apply v3_eq; lia).
  (* the three orders of the axes *)
  assert (Fin : forall ev R s e l a b c f g, seg ev R s e l -> iso3 f g ->
     (forall i j k, (let '(x, y, z) := g (i, j, k) in R x y z) <-> 0 <= i < w /\ 0 <= j < h /\ 0 <= k < d) ->
     (w mod 2 = 0 -> h mod 2 = 0 -> d mod 2 = 0 -> ev) ->
     generate3d (Z.to_nat (w + h + d)) (0, 0, 0) a b c = Ok (map f l) ->
     exists l', (forall fuel, w + h + d <= Z.of_nat fuel -> generate3d fuel (0, 0, 0) a b c = Ok l') /\
       NoDup l' /\ (forall i j k, In (i, j, k) l' <-> 0 <= i < w /\ 0 <= j < h /\ 0 <= k < d) /\ consecutive touch3 l' /\
       (w mod 2 = 0 -> h mod 2 = 0 -> d mod 2 = 0 -> breaks edge3 l' = 0%nat)).
  { intros ev R s e l a b c f g S F H V G. exists (map f l).
    pose proof (seg_map ev ev R s e l f g F S (fun x => x)) as [N I _ _ T B].
    split; [intros fuel Q; apply (gen3_mono _ _ _ _ _ _ G); lia|]. split; [exact N|]. split; [intros i j k; rewrite I; apply H|]. split; [exact T|].
    intros E1 E2 E3. apply B, V; assumption. }
  unfold gilbert3d. destruct ((h <=? w) && (d <=? w)) eqn:C1; [|destruct ((w <=? h) && (d <=? h)) eqn:C2].
  - apply andb_prop in C1. destruct C1 as [C1 C2]. apply Z.leb_le in C1, C2.
    destruct (gen3_law (Z.to_nat (w + h + d)) w h d (0, 0, 0) (1, 0, 0) (0, 1, 0) (0, 0, 1)) as (l & R & G); [unfold sizes; lia|assumption..|lia|].
    rewrite X, Y, W in R. apply (Fin _ _ _ _ l _ _ _ (sh1 0) (sh1 (- 0)) G (iso_sh1 0)); [intros i j k; unfold sh1, box; lia|unfold even1; lia|].
    rewrite R. f_equal. apply map_ext. intros [[i j] k]. unfold aff3, sh1. cbn [vadd vscale]. apply v3_eq; lia.
  - apply andb_prop in C2. destruct C2 as [C2 C3]. apply Z.leb_le in C2, C3.
    destruct (gen3_law (Z.to_nat (w + h + d)) h w d (0, 0, 0) (0, 1, 0) (1, 0, 0) (0, 0, 1)) as (l & R & G); [unfold sizes; lia|assumption..|lia|].
    rewrite X, Y, W in R.
    apply (Fin _ _ _ _ l _ _ _ (fun q => let '(i, j, k) := q in (j, i, k)) (fun q => let '(i, j, k) := q in (j, i, k)) G); [iso|intros i j k; unfold box; lia|unfold even1; lia|].
    rewrite R. f_equal. apply map_ext. intros [[i j] k]. unfold aff3. cbn [vadd vscale]. apply v3_eq; lia.
  - rewrite andb_false_iff, !Z.leb_gt in C1, C2.
    destruct (gen3_law (Z.to_nat (w + h + d)) d w h (0, 0, 0) (0, 0, 1) (1, 0, 0) (0, 1, 0)) as (l & R & G); [unfold sizes; lia|assumption..|lia|].
    rewrite X, Y, W in R.
    apply (Fin _ _ _ _ l _ _ _ jki kij G iso_jki); [intros i j k; unfold kij, box; lia|unfold even1; lia|].
    rewrite R. f_equal. apply map_ext. intros [[i j] k]. unfold aff3, jki. cbn [vadd vscale]. apply v3_eq; lia.
Qed.

(** no extent at all: the recursion never ends *)
Lemma gen3_zero : forall fuel x y z, generate3d fuel (x, y, z) (0, 0, 0) (0, 0, 0) (0, 0, 0) = Fuel.
Proof.
  induction fuel as [|f IH]; intros x y z; [reflexivity|]. cbn. rewrite IH. reflexivity.
Qed.
Lemma gilbert3d_zero : forall fuel, gilbert3d fuel 0 2 3 = Fuel.
Proof.
  intros fuel. destruct fuel as [|[|[|f]]]; [reflexivity..|]. cbn. rewrite gen3_zero. reflexivity.
Qed.
