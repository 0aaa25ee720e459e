(** Facts about the generalized Hilbert curves.  Specification first. *)
From Verif Require Import Base Gilbert.
Local Open Scope Z_scope.

(** ** Specification *)
(** two cells share an edge / touch at least in a corner *)
Definition edge2 (p q : Z * Z) : bool := Z.abs (fst p - fst q) + Z.abs (snd p - snd q) =? 1.
Definition touch2 (p q : Z * Z) : Prop := Z.abs (fst p - fst q) <= 1 /\ Z.abs (snd p - snd q) <= 1.
Definition edge3 (p q : v3) : bool :=
  let '(a, b, c) := p in let '(x, y, z) := q in Z.abs (a - x) + Z.abs (b - y) + Z.abs (c - z) =? 1.
Definition touch3 (p q : v3) : Prop :=
  let '(a, b, c) := p in let '(x, y, z) := q in Z.abs (a - x) <= 1 /\ Z.abs (b - y) <= 1 /\ Z.abs (c - z) <= 1.
(** every two consecutive elements are related *)
Fixpoint consecutive {A} (R : A -> A -> Prop) (l : list A) : Prop :=
  match l with
  | x :: ((y :: _) as r) => R x y /\ consecutive R r
  | _ => True
  end.
(** how many consecutive pairs fail a test *)
Fixpoint breaks {A} (e : A -> A -> bool) (l : list A) : nat :=
  match l with
  | x :: ((y :: _) as r) => ((if e x y then 0 else 1) + breaks e r)%nat
  | _ => 0%nat
  end.

(** ** Paths *)
Definition starts {A} (l : list A) (p : A) : Prop := exists t, l = p :: t.
Definition ends {A} (l : list A) (p : A) : Prop := exists t, l = t ++ [p].
Lemma starts_app : forall A (l1 l2 : list A) p, starts l1 p -> starts (l1 ++ l2) p.
Proof. intros A l1 l2 p (t & ->). exists (t ++ l2). reflexivity. Qed.
Lemma ends_app : forall A (l1 l2 : list A) p, ends l2 p -> ends (l1 ++ l2) p.
Proof. intros A l1 l2 p (t & ->). exists (l1 ++ t). rewrite app_assoc. reflexivity. Qed.
Lemma starts_map : forall A B (f : A -> B) l p, starts l p -> starts (map f l) (f p).
Proof. intros A B f l p (t & ->). exists (map f t). reflexivity. Qed.
Lemma ends_map : forall A B (f : A -> B) l p, ends l p -> ends (map f l) (f p).
Proof. intros A B f l p (t & ->). exists (map f t). rewrite map_app. reflexivity. Qed.
Lemma cons_app : forall A (R : A -> A -> Prop) l1 l2 p q,
  consecutive R l1 -> consecutive R l2 -> ends l1 p -> starts l2 q -> R p q -> consecutive R (l1 ++ l2).
Proof.
  intros A R l1 l2 p q H1 H2 (t & ->) (s & ->) Rpq. revert H1. induction t as [|x t IH]; intros H1.
  - cbn. split; assumption.
  - destruct t as [|y t].
    + cbn in H1 |- *. destruct H1 as [H _]. split; [exact H|]. split; assumption.
    + cbn in H1, IH |- *. destruct H1 as [H H1]. split; [exact H|]. apply IH. exact H1.
Qed.
Lemma breaks_app : forall A (e : A -> A -> bool) l1 l2 p q, ends l1 p -> starts l2 q ->
  breaks e (l1 ++ l2) = (breaks e l1 + (if e p q then 0 else 1) + breaks e l2)%nat.
Proof.
  intros A e l1 l2 p q (t & ->) (s & ->). induction t as [|x t IH].
  - cbn. lia.
  - destruct t as [|y t].
    + cbn. lia.
    + cbn in IH |- *. rewrite IH. lia.
Qed.
Lemma cons_map : forall A (R : A -> A -> Prop) (f : A -> A) l,
  (forall x y, R x y -> R (f x) (f y)) -> consecutive R l -> consecutive R (map f l).
Proof.
  intros A R f l H. induction l as [|x [|y r] IH]; intros C; [exact I|exact I|].
  cbn in C, IH |- *. destruct C as [C1 C2]. split; [apply H; exact C1|apply IH; exact C2].
Qed.
Lemma breaks_map : forall A (e : A -> A -> bool) (f : A -> A) l,
  (forall x y, e (f x) (f y) = e x y) -> breaks e (map f l) = breaks e l.
Proof.
  intros A e f l H. induction l as [|x [|y r] IH]; [reflexivity|reflexivity|].
  cbn in IH |- *. rewrite H, IH. reflexivity.
Qed.
Lemma NoDup_map_inj : forall A B (f : A -> B) l, (forall x y, In x l -> In y l -> f x = f y -> x = y) -> NoDup l -> NoDup (map f l).
Proof.
  intros A B f l. induction l as [|x l IH]; intros Hf N; cbn; [constructor|].
  inversion N; subst. constructor.
  - intros I. apply in_map_iff in I. destruct I as (y & E & I). apply Hf in E; [|right; exact I|left; reflexivity]. subst. contradiction.
  - apply IH; [|assumption]. intros a b Ia Ib. apply Hf; right; assumption.
Qed.
Lemma NoDup_app' : forall A (l1 l2 : list A), NoDup l1 -> NoDup l2 -> (forall x, In x l1 -> In x l2 -> False) -> NoDup (l1 ++ l2).
Proof.
  intros A l1 l2 N1 N2 D. induction l1 as [|x l IH]; [exact N2|]. cbn. inversion N1; subst. constructor.
  - intros I. apply in_app_or in I. destruct I as [I|I]; [contradiction|]. apply (D x); [left; reflexivity|exact I].
  - apply IH; [assumption|]. intros y I1 I2. apply (D y); [right; exact I1|exact I2].
Qed.

(** ** Axis-aligned vectors *)
Definition unit2 (ux uy : Z) : Prop := (ux = 0 /\ (uy = 1 \/ uy = -1)) \/ (uy = 0 /\ (ux = 1 \/ ux = -1)).
Definition half (w : Z) : Z := w / 2.
Definition ehalf (w : Z) : Z := if odd_step (w / 2) w then w / 2 + 1 else w / 2.
Ltac div2 := Z.div_mod_to_equations.
Lemma ehalf_facts : forall w, 2 <= w -> 1 <= ehalf w < w /\ (w = 2 /\ ehalf w = 1 \/ 3 <= w /\ ehalf w mod 2 = 0) /\ w <= 2 * ehalf w + 1 /\ 2 * ehalf w <= w + 2.
Proof.
  intros w H. unfold ehalf, odd_step. pose proof (Z.rem_mod_nonneg (w / 2) 2 ltac:(div2; lia) ltac:(lia)) as R. rewrite R.
  destruct (negb ((w / 2) mod 2 =? 0)) eqn:E1; destruct (2 <? w) eqn:E2; cbn [andb];
    rewrite ?negb_true_iff, ?negb_false_iff, ?Z.eqb_eq, ?Z.eqb_neq, ?Z.ltb_lt, ?Z.ltb_ge in *; div2; lia.
Qed.
Lemma sgn_mul : forall w u, 0 < w -> u = 0 \/ u = 1 \/ u = -1 -> sgn (w * u) = u.
Proof.
  intros w u H [-> |[-> | ->]]; unfold sgn.
  - rewrite Z.mul_0_r. reflexivity.
  - rewrite Z.mul_1_r. replace (w <? 0) with false by (symmetry; apply Z.ltb_ge; lia). replace (0 <? w) with true by (symmetry; apply Z.ltb_lt; lia). reflexivity.
  - replace (w * -1) with (- w) by lia. replace (- w <? 0) with true by (symmetry; apply Z.ltb_lt; lia). reflexivity.
Qed.
Lemma quot_mul : forall w u, 0 <= w -> u = 0 \/ u = 1 \/ u = -1 -> Z.quot (w * u) 2 = w / 2 * u.
Proof.
  intros w u H [-> |[-> | ->]].
  - rewrite !Z.mul_0_r. reflexivity.
  - rewrite !Z.mul_1_r. apply Z.quot_div_nonneg; lia.
  - replace (w * -1) with (- w) by lia. rewrite Z.quot_opp_l by lia. rewrite Z.quot_div_nonneg by lia. lia.
Qed.
Lemma iabs_mul2 : forall w ux uy, 0 <= w -> unit2 ux uy -> iabs (w * ux + w * uy) = w.
Proof.
  intros w ux uy H U. unfold iabs. destruct (w * ux + w * uy <? 0) eqn:E; rewrite ?Z.ltb_lt, ?Z.ltb_ge in E;
    destruct U as [[-> [-> | ->]]|[-> [-> | ->]]]; lia.
Qed.
Lemma unit2_neg : forall ux uy, unit2 ux uy -> unit2 (- ux) (- uy).
Proof. intros ux uy U. unfold unit2 in *. lia. Qed.
Lemma unit2_l : forall ux uy, unit2 ux uy -> ux = 0 \/ ux = 1 \/ ux = -1.
Proof. unfold unit2. lia. Qed.
Lemma unit2_r : forall ux uy, unit2 ux uy -> uy = 0 \/ uy = 1 \/ uy = -1.
Proof. unfold unit2. lia. Qed.

(** ** Two dimensions *)
(** the cell with local coordinates (i,j) *)
Definition aff2 (x y ux uy vx vy : Z) (c : Z * Z) : Z * Z :=
  (x + fst c * ux + snd c * vx, y + fst c * uy + snd c * vy).
Lemma run2_row : forall n x y ux uy vx vy k,
  run2 n (x + k * ux) (y + k * uy) ux uy = map (aff2 x y ux uy vx vy) (map (fun i => (k + Z.of_nat i, 0)) (seq 0 n)).
Proof.
  induction n as [|n IH]; intros x y ux uy vx vy k; [reflexivity|].
  cbn [run2 seq map]. f_equal.
  - unfold aff2. cbn [fst snd]. f_equal; lia.
  - replace (x + k * ux + ux) with (x + (k + 1) * ux) by lia. replace (y + k * uy + uy) with (y + (k + 1) * uy) by lia.
    rewrite (IH x y ux uy vx vy). f_equal. rewrite <- seq_shift, map_map. apply map_ext. intros i. f_equal. lia.
Qed.
Definition row (n : Z) : list (Z * Z) := map (fun i => (Z.of_nat i, 0)) (seq 0 (Z.to_nat n)).
Definition flip (c : Z * Z) : Z * Z := (snd c, fst c).

Record good2 (w h : Z) (l : list (Z * Z)) : Prop := {
  g_nodup : NoDup l;
  g_in : forall c, In c l <-> 0 <= fst c < w /\ 0 <= snd c < h;
  g_start : starts l (0, 0);
  g_touch : consecutive touch2 l;
  g_end : 2 <= w \/ h = 1 ->
    (if (w mod 2 =? 1) && (h mod 2 =? 0) then
       (breaks edge2 l = 1%nat /\ ends l (w - 1, 0)) \/ (breaks edge2 l = 0%nat /\ ends l (w - 2, 0))
     else breaks edge2 l = 0%nat /\ ends l (w - 1, 0));
  g_thin : w = 1 -> h = 2 -> breaks edge2 l = 0%nat /\ ends l (0, 1)
}.
Lemma row_facts : forall n, 1 <= n -> NoDup (row n) /\ (forall c, In c (row n) <-> 0 <= fst c < n /\ snd c = 0) /\
  starts (row n) (0, 0) /\ ends (row n) (n - 1, 0) /\ consecutive touch2 (row n) /\ breaks edge2 (row n) = 0%nat.
Proof.
  intros n H. unfold row. repeat split.
  - apply NoDup_map_inj; [|apply seq_NoDup]. intros a b _ _ E. injection E. lia.
  - apply in_map_iff in H0. destruct H0 as (i & <- & I). cbn. lia.
  - apply in_map_iff in H0. destruct H0 as (i & <- & I). apply in_seq in I. cbn. lia.
  - apply in_map_iff in H0. destruct H0 as (i & <- & I). reflexivity.
  - intros [I J]. apply in_map_iff. exists (Z.to_nat (fst c)). split; [|apply in_seq; lia]. destruct c as [a b]; cbn in *. f_equal; lia.
  - destruct (Z.to_nat n) eqn:E; [lia|]. cbn. eexists. reflexivity.
  - destruct (Z.to_nat n) as [|k] eqn:E; [lia|]. rewrite seq_S, map_app. cbn [map]. eexists. f_equal. f_equal. f_equal. lia.
  - generalize 0%nat as s. induction (Z.to_nat n) as [|[|k] IH]; intros s; [exact I|exact I|].
    specialize (IH (S s)). cbn [seq map consecutive] in IH |- *. split; [|exact IH]. unfold touch2. cbn [fst snd]. lia.
  - enough (Q : forall k s, breaks edge2 (map (fun i : nat => (Z.of_nat i, 0)) (seq s k)) = 0%nat) by apply Q.
    intros k. induction k as [|[|k] IH]; intros s; [reflexivity|reflexivity|].
    specialize (IH (S s)). cbn [seq map breaks] in IH |- *. rewrite IH.
    unfold edge2. cbn [fst snd]. replace (_ =? 1) with true; [reflexivity|]. symmetry. apply Z.eqb_eq. lia.
Qed.

(** rigid motions of the local coordinates: (i,j) -> (a + s i, b + t j), or with i, j exchanged *)
Definition iso2 (f : Z * Z -> Z * Z) : Prop :=
  (forall p q, Z.abs (fst (f p) - fst (f q)) = Z.abs (fst p - fst q) /\ Z.abs (snd (f p) - snd (f q)) = Z.abs (snd p - snd q)) \/
  (forall p q, Z.abs (fst (f p) - fst (f q)) = Z.abs (snd p - snd q) /\ Z.abs (snd (f p) - snd (f q)) = Z.abs (fst p - fst q)).
Lemma iso2_touch : forall f, iso2 f -> forall p q, touch2 p q -> touch2 (f p) (f q).
Proof. intros f [H|H] p q; unfold touch2; destruct (H p q) as [-> ->]; tauto. Qed.
Lemma iso2_edge : forall f, iso2 f -> forall p q, edge2 (f p) (f q) = edge2 p q.
Proof. intros f [H|H] p q; unfold edge2; destruct (H p q) as [-> ->]; [reflexivity|]. rewrite Z.add_comm. reflexivity. Qed.
Lemma iso2_inj : forall f, iso2 f -> forall p q, f p = f q -> p = q.
Proof. intros f [H|H] [a b] [c d] E; specialize (H (a, b) (c, d)); rewrite E in H; cbn [fst snd] in H; f_equal; lia. Qed.

Definition flip_map : iso2 flip.
Proof. right. intros p q. unfold flip. cbn [fst snd]. lia. Qed.
Definition up (k : Z) (c : Z * Z) : Z * Z := (fst c, k + snd c).
Lemma up_map : forall k, iso2 (up k).
Proof. intros k. left. intros p q. unfold up. cbn [fst snd]. lia. Qed.
Definition right (k : Z) (c : Z * Z) : Z * Z := (k + fst c, snd c).
Lemma right_map : forall k, iso2 (right k).
Proof. intros k. left. intros p q. unfold right. cbn [fst snd]. lia. Qed.
Definition back (w k : Z) (c : Z * Z) : Z * Z := (w - 1 - snd c, k - 1 - fst c).
Lemma back_map : forall w k, iso2 (back w k).
Proof. intros w k. right. intros p q. unfold back. cbn [fst snd]. lia. Qed.

Lemma in_map2 : forall f l w h, iso2 f -> (forall c, In c l <-> 0 <= fst c < w /\ 0 <= snd c < h) ->
  forall g, (forall c, f (g c) = c) -> (forall c, g (f c) = c) -> forall c, In c (map f l) <-> 0 <= fst (g c) < w /\ 0 <= snd (g c) < h.
Proof.
  intros f l w h F H g G1 G2 c. rewrite in_map_iff. split.
  - intros (x & <- & I). rewrite G2. apply H. exact I.
  - intros I. exists (g c). split; [apply G1|apply H; exact I].
Qed.
Lemma in_flip : forall l w h, (forall c, In c l <-> 0 <= fst c < w /\ 0 <= snd c < h) -> forall c, In c (map flip l) <-> 0 <= fst c < h /\ 0 <= snd c < w.
Proof.
  intros l w h H c. rewrite (in_map2 flip l w h flip_map H flip); [|intros [a b]; reflexivity|intros [a b]; reflexivity].
  unfold flip. cbn [fst snd]. tauto.
Qed.
Lemma in_up : forall k l w h, (forall c, In c l <-> 0 <= fst c < w /\ 0 <= snd c < h) -> forall c, In c (map (up k) l) <-> 0 <= fst c < w /\ k <= snd c < k + h.
Proof.
  intros k l w h H c. rewrite (in_map2 (up k) l w h (up_map k) H (up (- k))); [| |]; unfold up; try (intros [a b]; cbn [fst snd]; f_equal; lia).
  cbn [fst snd]. lia.
Qed.
Lemma in_right : forall k l w h, (forall c, In c l <-> 0 <= fst c < w /\ 0 <= snd c < h) -> forall c, In c (map (right k) l) <-> k <= fst c < k + w /\ 0 <= snd c < h.
Proof.
  intros k l w h H c. rewrite (in_map2 (right k) l w h (right_map k) H (right (- k))); [| |]; unfold right; try (intros [a b]; cbn [fst snd]; f_equal; lia).
  cbn [fst snd]. lia.
Qed.
Lemma in_back : forall W k l w h, (forall c, In c l <-> 0 <= fst c < w /\ 0 <= snd c < h) ->
  forall c, In c (map (back W k) l) <-> W - h <= fst c < W /\ k - w <= snd c < k.
Proof.
  intros W k l w h H c. rewrite (in_map2 (back W k) l w h (back_map W k) H (back k W)); [| |]; unfold back; try (intros [a b]; cbn [fst snd]; f_equal; lia).
  cbn [fst snd]. lia.
Qed.

(** the row: h = 1 *)
Lemma good_row : forall w, 1 <= w -> good2 w 1 (row w).
Proof.
  intros w H. destruct (row_facts w H) as (N & I & S & E & T & B). constructor; try assumption.
  - intros c. rewrite I. lia.
  - intros _. rewrite andb_false_r. split; assumption.
  - intros _ C. discriminate C.
Qed.
(** the column: w = 1 *)
Lemma good_col : forall h, 2 <= h -> good2 1 h (map flip (row h)).
Proof.
  intros h H. destruct (row_facts h ltac:(lia)) as (N & I & S & E & T & B). constructor.
  - apply NoDup_map_inj; [|exact N]. intros x y _ _. apply (iso2_inj flip flip_map).
  - intros c. rewrite (in_flip _ h 1); [lia|]. intros x. rewrite I. lia.
  - apply (starts_map _ _ flip _ (0, 0) S).
  - apply cons_map; [apply (iso2_touch _ flip_map)|exact T].
  - intros [C|C]; lia.
  - intros _ ->. rewrite (breaks_map _ _ _ _ (iso2_edge _ flip_map)). split; [exact B|]. apply (ends_map _ _ flip _ (1, 0) E).
Qed.

(** the long case *)
Lemma good_long : forall w h l1 l2, 2 <= h -> 3 * h < 2 * w -> good2 (ehalf w) h l1 -> good2 (w - ehalf w) h l2 ->
  good2 w h (l1 ++ map (right (ehalf w)) l2).
Proof.
  intros w h l1 l2 Hh Hw G1 G2. pose proof (ehalf_facts w ltac:(lia)) as (B1 & B2 & B3 & B4). set (k := ehalf w) in *.
  assert (Ek : k mod 2 = 0) by lia. assert (K2 : 2 <= k) by (div2; lia). assert (K3 : 2 <= w - k) by (clear B2; div2; lia).
  pose proof (g_end _ _ _ G1 (or_introl K2)) as E1. replace (k mod 2 =? 1) with false in E1 by (symmetry; apply Z.eqb_neq; lia). cbn [andb] in E1.
  assert (S2 : starts (map (right k) l2) (right k (0, 0))) by (apply starts_map; apply (g_start _ _ _ G2)).
  assert (Bk : breaks edge2 (l1 ++ map (right k) l2) = breaks edge2 l2).
  { destruct E1 as [E1 E2]. rewrite (breaks_app _ _ _ _ _ _ E2 S2). rewrite (breaks_map _ _ _ _ (iso2_edge _ (right_map k))), E1.
    unfold edge2, right. cbn [fst snd]. replace (_ =? 1) with true; [reflexivity|]. symmetry. apply Z.eqb_eq. lia. }
  assert (En : forall p, ends l2 p -> ends (l1 ++ map (right k) l2) (right k p)) by (intros p E; apply ends_app, ends_map, E).
  constructor.
  - apply NoDup_app'; [apply (g_nodup _ _ _ G1)| |].
    + apply NoDup_map_inj; [|apply (g_nodup _ _ _ G2)]. intros x y _ _. apply (iso2_inj _ (right_map k)).
    + intros c I1 I2. apply (g_in _ _ _ G1) in I1. apply (in_right k _ _ _ (g_in _ _ _ G2)) in I2. lia.
  - intros c. rewrite in_app_iff, (g_in _ _ _ G1), (in_right k _ _ _ (g_in _ _ _ G2)). lia.
  - apply starts_app, (g_start _ _ _ G1).
  - apply (cons_app _ _ _ _ (k - 1, 0) (right k (0, 0))); [apply (g_touch _ _ _ G1)| |apply E1|exact S2|unfold touch2, right; cbn [fst snd]; lia].
    apply cons_map; [apply (iso2_touch _ (right_map k))|apply (g_touch _ _ _ G2)].
  - intros _. pose proof (g_end _ _ _ G2) as E2. replace ((w - k) mod 2) with (w mod 2) in E2 by (div2; lia).
    specialize (E2 (or_introl K3)). rewrite Bk.
    destruct ((w mod 2 =? 1) && (h mod 2 =? 0)).
    + destruct E2 as [[E2 E3]|[E2 E3]]; [left|right]; (split; [exact E2|]); apply En in E3; unfold right in E3; cbn [fst snd] in E3.
      * replace (w - 1) with (k + (w - k - 1)) by lia. exact E3.
      * replace (w - 2) with (k + (w - k - 2)) by lia. exact E3.
    + destruct E2 as [E2 E3]. split; [exact E2|]. apply En in E3. unfold right in E3; cbn [fst snd] in E3. replace (w - 1) with (k + (w - k - 1)) by lia. exact E3.
  - lia.
Qed.

(** the standard case *)
Lemma good_std : forall w h l1 l2 l3, 2 <= h -> 2 <= w -> 2 * w <= 3 * h ->
  good2 (ehalf h) (w / 2) l1 -> good2 w (h - ehalf h) l2 -> good2 (ehalf h) (w - w / 2) l3 ->
  good2 w h (map flip l1 ++ map (up (ehalf h)) l2 ++ map (back w (ehalf h)) l3).
Proof.
  intros w h l1 l2 l3 Hh Hw Hl G1 G2 G3. pose proof (ehalf_facts h Hh) as (B1 & B2 & B3 & B4). set (k := ehalf h) in *.
  assert (Small : k = 1 -> h = 2 /\ w / 2 = 1 /\ (w = 2 \/ w = 3)) by (destruct B2 as [[? ?]|[? ?]]; intros; div2; lia).
  assert (K : k = 1 \/ (k mod 2 = 0 /\ 2 <= k)) by (destruct B2 as [[? ?]|[? ?]]; [left; lia|right; div2; lia]).
  assert (E1 : breaks edge2 l1 = 0%nat /\ ends l1 (k - 1, 0)).
  { pose proof (g_end _ _ _ G1) as E. destruct K as [K|[K1 K2]].
    - destruct (Small K) as (_ & W1 & _). specialize (E (or_intror W1)). rewrite W1 in E. cbn in E. rewrite andb_false_r in E. exact E.
    - specialize (E (or_introl K2)). replace (k mod 2 =? 1) with false in E by (symmetry; apply Z.eqb_neq; lia). exact E. }
  pose proof (g_end _ _ _ G2 (or_introl Hw)) as E2.
  assert (S2 : starts (map (up k) l2) (up k (0, 0))) by (apply starts_map; apply (g_start _ _ _ G2)).
  assert (S3 : starts (map (back w k) l3) (back w k (0, 0))) by (apply starts_map; apply (g_start _ _ _ G3)).
  assert (S23 : starts (map (up k) l2 ++ map (back w k) l3) (up k (0, 0))) by (apply starts_app; exact S2).
  assert (N1 : ends (map flip l1) (flip (k - 1, 0))) by (apply ends_map; apply E1).
  (* where the second part ends, and whether that costs a diagonal step *)
  assert (J : exists q, ends (map (up k) l2) q /\ touch2 q (back w k (0, 0)) /\
            Nat.add (breaks edge2 (map (up k) l2)) (if edge2 q (back w k (0, 0)) then 0%nat else 1%nat) =
             if (w mod 2 =? 1) && ((h - k) mod 2 =? 0) then 1%nat else 0%nat).
  { rewrite (breaks_map _ _ _ _ (iso2_edge _ (up_map k))).
    assert (X : forall a b, ends l2 a -> up k a = b -> ends (map (up k) l2) b) by (intros a b E <-; apply ends_map; exact E).
    destruct ((w mod 2 =? 1) && ((h - k) mod 2 =? 0)).
    - destruct E2 as [[E2 E3]|[E2 E3]].
      + exists (w - 1, k + 0). split; [apply (X _ _ E3); reflexivity|]. split; [unfold touch2, back; cbn [fst snd]; lia|].
        rewrite E2. unfold edge2, back. cbn [fst snd]. replace (_ =? 1) with true; [reflexivity|]. symmetry. apply Z.eqb_eq. lia.
      + exists (w - 2, k + 0). split; [apply (X _ _ E3); reflexivity|]. split; [unfold touch2, back; cbn [fst snd]; lia|].
        rewrite E2. unfold edge2, back. cbn [fst snd]. replace (_ =? 1) with false; [reflexivity|]. symmetry. apply Z.eqb_neq. lia.
    - destruct E2 as [E2 E3]. exists (w - 1, k + 0). split; [apply (X _ _ E3); reflexivity|]. split; [unfold touch2, back; cbn [fst snd]; lia|].
      rewrite E2. unfold edge2, back. cbn [fst snd]. replace (_ =? 1) with true; [reflexivity|]. symmetry. apply Z.eqb_eq. lia. }
  destruct J as (q & Q1 & Q2 & Q3).
  assert (Bk : breaks edge2 (map flip l1 ++ map (up k) l2 ++ map (back w k) l3) =
          Nat.add (if (w mod 2 =? 1) && ((h - k) mod 2 =? 0) then 1%nat else 0%nat) (breaks edge2 l3)).
  { rewrite (breaks_app _ _ _ _ _ _ N1 S23), (breaks_app _ _ _ _ _ _ Q1 S3).
    rewrite (breaks_map _ _ _ _ (iso2_edge _ flip_map)), (breaks_map _ _ _ l3 (iso2_edge _ (back_map w k))). rewrite (proj1 E1).
    replace (edge2 (flip (k - 1, 0)) (up k (0, 0))) with true by (symmetry; unfold edge2, flip, up; cbn [fst snd]; apply Z.eqb_eq; lia). lia. }
  assert (En : forall p b, ends l3 p -> back w k p = b -> ends (map flip l1 ++ map (up k) l2 ++ map (back w k) l3) b)
    by (intros p b E <-; apply ends_app, ends_app, ends_map, E).
  pose proof (in_flip _ _ _ (g_in _ _ _ G1)) as I1. pose proof (in_up k _ _ _ (g_in _ _ _ G2)) as I2. pose proof (in_back w k _ _ _ (g_in _ _ _ G3)) as I3.
  constructor.
  - apply NoDup_app'; [apply NoDup_map_inj; [intros x y _ _; apply (iso2_inj _ flip_map)|apply (g_nodup _ _ _ G1)]| |].
    + apply NoDup_app'; [apply NoDup_map_inj; [intros x y _ _; apply (iso2_inj _ (up_map k))|apply (g_nodup _ _ _ G2)]
                        |apply NoDup_map_inj; [intros x y _ _; apply (iso2_inj _ (back_map w k))|apply (g_nodup _ _ _ G3)]|].
      intros c C2 C3. apply I2 in C2. apply I3 in C3. lia.
    + intros c C1 C. apply I1 in C1. apply in_app_iff in C. destruct C as [C|C]; [apply I2 in C|apply I3 in C]; lia.
  - intros c. rewrite !in_app_iff, I1, I2, I3. div2. lia.
  - apply starts_app. apply (starts_map _ _ flip _ (0, 0)). apply (g_start _ _ _ G1).
  - apply (cons_app _ _ _ _ _ _ (cons_map _ _ _ _ (iso2_touch _ flip_map) (g_touch _ _ _ G1))
             (cons_app _ _ _ _ _ _ (cons_map _ _ _ _ (iso2_touch _ (up_map k)) (g_touch _ _ _ G2)) (cons_map _ _ _ _ (iso2_touch _ (back_map w k)) (g_touch _ _ _ G3)) Q1 S3 Q2) N1 S23).
    unfold touch2, flip, up. cbn [fst snd]. lia.
  - intros _. rewrite Bk. pose proof (g_end _ _ _ G3) as E3. destruct K as [K|[K1 K2]].
    + destruct (Small K) as (-> & _ & [-> | ->]).
      * rewrite K in *. cbn in E3 |- *. specialize (E3 (or_intror eq_refl)). destruct E3 as [E3 E4]. split; [exact E3|]. apply (En _ _ E4). reflexivity.
      * rewrite K in *. cbn -[breaks]. right. pose proof (g_thin _ _ _ G3 eq_refl eq_refl) as [E4 E5]. split; [exact E4|]. apply (En _ _ E5). reflexivity.
    + specialize (E3 (or_introl K2)). replace (k mod 2 =? 1) with false in E3 by (symmetry; apply Z.eqb_neq; lia). cbn [andb] in E3.
      destruct E3 as [E3 E4]. rewrite E3. replace ((h - k) mod 2) with (h mod 2) by (div2; lia).
      assert (E5 := En _ (w - 1, 0) E4 ltac:(unfold back; cbn [fst snd]; f_equal; lia)).
      destruct ((w mod 2 =? 1) && (h mod 2 =? 0)); [left|]; (split; [reflexivity|exact E5]).
  - lia.
Qed.

Lemma gen2_law : forall fuel w h x y ux uy vx vy, 1 <= w -> 1 <= h -> unit2 ux uy -> unit2 vx vy -> w + h <= Z.of_nat fuel ->
  exists l, generate2d fuel x y (w * ux) (w * uy) (h * vx) (h * vy) = Ok (map (aff2 x y ux uy vx vy) l) /\ good2 w h l.
Proof.
  induction fuel as [|f IH]; intros w h x y ux uy vx vy Hw Hh Uu Uv Hf; [lia|].
  cbn [generate2d].
  rewrite (iabs_mul2 w ux uy) by (assumption || lia). rewrite (iabs_mul2 h vx vy) by (assumption || lia).
  rewrite (sgn_mul w ux), (sgn_mul w uy), (sgn_mul h vx), (sgn_mul h vy) by (first [lia | eapply unit2_l; eassumption | eapply unit2_r; eassumption]).
  rewrite (quot_mul w ux), (quot_mul w uy), (quot_mul h vx), (quot_mul h vy) by (first [lia | eapply unit2_l; eassumption | eapply unit2_r; eassumption]).
  rewrite (iabs_mul2 (w / 2) ux uy) by (assumption || (div2; lia)). rewrite (iabs_mul2 (h / 2) vx vy) by (assumption || (div2; lia)).
  destruct (h =? 1) eqn:H1; [apply Z.eqb_eq in H1; subst h|apply Z.eqb_neq in H1].
  { exists (row w). split; [|apply good_row; exact Hw]. f_equal.
    replace x with (x + 0 * ux) at 1 by lia. replace y with (y + 0 * uy) at 1 by lia. rewrite (run2_row _ x y ux uy vx vy 0). reflexivity. }
  destruct (w =? 1) eqn:W1; [apply Z.eqb_eq in W1; subst w|apply Z.eqb_neq in W1].
  { exists (map flip (row h)). split; [|apply good_col; lia]. f_equal.
    replace x with (x + 0 * vx) at 1 by lia. replace y with (y + 0 * vy) at 1 by lia. rewrite (run2_row _ x y vx vy ux uy 0).
    unfold row. rewrite !map_map. apply map_ext. intros i. unfold aff2, flip. cbn [fst snd]. f_equal; lia. }
  destruct (3 * h <? 2 * w) eqn:L; [apply Z.ltb_lt in L|apply Z.ltb_ge in L].
  - pose proof (ehalf_facts w ltac:(lia)) as (B1 & _).
    replace (if odd_step (w / 2) w then w / 2 * ux + ux else w / 2 * ux) with (ehalf w * ux) by (unfold ehalf; destruct (odd_step (w / 2) w); lia).
    replace (if odd_step (w / 2) w then w / 2 * uy + uy else w / 2 * uy) with (ehalf w * uy) by (unfold ehalf; destruct (odd_step (w / 2) w); lia).
    replace (w * ux - ehalf w * ux) with ((w - ehalf w) * ux) by lia. replace (w * uy - ehalf w * uy) with ((w - ehalf w) * uy) by lia.
    destruct (IH (ehalf w) h x y ux uy vx vy ltac:(lia) Hh Uu Uv ltac:(lia)) as (l1 & -> & G1).
    destruct (IH (w - ehalf w) h (x + ehalf w * ux) (y + ehalf w * uy) ux uy vx vy ltac:(lia) Hh Uu Uv ltac:(lia)) as (l2 & -> & G2).
    cbn [obind]. exists (l1 ++ map (right (ehalf w)) l2). split; [|apply good_long; [lia|exact L|exact G1|exact G2]].
    f_equal. rewrite map_app, map_map. f_equal. apply map_ext. intros [i j]. unfold aff2, right. cbn [fst snd]. f_equal; ring.
  - pose proof (ehalf_facts h ltac:(lia)) as (B1 & _).
    replace (if odd_step (h / 2) h then h / 2 * vx + vx else h / 2 * vx) with (ehalf h * vx) by (unfold ehalf; destruct (odd_step (h / 2) h); lia).
    replace (if odd_step (h / 2) h then h / 2 * vy + vy else h / 2 * vy) with (ehalf h * vy) by (unfold ehalf; destruct (odd_step (h / 2) h); lia).
    replace (h * vx - ehalf h * vx) with ((h - ehalf h) * vx) by lia. replace (h * vy - ehalf h * vy) with ((h - ehalf h) * vy) by lia.
    replace (- (ehalf h * vx)) with (ehalf h * - vx) by lia. replace (- (ehalf h * vy)) with (ehalf h * - vy) by lia.
    replace (- (w * ux - w / 2 * ux)) with ((w - w / 2) * - ux) by lia. replace (- (w * uy - w / 2 * uy)) with ((w - w / 2) * - uy) by lia.
    destruct (IH (ehalf h) (w / 2) x y vx vy ux uy ltac:(lia) ltac:(div2; lia) Uv Uu ltac:(div2; lia)) as (l1 & -> & G1).
    destruct (IH w (h - ehalf h) (x + ehalf h * vx) (y + ehalf h * vy) ux uy vx vy Hw ltac:(lia) Uu Uv ltac:(lia)) as (l2 & -> & G2).
    cbn [obind].
    destruct (IH (ehalf h) (w - w / 2) (x + (w * ux - ux) + (ehalf h * vx - vx)) (y + (w * uy - uy) + (ehalf h * vy - vy)) (- vx) (- vy) (- ux) (- uy)
                ltac:(lia) ltac:(div2; lia) (unit2_neg _ _ Uv) (unit2_neg _ _ Uu) ltac:(div2; lia)) as (l3 & -> & G3).
    cbn [obind]. exists (map flip l1 ++ map (up (ehalf h)) l2 ++ map (back w (ehalf h)) l3).
    split; [|apply good_std; [lia|lia|exact L|exact G1|exact G2|exact G3]].
    f_equal. rewrite !map_app, !map_map. f_equal; [|f_equal]; apply map_ext; intros [i j]; unfold aff2, flip, up, back; cbn [fst snd]; f_equal; ring.
Qed.

(** no cells: one side is 0 and the other is not *)
Lemma gen2_empty : forall fuel w x y ux uy, 1 <= w -> unit2 ux uy -> w <= Z.of_nat fuel -> generate2d fuel x y (w * ux) (w * uy) 0 0 = Ok [].
Proof.
  induction fuel as [|f IH]; intros w x y ux uy Hw U Hf; [lia|]. cbn [generate2d].
  rewrite (iabs_mul2 w ux uy) by (assumption || lia). change (iabs (0 + 0)) with 0. change (0 =? 1) with false. cbn iota.
  destruct (w =? 1) eqn:W1; [reflexivity|apply Z.eqb_neq in W1].
  replace (3 * 0 <? 2 * w) with true by (symmetry; apply Z.ltb_lt; lia).
  rewrite (sgn_mul w ux), (sgn_mul w uy) by (first [lia | eapply unit2_l; eassumption | eapply unit2_r; eassumption]).
  rewrite (quot_mul w ux), (quot_mul w uy) by (first [lia | eapply unit2_l; eassumption | eapply unit2_r; eassumption]).
  rewrite (iabs_mul2 (w / 2) ux uy) by (assumption || (div2; lia)).
  pose proof (ehalf_facts w ltac:(lia)) as (B1 & _).
  replace (if odd_step (w / 2) w then w / 2 * ux + ux else w / 2 * ux) with (ehalf w * ux) by (unfold ehalf; destruct (odd_step (w / 2) w); lia).
  replace (if odd_step (w / 2) w then w / 2 * uy + uy else w / 2 * uy) with (ehalf w * uy) by (unfold ehalf; destruct (odd_step (w / 2) w); lia).
  replace (w * ux - ehalf w * ux) with ((w - ehalf w) * ux) by lia. replace (w * uy - ehalf w * uy) with ((w - ehalf w) * uy) by lia.
  rewrite IH by (assumption || lia). cbn [obind]. rewrite IH by (assumption || lia). reflexivity.
Qed.

Theorem gilbert2d_law : forall w h, 0 <= w -> 0 <= h -> 0 < w + h ->
  exists l, (forall fuel, w + h <= Z.of_nat fuel -> gilbert2d fuel w h = Ok l) /\
    NoDup l /\ (forall i j, In (i, j) l <-> 0 <= i < w /\ 0 <= j < h) /\
    consecutive touch2 l /\ (breaks edge2 l <= 1)%nat /\
    (Z.max w h mod 2 = 0 \/ Z.min w h mod 2 = 1 -> breaks edge2 l = 0%nat).
Proof.
  intros w h Hw Hh P.
  destruct (Z.eq_dec (Z.min w h) 0) as [M|M].
  { exists []. split; [|repeat split; cbn; try constructor; try lia; try contradiction].
    intros fuel F. unfold gilbert2d. destruct (h <=? w) eqn:E; [apply Z.leb_le in E|apply Z.leb_gt in E].
    - replace h with 0 by lia. replace 0 with (w * 0) at 3 by lia. replace w with (w * 1) at 1 by lia. apply gen2_empty; unfold unit2; lia.
    - replace w with 0 by lia. replace 0 with (h * 0) at 3 by lia. replace h with (h * 1) at 2 by lia. apply gen2_empty; unfold unit2; lia. }
  (* the list does not depend on the fuel: it is read off the run with exactly w + h *)
  assert (Go : forall a b, 1 <= a -> 1 <= b -> b <= a -> forall ux uy vx vy, unit2 ux uy -> unit2 vx vy ->
     exists l, generate2d (Z.to_nat (a + b)) 0 0 (a * ux) (a * uy) (b * vx) (b * vy) = Ok (map (aff2 0 0 ux uy vx vy) l) /\ good2 a b l).
  { intros a b A B C ux uy vx vy U V. apply gen2_law; (assumption || lia). }
  assert (Mono : forall f1 x y ax ay bx by_ l, generate2d f1 x y ax ay bx by_ = Ok l -> forall f2, (f1 <= f2)%nat -> generate2d f2 x y ax ay bx by_ = Ok l).
  { clear. induction f1 as [|f1 IH]; intros x y ax ay bx by_ l H f2 L; [discriminate H|]. destruct f2 as [|f2]; [lia|].
    cbn [generate2d] in H |- *. set (w := iabs (ax + ay)) in *. set (h := iabs (bx + by_)) in *.
    destruct (h =? 1); [exact H|]. destruct (w =? 1); [exact H|].
    destruct (3 * h <? 2 * w).
    - set (c1 := generate2d f1 _ _ _ _ _ _) in H at 1. destruct c1 as [l1| | |] eqn:E1; try discriminate H. unfold c1 in E1. rewrite (IH _ _ _ _ _ _ _ E1 f2) by lia. cbn [obind] in H |- *.
      set (c2 := generate2d f1 _ _ _ _ _ _) in H at 1. destruct c2 as [l2| | |] eqn:E2; try discriminate H. unfold c2 in E2. rewrite (IH _ _ _ _ _ _ _ E2 f2) by lia. exact H.
    - set (c1 := generate2d f1 _ _ _ _ _ _) in H at 1. destruct c1 as [l1| | |] eqn:E1; try discriminate H. unfold c1 in E1. rewrite (IH _ _ _ _ _ _ _ E1 f2) by lia. cbn [obind] in H |- *.
      set (c2 := generate2d f1 _ _ _ _ _ _) in H at 1. destruct c2 as [l2| | |] eqn:E2; try discriminate H. unfold c2 in E2. rewrite (IH _ _ _ _ _ _ _ E2 f2) by lia. cbn [obind] in H |- *.
      set (c3 := generate2d f1 _ _ _ _ _ _) in H at 1. destruct c3 as [l3| | |] eqn:E3; try discriminate H. unfold c3 in E3. rewrite (IH _ _ _ _ _ _ _ E3 f2) by lia. exact H. }
  assert (B : forall a b l, good2 a b l -> 1 <= b -> b <= a -> (breaks edge2 l <= 1)%nat /\ (a mod 2 = 0 \/ b mod 2 = 1 -> breaks edge2 l = 0%nat)).
  { intros a b l G C D. pose proof (g_end _ _ _ G ltac:(lia)) as E. destruct ((a mod 2 =? 1) && (b mod 2 =? 0)) eqn:Q.
    - apply andb_prop in Q. destruct Q as [Q1 Q2]. apply Z.eqb_eq in Q1, Q2. split; lia.
    - split; lia. }
  unfold gilbert2d. destruct (h <=? w) eqn:E; [apply Z.leb_le in E|apply Z.leb_gt in E].
  - destruct (Go w h ltac:(lia) ltac:(lia) E 1 0 0 1 ltac:(unfold unit2; lia) ltac:(unfold unit2; lia)) as (l & R & G).
    destruct (B w h l G ltac:(lia) E) as [B1 B2].
    assert (Id : map (aff2 0 0 1 0 0 1) l = l) by (rewrite <- (map_id l) at 2; apply map_ext; intros [i j]; unfold aff2; cbn [fst snd]; f_equal; lia).
    rewrite Id in R. replace (w * 1) with w in R by lia. replace (h * 1) with h in R by lia. rewrite !Z.mul_0_r in R.
    exists l. split; [intros fuel F; apply (Mono _ _ _ _ _ _ _ _ R); lia|].
    split; [apply (g_nodup _ _ _ G)|]. split; [intros i j; rewrite (g_in _ _ _ G); reflexivity|]. split; [apply (g_touch _ _ _ G)|]. split; [exact B1|].
    replace (Z.max w h) with w by lia. replace (Z.min w h) with h by lia. exact B2.
  - destruct (Go h w ltac:(lia) ltac:(lia) ltac:(lia) 0 1 1 0 ltac:(unfold unit2; lia) ltac:(unfold unit2; lia)) as (l & R & G).
    destruct (B h w l G ltac:(lia) ltac:(lia)) as [B1 B2].
    assert (Id : map (aff2 0 0 0 1 1 0) l = map flip l) by (apply map_ext; intros [i j]; unfold aff2, flip; cbn [fst snd]; f_equal; lia).
    rewrite Id in R. replace (w * 1) with w in R by lia. replace (h * 1) with h in R by lia. rewrite !Z.mul_0_r in R.
    exists (map flip l). split; [intros fuel F; apply (Mono _ _ _ _ _ _ _ _ R); lia|].
    split; [apply NoDup_map_inj; [intros x y _ _; apply (iso2_inj _ flip_map)|apply (g_nodup _ _ _ G)]|].
    split; [intros i j; rewrite (in_flip _ _ _ (g_in _ _ _ G)); reflexivity|].
    split; [apply cons_map; [apply (iso2_touch _ flip_map)|apply (g_touch _ _ _ G)]|].
    rewrite (breaks_map _ _ _ _ (iso2_edge _ flip_map)). split; [exact B1|].
    replace (Z.max w h) with h by lia. replace (Z.min w h) with w by lia. exact B2.
Qed.

(** 0 x 0: the recursion never ends *)
Lemma gen2_zero : forall fuel x y, generate2d fuel x y 0 0 0 0 = Fuel.
Proof.
  induction fuel as [|f IH]; intros x y; [reflexivity|]. cbn [generate2d]. cbn. rewrite IH. reflexivity.
Qed.
