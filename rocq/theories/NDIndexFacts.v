(** Specification and facts for NDIndex. *)
From Verif Require Import Base NDIndex.
Local Open Scope Z_scope.

(** ---- specification ---- *)
Fixpoint dot (a b : list Z) : Z := match a, b with x :: a', y :: b' => x * y + dot a' b' | _, _ => 0 end.
Fixpoint vplus (a b : list Z) : list Z := match a, b with x :: a', y :: b' => (x + y) :: vplus a' b' | _, _ => [] end.
Fixpoint vprod (l : list Z) : Z := match l with [] => 1 | x :: r => x * vprod r end.
(** default strides: 1, e0, e0*e1, ... for extents e *)
Fixpoint strides (acc : Z) (ext : list Z) : list Z := match ext with [] => [] | e :: r => acc :: strides (acc * e) r end.
Definition offsets_of (x : ndi) : list Z := match nd_offset x with [] => map (fun _ => 0) (nd_shape x) | l => l end.
Definition extents (x : ndi) : list Z := vplus (nd_shape x) (offsets_of x).
Definition strides_of (x : ndi) : list Z := match nd_stride x with [] => strides 1 (extents x) | l => l end.
Definition nd_ok (x : ndi) : Prop := nd_shape x <> [] /\
  (nd_offset x = [] \/ length (nd_offset x) = length (nd_shape x)) /\
  (nd_stride x = [] \/ length (nd_stride x) = length (nd_shape x)).
(** logical index inside the shape *)
Definition in_shape (shape idx : list Z) : Prop := Forall2 (fun s i => 0 <= i < s) shape idx.
(** strides that leave room for every dimension inside the next *)
Fixpoint roomy (st ext : list Z) : Prop :=
  match st, ext with
  | s :: ((s' :: _) as st'), e :: ext' => s * e <= s' /\ roomy st' ext'
  | _, _ => True
  end.

(** ---- lists ---- *)
Lemma vplus_len a : forall b, length a = length b -> length (vplus a b) = length a.
Proof. induction a as [|x a IH]; intros [|y b] E; cbn in *; try congruence. rewrite IH by congruence. reflexivity. Qed.
Lemma nd_at_nat l i : (i < length l)%nat -> nd_at l (Z.of_nat i) = Ok (nth i l 0).
Proof. intros H. unfold nd_at, znth. replace (_ <? 0) with false by lia. rewrite Nat2Z.id, nth_error_nth' with (d := 0) by exact H. reflexivity. Qed.
Lemma offsets_len x : nd_ok x -> length (offsets_of x) = length (nd_shape x).
Proof. intros (_ & O & _). unfold offsets_of. destruct (nd_offset x); [apply map_length|]. destruct O; [discriminate|assumption]. Qed.
Lemma off_ok x i : nd_ok x -> (i < length (nd_shape x))%nat -> nd_off x (Z.of_nat i) = Ok (nth i (offsets_of x) 0).
Proof.
  intros H Hi. pose proof (offsets_len x H) as Lo. unfold nd_off, offsets_of in *. destruct (nd_offset x) as [|z l].
  - f_equal. clear. revert i. generalize (nd_shape x). induction l as [|y l IH]; intros [|i]; cbn; auto.
  - apply nd_at_nat. lia.
Qed.
Lemma nth_vplus a : forall b i, length a = length b -> (i < length a)%nat -> nth i (vplus a b) 0 = nth i a 0 + nth i b 0.
Proof. induction a as [|x a IH]; intros [|y b] i E H; cbn in *; try lia. destruct i; [reflexivity|]. apply IH; lia. Qed.
Lemma strides_len e : forall acc, length (strides acc e) = length e.
Proof. induction e as [|x e IH]; intros acc; [reflexivity|]. cbn. rewrite IH. reflexivity. Qed.
Lemma nth_strides e : forall acc i, (i < length e)%nat -> nth i (strides acc e) 0 = acc * vprod (firstn i e).
Proof.
  induction e as [|x e IH]; intros acc i H; [cbn in H; lia|]. cbn [strides length] in *. destruct i; [cbn; lia|]. cbn [nth firstn vprod]. rewrite IH by lia. ring.
Qed.
Lemma stride_loop_ok x m : nd_ok x -> (m <= length (nd_shape x))%nat -> forall j d acc k, (d + j = m)%nat -> (j <= k)%nat ->
  nd_stride_loop x (Z.of_nat m) k (Z.of_nat d) acc = Ok (acc * vprod (firstn j (skipn d (extents x)))).
Proof.
  intros H Hm. pose proof (offsets_len x H) as Lo.
  assert (Le : length (extents x) = length (nd_shape x)) by (apply vplus_len; lia).
  induction j as [|j IH]; intros d acc k E Hk.
  - cbn. destruct k as [|k]; cbn [nd_stride_loop]; [f_equal; lia|]. replace (_ && _) with false by (unfold nd_ndim; lia). f_equal. lia.
  - destruct k as [|k]; [lia|]. cbn [nd_stride_loop]. unfold nd_ndim. replace (_ && _) with true by lia.
    rewrite nd_at_nat, off_ok by (try exact H; lia). cbn [obind]. replace (Z.of_nat d + 1) with (Z.of_nat (S d)) by lia. rewrite IH by lia. f_equal.
    assert (S1 : skipn d (extents x) = nth d (extents x) 0 :: skipn (S d) (extents x)).
    { assert (D : (d < length (extents x))%nat) by lia. revert D. generalize (extents x). clear. intros l. revert d. induction l as [|y l IHl]; intros d D; [cbn in D; lia|].
      destruct d; [reflexivity|]. cbn [length nth skipn] in *. apply IHl. lia. }
    rewrite S1. cbn [firstn vprod]. unfold extents at 2. rewrite nth_vplus by lia. ring.
Qed.
Lemma str_ok x i : nd_ok x -> (i < length (nd_shape x))%nat -> nd_str x (Z.of_nat i) = Ok (nth i (strides_of x) 0).
Proof.
  intros H Hi. unfold nd_str, strides_of. pose proof (offsets_len x H) as Lo.
  assert (Le : length (extents x) = length (nd_shape x)) by (apply vplus_len; lia).
  pose proof H as (_ & _ & H3). destruct (nd_stride x) as [|z l].
  - pose proof (stride_loop_ok x i H ltac:(lia) i 0%nat 1 (length (nd_shape x)) ltac:(lia) ltac:(lia)) as Q. cbn [Z.of_nat skipn] in Q. rewrite Q.
    rewrite nth_strides by lia. reflexivity.
  - destruct H3 as [|H3]; [discriminate|]. apply nd_at_nat. lia.
Qed.
Lemma nth_skip {A} (l : list A) d0 d : (d < length l)%nat -> skipn d l = nth d l d0 :: skipn (S d) l.
Proof.
  revert d. induction l as [|y l IHl]; intros d D; [cbn in D; lia|]. destruct d; [reflexivity|]. cbn [length nth skipn] in *. apply IHl. lia.
Qed.
Lemma strides_of_len x : nd_ok x -> length (strides_of x) = length (nd_shape x).
Proof.
  intros H. pose proof (offsets_len x H) as Lo. destruct H as (_ & _ & H3). unfold strides_of. destruct (nd_stride x); [|destruct H3; [discriminate|assumption]].
  rewrite strides_len. apply vplus_len. lia.
Qed.
Lemma index_suffix x : nd_ok x -> forall idx, idx <> [] -> (length idx <= length (nd_shape x))%nat ->
  let d := (length (nd_shape x) - length idx)%nat in
  nd_index x idx = Ok (dot (vplus (skipn d (offsets_of x)) idx) (skipn d (strides_of x))).
Proof.
  intros H. pose proof (offsets_len x H) as Lo. pose proof (strides_of_len x H) as Ls.
  induction idx as [|i r IH]; intros N Hl; [congruence|]. cbn [length] in Hl.
  set (d := (length (nd_shape x) - length (i :: r))%nat). cbn zeta. cbn [nd_index].
  replace (nd_ndim x - Z.of_nat (length r) - 1) with (Z.of_nat d) by (unfold nd_ndim, d; cbn [length]; lia).
  assert (Hd : (d < length (nd_shape x))%nat) by (unfold d; cbn [length]; lia).
  rewrite off_ok, str_ok by assumption. cbn [obind].
  rewrite (nth_skip (offsets_of x) 0 d), (nth_skip (strides_of x) 0 d) by lia. cbn [vplus dot].
  destruct r as [|j r]; [destruct (skipn (S d) (offsets_of x)); cbn [vplus dot]; f_equal; lia|].
  rewrite IH by (try discriminate; lia). cbn [obind]. f_equal. f_equal.
  replace (length (nd_shape x) - length (j :: r))%nat with (S d) by (unfold d; cbn [length] in *; lia). reflexivity.
Qed.
Lemma index_law x idx : nd_ok x -> length idx = length (nd_shape x) ->
  nd_index x idx = Ok (dot (vplus (offsets_of x) idx) (strides_of x)).
Proof.
  intros H E. rewrite index_suffix; [|exact H| |lia].
  - rewrite E, Nat.sub_diag. reflexivity.
  - intros ->. destruct H as [H _]. apply H. destruct (nd_shape x); [reflexivity|discriminate].
Qed.

(** ---- mixed radix ---- *)
Lemma div_same s a a' v v' : 0 <= a < s -> 0 <= a' < s -> a + v * s = a' + v' * s -> a = a' /\ v = v'.
Proof. intros H H' E. assert (v = v') by nia. subst. split; [lia|reflexivity]. Qed.
Lemma roomy_inj : forall ext st a a' c c', length st = length ext -> Forall (fun s => 0 < s) st -> roomy st ext ->
  0 <= a < hd (a + a' + 1) st -> 0 <= a' < hd (a + a' + 1) st ->
  Forall2 (fun e v => 0 <= v < e) ext c -> Forall2 (fun e v => 0 <= v < e) ext c' ->
  a + dot c st = a' + dot c' st -> a = a' /\ c = c'.
Proof.
  induction ext as [|e ext IH]; intros st a a' c c' Ls Fs R Ha Ha' F F' E.
  - destruct st; [|discriminate]. inversion F; inversion F'; subst. cbn in *. split; [lia|reflexivity].
  - destruct st as [|s st]; [discriminate|]. inversion F as [|? v ? cr Hv Fr]; subst. inversion F' as [|? v' ? cr' Hv' Fr']; subst. inversion Fs as [|? ? Hs Fs']; subst.
    cbn [hd] in Ha, Ha'. cbn [dot] in E.
    destruct (IH st (a + v * s) (a' + v' * s) cr cr') as [E1 E2]; try assumption.
    + cbn in Ls. lia.
    + destruct st as [|s' st]; destruct ext; try discriminate; [exact I|]. cbn [roomy] in R. apply R.
    + destruct st as [|s' st]; cbn [hd]; [nia|]. destruct ext as [|e' ext]; [discriminate|]. cbn [roomy] in R. nia.
    + destruct st as [|s' st]; cbn [hd]; [nia|]. destruct ext as [|e' ext]; [discriminate|]. cbn [roomy] in R. nia.
    + lia.
    + destruct (div_same s a a' v v' Ha Ha' E1) as [-> ->]. subst. auto.
Qed.
Lemma roomy_bound : forall ext st a c, ext <> [] -> length st = length ext -> Forall (fun s => 0 < s) st -> roomy st ext ->
  0 <= a < hd 0 st -> Forall2 (fun e v => 0 <= v < e) ext c ->
  0 <= a + dot c st < last st 0 * last ext 0.
Proof.
  induction ext as [|e ext IH]; intros st a c N Ls Fs R Ha F; [congruence|].
  destruct st as [|s st]; [discriminate|]. inversion F as [|? v ? cr Hv Fr]; subst. inversion Fs as [|? ? Hs Fs']; subst. cbn [hd] in Ha. cbn [dot].
  destruct st as [|s' st]; destruct ext as [|e' ext]; try discriminate.
  - inversion Fr; subst. cbn. nia.
  - cbn [roomy] in R. destruct R as [R1 R2].
    change (last (s :: s' :: st) 0) with (last (s' :: st) 0). change (last (e :: e' :: ext) 0) with (last (e' :: ext) 0).
    specialize (IH (s' :: st) (a + v * s) cr ltac:(discriminate) ltac:(cbn in *; lia) Fs' R2). rewrite Z.add_assoc. apply IH; [cbn [hd]; nia|exact Fr].
Qed.
Lemma strides_pos : forall ext acc, 0 < acc -> Forall (fun e => 0 < e) ext -> Forall (fun s => 0 < s) (strides acc ext).
Proof. induction ext as [|e ext IH]; intros acc Ha F; cbn [strides]; [constructor|]. inversion F; subst. constructor; [exact Ha|]. apply IH; [nia|assumption]. Qed.
Lemma strides_roomy : forall ext acc, roomy (strides acc ext) ext.
Proof. induction ext as [|e ext IH]; intros acc; [exact I|]. destruct ext as [|e' ext]; [exact I|]. change (acc * e <= acc * e /\ roomy (strides (acc * e) (e' :: ext)) (e' :: ext)). split; [lia|apply IH]. Qed.
Lemma strides_last : forall ext acc, ext <> [] -> last (strides acc ext) 0 * last ext 0 = acc * vprod ext.
Proof.
  induction ext as [|e ext IH]; intros acc N; [congruence|]. destruct ext as [|e' ext]; [cbn; lia|].
  change (last (strides acc (e :: e' :: ext)) 0) with (last (strides (acc * e) (e' :: ext)) 0). change (last (e :: e' :: ext) 0) with (last (e' :: ext) 0).
  rewrite IH by discriminate. cbn [vprod]. ring.
Qed.
(** offset plus an index inside the shape lies inside the extent *)
Lemma shifted_in : forall shape off idx, length off = length shape -> Forall (fun o => 0 <= o) off -> in_shape shape idx ->
  Forall2 (fun e v => 0 <= v < e) (vplus shape off) (vplus off idx).
Proof.
  induction shape as [|s shape IH]; intros off idx E F H; inversion H; subst; [destruct off; constructor|]. destruct off as [|o off]; [discriminate|]. inversion F; subst.
  cbn [vplus]. constructor; [lia|]. apply IH; [cbn in E; lia|assumption|assumption].
Qed.
Lemma vplus_inj : forall off a b, length off = length a -> length off = length b -> vplus off a = vplus off b -> a = b.
Proof.
  induction off as [|o off IH]; intros [|x a] [|y b] Ea Eb H; try discriminate; [reflexivity|]. cbn [vplus] in H. injection H as H1 H2. f_equal; [lia|]. apply IH; cbn in *; try lia. exact H2.
Qed.
Lemma in_shape_len shape idx : in_shape shape idx -> length idx = length shape.
Proof. induction 1; cbn; [reflexivity|]. congruence. Qed.
Lemma extents_pos x idx : nd_ok x -> Forall (fun o => 0 <= o) (nd_offset x) -> in_shape (nd_shape x) idx -> Forall (fun e => 0 < e) (extents x).
Proof.
  intros H F I. assert (FO : Forall (fun o => 0 <= o) (offsets_of x)).
  { unfold offsets_of. destruct (nd_offset x); [|exact F]. apply Forall_forall. intros z Hz. apply in_map_iff in Hz. destruct Hz as (? & <- & _). lia. }
  pose proof (shifted_in _ _ _ (offsets_len x H) FO I) as Q. fold (extents x) in Q. revert Q. generalize (vplus (offsets_of x) idx). generalize (extents x).
  induction 1; constructor; [lia|assumption].
Qed.
Lemma nd_injective x i j p : nd_ok x -> Forall (fun o => 0 <= o) (nd_offset x) ->
  Forall (fun s => 0 < s) (strides_of x) -> roomy (strides_of x) (extents x) ->
  in_shape (nd_shape x) i -> in_shape (nd_shape x) j -> nd_index x i = Ok p -> nd_index x j = Ok p -> i = j.
Proof.
  intros H F Fs R Hi Hj Ei Ej. pose proof (offsets_len x H) as Lo. pose proof (strides_of_len x H) as Ls.
  assert (Le : length (extents x) = length (nd_shape x)) by (apply vplus_len; lia).
  assert (FO : Forall (fun o => 0 <= o) (offsets_of x)).
  { unfold offsets_of. destruct (nd_offset x); [|exact F]. apply Forall_forall. intros z Hz. apply in_map_iff in Hz. destruct Hz as (? & <- & _). lia. }
  rewrite index_law in Ei, Ej by (try exact H; apply in_shape_len; assumption). injection Ei as Ei. injection Ej as Ej.
  pose proof (in_shape_len _ _ Hi) as Li. pose proof (in_shape_len _ _ Hj) as Lj.
  apply (vplus_inj (offsets_of x)); [lia|lia|].
  assert (HD : 0 < hd 1 (strides_of x)) by (destruct (strides_of x); cbn [hd]; [lia|inversion Fs; assumption]).
  apply (roomy_inj (extents x) (strides_of x) 0 0); try assumption; try lia; try (apply shifted_in; assumption).
  - change (0 + 0 + 1) with 1. lia.
  - change (0 + 0 + 1) with 1. lia.
Qed.
Lemma nd_default x i : nd_ok x -> nd_stride x = [] -> Forall (fun o => 0 <= o) (nd_offset x) -> in_shape (nd_shape x) i ->
  Forall (fun s => 0 < s) (strides_of x) /\ roomy (strides_of x) (extents x) /\
  exists p, nd_index x i = Ok p /\ 0 <= p < vprod (extents x).
Proof.
  intros H S0 F Hi. pose proof (offsets_len x H) as Lo. pose proof (extents_pos x i H F Hi) as EP. unfold strides_of. rewrite S0.
  assert (SP : Forall (fun s => 0 < s) (strides 1 (extents x))) by (apply strides_pos; [lia|exact EP]).
  split; [exact SP|]. split; [apply strides_roomy|].
  pose proof (in_shape_len _ _ Hi) as Li. eexists. split; [apply index_law; [exact H|exact Li]|].
  unfold strides_of. rewrite S0.
  assert (Le : length (extents x) = length (nd_shape x)) by (apply vplus_len; lia).
  assert (N : extents x <> []). { intros E. rewrite E in Le. destruct H as [H _]. destruct (nd_shape x); [congruence|discriminate]. }
  assert (FO : Forall (fun o => 0 <= o) (offsets_of x)).
  { unfold offsets_of. destruct (nd_offset x); [|exact F]. apply Forall_forall. intros z Hz. apply in_map_iff in Hz. destruct Hz as (? & <- & _). lia. }
  pose proof (roomy_bound (extents x) (strides 1 (extents x)) 0 (vplus (offsets_of x) i) N (strides_len _ _) SP (strides_roomy _ _)) as B.
  rewrite strides_last in B by exact N. rewrite Z.mul_1_l, Z.add_0_l in B. apply B.
  - destruct (extents x); [congruence|]. cbn [strides hd]. lia.
  - apply shifted_in; assumption.
Qed.
(** without offsets every flat position is reached *)
Lemma radix_onto : forall ext acc, 0 < acc -> Forall (fun e => 0 < e) ext -> forall p, 0 <= p < vprod ext ->
  exists c, in_shape ext c /\ dot c (strides acc ext) = acc * p.
Proof.
  induction ext as [|e ext IH]; intros acc Ha F p Hp.
  - exists []. split; [constructor|]. cbn in *. lia.
  - inversion F; subst. cbn [vprod] in Hp. destruct (IH (acc * e) ltac:(nia) H2 (p / e)) as (c & I & D).
    { split; [apply Z.div_pos; lia|]. apply Z.div_lt_upper_bound; lia. }
    exists (p mod e :: c). split; [constructor; [apply Z.mod_pos_bound; lia|exact I]|]. cbn [strides dot]. rewrite D. pose proof (Z.div_mod p e ltac:(lia)). nia.
Qed.
Lemma nd_onto x p : nd_ok x -> nd_stride x = [] -> nd_offset x = [] -> Forall (fun s => 0 < s) (nd_shape x) -> 0 <= p < vprod (nd_shape x) ->
  exists i, in_shape (nd_shape x) i /\ nd_index x i = Ok p.
Proof.
  intros H S0 O0 F Hp. destruct (radix_onto (nd_shape x) 1 ltac:(lia) F p Hp) as (c & I & D). exists c. split; [exact I|].
  rewrite index_law by (try exact H; apply in_shape_len; exact I). f_equal. unfold strides_of, extents, offsets_of. rewrite S0, O0.
  assert (V0 : forall l : list Z, vplus l (map (fun _ => 0) l) = l) by (induction l as [|y l IH]; cbn; [reflexivity|]; rewrite IH; f_equal; lia).
  assert (V1 : forall l c : list Z, length c = length l -> vplus (map (fun _ => 0) l) c = c).
  { induction l as [|y l IH]; intros [|z c'] E; try discriminate; [reflexivity|]. cbn. rewrite IH by (cbn in E; lia). f_equal. }
  rewrite V0, V1 by (apply in_shape_len; exact I). lia.
Qed.
