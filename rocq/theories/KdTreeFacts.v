(** Specification of point lookup and facts about the model. *)
From Coq Require Import Permutation Sorted QArith Floats.SpecFloat.
From Verif Require Import Base DType SpecTree Mem Node Number NodeFacts ArrayOps ArrayOpsFacts O2M O2MFacts MatSetFacts MeshConv MeshConvFacts KdTree.
Local Open Scope Z_scope.
Import ListNotations.

(** ---- specification ---- *)
(** what std::sort promises: for a strict weak order, a rearrangement in ascending order *)
Definition weak_order (f : Z -> Z -> bool) (l : list Z) : Prop :=
  (forall a, In a l -> f a a = false) /\ (forall a b c, In a l -> In b l -> In c l -> f a b = true -> f b c = true -> f a c = true) /\
  (forall a b c, In a l -> In b l -> In c l -> f a b = true -> f a c = true \/ f c b = true).
Definition sorts (sort : (Z -> Z -> bool) -> list Z -> list Z) : Prop :=
  forall f l, weak_order f l -> Permutation l (sort f l) /\ StronglySorted (fun i j => f j i = false) (sort f l).
(** coordinates of point j *)
Definition point {F} (coords : list (list F)) (j : Z) : list (option F) := map (fun c => znth c j) coords.
(** the box that is searched holds the point *)
Definition inside {F} (ar : arith F) (coords : list (list F)) (len : nat) : Prop :=
  forall j pt, 0 <= j < Z.of_nat len -> point coords j = map Some pt -> in_box ar pt (extents ar coords len) = true.
(** every box that can come from cutting [b] that often *)
Fixpoint cuts {F} (ar : arith F) (depth : nat) (b : box (F := F)) : list (box (F := F)) :=
  b :: match depth with O => [] | S d => cuts ar d (cut_lo ar b (longest ar b)) ++ cuts ar d (cut_hi ar b (longest ar b)) end.

(** ---- descendants in a heap ---- *)
Local Open Scope nat_scope.
Definition desc (a q : nat) : Prop := exists d, (q + 1) / 2 ^ d = a + 1.
Lemma desc_self a : desc a a.
Proof. exists 0. cbn. apply Nat.div_1_r. Qed.
Lemma desc_child a q c : c = 2 * a + 1 \/ c = 2 * a + 2 -> desc c q -> desc a q.
Proof.
  intros Hc (d & E). exists (d + 1). rewrite Nat.pow_add_r, <- Nat.div_div by (try apply Nat.pow_nonzero; lia). rewrite E. change (2 ^ 1) with 2. destruct Hc as [->| ->].
  - replace (2 * a + 1 + 1) with ((a + 1) * 2) by lia. apply Nat.div_mul. lia.
  - replace (2 * a + 2 + 1) with (1 + (a + 1) * 2) by lia. rewrite Nat.div_add by lia. reflexivity.
Qed.
Lemma desc_up a c q : desc a q -> desc c q -> a < c -> desc a c.
Proof.
  intros (d & E) (e & G) H. assert (D : e < d). { destruct (Nat.lt_ge_cases e d) as [|C]; [assumption|]. exfalso. assert (X : (q + 1) / 2 ^ e <= (q + 1) / 2 ^ d) by (apply Nat.div_le_compat_l; split; [pose proof (Nat.pow_nonzero 2 d); lia|apply Nat.pow_le_mono_r; lia]). rewrite E, G in X. lia. }
  exists (d - e). rewrite <- G, Nat.div_div by (apply Nat.pow_nonzero; lia). rewrite <- Nat.pow_add_r. replace (e + (d - e)) with d by lia. exact E.
Qed.
Lemma desc_ge a q : desc a q -> a <= q.
Proof. intros (d & E). pose proof (Nat.div_le_upper_bound (q + 1) (2 ^ d) (q + 1)) as H. pose proof (Nat.pow_nonzero 2 d). assert ((q + 1) / 2 ^ d <= q + 1) by (apply H; [lia|]; nia). lia. Qed.
Lemma desc_disjoint a q : desc (2 * a + 1) q -> desc (2 * a + 2) q -> False.
Proof.
  intros H1 H2. pose proof (desc_up _ _ _ H1 H2 ltac:(lia)) as (d & E). destruct d as [|d]; [cbn [Nat.pow] in E; rewrite Nat.div_1_r in E; lia|].
  assert (X : (2 * a + 2 + 1) / 2 ^ S d <= (2 * a + 2 + 1) / 2) by (apply Nat.div_le_compat_l; split; [lia|]; rewrite Nat.pow_succ_r'; pose proof (Nat.pow_nonzero 2 d); nia).
  rewrite E in X. assert (Y : (2 * a + 2 + 1) / 2 = a + 1) by (replace (2 * a + 2 + 1) with (1 + (a + 1) * 2) by lia; rewrite Nat.div_add by lia; reflexivity). rewrite Y in X. lia.
Qed.
Lemma desc_above a c : c = 2 * a + 1 \/ c = 2 * a + 2 -> ~ desc c a.
Proof. intros H D. apply desc_ge in D. lia. Qed.
Local Close Scope nat_scope.

Section Kd.
Context {F : Type}.
Variable ar : arith F.
Variable num : F -> Prop.
Record ordered : Prop := {
  o_irr : forall a, num a -> lt ar a a = false;
  o_trans : forall a b c, num a -> num b -> num c -> lt ar a b = true -> lt ar b c = true -> lt ar a c = true;
  o_co : forall a b c, num a -> num c -> lt ar a b = true -> lt ar a c = true \/ lt ar c b = true;
  o_le : forall a b, num a -> num b -> le ar a b = negb (lt ar b a) }.
Hypothesis O : ordered.
Variable sort : (Z -> Z -> bool) -> list Z -> list Z.
Hypothesis St : sorts sort.
Variable coords : list (list F).
Notation V := (val ar coords).
Definition nums (l : list Z) : Prop := forall j d, In j l -> (d < length coords)%nat -> num (V d j).

Lemma below_split d m l : (forall j, In j l -> num (V d j)) -> StronglySorted (fun i j => lt ar (V d j) (V d i) = false) l ->
  exists la lb, l = la ++ lb /\ below ar coords d m l = length la /\ Forall (fun j => lt ar (V d j) m = true) la /\ Forall (fun j => lt ar (V d j) m = false) lb.
Proof.
  induction l as [|i l IH]; intros N S; [exists [], []; repeat split; constructor|]. inversion_clear S. cbn [below]. destruct (lt ar (V d i) m) eqn:E.
  - destruct IH as (la & lb & -> & B & A1 & A2); [intros j I; apply N; right; exact I|assumption|]. exists (i :: la), lb. rewrite B. repeat split; try assumption. constructor; assumption.
  - exists [], (i :: l). repeat split; [constructor|]. constructor; [exact E|]. apply Forall_forall. intros j I. destruct (lt ar (V d j) m) eqn:Ej; [|reflexivity]. exfalso.
    destruct (o_co O (V d j) m (V d i) (N j (or_intror I)) (N i (or_introl eq_refl)) Ej) as [Q|Q]; [|congruence]. rewrite Forall_forall in H0. specialize (H0 j I). cbn beta in H0. congruence.
Qed.
Lemma slice_mid {A} (pre l post : list A) : slice (pre ++ l ++ post) (length pre) (length l) = l.
Proof. unfold slice. rewrite skipn_app, skipn_all, Nat.sub_diag. cbn [app skipn]. rewrite firstn_app, Nat.sub_diag, firstn_all. cbn. apply app_nil_r. Qed.
Lemma sort_range_ok d pre l post : (d < length coords)%nat -> nums l ->
  exists l', sort_range ar sort coords d (length pre) (length l) (pre ++ l ++ post) = Ok (pre ++ l' ++ post) /\ Permutation l l' /\ StronglySorted (fun i j => lt ar (V d j) (V d i) = false) l'.
Proof.
  intros D N. unfold sort_range. replace (length (pre ++ l ++ post) <? length pre + length l)%nat with false by (symmetry; apply Nat.ltb_ge; rewrite !app_length; lia).
  destruct (Nat.ltb_spec 1 (length l)) as [C|C].
  - set (f := fun i j : Z => lt ar (V d i) (V d j)). assert (W : weak_order f l).
    { unfold f. split; [|split]; [intros a I; apply (o_irr O), N; assumption|intros a b c Ia Ib Ic; apply (o_trans O); apply N; assumption|intros a b c Ia Ib Ic; apply (o_co O); apply N; assumption]. }
    destruct (St f l W) as [P S]. exists (sort f l). rewrite slice_mid. rewrite firstn_app, Nat.sub_diag, firstn_all. cbn [firstn]. rewrite app_nil_r.
    rewrite app_assoc at 1. rewrite app_assoc. rewrite skipn_app, app_length. rewrite (skipn_all2 (pre ++ l)) by (rewrite app_length; lia). replace (length pre + length l - (length pre + length l))%nat with 0%nat by lia. cbn [app skipn]. rewrite <- app_assoc. auto.
  - exists l. split; [reflexivity|]. split; [reflexivity|]. destruct l as [|x [|y l]]; cbn [length] in C; [constructor|repeat constructor|lia].
Qed.

(** what the boxes below [bp] say about the stretch [l] of the index that starts at [o] *)
Fixpoint holds (rem bp o : nat) (l : list Z) (b : box (F := F)) (infos : list info) : Prop :=
  exists i, nth_error infos bp = Some i /\ (l = [] -> child i = None) /\
    (l <> [] -> off i = o /\ size i = length l /\ dim i = longest ar b /\
      match rem with
      | Datatypes.O => child i = None
      | S r => child i = Some (2 * bp + 1)%nat /\ exists la lb, l = la ++ lb /\
          Forall (fun j => lt ar (V (longest ar b) j) (mid ar b (longest ar b)) = true) la /\ Forall (fun j => lt ar (V (longest ar b) j) (mid ar b (longest ar b)) = false) lb /\
          holds r (2 * bp + 1)%nat o la (cut_lo ar b (longest ar b)) infos /\ holds r (2 * bp + 2)%nat (o + length la)%nat lb (cut_hi ar b (longest ar b)) infos
      end).
Lemma holds_ext rem : forall bp o l b infos infos', (forall q, desc bp q -> nth_error infos' q = nth_error infos q) -> holds rem bp o l b infos -> holds rem bp o l b infos'.
Proof.
  induction rem as [|r IH]; intros bp o l b infos infos' X (i & E & H1 & H2); exists i; rewrite (X bp (desc_self bp)); (split; [exact E|]); (split; [exact H1|]); [exact H2|].
  intros N. destruct (H2 N) as (A & B & C & D & la & lb & El & Fa & Fb & Ha & Hb). repeat (split; [assumption|]). exists la, lb. repeat (split; [assumption|]).
  split; [revert Ha|revert Hb]; apply IH; intros q Q; apply X; eapply desc_child; try exact Q; lia.
Qed.
Lemma fold_bound (f : nat -> nat -> nat) n : (forall rv i, (rv < n)%nat -> (i < n)%nat -> (f rv i < n)%nat) -> forall l a, (a < n)%nat -> Forall (fun i => (i < n)%nat) l -> (fold_left f l a < n)%nat.
Proof. intros Hf. induction l as [|x l IH]; intros a A H; [exact A|]. inversion_clear H. cbn [fold_left]. apply IH; auto. Qed.
Lemma longest_lt (b : box (F := F)) : (0 < length b)%nat -> (longest ar b < length b)%nat.
Proof.
  intros H. unfold longest. apply fold_bound; [|exact H|].
  - intros rv i A B. destruct (lt ar _ _); assumption.
  - apply Forall_forall. intros i I. apply in_seq in I. lia.
Qed.

Lemma build_ok rem : forall bp o l (b : box (F := F)) infos pre post,
  length pre = o -> length b = length coords -> (0 < length coords)%nat -> nums l ->
  ((bp + 2) * 2 ^ rem <= length infos + 1)%nat ->
  (forall q, desc bp q -> (q < length infos)%nat -> exists i, nth_error infos q = Some i /\ child i = Some (2 * q + 1)%nat) ->
  exists l' infos', build ar sort coords rem bp o (length l) b (infos, pre ++ l ++ post) = Ok (infos', pre ++ l' ++ post) /\
    Permutation l l' /\ length infos' = length infos /\ (forall q, ~ desc bp q -> nth_error infos' q = nth_error infos q) /\ holds rem bp o l' b infos'.
Proof.
  induction rem as [|r IH]; intros bp o l b infos pre post Lp Lb Lc N Bd Fr.
  - destruct (Fr bp (desc_self bp)) as (i & Ei & Ci); [cbn [Nat.pow] in Bd; lia|]. assert (Hb : (bp < length infos)%nat) by (eapply nth_error_Some_lt; exact Ei).
    cbn [build fst snd]. rewrite Ei. cbn [deref obind]. destruct l as [|x l0].
    + cbn [length]. exists [], (set_nth infos bp {| child := None; dim := dim i; off := off i; size := size i |}). split; [reflexivity|]. split; [constructor|]. split; [apply set_nth_len|]. split.
      * intros q Q. apply set_nth_diff. intros <-. apply Q, desc_self.
      * eexists. split; [apply set_nth_same; exact Hb|]. split; [reflexivity|]. congruence.
    + set (l := x :: l0) in *. change (length l) with (S (length l0)). cbn match. change (S (length l0)) with (length l).
      pose proof (longest_lt b ltac:(lia)) as Ld. rewrite Lb in Ld. rewrite <- Lp.
      destruct (sort_range_ok (longest ar b) pre l post Ld N) as (l' & Es & P & _). rewrite Es. cbn [obind].
      exists l'. eexists. split; [reflexivity|]. split; [exact P|]. split; [apply set_nth_len|]. split.
      * intros q Q. apply set_nth_diff. intros <-. apply Q, desc_self.
      * eexists. split; [apply set_nth_same; exact Hb|]. split; [reflexivity|]. intros _. cbn [off size dim child]. repeat split. apply Permutation_length, P.
  - assert (Pw : (1 <= 2 ^ r)%nat) by (pose proof (Nat.pow_nonzero 2 r); lia). rewrite Nat.pow_succ_r' in Bd.
    destruct (Fr bp (desc_self bp)) as (i & Ei & Ci); [nia|]. assert (Hb : (bp < length infos)%nat) by (eapply nth_error_Some_lt; exact Ei).
    cbn [build fst snd]. rewrite Ei. cbn [deref obind]. destruct l as [|x l0].
    + cbn [length]. exists [], (set_nth infos bp {| child := None; dim := dim i; off := off i; size := size i |}). split; [reflexivity|]. split; [constructor|]. split; [apply set_nth_len|]. split.
      * intros q Q. apply set_nth_diff. intros <-. apply Q, desc_self.
      * eexists. split; [apply set_nth_same; exact Hb|]. split; [reflexivity|]. congruence.
    + set (l := x :: l0) in *. change (length l) with (S (length l0)). cbn match. change (S (length l0)) with (length l).
      pose proof (longest_lt b ltac:(lia)) as Ld. rewrite Lb in Ld. rewrite <- Lp.
      destruct (sort_range_ok (longest ar b) pre l post Ld N) as (l1 & Es & P & So). rewrite Es. cbn [obind].
      assert (N1 : nums l1) by (intros j d I; apply N; eapply Permutation_in; [symmetry; exact P|exact I]).
      rewrite (Permutation_length P), slice_mid.
      destruct (below_split (longest ar b) (mid ar b (longest ar b)) l1) as (la & lb & El & Bl & Fa & Fb); [intros j I; apply N1; assumption|exact So|]. rewrite Bl. cbn [child]. rewrite Ci.
      set (i' := {| child := Some (2 * bp + 1)%nat; dim := longest ar b; off := length pre; size := length l1 |}). set (infos0 := set_nth infos bp i').
      assert (L0 : length infos0 = length infos) by apply set_nth_len.
      assert (Fr0 : forall c q, (c = 2 * bp + 1 \/ c = 2 * bp + 2)%nat -> desc c q -> (q < length infos)%nat -> exists i, nth_error infos0 q = Some i /\ child i = Some (2 * q + 1)%nat).
      { intros c q Hc D Hq. unfold infos0. rewrite set_nth_diff; [apply Fr; [eapply desc_child; eassumption|exact Hq]|]. intros <-. eapply desc_above; eassumption. }
      rewrite El, <- app_assoc.
      destruct (IH (2 * bp + 1)%nat (length pre) la (cut_lo ar b (longest ar b)) infos0 pre (lb ++ post)) as (la' & infos1 & E1 & P1 & L1 & X1 & H1); [reflexivity|unfold cut_lo; rewrite set_nth_len; exact Lb|exact Lc|intros j d I; apply N1; rewrite El; apply in_or_app; left; exact I|rewrite L0; nia|intros q D Hq; rewrite L0 in Hq; apply (Fr0 (2 * bp + 1)%nat q); auto|].
      rewrite E1. cbn [obind]. pose proof (Permutation_length P1) as Lla. rewrite app_length. replace (length la + length lb - length la)%nat with (length lb) by lia.
      replace (S (2 * bp + 1))%nat with (2 * bp + 2)%nat by lia. rewrite (app_assoc pre la'). rewrite Lla.
      destruct (IH (2 * bp + 2)%nat (length pre + length la')%nat lb (cut_hi ar b (longest ar b)) infos1 (pre ++ la') post) as (lb' & infos2 & E2 & P2 & L2 & X2 & H2); [apply app_length|unfold cut_hi; rewrite set_nth_len; exact Lb|exact Lc|intros j d I; apply N1; rewrite El; apply in_or_app; right; exact I|rewrite L1, L0; nia| |].
      { intros q D Hq. rewrite L1, L0 in Hq. rewrite X1 by (intros D1; eapply desc_disjoint; eassumption). apply (Fr0 (2 * bp + 2)%nat q); auto. }
      rewrite E2. exists (la' ++ lb'), infos2. split; [rewrite <- !app_assoc; reflexivity|]. split; [rewrite P, El, P1, P2; reflexivity|]. split; [congruence|]. split.
      * intros q Q. rewrite X2 by (intros D; apply Q; eapply desc_child; [|exact D]; auto). rewrite X1 by (intros D; apply Q; eapply desc_child; [|exact D]; auto). unfold infos0. apply set_nth_diff. intros <-. apply Q, desc_self.
      * exists i'. split; [rewrite X2 by (apply desc_above; auto); rewrite X1 by (apply desc_above; auto); apply set_nth_same; exact Hb|].
        assert (Ne : la' ++ lb' <> []) by (intros Z0; apply (f_equal (@length Z)) in Z0; rewrite app_length in Z0; pose proof (Permutation_length P2); pose proof (Permutation_length P) as Lx; rewrite El, app_length in Lx; cbn [length l] in *; unfold l in Lx; cbn [length] in Lx; lia).
        split; [congruence|]. intros _. cbn [i' off size dim child]. split; [reflexivity|]. split; [rewrite El, !app_length, Lla; pose proof (Permutation_length P2); lia|]. split; [reflexivity|]. split; [reflexivity|].
        exists la', lb'. split; [reflexivity|]. split; [apply Forall_forall; intros j I; rewrite Forall_forall in Fa; apply Fa; eapply Permutation_in; [symmetry; exact P1|exact I]|].
        split; [apply Forall_forall; intros j I; rewrite Forall_forall in Fb; apply Fb; eapply Permutation_in; [symmetry; exact P2|exact I]|].
        split; [|exact H2]. eapply holds_ext; [|exact H1]. intros q D. apply X2. intros D2. eapply desc_disjoint; eassumption.
Qed.

(** ---- lookup ---- *)
Definition box_num (b : box (F := F)) : Prop := Forall (fun p => num (fst p) /\ num (snd p)) b.
Lemma in_box_nth pt (b : box (F := F)) : length pt = length b -> (in_box ar pt b = true <-> forall d x p, nth_error pt d = Some x -> nth_error b d = Some p -> le ar (fst p) x = true /\ lt ar x (snd p) = true).
Proof.
  unfold in_box. revert b. induction pt as [|x pt IH]; intros [|p b] L; cbn [combine forallb length] in *; try discriminate.
  - split; [|reflexivity]. intros _ [|d] y q E; discriminate.
  - rewrite andb_true_iff, andb_true_iff, (IH b) by lia. cbn [fst snd]. split.
    + intros [[A B] C] [|d] y q Ey Eq; cbn [nth_error] in *; [injection Ey as <-; injection Eq as <-; auto|eapply C; eassumption].
    + intros H. split; [apply (H 0%nat); reflexivity|]. intros d y q Ey Eq. exact (H (S d) y q Ey Eq).
Qed.
Definition has (infos : list info) (idx : list Z) (p : nat) (j : Z) : Prop := exists i, nth_error infos p = Some i /\ (off i + size i <= length idx)%nat /\ In j (slice idx (off i) (size i)).
Definition fits (infos : list info) (idx : list Z) (p : nat) : Prop := exists i, nth_error infos p = Some i /\ (off i + size i <= length idx)%nat.
Definition at_point (pt : list F) (j : Z) : Prop := forall d x, nth_error pt d = Some x -> V d j = x.
Lemma cut_in pt (b : box (F := F)) d x p : length pt = length b -> nth_error pt d = Some x -> nth_error b d = Some p -> Forall num pt -> num (mid ar b d) -> in_box ar pt b = true ->
  (lt ar x (mid ar b d) = true -> in_box ar pt (cut_lo ar b d) = true) /\ (lt ar x (mid ar b d) = false -> in_box ar pt (cut_lo ar b d) = false /\ in_box ar pt (cut_hi ar b d) = true).
Proof.
  intros L Ex Ep Np Nm I. assert (Db : (d < length b)%nat) by (eapply nth_error_Some_lt; exact Ep).
  assert (Ll : length pt = length (cut_lo ar b d)) by (unfold cut_lo; rewrite set_nth_len; exact L). assert (Lh : length pt = length (cut_hi ar b d)) by (unfold cut_hi; rewrite set_nth_len; exact L).
  rewrite (in_box_nth pt b L) in I. destruct (I d x p Ex Ep) as [I1 I2]. rewrite Forall_forall in Np. pose proof (Np x (nth_error_In _ _ Ex)) as Nx.
  split; [intros M|intros M; split].
  - apply (in_box_nth _ _ Ll). intros e y q Ey Eq. unfold cut_lo in Eq. destruct (Nat.eq_dec e d) as [->|Ne].
    + rewrite set_nth_same in Eq by exact Db. injection Eq as <-. assert (y = x) by congruence. subst y. rewrite (nth_error_nth _ _ _ Ep). cbn [fst snd]. auto.
    + rewrite set_nth_diff in Eq by congruence. eapply I; eassumption.
  - destruct (in_box ar pt (cut_lo ar b d)) eqn:Q; [|reflexivity]. rewrite (in_box_nth _ _ Ll) in Q. unfold cut_lo in Q. specialize (Q d x _ Ex (set_nth_same b d _ Db)). cbn [fst snd] in Q. destruct Q. congruence.
  - apply (in_box_nth _ _ Lh). intros e y q Ey Eq. unfold cut_hi in Eq. destruct (Nat.eq_dec e d) as [->|Ne].
    + rewrite set_nth_same in Eq by exact Db. injection Eq as <-. assert (y = x) by congruence. subst y. rewrite (nth_error_nth _ _ _ Ep). cbn [fst snd]. split; [|exact I2]. rewrite (o_le O) by assumption. rewrite M. reflexivity.
    + rewrite set_nth_diff in Eq by congruence. eapply I; eassumption.
Qed.
Lemma descend_ok pt (Lpt : length pt = length coords) (Npt : Forall num pt) rem : forall fuel bp prev o l (b : box (F := F)) infos pre post,
  (rem < fuel)%nat -> length pre = o -> length b = length coords -> (0 < length coords)%nat -> Forall box_num (cuts ar rem b) -> holds rem bp o l b infos -> in_box ar pt b = true -> fits infos (pre ++ l ++ post) prev ->
  exists p, descend ar fuel infos pt bp prev b = Ok p /\ fits infos (pre ++ l ++ post) p /\
    forall j, In j l -> at_point pt j -> has infos (pre ++ l ++ post) prev j -> has infos (pre ++ l ++ post) p j.
Proof.
  induction rem as [|r IH]; intros fuel bp prev o l b infos pre post Hf Lp Lb Lc Nb H I Fp; (destruct fuel as [|f]; [lia|]); cbn [descend]; destruct H as (i & Ei & He & Hn); rewrite Ei; cbn [deref obind].
  - assert (C : child i = None) by (destruct l; [apply He; reflexivity|apply Hn; discriminate]). rewrite C. exists prev. auto.
  - destruct l as [|x0 l0]; [rewrite (He eq_refl); exists prev; auto|]. set (l := x0 :: l0) in *. destruct (Hn ltac:(discriminate)) as (Ho & Hs & Hd & Hc & la & lb & El & Fa & Fb & Ha & Hb). rewrite Hc, Hd.
    set (d := longest ar b) in *. assert (Dd : (d < length b)%nat) by (apply longest_lt; lia).
    destruct (nth_error pt d) as [x|] eqn:Ex; [|apply nth_error_None in Ex; lia]. destruct (nth_error b d) as [p|] eqn:Ep; [|apply nth_error_None in Ep; lia].
    cbn [cuts] in Nb. inversion_clear Nb. rename H into Nb0, H0 into Nb1. apply Forall_app in Nb1. destruct Nb1 as [Na Nh]. fold d in Na, Nh.
    assert (Nm : num (mid ar b d)). { assert (Q : box_num (cut_lo ar b d)) by (destruct r; cbn [cuts] in Na; inversion_clear Na; assumption). unfold box_num, cut_lo in Q. rewrite Forall_forall in Q. refine (proj2 (Q (_, mid ar b d) _)). eapply nth_error_In. apply set_nth_same. exact Dd. }
    destruct (cut_in pt b d x p ltac:(lia) Ex Ep Npt Nm I) as [Cl Ch].
    assert (Hh : forall j, In j l -> has infos (pre ++ l ++ post) bp j). { intros j J. exists i. split; [exact Ei|]. rewrite Ho, Hs, <- Lp. split; [rewrite !app_length; lia|]. rewrite slice_mid. exact J. }
    assert (Fbp : fits infos (pre ++ l ++ post) bp). { exists i. split; [exact Ei|]. rewrite Ho, Hs, <- Lp. rewrite !app_length. lia. }
    destruct (lt ar x (mid ar b d)) eqn:M.
    + rewrite (Cl eq_refl). destruct (IH f (2 * bp + 1)%nat bp o la (cut_lo ar b d) infos pre (lb ++ post)) as (q & Eq & Fq & Kq); [lia|exact Lp|unfold cut_lo; rewrite set_nth_len; exact Lb|exact Lc|exact Na|exact Ha|exact (Cl eq_refl)|rewrite El, <- app_assoc in Fbp; exact Fbp|].
      rewrite El, <- app_assoc in *. exists q. split; [exact Eq|]. split; [exact Fq|]. intros j J A _. apply in_app_or in J. destruct J as [J|J]; [|exfalso; rewrite Forall_forall in Fb; specialize (Fb j J); cbn beta in Fb; rewrite (A d x Ex) in Fb; congruence]. apply Kq; [exact J|exact A|]. apply Hh. apply in_or_app. auto.
    + destruct (Ch eq_refl) as [-> Ih]. replace (S (2 * bp + 1))%nat with (2 * bp + 2)%nat by lia. destruct (IH f (2 * bp + 2)%nat bp (o + length la)%nat lb (cut_hi ar b d) infos (pre ++ la) post) as (q & Eq & Fq & Kq); [lia|rewrite app_length; lia|unfold cut_hi; rewrite set_nth_len; exact Lb|exact Lc|exact Nh|exact Hb|exact Ih|rewrite El, <- app_assoc in Fbp; rewrite <- app_assoc; exact Fbp|].
      rewrite El in *. rewrite <- !app_assoc in *. exists q. split; [exact Eq|]. split; [exact Fq|]. intros j J A _. apply in_app_or in J. destruct J as [J|J]; [exfalso; rewrite Forall_forall in Fa; specialize (Fa j J); cbn beta in Fa; rewrite (A d x Ex) in Fa; congruence|]. apply Kq; [exact J|exact A|]. apply Hh. apply in_or_app. auto.
Qed.

Lemma desc0 q : desc 0 q.
Proof.
  exists (Nat.log2 (q + 1)). pose proof (Nat.log2_spec (q + 1) ltac:(lia)) as [A B]. rewrite Nat.pow_succ_r' in B. symmetry. apply (Nat.div_unique (q + 1) (2 ^ Nat.log2 (q + 1)) 1 (q + 1 - 2 ^ Nat.log2 (q + 1))); lia.
Qed.
Lemma point_val pt len j : Forall (fun c => (len <= length c)%nat) coords -> 0 <= j < Z.of_nat len -> length pt = length coords -> (point coords j = map Some pt <-> at_point pt j).
Proof.
  intros Lc Hj. unfold point, at_point, val. revert pt. induction Lc as [|c cs Hc Hcs IH]; intros [|x pt] L; cbn [map length] in *; try discriminate.
  - split; [|reflexivity]. intros _ [|d] y E; discriminate.
  - assert (Ez : znth c j = Some (nth (Z.to_nat j) c (zero ar))) by (unfold znth; replace (j <? 0) with false by lia; apply nth_error_nth'; lia). rewrite Ez. split.
    + intros E. injection E as E1 E2. intros [|d] y Ey; cbn [nth_error nth] in *; [congruence|]. apply (proj1 (IH pt ltac:(lia)) E2 d y Ey).
    + intros H. f_equal; [f_equal; apply (H 0%nat x eq_refl)|]. apply IH; [lia|]. intros d y Ey. exact (H (S d) y Ey).
Qed.
Lemma find_In {A} (f : A -> bool) l : match find f l with Some x => In x l /\ f x = true | None => forall x, In x l -> f x = false end.
Proof. destruct (find f l) eqn:E; [apply find_some; exact E|]. intros x I. eapply find_none; eassumption. Qed.
Lemma slice_incl {A} (l : list A) o n x : In x (slice l o n) -> In x l.
Proof. unfold slice. intros I. rewrite <- (firstn_skipn o l). apply in_or_app. right. rewrite <- (firstn_skipn n (skipn o l)). apply in_or_app. left. exact I. Qed.

Variable levels : nat -> nat.
Theorem kd_law len tol2 : (0 < len)%nat -> (0 < length coords)%nat -> Forall (fun c => (len <= length c)%nat) coords ->
  Forall (fun c => Forall num (firstn len c)) coords -> Forall box_num (cuts ar (levels len) (extents ar coords len)) -> inside ar coords len ->
  exists t, initialize ar sort levels coords len = Ok t /\ Permutation (zseq (Z.of_nat len)) (t_index t) /\
    forall pt, length pt = length coords -> Forall num pt ->
      exists r, find_point ar coords tol2 t pt = Ok r /\
        match r with
        | Some j => 0 <= j < Z.of_nat len /\ lt ar (dist2 ar coords pt j) tol2 = true
        | None => forall j, 0 <= j < Z.of_nat len -> point coords j = map Some pt -> lt ar (dist2 ar coords pt j) tol2 = false
        end.
Proof.
  intros Hl Hc Lc Nc Nb Ins. unfold initialize.
  replace (existsb (fun c => (length c <? len)%nat) coords) with false by (symmetry; apply not_true_iff_false; intros E; apply existsb_exists in E; destruct E as (c & I & Q); rewrite Forall_forall in Lc; specialize (Lc c I); apply Nat.ltb_lt in Q; lia).
  destruct len as [|len0] eqn:El; [lia|]. rewrite <- El in *. clear El len0.
  set (b := extents ar coords len) in *. set (infos := map _ (seq 0 _)).
  assert (Li : length infos = (2 ^ (levels len + 1) - 1)%nat) by (unfold infos; rewrite map_length, seq_length; reflexivity). assert (Pw : (1 <= 2 ^ levels len)%nat) by (pose proof (Nat.pow_nonzero 2 (levels len)); lia).
  assert (Lz : length (zseq (Z.of_nat len)) = len) by (unfold zseq; rewrite map_length, seq_length; lia).
  assert (Lb : length b = length coords) by (unfold b, extents; apply map_length).
  destruct (build_ok (levels len) 0 0 (zseq (Z.of_nat len)) b infos [] []) as (l' & infos' & Eb & P & L' & X & H); [reflexivity|exact Lb|exact Hc| | | |].
  - intros j d I D. apply in_zseq in I. unfold val. rewrite Forall_forall in Nc, Lc. assert (Ic : In (nth d coords []) coords) by (apply nth_In; exact D). specialize (Nc _ Ic). specialize (Lc _ Ic). rewrite Forall_forall in Nc. apply Nc.
    eapply (nth_error_In _ (Z.to_nat j)). rewrite nth_error_firstn' by lia. apply nth_error_nth'. lia.
  - rewrite Li. rewrite Nat.pow_add_r. cbn [Nat.pow]. lia.
  - intros q _ Hq. unfold infos. rewrite nth_error_map. rewrite (nth_error_nth' _ 0%nat) by (rewrite seq_length; rewrite Li in Hq; exact Hq). rewrite seq_nth by (rewrite Li in Hq; exact Hq). eexists. split; reflexivity.
  - cbn [app] in Eb. rewrite Lz, !app_nil_r in Eb. rewrite Eb. cbn [obind fst snd]. eexists. split; [reflexivity|]. cbn [t_index]. split; [exact P|].
    intros pt Lpt Npt. unfold find_point. cbn [t_box t_infos t_index]. destruct (in_box ar pt b) eqn:Ib.
    + pose proof (Permutation_length P) as Ll. rewrite Lz in Ll. assert (Ne : l' <> []) by (intros ->; cbn in Ll; lia).
      assert (F0 : fits infos' l' 0). { destruct (levels len); destruct H as (i & Ei & _ & Hn); destruct (Hn Ne) as (A & B & _); exists i; (split; [exact Ei|]); lia. }
      assert (H0 : forall j, In j l' -> has infos' l' 0 j). { intros j J. destruct (levels len); destruct H as (i & Ei & _ & Hn); destruct (Hn Ne) as (A & B & _); exists i; (split; [exact Ei|]); (split; [lia|]); rewrite A, B; pose proof (slice_mid [] l' []) as Q; cbn [app length] in Q; rewrite app_nil_r in Q; rewrite Q; exact J. }
      destruct (descend_ok pt Lpt Npt (levels len) (S (length infos')) 0 0 0 l' b infos' [] []) as (p & Ep & (ip & Eip & Fp) & Kp); try assumption; try reflexivity.
      { rewrite L', Li. rewrite Nat.pow_add_r. cbn [Nat.pow]. pose proof (Nat.pow_gt_lin_r 2 (levels len)). lia. }
      { cbn [app]. rewrite app_nil_r. exact F0. }
      cbn [app] in *. rewrite app_nil_r in *. rewrite Ep. cbn [obind]. rewrite Eip. cbn [deref obind]. replace (length l' <? off ip + size ip)%nat with false by (symmetry; apply Nat.ltb_ge; exact Fp).
      eexists. split; [reflexivity|]. pose proof (find_In (fun j => lt ar (dist2 ar coords pt j) tol2) (slice l' (off ip) (size ip))) as Q. destruct (find _ _) as [j|].
      * destruct Q as [J Q]. split; [|exact Q]. apply slice_incl in J. apply in_zseq. eapply Permutation_in; [symmetry; exact P|exact J].
      * intros j Hj Pj. apply Q. apply (point_val pt len j Lc Hj Lpt) in Pj. assert (J : In j l') by (eapply Permutation_in; [exact P|]; apply in_zseq; exact Hj).
        destruct (Kp j J Pj (H0 j J)) as (ip' & Eip' & _ & J'). rewrite Eip in Eip'. injection Eip' as <-. exact J'.
    + eexists. split; [reflexivity|]. intros j Hj Pj. exfalso. pose proof (Ins j pt Hj Pj) as Q. fold b in Q. congruence.
Qed.
End Kd.

(** ---- brute force ---- *)
Theorem search_law {F} (ar : arith F) coords len tol2 pt :
  match search ar coords len tol2 pt with
  | Some j => 0 <= j < Z.of_nat len /\ lt ar (dist2_n ar coords pt j) tol2 = true /\ forall i, 0 <= i < j -> lt ar (dist2_n ar coords pt i) tol2 = false
  | None => forall i, 0 <= i < Z.of_nat len -> lt ar (dist2_n ar coords pt i) tol2 = false
  end.
Proof.
  unfold search. rewrite zseq_nat. set (f := fun j => lt ar (dist2_n ar coords pt j) tol2).
  assert (G : forall n a, match find f (map Z.of_nat (seq a n)) with
    | Some j => Z.of_nat a <= j < Z.of_nat (a + n) /\ f j = true /\ forall i, Z.of_nat a <= i < j -> f i = false
    | None => forall i, Z.of_nat a <= i < Z.of_nat (a + n) -> f i = false end).
  { induction n as [|n IH]; intros a; cbn [seq map find]; [intros i H; lia|]. destruct (f (Z.of_nat a)) eqn:E; [split; [lia|]; split; [exact E|]; intros i H; lia|].
    specialize (IH (S a)). destruct (find f _) as [j|].
    - destruct IH as (A & B & C). split; [lia|]. split; [exact B|]. intros i H. destruct (Z.eq_dec i (Z.of_nat a)) as [->|]; [exact E|]. apply C. lia.
    - intros i H. destruct (Z.eq_dec i (Z.of_nat a)) as [->|]; [exact E|]. apply IH. lia. }
  exact (G len 0%nat).
Qed.

(** ---- IEEE ---- *)
Definition key (x : spec_float) : Z * Z * Z :=
  match x with
  | S754_infinity true => (-2, 0, 0) | S754_finite true m e => (-1, - e, - Zpos m) | S754_zero _ => (0, 0, 0)
  | S754_finite false m e => (1, e, Zpos m) | S754_infinity false => (2, 0, 0) | S754_nan => (3, 0, 0)
  end.
Definition lex (a b : Z * Z * Z) : Prop :=
  let '(x, y, z) := a in let '(x', y', z') := b in x < x' \/ x = x' /\ (y < y' \/ y = y' /\ z < z').
Definition number (x : spec_float) : Prop := x <> S754_nan.
Definition finite (x : spec_float) : Prop := match x with S754_zero _ | S754_finite _ _ _ => True | _ => False end.
Lemma ltb_lex x y : number x -> number y -> (SFltb x y = true <-> lex (key x) (key y)).
Proof.
  intros Nx Ny. unfold SFltb, SFcompare, number in *. destruct x as [sx|[|]| |[|] mx ex]; destruct y as [sy|[|]| |[|] my ey]; try congruence; cbn [key lex]; try (split; [intros; try discriminate; lia|intros; try reflexivity; lia]).
  - destruct (Z.compare_spec ex ey) as [->|C|C].
    + change (Pos.compare_cont Eq mx my) with (mx ?= my)%positive. destruct (Pos.compare_spec mx my) as [->|C|C]; cbn [CompOpp]; (split; [intros; try discriminate; lia|intros; try reflexivity; lia]).
    + split; [discriminate|lia].
    + split; [lia|reflexivity].
  - destruct (Z.compare_spec ex ey) as [->|C|C].
    + change (Pos.compare_cont Eq mx my) with (mx ?= my)%positive. destruct (Pos.compare_spec mx my) as [->|C|C]; (split; [intros; try discriminate; lia|intros; try reflexivity; lia]).
    + split; [lia|reflexivity].
    + split; [discriminate|lia].
Qed.
Lemma ltb_false x y : number x -> number y -> (SFltb x y = false <-> ~ lex (key x) (key y)).
Proof. intros A B. rewrite <- (ltb_lex x y A B). destruct (SFltb x y); split; congruence. Qed.
Lemma leb_not x y : number x -> number y -> SFleb x y = negb (SFltb y x).
Proof.
  intros Nx Ny. unfold SFleb, SFltb. assert (Sy : SFcompare y x = option_map CompOpp (SFcompare x y)).
  { unfold SFcompare, number in *. destruct x as [sx|[|]| |[|] mx ex]; destruct y as [sy|[|]| |[|] my ey]; try congruence; try reflexivity; rewrite (Z.compare_antisym ex ey); destruct (ex ?= ey); try reflexivity; cbn [option_map CompOpp]; change (Pos.compare_cont Eq mx my) with (mx ?= my)%positive; change (Pos.compare_cont Eq my mx) with (my ?= mx)%positive; rewrite (Pos.compare_antisym mx my); destruct (mx ?= my)%positive; reflexivity. }
  assert (So : SFcompare x y <> None) by (unfold SFcompare, number in *; destruct x as [sx|[|]| |[|] mx ex]; destruct y as [sy|[|]| |[|] my ey]; congruence).
  rewrite Sy. destruct (SFcompare x y) as [[| |]|]; try reflexivity. congruence.
Qed.
Lemma ieee_ordered prec emax : ordered (ieee prec emax) number.
Proof.
  split; cbn [lt le ieee].
  - intros a A. apply (ltb_false a a A A). destruct (key a) as [[x y] z]. cbn. lia.
  - intros a b c A B C. rewrite !ltb_lex by assumption. destruct (key a) as [[x y] z], (key b) as [[x' y'] z'], (key c) as [[x'' y''] z'']. cbn. lia.
  - intros a b c A C H. assert (B : number b) by (intros ->; destruct a as [|[|]| |[|]]; discriminate). revert H. rewrite !ltb_lex by assumption. destruct (key a) as [[x y] z], (key b) as [[x' y'] z'], (key c) as [[x'' y''] z'']. cbn. lia.
  - intros a b. apply leb_not.
Qed.
Lemma sub_self prec emax x : finite x -> exists s, SFsub prec emax x x = S754_zero s.
Proof.
  destruct x as [s|s| |s m e]; intros F; try destruct F; [destruct s; eexists; reflexivity|]. unfold SFsub. rewrite Z.sub_diag. eexists. reflexivity.
Qed.
Lemma dist2_self prec emax coords : forall ds pt j, (forall d x, In (d, x) (combine ds pt) -> val (ieee prec emax) coords d j = x /\ finite x) ->
  fold_left (fun s dx => let d := SFsub prec emax (snd dx) (val (ieee prec emax) coords (fst dx) j) in SFadd prec emax s (SFmul prec emax d d)) (combine ds pt) (S754_zero false) = S754_zero false.
Proof.
  intros ds pt j. generalize (combine ds pt) as l. induction l as [|[d x] l IH]; intros H; [reflexivity|]. cbn [fold_left fst snd]. destruct (H d x (or_introl eq_refl)) as [-> Fx]. destruct (sub_self prec emax x Fx) as [s ->].
  replace (SFmul prec emax (S754_zero s) (S754_zero s)) with (S754_zero false) by (destruct s; reflexivity). cbn [SFadd]. apply IH. intros d' x' I. apply H. right. exact I.
Qed.
Lemma in_combine_seq {A} (l : list A) d x n : In (d, x) (combine (seq 0 n) l) -> nth_error l d = Some x.
Proof.
  intros I. apply (In_nth_error) in I. destruct I as [k E]. revert E. assert (G : forall (l : list A) n a k, nth_error (combine (seq a n) l) k = Some (d, x) -> d = (a + k)%nat /\ nth_error l k = Some x).
  { clear. induction l as [|y l IH]; intros n a k; [destruct (seq a n); destruct k; discriminate|]. destruct n as [|n]; [destruct k; discriminate|]. cbn [seq combine]. destruct k as [|k]; cbn [nth_error]; [intros E; injection E as <- <-; split; [lia|reflexivity]|]. intros E. destruct (IH n (S a) k E) as [-> Q]. split; [lia|exact Q]. }
  intros E. destruct (G l n 0%nat k E) as [-> Q]. exact Q.
Qed.
Theorem kd_float prec emax sort levels coords len tol2 : sorts sort -> (0 < len)%nat -> (0 < length coords)%nat -> Forall (fun c => (len <= length c)%nat) coords ->
  Forall (fun c => Forall finite (firstn len c)) coords -> Forall (box_num number) (cuts (ieee prec emax) (levels len) (extents (ieee prec emax) coords len)) -> inside (ieee prec emax) coords len ->
  SFltb (S754_zero false) tol2 = true ->
  exists t, initialize (ieee prec emax) sort levels coords len = Ok t /\ Permutation (zseq (Z.of_nat len)) (t_index t) /\
    (forall pt, length pt = length coords -> Forall number pt ->
       find_point (ieee prec emax) coords tol2 t pt = Ok None \/ exists j, find_point (ieee prec emax) coords tol2 t pt = Ok (Some j) /\ 0 <= j < Z.of_nat len /\ SFltb (dist2 (ieee prec emax) coords pt j) tol2 = true) /\
    (forall j pt, 0 <= j < Z.of_nat len -> point coords j = map Some pt -> exists i, find_point (ieee prec emax) coords tol2 t pt = Ok (Some i)).
Proof.
  intros So Hl Hc Lc Fc Nb Ins Ht.
  assert (FN : forall x, finite x -> number x) by (intros x Fx ->; destruct Fx).
  destruct (kd_law (ieee prec emax) number (ieee_ordered prec emax) sort So coords levels len tol2 Hl Hc Lc) as (t & Ei & P & K); [|exact Nb|exact Ins|].
  { eapply Forall_impl; [|exact Fc]. intros c. apply Forall_impl. exact FN. }
  exists t. split; [exact Ei|]. split; [exact P|]. split.
  - intros pt L N. destruct (K pt L N) as ([j|] & E & Q); [right; exists j; auto|left; exact E].
  - intros j pt Hj Pj. assert (L : length pt = length coords) by (unfold point in Pj; apply (f_equal (@length _)) in Pj; rewrite !map_length in Pj; auto).
    assert (Ap : at_point (ieee prec emax) coords pt j) by (apply (point_val (ieee prec emax) coords pt len j Lc Hj L); exact Pj).
    assert (Fp : forall d x, nth_error pt d = Some x -> finite x).
    { intros d x E. pose proof (Ap d x E) as Q. unfold val in Q. rewrite Forall_forall in Fc, Lc. assert (D : (d < length coords)%nat) by (rewrite <- L; eapply nth_error_Some_lt; exact E). assert (Ic : In (nth d coords []) coords) by (apply nth_In; exact D). specialize (Fc _ Ic). specialize (Lc _ Ic). rewrite Forall_forall in Fc. apply Fc. rewrite <- Q. eapply (nth_error_In _ (Z.to_nat j)). rewrite nth_error_firstn' by lia. apply nth_error_nth'. lia. }
    destruct (K pt L) as ([i|] & E & Q); [apply Forall_forall; intros x I; apply In_nth_error in I; destruct I as [d I]; eapply FN, Fp; exact I|exists i; exact E|]. exfalso. specialize (Q j Hj Pj). change (SFltb (dist2 (ieee prec emax) coords pt j) tol2 = false) in Q.
    assert (D0 : dist2 (ieee prec emax) coords pt j = S754_zero false). { unfold dist2. cbn [add mul sub zero ieee]. apply dist2_self. intros d x I. apply in_combine_seq in I. split; [apply Ap; exact I|eapply Fp; exact I]. }
    rewrite D0, Ht in Q. discriminate.
Qed.

(** ---- exact ---- *)
Lemma exact_lt a b : lt exact a b = true <-> (a < b)%Q.
Proof. cbn [lt exact]. rewrite negb_true_iff. split; [intros H; apply Qnot_le_lt; intros C; apply Qle_bool_iff in C; congruence|intros H; apply not_true_iff_false; intros C; apply Qle_bool_iff in C; apply (Qlt_not_le _ _ H C)]. Qed.
Lemma exact_ltf a b : lt exact a b = false <-> (b <= a)%Q.
Proof. cbn [lt exact]. rewrite negb_false_iff. apply Qle_bool_iff. Qed.
Lemma exact_ordered : ordered exact (fun _ => True).
Proof.
  split; intros.
  - apply exact_ltf. apply Qle_refl.
  - apply exact_lt. apply exact_lt in H2, H3. eapply Qlt_trans; eassumption.
  - apply exact_lt in H1. destruct (Qlt_le_dec a c) as [C|C]; [left; apply exact_lt; exact C|right; apply exact_lt; eapply Qle_lt_trans; eassumption].
  - cbn [lt le exact]. rewrite negb_involutive. reflexivity.
Qed.
Lemma extent_bounds c : forall x, In x c -> (fst (extent exact c) <= x)%Q /\ (x <= snd (extent exact c))%Q.
Proof.
  unfold extent. set (f := fun b x => _). assert (G : forall c b, (fst (fold_left f c b) <= fst b)%Q /\ (snd b <= snd (fold_left f c b))%Q /\ forall x, In x c -> (fst (fold_left f c b) <= x)%Q /\ (x <= snd (fold_left f c b))%Q).
  { clear c. induction c as [|y c IH]; intros b; [split; [apply Qle_refl|]; split; [apply Qle_refl|]; intros x []|]. cbn [fold_left]. destruct (IH (f b y)) as (A & B & C).
    assert (M : (fst (f b y) <= fst b)%Q /\ (fst (f b y) <= y)%Q /\ (snd b <= snd (f b y))%Q /\ (y <= snd (f b y))%Q).
    { unfold f, min_, max_. cbn [fst snd]. destruct (lt exact y (fst b)) eqn:E1; destruct (lt exact (snd b) y) eqn:E2; rewrite ?exact_lt, ?exact_ltf in *; repeat split; try apply Qle_refl; try (apply Qlt_le_weak; assumption); try assumption. }
    destruct M as (M1 & M2 & M3 & M4). split; [eapply Qle_trans; eassumption|]. split; [eapply Qle_trans; eassumption|]. intros x [->|I]; [split; eapply Qle_trans; eassumption|apply C; exact I]. }
  intros x I. apply G. exact I.
Qed.
Lemma exact_inside coords len : inside exact coords len.
Proof.
  intros j pt Hj Pj. unfold extents. revert coords Pj. induction pt as [|x pt IH]; intros [|c coords] Pj; try discriminate; [reflexivity|]. cbn [point map] in Pj. injection Pj as E1 E2.
  cbn [map combine in_box forallb]. unfold in_box in *. cbn [combine forallb fst snd]. rewrite (IH coords E2), andb_true_r.
  assert (I : In x (firstn len c)). { unfold znth in E1. replace (j <? 0) with false in E1 by lia. eapply (nth_error_In _ (Z.to_nat j)). rewrite nth_error_firstn' by lia. exact E1. }
  destruct (extent_bounds _ x I) as [A B]. unfold expand. cbn [fst snd sub add part200 exact].
  set (m := max_ exact _ _). assert (M : (0 < m / 200)%Q).
  { unfold m, max_. assert (E0 : (0 < min_expansion exact)%Q) by reflexivity. destruct (lt exact _ _) eqn:E; [apply Qlt_shift_div_l; [reflexivity|]; rewrite Qmult_0_l; exact E0|]. apply exact_ltf in E. apply Qlt_shift_div_l; [reflexivity|]. rewrite Qmult_0_l. eapply Qlt_le_trans; [exact E0|exact E]. }
  apply andb_true_iff. split.
  - cbn [le exact]. apply Qle_bool_iff. eapply Qle_trans; [|exact A]. apply Qplus_le_l with (z := (m / 200)%Q). ring_simplify. rewrite <- (Qplus_0_l (fst _)) at 1. rewrite Qplus_comm. apply Qplus_le_compat; [apply Qle_refl|]. apply Qlt_le_weak. exact M.
  - apply exact_lt. eapply Qle_lt_trans; [exact B|]. rewrite <- (Qplus_0_r (snd _)) at 1. rewrite (Qplus_comm _ 0), (Qplus_comm _ (m / 200)). apply Qplus_lt_le_compat; [exact M|apply Qle_refl].
Qed.
Theorem kd_exact sort levels coords len tol2 : sorts sort -> (0 < len)%nat -> (0 < length coords)%nat -> Forall (fun c => (len <= length c)%nat) coords -> (0 < tol2)%Q ->
  exists t, initialize exact sort levels coords len = Ok t /\ Permutation (zseq (Z.of_nat len)) (t_index t) /\
    (forall pt, length pt = length coords ->
       find_point exact coords tol2 t pt = Ok None \/ exists j, find_point exact coords tol2 t pt = Ok (Some j) /\ 0 <= j < Z.of_nat len /\ (dist2 exact coords pt j < tol2)%Q) /\
    (forall j pt, 0 <= j < Z.of_nat len -> point coords j = map Some pt -> exists i, find_point exact coords tol2 t pt = Ok (Some i)).
Proof.
  intros So Hl Hc Lc Ht.
  destruct (kd_law exact (fun _ => True) exact_ordered sort So coords levels len tol2 Hl Hc Lc) as (t & Ei & P & K).
  { apply Forall_forall. intros c _. apply Forall_forall. auto. }
  { apply Forall_forall. intros b _. apply Forall_forall. auto. }
  { apply exact_inside. }
  exists t. split; [exact Ei|]. split; [exact P|]. split.
  - intros pt L. destruct (K pt L) as ([j|] & E & Q); [apply Forall_forall; auto|right; exists j; destruct Q as [Q1 Q2]; apply exact_lt in Q2; auto|left; exact E].
  - intros j pt Hj Pj. assert (L : length pt = length coords) by (unfold point in Pj; apply (f_equal (@length _)) in Pj; rewrite !map_length in Pj; auto).
    destruct (K pt L) as ([i|] & E & Q); [apply Forall_forall; auto|exists i; exact E|]. exfalso. specialize (Q j Hj Pj). apply exact_ltf in Q.
    assert (Ap : at_point exact coords pt j) by (apply (point_val exact coords pt len j Lc Hj L); exact Pj).
    assert (D0 : (dist2 exact coords pt j == 0)%Q). { unfold dist2. cbn [zero exact]. assert (G : forall l acc, (forall d x, In (d, x) l -> val exact coords d j = x) -> (acc == 0)%Q -> (fold_left (fun s dx => let d := sub exact (snd dx) (val exact coords (fst dx) j) in add exact s (mul exact d d)) l acc == 0)%Q).
      { induction l as [|[d x] l IH]; intros acc H Ha; [exact Ha|]. cbn [fold_left fst snd]. apply IH; [intros; apply H; right; assumption|]. rewrite (H d x (or_introl eq_refl)). cbn [add mul sub exact]. rewrite Ha. ring. }
      apply G; [|reflexivity]. intros d x I. apply in_combine_seq in I. apply Ap. exact I. }
    rewrite D0 in Q. apply (Qlt_not_le _ _ Ht Q).
Qed.

(** ---- a sort ---- *)
Fixpoint put_in (f : Z -> Z -> bool) (x : Z) (l : list Z) : list Z :=
  match l with [] => [x] | y :: r => if f y x then y :: put_in f x r else x :: l end.
Definition isort (f : Z -> Z -> bool) (l : list Z) : list Z := fold_right (put_in f) [] l.
Lemma put_in_perm f x l : Permutation (x :: l) (put_in f x l).
Proof. induction l as [|y l IH]; [reflexivity|]. cbn [put_in]. destruct (f y x); [|reflexivity]. rewrite perm_swap. constructor. exact IH. Qed.
Lemma isort_perm f l : Permutation l (isort f l).
Proof. induction l as [|x l IH]; [constructor|]. cbn [isort fold_right]. rewrite <- put_in_perm. constructor. exact IH. Qed.
Lemma isort_sorts : sorts isort.
Proof.
  intros f l (I & T & C). split; [apply isort_perm|].
  assert (G : forall m, incl m l -> StronglySorted (fun i j => f j i = false) (isort f m)); [|apply G, incl_refl].
  assert (As : forall a b, In a l -> In b l -> f a b = true -> f b a = false) by (intros a b Ia Ib E; destruct (f b a) eqn:Q; [|reflexivity]; rewrite <- (I a Ia); symmetry; apply (T a b a); assumption).
  assert (Put : forall x m, In x l -> incl m l -> StronglySorted (fun i j => f j i = false) m -> StronglySorted (fun i j => f j i = false) (put_in f x m)).
  { intros x m Ix. induction m as [|y m IH]; intros Im S; [repeat constructor|]. cbn [put_in]. inversion_clear S. assert (Iy : In y l) by (apply Im; left; reflexivity). assert (Im' : incl m l) by (intros z Z0; apply Im; right; exact Z0).
    destruct (f y x) eqn:E.
    - constructor; [apply IH; assumption|]. apply Forall_forall. intros z Z0. apply (Permutation_in _ (Permutation_sym (put_in_perm f x m))) in Z0. destruct Z0 as [<-|Z0]; [apply As; assumption|rewrite Forall_forall in H0; apply H0; exact Z0].
    - constructor; [constructor; assumption|]. constructor; [exact E|]. apply Forall_forall. intros z Z0. rewrite Forall_forall in H0. specialize (H0 z Z0). cbn beta in H0. destruct (f z x) eqn:Q; [|reflexivity]. destruct (C z x y (Im' z Z0) Ix Iy Q); congruence. }
  induction m as [|x m IH]; intros Im; [constructor|]. cbn [isort fold_right]. apply Put; [apply Im; left; reflexivity| |apply IH; intros z Z0; apply Im; right; exact Z0].
  intros z Z0. apply (Permutation_in _ (Permutation_sym (isort_perm f m))) in Z0. apply Im. right. exact Z0.
Qed.
Lemma map_Some_inj {A} (a b : list A) : map Some a = map Some b -> a = b.
Proof. revert b. induction a as [|x a IH]; intros [|y b] E; try discriminate; [reflexivity|]. cbn in E. injection E as -> E. f_equal. apply IH, E. Qed.
