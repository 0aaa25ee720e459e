(** The maps back: for every child its parents. *)
From Verif Require Import Base DType Node NodeFacts SchemaInv O2M MeshElem MeshElemFacts TopoMeta TopoMetaSpec TopoMetaFacts.
From Coq Require Import ZArith Lia Permutation Sorting.Sorted.
Local Open Scope Z_scope.
Import ListNotations.

Definition pairs_of (rows : list (list Z)) : list (Z * Z) := concat (map (fun pr => map (pair (fst pr)) (snd pr)) (combine (zseq (zlen rows)) rows)).
Definition cnt (p c : Z) (l : list (Z * Z)) : nat := length (filter (fun x => (fst x =? p) && (snd x =? c)) l).
Lemma cnt_app p c a b : cnt p c (a ++ b) = (cnt p c a + cnt p c b)%nat.
Proof. unfold cnt. rewrite filter_app, app_length. reflexivity. Qed.
Lemma filter_perm {A} (q : A -> bool) l l' : Permutation l l' -> Permutation (filter q l) (filter q l').
Proof.
  induction 1 as [|x l l' P IH|x y l|l l' l'' P IH P' IH']; cbn; auto.
  - destruct (q x); auto.
  - destruct (q x), (q y); auto. constructor.
  - eapply Permutation_trans; eassumption.
Qed.
Lemma cnt_perm p c l l' : Permutation l l' -> cnt p c l = cnt p c l'.
Proof. intro P. apply Permutation_length, filter_perm, P. Qed.

(** parents numbered from [s] *)
Lemma combine_seq_S {A} (x : A) l s n : combine (map Z.of_nat (seq s (Datatypes.S n))) (x :: l) = (Z.of_nat s, x) :: combine (map Z.of_nat (seq (Datatypes.S s) n)) l.
Proof. reflexivity. Qed.
Lemma cnt_row p q c row : cnt q c (map (pair p) row) = if p =? q then times c row else 0%nat.
Proof.
  unfold cnt, times. induction row as [|x r IH]; cbn [map filter fst snd]; [destruct (p =? q); reflexivity|].
  destruct (Z.eqb_spec p q) as [->|N]; cbn [andb].
  - cbn [count_occ]. destruct (Z.eqb_spec x c), (Z.eq_dec x c); try contradiction; cbn [length]; rewrite IH; reflexivity.
  - exact IH.
Qed.
Lemma cnt_pairs rows : forall s p c, cnt (Z.of_nat p) c (concat (map (fun pr => map (pair (fst pr)) (snd pr)) (combine (map Z.of_nat (seq s (length rows))) rows))) =
  match nth_error rows (p - s) with Some r => if (s <=? p)%nat then times c r else 0%nat | None => 0%nat end.
Proof.
  induction rows as [|x r IH]; intros s p c; [destruct (p - s)%nat; reflexivity|].
  cbn [length]. rewrite combine_seq_S. cbn [map concat fst snd]. rewrite cnt_app, cnt_row, IH.
  destruct (Z.eqb_spec (Z.of_nat s) (Z.of_nat p)) as [E|N].
  - assert (s = p) by lia. subst p. rewrite Nat.sub_diag, Nat.leb_refl. cbn [nth_error].
    replace (s - Datatypes.S s)%nat with 0%nat by lia. rewrite (proj2 (Nat.leb_gt (Datatypes.S s) s)) by lia.
    destruct r; cbn [nth_error]; lia.
  - destruct (Nat.leb_spec s p).
    + replace (p - s)%nat with (Datatypes.S (p - Datatypes.S s)) by lia. cbn [nth_error].
      rewrite (proj2 (Nat.leb_le (Datatypes.S s) p)) by lia. reflexivity.
    + replace (p - s)%nat with 0%nat by lia. replace (p - Datatypes.S s)%nat with 0%nat by lia.
      rewrite (proj2 (Nat.leb_gt (Datatypes.S s) p)) by lia. cbn [nth_error]. destruct r; reflexivity.
Qed.
Lemma pairs_cnt rows p r c : nth_error rows p = Some r -> cnt (Z.of_nat p) c (pairs_of rows) = times c r.
Proof. intro H. unfold pairs_of, zseq. rewrite (Nat2Z.id (length rows)) || (unfold zlen; rewrite Nat2Z.id). rewrite cnt_pairs. rewrite Nat.sub_0_r, H. reflexivity. Qed.
Lemma pairs_in rows x : In x (pairs_of rows) -> 0 <= fst x < zlen rows /\ In (snd x) (concat rows).
Proof.
  unfold pairs_of. rewrite in_concat. intros [l [I J]]. apply in_map_iff in I. destruct I as [[p row] [<- I]]. cbn in J.
  apply in_map_iff in J. destruct J as [c [<- J]]. cbn. split; [|apply in_concat; exists row; split; [exact (in_combine_r _ _ _ _ I)|exact J]].
  apply in_combine_l in I. apply in_zseq in I. exact I.
Qed.

Lemma p2c_law rows m : holds m rows -> p2c m = Ok (pairs_of rows).
Proof.
  intros [Hv [Hz _]]. unfold p2c. rewrite Hv, Hz.
  assert (El : zlen (map (fun r : list Z => Z.of_nat (length r)) rows) = zlen rows) by (unfold zlen; rewrite map_length; reflexivity). rewrite El.
  set (ps := concat (map _ (combine _ _))).
  assert (Hc : forall s, length (concat (map (fun ps => map (fun _ => fst ps) (zseq (snd ps))) (combine (map Z.of_nat (seq s (length rows))) (map (fun r : list Z => Z.of_nat (length r)) rows)))) = length (concat rows) /\
     combine (concat (map (fun ps => map (fun _ => fst ps) (zseq (snd ps))) (combine (map Z.of_nat (seq s (length rows))) (map (fun r : list Z => Z.of_nat (length r)) rows)))) (concat rows)
     = concat (map (fun pr => map (pair (fst pr)) (snd pr)) (combine (map Z.of_nat (seq s (length rows))) rows))).
  { clear. induction rows as [|r rs IH]; intro s; [split; reflexivity|]. cbn [length map]. rewrite !combine_seq_S. cbn [map concat fst snd].
    destruct (IH (Datatypes.S s)) as [A B]. split.
    - rewrite !app_length, A, map_length, length_zseq. lia.
    - assert (Ca : forall (a1 a2 b1 b2 : list Z), length a1 = length b1 -> combine (a1 ++ a2) (b1 ++ b2) = combine a1 b1 ++ combine a2 b2).
      { clear. induction a1; intros a2 [|b b1] b2 H; cbn in *; try discriminate; auto. f_equal. apply IHa1. lia. }
      rewrite Ca by (rewrite map_length, length_zseq; lia). rewrite B. f_equal.
      assert (Er : map (fun _ : Z => Z.of_nat s) (zseq (Z.of_nat (length r))) = repeat (Z.of_nat s) (length r)).
      { unfold zseq. rewrite Nat2Z.id. rewrite map_map. clear. generalize 0%nat. induction (length r) as [|k IH]; intro u; cbn; [reflexivity|]. f_equal. apply IH. }
      rewrite Er. clear. induction r as [|x r IH]; cbn; [reflexivity|]. f_equal. exact IH. }
  assert (Eq : zseq (zlen rows) = map Z.of_nat (seq 0 (length rows))) by (unfold zseq, zlen; rewrite Nat2Z.id; reflexivity).
  destruct (Hc 0%nat) as [A B]. rewrite <- Eq in A, B. fold ps in A, B.
  assert (A' : zlen ps = zlen (concat rows)) by (unfold zlen; rewrite A; reflexivity). rewrite A', Z.ltb_irrefl, Z.sub_diag. cbn [zseq Z.to_nat seq map]. rewrite app_nil_r. f_equal. exact B.
Qed.

Lemma tally_law : forall data c, Forall (fun x => 0 <= x < zlen c) data -> exists c', tally c data = Ok c' /\ length c' = length c /\
  forall i x, znth c i = Some x -> znth c' i = Some (x + Z.of_nat (times i data)).
Proof.
  induction data as [|d r IH]; intros c F; cbn [tally].
  - exists c. repeat split. intros i x H. cbn. rewrite Z.add_0_r. exact H.
  - inversion F as [|? ? F1 F2]; subst. destruct (znth c d) as [y|] eqn:E.
    2: { unfold znth in E. destruct (Z.ltb_spec d 0); [lia|]. apply nth_error_None in E. unfold zlen in F1. lia. }
    cbn [deref obind]. destruct (IH (set_nth c (Z.to_nat d) (y + 1))) as [c' [A [B C]]].
    { eapply Forall_impl; [|exact F2]. intros a. unfold zlen. rewrite length_set_nth. auto. }
    exists c'. split; [exact A|]. split; [rewrite B; apply length_set_nth|]. intros i x H.
    unfold times in *. cbn [count_occ]. destruct (Z.eq_dec d i) as [->|N].
    + rewrite H in E. injection E as ->. rewrite (C i (y + 1)); [f_equal; lia|]. unfold znth in *. destruct (i <? 0); [discriminate|].
      apply nth_error_set_nth_same. apply nth_error_Some. congruence.
    + apply C. unfold znth in *. destruct (Z.ltb_spec i 0); [discriminate|]. rewrite nth_error_set_nth_other by lia. exact H.
Qed.
Lemma list_ext {A} (a b : list A) : (forall i, nth_error a i = nth_error b i) -> a = b.
Proof.
  revert b; induction a as [|x r IH]; intros [|y s] H; auto.
  - specialize (H 0%nat). discriminate.
  - specialize (H 0%nat). discriminate.
  - pose proof (H 0%nat) as H0. injection H0 as ->. f_equal. apply IH. intro i. exact (H (Datatypes.S i)).
Qed.
Lemma tally_zero n data : 0 <= n -> Forall (fun x => 0 <= x < n) data ->
  tally (map (fun _ => 0) (zseq n)) data = Ok (map (fun c => Z.of_nat (times c data)) (zseq n)).
Proof.
  intros Hn F. destruct (tally_law data (map (fun _ => 0) (zseq n))) as [c' [A [B C]]].
  { unfold zlen. rewrite map_length, length_zseq, Z2Nat.id by lia. exact F. }
  rewrite A. f_equal. apply list_ext. intro i. destruct (Nat.lt_ge_cases i (Z.to_nat n)) as [Lt|Ge].
  - assert (Z1 : nth_error (zseq n) i = Some (Z.of_nat i)) by (rewrite <- (zseq_nth n (Z.of_nat i)) by lia; rewrite Nat2Z.id; reflexivity).
    specialize (C (Z.of_nat i) 0). rewrite !znth_of_nat in C. rewrite C; [|rewrite nth_error_map, Z1; reflexivity].
    rewrite nth_error_map, Z1. cbn. f_equal.
  - rewrite map_length, length_zseq in B. rewrite (proj2 (nth_error_None c' i)) by lia.
    symmetry. apply nth_error_None. rewrite map_length, length_zseq. lia.
Qed.

(** a list sorted by child is its bins one after the other *)
Lemma filter_next (s : list (Z * Z)) m : StronglySorted (fun x y => snd x <= snd y) s ->
  filter (fun x => snd x <? m + 1) s = filter (fun x => snd x <? m) s ++ filter (fun x => snd x =? m) s.
Proof.
  induction 1 as [|x r S IH F]; [reflexivity|]. cbn [filter]. destruct (Z.ltb_spec (snd x) m).
  - rewrite (proj2 (Z.ltb_lt _ _)) by lia. rewrite (proj2 (Z.eqb_neq (snd x) m)) by lia. cbn. f_equal. exact IH.
  - assert (E : filter (fun x => snd x <? m) r = []).
    { clear IH S. induction r as [|y r IH]; [reflexivity|]. inversion F as [|? ? F1 F2]; subst. cbn. rewrite (proj2 (Z.ltb_ge (snd y) m)) by lia. apply IH; exact F2. }
    rewrite E in *. cbn [app] in *. destruct (Z.eqb_spec (snd x) m).
    + rewrite (proj2 (Z.ltb_lt _ _)) by lia. f_equal. exact IH.
    + rewrite (proj2 (Z.ltb_ge _ _)) by lia. exact IH.
Qed.
Lemma bins_nat (s : list (Z * Z)) : StronglySorted (fun x y => snd x <= snd y) s -> Forall (fun x => 0 <= snd x) s -> forall m,
  filter (fun x => snd x <? Z.of_nat m) s = concat (map (fun c => filter (fun x => snd x =? c) s) (map Z.of_nat (seq 0 m))).
Proof.
  intros S P m. induction m as [|m IH].
  - cbn. clear S. induction s as [|x r IH]; [reflexivity|]. inversion P; subst. cbn. rewrite (proj2 (Z.ltb_ge (snd x) 0)) by lia. apply IH. assumption.
  - rewrite seq_S, map_app, map_app, concat_app. cbn [map concat plus]. rewrite app_nil_r, <- IH.
    replace (Z.of_nat (Datatypes.S m)) with (Z.of_nat m + 1) by lia. apply filter_next. exact S.
Qed.
Lemma bins_law (s : list (Z * Z)) n : StronglySorted (fun x y => snd x <= snd y) s -> Forall (fun x => 0 <= snd x < n) s ->
  s = concat (map (fun c => filter (fun x => snd x =? c) s) (zseq n)).
Proof.
  intros S P. unfold zseq. rewrite <- bins_nat; [|exact S|eapply Forall_impl; [|exact P]; cbv beta; intros ? ?; lia].
  symmetry. clear S. induction s as [|x r IH]; [reflexivity|]. inversion P; subst. cbn. rewrite (proj2 (Z.ltb_lt _ _)) by lia. f_equal. apply IH. assumption.
Qed.
Lemma times_bin p c (l : list (Z * Z)) : times p (map fst (filter (fun x => snd x =? c) l)) = cnt p c l.
Proof.
  unfold times, cnt. induction l as [|x r IH]; [reflexivity|]. cbn [filter]. destruct (snd x =? c) eqn:E.
  - rewrite Bool.andb_true_r. cbn [map count_occ]. destruct (Z.eq_dec (fst x) p), (Z.eqb_spec (fst x) p); try contradiction; cbn [length]; rewrite IH; reflexivity.
  - rewrite Bool.andb_false_r. exact IH.
Qed.
Lemma bin_size c rows : length (filter (fun x : Z * Z => snd x =? c) (pairs_of rows)) = times c (concat rows).
Proof.
  unfold pairs_of. generalize (zlen_seq rows). generalize (zseq (zlen rows)). unfold times.
  induction rows as [|r rs IH]; intros [|p ps] H; try discriminate; [reflexivity|]. cbn [combine map concat fst snd].
  rewrite filter_app, app_length, count_occ_app, IH by (cbn in H; lia). f_equal.
  clear. induction r as [|x r IH]; [reflexivity|]. cbn. destruct (Z.eqb_spec x c), (Z.eq_dec x c); try contradiction; cbn [length]; rewrite IH; reflexivity.
Qed.
Lemma times_perm x l l' : Permutation l l' -> times x l = times x l'.
Proof. intro P. unfold times. apply (Permutation_count_occ Z.eq_dec). exact P. Qed.
Lemma running_law rows : forall s i o, nth_error (running s (map (fun r : list Z => Z.of_nat (length r)) rows)) i = Some o -> o = s + Z.of_nat (length (concat (firstn i rows))).
Proof.
  induction rows as [|r rs IH]; intros s [|i] o H; cbn in H; try discriminate.
  - injection H as <-. cbn. lia.
  - apply IH in H. cbn. rewrite app_length. lia.
Qed.
Lemma length_running l : forall s, length (running s l) = length l.
Proof. induction l; intro s; cbn; auto. Qed.

Section S.
Variable srt : forall A : Type, (A -> A -> bool) -> list A -> list A.
Hypothesis Hs : sorts srt.
Definition bin (b : list Z) : list Z := if 1 <? zlen b then zsort srt b else b.
Lemma bin_perm b : Permutation (bin b) b.
Proof. unfold bin. destruct (1 <? zlen b); [apply zsort_perm; exact Hs|reflexivity]. Qed.
Lemma bin_sorted b : StronglySorted Z.le (bin b).
Proof.
  unfold bin. destruct (Z.ltb_spec 1 (zlen b)); [apply zsort_sorted; exact Hs|]. destruct b as [|x [|y r]]; [constructor|repeat constructor|].
  unfold zlen in H. cbn in H. lia.
Qed.
Lemma slices_law B : forall pre, omapM (fun so => do b <- slice (concat (pre ++ B)) (snd so) (fst so); Ok (if 1 <? fst so then zsort srt b else b))
  (combine (map zlen B) (running (zlen (concat pre)) (map zlen B))) = Ok (map bin B).
Proof.
  induction B as [|b B IH]; intro pre; [reflexivity|]. cbn [map running combine omapM fst snd].
  pose proof (slice_row (pre ++ b :: B) (length pre) b) as Sl. rewrite nth_error_app2, Nat.sub_diag in Sl by lia. specialize (Sl eq_refl).
  rewrite firstn_app, Nat.sub_diag, firstn_all in Sl. cbn [firstn] in Sl. rewrite app_nil_r in Sl. rewrite Sl. cbn [obind].
  specialize (IH (pre ++ [b])). rewrite <- app_assoc in IH. cbn [app] in IH.
  replace (zlen (concat (pre ++ [b]))) with (zlen (concat pre) + zlen b) in IH
    by (rewrite concat_app; cbn [concat]; rewrite app_nil_r; unfold zlen; rewrite app_length; lia).
  rewrite IH. reflexivity.
Qed.
Theorem back_law n rows m : 0 <= n -> holds m rows -> Forall (fun c => 0 <= c < n) (concat rows) ->
  exists b back, child_to_parent srt n m = Ok b /\ holds b back /\ parents rows n back.
Proof.
  intros Hn Hm F. unfold child_to_parent. rewrite (p2c_law rows m Hm). destruct Hm as [Hv _]. rewrite Hv. rewrite tally_zero by assumption. cbn [obind].
  destruct (Hs _ second_ltb (pairs_of rows) weak_second) as [P S]. set (s := srt _ second_ltb (pairs_of rows)) in *.
  assert (S' : StronglySorted (fun x y : Z * Z => snd x <= snd y) s) by (eapply ss_weaken; [|exact S]; intros x y H; apply Z.ltb_ge in H; exact H).
  assert (P' : Forall (fun x : Z * Z => 0 <= snd x < n) s).
  { apply Forall_forall. intros x I. rewrite Forall_forall in F. apply F. apply (pairs_in rows x). eapply Permutation_in; [exact P|exact I]. }
  set (B := map (fun c => map fst (filter (fun x => snd x =? c) s)) (zseq n)).
  assert (Ez : map (fun c => Z.of_nat (times c (concat rows))) (zseq n) = map zlen B).
  { unfold B. rewrite map_map. apply map_ext. intro c. unfold zlen. rewrite map_length. rewrite <- bin_size. f_equal. apply Permutation_length, filter_perm. symmetry. exact P. }
  assert (Ed : map fst s = concat B).
  { rewrite (bins_law s n S' P') at 1. unfold B. rewrite concat_map, map_map. reflexivity. }
  rewrite Ez, Ed. pose proof (slices_law B []) as Sl. cbn [app concat] in Sl. change (zlen []) with 0 in Sl. rewrite Sl. cbn [obind].
  eexists. exists (map bin B). split; [reflexivity|].
  assert (Eb : map zlen B = map (fun r => Z.of_nat (length r)) (map bin B)).
  { rewrite map_map. apply map_ext. intro b. unfold zlen. f_equal. apply Permutation_length. symmetry. apply bin_perm. }
  split.
  - split; [reflexivity|]. cbn [m_sizes m_offsets]. split; [exact Eb|]. split.
    + rewrite length_running, !map_length. reflexivity.
    + intros i o H. rewrite Eb in H. apply running_law in H. lia.
  - split; [rewrite map_length; unfold B; rewrite map_length, length_zseq; lia|].
    intros c row H. rewrite nth_error_map in H. unfold B in H. rewrite nth_error_map in H.
    destruct (nth_error (zseq n) c) as [z|] eqn:Ez'; [|discriminate]. cbn in H. injection H as <-.
    assert (z = Z.of_nat c).
    { assert (Hc : (c < Z.to_nat n)%nat) by (rewrite <- length_zseq; apply nth_error_Some; congruence).
      pose proof (zseq_nth n (Z.of_nat c)) as Q. rewrite Nat2Z.id in Q. rewrite Q in Ez' by lia. congruence. }
    subst z. split; [apply bin_sorted|]. split.
    + intros p I. eapply Permutation_in in I; [|apply bin_perm]. apply in_map_iff in I. destruct I as [x [<- I]]. apply filter_In in I. destruct I as [I _].
      apply (pairs_in rows). eapply Permutation_in; [exact P|exact I].
    + intros p r H. rewrite (times_perm _ _ _ (bin_perm _)), times_bin, (cnt_perm _ _ _ _ P). apply pairs_cnt. exact H.
Qed.
End S.
