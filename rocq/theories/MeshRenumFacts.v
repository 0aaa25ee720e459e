(** Specification of renumbered meshes and facts about the model. *)
From Coq Require Import Permutation.
From Verif Require Import Base DType SpecTree Mem Node Number NodeFacts ArrayOps ArrayOpsFacts O2M O2MFacts MatSetFacts Silo SiloFacts SpecSetFacts MeshConv MeshConvFacts MeshElem MeshElemFacts MeshRenum.
Local Open Scope Z_scope.
Import ListNotations.

(** ---- specification ---- *)
(** the coordinates (or values) of a point; a row of points located one by one *)
Definition locate {F} (coords : list (list F)) (id : Z) : list (option F) := map (fun c => znth c id) coords.
Definition placed {F} (coords : list (list F)) (row : list Z) : list (list (option F)) := map (locate coords) row.
(** all points of the rows are points of the coordinate arrays *)
Definition in_range {F} (coords : list (list F)) (row : list Z) : Prop := Forall (fun c => Forall (fun id => 0 <= id < zlen c) row) coords.
(** the adds since the last execute *)
Fixpoint since (acc : list (list Z)) (ops : list b_op) : list (list Z) :=
  match ops with [] => acc | Add ids :: r => since (acc ++ [ids]) r | Execute _ :: r => since [] r end.

(** ---- numbering by first appearance ---- *)
Fixpoint index_of (x : Z) (l : list Z) : nat := match l with [] => O | y :: r => if x =? y then O else S (index_of x r) end.
Lemma index_In x l : In x l -> nth_error l (index_of x l) = Some x /\ (index_of x l < length l)%nat.
Proof.
  induction l as [|y l IH]; [intros []|]. cbn [index_of In length]. destruct (Z.eqb_spec x y) as [->|N]; [split; [reflexivity|lia]|]. intros [->|I]; [congruence|]. destruct (IH I). split; [assumption|lia].
Qed.
Lemma index_app x l m : In x l -> index_of x (l ++ m) = index_of x l.
Proof. induction l as [|y l IH]; [intros []|]. cbn [index_of app In]. destruct (Z.eqb_spec x y) as [->|N]; [reflexivity|]. intros [->|I]; [congruence|]. rewrite IH by exact I. reflexivity. Qed.
Lemma index_last x l : ~ In x l -> index_of x (l ++ [x]) = length l.
Proof. induction l as [|y l IH]; cbn [index_of app In length]; intros N; [rewrite Z.eqb_refl; reflexivity|]. replace (x =? y) with false by lia. rewrite IH by tauto. reflexivity. Qed.
Lemma index_nth l : NoDup l -> forall i x, nth_error l i = Some x -> index_of x l = i.
Proof.
  induction 1 as [|y l N D IH]; intros [|i] x E; try discriminate; cbn in E; cbn [index_of].
  - injection E as ->. rewrite Z.eqb_refl. reflexivity.
  - destruct (Z.eqb_spec x y) as [->|]; [apply nth_error_In in E; contradiction|]. rewrite (IH i x E). reflexivity.
Qed.
Definition num (ks : list Z) (x : Z) : Z := Z.of_nat (index_of x ks).
Lemma num_app ks l x : In x ks -> num (ks ++ l) x = num ks x.
Proof. intros I. unfold num. rewrite index_app by exact I. reflexivity. Qed.

(** ---- the builder ---- *)
Definition numbered_map (ks : list Z) : list (Z * Z) := combine ks (zseq (zlen ks)).
Lemma zseq_S n : zseq (Z.of_nat (S n)) = zseq (Z.of_nat n) ++ [Z.of_nat n].
Proof. rewrite !zseq_nat, seq_S, map_app. reflexivity. Qed.
Lemma numbered_snoc ks x : numbered_map (ks ++ [x]) = numbered_map ks ++ [(x, zlen ks)].
Proof.
  unfold numbered_map, zlen. rewrite app_length. cbn [length]. rewrite Nat.add_1_r, zseq_S.
  assert (K : forall (a : list Z) (b : list Z) u v, length a = length b -> combine (a ++ [u]) (b ++ [v]) = combine a b ++ [(u, v)]).
  { induction a as [|s a IH]; intros [|t b] u v E; try discriminate; [reflexivity|]. cbn. rewrite IH by (cbn in E; lia). reflexivity. }
  apply K. unfold zseq. rewrite map_length, seq_length. lia.
Qed.
Lemma numbered_find ks x : find (fun kv => fst kv =? x) (numbered_map ks) = if existsb (Z.eqb x) ks then Some (x, num ks x) else None.
Proof.
  induction ks as [|y ks IH] using rev_ind; [reflexivity|]. rewrite numbered_snoc, existsb_app. cbn [existsb]. rewrite orb_false_r.
  assert (K : forall l, find (fun kv => fst kv =? x) (l ++ [(y, zlen ks)]) = match find (fun kv => fst kv =? x) l with Some v => Some v | None => if y =? x then Some (y, zlen ks) else None end).
  { induction l as [|z l IHl]; [reflexivity|]. cbn [app find]. destruct (fst z =? x); [reflexivity|exact IHl]. }
  rewrite K, IH. destruct (existsb (Z.eqb x) ks) eqn:E; cbn [orb].
  - apply existsb_In in E. rewrite num_app by exact E. reflexivity.
  - rewrite Z.eqb_sym. destruct (Z.eqb_spec x y) as [->|]; [|reflexivity]. assert (~ In y ks) by (intros I; apply existsb_In in I; congruence). unfold num. rewrite index_last by assumption. reflexivity.
Qed.
Lemma numbered_len ks : length (numbered_map ks) = length ks.
Proof. unfold numbered_map. rewrite combine_length. unfold zseq. rewrite map_length, seq_length. unfold zlen. lia. Qed.
Lemma add_ids_ok ids : forall ks conn, add_ids (numbered_map ks) conn ids = (numbered_map (ks ++ firsts ks ids), conn ++ map (num (ks ++ firsts ks ids)) ids).
Proof.
  induction ids as [|x ids IH]; intros ks conn; cbn [add_ids firsts map]; [rewrite !app_nil_r; reflexivity|].
  unfold new_point. rewrite numbered_find. destruct (existsb (Z.eqb x) ks) eqn:E.
  - cbn [snd]. rewrite IH, <- app_assoc. cbn [app]. apply existsb_In in E. rewrite num_app by exact E. reflexivity.
  - assert (N : ~ In x ks) by (intros I; apply existsb_In in I; congruence). unfold zlen at 1 2. rewrite numbered_len. fold (zlen ks). rewrite <- numbered_snoc, IH.
    rewrite (firsts_ext ids (ks ++ [x]) (x :: ks)) by (intros y; rewrite in_app_iff; cbn [In]; tauto).
    rewrite <- !app_assoc. cbn [app]. do 3 f_equal. f_equal.
    assert (Q : num (ks ++ x :: firsts (x :: ks) ids) x = zlen ks).
    { change (ks ++ x :: firsts (x :: ks) ids) with (ks ++ [x] ++ firsts (x :: ks) ids). rewrite app_assoc, num_app by (apply in_or_app; right; left; reflexivity). unfold num. rewrite index_last by exact N. reflexivity. }
    rewrite Q. reflexivity.
Qed.
(** the state after adding [elems] *)
Definition adds (elems : list (list Z)) : builder := fold_left (fun b ids => fst (b_add b ids)) elems b_new.
Lemma map_num_app ks l ids : (forall x, In x ids -> In x ks) -> map (num (ks ++ l)) ids = map (num ks) ids.
Proof. intros H. apply map_ext_in. intros x I. apply num_app, H, I. Qed.
Theorem adds_ok elems : adds elems = {| b_map := numbered_map (distinct (concat elems)); b_conn := map (num (distinct (concat elems))) (concat elems); b_sizes := map zlen elems |}.
Proof.
  induction elems as [|ids elems IH] using rev_ind; [reflexivity|]. unfold adds in *. rewrite fold_left_app. cbn [fold_left]. rewrite IH. unfold b_add. cbn [b_map b_conn b_sizes].
  rewrite add_ids_ok. cbn [fst]. rewrite concat_app, (map_app zlen). cbn [concat map]. rewrite app_nil_r.
  assert (Q : distinct (concat elems ++ ids) = distinct (concat elems) ++ firsts (distinct (concat elems)) ids).
  { unfold distinct at 1. rewrite firsts_app. cbn [app]. rewrite (firsts_ext ids (concat elems) (distinct (concat elems))) by (intros x; symmetry; apply distinct_ok). reflexivity. }
  rewrite Q, map_app. f_equal. f_equal. symmetry. apply map_num_app. intros x I. apply distinct_ok, I.
Qed.
Theorem add_number elems ids : snd (b_add (adds elems) ids) = zlen elems.
Proof. unfold b_add. destruct (add_ids _ _ _). rewrite adds_ok. cbn [snd b_sizes]. unfold zlen. rewrite map_length. reflexivity. Qed.

(** [num] on the distinct points: different points get different numbers 0, 1, ... *)
Lemma num_range l x : In x l -> 0 <= num (distinct l) x < zlen (distinct l).
Proof. intros I. apply distinct_ok in I. unfold num, zlen. destruct (index_In x _ I). lia. Qed.
Lemma num_inj l x y : In x l -> In y l -> num (distinct l) x = num (distinct l) y -> x = y.
Proof.
  intros I J E. apply distinct_ok in I, J. destruct (index_In x _ I) as [A _], (index_In y _ J) as [B _]. unfold num in E. apply Nat2Z.inj in E. rewrite E in A. congruence.
Qed.
Lemma num_onto l n : 0 <= n < zlen (distinct l) -> exists x, In x l /\ num (distinct l) x = n.
Proof.
  intros H. unfold zlen in H. destruct (nth_error (distinct l) (Z.to_nat n)) as [x|] eqn:E; [|apply nth_error_None in E; lia]. exists x. split; [apply distinct_ok; eapply nth_error_In; exact E|].
  unfold num. rewrite (index_nth _ (proj1 (distinct_ok l)) _ _ E). lia.
Qed.
Section ValuesFacts.
Context {F : Type}.
(** the values of the points in the order of their new numbers *)
Lemma slice_law (c : list F) ids : Forall (fun id => 0 <= id < zlen c) ids ->
  exists vs, slice_values c ids = Ok vs /\ length vs = length ids /\ forall i id, nth_error ids i = Some id -> nth_error vs i = znth c id.
Proof.
  intros H. unfold slice_values.
  destruct (omapM_make (fun i => deref (znth c i)) (fun i y => forall id, nth_error ids i = Some id -> znth c id = Some y) ids) as (vs & E & Lv & K).
  - intros i id Ei. rewrite Forall_forall in H. specialize (H id (nth_error_In _ _ Ei)). unfold zlen in H. unfold znth. replace (id <? 0) with false by lia.
    destruct (nth_error c (Z.to_nat id)) as [x|] eqn:Ex; [|apply nth_error_None in Ex; lia]. exists x. split; [reflexivity|]. intros id' E'. replace id' with id by congruence. replace (id <? 0) with false by lia. exact Ex.
  - exists vs. split; [exact E|]. split; [exact Lv|]. intros i id Ei. destruct (nth_error vs i) as [y|] eqn:Ey; [symmetry; apply (K i y Ey id Ei)|]. apply nth_error_None in Ey. apply nth_error_Some_lt in Ei. lia.
Qed.
Lemma slices_law (cs : list (list F)) ids : in_range cs ids ->
  exists vs, omapM (fun c => slice_values c ids) cs = Ok vs /\ length vs = length cs /\ Forall (fun v => length v = length ids) vs /\
    forall i id, nth_error ids i = Some id -> locate vs (Z.of_nat i) = locate cs id.
Proof.
  intros H. destruct (omapM_make (fun c => slice_values c ids) (fun j v => length v = length ids /\ forall i id c, nth_error cs j = Some c -> nth_error ids i = Some id -> nth_error v i = znth c id) cs) as (vs & E & Lv & K).
  - intros j c Ec. unfold in_range in H. rewrite Forall_forall in H. destruct (slice_law c ids (H c (nth_error_In _ _ Ec))) as (v & Ev & Ln & Kv). exists v. split; [exact Ev|]. split; [exact Ln|]. intros i id c' Ec' Ei. replace c' with c by congruence. apply Kv, Ei.
  - exists vs. split; [exact E|]. split; [exact Lv|]. split.
    + apply Forall_forall. intros v I. apply In_nth_error in I. destruct I as [j Ej]. apply (K j v Ej).
    + intros i id Ei. unfold locate. apply nth_error_ext'. intros j. rewrite !nth_error_map. destruct (nth_error vs j) as [v|] eqn:Ev, (nth_error cs j) as [c|] eqn:Ec; cbn; [|apply nth_error_None in Ec; apply nth_error_Some_lt in Ev; lia|apply nth_error_None in Ev; apply nth_error_Some_lt in Ec; lia|reflexivity].
      destruct (K j v Ev) as [_ Kv]. rewrite znth_nat, (Kv i id c Ec Ei). reflexivity.
Qed.
Lemma placed_num (cs vs : list (list F)) l row : (forall i id, nth_error (distinct l) i = Some id -> locate vs (Z.of_nat i) = locate cs id) ->
  (forall x, In x row -> In x l) -> placed vs (map (num (distinct l)) row) = placed cs row.
Proof.
  intros K S. unfold placed. rewrite map_map. apply map_ext_in. intros x I. unfold num. apply K. apply index_In. apply distinct_ok, S, I.
Qed.
Lemma in_range_sub (cs : list (list F)) l l' : in_range cs l -> (forall x, In x l' -> In x l) -> in_range cs l'.
Proof. intros H S. unfold in_range in *. eapply Forall_impl; [|exact H]. intros c Hc. apply Forall_forall. intros x I. rewrite Forall_forall in Hc. apply Hc, S, I. Qed.
Lemma numbered_In ks k v : In (k, v) (numbered_map ks) <-> exists i, nth_error ks i = Some k /\ v = Z.of_nat i.
Proof.
  unfold numbered_map, zlen. rewrite zseq_nat. rewrite <- (Nat.add_0_l (length ks)) at 1.
  assert (G : forall ks s, In (k, v) (combine ks (map Z.of_nat (seq s (length ks)))) <-> exists i, nth_error ks i = Some k /\ v = Z.of_nat (s + i)).
  { clear ks. induction ks as [|y ks IH]; intros s; cbn [length seq map combine In]; [split; [intros []|intros ([|i] & E & _); discriminate]|]. rewrite IH. split.
    - intros [E|(i & E & ->)]; [injection E as -> <-; exists 0%nat; split; [reflexivity|f_equal; lia]|exists (S i); split; [exact E|f_equal; lia]].
    - intros ([|i] & E & ->); cbn in E; [injection E as ->; left; f_equal; f_equal; lia|right; exists i; split; [exact E|f_equal; lia]]. }
  cbn [Nat.add]. apply (G ks 0%nat).
Qed.
Lemma exec_axis_ok ks (c : list F) : NoDup ks -> Forall (fun id => 0 <= id < zlen c) ks ->
  exists vs, exec_axis (numbered_map ks) c = Ok (map Some vs) /\ slice_values c ks = Ok vs.
Proof.
  intros N R. destruct (slice_law c ks R) as (vs & E & Lv & K). exists vs. split; [|exact E]. unfold exec_axis. rewrite numbered_len.
  (* the writes as a list of values *)
  assert (W : for_ (numbered_map ks) (fun kv cells => do x <- deref (znth c (fst kv)); put (snd kv) x cells) (repeat None (length ks)) = puts (combine (zseq (zlen ks)) vs) (repeat None (length ks))).
  { unfold puts, numbered_map. assert (L1 : length (zseq (zlen ks)) = length ks) by (unfold zseq, zlen; rewrite map_length, seq_length; lia). revert L1.
    generalize (zseq (zlen ks)) as zs. generalize (repeat (@None F) (length ks)) as cells. revert E. clear - R. revert vs. unfold slice_values.
    induction ks as [|k ks IH]; intros vs E cells zs L1; [destruct zs; [destruct vs; [reflexivity|discriminate]|discriminate]|].
    destruct zs as [|z zs]; [discriminate|]. rewrite omapM_cons in E. destruct (znth c k) as [x|] eqn:Ex; [|discriminate]. cbn [deref obind] in E. destruct (omapM _ ks) as [vs'| | |] eqn:E'; try discriminate. cbn [obind] in E. injection E as <-.
    cbn [combine for_ fst snd]. rewrite Ex. cbn [deref obind]. destruct (put z x cells) as [cells'| | |]; cbn [obind]; try reflexivity. inversion_clear R. apply IH; [assumption|reflexivity|cbn in L1; lia]. }
  rewrite W. destruct (puts_ok (combine (zseq (zlen ks)) vs) (repeat None (length ks))) as (a' & Ea & La & _ & Hin).
  { intros o v I. rewrite repeat_length. apply in_combine_l in I. apply in_zseq in I. unfold zlen in I. lia. }
  rewrite Ea. f_equal. apply nth_error_ext'. intros i. rewrite nth_error_map. rewrite repeat_length in La. destruct (Nat.lt_ge_cases i (length ks)) as [C|C].
  - destruct (nth_error vs i) as [v|] eqn:Ev; [|apply nth_error_None in Ev; lia]. cbn. rewrite <- (Nat2Z.id i). apply Hin.
    + assert (I : nth_error (combine (zseq (zlen ks)) vs) i = Some (Z.of_nat i, v)).
      { assert (Ez : nth_error (zseq (zlen ks)) i = Some (Z.of_nat i)) by (unfold zlen; rewrite zseq_nat, nth_error_map, (nth_error_nth' _ 0%nat) by (rewrite seq_length; exact C); rewrite seq_nth by exact C; reflexivity).
        revert Ez Ev. generalize (zseq (zlen ks)) as zs. generalize (Z.of_nat i) as z. clear. revert vs. induction i as [|i IH]; intros [|v' vs] z [|z' zs] A B; try discriminate; cbn in *; [congruence|apply IH; assumption]. }
      eapply nth_error_In; exact I.
    + intros v' I. apply In_nth_error in I. destruct I as [j Ej].
      assert (Ez : nth_error (zseq (zlen ks)) j = Some (Z.of_nat i) /\ nth_error vs j = Some v').
      { revert Ej. generalize (zseq (zlen ks)) as zs. clear. revert vs. induction j as [|j IH]; intros [|u vs] [|z zs] E; try discriminate; cbn in *; [injection E as -> ->; auto|apply IH, E]. }
      destruct Ez as [Ez Ev']. unfold zlen in Ez. rewrite zseq_nat, nth_error_map in Ez. destruct (nth_error (seq 0 (length ks)) j) as [j'|] eqn:Ej'; [|discriminate]. cbn in Ez. injection Ez as Ez. apply Nat2Z.inj in Ez.
      pose proof (nth_error_Some_lt _ _ _ Ej') as Lj. rewrite seq_length in Lj. rewrite (nth_error_nth' _ 0%nat) in Ej' by (rewrite seq_length; exact Lj). rewrite seq_nth in Ej' by exact Lj. cbn in Ej'. injection Ej' as <-. subst j. congruence.
  - rewrite !(proj2 (nth_error_None _ _)); [reflexivity| |]; lia.
Qed.

Theorem history_law (coords : list (list F)) ops : forall elems b, b_run coords (adds elems) ops = Ok b -> b = adds (since elems ops).
Proof.
  induction ops as [|[ids|s] ops IH]; intros elems b E; cbn [b_run since] in *; [congruence| |].
  - apply IH. rewrite <- E. f_equal. unfold adds. rewrite fold_left_app. reflexivity.
  - unfold b_execute in E. destruct (omapM _ _) as [cs| | |]; try discriminate. cbn [obind] in E. destruct (offsets_inline _) as [[o so]| | |]; try discriminate. cbn [obind] in E. apply (IH [] b E).
Qed.
(** what the executed builder returns *)
Theorem execute_law (coords : list (list F)) elems shape : in_range coords (concat elems) -> zlen (concat elems) <= int_max INT64 ->
  shape <> L "polyhedral" -> match points_of shape with Some n => Forall (fun r => length r = n) elems | None => shape = L "polygonal" end ->
  exists cs t rows, b_execute (adds elems) shape coords = Ok (map (map Some) cs, t, starts rows, b_new) /\
    has_rows t rows /\ t_shape t = shape /\ t_sizes t = map zlen rows /\ length rows = length elems /\ length cs = length coords /\
    (forall k row, nth_error elems k = Some row -> exists row', nth_error rows k = Some row' /\ placed cs row' = placed coords row) /\
    (forall k row, nth_error rows k = Some row -> in_range cs row) /\
    (forall c id, In c cs -> 0 <= id < zlen c -> exists row, In row rows /\ In id row) /\
    Forall (fun c => zlen c = zlen (distinct (concat elems))) cs.
Proof.
  intros R B NP Sh. set (ks := distinct (concat elems)). set (rows := map (map (num ks)) elems).
  assert (Rk : in_range coords ks) by (eapply in_range_sub; [exact R|]; intros x; apply distinct_ok).
  destruct (slices_law coords ks Rk) as (cs & Ec & Lc & Lk & Kc).
  assert (Ex : omapM (exec_axis (numbered_map ks)) coords = Ok (map (map Some) cs)).
  { apply omapM_nth; [rewrite map_length; exact Lc|]. intros i c y Eci Ey. rewrite nth_error_map in Ey. destruct (nth_error cs i) as [v|] eqn:Ev; [|discriminate]. cbn in Ey. injection Ey as <-.
    unfold in_range in Rk. rewrite Forall_forall in Rk. destruct (exec_axis_ok ks c (proj1 (distinct_ok _)) (Rk c (nth_error_In _ _ Eci))) as (vs & A & S). rewrite A. do 2 f_equal.
    assert (Q : slice_values c ks = Ok v); [|congruence]. clear - Ec Eci Ev. revert cs Ec i Eci Ev. induction coords as [|c0 coords IH]; intros cs Ec [|i] Eci Ev; try discriminate; cbn in Eci; rewrite omapM_cons in Ec;
      destruct (slice_values c0 ks) as [v0| | |] eqn:E0; try discriminate; cbn [obind] in Ec; destruct (omapM _ coords) as [cs'| | |] eqn:E'; try discriminate; cbn [obind] in Ec; injection Ec as <-; cbn in Ev.
    - injection Eci as ->. congruence.
    - eapply IH; [reflexivity|exact Eci|exact Ev]. }
  assert (Er : concat rows = map (num ks) (concat elems)) by (unfold rows; rewrite concat_map; reflexivity).
  assert (Es : map zlen rows = map zlen elems) by (unfold rows; rewrite map_map; apply map_ext; intros r; unfold zlen; rewrite map_length; reflexivity).
  assert (H : has_rows (b_topo (adds elems) shape) rows).
  { split; rewrite adds_ok; cbn [b_topo t_conn t_shape t_sizes b_conn b_sizes]; [symmetry; exact Er|].
    destruct (points_of shape) as [n|]; [|split; [left; exact Sh|symmetry; exact Es]]. apply Forall_forall. intros r I. apply in_map_iff in I. destruct I as (r0 & <- & I). rewrite map_length. rewrite Forall_forall in Sh. apply Sh, I. }
  exists cs, (b_topo (adds elems) shape), rows. split; [|split; [exact H|split; [reflexivity|split; [rewrite adds_ok; symmetry; exact Es|split; [apply map_length|split; [exact Lc|split; [|split; [|split]]]]]]]].
  - unfold b_execute. unfold offsets_inline. rewrite (offsets_law (b_topo (adds elems) shape) rows); [|exact H|exact NP|reflexivity|].
    + replace (b_map (adds elems)) with (numbered_map ks) by (rewrite adds_ok; reflexivity). rewrite Ex. reflexivity.
    + replace (offset_type _) with INT64 by reflexivity. apply Forall_forall. intros x I. apply starts_in in I. rewrite Er in I. unfold zlen in *. rewrite map_length in I. lia.
  - intros k row Ek. exists (map (num ks) row). split; [unfold rows; rewrite nth_error_map, Ek; reflexivity|]. apply (placed_num coords cs (concat elems)); [exact Kc|]. intros x I. apply in_concat. exists row. split; [eapply nth_error_In; exact Ek|exact I].
  - intros k row Ek. unfold rows in Ek. rewrite nth_error_map in Ek. destruct (nth_error elems k) as [r|] eqn:E; [|discriminate]. cbn in Ek. injection Ek as <-. apply Forall_forall. intros c Ic. apply Forall_forall. intros x I. apply in_map_iff in I. destruct I as (y & <- & I).
    rewrite Forall_forall in Lk. unfold zlen. rewrite (Lk c Ic). apply num_range. apply in_concat. exists r. split; [eapply nth_error_In; exact E|exact I].
  - intros c id Ic Hid. rewrite Forall_forall in Lk. unfold zlen in Hid. rewrite (Lk c Ic) in Hid. destruct (num_onto (concat elems) id Hid) as (x & I & <-). apply in_concat in I. destruct I as (r & Ir & I). exists (map (num ks) r). split; [apply in_map, Ir|apply in_map, I].
  - eapply Forall_impl; [|exact Lk]. intros c Hc. unfold zlen. rewrite Hc. reflexivity.
Qed.
End ValuesFacts.

(** ---- reorder ---- *)
Lemma in_distinct l x : In x (distinct l) -> In x l.
Proof. intros I. apply (proj1 (proj2 (distinct_ok l) x) I). Qed.
Lemma at_face rows k : 0 <= k < zlen rows -> nth_error rows (Z.to_nat k) = Some (face rows k).
Proof. intros H. apply nth_error_nth'. unfold zlen in H. lia. Qed.

Section ReorderFacts.
Context {F : Type}.
Variable npts : nat.
Definition start : rstate := {| r_map := repeat (-1) npts; r_pts := []; r_next := 0; r_conn := [] |}.
Record after (don : list Z) (s : rstate) : Prop := {
  af_pts : r_pts s = distinct don;
  af_next : r_next s = zlen (distinct don);
  af_conn : r_conn s = map (num (distinct don)) don;
  af_len : length (r_map s) = npts;
  af_map : forall id, (id < npts)%nat -> nth_error (r_map s) id = Some (if existsb (Z.eqb (Z.of_nat id)) don then num (distinct don) (Z.of_nat id) else -1) }.
Lemma after_start : after [] start.
Proof. split; try reflexivity; [apply repeat_length|]. intros id H. cbn. apply nth_error_repeat. exact H. Qed.
Lemma distinct_snoc l x : distinct (l ++ [x]) = if existsb (Z.eqb x) l then distinct l else distinct l ++ [x].
Proof. unfold distinct. rewrite firsts_app. cbn [firsts app]. destruct (existsb _ l); [apply app_nil_r|reflexivity]. Qed.
Lemma visit_ok don s id : after don s -> 0 <= id < Z.of_nat npts -> exists s', visit id s = Ok s' /\ after (don ++ [id]) s'.
Proof.
  intros [A1 A2 A3 A4 A5] H. unfold visit. pose proof (A5 (Z.to_nat id) ltac:(lia)) as Em. rewrite Z2Nat.id in Em by lia.
  assert (Zn : forall l : list Z, znth l id = nth_error l (Z.to_nat id)) by (intros l; unfold znth; replace (id <? 0) with false by lia; reflexivity).
  rewrite Zn, Em. cbn [deref obind]. destruct (existsb (Z.eqb id) don) eqn:Ex.
  - assert (I : In id don) by (apply existsb_In; exact Ex). pose proof (num_range don id I) as Rg. replace (num _ id =? -1) with false by lia. cbn [obind r_map r_pts r_next r_conn].
    rewrite Zn, Em. cbn [deref obind]. eexists. split; [reflexivity|].
    assert (Q : distinct (don ++ [id]) = distinct don) by (rewrite distinct_snoc, Ex; reflexivity).
    split; cbn [r_map r_pts r_next r_conn]; rewrite ?Q; try assumption.
    + rewrite map_app, A3. reflexivity.
    + intros j Hj. rewrite (A5 j Hj), existsb_app. cbn [existsb]. rewrite orb_false_r. destruct (existsb (Z.eqb (Z.of_nat j)) don) eqn:Ej; [reflexivity|]. destruct (Z.eqb_spec (Z.of_nat j) id) as [Q2|]; [subst id; congruence|reflexivity].
  - assert (N : ~ In id don) by (intros I; apply existsb_In in I; congruence). rewrite Z.eqb_refl. cbn [obind r_map r_pts r_next r_conn].
    rewrite Zn, set_nth_same by lia. cbn [deref obind]. eexists. split; [reflexivity|].
    assert (Q : distinct (don ++ [id]) = distinct don ++ [id]) by (rewrite distinct_snoc, Ex; reflexivity).
    assert (Nd : ~ In id (distinct don)) by (intros I; apply in_distinct in I; contradiction).
    split; cbn [r_map r_pts r_next r_conn]; rewrite ?Q.
    + rewrite A1. reflexivity.
    + rewrite A2, zlen_app. reflexivity.
    + rewrite map_app, A3. cbn [map]. f_equal; [symmetry; apply map_num_app; intros x I; apply distinct_ok, I|]. unfold num. rewrite index_last by exact Nd. rewrite A2. reflexivity.
    + rewrite set_nth_len. exact A4.
    + intros j Hj. rewrite existsb_app. cbn [existsb]. rewrite orb_false_r. destruct (Nat.eq_dec j (Z.to_nat id)) as [->|Nj].
      * rewrite set_nth_same by lia. rewrite Z2Nat.id by lia. rewrite Z.eqb_refl, orb_true_r. unfold num. rewrite index_last by exact Nd. rewrite A2. reflexivity.
      * rewrite set_nth_diff by congruence. rewrite (A5 j Hj). replace (Z.of_nat j =? id) with false by lia. rewrite orb_false_r. destruct (existsb (Z.eqb (Z.of_nat j)) don) eqn:Ej; [|reflexivity]. rewrite num_app; [reflexivity|]. apply distinct_ok, existsb_In, Ej.
Qed.
Lemma visits_ok ids : forall don s, after don s -> Forall (fun id => 0 <= id < Z.of_nat npts) ids -> exists s', for_ ids visit s = Ok s' /\ after (don ++ ids) s'.
Proof.
  induction ids as [|x ids IH]; intros don s A R; [exists s; rewrite app_nil_r; split; [reflexivity|exact A]|]. inversion_clear R. destruct (visit_ok don s x A H) as (s1 & E1 & A1). cbn [for_]. rewrite E1. cbn [obind].
  destruct (IH _ _ A1 H0) as (s2 & E2 & A2). exists s2. rewrite <- app_assoc in A2. split; [exact E2|exact A2].
Qed.
Lemma cell_walk conn o r : forall a, (forall i x, nth_error r i = Some x -> at_ conn (o + Z.of_nat (a + i)) = Ok x) -> forall s,
  for_ (seq a (length r)) (fun x s => do id <- at_ conn (o + Z.of_nat x); visit id s) s = for_ r visit s.
Proof.
  induction r as [|y r IH]; intros a A s; [reflexivity|]. cbn [length seq for_]. pose proof (A 0%nat y eq_refl) as A0. rewrite Nat.add_0_r in A0. rewrite A0. cbn [obind].
  destruct (visit y s) as [s'| | |]; cbn [obind]; try reflexivity. apply IH. intros i x Ex. rewrite <- (A (S i) x Ex). do 3 f_equal. lia.
Qed.
Lemma cell_row rows k r s : nth_error rows k = Some r -> cell (concat rows) (map zlen rows) (starts rows) (Z.of_nat k) s = for_ r visit s.
Proof.
  intros E. unfold cell. rewrite (at_lens _ _ _ E). cbn [obind]. unfold zlen. rewrite zseq_nat, for_map. rewrite (at_starts _ _ _ E). cbn [obind].
  apply cell_walk. intros i x Ex. unfold at_, zlen. cbn [Nat.add]. rewrite <- Nat2Z.inj_add, znth_nat, (concat_at _ _ _ _ E (nth_error_Some_lt _ _ _ Ex)), Ex. reflexivity.
Qed.
Lemma cells_rows rows order : Forall (fun k => 0 <= k < zlen rows) order -> forall s,
  for_ order (cell (concat rows) (map zlen rows) (starts rows)) s = for_ (flat_map (face rows) order) visit s.
Proof.
  induction 1 as [|k order Hk H IH]; intros s; [reflexivity|]. cbn [for_ flat_map]. rewrite for_app. rewrite <- (Z2Nat.id k) at 1 by lia. rewrite (cell_row rows (Z.to_nat k) (face rows k)) by (apply at_face; exact Hk).
  destruct (for_ (face rows k) visit s); cbn [obind]; try reflexivity. apply IH.
Qed.
(** new numbers are not larger than the old ones were *)
Lemma few_distinct l m : Forall (fun x => 0 <= x <= m) l -> 0 <= m -> zlen (distinct l) <= m + 1.
Proof.
  intros H M. unfold zlen. assert (K : (length (distinct l) <= length (zseq (m + 1)))%nat).
  { apply NoDup_incl_length; [apply distinct_ok|]. intros x I. apply in_zseq. apply in_distinct in I. rewrite Forall_forall in H. specialize (H x I). lia. }
  unfold zseq in K. rewrite map_length, seq_length in K. lia.
Qed.

Theorem reorder_law ct st ot (m : mesh (F := F)) rows order :
  m_conn m = concat rows -> m_sizes m = map zlen rows -> m_offs m = starts rows ->
  is_int ct = true -> is_int st = true -> is_int ot = true ->
  Forall (fun x => 0 <= x < Z.of_nat npts) (concat rows) ->
  Forall (fun x => x <= int_max ct) (concat rows) -> Forall (fun r => zlen r <= int_max st) rows ->
  Forall (fun c => length c = npts) (m_coords m ++ m_vfields m) -> Forall (fun c => length c = length rows) (m_efields m) ->
  Forall (fun k => 0 <= k < zlen rows) order ->
  Forall (fun x => x <= int_max ot) (starts (map (face rows) order)) ->
  exists m' o2n rows', reorder ct st ot m order npts = Ok (m', o2n) /\
    m_conn m' = concat rows' /\ m_sizes m' = map zlen rows' /\ m_offs m' = starts rows' /\ length rows' = length order /\
    (forall j k r, nth_error order j = Some k -> nth_error rows (Z.to_nat k) = Some r ->
       exists r', nth_error rows' j = Some r' /\ r' = map (fun id => nth (Z.to_nat id) o2n (-1)) r /\ placed (m_coords m') r' = placed (m_coords m) r /\ placed (m_vfields m') r' = placed (m_vfields m) r /\
         locate (m_efields m') (Z.of_nat j) = locate (m_efields m) k) /\
    Forall (fun c => Forall (fun id => 0 <= id < zlen c) (concat rows')) (m_coords m' ++ m_vfields m') /\
    (forall id, (id < npts)%nat -> nth_error o2n id = Some (-1) <-> ~ In (Z.of_nat id) (flat_map (face rows) order)).
Proof.
  intros Hc Hs Ho Ict Ist Iot Rc Bc Bs Lv Le Ror Bo. unfold reorder. rewrite Hc, Hs, Ho. rewrite (cells_rows rows order Ror). set (used := flat_map (face rows) order).
  assert (Inc : forall x, In x used -> In x (concat rows)).
  { intros x I. apply in_flat_map in I. destruct I as (k & Ik & I). rewrite Forall_forall in Ror. pose proof (at_face rows k (Ror k Ik)) as E. apply in_concat. exists (face rows k). split; [eapply nth_error_In; exact E|exact I]. }
  assert (Ru : Forall (fun id => 0 <= id < Z.of_nat npts) used) by (apply Forall_forall; intros x I; rewrite Forall_forall in Rc; apply Rc, Inc, I).
  destruct (visits_ok used [] start after_start Ru) as (s & Es & As). cbn [app] in As. fold start. rewrite Es. cbn [obind].
  destruct As as [A1 A2 A3 A4 A5]. set (ks := distinct used) in *.
  assert (En : omapM (at_ (map zlen rows)) order = Ok (map zlen (map (face rows) order))).
  { rewrite map_map. apply omapM_nth; [apply map_length|]. intros i k y Ek Ey. rewrite nth_error_map, Ek in Ey. cbn in Ey. injection Ey as <-. rewrite Forall_forall in Ror. pose proof (Ror k (nth_error_In _ _ Ek)) as Rk. rewrite <- (Z2Nat.id k) at 1 by lia. apply at_lens. apply at_face. exact Rk. }
  rewrite En. cbn [obind]. rewrite A1.
  apply Forall_app in Lv. destruct Lv as [Lc Lvf].
  assert (Rks : forall cs : list (list F), Forall (fun c => length c = npts) cs -> in_range cs ks).
  { intros cs H. unfold in_range. eapply Forall_impl; [|exact H]. intros c Hl. cbn beta in Hl. apply Forall_forall. intros x I. apply in_distinct in I. rewrite Forall_forall in Ru. specialize (Ru x I). unfold zlen. lia. }
  destruct (slices_law (m_coords m) ks (Rks _ Lc)) as (cs & Ecs & Lcs & Lks & Kcs). rewrite Ecs. cbn [obind].
  assert (Re : in_range (m_efields m) order) by (unfold in_range; eapply Forall_impl; [|exact Le]; intros c Hl; cbn beta in Hl; unfold zlen in *; rewrite Hl; exact Ror).
  destruct (slices_law (m_efields m) order Re) as (es & Ees & Les & _ & Kes). rewrite Ees. cbn [obind].
  destruct (slices_law (m_vfields m) ks (Rks _ Lvf)) as (vs & Evs & Lvs & Lkv & Kvs). rewrite Evs. cbn [obind].
  set (rows' := map (map (num ks)) (map (face rows) order)).
  assert (Er : concat rows' = map (num ks) used) by (unfold rows', used; rewrite <- concat_map, <- flat_map_concat_map; reflexivity).
  assert (Ez : map zlen rows' = map zlen (map (face rows) order)) by (unfold rows'; rewrite !map_map; apply map_ext; intros k; unfold zlen; rewrite map_length; reflexivity).
  assert (Est : starts rows' = starts (map (face rows) order)) by (rewrite <- !running_starts0, Ez; reflexivity).
  eexists _, (r_map s), rows'. split; [reflexivity|]. cbn [m_conn m_sizes m_offs m_coords m_vfields m_efields]. split; [|split; [|split; [|split; [|split; [|split]]]]].
  - rewrite A3, Er. rewrite <- (map_id (map (num ks) used)) at 2. apply map_ext_in. intros n I. apply in_map_iff in I. destruct I as (x & <- & I). apply conv_offset; [exact Ict|].
    pose proof (num_range used x I) as Rn. fold ks in Rn. assert (0 <= int_max ct) by (rewrite Forall_forall in Bc, Rc; specialize (Bc x (Inc x I)); specialize (Rc x (Inc x I)); lia).
    pose proof (few_distinct used (int_max ct)) as Fd. fold ks in Fd. assert (Forall (fun x => 0 <= x <= int_max ct) used); [|specialize (Fd ltac:(assumption) ltac:(assumption)); lia].
    apply Forall_forall. intros y J. rewrite Forall_forall in Bc, Rc. specialize (Bc y (Inc y J)). specialize (Rc y (Inc y J)). lia.
  - rewrite <- Ez. rewrite <- (map_id (map zlen rows')) at 2. apply map_ext_in. intros n I. rewrite Ez in I. apply in_map_iff in I. destruct I as (r & <- & I). apply conv_offset; [exact Ist|]. apply in_map_iff in I. destruct I as (k & <- & I).
    rewrite Forall_forall in Ror, Bs. pose proof (at_face rows k (Ror k I)) as E. specialize (Bs _ (nth_error_In _ _ E)). unfold zlen in *. lia.
  - rewrite running_starts0, Est. apply conv_starts; [exact Iot|exact Bo].
  - unfold rows'. rewrite !map_length. reflexivity.
  - intros j k r Ej Ek. assert (Rk : 0 <= k < zlen rows) by (rewrite Forall_forall in Ror; apply Ror; eapply nth_error_In; exact Ej). pose proof (at_face rows k Rk) as E. rewrite Ek in E. injection E as ->.
    assert (Iu : forall x, In x (face rows k) -> In x used) by (intros x I; apply in_flat_map; exists k; split; [eapply nth_error_In; exact Ej|exact I]).
    exists (map (num ks) (face rows k)). split; [unfold rows'; rewrite !nth_error_map, Ej; reflexivity|]. split; [|split; [|split]].
    + apply map_ext_in. intros x I. specialize (Iu x I). rewrite Forall_forall in Ru. pose proof (Ru x Iu) as Rx. pose proof (A5 (Z.to_nat x) ltac:(lia)) as Q. rewrite Z2Nat.id in Q by lia. rewrite (proj2 (existsb_In x used) Iu) in Q. rewrite (nth_error_nth _ _ _ Q). reflexivity.
    + apply (placed_num (m_coords m) cs used); assumption.
    + apply (placed_num (m_vfields m) vs used); assumption.
    + apply Kes, Ej.
  - rewrite Er. apply Forall_app. split; [eapply Forall_impl; [|exact Lks]|eapply Forall_impl; [|exact Lkv]]; intros c Hl; cbn beta in Hl; apply Forall_forall; intros n I; apply in_map_iff in I; destruct I as (x & <- & I); unfold zlen; rewrite Hl; apply num_range; exact I.
  - intros id Hid. rewrite (A5 id Hid). destruct (existsb (Z.eqb (Z.of_nat id)) used) eqn:Ex.
    + apply existsb_In in Ex. pose proof (num_range used (Z.of_nat id) Ex) as Rn. fold ks in Rn. split; [intros Q; injection Q as Q; lia|tauto].
    + split; [|reflexivity]. intros _ I. apply existsb_In in I. congruence.
Qed.
End ReorderFacts.

(** ---- reindex ---- *)
Lemma last_place_some g l : forall i, In g l -> exists p, last_place g l i = Some p /\ i <= p < i + zlen l /\ nth_error l (Z.to_nat (p - i)) = Some g.
Proof.
  induction l as [|x l IH]; intros i I; [destruct I|]. cbn [last_place]. unfold zlen. cbn [length].
  destruct (in_dec Z.eq_dec g l) as [J|J].
  - destruct (IH (i + 1) J) as (p & E & R & N). unfold zlen in R. rewrite E. exists p. split; [reflexivity|]. split; [lia|]. replace (Z.to_nat (p - i)) with (S (Z.to_nat (p - (i + 1)))) by lia. exact N.
  - destruct I as [->|I]; [|contradiction]. assert (E : last_place g l (i + 1) = None).
    { clear IH. generalize (i + 1). induction l as [|y l IH]; intros z; [reflexivity|]. cbn [last_place]. cbn in J. rewrite IH by tauto. replace (y =? g) with false by lia. reflexivity. }
    rewrite E, Z.eqb_refl. exists i. split; [reflexivity|]. split; [lia|]. replace (i - i) with 0 by lia. reflexivity.
Qed.
Theorem reindex_law old new conn : Forall (fun v => 0 <= v < zlen old) conn -> (forall v g, In v conn -> znth old v = Some g -> In g new) ->
  exists conn', reindex old new conn = Ok conn' /\ Forall2 (fun v v' => 0 <= v' < zlen new /\ znth new v' = znth old v) conn conn'.
Proof.
  intros R H. unfold reindex. induction conn as [|v conn IH]; [exists []; split; [reflexivity|constructor]|]. inversion_clear R.
  destruct IH as (c' & E & F2); [assumption|intros; eapply H; [right; eassumption|eassumption]|].
  assert (Ev : exists g, znth old v = Some g) by (unfold znth; replace (v <? 0) with false by lia; unfold zlen in *; destruct (nth_error old (Z.to_nat v)) as [g|] eqn:Q; [exists g; reflexivity|apply nth_error_None in Q; lia]).
  destruct Ev as [g Eg]. destruct (last_place_some g new 0 (H v g (or_introl eq_refl) Eg)) as (p & Ep & Rp & Np).
  exists (p :: c'). assert (Ea : at_ old v = Ok g) by (unfold at_; rewrite Eg; reflexivity). rewrite omapM_cons, Ea. cbn [obind]. rewrite Ep, E. cbn [obind]. split; [reflexivity|]. constructor; [|exact F2]. split; [lia|]. rewrite Eg. unfold znth. replace (p <? 0) with false by lia. rewrite Z.sub_0_r in Np. exact Np.
Qed.

(** ---- Hilbert ordering ---- *)
Section HilbertFacts.
Context {F : Type}.
Variables (lt : F -> F -> bool) (mid : F -> F -> F) (coord : Z -> nat -> F) (part : (Z -> bool) -> list Z -> list Z * list Z).
Definition partitions : Prop := forall f l, Permutation l (fst (part f l) ++ snd (part f l)) /\
  Forall (fun i => f i = true) (fst (part f l)) /\ Forall (fun i => f i = false) (snd (part f l)).
Hypothesis P : partitions.
Lemma part_perm f l a b : part f l = (a, b) -> Permutation l (a ++ b).
Proof. intros E. destruct (P f l) as [Q _]. rewrite E in Q. exact Q. Qed.
Definition good (k : list Z -> outcome (list Z)) (n : nat) : Prop := forall l, (length l < n)%nat -> exists r, k l = Ok r /\ Permutation l r.
Lemma quarter (k : list Z -> outcome (list Z)) q (l : list Z) : (length q <= length l)%nat -> good k (length l) ->
  exists r, (if same q l then Ok q else k q) = Ok r /\ Permutation q r.
Proof.
  intros L G. unfold same. destruct (Nat.eqb_spec (length q) (length l)) as [E|E]; [exists q; split; reflexivity|]. apply G. lia.
Qed.
Theorem sort2_ok fuel : forall c1 d1 d2 l x y x' y', (length l < fuel)%nat -> exists r, sort2 lt mid coord part fuel c1 d1 d2 l x y x' y' = Ok r /\ Permutation l r.
Proof.
  induction fuel as [|f IH]; intros c1 d1 d2 l x y x' y' L; [lia|]. cbn [sort2]. destruct (length l <=? 1)%nat; [exists l; split; reflexivity|].
  destruct (part _ l) as [q12 q34] eqn:E0. apply part_perm in E0. destruct (part _ q12) as [q1 q2] eqn:E1. apply part_perm in E1. destruct (part _ q34) as [q3 q4] eqn:E2. apply part_perm in E2.
  pose proof (Permutation_length E0) as L0. pose proof (Permutation_length E1) as L1. pose proof (Permutation_length E2) as L2. rewrite app_length in L0, L1, L2.
  assert (G : forall c d d' a b a' b', good (fun l => sort2 lt mid coord part f c d d' l a b a' b') (length l)) by (intros c d d' a b a' b' l' Hl'; apply IH; lia).
  set (mx := mid x x'). set (my := mid y y').
  edestruct (quarter _ q1 l ltac:(lia) (G ((c1 + 1) mod 2)%nat d2 d1 y x my mx)) as (r1 & -> & P1). cbn [obind].
  edestruct (quarter _ q2 l ltac:(lia) (G c1 d1 d2 x my mx y')) as (r2 & -> & P2). cbn [obind].
  edestruct (quarter _ q3 l ltac:(lia) (G c1 d1 d2 mx my x' y')) as (r3 & -> & P3). cbn [obind].
  edestruct (quarter _ q4 l ltac:(lia) (G ((c1 + 1) mod 2)%nat (negb d2) (negb d1) my x' y mx)) as (r4 & -> & P4). cbn [obind].
  eexists. split; [reflexivity|]. rewrite E0, E1, E2, P1, P2, P3, P4, <- !app_assoc. reflexivity.
Qed.
Theorem sort3_ok fuel : forall c1 d1 d2 d3 l x y z x' y' z', (length l < fuel)%nat -> exists r, sort3 lt mid coord part fuel c1 d1 d2 d3 l x y z x' y' z' = Ok r /\ Permutation l r.
Proof.
  induction fuel as [|f IH]; intros c1 d1 d2 d3 l x y z x' y' z' L; [lia|]. cbn [sort3]. destruct (length l <=? 1)%nat; [exists l; split; reflexivity|].
  destruct (part _ l) as [h1 h2] eqn:E0. apply part_perm in E0. destruct (part _ h1) as [q1 q2] eqn:E1. apply part_perm in E1. destruct (part _ h2) as [q3 q4] eqn:E2. apply part_perm in E2.
  destruct (part _ q1) as [o1 o2] eqn:E3. apply part_perm in E3. destruct (part _ q2) as [o3 o4] eqn:E4. apply part_perm in E4. destruct (part _ q3) as [o5 o6] eqn:E5. apply part_perm in E5. destruct (part _ q4) as [o7 o8] eqn:E6. apply part_perm in E6.
  pose proof (Permutation_length E0) as L0. pose proof (Permutation_length E1) as L1. pose proof (Permutation_length E2) as L2. pose proof (Permutation_length E3) as L3. pose proof (Permutation_length E4) as L4. pose proof (Permutation_length E5) as L5. pose proof (Permutation_length E6) as L6.
  rewrite app_length in L0, L1, L2, L3, L4, L5, L6.
  assert (G : forall c d d' d'' a b e a' b' e', good (fun l => sort3 lt mid coord part f c d d' d'' l a b e a' b' e') (length l)) by (intros c d d' d'' a b e a' b' e' l' Hl'; apply IH; lia).
  set (mx := mid x x'). set (my := mid y y'). set (mz := mid z z'). set (c2 := ((c1 + 1) mod 3)%nat). set (c3 := ((c1 + 2) mod 3)%nat).
  edestruct (quarter _ o1 l ltac:(lia) (G c3 d3 d1 d2 z x y mz mx my)) as (r1 & -> & P1). cbn [obind].
  edestruct (quarter _ o2 l ltac:(lia) (G c2 d2 d3 d1 y mz x my z' mx)) as (r2 & -> & P2). cbn [obind].
  edestruct (quarter _ o3 l ltac:(lia) (G c2 d2 d3 d1 my mz x y' z' mx)) as (r3 & -> & P3). cbn [obind].
  edestruct (quarter _ o4 l ltac:(lia) (G c1 d1 (negb d2) (negb d3) x y' mz mx my z)) as (r4 & -> & P4). cbn [obind].
  edestruct (quarter _ o5 l ltac:(lia) (G c1 d1 (negb d2) (negb d3) mx y' mz x' my z)) as (r5 & -> & P5). cbn [obind].
  edestruct (quarter _ o6 l ltac:(lia) (G c2 (negb d2) d3 (negb d1) y' mz x' my z' mx)) as (r6 & -> & P6). cbn [obind].
  edestruct (quarter _ o7 l ltac:(lia) (G c2 (negb d2) d3 (negb d1) my mz x' y z' mx)) as (r7 & -> & P7). cbn [obind].
  edestruct (quarter _ o8 l ltac:(lia) (G c3 (negb d3) (negb d1) d2 mz x' y z mx my)) as (r8 & -> & P8). cbn [obind].
  eexists. split; [reflexivity|]. rewrite E0, E1, E2, E3, E4, E5, E6, P1, P2, P3, P4, P5, P6, P7, P8, <- !app_assoc. reflexivity.
Qed.
Lemma ordering_ok n idx : Permutation (zseq (Z.of_nat n)) idx -> exists o, ordering idx = Ok (map Some o) /\ Permutation (zseq (Z.of_nat n)) o /\ forall i e, nth_error idx i = Some e -> nth_error o (Z.to_nat e) = Some (Z.of_nat i).
Proof.
  intros Pm. assert (Ln : length idx = n) by (rewrite <- (Permutation_length Pm); unfold zseq; rewrite map_length, seq_length; lia).
  assert (Rg : forall e, In e idx <-> 0 <= e < Z.of_nat n) by (intros e; rewrite <- in_zseq; split; [apply Permutation_in; symmetry; exact Pm|apply Permutation_in, Pm]).
  assert (Nd : NoDup idx) by (eapply Permutation_NoDup; [exact Pm|]; unfold zseq; apply FinFun.Injective_map_NoDup; [intros a b E; lia|apply seq_NoDup]).
  change (ordering idx) with (puts (numbered_map idx) (repeat None (length idx))).
  destruct (puts_ok (numbered_map idx) (repeat None (length idx))) as (a & Ea & La & _ & Hin).
  { intros o v I. rewrite repeat_length. apply numbered_In in I. destruct I as (i & E & ->). apply nth_error_In in E. apply Rg in E. lia. }
  rewrite repeat_length in La.
  assert (K : forall i e, nth_error idx i = Some e -> nth_error a (Z.to_nat e) = Some (Some (Z.of_nat i))).
  { intros i e E. apply Hin; [apply numbered_In; exists i; auto|]. intros v I. apply numbered_In in I. destruct I as (j & Ej & ->). f_equal. pose proof (proj1 (NoDup_nth_error idx) Nd j i (nth_error_Some_lt _ _ _ Ej)) as Q. apply Q. congruence. }
  set (o := map (fun e => num idx (Z.of_nat e)) (seq 0 n)).
  assert (Eo : a = map Some o).
  { apply nth_error_ext'. intros e. rewrite nth_error_map. unfold o. rewrite nth_error_map. destruct (Nat.lt_ge_cases e n) as [C|C].
    - rewrite (nth_error_nth' (seq 0 n) 0%nat) by (rewrite seq_length; exact C). rewrite seq_nth by exact C. cbn [option_map Nat.add].
      assert (I : In (Z.of_nat e) idx) by (apply Rg; lia). destruct (index_In _ _ I) as [Q _]. apply K in Q. rewrite Nat2Z.id in Q. exact Q.
    - rewrite !(proj2 (nth_error_None _ _)); [reflexivity| |]; rewrite ?seq_length; lia. }
  exists o. rewrite Ea. split; [rewrite Eo; reflexivity|]. split.
  - apply NoDup_Permutation_bis; [unfold zseq; apply FinFun.Injective_map_NoDup; [intros x y E; lia|apply seq_NoDup]|unfold o, zseq; rewrite !map_length, !seq_length; lia|].
    intros z I. apply in_zseq in I. destruct (nth_error idx (Z.to_nat z)) as [e|] eqn:E; [|apply nth_error_None in E; lia]. apply K in E. rewrite Eo, nth_error_map in E. destruct (nth_error o (Z.to_nat e)) as [w|] eqn:Ew; [|discriminate]. cbn in E. injection E as E. apply nth_error_In in Ew. rewrite Z2Nat.id in E by lia. subst w. exact Ew.
  - intros i e E. apply K in E. rewrite Eo, nth_error_map in E. destruct (nth_error o (Z.to_nat e)) as [w|]; [|discriminate]. cbn in E. congruence.
Qed.
(** the elements of the curve's order, the four parts of the plane one after the other *)
Theorem hilbert_ok three nelem mn mx : exists walk o, hilbert lt mid coord part three nelem mn mx = Ok (map Some o) /\
  Permutation (zseq (Z.of_nat nelem)) walk /\ Permutation (zseq (Z.of_nat nelem)) o /\ (forall i e, nth_error walk i = Some e -> nth_error o (Z.to_nat e) = Some (Z.of_nat i)) /\
  (if three then sort3 lt mid coord part (S nelem) 0 false false false (zseq (Z.of_nat nelem)) (mn 0%nat) (mn 1%nat) (mn 2%nat) (mx 0%nat) (mx 1%nat) (mx 2%nat)
   else sort2 lt mid coord part (S nelem) 0 false false (zseq (Z.of_nat nelem)) (mn 0%nat) (mn 1%nat) (mx 0%nat) (mx 1%nat)) = Ok walk.
Proof.
  unfold hilbert. assert (Lz : (length (zseq (Z.of_nat nelem)) < S nelem)%nat) by (unfold zseq; rewrite map_length, seq_length; lia).
  destruct three.
  - destruct (sort3_ok (S nelem) 0 false false false (zseq (Z.of_nat nelem)) (mn 0%nat) (mn 1%nat) (mn 2%nat) (mx 0%nat) (mx 1%nat) (mx 2%nat) Lz) as (r & E & Pr). rewrite E. cbn [obind]. destruct (ordering_ok nelem r Pr) as (o & -> & Po & K). exists r, o. auto.
  - destruct (sort2_ok (S nelem) 0 false false (zseq (Z.of_nat nelem)) (mn 0%nat) (mn 1%nat) (mx 0%nat) (mx 1%nat) Lz) as (r & E & Pr). rewrite E. cbn [obind]. destruct (ordering_ok nelem r Pr) as (o & -> & Po & K). exists r, o. auto.
Qed.
(** below or above the middle of an axis *)
Definition lo (mn mx : nat -> F) (c : nat) (i : Z) : Prop := lt (coord i c) (mid (mn c) (mx c)) = true.
Definition hi (mn mx : nat -> F) (c : nat) (i : Z) : Prop := lt (coord i c) (mid (mn c) (mx c)) = false.
Lemma part_all f l a b : part f l = (a, b) -> Forall (fun i => f i = true) a /\ Forall (fun i => f i = false) b.
Proof. intros E. destruct (P f l) as [_ Q]. rewrite E in Q. exact Q. Qed.
Lemma Forall_perm {A} (Q : A -> Prop) l m : Permutation l m -> Forall Q l -> Forall Q m.
Proof. intros H1 H2. apply Forall_forall. intros x I. rewrite Forall_forall in H2. apply H2. eapply Permutation_in; [symmetry; exact H1|exact I]. Qed.
Theorem hilbert2_parts nelem mn mx walk : (1 < nelem)%nat -> sort2 lt mid coord part (S nelem) 0 false false (zseq (Z.of_nat nelem)) (mn 0%nat) (mn 1%nat) (mx 0%nat) (mx 1%nat) = Ok walk ->
  exists a b c d, walk = a ++ b ++ c ++ d /\ Forall (fun i => lo mn mx 0 i /\ lo mn mx 1 i) a /\ Forall (fun i => lo mn mx 0 i /\ hi mn mx 1 i) b /\
    Forall (fun i => hi mn mx 0 i /\ hi mn mx 1 i) c /\ Forall (fun i => hi mn mx 0 i /\ lo mn mx 1 i) d.
Proof.
  intros N. cbn [sort2]. assert (Lz : length (zseq (Z.of_nat nelem)) = nelem) by (unfold zseq; rewrite map_length, seq_length; lia). rewrite Lz. replace (nelem <=? 1)%nat with false by (symmetry; apply Nat.leb_gt; exact N).
  destruct (part _ (zseq _)) as [q12 q34] eqn:E0. pose proof (part_perm _ _ _ _ E0) as P0. apply part_all in E0. destruct (part _ q12) as [q1 q2] eqn:E1. pose proof (part_perm _ _ _ _ E1) as P1. apply part_all in E1. destruct (part _ q34) as [q3 q4] eqn:E2. pose proof (part_perm _ _ _ _ E2) as P2. apply part_all in E2.
  destruct E0 as [A0 B0], E1 as [A1 B1], E2 as [A2 B2].
  pose proof (Permutation_length P0) as L0. pose proof (Permutation_length P1) as L1. pose proof (Permutation_length P2) as L2. rewrite app_length, ?Lz in L0, L1, L2.
  apply (Forall_perm _ _ _ P1) in A0. apply (Forall_perm _ _ _ P2) in B0. apply Forall_app in A0, B0. destruct A0 as [C1 C2], B0 as [C3 C4].
  set (z := zseq (Z.of_nat nelem)) in *.
  assert (G : forall c e e' x y u v, good (fun l => sort2 lt mid coord part nelem c e e' l x y u v) (length z)) by (intros c e e' x y u v l' Hl'; apply sort2_ok; lia).
  set (ax := mid (mn 0%nat) (mx 0%nat)). set (ay := mid (mn 1%nat) (mx 1%nat)).
  edestruct (quarter _ q1 z ltac:(lia) (G ((0 + 1) mod 2)%nat false false (mn 1%nat) (mn 0%nat) ay ax)) as (r1 & -> & R1). cbn [obind].
  edestruct (quarter _ q2 z ltac:(lia) (G 0%nat false false (mn 0%nat) ay ax (mx 1%nat))) as (r2 & -> & R2). cbn [obind].
  edestruct (quarter _ q3 z ltac:(lia) (G 0%nat false false ax ay (mx 0%nat) (mx 1%nat))) as (r3 & -> & R3). cbn [obind].
  edestruct (quarter _ q4 z ltac:(lia) (G ((0 + 1) mod 2)%nat (negb false) (negb false) ay (mx 0%nat) (mn 1%nat) ax)) as (r4 & -> & R4). cbn [obind].
  intros E. injection E as <-. exists r1, r2, r3, r4. split; [reflexivity|].
  unfold lo, hi, cmp in *. subst ax ay. change ((0 + 1) mod 2)%nat with 1%nat in *. cbn [negb] in *.
  assert (Both : forall (Q1 Q2 : Z -> Prop) q r, Permutation q r -> Forall Q1 q -> Forall Q2 q -> Forall (fun i => Q1 i /\ Q2 i) r) by (intros Q1 Q2 q r Pq F1 F2; apply (Forall_perm _ _ _ Pq); apply Forall_forall; rewrite Forall_forall in F1, F2; auto).
  assert (Imp : forall (Q1 Q2 : Z -> Prop) q, (forall i, Q1 i -> Q2 i) -> Forall Q1 q -> Forall Q2 q) by (intros Q1 Q2 q HI; apply Forall_impl; exact HI).
  split; [|split; [|split]].
  - apply (Both _ _ _ _ R1); [revert C1|revert A1]; apply Imp; intros i Hi; cbn beta in Hi; destruct (lt _ _); cbn in Hi |- *; congruence.
  - apply (Both _ _ _ _ R2); [revert C2|revert B1]; apply Imp; intros i Hi; cbn beta in Hi; destruct (lt _ _); cbn in Hi |- *; congruence.
  - apply (Both _ _ _ _ R3); [revert C3|revert A2]; apply Imp; intros i Hi; cbn beta in Hi; destruct (lt _ _); cbn in Hi |- *; congruence.
  - apply (Both _ _ _ _ R4); [revert C4|revert B2]; apply Imp; intros i Hi; cbn beta in Hi; destruct (lt _ _); cbn in Hi |- *; congruence.
Qed.
End HilbertFacts.
