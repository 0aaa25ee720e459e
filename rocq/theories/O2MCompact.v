(** generate_offsets, O2MIndex and compact_to. *)
From Verif Require Import Base O2M O2MFacts.
Local Open Scope Z_scope.

Lemma gen_nth l : forall po ps i, (i < length l)%nat -> nth i (gen_offsets po ps l) 0 = po + ps + zsum (firstn i l).
Proof.
  induction l as [|s l IH]; intros po ps i H; [cbn in H; lia|]. cbn [gen_offsets length] in *. destruct i as [|i]; [cbn; lia|].
  cbn [nth firstn zsum]. rewrite IH by lia. lia.
Qed.
Lemma gen_len l : forall po ps, length (gen_offsets po ps l) = length l.
Proof. induction l as [|s l IH]; intros po ps; [reflexivity|]. cbn [gen_offsets length]. rewrite IH. reflexivity. Qed.
Lemma psum_zsum s k : Forall (fun z => 0 <= z) s -> (k <= length s)%nat ->
  Z.of_nat (psum (fun i => Z.to_nat (nth i s 0)) k) = zsum (firstn k s).
Proof.
  intros F. induction k as [|k IH]; intros Hk; [reflexivity|]. rewrite psum_S, Nat2Z.inj_add, IH by lia.
  assert (A : forall (l : list Z) j, (j < length l)%nat -> zsum (firstn (S j) l) = zsum (firstn j l) + nth j l 0).
  { clear. induction l as [|x l IHl]; intros j Hj; [cbn in Hj; lia|]. destruct j; [cbn; lia|]. cbn [firstn zsum nth]. cbn [length] in Hj. specialize (IHl j ltac:(lia)). cbn [firstn] in IHl. rewrite IHl. lia. }
  rewrite A by lia. f_equal. rewrite Forall_forall in F. specialize (F (nth k s 0) (nth_In _ _ Hk)). lia.
Qed.

(** groups laid out back to back cover 0, 1, 2, ... *)
Lemma tiled_positions r : o_indices r = None -> (forall i, (i < ones r)%nat -> group_start r i = Z.of_nat (psum (group_size r) i)) ->
  positions r = map Z.of_nat (seq 0 (psum (group_size r) (ones r))).
Proof.
  intros NI H. rewrite positions_pairs. revert H. generalize (ones r). induction n as [|n IH]; intros H; [reflexivity|].
  rewrite pairs_S, map_app, IH by (intros; apply H; lia). rewrite psum_S, seq_app, map_app. f_equal.
  rewrite map_map. cbn [plus fst snd]. unfold position. rewrite NI, (H n) by lia.
  generalize (psum (group_size r) n). generalize (group_size r n) at 1 2. intros m a.
  rewrite <- (seq_shift_from a m) || idtac.
  assert (G : forall m b a, map (fun x => Z.of_nat a + Z.of_nat x) (seq b m) = map Z.of_nat (seq (a + b) m)).
  { clear. induction m as [|m IHm]; intros b a; [reflexivity|]. cbn [seq map]. f_equal; [lia|]. rewrite IHm. f_equal. f_equal. lia. }
  rewrite G. f_equal. f_equal. lia.
Qed.

Lemma group_size_sizes r s : o_sizes r = Some s -> forall i, group_size r i = Z.to_nat (nth i s 0).
Proof. intros E i. unfold group_size. rewrite E. reflexivity. Qed.
Lemma psum_ext f g n : (forall i, (i < n)%nat -> f i = g i) -> psum f n = psum g n.
Proof. induction n as [|n IH]; intros H; [reflexivity|]. rewrite !psum_S, IH, H by (try lia; intros; apply H; lia). reflexivity. Qed.

Lemma generate_law r s : o_sizes r = Some s -> Forall (fun z => 0 <= z) s ->
  exists r', generate_offsets r = Some r' /\ o_sizes r' = o_sizes r /\ o_indices r' = o_indices r /\ o_data r' = o_data r /\
    (forall i, (i < length s)%nat -> group_start r' i = zsum (firstn i s)) /\
    exists o, o_offsets r' = Some o /\ length o = length s.
Proof.
  intros E F. unfold generate_offsets. rewrite E. eexists. split; [reflexivity|]. cbn. repeat split; try assumption.
  - intros i Hi. unfold group_start. cbn [o_offsets]. rewrite gen_nth by exact Hi. lia.
  - eexists. split; [reflexivity|]. apply gen_len.
Qed.
Lemma generate_tiles r s : o_sizes r = Some s -> Forall (fun z => 0 <= z) s -> o_indices r = None ->
  exists r', generate_offsets r = Some r' /\ positions r' = map Z.of_nat (seq 0 (Z.to_nat (zsum s))).
Proof.
  intros E F NI. destruct (generate_law r s E F) as (r' & G & E1 & E2 & E3 & St & _). exists r'. split; [exact G|].
  rewrite E in E1. rewrite NI in E2.
  assert (PS : forall k, (k <= length s)%nat -> Z.of_nat (psum (group_size r') k) = zsum (firstn k s)).
  { intros k Hk. rewrite <- psum_zsum by assumption. f_equal. apply psum_ext. intros i _. apply group_size_sizes. exact E1. }
  assert (ON : ones r' = length s) by (unfold ones; rewrite E1; reflexivity).
  rewrite tiled_positions; [|exact E2|].
  - f_equal. f_equal. rewrite ON. specialize (PS (length s) ltac:(lia)). rewrite firstn_all in PS. lia.
  - rewrite ON. intros i Hi. rewrite St, PS by lia. reflexivity.
Qed.

(** ---- O2MIndex ---- *)
Lemma ix_size_law r i : valid r -> (i < ones r)%nat -> ix_size r (Z.of_nat i) = Ok (Z.of_nat (group_size r i)).
Proof.
  intros V H. unfold ix_size. replace (_ =? -1) with false by lia. unfold group_size. destruct (o_sizes r) as [s|] eqn:E; [|reflexivity].
  unfold ones in H. rewrite E in H. destruct s as [|z s]; [cbn in H; lia|]. unfold present. rewrite at_nat by exact H.
  f_equal. pose proof (v_sizes r V _ E) as F. rewrite Forall_forall in F. specialize (F (nth i (z :: s) 0) (nth_In _ _ H)). lia.
Qed.
Lemma ix_offset_law r i : valid r -> (i < ones r)%nat -> ix_offset r (Z.of_nat i) = Ok (group_start r i).
Proof.
  intros V H. unfold ix_offset, group_start. destruct (o_offsets r) as [o|] eqn:E; [|reflexivity]. pose proof (v_offsets r V o E) as Lo.
  destruct o as [|z o]; [cbn in Lo; lia|]. unfold present. apply at_nat. lia.
Qed.
Lemma ix_index_law r i k : valid r -> (i < ones r)%nat -> (k < group_size r i)%nat ->
  ix_index r (Z.of_nat i) (Z.of_nat k) = Ok (position r i k).
Proof.
  intros V H Hk. unfold ix_index. pose proof (ix_offset_law r i V H) as E. unfold ix_offset in E. rewrite E. cbn [obind].
  destruct (v_in r V i k H Hk) as (P0 & P1 & _). unfold position. destruct (o_indices r) as [x|] eqn:Ex; [|reflexivity].
  specialize (P1 x eq_refl). destruct x as [|z x]; [cbn in P1; lia|]. unfold present. apply at_z. lia.
Qed.
Lemma ix_count_law r : valid r -> (exists o, o_offsets r = Some o /\ o <> []) \/ (o_offsets r = None /\ o_indices r <> None) ->
  ix_size r (-1) = Ok (Z.of_nat (ones r)).
Proof.
  intros V H. unfold ix_size. cbn [Z.eqb Pos.eqb]. destruct H as [(o & E & N)|[E N]].
  - rewrite E. destruct o as [|z o]; [congruence|]. cbn [present]. f_equal. unfold zlen. rewrite (v_offsets r V _ E). reflexivity.
  - rewrite E. cbn [present]. assert (S0 : o_sizes r = None). { destruct (o_sizes r) eqn:Es; [|reflexivity]. exfalso. apply (v_both r V); [rewrite Es; discriminate|exact E]. }
    unfold ones. rewrite S0. destruct (o_indices r) as [x|]; [|congruence]. destruct x; reflexivity.
Qed.

(** ---- compact_to ---- *)
Lemma put_at pre x post v : put (pre ++ x :: post) (zlen pre) v = Ok (pre ++ v :: post).
Proof.
  unfold put, zlen. rewrite app_length. cbn [length]. replace ((0 <=? _) && _) with true by lia. rewrite Nat2Z.id. f_equal.
  induction pre as [|y pre IH]; [reflexivity|]. cbn [app length set_nth]. f_equal. exact IH.
Qed.
Section Compact.
  Variable r : o2m.
  Hypothesis V : valid r.
  Hypothesis C : consecutive r.
  Variable nm : str.
  Variable d : list Z.
  Hypothesis One : o_data r = [(nm, d)].
  Notation n := (ones r).
  Notation sz := (group_size r).
  Lemma value_ok i k : (i < n)%nat -> (k < sz i)%nat -> at_ d (position r i k) = Ok (nth (Z.to_nat (position r i k)) d 0).
  Proof.
    intros H Hk. destruct (v_in r V i k H Hk) as (_ & _ & F). rewrite One in F. inversion F; subst. cbn [snd] in *. apply at_z. assumption.
  Qed.
  Notation vals i k m := (map (fun j => nth (Z.to_nat (position r i j)) d 0) (seq k m)).
  Lemma many_ok i : (i < n)%nat -> forall m k fuel pre post, (k + m = sz i)%nat -> (m < fuel)%nat -> (m <= length post)%nat ->
    many_loop fuel r (Z.of_nat i, Z.of_nat k) [(nm, pre ++ post)] (zlen pre) =
    Ok ((Z.of_nat i, Z.of_nat (sz i)), [(nm, (pre ++ vals i k m) ++ skipn m post)], zlen (pre ++ vals i k m)).
  Proof.
    intros H. induction m as [|m IH]; intros k fuel pre post E F Lp; (destruct fuel as [|f]; [lia|]); cbn [many_loop has_next]; unfold has_next_many; cbn [fst snd];
      rewrite (elements_many_in r V) by exact H; cbn [obind].
    - replace (_ <? _) with false by lia. cbn [seq map skipn]. rewrite app_nil_r. do 4 f_equal. lia.
    - replace (_ <? _) with true by lia. cbn [next obind fst snd]. rewrite (position_ok r V) by (try assumption; lia). cbn [obind]. rewrite One. cbn [copy_paths].
      rewrite value_ok by lia. cbn [obind]. destruct post as [|x post]; [cbn in Lp; lia|]. rewrite put_at. cbn [obind].
      replace (Z.of_nat k + 1) with (Z.of_nat (S k)) by lia. cbn [length] in Lp.
      set (v := nth (Z.to_nat (position r i k)) d 0).
      replace (pre ++ v :: post) with ((pre ++ [v]) ++ post) by (rewrite <- app_assoc; reflexivity).
      replace (zlen pre + 1) with (zlen (pre ++ [v])) by (unfold zlen; rewrite app_length; cbn; lia).
      rewrite IH by lia. cbn [seq map skipn]. fold v. rewrite <- !app_assoc. cbn [app]. reflexivity.
  Qed.
  Notation group_vals i := (values r d i).
  Lemma group_vals_eq i : group_vals i = vals i 0 (sz i).
  Proof. unfold values, group. rewrite map_map. reflexivity. Qed.
  Lemma group_vals_len i : length (group_vals i) = sz i.
  Proof. unfold values, group. rewrite !map_length, seq_length. reflexivity. Qed.
  (** one group: from (i, 0) *)
  Lemma one_body i fuel pre post : (i < n)%nat -> (sz i < fuel)%nat -> (sz i <= length post)%nat ->
    many_loop fuel r (to_front (Z.of_nat i, 7) MANY) [(nm, pre ++ post)] (zlen pre) =
    Ok ((Z.of_nat i, Z.of_nat (sz i)), [(nm, (pre ++ group_vals i) ++ skipn (sz i) post)], zlen (pre ++ group_vals i)).
  Proof. intros H F Lp. cbn [to_front fst]. rewrite group_vals_eq. apply (many_ok i H (sz i) 0%nat); lia. Qed.
  Definition offs_from (i : nat) (co : Z) (m : nat) : list Z := map (fun j => co + Z.of_nat (psum sz (i + j) - psum sz i)) (seq 0 m).
  Lemma offs_from_S i co m : offs_from i co (S m) = co :: offs_from (S i) (co + Z.of_nat (sz i)) m.
  Proof.
    unfold offs_from. cbn [seq map]. f_equal; [rewrite Nat.add_0_r, Nat.sub_diag; lia|]. rewrite <- seq_shift, map_map. apply map_ext. intros j.
    replace (i + S j)%nat with (S i + j)%nat by lia. pose proof (psum_le sz (S i) (S i + j) ltac:(lia)) as L1. rewrite psum_S in *. lia.
  Qed.
  Lemma one_ok : forall m i many fuel po pre post,
    (S i + m = n)%nat -> 1 <= many -> (forall j, (S i <= j)%nat -> (S j < n)%nat -> (0 < sz j)%nat) ->
    (forall j, (j < n)%nat -> (sz j + n < fuel + i)%nat) -> (m < fuel)%nat ->
    length po = S i -> (psum sz n - psum sz (S i) = length post)%nat ->
    one_loop fuel r (Z.of_nat i, many) (po ++ repeat 0 m) [(nm, pre ++ post)] (zlen pre) (Z.of_nat (psum sz (S i))) =
    Ok (po ++ offs_from (S i) (Z.of_nat (psum sz (S i))) m, [(nm, pre ++ flat_map (fun j => group_vals j) (seq (S i) m))]).
  Proof.
    induction m as [|m IH]; intros i many fuel po pre post E Hm Hp Hf Hfm Lpo Lpost; (destruct fuel as [|f]; [lia|]); cbn [one_loop has_next]; unfold has_next_one; cbn [fst snd];
      rewrite (elements_one_ok r V); cbn [obind].
    - replace (_ <? _) with false by lia. cbn [repeat seq flat_map]. unfold offs_from. cbn [seq map].
      assert (post = []) as -> by (destruct post; [reflexivity|]; cbn [length] in Lpost; replace n with (S i) in Lpost by lia; lia). reflexivity.
    - replace (_ <? _) with true by lia. cbn [next]. replace (many <? 1) with false by lia. cbn [obind repeat].
      replace (Z.of_nat i + 1) with (zlen po) by (unfold zlen; lia). rewrite put_at. cbn [obind].
      replace (zlen po) with (Z.of_nat (S i)) by (unfold zlen; lia).
      assert (PS : psum sz (S (S i)) = (psum sz (S i) + sz (S i))%nat) by apply psum_S.
      assert (PL : (psum sz (S (S i)) <= psum sz n)%nat) by (apply psum_le; lia).
      change (to_front (Z.of_nat (S i), many) MANY) with (to_front (Z.of_nat (S i), 7) MANY).
      rewrite one_body; [|lia|specialize (Hf (S i) ltac:(lia)); lia|lia]. cbn [obind fst].
      rewrite (elements_many_in r V) by lia. cbn [obind].
      set (po' := po ++ [Z.of_nat (psum sz (S i))]).
      replace (po ++ Z.of_nat (psum sz (S i)) :: repeat 0 m) with (po' ++ repeat 0 m) by (unfold po'; rewrite <- app_assoc; reflexivity).
      replace (Z.of_nat (psum sz (S i)) + Z.of_nat (sz (S i))) with (Z.of_nat (psum sz (S (S i)))) by lia.
      destruct m as [|m'].
      + destruct f as [|f]; [lia|]. cbn [one_loop has_next]. unfold has_next_one. cbn [fst]. rewrite (elements_one_ok r V). cbn [obind]. replace (_ <? _) with false by lia.
        cbn [repeat seq flat_map]. rewrite !app_nil_r. unfold po'. rewrite offs_from_S. unfold offs_from at 1. cbn [seq map].
        rewrite skipn_all2; [rewrite app_nil_r; reflexivity|]. rewrite <- Lpost. replace n with (S (S i)) by lia. lia.
      + rewrite IH.
        * rewrite (offs_from_S (S i)). unfold po'. rewrite <- !app_assoc. cbn [app seq flat_map]. do 3 f_equal. rewrite PS, Nat2Z.inj_add. reflexivity.
        * lia.
        * specialize (Hp (S i) ltac:(lia) ltac:(lia)). lia.
        * intros j Hj. apply Hp. lia.
        * intros j Hj. specialize (Hf j Hj). lia.
        * lia.
        * unfold po'. rewrite app_length. cbn. lia.
        * rewrite skipn_length. lia.
  Qed.
  Lemma compact_ok s o fuel : o_sizes r = Some s -> o_offsets r = Some o -> (2 <= n)%nat ->
    (forall j, (S j < n)%nat -> (0 < sz j)%nat) ->
    (forall j, (j < n)%nat -> (S (sz j + n) < fuel)%nat) ->
    compact_to fuel r = Ok {| o_sizes := Some s; o_indices := None; o_offsets := Some (offs_from 0 0 n);
                              o_data := [(nm, flat_map (fun j => group_vals j) (seq 0 n))] |}.
  Proof.
    intros Es Eo Hn Hp Hf. unfold compact_to. rewrite Es, Eo. unfold it_data. rewrite One. cbn [obind].
    rewrite (elements_one_ok r V). cbn [obind].
    rewrite (elements_data_ok r V). cbn [obind]. rewrite !Nat2Z.id. cbn [map fst]. unfold it_begin.
    destruct fuel as [|f]; [specialize (Hf 0%nat ltac:(lia)); lia|]. cbn [one_loop has_next]. unfold has_next_one. cbn [fst snd]. rewrite (elements_one_ok r V). cbn [obind].
    replace (0 <? _) with true by lia. cbn [next]. change (0 <? 1) with true. cbn [obind].
    assert (En : n = S (n - 1)) by lia. rewrite En at 1. cbn [repeat]. pose proof (put_at [] 0 (repeat 0 (n - 1)) 0) as PA. cbn [app] in PA. change (zlen []) with 0 in PA. rewrite PA. cbn [obind].
    pose proof (one_body 0%nat (S f) [] (repeat 0 (psum sz n)) ltac:(lia) ltac:(specialize (Hf 0%nat ltac:(lia)); lia)) as B.
    assert (PL : (psum sz 1 <= psum sz n)%nat) by (apply psum_le; lia). assert (P1 : psum sz 1 = sz 0%nat) by (rewrite psum_S; reflexivity).
    rewrite repeat_length in B. specialize (B ltac:(lia)). cbn [app] in B. change (zlen []) with 0 in B. cbn [to_front fst Z.of_nat] in B |- *. rewrite B. cbn [obind fst].
    pose proof (elements_many_in r V 0%nat ltac:(lia)) as EM. cbn [Z.of_nat] in EM. rewrite EM. cbn [obind].
    pose proof (one_ok (n - 1) 0%nat (Z.of_nat (sz 0%nat)) f [0] (group_vals 0%nat) (skipn (sz 0%nat) (repeat 0 (psum sz n)))) as Q.
    cbn [app Z.of_nat] in Q. rewrite P1 in Q. rewrite Z.add_0_l, Q.
    - cbn [obind]. do 2 f_equal.
      + f_equal. rewrite En at 2. rewrite offs_from_S. cbn [Z.add]. reflexivity.
      + rewrite En at 2. cbn [seq flat_map]. reflexivity.
    - lia.
    - specialize (Hp 0%nat ltac:(lia)). lia.
    - intros j _ Hj. apply Hp. exact Hj.
    - intros j Hj. specialize (Hf j Hj). lia.
    - specialize (Hf 0%nat ltac:(lia)). lia.
    - reflexivity.
    - rewrite skipn_length, repeat_length. lia.
  Qed.
End Compact.

Lemma compact_law r s nm d : valid r -> consecutive r -> o_sizes r = Some s -> o_data r = [(nm, d)] -> (2 <= ones r)%nat ->
  (forall j, (S j < ones r)%nat -> (0 < group_size r j)%nat) ->
  exists fuel0 r' d', (forall fuel, (fuel0 <= fuel)%nat -> compact_to fuel r = Ok r') /\
    o_sizes r' = Some s /\ o_data r' = [(nm, d')] /\ ones r' = ones r /\
    (forall i, (i < ones r)%nat -> group_size r' i = group_size r i /\ values r' d' i = values r d i) /\
    positions r' = map Z.of_nat (seq 0 (length d')).
Proof.
  intros V C Es Ed Hn Hp.
  destruct (o_offsets r) as [o|] eqn:Eo; [|exfalso; apply (v_both r V); [rewrite Es; discriminate|exact Eo]].
  set (n := ones r) in *. set (sz := group_size r) in *.
  exists (S (S (psum sz n + n))).
  set (r' := {| o_sizes := Some s; o_indices := None; o_offsets := Some (offs_from r 0 0 n); o_data := [(nm, flat_map (fun j => values r d j) (seq 0 n))] |}).
  exists r', (flat_map (fun j => values r d j) (seq 0 n)).
  assert (SZ : forall i, group_size r' i = sz i) by (intros i; unfold sz, group_size, r'; rewrite Es; reflexivity).
  assert (ON : ones r' = n) by (unfold n, ones; rewrite Es; reflexivity).
  assert (FP : flat_map (fun j => values r d j) (seq 0 n) = map (fun q => nth (Z.to_nat (position r (fst q) (snd q))) d 0) (pairs sz n)).
  { rewrite <- (flat_pairs (fun i k => nth (Z.to_nat (position r i k)) d 0)). apply flat_map_ext. intros i. unfold values, group. rewrite map_map. reflexivity. }
  assert (ST : forall i, (i < n)%nat -> group_start r' i = Z.of_nat (psum sz i)).
  { intros i Hi. unfold group_start, r', offs_from. cbn [o_offsets]. apply nth_error_nth.
    rewrite nth_error_map, nth_error_nth' with (d := O) by (rewrite seq_length; exact Hi). rewrite seq_nth by exact Hi. cbn [option_map]. f_equal.
    change (psum (group_size r) 0) with O. cbn [plus]. unfold sz. lia. }
  split.
  { intros fuel Hf. apply (compact_ok r V C nm d Ed s o fuel Es Eo Hn Hp). intros j Hj. pose proof (psum_le (group_size r) (S j) n Hj) as Q. rewrite psum_S in Q. unfold n, sz in *. lia. }
  split; [reflexivity|]. split; [reflexivity|]. split; [exact ON|]. split.
  - intros i Hi. split; [apply SZ|]. unfold values, group. rewrite !map_map, SZ. fold sz. apply map_ext_in. intros k Hk. apply in_seq in Hk.
    unfold position at 1. cbn [r' o_indices]. rewrite ST by exact Hi. replace (Z.to_nat _) with (psum sz i + k)%nat by lia.
    etransitivity; [apply (f_equal (fun l => nth (psum sz i + k) l 0)); exact FP|]. apply nth_error_nth. rewrite nth_error_map, pairs_at by lia. reflexivity.
  - rewrite tiled_positions.
    + rewrite ON, FP, map_length. f_equal. f_equal. unfold psum. unfold pairs. f_equal. apply flat_map_ext. intros i. rewrite SZ. reflexivity.
    + reflexivity.
    + rewrite ON. intros i Hi. rewrite ST by exact Hi. f_equal. apply psum_ext. intros j _. symmetry. apply SZ.
Qed.

(** Deciding [valid] and [consecutive], for the concrete instances. *)
Definition valid_b (r : o2m) : bool :=
  match o_data r with [] => false | _ => true end &&
  match o_sizes r with Some s => forallb (fun z => 0 <=? z) s | None => true end &&
  match o_offsets r with Some o => Nat.eqb (length o) (ones r) | None => match o_sizes r with Some _ => false | None => true end end &&
  forallb (fun i => forallb (fun k =>
    (0 <=? group_start r i + Z.of_nat k) &&
    match o_indices r with Some x => group_start r i + Z.of_nat k <? zlen x | None => true end &&
    forallb (fun d => (0 <=? position r i k) && (position r i k <? zlen (snd d))) (o_data r)) (seq 0 (group_size r i))) (seq 0 (ones r)).
Lemma valid_by r : valid_b r = true -> valid r.
Proof.
  unfold valid_b. intros H. repeat (apply andb_prop in H; destruct H as [H ?]).
  constructor.
  - intros E. rewrite E in H. discriminate.
  - intros s E. rewrite E in *. rewrite Forall_forall. rewrite forallb_forall in H2. intros z I. specialize (H2 z I). lia.
  - intros o E. rewrite E in *. apply Nat.eqb_eq. assumption.
  - intros N E. rewrite E in *. destruct (o_sizes r); [discriminate|congruence].
  - intros i k Hi Hk. rewrite forallb_forall in H0. specialize (H0 i ltac:(apply in_seq; lia)). rewrite forallb_forall in H0. specialize (H0 k ltac:(apply in_seq; lia)).
    repeat (apply andb_prop in H0; destruct H0 as [H0 ?]). split; [lia|]. split.
    + intros x E. rewrite E in *. lia.
    + rewrite Forall_forall. intros d I. rewrite forallb_forall in H3. specialize (H3 d I). lia.
Qed.
Definition consecutive_b (r : o2m) : bool :=
  forallb (fun i => forallb (fun k => position r i k =? position r i 0 + Z.of_nat k) (seq 0 (group_size r i))) (seq 0 (ones r)).
Lemma consecutive_by r : consecutive_b r = true -> consecutive r.
Proof.
  unfold consecutive_b. intros H i k Hi Hk. rewrite forallb_forall in H. specialize (H i ltac:(apply in_seq; lia)). rewrite forallb_forall in H.
  specialize (H k ltac:(apply in_seq; lia)). lia.
Qed.
Definition positive_b (r : o2m) : bool := forallb (fun i => Nat.ltb 0 (group_size r i)) (seq 0 (ones r)).
Lemma positive_by r : positive_b r = true -> forall i, (i < ones r)%nat -> (0 < group_size r i)%nat.
Proof. unfold positive_b. intros H i Hi. rewrite forallb_forall in H. specialize (H i ltac:(apply in_seq; lia)). lia. Qed.
