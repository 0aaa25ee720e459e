(** Property theorems C31 (one-to-many iteration) and C32 (compaction).
    Specification: [ones], [group_size], [group_start], [position], [group],
    [positions], [values], [valid], [consecutive] at the top of O2MFacts.v, the
    abstract cursor [acursor] there. *)
From Verif Require Import Base O2M O2MFacts O2MCompact.
Local Open Scope Z_scope.

Definition rel1 : o2m := {| o_sizes := Some [2; 1; 3]; o_indices := None; o_offsets := Some [4; 1; 5];
  o_data := [(L "values", [10; 11; 12; 13; 14; 15; 16; 17])] |}.
Lemma rel1_valid : valid rel1.
Proof. apply valid_by; vm_compute; reflexivity. Qed.
Lemma rel1_consecutive : consecutive rel1.
Proof. apply consecutive_by; vm_compute; reflexivity. Qed.

(** * C31 *)
(** Random access (O2MIndex) is the documented meaning, for every valid relation,
    zero sizes included. *)
Theorem C31_index : forall r i, valid r -> (i < ones r)%nat ->
  ix_size r (Z.of_nat i) = Ok (Z.of_nat (group_size r i)) /\
  ix_offset r (Z.of_nat i) = Ok (group_start r i) /\
  (forall k, (k < group_size r i)%nat -> ix_index r (Z.of_nat i) (Z.of_nat k) = Ok (position r i k)).
Proof. intros r i V H. split; [apply ix_size_law; assumption|]. split; [apply ix_offset_law; assumption|]. intros k. apply ix_index_law; assumption. Qed.
Print Assumptions C31_index.
Theorem C31_index_count : forall r, valid r ->
  (exists o, o_offsets r = Some o /\ o <> []) \/ (o_offsets r = None /\ o_indices r <> None) ->
  ix_size r (-1) = Ok (Z.of_nat (ones r)).
Proof. exact ix_count_law. Qed.
Print Assumptions C31_index_count.
Theorem C31_index_count_default_refuted : exists r, valid r /\ ones r = 3%nat /\ ix_size r (-1) = Ok 0.
Proof.
  exists {| o_sizes := None; o_indices := None; o_offsets := None; o_data := [(L "values", [7; 8; 9])] |}.
  split; [apply valid_by; vm_compute; reflexivity|split; reflexivity].
Qed.
Print Assumptions C31_index_count_default_refuted.

(** The loop while(has_next(DATA)) next(DATA) visits every member of every group,
    in order, once. *)
Theorem C31_walk : forall r, valid r -> consecutive r -> (forall i, (i < ones r)%nat -> (0 < group_size r i)%nat) ->
  exists fuel0, forall fuel, (fuel0 <= fuel)%nat -> walk fuel r it_begin = Ok (positions r).
Proof.
  intros r V C P. exists (S (psum (group_size r) (ones r))). intros fuel H.
  exact (walk_cur r V P C (psum (group_size r) (ones r)) 0%nat fuel eq_refl H).
Qed.
Print Assumptions C31_walk.
(** Any interleaving of next, previous, to_front, to_back and to(i), with what
    has_next, has_previous, peek_next and peek_previous answer after each: a cursor
    over the list of all members. *)
Theorem C31_cursor : forall r, valid r -> consecutive r -> (forall i, (i < ones r)%nat -> (0 < group_size r i)%nat) ->
  forall l, moves r it_begin l = Ok (acursor (positions r) 0 l).
Proof. intros r V C P l. exact (moves_cur r V P C l 0%nat (Nat.le_0_l _)). Qed.
Print Assumptions C31_cursor.
Example C31_instance : valid rel1 /\ consecutive rel1 /\ (forall i, (i < ones rel1)%nat -> (0 < group_size rel1 i)%nat) /\
  positions rel1 = [4; 5; 1; 5; 6; 7] /\ walk 20 rel1 it_begin = Ok [4; 5; 1; 5; 6; 7] /\
  omap_ok (map seen_move) (moves rel1 it_begin [MNext; MNext; MNext; MPrev; MBack; MPrev; MTo 2; MPrev]) =
    Ok [Some 4; Some 5; Some 1; Some 5; None; Some 7; None; Some 5].
Proof.
  split; [exact rel1_valid|]. split; [exact rel1_consecutive|]. split; [apply positive_by; vm_compute; reflexivity|repeat split; vm_compute; reflexivity].
Qed.
(** Going to one [i] and walking its members: every valid relation, zero sizes included. *)
Theorem C31_group : forall r i m, valid r -> consecutive r -> (i < ones r)%nat ->
  exists s, to_ r m (Z.of_nat i) ONE = Ok s /\
  forall fuel, (group_size r i < fuel)%nat -> exists s', many_walk r fuel (to_front s MANY) = Ok (group r i, s').
Proof.
  intros r i m V C H. eexists. split; [reflexivity|]. intros fuel F. cbn [to_front fst]. eexists.
  exact (many_walk_ok r V i H C (group_size r i) 0%nat fuel eq_refl F).
Qed.
Print Assumptions C31_group.
(** A group without members: the loop makes one up. *)
Definition rel_zero : o2m := {| o_sizes := Some [1; 0; 1]; o_indices := None; o_offsets := Some [0; 1; 1]; o_data := [(L "values", [7; 8])] |}.
Lemma rel_zero_valid : valid rel_zero.
Proof. apply valid_by; vm_compute; reflexivity. Qed.
Theorem C31_zero_size_refuted : exists r, valid r /\ consecutive r /\
  positions r = [0; 1] /\ forall fuel, walk (10 + fuel) r it_begin = Ok [0; 1; 1].
Proof.
  exists rel_zero. split; [exact rel_zero_valid|]. split; [apply consecutive_by; vm_compute; reflexivity|]. split; reflexivity.
Qed.
Print Assumptions C31_zero_size_refuted.
(** Scattered indices: the iterator ignores all but the first index of a group, and
    disagrees with O2MIndex. *)
Theorem C31_scattered_indices_refuted : exists r, valid r /\ (forall i, (i < ones r)%nat -> (0 < group_size r i)%nat) /\
  positions r = [0; 2] /\ ix_index r 0 1 = Ok 2 /\ forall fuel, walk (10 + fuel) r it_begin = Ok [0; 1].
Proof.
  exists {| o_sizes := Some [2]; o_indices := Some [0; 2]; o_offsets := Some [0]; o_data := [(L "values", [7; 8; 9])] |}.
  split; [apply valid_by; vm_compute; reflexivity|]. split; [apply positive_by; vm_compute; reflexivity|]. repeat split; reflexivity.
Qed.
Print Assumptions C31_scattered_indices_refuted.
(** With a single one, has_next(ONE) is false from the start. *)
Theorem C31_single_one_refuted : exists r, valid r /\ ones r = 1%nat /\ has_next r it_begin ONE = Ok false.
Proof.
  exists {| o_sizes := Some [2]; o_indices := None; o_offsets := Some [0]; o_data := [(L "values", [7; 8])] |}.
  split; [apply valid_by; vm_compute; reflexivity|split; reflexivity].
Qed.
Print Assumptions C31_single_one_refuted.
(** generate_offsets: running sums, everything else kept. *)
Theorem C31_generate_offsets : forall r s, o_sizes r = Some s -> Forall (fun z => 0 <= z) s ->
  exists r', generate_offsets r = Some r' /\ o_sizes r' = o_sizes r /\ o_indices r' = o_indices r /\ o_data r' = o_data r /\
    (forall i, (i < length s)%nat -> group_start r' i = zsum (firstn i s)) /\
    exists o, o_offsets r' = Some o /\ length o = length s.
Proof. exact generate_law. Qed.
Print Assumptions C31_generate_offsets.
(** The groups then tile the data: the positions in order are 0, 1, ..., total - 1. *)
Theorem C31_generated_groups_tile : forall r s, o_sizes r = Some s -> Forall (fun z => 0 <= z) s -> o_indices r = None ->
  exists r', generate_offsets r = Some r' /\ positions r' = map Z.of_nat (seq 0 (Z.to_nat (zsum s))).
Proof. exact generate_tiles. Qed.
Print Assumptions C31_generated_groups_tile.
Example C31_generate_instance : option_map positions (generate_offsets rel_zero) = Some [0; 1].
Proof. reflexivity. Qed.

(** * C32 *)
Theorem C32_compact_to : forall r s nm d, valid r -> consecutive r -> o_sizes r = Some s -> o_data r = [(nm, d)] -> (2 <= ones r)%nat ->
  (forall j, (S j < ones r)%nat -> (0 < group_size r j)%nat) ->
  exists fuel0 r' d', (forall fuel, (fuel0 <= fuel)%nat -> compact_to fuel r = Ok r') /\
    o_sizes r' = Some s /\ o_data r' = [(nm, d')] /\ ones r' = ones r /\
    (forall i, (i < ones r)%nat -> group_size r' i = group_size r i /\ values r' d' i = values r d i) /\
    positions r' = map Z.of_nat (seq 0 (length d')).
Proof. exact compact_law. Qed.
Print Assumptions C32_compact_to.
Theorem C32_without_sizes : forall r fuel, o_sizes r = None -> compact_to fuel r = Ok r.
Proof. intros r fuel E. unfold compact_to. rewrite E. reflexivity. Qed.
Print Assumptions C32_without_sizes.
Example C32_instance : compact_to 50 rel1 = Ok {| o_sizes := Some [2; 1; 3]; o_indices := None; o_offsets := Some [0; 2; 3];
  o_data := [(L "values", [14; 15; 11; 15; 16; 17])] |}.
Proof. vm_compute. reflexivity. Qed.
(** Zero-size group that is not the last: never terminates. *)
Lemma rel_zero_stuck : forall fuel ci co a b c res, one_loop fuel rel_zero (1, 0) [a; b; c] res ci co = Fuel.
Proof.
  induction fuel as [|f IH]; intros; [reflexivity|].
  cbn [one_loop]. change (has_next rel_zero (1, 0) ONE) with (@Ok bool true). cbn [obind].
  change (next rel_zero (1, 0) ONE) with (@Ok (Z * its) (1, (1, 1))). cbn [obind]. change (put [a; b; c] 1 co) with (@Ok (list Z) [a; co; c]). cbn [obind].
  cbn [many_loop to_front fst]. change (has_next rel_zero (1, 0) MANY) with (@Ok bool false). cbn [obind fst].
  change (elements_many rel_zero 1) with (@Ok Z 0). cbn [obind]. apply IH.
Qed.
Theorem C32_zero_size_refuted : exists r, valid r /\ consecutive r /\ ones r = 3%nat /\ length (o_data r) = 1%nat /\
  forall fuel, compact_to fuel r = Fuel.
Proof.
  exists rel_zero. split; [exact rel_zero_valid|]. split; [apply consecutive_by; vm_compute; reflexivity|]. split; [reflexivity|]. split; [reflexivity|].
  intros fuel. unfold compact_to. cbn [rel_zero o_sizes o_offsets it_data o_data obind].
  change (elements_one rel_zero) with (@Ok Z 3). change (elements_data rel_zero) with (@Ok Z 2). cbn [obind].
  destruct fuel as [|f]; [reflexivity|]. destruct f as [|f]; [vm_compute; reflexivity|]. destruct f as [|f]; [vm_compute; reflexivity|].
  match goal with |- context [one_loop ?a ?b ?c ?d ?e ?g ?h] =>
    assert (X : one_loop a b c d e g h = one_loop (S f) rel_zero (1, 0) [0; 1; 0] [(L "values", [7; 0])] 1 1) by reflexivity end.
  rewrite X, rel_zero_stuck. reflexivity.
Qed.
Print Assumptions C32_zero_size_refuted.
(** A single group: its values are lost (the fresh zeros stay). *)
Theorem C32_single_group_refuted : exists r, valid r /\ consecutive r /\ values r [7; 8] 0 = [7; 8] /\
  exists r', (forall fuel, compact_to (S fuel) r = Ok r') /\ values r' [0; 0] 0 = [0; 0] /\ o_data r' = [(L "values", [0; 0])].
Proof.
  exists {| o_sizes := Some [2]; o_indices := None; o_offsets := Some [0]; o_data := [(L "values", [7; 8])] |}.
  split; [apply valid_by; vm_compute; reflexivity|]. split; [apply consecutive_by; vm_compute; reflexivity|]. split; [reflexivity|]. eexists. split; [intros fuel; reflexivity|]. split; reflexivity.
Qed.
Print Assumptions C32_single_group_refuted.
(** Two data arrays: the write position advances once per array, and runs over the end. *)
Theorem C32_two_arrays_refuted : exists r, valid r /\ consecutive r /\ (forall i, (i < ones r)%nat -> (0 < group_size r i)%nat) /\
  forall fuel, compact_to (10 + fuel) r = UB.
Proof.
  exists {| o_sizes := Some [1; 1]; o_indices := None; o_offsets := Some [0; 1]; o_data := [(L "a", [7; 8]); (L "b", [9; 10])] |}.
  split; [apply valid_by; vm_compute; reflexivity|]. split; [apply consecutive_by; vm_compute; reflexivity|]. split; [apply positive_by; vm_compute; reflexivity|]. intros fuel. reflexivity.
Qed.
Print Assumptions C32_two_arrays_refuted.
