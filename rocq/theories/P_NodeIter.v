(** Property theorems C28 (child iteration). *)
From Verif Require Import Base NodeIter NodeIterFacts.
Local Open Scope Z_scope.

(** while(it.has_next()) it.next() from children(): every child once, in order. *)
Theorem C28_forward : forall K (n : inode K), exists e, forall fuel, (length (in_kids n) < fuel)%nat ->
  i_walk fuel n (iter_of n) = Ok (in_kids n, e).
Proof.
  intros K n. eexists. intros fuel F. apply (walk_pos n (in_kids n) 0%nat fuel); [reflexivity|exact F|lia].
Qed.
Print Assumptions C28_forward.
(** range-for over children() visits the same. *)
Theorem C28_range_for : forall K (n : inode K) fuel, (length (in_kids n) < fuel)%nat ->
  c_range fuel n (it_idx (iter_of n)) (it_num (iter_of n)) = Ok (in_kids n).
Proof. intros K n fuel F. apply (range_pos n (in_kids n) 0%nat fuel); [reflexivity|exact F|lia]. Qed.
Print Assumptions C28_range_for.
(** Walking back after the forward walk: the reverse, starting before the child the
    iterator stands on. *)
Theorem C28_backward : forall K (n : inode K) e fuel, (length (in_kids n) < fuel)%nat -> i_walk fuel n (iter_of n) = Ok (in_kids n, e) ->
  exists e', i_walk_back fuel n e = Ok (tl (rev (in_kids n)), e').
Proof.
  intros K n e fuel F E.
  pose proof (walk_pos n (in_kids n) 0%nat fuel eq_refl F ltac:(lia)) as W. change (at_pos n 0) with (iter_of n) in W. rewrite W in E. injection E as <-.
  destruct (in_kids n) as [|k ks] eqn:Ek.
  - destruct fuel; [lia|]. eexists. cbn. unfold i_has_prev, at_pos. rewrite Ek. reflexivity.
  - rewrite <- Ek in *. pose proof (back_pos n (length ks) fuel ltac:(rewrite Ek; cbn; lia) ltac:(rewrite Ek in F; cbn in F; lia)) as B.
    replace (length (in_kids n)) with (S (length ks)) by (rewrite Ek; reflexivity). eexists. rewrite B. f_equal. f_equal.
    rewrite <- (rev_involutive (in_kids n)) at 1. clear -Ek. assert (L : length (rev (in_kids n)) = S (length ks)) by (rewrite rev_length, Ek; reflexivity).
    revert L. generalize (rev (in_kids n)). intros r L. destruct r as [|x r]; [discriminate|]. cbn [rev tl]. cbn in L.
    rewrite firstn_app, firstn_all2 by (rewrite rev_length; lia). rewrite rev_length. replace (length ks - length r)%nat with O by lia. cbn. rewrite app_nil_r. apply rev_involutive.
Qed.
Print Assumptions C28_backward.
(** Every interleaving of next, previous, to_front, to_back: what each returns, and
    has_next, has_previous, peek_next, index and node afterwards. *)
Theorem C28_cursor : forall K (n : inode K) l, i_moves n (iter_of n) l = a_imoves n 0 l.
Proof. intros K n l. apply (moves_pos n l 0%nat). lia. Qed.
Print Assumptions C28_cursor.
(** A node that loses children while being iterated gives an error, never an access
    out of range. *)
Theorem C28_no_stale_access : forall K (n : inode K) s,
  i_next n s <> UB /\ i_prev n s <> UB /\ i_peek_next n s <> UB /\ i_peek_prev n s <> UB /\ i_node n s <> UB.
Proof.
  intros K n s. unfold i_next, i_prev, i_peek_next, i_peek_prev, i_node, ichild.
  repeat split; repeat (match goal with |- context [if ?b then _ else _] => destruct b end); try discriminate;
    match goal with |- context [znth ?a ?b] => destruct (znth a b) end; cbn; discriminate.
Qed.
Print Assumptions C28_no_stale_access.
(** name() and index() belong to the child the iterator stands on, node(). *)
Theorem C28_name : forall K show (n : inode K) s k, i_node n s = Ok k ->
  exists j, nth_error (in_kids n) j = Some k /\ i_index s = Z.of_nat j /\
  match in_names n with
  | None => i_name show n s = Ok (show (Z.of_nat j))
  | Some names => forall x, nth_error names j = Some x -> i_name show n s = Ok x
  end.
Proof.
  intros K show n s k E. unfold i_node, ichild in E. destruct (znth (in_kids n) (it_idx s - 1)) as [k'|] eqn:Z; [|discriminate E]. injection E as ->.
  unfold znth in Z. destruct (Z.ltb_spec (it_idx s - 1) 0); [discriminate Z|]. exists (Z.to_nat (it_idx s - 1)). split; [exact Z|]. unfold i_index, i_name.
  split; [lia|]. destruct (in_names n) as [names|]; [|do 2 f_equal; lia]. intros x Ex. unfold znth. destruct (Z.ltb_spec (it_idx s - 1) 0); [lia|]. rewrite Ex. reflexivity.
Qed.
Print Assumptions C28_name.
Definition abc : inode nat := {| in_kids := [10; 11; 12]%nat; in_names := Some [L "a"; L "b"; L "c"] |}.
Example C28_instance : i_walk 9 abc (iter_of abc) = Ok ([10; 11; 12]%nat, {| it_idx := 3; it_num := 3 |}) /\
  i_walk_back 9 abc {| it_idx := 3; it_num := 3 |} = Ok ([11; 10]%nat, {| it_idx := 1; it_num := 3 |}) /\
  map s_res (i_moves abc (iter_of abc) [INext; INext; IPrev; INext]) = [Ok 10; Ok 11; Ok 10; Ok 11]%nat /\
  i_node abc {| it_idx := 2; it_num := 3 |} = Ok 11%nat /\ i_name (fun _ => []) abc {| it_idx := 2; it_num := 3 |} = Ok (L "b").
Proof. repeat split; vm_compute; reflexivity. Qed.
(** peek_previous is not what previous returns, but the child the iterator is on. *)
Theorem C28_peek_previous_refuted : exists (n : inode nat) s s' k, i_walk 9 n (iter_of n) = Ok (in_kids n, s) /\
  i_has_prev s = true /\ i_prev n s = Ok (k, s') /\ i_peek_prev n s <> Ok k /\ i_peek_prev n s = i_node n s.
Proof. exists abc, {| it_idx := 3; it_num := 3 |}, {| it_idx := 2; it_num := 3 |}, 11%nat. repeat split; vm_compute; try reflexivity. discriminate. Qed.
Print Assumptions C28_peek_previous_refuted.
(** From to_back the walk backwards misses the last child. *)
Theorem C28_to_back_skips_last_refuted : exists n : inode nat, exists e, i_walk_back 9 n (i_back (iter_of n)) = Ok ([11; 10]%nat, e) /\ rev (in_kids n) = [12; 11; 10]%nat.
Proof. exists abc, {| it_idx := 1; it_num := 3 |}. split; vm_compute; reflexivity. Qed.
Print Assumptions C28_to_back_skips_last_refuted.
(** name() before the first next() reads before the first name. *)
Theorem C28_name_at_front_refuted : exists (n : inode nat) show, i_name show n (iter_of n) = UB /\ i_node n (iter_of n) = Err.
Proof. exists abc, (fun _ => L "0"). split; reflexivity. Qed.
Print Assumptions C28_name_at_front_refuted.
