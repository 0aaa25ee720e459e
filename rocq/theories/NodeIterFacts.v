(** Facts about child iteration. *)
From Verif Require Import Base NodeIter.
Local Open Scope Z_scope.

Section It.
  Context {K : Type}.
  Variable n : inode K.
  Notation ks := (in_kids n).
  Definition at_pos (p : nat) : iter := {| it_idx := Z.of_nat p; it_num := Z.of_nat (length ks) |}.

  Lemma ichild_nat p : ichild n (Z.of_nat p) = match nth_error ks p with Some k => Ok k | None => Err end.
  Proof. unfold ichild, znth. replace (_ <? 0) with false by lia. rewrite Nat2Z.id. reflexivity. Qed.
  Lemma has_next_pos p : i_has_next (at_pos p) = (p <? length ks)%nat.
  Proof. unfold i_has_next, at_pos. cbn [it_idx it_num]. lia. Qed.
  Lemma next_pos p k : nth_error ks p = Some k -> i_next n (at_pos p) = Ok (k, at_pos (S p)) /\ i_peek_next n (at_pos p) = Ok k.
  Proof.
    intros E. assert (H : (p < length ks)%nat) by (apply nth_error_Some; congruence).
    unfold i_next, i_peek_next. rewrite has_next_pos. replace (p <? length ks)%nat with true by lia. cbn [it_idx at_pos].
    replace (Z.of_nat p + 1 - 1) with (Z.of_nat p) by lia. rewrite ichild_nat, E. cbn [obind]. split; [|reflexivity].
    unfold at_pos. cbn [it_num]. do 3 f_equal. lia.
  Qed.
  Lemma has_prev_pos p : i_has_prev (at_pos p) = (2 <=? p)%nat.
  Proof. unfold i_has_prev, at_pos. cbn [it_idx it_num]. lia. Qed.
  Lemma prev_pos p k : nth_error ks p = Some k -> i_prev n (at_pos (S (S p))) = Ok (k, at_pos (S p)).
  Proof.
    intros E. unfold i_prev. rewrite has_prev_pos. change (2 <=? S (S p))%nat with true. cbn [it_idx at_pos].
    replace (Z.of_nat (S (S p)) - 1 - 1) with (Z.of_nat p) by lia. rewrite ichild_nat, E. cbn [obind]. unfold at_pos. cbn [it_num]. do 3 f_equal. lia.
  Qed.
  Lemma walk_pos l : forall p fuel, skipn p ks = l -> (length l < fuel)%nat -> (p <= length ks)%nat ->
    i_walk fuel n (at_pos p) = Ok (l, at_pos (length ks)).
  Proof.
    induction l as [|k l IH]; intros p fuel E F Hp; (destruct fuel as [|f]; [lia|]); cbn [i_walk]; rewrite has_next_pos.
    - assert (Lp := f_equal (@length K) E). rewrite skipn_length in Lp. cbn in Lp. replace (_ <? _)%nat with false by lia. do 3 f_equal. lia.
    - assert (Lp := f_equal (@length K) E). rewrite skipn_length in Lp. cbn [length] in *. replace (_ <? _)%nat with true by lia.
      assert (Nk : nth_error ks p = Some k /\ skipn (S p) ks = l).
      { clear -E. revert p E. generalize ks. intros ls. induction ls as [|x l0 IH0]; intros p E; [destruct p; discriminate|]. destruct p; cbn in *; [injection E as -> ->; auto|]. apply IH0. exact E. }
      destruct Nk as [Nk Sk]. destruct (next_pos p k Nk) as [-> _]. cbn [obind]. rewrite (IH (S p) f Sk) by lia. reflexivity.
  Qed.
  Lemma back_pos : forall p fuel, (p < length ks)%nat -> (p < fuel)%nat ->
    i_walk_back fuel n (at_pos (S p)) = Ok (rev (firstn p ks), at_pos 1).
  Proof.
    induction p as [|p IH]; intros fuel H F; (destruct fuel as [|f]; [lia|]); cbn [i_walk_back]; rewrite has_prev_pos; [reflexivity|].
    change (2 <=? S (S p))%nat with true.
    destruct (nth_error ks p) as [k|] eqn:E; [|apply nth_error_None in E; lia]. rewrite (prev_pos p k E). cbn [obind]. rewrite IH by lia. cbn [obind]. f_equal. f_equal.
    assert (Q : firstn (S p) ks = firstn p ks ++ [k]).
    { clear -E. revert p E. generalize ks. intros ls. induction ls as [|x l0 IH0]; intros p E; [destruct p; discriminate|]. destruct p; cbn in *; [injection E as ->; reflexivity|]. f_equal. apply IH0. exact E. }
    rewrite Q, rev_app_distr. reflexivity.
  Qed.
  Lemma range_pos l : forall p fuel, skipn p ks = l -> (length l < fuel)%nat -> (p <= length ks)%nat ->
    c_range fuel n (Z.of_nat p) (Z.of_nat (length ks)) = Ok l.
  Proof.
    induction l as [|k l IH]; intros p fuel E F Hp; (destruct fuel as [|f]; [lia|]); cbn [c_range];
      assert (Lp := f_equal (@length K) E); rewrite skipn_length in Lp; cbn [length] in *.
    - replace (_ =? _) with true by lia. reflexivity.
    - replace (_ =? _) with false by lia.
      assert (Nk : nth_error ks p = Some k /\ skipn (S p) ks = l).
      { clear -E. revert p E. generalize ks. intros ls. induction ls as [|x l0 IH0]; intros p E; [destruct p; discriminate|]. destruct p; cbn in *; [injection E as -> ->; auto|]. apply IH0. exact E. }
      destruct Nk as [Nk Sk]. rewrite ichild_nat, Nk. cbn [obind]. replace (Z.of_nat p + 1) with (Z.of_nat (S p)) by lia. rewrite (IH (S p) f Sk) by lia. reflexivity.
  Qed.

  (** any interleaving of moves, as a cursor that has passed [p] children *)
  Inductive imove := INext | IPrev | IFront | IBack.
  Record iseen := { s_res : outcome K; s_next : bool; s_prev : bool; s_peek : outcome K; s_index : Z; s_node : outcome K }.
  Definition i_see (o : outcome K) (s : iter) : iseen :=
    {| s_res := o; s_next := i_has_next s; s_prev := i_has_prev s; s_peek := i_peek_next n s; s_index := i_index s; s_node := i_node n s |}.
  (** a failed move throws and leaves the iterator unchanged *)
  Definition i_move (s : iter) (m : imove) : outcome K * iter :=
    match m with
    | INext => match i_next n s with Ok (k, s') => (Ok k, s') | Err => (Err, s) | UB => (UB, s) | Fuel => (Fuel, s) end
    | IPrev => match i_prev n s with Ok (k, s') => (Ok k, s') | Err => (Err, s) | UB => (UB, s) | Fuel => (Fuel, s) end
    | IFront => (Err, i_front s)
    | IBack => (Err, i_back s)
    end.
  Fixpoint i_moves (s : iter) (l : list imove) : list iseen :=
    match l with [] => [] | m :: r => let (o, s') := i_move s m in i_see o s' :: i_moves s' r end.
  Definition nth_or (i : nat) : outcome K := match nth_error ks i with Some k => Ok k | None => Err end.
  Definition a_imove (p : nat) (m : imove) : outcome K * nat :=
    match m with
    | INext => if (p <? length ks)%nat then (nth_or p, S p) else (Err, p)
    | IPrev => if (2 <=? p)%nat then (nth_or (p - 2), (p - 1)%nat) else (Err, p)
    | IFront => (Err, O)
    | IBack => (Err, length ks)
    end.
  Definition a_isee (o : outcome K) (p : nat) : iseen :=
    {| s_res := o; s_next := (p <? length ks)%nat; s_prev := (2 <=? p)%nat; s_peek := nth_or p; s_index := Z.of_nat p - 1;
       s_node := match p with O => Err | S q => nth_or q end |}.
  Fixpoint a_imoves (p : nat) (l : list imove) : list iseen :=
    match l with [] => [] | m :: r => let (o, p') := a_imove p m in a_isee o p' :: a_imoves p' r end.
  Lemma see_pos o p : (p <= length ks)%nat -> i_see o (at_pos p) = a_isee o p.
  Proof.
    intros H. unfold i_see, a_isee. rewrite has_next_pos, has_prev_pos. f_equal.
    - unfold nth_or. destruct (nth_error ks p) as [k|] eqn:E; [apply (next_pos p k E)|]. unfold i_peek_next. rewrite has_next_pos. apply nth_error_None in E.
      replace (_ <? _)%nat with false by lia. reflexivity.
    - unfold i_node. destruct p as [|q]; [reflexivity|]. cbn [at_pos it_idx]. replace (Z.of_nat (S q) - 1) with (Z.of_nat q) by lia. apply ichild_nat.
  Qed.
  Lemma move_pos p m : (p <= length ks)%nat -> let (o, p') := a_imove p m in i_move (at_pos p) m = (o, at_pos p') /\ (p' <= length ks)%nat.
  Proof.
    intros H. destruct m; cbn [a_imove i_move].
    - destruct (p <? length ks)%nat eqn:B.
      + destruct (nth_error ks p) as [k|] eqn:E; [|apply nth_error_None in E; lia]. destruct (next_pos p k E) as [-> _]. unfold nth_or. rewrite E. split; [reflexivity|lia].
      + unfold i_next. rewrite has_next_pos, B. split; [reflexivity|exact H].
    - destruct (2 <=? p)%nat eqn:B.
      + destruct p as [|[|p]]; try discriminate. cbn [Nat.sub]. rewrite Nat.sub_0_r.
        destruct (nth_error ks p) as [k|] eqn:E; [|apply nth_error_None in E; lia]. rewrite (prev_pos p k E). unfold nth_or. rewrite E. split; [reflexivity|lia].
      + unfold i_prev. rewrite has_prev_pos, B. split; [reflexivity|exact H].
    - split; [reflexivity|lia].
    - split; [reflexivity|lia].
  Qed.
  Lemma moves_pos l : forall p, (p <= length ks)%nat -> i_moves (at_pos p) l = a_imoves p l.
  Proof.
    induction l as [|m l IH]; intros p H; [reflexivity|]. cbn [i_moves a_imoves]. pose proof (move_pos p m H) as M. destruct (a_imove p m) as [o p']. destruct M as [-> H'].
    rewrite see_pos, IH by exact H'. reflexivity.
  Qed.
End It.
