(** NodeIterator and NodeConstIterator (the same code twice),
    src/libs/conduit/conduit_node_iterator.cpp 58-270, and the C++-style child
    iterator, conduit_node_iterator.hpp 38-170.  A node is seen through its list of
    children and its list of child names ([None]: not an object). *)
From Verif Require Import Base.
Local Open Scope Z_scope.

Record inode (K : Type) := { in_kids : list K; in_names : option (list str) }.
Arguments in_kids {K} _. Arguments in_names {K} _.
Arguments Build_inode {K} _ _.

(** Node::child(idx), conduit_node.cpp 14494-14503: checked *)
Definition ichild {K} (n : inode K) (i : Z) : outcome K :=
  match znth (in_kids n) i with Some k => Ok k | None => Err end.

(** m_index, m_num_children; the count is taken when the iterator is made *)
Record iter := { it_idx : Z; it_num : Z }.
(** constructors 59-84, Node::children() conduit_node.cpp 14250-14260 *)
Definition iter_of {K} (n : inode K) : iter := {| it_idx := 0; it_num := Z.of_nat (length (in_kids n)) |}.
(** index(), 131-135 *)
Definition i_index (s : iter) : Z := it_idx s - 1.
(** name(), 112-127: no range check *)
Definition i_name {K} (show : Z -> str) (n : inode K) (s : iter) : outcome str :=
  match in_names n with None => Ok (show (it_idx s - 1)) | Some o => deref (znth o (it_idx s - 1)) end.
(** node(), 138-142 *)
Definition i_node {K} (n : inode K) (s : iter) : outcome K := ichild n (it_idx s - 1).
(** to_front 150-154, to_back 202-206 *)
Definition i_front (s : iter) : iter := {| it_idx := 0; it_num := it_num s |}.
Definition i_back (s : iter) : iter := {| it_idx := it_num s; it_num := it_num s |}.
(** has_next, 158-163 *)
Definition i_has_next (s : iter) : bool := negb (it_num s =? 0) && (it_idx s <? it_num s).
(** next, 167-180 *)
Definition i_next {K} (n : inode K) (s : iter) : outcome (K * iter) :=
  if i_has_next s then
    let s' := {| it_idx := it_idx s + 1; it_num := it_num s |} in
    do k <- ichild n (it_idx s' - 1); Ok (k, s')
  else Err.
(** peek_next, 184-198 *)
Definition i_peek_next {K} (n : inode K) (s : iter) : outcome K :=
  if i_has_next s then ichild n (it_idx s + 1 - 1) else Err.
(** has_previous, 213-217 *)
Definition i_has_prev (s : iter) : bool := 1 <? it_idx s.
(** previous, 221-235 *)
Definition i_prev {K} (n : inode K) (s : iter) : outcome (K * iter) :=
  if i_has_prev s then
    let s' := {| it_idx := it_idx s - 1; it_num := it_num s |} in
    do k <- ichild n (it_idx s' - 1); Ok (k, s')
  else Err.
(** peek_previous, 238-251: child(idx) with idx = m_index - 1 *)
Definition i_peek_prev {K} (n : inode K) (s : iter) : outcome K :=
  if i_has_prev s then ichild n (it_idx s - 1) else Err.

(** the two usual loops *)
Fixpoint i_walk {K} (fuel : nat) (n : inode K) (s : iter) : outcome (list K * iter) :=
  match fuel with
  | O => Fuel
  | S f => if i_has_next s then do (k, s') <- i_next n s; do (l, e) <- i_walk f n s'; Ok (k :: l, e) else Ok ([], s)
  end.
Fixpoint i_walk_back {K} (fuel : nat) (n : inode K) (s : iter) : outcome (list K * iter) :=
  match fuel with
  | O => Fuel
  | S f => if i_has_prev s then do (k, s') <- i_prev n s; do (l, e) <- i_walk_back f n s'; Ok (k :: l, e) else Ok ([], s)
  end.

(** range-for over begin() and end(), iterator.cpp 266-272 and hpp 76-160: from
    m_index to m_num_children by operator++, dereferenced by child(m_index) *)
Fixpoint c_range {K} (fuel : nat) (n : inode K) (b e : Z) : outcome (list K) :=
  match fuel with
  | O => Fuel
  | S f => if b =? e then Ok [] else do k <- ichild n b; do l <- c_range f n (b + 1) e; Ok (k :: l)
  end.
