(** Node::is_contiguous, contiguous_with, contiguous_data_ptr,
    src/libs/conduit/conduit_node.cpp 17672-17831.

    Addresses are compared here, also those of different allocations, so blocks get
    (arbitrary) base addresses; [None] is NULL.  Simplification: element_ptr(0) of a
    leaf without data is NULL whatever the offset (the code adds the offset to a null
    pointer). *)
From Verif Require Import Base DType SpecTree Mem Node.
Local Open Scope Z_scope.

Section Contig.
Variable base : nat -> Z.
Definition addr (p : ptr) : Z := base (fst p) + snd p.
(** (uint8 ptr)element_ptr(0) *)
Definition addr0 (h : hdr) (d : dtype) : option Z := option_map addr (elem0 h d).
(** the leaf case of contiguous_with(uint8 ptr start_addy, uint8 ptr &end_addy), 17737-17769 *)
Definition contig_leaf (h : hdr) (d : dtype) (start : option Z) : bool * option Z :=
  match start, addr0 h d with
  | Some s, Some c => if c =? s then (true, Some (c + strided_bytes d)) else (false, None)
  | Some _, None => (false, None)
  | None, Some c => (true, Some (c + strided_bytes d))
  | None, None => (false, None)
  end.
(** contiguous_with(start_addy, end_addy), 17708-17774: the result and the value the
    reference end_addy is left with. *)
Fixpoint contig (n : node) (start end_ : option Z) : bool * option Z :=
  match n with
  | NLeaf h d => if is_empty d then (true, end_) else contig_leaf h d start
  | NObj _ es =>
      (fix go l start end_ :=
         match l with
         | [] => (true, end_)
         | (_, c) :: r =>
             match contig c start end_ with
             | (true, e) => go r e e
             | (false, e) => (false, e)
             end
         end) es start end_
  | NLst _ ks =>
      (fix go l start end_ :=
         match l with
         | [] => (true, end_)
         | c :: r =>
             match contig c start end_ with
             | (true, e) => go r e e
             | (false, e) => (false, e)
             end
         end) ks start end_
  end.
(** is_contiguous(), 17672-17676 *)
Definition is_contiguous (n : node) : bool := fst (contig n None None).
(** contiguous_with(void ptr), 17680-17692 *)
Definition contiguous_with (n : node) (address : option Z) : bool :=
  match address with
  | None => false
  | Some _ => fst (contig n address None)
  end.
(** contiguous_with(const Node&), 17696-17706: [n] directly after [other] *)
Definition contiguous_with_node (n other : node) : bool :=
  let (ok, e) := contig other None None in ok && contiguous_with n e.
(** find_first_data_ptr, 17805-17831 *)
Fixpoint first_data (n : node) : option ptr :=
  match n with
  | NLeaf h d => if is_empty d then None else elem0 h d
  | NObj _ es =>
      (fix go l := match l with
                   | [] => None
                   | (_, c) :: r => match first_data c with Some p => Some p | None => go r end
                   end) es
  | NLst _ ks =>
      (fix go l := match l with
                   | [] => None
                   | c :: r => match first_data c with Some p => Some p | None => go r end
                   end) ks
  end.
(** contiguous_data_ptr(), 17778-17801 *)
Definition contiguous_data_ptr (n : node) : option ptr :=
  if is_contiguous n then first_data n else None.
End Contig.
