(** NDIndex, src/libs/blueprint/conduit_blueprint_ndarray_index.hpp 176-240 and
    conduit_blueprint_ndarray_index.cpp 46-96.  index_t is unbounded; reading an
    accessor out of range is UB. *)
From Verif Require Import Base.
Local Open Scope Z_scope.

(** m_shape_acc, m_offset_acc, m_stride_acc; m_ndim is the length of shape.
    A missing accessor has no elements. *)
Record ndi := { nd_shape : list Z; nd_offset : list Z; nd_stride : list Z }.
Definition nd_ndim (x : ndi) : Z := Z.of_nat (length (nd_shape x)).
Definition nd_at (l : list Z) (i : Z) : outcome Z := deref (znth l i).
(** offset(dim), hpp 207-215 *)
Definition nd_off (x : ndi) (dim : Z) : outcome Z :=
  match nd_offset x with [] => Ok 0 | l => nd_at l dim end.
(** the loop of stride(dim), hpp 223-227: d from [d] while d < dim && d < m_ndim *)
Fixpoint nd_stride_loop (x : ndi) (dim : Z) (k : nat) (d acc : Z) : outcome Z :=
  match k with
  | O => Ok acc
  | S k' =>
      if (d <? dim) && (d <? nd_ndim x) then
        do s <- nd_at (nd_shape x) d;
        do o <- nd_off x d;
        nd_stride_loop x dim k' (d + 1) (acc * (s + o))
      else Ok acc
  end.
(** stride(dim), hpp 218-231; the loop runs at most m_ndim times *)
Definition nd_str (x : ndi) (dim : Z) : outcome Z :=
  match nd_stride x with
  | [] => nd_stride_loop x dim (length (nd_shape x)) 0 1
  | l => nd_at l dim
  end.
(** index(idx, idxs...), hpp 176-193; the parameter pack as a list.  The pack of
    zero indices does not compile. *)
Fixpoint nd_index (x : ndi) (idx : list Z) : outcome Z :=
  match idx with
  | [] => UB
  | i :: r =>
      let depth := nd_ndim x - Z.of_nat (length r) - 1 in
      do o <- nd_off x depth;
      do s <- nd_str x depth;
      let component := (o + i) * s in
      match r with
      | [] => Ok component
      | _ => do rest <- nd_index x r; Ok (component + rest)
      end
  end.
