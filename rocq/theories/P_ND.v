(** Property theorem C33 (N-dimensional indexing).  Specification at the top of
    NDIndexFacts.v: [dot], [offsets_of], [extents], [strides_of], [in_shape], [roomy]. *)
From Verif Require Import Base NDIndex NDIndexFacts.
Local Open Scope Z_scope.

(** The flat index is the affine combination (offset + index) . stride, with offset
    0 and stride 1, e0, e0*e1, ... (e = shape + offset) where not given. *)
Theorem C33_affine : forall x idx, nd_ok x -> length idx = length (nd_shape x) ->
  nd_index x idx = Ok (dot (vplus (offsets_of x) idx) (strides_of x)).
Proof. exact index_law. Qed.
Print Assumptions C33_affine.
(** Default strides: inside the array, and injective. *)
Theorem C33_default_in_range : forall x i, nd_ok x -> nd_stride x = [] -> Forall (fun o => 0 <= o) (nd_offset x) ->
  in_shape (nd_shape x) i -> exists p, nd_index x i = Ok p /\ 0 <= p < vprod (extents x).
Proof. intros x i H S F I. apply (nd_default x i H S F I). Qed.
Print Assumptions C33_default_in_range.
Theorem C33_default_injective : forall x i j p, nd_ok x -> nd_stride x = [] -> Forall (fun o => 0 <= o) (nd_offset x) ->
  in_shape (nd_shape x) i -> in_shape (nd_shape x) j -> nd_index x i = Ok p -> nd_index x j = Ok p -> i = j.
Proof.
  intros x i j p H S F Hi Hj Ei Ej. destruct (nd_default x i H S F Hi) as (Q1 & Q2 & _). exact (nd_injective x i j p H F Q1 Q2 Hi Hj Ei Ej).
Qed.
Print Assumptions C33_default_injective.
(** Without offsets the map is onto 0 .. product of the shape - 1. *)
Theorem C33_default_onto : forall x p, nd_ok x -> nd_stride x = [] -> nd_offset x = [] -> Forall (fun s => 0 < s) (nd_shape x) ->
  0 <= p < vprod (nd_shape x) -> exists i, in_shape (nd_shape x) i /\ nd_index x i = Ok p.
Proof. exact nd_onto. Qed.
Print Assumptions C33_default_onto.
(** Explicit positive strides, each leaving room for the dimension before it (padding
    allowed): still injective. *)
Theorem C33_padded_injective : forall x i j p, nd_ok x -> Forall (fun o => 0 <= o) (nd_offset x) ->
  Forall (fun s => 0 < s) (strides_of x) -> roomy (strides_of x) (extents x) ->
  in_shape (nd_shape x) i -> in_shape (nd_shape x) j -> nd_index x i = Ok p -> nd_index x j = Ok p -> i = j.
Proof. exact nd_injective. Qed.
Print Assumptions C33_padded_injective.
(** The documented example: 6x4x5 with two elements of padding below and one above. *)
Definition nd_doc : ndi := {| nd_shape := [6; 4; 5]; nd_offset := [2; 2; 2]; nd_stride := [1; 9; 63] |}.
Definition nd_def : ndi := {| nd_shape := [6; 4; 5]; nd_offset := []; nd_stride := [] |}.
Example C33_instance : nd_ok nd_doc /\ nd_ok nd_def /\ Forall (fun s => 0 < s) (strides_of nd_doc) /\ roomy (strides_of nd_doc) (extents nd_doc) /\
  in_shape [6; 4; 5] [5; 3; 4] /\ nd_index nd_doc [5; 3; 4] = Ok (7 + 5 * 9 + 6 * 63) /\ nd_index nd_def [5; 3; 4] = Ok 119.
Proof.
  split; [split; [discriminate|split; right; reflexivity]|]. split; [split; [discriminate|split; left; reflexivity]|].
  split; [repeat constructor; lia|]. split; [cbn; lia|]. split; [repeat constructor; lia|]. split; reflexivity.
Qed.
(** A wrong number of indices is not detected: too few are taken as the last
    dimensions, too many read the accessors before their start. *)
Theorem C33_index_count_unchecked_refuted : exists x, nd_ok x /\ nd_index x [3; 4] = nd_index x [-2; 3; 4] /\ nd_index x [0; 5; 3; 4] = UB.
Proof. exists nd_doc. split; [apply C33_instance|]. split; reflexivity. Qed.
Print Assumptions C33_index_count_unchecked_refuted.
