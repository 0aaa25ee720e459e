(** Property theorems C23 (contiguity of a node's data).  Specification at the top of
    ContigFacts.v: [data_leaves], [in_a_row], [leads], [at_address], [dense].  Blocks of
    memory lie at arbitrary base addresses [base]. *)
From Verif Require Import Base DType SpecTree Mem MemFacts Node SpecNode NodeFacts NodeCompact NodeSet Contig ContigFacts P_Node.
Local Open Scope Z_scope.

(** is_contiguous() is true exactly when the leaves that hold data follow each other
    without a gap, in depth-first order. *)
Theorem C23_is_contiguous : forall base n, is_contiguous base n = true <-> exists a b, in_a_row base (data_leaves n) a b.
Proof. exact is_contiguous_law. Qed.
Print Assumptions C23_is_contiguous.
(** A contiguous node whose leaves are dense is one run of bytes: reading memory from the
    start address on gives the bytes of all elements in order. *)
Theorem C23_contiguous_bytes : forall base m n v a b, nvalue m n = Ok v -> Forall (fun l => dense (snd l)) (data_leaves n) ->
  in_a_row base (data_leaves n) a b -> at_address base m a (vbytes v) /\ b = a + Z.of_nat (length (vbytes v)).
Proof. exact contiguous_bytes_law. Qed.
Print Assumptions C23_contiguous_bytes.
(** contiguous_with(address): contiguous and starting at that address - if the first thing in
    the tree is a leaf with data. *)
Theorem C23_contiguous_with : forall base n s, leads n = true ->
  (contiguous_with base n (Some s) = true <-> exists b, in_a_row base (data_leaves n) s b).
Proof. exact contiguous_with_law. Qed.
Print Assumptions C23_contiguous_with.
(** ... in any case a positive answer implies contiguity. *)
Theorem C23_contiguous_with_implies : forall base n a, contiguous_with base n a = true -> exists x y, in_a_row base (data_leaves n) x y.
Proof. exact contiguous_with_any. Qed.
Print Assumptions C23_contiguous_with_implies.
(** contiguous_with(other): the two nodes together are one run, [other] first. *)
Theorem C23_contiguous_after : forall base n o, leads n = true -> data_leaves o <> [] ->
  (contiguous_with_node base n o = true <-> exists a b, in_a_row base (data_leaves o ++ data_leaves n) a b).
Proof. exact contiguous_after_law. Qed.
Print Assumptions C23_contiguous_after.
(** contiguous_data_ptr(): where the run starts, NULL if there is none. *)
Theorem C23_contiguous_data_ptr : forall base n, data_leaves n <> [] ->
  (is_contiguous base n = true -> exists p, contiguous_data_ptr base n = Some p /\ exists b, in_a_row base (data_leaves n) (base (fst p) + snd p) b) /\
  (is_contiguous base n = false -> contiguous_data_ptr base n = None).
Proof. exact contiguous_data_ptr_law. Qed.
Print Assumptions C23_contiguous_data_ptr.
(** A node laid out by a compact schema is contiguous and starts at its buffer. *)
Theorem C23_compact_is_contiguous : forall base t p own, back_to_back 0 (tleaves t) ->
  let n := walk t (Some p) own in
  is_contiguous base n = true /\ in_a_row base (data_leaves n) (addr base p) (addr base p + total_of (tleaves t)) /\
  Forall (fun l => dense (snd l)) (data_leaves n).
Proof. exact compact_contiguous_law. Qed.
Print Assumptions C23_compact_is_contiguous.

(** Three leaves in two buffers that happen to lie next to each other, and the interleaved
    records of P_Node, which are not contiguous. *)
Definition base_ex (b : nat) : Z := match b with O => 1000 | S _ => 1032 end.
Definition contig_node : node :=
  NObj null_hdr [(L "a", NLeaf (mkH (Some (0%nat, 0)) false) (mkDT UINT16 4 24 2 2 DEFAULT_E));
             (L "none", NLeaf null_hdr dt_empty);
             (L "b", NLst null_hdr [NLeaf (mkH (Some (1%nat, 0)) false) (dt_simple INT32 2); NLeaf (mkH (Some (1%nat, 8)) false) (dt_simple INT8 4)])].
Example C23_instance : is_contiguous base_ex contig_node = true /\ leads contig_node = true /\ length (data_leaves contig_node) = 3%nat /\
  contiguous_with base_ex contig_node (Some 1024) = true /\ contiguous_with base_ex contig_node (Some 1000) = false /\
  contiguous_data_ptr base_ex contig_node = Some (0%nat, 24) /\
  is_contiguous base_ex ext_node = false /\
  Forall (fun l => dense (snd l)) (data_leaves contig_node) /\ exists v, nvalue own_mem contig_node = Ok v /\ length (vbytes v) = 20%nat.
Proof.
  repeat (split; [vm_compute; reflexivity|]). split.
  - vm_compute. repeat constructor.
  - eexists. split; vm_compute; reflexivity.
Qed.

(** FINDING.  When an empty child comes first the address is forgotten: contiguous_with(0) of
    a node whose data start at 1024 is true. *)
Theorem C23_contiguous_with_forgets_refuted : exists base n s,
  contiguous_with base n (Some s) = true /\ data_leaves n <> [] /\ ~ exists b, in_a_row base (data_leaves n) s b.
Proof.
  exists base_ex, (NObj null_hdr [(L "none", NLeaf null_hdr dt_empty); (L "a", NLeaf (mkH (Some (0%nat, 0)) false) (mkDT UINT16 4 24 2 2 DEFAULT_E))]), 0.
  split; [vm_compute; reflexivity|]. split; [discriminate|]. intros (b & (q & Q & A) & _). injection Q as <-. vm_compute in A. discriminate A.
Qed.
Print Assumptions C23_contiguous_with_forgets_refuted.
(** FINDING.  A leaf with zero elements and a stride other than its element size has a negative
    extent, so two leaves that overlap count as contiguous. *)
Theorem C23_no_elements_refuted : exists base n, is_contiguous base n = true /\ exists p d e r,
  data_leaves n = [(Some p, d); (Some p, e)] ++ r /\ dt_n d = 0 /\ dt_off e < dt_off d.
Proof.
  exists base_ex, (NLst null_hdr [NLeaf (mkH (Some (0%nat, 0)) false) (mkDT UINT16 0 24 8 2 DEFAULT_E); NLeaf (mkH (Some (0%nat, 0)) false) (mkDT UINT16 1 18 2 2 DEFAULT_E)]).
  split; [vm_compute; reflexivity|]. eexists _, _, _, []. split; [reflexivity|]. split; reflexivity.
Qed.
Print Assumptions C23_no_elements_refuted.
