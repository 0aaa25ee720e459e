(** Property theorems C39 (set from a schema) and C34 (multi-component arrays). *)
From Verif Require Import Base DType SpecTree Schema SchemaInv Mem MemFacts Node SpecNode NodeFacts NodeCompact NodeSet
  NodeEndian NodeUpdate NodeMerge NodeUpdateLaws NodeAlloc McArray McArrayFacts P_Node P_NodeOps.
Local Open Scope Z_scope.

(** * C39 *)
(** set(schema) frees what the node had, and gives a node with exactly that
    schema, all its leaves in one fresh zero-filled buffer of exactly
    spanned_bytes bytes; nothing else in memory changes and nothing leaks; if
    the leaves do not overlap, the node is ready for writing. *)
Theorem C39_set_schema : forall m dest t,
  healthy m dest -> Forall laid_out (tleaves t) -> 0 <= tspanned t ->
  (forall d, t = TLeaf d -> dt_id d <> EMPTY) ->
  exists m' dest', nset_schema m dest t = Ok (m', dest') /\
    nschema dest' = t /\ nvalue m' dest' = Ok (tmap leaf_zero t) /\
    (exists b, dest' = walk t (Some (b, 0)) true /\ (length m <= b)%nat /\
       exists l, nth_error m' b = Some (Some l) /\ Z.of_nat (length l) = tspanned t) /\
    step m (fun _ => False) (ob dest) m' (touches dest') (ob dest') /\
    (disjoint_leaves t -> healthy m' dest').
Proof. exact set_schema_law. Qed.
Print Assumptions C39_set_schema.
Lemma rec_laid : Forall laid_out (tleaves rec_schema).
Proof.
  cbn. constructor; [|constructor; [|constructor; [left; split; reflexivity|constructor]]];
    right; unfold std_leaf; cbn; repeat split; discriminate || lia.
Qed.
Example C39_hypotheses : healthy own_mem own_node /\ Forall laid_out (tleaves rec_schema) /\ 0 <= tspanned rec_schema /\
  disjoint_leaves rec_schema.
Proof.
  split; [exact own_node_healthy|]. split; [exact rec_laid|]. split; [vm_compute; discriminate|]. split.
  - repeat (apply FOP_cons; [repeat (apply Forall_cons; [intros i j b X Y; unfold occupies in *; cbn [dt_n dt_off dt_stride dt_ebytes dt_empty dt_simple] in *; lia|]); apply Forall_nil|]). apply FOP_nil.
  - repeat (apply Forall_cons; [intros i j b X Y; unfold occupies in *; cbn [dt_n dt_off dt_stride dt_ebytes dt_empty dt_simple] in *; lia|]). apply Forall_nil.
Qed.
Example C39_instance : exists m' dest', nset_schema own_mem own_node rec_schema = Ok (m', dest') /\
  nth_error m' 1 = Some None /\ nth_error m' 2 = Some (Some (repeat zero_byte 29)) /\
  nvalue m' dest' = Ok (tmap leaf_zero rec_schema).
Proof. eexists. eexists. split; [vm_compute; reflexivity|]. repeat split; vm_compute; reflexivity. Qed.
(** Negative strides: spanned_bytes measures from the last element, so the buffer
    is too small and reading the first element leaves it. *)
Theorem C39_negative_stride_refuted : exists d m' dest',
  0 <= dt_n d /\ (forall i, 0 <= i < dt_n d -> 0 <= dt_off d + dt_stride d * i) /\ std_leaf d /\
  nset_schema ubuf nempty (TLeaf d) = Ok (m', dest') /\ nvalue m' dest' = UB.
Proof.
  exists (mkDT INT32 3 8 (-4) 4 DEFAULT_E). eexists. eexists. cbn [dt_n dt_off dt_stride]. split; [lia|]. split; [intros; lia|].
  split; [reflexivity|]. split; vm_compute; reflexivity.
Qed.
Print Assumptions C39_negative_stride_refuted.
(** A leaf without elements and with a stride asks for a negative number of bytes. *)
Theorem C39_no_elements_refuted : exists d, laid_out d /\ tspanned (TLeaf d) < 0 /\ nset_schema ubuf nempty (TLeaf d) = UB.
Proof.
  exists (mkDT INT32 0 0 16 4 DEFAULT_E). split; [right; unfold std_leaf; cbn; repeat split; discriminate || lia|].
  split; vm_compute; reflexivity.
Qed.
Print Assumptions C39_no_elements_refuted.
(** An empty schema: a buffer is allocated that no later release frees. *)
Theorem C39_empty_schema_leak_refuted : exists m' dest', nset_schema ubuf nempty (TLeaf dt_empty) = Ok (m', dest') /\
  live m' 1 /\ nfree m' dest' = Ok m' /\ h_own (n_hdr dest') = true.
Proof. eexists. eexists. split; [vm_compute; reflexivity|]. split; [eexists; reflexivity|]. split; reflexivity. Qed.
Print Assumptions C39_empty_schema_leak_refuted.

(** * C34 *)
(** The result has the same component names in the same order with the same
    values (element bytes, type and byte order); the source keeps its values;
    all components are in one fresh buffer, back to back; the destination's old
    buffers are released and nothing leaks. *)
Theorem C34_to_contiguous : forall m src dest sv,
  mcarray src -> healthy m dest -> nvalue m src = Ok sv -> (forall q, touches src q -> ~ ob dest (fst q)) ->
  exists m' d' b t, mc_to_contiguous m src dest = Ok (m', d') /\
    nvalue m' d' = Ok sv /\ nvalue m' src = Ok sv /\ healthy m' d' /\
    step m (fun _ => False) (ob dest) m' (touches d') (ob d') /\
    d' = walk t (Some (b, 0)) true /\ back_to_back 0 (tleaves t) /\ tmap leaf_kind t = tmap leaf_kind (nschema src).
Proof. exact to_contiguous_law. Qed.
Print Assumptions C34_to_contiguous.
(** Likewise, with element [i] of all components side by side. *)
Theorem C34_to_interleaved : forall m src dest sv,
  mcarray src -> healthy m dest -> nvalue m src = Ok sv -> (forall q, touches src q -> ~ ob dest (fst q)) ->
  exists m' d' b t, mc_to_interleaved m src dest = Ok (m', d') /\
    nvalue m' d' = Ok sv /\ nvalue m' src = Ok sv /\ healthy m' d' /\
    step m (fun _ => False) (ob dest) m' (touches d') (ob d') /\
    d' = walk t (Some (b, 0)) true /\ interleaved (tleaves t) /\ tmap leaf_kind t = tmap leaf_kind (nschema src) /\
    mc_is_interleaved d' = true.
Proof. exact to_interleaved_law. Qed.
Print Assumptions C34_to_interleaved.
(** What a positive answer of is_interleaved means. *)
Theorem C34_is_interleaved_sound : forall n,
  Forall (fun c => exists p, h_data (n_hdr c) = Some p) (n_kids n) ->
  mc_is_interleaved n = true -> exists b o st, forall i c, nth_error (n_kids n) i = Some c ->
    dt_stride (n_dtype c) = st /\
    elem0 (n_hdr c) (n_dtype c) = Some (b, o + fold_right Z.add 0 (map (fun c => dt_ebytes (n_dtype c)) (firstn i (n_kids n)))).
Proof. exact is_interleaved_sound. Qed.
Print Assumptions C34_is_interleaved_sound.
(** verify accepts exactly objects and lists of number leaves of one length. *)
Theorem C34_verify : forall n, (forall c, In c (n_kids n) -> 0 < dt_n (n_dtype c)) ->
  mc_verify n = true <->
  (match n with NLeaf _ _ => False | _ => True end) /\
  (forall c, In c (n_kids n) -> is_number (n_dtype c) = true) /\
  (forall c c', In c (n_kids n) -> In c' (n_kids n) -> dt_n (n_dtype c) = dt_n (n_dtype c')).
Proof. exact verify_law. Qed.
Print Assumptions C34_verify.
(** x, y, z with different types, offsets and strides over the user's buffer. *)
Definition mc_src : node :=
  NObj (mkH None false) [(L "x", NLeaf (mkH (Some (0%nat, 0)) false) (mkDT UINT16 3 0 8 2 DEFAULT_E));
                         (L "y", NLeaf (mkH (Some (0%nat, 0)) false) (mkDT UINT8 3 4 8 1 BIG_E));
                         (L "z", NLeaf (mkH (Some (0%nat, 2)) false) (mkDT UINT8 2 20 1 1 DEFAULT_E))].
Example C34_hypotheses : exists sv, mcarray mc_src /\ healthy own_mem own_node /\ nvalue own_mem mc_src = Ok sv /\
  (forall q, touches mc_src q -> ~ ob own_node (fst q)).
Proof.
  eexists. split; [|split; [exact own_node_healthy|split; [vm_compute; reflexivity|]]].
  - split; [discriminate|]. split; [cbn; repeat constructor; cbn; intuition discriminate|].
    repeat constructor; try discriminate; cbn; try (intuition discriminate).
  - intros q T. apply touches_obj in T. destruct T as (k & c & I & T).
    assert (E : fst q = 0%nat).
    { destruct I as [I|[I|[I|[]]]]; injection I as <- <-; apply touches_leaf in T; destruct T as (p & i & j & Ep & _ & _ & ->);
        injection Ep as <-; reflexivity. }
    rewrite E. intros [X|[]]. discriminate.
Qed.
Example C34_contiguous_instance : exists m' d' l, mc_to_contiguous own_mem mc_src own_node = Ok (m', d') /\
  nth_error m' 2 = Some (Some l) /\ l = L "abijqremuwx".
Proof. eexists. eexists. eexists. split; [vm_compute; reflexivity|]. split; vm_compute; reflexivity. Qed.
Example C34_interleaved_instance : exists m' d' l, mc_to_interleaved own_mem mc_src own_node = Ok (m', d') /\
  nth_error m' 2 = Some (Some l) /\ l = L "abewijmxqru" /\ mc_verify d' = false.
Proof. eexists. eexists. eexists. split; [vm_compute; reflexivity|]. repeat split; vm_compute; reflexivity. Qed.

(** Lists: the layout is built under the names "0", "1", ...; update then throws
    it away and the components end up in separate buffers. *)
Definition mc_lst : node :=
  NLst (mkH None false) [NLeaf (mkH (Some (0%nat, 0)) false) (dt_simple UINT8 2); NLeaf (mkH (Some (0%nat, 4)) false) (dt_simple UINT8 2)].
Theorem C34_list_layout_refuted : exists m' d', mc_verify mc_lst = true /\
  mc_to_interleaved ubuf mc_lst nempty = Ok (m', d') /\ nvalue m' d' = nvalue ubuf mc_lst /\
  mc_is_interleaved d' = false /\ length (owned_blocks d') = 2%nat.
Proof. eexists. eexists. split; [vm_compute; reflexivity|]. split; [vm_compute; reflexivity|]. repeat split; vm_compute; reflexivity. Qed.
Print Assumptions C34_list_layout_refuted.
(** Names with a slash: the layout is built under a path, the values land in a
    new child beside it. *)
Definition mc_slash : node :=
  NObj (mkH None false) [(L "a/b", NLeaf (mkH (Some (0%nat, 0)) false) (dt_simple UINT8 2));
                         (L "c", NLeaf (mkH (Some (0%nat, 4)) false) (dt_simple UINT8 2))].
Theorem C34_slash_name_refuted : exists m' d' v, mc_verify mc_slash = true /\
  mc_to_contiguous ubuf mc_slash nempty = Ok (m', d') /\ nvalue m' d' = Ok v /\
  map fst (tentries v) = [L "a"; L "c"; L "a/b"] /\ mc_verify d' = false.
Proof. eexists. eexists. eexists. split; [vm_compute; reflexivity|]. split; [vm_compute; reflexivity|]. repeat split; vm_compute; reflexivity. Qed.
Print Assumptions C34_slash_name_refuted.
(** is_interleaved does not look at the size of the stride: two overlapping
    components pass. *)
Theorem C34_is_interleaved_overlap_refuted : exists n q, mc_verify n = true /\ mc_is_interleaved n = true /\
  (forall c, In c (n_kids n) -> touches c q) /\ length (n_kids n) = 2%nat.
Proof.
  exists (NObj (mkH None false) [(L "u", NLeaf (mkH (Some (0%nat, 0)) false) (dt_simple UINT8 2));
                                 (L "v", NLeaf (mkH (Some (0%nat, 1)) false) (dt_simple UINT8 2))]), (0%nat, 1).
  split; [vm_compute; reflexivity|]. split; [vm_compute; reflexivity|]. split; [|reflexivity].
  intros c [<-|[<-|[]]]; apply touches_leaf.
  - exists (0%nat, 0), 1, 0. cbn. repeat split; lia.
  - exists (0%nat, 1), 0, 0. cbn. repeat split; lia.
Qed.
Print Assumptions C34_is_interleaved_overlap_refuted.
(** verify lets components without elements pass in front of others. *)
Theorem C34_verify_zero_first_refuted : exists n c c', mc_verify n = true /\ In c (n_kids n) /\ In c' (n_kids n) /\
  dt_n (n_dtype c) <> dt_n (n_dtype c').
Proof.
  set (u := NLeaf (mkH (Some (0%nat, 0)) false) (dt_simple UINT8 0)). set (v := NLeaf (mkH (Some (0%nat, 1)) false) (dt_simple UINT8 2)).
  exists (NObj (mkH None false) [(L "u", u); (L "v", v)]), u, v. split; [reflexivity|]. split; [left; reflexivity|]. split; [right; left; reflexivity|].
  discriminate.
Qed.
Print Assumptions C34_verify_zero_first_refuted.
