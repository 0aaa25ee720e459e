(** Property theorems C11-C15: copying, serializing and sharing nodes. *)
From Verif Require Import Base DType SpecTree Schema SchemaInv Mem MemFacts Node SpecNode NodeFacts NodeCompact NodeSet
  NodeSerial NodeBridge NodeLaws.
Local Open Scope Z_scope.

(** ---- a concrete situation, reached through API calls only ---- *)
(** A user buffer of 32 bytes 'a','b',... in block 0. *)
Definition ubuf : mem := [Some (L "abcdefghijklmnopqrstuvwxyz012345")].
(** Interleaved records of 8 bytes: a 16-bit id at 0, four 1-byte tags at 4, and
    an empty slot. *)
Definition rec_schema : tree dtype :=
  TObj [(L "id", TLeaf (mkDT UINT16 4 0 8 2 DEFAULT_E));
        (L "tags", TList [TLeaf (mkDT UINT8 4 4 8 1 DEFAULT_E); TLeaf dt_empty])].
(** set_external(schema, buffer) on a fresh node *)
Definition ext_node : node := walk rec_schema (Some (0%nat, 0)) false.
Example ext_node_reached : nset_external_schema ubuf nempty rec_schema (Some (0%nat, 0)) = Ok (ubuf, ext_node).
Proof. reflexivity. Qed.
Definition ext_value : tree leafval :=
  TObj [(L "id", TLeaf (Some (UINT16, DEFAULT_E, [L "ab"; L "ij"; L "qr"; L "yz"])));
        (L "tags", TList [TLeaf (Some (UINT8, DEFAULT_E, [L "e"; L "m"; L "u"; L "2"])); TLeaf None])].
Example ext_node_value : nvalue ubuf ext_node = Ok ext_value.
Proof. vm_compute. reflexivity. Qed.
(** A destination that owns memory: set(schema) on a fresh node. *)
Definition own_mem : mem := ubuf ++ [Some (repeat zero_byte 12)].
Definition own_node : node := walk (TObj [(L "old", TLeaf (dt_simple INT32 3))]) (Some (1%nat, 0)) true.
Example own_node_reached :
  nset_schema ubuf nempty (TObj [(L "old", TLeaf (dt_simple INT32 3))]) = Ok (own_mem, own_node).
Proof. vm_compute. reflexivity. Qed.
Example own_node_ok : owned_ok own_mem own_node /\ tidy own_node /\ owned_blocks own_node = [1%nat].
Proof.
  split; [|split; [|reflexivity]].
  - split; [|vm_compute; repeat constructor; intros []].
    vm_compute. constructor; [|constructor]. split; [reflexivity|]. eexists. reflexivity.
  - cbv. repeat split; intros; discriminate.
Qed.
Example ext_own_apart : forall q, touches ext_node q -> ~ In (fst q) (owned_blocks own_node).
Proof.
  intros q T. apply touches_walk in T. destruct T as (p & d & i & j & Ep & _ & _ & _ & ->).
  injection Ep as <-. simpl. intros [H|[]]. discriminate.
Qed.
Example ext_value_own : nvalue own_mem ext_node = Ok ext_value.
Proof. vm_compute. reflexivity. Qed.

(** * The schema functions used below are those of the schema model. *)
Theorem C11_schema_functions_agree : forall s, wf s ->
  ttotal (abs s) = total_bytes_compact s /\ tstrided (abs s) = total_strided_bytes s /\
  tspanned (abs s) = s_spanned_bytes s /\ tcompact (abs s) 0 = abs (s_compact_to s).
Proof.
  intros s W. split; [apply ttotal_abs; exact W|]. split; [apply tstrided_abs; exact W|].
  split; [apply tspanned_abs; exact W|]. symmetry. apply tcompact_abs. exact W.
Qed.
Print Assumptions C11_schema_functions_agree.

(** * C11 *)
(** compact_to: same values, compact schema, one fresh block of exactly the
    compact size (none if that is zero) to which all elements belong, the source
    intact, and no other block changed apart from those the destination gave up. *)
Theorem C11_compact_to : forall m src dest v,
  owned_ok m dest -> nvalue m src = Ok v ->
  (forall q, touches src q -> ~ In (fst q) (owned_blocks dest)) ->
  exists m' dest', ncompact_to m src dest = Ok (m', dest') /\
    nvalue m' dest' = Ok v /\
    nschema dest' = tcompact (nschema src) 0 /\
    nvalue m' src = Ok v /\
    (forall q, touches dest' q -> fst q = length m /\ 0 <= snd q < ttotal (nschema src)) /\
    (0 < ttotal (nschema src) -> exists l, nth_error m' (length m) = Some (Some l) /\
                                           Z.of_nat (length l) = ttotal (nschema src)) /\
    (forall b, (b < length m)%nat -> ~ In b (owned_blocks dest) -> nth_error m' b = nth_error m b) /\
    length m' = (length m + if (0 <? ttotal (nschema src))%Z then 1 else 0)%nat.
Proof. exact compact_law. Qed.
Print Assumptions C11_compact_to.
Example C11_instance : exists m' dest', ncompact_to own_mem ext_node own_node = Ok (m', dest') /\
  nvalue m' dest' = Ok ext_value /\
  nth_error m' 2 = Some (Some (L "abijqryzemu2")) /\ nth_error m' 1 = Some None.
Proof. eexists. eexists. split; [vm_compute; reflexivity|]. vm_compute. auto. Qed.
(** Without the last hypothesis it fails: compacting an external view of a node
    into that node reads freed memory. *)
Theorem C11_compact_into_viewed_node_refuted : exists m src dest v,
  owned_ok m dest /\ tidy dest /\ nvalue m src = Ok v /\ ncompact_to m src dest = UB.
Proof.
  exists own_mem, (mirror own_node false), own_node. eexists.
  split; [apply own_node_ok|]. split; [apply own_node_ok|].
  split; vm_compute; reflexivity.
Qed.
Print Assumptions C11_compact_into_viewed_node_refuted.

(** * C12 *)
(** serialize(vector) on dense leaves (or on a single leaf of any stride): the
    vector has exactly the compact size and holds the elements one after the
    other, the rest of memory is untouched, and set(compacted schema, vector) on
    any other node yields the original values. *)
Theorem C12_serialize_round_trip : forall m src v dest,
  nvalue m src = Ok v ->
  Forall dense_leaf (tleaves (nschema src)) \/ (exists h d, src = NLeaf h d /\ std_leaf d) ->
  owned_ok m dest ->
  exists m' p, nserialize m src = Ok (m', p) /\
    (exists l, nth_error m' (fst p) = Some (Some l) /\ snd p = 0 /\ l = vbytes v /\
               Z.of_nat (length l) = ttotal (nschema src)) /\
    (forall b, (b < length m)%nat -> nth_error m' b = nth_error m b) /\
    exists m'' r, nset_schema_data m' dest (tcompact (nschema src) 0) (Some p) = Ok (m'', r) /\
      nvalue m'' r = Ok v.
Proof. exact serialize_law. Qed.
Print Assumptions C12_serialize_round_trip.
(** serialize(ofstream) needs only leaves of standard element size. *)
Theorem C12_stream_round_trip : forall m src v,
  nvalue m src = Ok v -> Forall std_leaf (tleaves (nschema src)) ->
  exists bs, nstream m src = Ok bs /\ Z.of_nat (length bs) = ttotal (nschema src) /\
    forall m1 p dest, load m1 p (ttotal (nschema src)) = Ok bs -> owned_ok m1 dest ->
      ~ In (fst p) (owned_blocks dest) ->
      exists m2 r, nset_schema_data m1 dest (tcompact (nschema src) 0) (Some p) = Ok (m2, r) /\
        nvalue m2 r = Ok v.
Proof. exact stream_law. Qed.
Print Assumptions C12_stream_round_trip.
Example C12_stream_instance : nstream ubuf ext_node = Ok (L "abijqryzemu2").
Proof. vm_compute. reflexivity. Qed.
Example C12_instance : exists m' dest', ncompact_to own_mem ext_node own_node = Ok (m', dest') /\
  Forall dense_leaf (tleaves (nschema dest')) /\
  exists m'' p, nserialize m' dest' = Ok (m'', p) /\ load m'' p 12 = Ok (L "abijqryzemu2").
Proof.
  eexists. eexists. split; [vm_compute; reflexivity|]. split.
  - vm_compute. repeat constructor.
  - eexists. eexists. split; vm_compute; reflexivity.
Qed.
(** serialize(vector) advances by the STRIDED size of each child while the vector
    has the COMPACT size: with a strided leaf that is not last it writes past the
    end of the vector ... *)
Theorem C12_serialize_strided_refuted : exists m src v,
  nvalue m src = Ok v /\ Forall std_leaf (tleaves (nschema src)) /\ nserialize m src = UB.
Proof.
  exists ubuf, ext_node, ext_value. split; [vm_compute; reflexivity|].
  split; [vm_compute; repeat constructor|vm_compute; reflexivity].
Qed.
Print Assumptions C12_serialize_strided_refuted.
(** ... and with overlapping elements (stride smaller than the element) it stays
    inside but scrambles the values. *)
Theorem C12_serialize_overlap_refuted : exists m src v m' p m'' r,
  nvalue m src = Ok v /\ Forall std_leaf (tleaves (nschema src)) /\
  nserialize m src = Ok (m', p) /\
  nset_schema_data m' nempty (tcompact (nschema src) 0) (Some p) = Ok (m'', r) /\
  nvalue m'' r <> Ok v.
Proof.
  exists ubuf, (walk (TObj [(L "c", TLeaf (mkDT UINT8 3 0 0 1 DEFAULT_E)); (L "d", TLeaf (mkDT UINT8 1 1 1 1 DEFAULT_E))])
                     (Some (0%nat, 0)) false).
  eexists. eexists. eexists. eexists. eexists.
  split; [vm_compute; reflexivity|]. split; [vm_compute; repeat constructor|].
  split; [vm_compute; reflexivity|]. split; [vm_compute; reflexivity|]. vm_compute. discriminate.
Qed.
Print Assumptions C12_serialize_overlap_refuted.

(** * C13 *)
Theorem C13_strided_copy : forall m d n eb ds s ss,
  0 <= n -> 0 <= eb ->
  (forall i j, 0 <= i < n -> 0 <= j < eb -> rd m (padd s (ss * i + j)) <> None) ->
  (forall i j, 0 <= i < n -> 0 <= j < eb -> rd m (padd d (ds * i + j)) <> None) ->
  (n <= 1 \/ eb <= Z.abs ds) ->
  (forall i j i' j', 0 <= i < n -> 0 <= j < eb -> 0 <= i' < n -> 0 <= j' < eb ->
     padd d (ds * i + j) <> padd s (ss * i' + j')) ->
  exists m', memcpy_strided m (Some d) n eb ds (Some s) ss = Ok m' /\
    (forall i j, 0 <= i < n -> 0 <= j < eb ->
       rd m' (padd d (ds * i + j)) = rd m (padd s (ss * i + j))) /\
    (forall q, (forall i j, 0 <= i < n -> 0 <= j < eb -> q <> padd d (ds * i + j)) -> rd m' q = rd m q) /\
    same_shape m m'.
Proof. exact strided_copy_law. Qed.
Print Assumptions C13_strided_copy.
Theorem C13_fast_path_is_loop : forall m d n eb s,
  0 <= n -> 0 <= eb -> strided_readable m s n eb eb -> strided_readable m d n eb eb ->
  (forall q, in_elems d n eb eb q -> ~ in_elems s n eb eb q) ->
  memcpy_strided m (Some d) n eb eb (Some s) eb = copy_loop (Z.to_nat n) m (Some d) eb eb (Some s) eb.
Proof. exact fast_path_is_loop. Qed.
Print Assumptions C13_fast_path_is_loop.
(** Four 2-byte records from stride 8 to stride 3. *)
Example C13_instance :
  memcpy_strided own_mem (Some (1%nat, 0)) 4 2 3 (Some (0%nat, 0)) 8 =
  Ok (ubuf ++ [Some ["a"; "b"; zero_byte; "i"; "j"; zero_byte; "q"; "r"; zero_byte; "y"; "z"; zero_byte]%char]).
Proof. vm_compute. reflexivity. Qed.

(** * C14 *)
(** set: equal values; same names, types, counts, byte order; the source intact;
    no byte shared, so later writes confined to either one never show in the other;
    the result is a well-owned node again. *)
Theorem C14_set_deep_copy : forall m src dest v,
  owned_ok m dest -> tidy dest -> nvalue m src = Ok v ->
  (forall q, touches src q -> ~ In (fst q) (owned_blocks dest)) ->
  exists m' dest', nset m dest src = Ok (m', dest') /\
    nvalue m' dest' = Ok v /\
    nvalue m' src = Ok v /\
    nschema dest' = tmap (fun d => leaf_compact d 0) (nschema src) /\
    (forall q, touches dest' q -> ~ touches src q) /\
    (forall m'', agree_off (touches src) m' m'' -> nvalue m'' dest' = Ok v) /\
    (forall m'', agree_off (touches dest') m' m'' -> nvalue m'' src = Ok v) /\
    owned_ok m' dest' /\ tidy dest' /\
    (forall b, (b < length m)%nat -> ~ In b (owned_blocks dest) -> nth_error m' b = nth_error m b).
Proof. exact set_law. Qed.
Print Assumptions C14_set_deep_copy.
Example C14_instance : exists m' dest', nset own_mem own_node ext_node = Ok (m', dest') /\
  nvalue m' dest' = Ok ext_value /\ nth_error m' 2 = Some (Some (L "abijqryz")) /\
  nth_error m' 3 = Some (Some (L "emu2")).
Proof. eexists. eexists. split; [vm_compute; reflexivity|]. vm_compute. auto. Qed.
(** n.set(n) empties n. *)
Theorem C14_self_set_refuted : exists m n v m' n',
  owned_ok m n /\ tidy n /\ nvalue m n = Ok v /\ nset_self m n = Ok (m', n') /\ nvalue m' n' <> Ok v.
Proof.
  exists own_mem, own_node. eexists. eexists. eexists. split; [apply own_node_ok|]. split; [apply own_node_ok|].
  split; [vm_compute; reflexivity|]. split; [vm_compute; reflexivity|]. vm_compute. discriminate.
Qed.
Print Assumptions C14_self_set_refuted.
(** n.set(view of n) is a use after free: here n is a leaf and the view an
    external leaf over its buffer. *)
Theorem C14_set_from_view_refuted : exists m n v,
  owned_ok m n /\ tidy n /\ nvalue m (mirror n false) = Ok v /\ nset m n (mirror n false) = UB.
Proof.
  exists own_mem, (NLeaf (mkH (Some (1%nat, 0)) true) (dt_simple INT32 3)). eexists.
  split; [|split; [|split; vm_compute; reflexivity]].
  - split; [|vm_compute; repeat constructor; intros []].
    vm_compute. constructor; [|constructor]. split; [reflexivity|]. eexists. reflexivity.
  - cbv. repeat split; intros; discriminate.
Qed.
Print Assumptions C14_set_from_view_refuted.

(** * C15 *)
(** set_external: whatever the memory becomes later, both nodes read the same
    values from the same addresses; the destination owns nothing; memory changes
    only in that the destination's old buffers are gone. *)
Theorem C15_set_external_shares : forall m src dest,
  owned_ok m dest -> tidy dest ->
  exists m' dest', nset_external m dest src = Ok (m', dest') /\
    nschema dest' = nschema src /\
    nleaves dest' = nleaves src /\
    (forall m'', nvalue m'' dest' = nvalue m'' src) /\
    owns dest' = [] /\ tidy dest' /\
    length m' = length m /\
    (forall b, nth_error m' b = if in_dec Nat.eq_dec b (owned_blocks dest) then Some None else nth_error m b).
Proof. exact set_external_law. Qed.
Print Assumptions C15_set_external_shares.
Example C15_instance : exists m' dest', nset_external own_mem own_node ext_node = Ok (m', dest') /\
  dest' = ext_node /\ nvalue m' dest' = Ok ext_value.
Proof. eexists. eexists. split; [vm_compute; reflexivity|]. split; vm_compute; reflexivity. Qed.
(** A node set to an empty schema keeps its "allocated" mark; set_external then
    makes it an owner of the other node's buffer, which is freed twice when both
    are destroyed. *)
Theorem C15_owner_of_shared_buffer_refuted : exists m1 dest1 m2 x m3 dest2 m4,
  nset_schema ubuf nempty (TLeaf dt_empty) = Ok (m1, dest1) /\
  nset_schema m1 nempty (TLeaf (dt_simple INT32 3)) = Ok (m2, x) /\
  nset_external m2 dest1 x = Ok (m3, dest2) /\
  owns dest2 = owns x /\ owns x <> [] /\
  nfree m3 x = Ok m4 /\ nfree m4 dest2 = UB.
Proof.
  eexists. eexists. eexists. eexists. eexists. eexists. eexists.
  split; [vm_compute; reflexivity|]. split; [vm_compute; reflexivity|]. split; [vm_compute; reflexivity|].
  split; [reflexivity|]. split; [discriminate|]. split; vm_compute; reflexivity.
Qed.
Print Assumptions C15_owner_of_shared_buffer_refuted.
