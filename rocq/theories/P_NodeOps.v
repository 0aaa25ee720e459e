(** Property theorems C16-C19: setting arrays and strings, update,
    update_compatible and endian_swap. *)
From Verif Require Import Base DType SpecTree Schema SchemaInv Mem MemFacts Node SpecNode NodeFacts NodeCompact NodeSet
  NodeSerial NodeBridge NodeLaws NodeEndian NodeUpdate NodeMerge NodeUpdateLaws NodeSetArray P_Node.
Local Open Scope Z_scope.

(** Everything below speaks of nodes that are [healthy]: each buffer they own is
    live and owned once; only non-empty nodes own; no two leaves share a byte and
    no two elements of one leaf do; element sizes are those of the types; no node
    reads a buffer owned by a sibling.  The new node returned is healthy again,
    and [step] says what happened to the rest of memory. *)
Lemma one_owned m b t n l : nth_error m b = Some (Some l) -> is_data t = true -> healthy m (NLeaf (mkH (Some (b, 0)) true) (dt_simple t n)).
Proof.
  intros E D. apply healthy_good. cbn [good]. split; [cbv; intros; discriminate|]. split; [intros X; destruct t; discriminate|].
  split; [reflexivity|]. split; [right; cbn; destruct t; cbn; lia|].
  constructor; [|constructor]. split; [reflexivity|]. exists l. exact E.
Qed.
Lemma one_shared m p d : std_leaf d -> elems_apart (dt_n d) (default_bytes (dt_id d)) (dt_stride d) ->
  healthy m (NLeaf (mkH (Some p) false) d).
Proof.
  intros S A. apply healthy_good. cbn [good]. split; [cbv; intros; discriminate|]. split; [reflexivity|].
  split; [exact S|]. split; [exact A|]. constructor.
Qed.
Example own_node_healthy : healthy own_mem own_node.
Proof.
  apply healthy_good. cbn.
  assert (G : healthy own_mem (NLeaf (mkH (Some (1%nat, 0)) true) (dt_simple INT32 3))) by (eapply one_owned; reflexivity).
  split; [cbv; intros; discriminate|]. split; [constructor; [|constructor]; split; [reflexivity|eexists; reflexivity]|].
  split; [intros c b [<-|[]] []|]. split.
  - intros [|i] [|j] a b N; try (destruct i; discriminate); try (destruct j; discriminate). congruence.
  - split; [|exact I]. split; [cbv; intros; discriminate|]. split; [reflexivity|]. split; [reflexivity|]. split; [right; cbn; lia|constructor].
Qed.
(** A leaf of three 32-bit integers owned in block 1. *)
Definition own_leaf : node := NLeaf (mkH (Some (1%nat, 0)) true) (dt_simple INT32 3).
Example own_leaf_reached : nset_schema ubuf nempty (TLeaf (dt_simple INT32 3)) = Ok (own_mem, own_leaf).
Proof. vm_compute. reflexivity. Qed.
Example own_leaf_healthy : healthy own_mem own_leaf.
Proof. eapply one_owned; reflexivity. Qed.
Lemma block_apart (p : ptr) sd n b : (forall q, touches n q -> fst q = b) -> (forall c, ob n c -> c = b) -> fst p <> b ->
  forall q, touches (ext_leaf (Some p) sd) q -> ~ touches n q /\ ~ ob n (fst q).
Proof.
  intros T O N q Hq. apply Exists_exists in Hq. destruct Hq as (l & [<-|[]] & p0 & i & j & E & _ & _ & ->). injection E as <-.
  split; intros X; [apply T in X|apply O in X]; unfold padd in X; cbn in X; congruence.
Qed.
Lemma leaf_block b o own d : (forall q, touches (NLeaf (mkH (Some (b, o)) own) d) q -> fst q = b) /\
  (forall c, ob (NLeaf (mkH (Some (b, o)) own) d) c -> c = b).
Proof.
  split.
  - intros q Hq. apply Exists_exists in Hq. destruct Hq as (l & [<-|[]] & p0 & i & j & E & _ & _ & ->). injection E as <-. reflexivity.
  - intros c. unfold ob, owned_blocks, owns. destruct (is_empty d); [intros []|]. unfold own_ptr. cbn. destruct own; [intros [X|[]]|intros []]. symmetry. exact X.
Qed.

(** * C16 *)
(** set(array view of any stride): the node reads back the same elements, if it
    is not already a leaf of that type with MORE elements. *)
Theorem C16_set_array : forall m dest src sd es v0,
  healthy m dest -> nvalue m dest = Ok v0 ->
  leaf_value m src sd = Ok (Some (dt_id sd, dt_endian sd, es)) ->
  (dt_compatible (n_dtype dest) (dt_simple (dt_id sd) (dt_n sd)) = true -> dt_n (n_dtype dest) = dt_n sd) ->
  (forall q, touches (NLeaf (mkH src false) sd) q -> ~ touches dest q /\ ~ ob dest (fst q)) ->
  exists m' dest', nset_array m dest src sd = Ok (m', dest') /\
    nvalue m' dest' = Ok (TLeaf (Some (dt_id sd, init_endian dest (dt_id sd) (dt_n sd), es))) /\
    healthy m' dest' /\ step m (touches dest) (ob dest) m' (touches dest') (ob dest').
Proof. exact set_array_law. Qed.
Print Assumptions C16_set_array.
(** Reading every eighth byte pair of the user's buffer into the node that owns
    three integers: the type differs, so a fresh buffer appears. *)
Example C16_instance : exists m' dest',
  nset_array own_mem own_node (Some (0%nat, 0)) (mkDT UINT16 4 0 8 2 DEFAULT_E) = Ok (m', dest') /\
  nvalue m' dest' = Ok (TLeaf (Some (UINT16, DEFAULT_E, [L "ab"; L "ij"; L "qr"; L "yz"]))).
Proof. eexists. eexists. split; vm_compute; reflexivity. Qed.
(** The hypotheses hold with the strided source and a destination that is kept. *)
Example C16_hypotheses : forall sd, sd = mkDT INT32 3 0 8 4 DEFAULT_E ->
  healthy own_mem own_leaf /\ (exists v, nvalue own_mem own_leaf = Ok v) /\
  (exists es, leaf_value own_mem (Some (0%nat, 0)) sd = Ok (Some (INT32, DEFAULT_E, es))) /\
  dt_compatible (n_dtype own_leaf) (dt_simple (dt_id sd) (dt_n sd)) = true /\ dt_n (n_dtype own_leaf) = dt_n sd /\
  (forall q, touches (NLeaf (mkH (Some (0%nat, 0)) false) sd) q -> ~ touches own_leaf q /\ ~ ob own_leaf (fst q)).
Proof.
  intros sd ->. split; [exact own_leaf_healthy|]. split; [eexists; vm_compute; reflexivity|].
  split; [eexists; vm_compute; reflexivity|]. split; [reflexivity|]. split; [reflexivity|].
  apply (block_apart (0%nat, 0) _ own_leaf 1); [apply leaf_block|apply leaf_block|discriminate].
Qed.
(** set(std::vector) and, with one element, set(scalar). *)
Theorem C16_set_vector : forall m dest t src n es v0,
  healthy m dest -> nvalue m dest = Ok v0 ->
  leaf_value m src (dt_simple t n) = Ok (Some (t, DEFAULT_E, es)) ->
  (dt_compatible (n_dtype dest) (dt_simple t n) = true -> dt_n (n_dtype dest) = n) ->
  (dt_compatible (n_dtype dest) (dt_simple t n) = true -> dt_stride (n_dtype dest) = default_bytes t \/ n = 1) ->
  (forall q, touches (NLeaf (mkH src false) (dt_simple t n)) q -> ~ touches dest q /\ ~ ob dest (fst q)) ->
  exists m' dest', nset_vector m dest t src n = Ok (m', dest') /\
    nvalue m' dest' = Ok (TLeaf (Some (t, init_endian dest t n, es))) /\
    healthy m' dest' /\ step m (touches dest) (ob dest) m' (touches dest') (ob dest').
Proof. exact set_vector_law. Qed.
Print Assumptions C16_set_vector.
(** set(string): as_string returns the characters before the terminator, whatever
    was in the node before, even a longer string. *)
Theorem C16_set_string : forall m dest p s v0,
  healthy m dest -> nvalue m dest = Ok v0 -> ~ In zero_byte s ->
  load m p (Z.of_nat (length s) + 1) = Ok (s ++ [zero_byte]) ->
  (dt_compatible (n_dtype dest) (dt_simple CHAR8_STR (Z.of_nat (length s) + 1)) = true -> dt_stride (n_dtype dest) = 1) ->
  (forall q, touches (NLeaf (mkH (Some p) false) (dt_simple CHAR8_STR (Z.of_nat (length s) + 1))) q ->
     ~ touches dest q /\ ~ ob dest (fst q)) ->
  exists m' dest', nset_string m dest (Some p) (Z.of_nat (length s) + 1) = Ok (m', dest') /\
    nas_string m' dest' = Ok s /\
    healthy m' dest' /\ step m (touches dest) (ob dest) m' (touches dest') (ob dest').
Proof. exact set_string_law. Qed.
Print Assumptions C16_set_string.
(** A short string over a longer one. *)
Definition str_mem : mem := [Some (L "hi" ++ [zero_byte]); Some (L "longer" ++ [zero_byte])].
Definition str_leaf : node := NLeaf (mkH (Some (1%nat, 0)) true) (dt_simple CHAR8_STR 7).
Example C16_string_instance : healthy str_mem str_leaf /\ nas_string str_mem str_leaf = Ok (L "longer") /\
  exists m', nset_string str_mem str_leaf (Some (0%nat, 0)) 3 = Ok (m', str_leaf) /\ nas_string m' str_leaf = Ok (L "hi") /\
    nth_error m' 1 = Some (Some (L "hi" ++ [zero_byte] ++ L "ger" ++ [zero_byte])).
Proof.
  split; [eapply one_owned; reflexivity|]. split; [reflexivity|].
  eexists. split; [vm_compute; reflexivity|]. split; vm_compute; reflexivity.
Qed.

(** set(array) on a leaf of the same type with more elements copies as many
    elements as the DESTINATION has, past the end of the caller's array. *)
Theorem C16_set_array_overrun_refuted : exists m dest p sd es v0,
  healthy m dest /\ nvalue m dest = Ok v0 /\
  leaf_value m (Some p) sd = Ok (Some (dt_id sd, dt_endian sd, es)) /\
  (forall q, touches (NLeaf (mkH (Some p) false) sd) q -> ~ touches dest q /\ ~ ob dest (fst q)) /\
  nset_array m dest (Some p) sd = UB.
Proof.
  exists [Some (L "abcdefgh"); Some (repeat zero_byte 12)], own_leaf, (0%nat, 0), (dt_simple INT32 2).
  eexists. eexists. split; [eapply one_owned; reflexivity|]. split; [vm_compute; reflexivity|].
  split; [vm_compute; reflexivity|]. split; [apply (block_apart (0%nat, 0) _ own_leaf 1); [apply leaf_block|apply leaf_block|discriminate]|].
  vm_compute. reflexivity.
Qed.
Print Assumptions C16_set_array_overrun_refuted.
(** set(vector) (and set(scalar)) on such a leaf keeps the old length and the old tail. *)
Theorem C16_set_vector_longer_refuted : exists m dest t src n es v0 m' dest',
  healthy m dest /\ nvalue m dest = Ok v0 /\
  leaf_value m src (dt_simple t n) = Ok (Some (t, DEFAULT_E, es)) /\
  nset_vector m dest t src n = Ok (m', dest') /\
  nvalue m' dest' = Ok (TLeaf (Some (t, DEFAULT_E, es ++ [repeat zero_byte 4]))).
Proof.
  exists own_mem, own_leaf, INT32, (Some (0%nat, 0)), 2. eexists. eexists. eexists. eexists.
  split; [exact own_leaf_healthy|]. split; [vm_compute; reflexivity|]. split; [vm_compute; reflexivity|].
  split; vm_compute; reflexivity.
Qed.
Print Assumptions C16_set_vector_longer_refuted.
(** set(vector) ignores the stride of the leaf it keeps. *)
Theorem C16_set_vector_strided_refuted : exists m dest t src n es v0 m' dest',
  healthy m dest /\ nvalue m dest = Ok v0 /\ dt_n (n_dtype dest) = n /\
  leaf_value m src (dt_simple t n) = Ok (Some (t, DEFAULT_E, es)) /\
  nset_vector m dest t src n = Ok (m', dest') /\
  nvalue m' dest' <> Ok (TLeaf (Some (t, DEFAULT_E, es))).
Proof.
  exists own_mem, (NLeaf (mkH (Some (1%nat, 0)) false) (mkDT UINT16 3 0 4 2 DEFAULT_E)), UINT16, (Some (0%nat, 0)), 3.
  eexists. eexists. eexists. eexists.
  split; [apply one_shared; [reflexivity|right; cbn; lia]|]. split; [vm_compute; reflexivity|]. split; [reflexivity|].
  split; [vm_compute; reflexivity|]. split; [vm_compute; reflexivity|]. vm_compute. discriminate.
Qed.
Print Assumptions C16_set_vector_strided_refuted.
(** set on a leaf with a recorded foreign byte order stores native bytes but keeps
    the record, so the numbers are no longer the ones that were set. *)
Theorem C16_set_foreign_order_refuted : exists m dest t src n es v0 m' dest' lv,
  healthy m dest /\ nvalue m dest = Ok v0 /\ dt_n (n_dtype dest) = n /\
  leaf_value m src (dt_simple t n) = Ok (Some (t, DEFAULT_E, es)) /\
  nset_vector m dest t src n = Ok (m', dest') /\ nvalue m' dest' = Ok (TLeaf lv) /\
  leaf_numbers LITTLE_E lv <> map (elem_number LITTLE_E DEFAULT_E) es.
Proof.
  exists own_mem, (NLeaf (mkH (Some (1%nat, 0)) false) (mkDT UINT16 2 0 2 2 BIG_E)), UINT16, (Some (0%nat, 0)), 2.
  eexists. eexists. eexists. eexists. eexists.
  split; [apply one_shared; [reflexivity|right; cbn; lia]|]. split; [vm_compute; reflexivity|]. split; [reflexivity|].
  split; [vm_compute; reflexivity|]. split; [vm_compute; reflexivity|]. split; [vm_compute; reflexivity|]. vm_compute. discriminate.
Qed.
Print Assumptions C16_set_foreign_order_refuted.
(** set(string) honours the stride of an existing string leaf, as_string does not. *)
Theorem C16_set_string_strided_refuted : exists m dest p s v0 m' dest' s',
  healthy m dest /\ nvalue m dest = Ok v0 /\ ~ In zero_byte s /\
  load m p (Z.of_nat (length s) + 1) = Ok (s ++ [zero_byte]) /\
  nset_string m dest (Some p) (Z.of_nat (length s) + 1) = Ok (m', dest') /\
  nas_string m' dest' = Ok s' /\ s' <> s.
Proof.
  exists [Some (L "hi" ++ [zero_byte]); Some (L "abcdef" ++ [zero_byte])],
    (NLeaf (mkH (Some (1%nat, 0)) false) (mkDT CHAR8_STR 3 0 2 1 DEFAULT_E)), (0%nat, 0), (L "hi").
  eexists. eexists. eexists. eexists.
  split; [apply one_shared; [reflexivity|right; cbn; lia]|]. split; [vm_compute; reflexivity|].
  split; [cbn; intros [X|[X|[]]]; discriminate|]. split; [vm_compute; reflexivity|].
  split; [vm_compute; reflexivity|]. split; [vm_compute; reflexivity|]. discriminate.
Qed.
Print Assumptions C16_set_string_strided_refuted.

(** * C17 *)
Theorem C17_update : forall m dest src dv sv,
  healthy m dest -> nvalue m dest = Ok dv -> nvalue m src = Ok sv ->
  names_unique sv -> no_clash dv sv ->
  (forall q, touches src q -> ~ touches dest q /\ ~ ob dest (fst q)) ->
  exists m' dest', nupdate m dest src = Ok (m', dest') /\
    nvalue m' dest' = Ok (vupdate dv sv) /\ nvalue m' src = Ok sv /\
    healthy m' dest' /\ step m (touches dest) (ob dest) m' (touches dest') (ob dest').
Proof. exact update_law. Qed.
Print Assumptions C17_update.
(** What [vupdate] means, path by path: every leaf of the source is found in the
    result at the same path, with its type and its elements first; where it went
    into an existing leaf, that leaf's byte order and further elements stay. *)
Theorem C17_update_brings : forall d s p t en es, names_unique s ->
  tlookup s p = Some (TLeaf (Some (t, en, es))) ->
  exists en' es', tlookup (vupdate d s) p = Some (TLeaf (Some (t, en', es'))) /\ firstn (length es) es' = es /\
    (forall dt den des, tlookup d p = Some (TLeaf (Some (dt, den, des))) -> dt = t -> (length es <= length des)%nat ->
       en' = den /\ skipn (length es) es' = skipn (length es) des).
Proof. intros d s. exact (vupdate_brings s d). Qed.
Print Assumptions C17_update_brings.
(** Everything of the destination below a name the source does not have stays. *)
Theorem C17_update_keeps : forall d s p k r ses x, names_unique s ->
  tlookup s p = Some (TObj ses) -> mget ses k = None -> tlookup d (p ++ k :: r) = Some x ->
  tlookup (vupdate d s) (p ++ k :: r) = Some x.
Proof. intros d s. exact (vupdate_keeps s d). Qed.
Print Assumptions C17_update_keeps.
(** Names keep their order; new ones follow in the order of the source. *)
Theorem C17_update_order : forall des ses, names_unique (TObj ses) -> ses <> [] ->
  exists es, vupdate (TObj des) (TObj ses) = TObj es /\
    map fst es = map fst des ++ filter (fun k => match mget des k with None => true | Some _ => false end) (map fst ses).
Proof. exact vupdate_names. Qed.
Print Assumptions C17_update_order.
(** Updating twice is updating once. *)
Theorem C17_update_idempotent : forall d s, names_unique d -> names_unique s ->
  vupdate (vupdate d s) s = vupdate d s.
Proof. intros d s. exact (vupdate_idempotent s d). Qed.
Print Assumptions C17_update_idempotent.
Example C17_hypotheses : exists dv, healthy own_mem own_node /\ nvalue own_mem own_node = Ok dv /\
  nvalue own_mem ext_node = Ok ext_value /\ names_unique ext_value /\ no_clash dv ext_value /\
  (forall q, touches ext_node q -> ~ touches own_node q /\ ~ ob own_node (fst q)).
Proof.
  eexists. split; [exact own_node_healthy|]. split; [vm_compute; reflexivity|]. split; [vm_compute; reflexivity|].
  split; [|split].
  - unfold ext_value. repeat constructor; cbn; intuition discriminate.
  - apply nc_obj; [discriminate|]. intros k c [E|[E|[]]]; injection E as <- <-; [apply nc_leaf|].
    apply nc_list. intros [|[|i]] c E; try (destruct i; discriminate); injection E as <-; apply nc_leaf.
  - intros q T. apply touches_walk in T. destruct T as (p & d & i & j & Ep & _ & _ & _ & ->). injection Ep as <-.
    split; [|intros [X|[]]; discriminate].
    intros T. apply touches_walk in T. destruct T as (p & d' & i' & j' & Ep & _ & _ & _ & E). injection Ep as <-. discriminate.
Qed.
Example C17_instance : exists m' dest' v', nupdate own_mem own_node ext_node = Ok (m', dest') /\
  nvalue m' dest' = Ok v' /\ map fst (tentries v') = [L "old"; L "id"; L "tags"] /\
  tlookup v' [L "id"] = Some (TLeaf (Some (UINT16, DEFAULT_E, [L "ab"; L "ij"; L "qr"; L "yz"]))).
Proof. eexists. eexists. eexists. split; [vm_compute; reflexivity|]. split; [vm_compute; reflexivity|]. split; vm_compute; reflexivity. Qed.

(** Without [no_clash]: updating a non-empty list from a non-empty object leaves
    the list's children dangling. *)
Theorem C17_update_list_from_object_refuted : exists m dest src dv sv,
  healthy m dest /\ nvalue m dest = Ok dv /\ nvalue m src = Ok sv /\ names_unique sv /\
  (forall q, touches src q -> ~ touches dest q /\ ~ ob dest (fst q)) /\ nupdate m dest src = UB.
Proof.
  exists own_mem, (NLst (mkH None false) [own_leaf]), (NObj (mkH None false) [(L "k", NLeaf (mkH (Some (0%nat, 0)) false) (dt_simple UINT8 1))]).
  eexists. eexists. split.
  { apply healthy_good. apply good_lst. split; [cbv; intros; discriminate|]. split; [constructor|]. split; [intros c b _ _ []|]. split.
    - intros [|i] [|j] a b N; try (destruct i; discriminate); try (destruct j; discriminate). congruence.
    - constructor; [|constructor]. apply healthy_good. exact own_leaf_healthy. }
  split; [vm_compute; reflexivity|]. split; [vm_compute; reflexivity|].
  split; [repeat constructor; intros []|]. split; [|vm_compute; reflexivity].
  intros q Hq. change (touches (NLeaf (mkH (Some (0%nat, 0)) false) (dt_simple UINT8 1)) q) in Hq.
  change (~ touches own_leaf q /\ ~ ob own_leaf (fst q)).
  revert q Hq. apply (block_apart (0%nat, 0) _ own_leaf 1); [apply leaf_block|apply leaf_block|discriminate].
Qed.
Print Assumptions C17_update_list_from_object_refuted.
(** An empty object of the source does not arrive as an object: the result's
    entry is an empty leaf (or whatever was there before). *)
Theorem C17_update_empty_object_refuted : exists d s, names_unique d /\ names_unique s /\
  tlookup s [L "a"] = Some (TObj []) /\ tlookup (vupdate d s) [L "a"] = Some (TLeaf None) /\
  tlookup (vupdate (TObj [(L "a", TLeaf (Some (UINT8, DEFAULT_E, [L "x"])))]) s) [L "a"]
    = Some (TLeaf (Some (UINT8, DEFAULT_E, [L "x"]))).
Proof.
  exists (TObj []), (TObj [(L "a", TObj [])]). split; [repeat constructor|]. split; [repeat constructor; intros []|].
  repeat split.
Qed.
Print Assumptions C17_update_empty_object_refuted.
(** update copies raw bytes into an existing leaf and keeps that leaf's recorded
    byte order: the numbers change. *)
Theorem C17_update_foreign_order_refuted : exists m dest src dv sv m' dest' lv lv',
  healthy m dest /\ nvalue m dest = Ok dv /\ nvalue m src = Ok sv /\ no_clash dv sv /\
  sv = TLeaf lv /\ nupdate m dest src = Ok (m', dest') /\ nvalue m' dest' = Ok (TLeaf lv') /\
  leaf_numbers LITTLE_E lv' <> leaf_numbers LITTLE_E lv.
Proof.
  exists own_mem, (NLeaf (mkH (Some (1%nat, 0)) false) (dt_simple UINT16 2)), (NLeaf (mkH (Some (0%nat, 0)) false) (mkDT UINT16 2 0 2 2 BIG_E)).
  eexists. eexists. eexists. eexists. eexists. eexists.
  split; [apply one_shared; [reflexivity|right; cbn; lia]|]. split; [vm_compute; reflexivity|]. split; [vm_compute; reflexivity|].
  split; [apply nc_leaf|]. split; [reflexivity|]. split; [vm_compute; reflexivity|]. split; [vm_compute; reflexivity|].
  vm_compute. discriminate.
Qed.
Print Assumptions C17_update_foreign_order_refuted.

(** * C18 *)
(** update_compatible never changes the destination's structure (the node is not
    even returned), only bytes of its leaves, all inside existing blocks. *)
Theorem C18_update_compatible : forall m dest src dv sv,
  nvalue m dest = Ok dv -> nvalue m src = Ok sv -> separate dest -> Forall std_leaf (tleaves (nschema dest)) ->
  (forall q, touches dest q -> ~ touches src q) ->
  exists m', nupdate_compatible m dest src = Ok m' /\
    nvalue m' dest = Ok (vtake dv sv) /\ nvalue m' src = Ok sv /\
    (forall q, ~ touches dest q -> rd m' q = rd m q) /\ same_shape m m'.
Proof. exact update_compatible_law. Qed.
Print Assumptions C18_update_compatible.
(** What [vtake] means: same shape, and each leaf of the destination gets the
    source's leaf at the same path if there is one of the same type that fits. *)
Theorem C18_same_shape : forall d s, shape (vtake d s) = shape d.
Proof. intros d s. exact (vtake_shape s d). Qed.
Print Assumptions C18_same_shape.
Theorem C18_leaf : forall d s p dv, names_unique s -> tlookup d p = Some (TLeaf dv) ->
  tlookup (vtake d s) p = Some (TLeaf (match tlookup s p with
                                       | Some (TLeaf sv) => if fits_into dv sv then lv_overwrite dv sv else dv
                                       | _ => dv
                                       end)).
Proof. intros d s. exact (vtake_leaf s d). Qed.
Print Assumptions C18_leaf.
(** The records of the user's buffer into a node with a longer "id" and no "tags". *)
Example C18_instance :
  let dest := walk (TObj [(L "x", TLeaf (dt_simple UINT8 2)); (L "id", TLeaf (mkDT UINT16 5 2 2 2 DEFAULT_E))]) (Some (1%nat, 0)) true in
  exists m', nupdate_compatible own_mem dest ext_node = Ok m' /\
    nth_error m' 1 = Some (Some ([zero_byte; zero_byte] ++ L "abijqryz" ++ [zero_byte; zero_byte])) /\
    separate dest /\ Forall std_leaf (tleaves (nschema dest)) /\ (exists v, nvalue own_mem dest = Ok v) /\
    (forall q, touches dest q -> ~ touches ext_node q).
Proof.
  intros dest. eexists. split; [vm_compute; reflexivity|]. split; [vm_compute; reflexivity|]. split; [|split; [|split]].
  - split.
    + repeat constructor. intros q [(p & i & j & E & Hi & Hj & ->) (p' & i' & j' & E' & Hi' & Hj' & F)].
      injection E as <-. injection E' as <-. apply (f_equal snd) in F. change (0 + (0 + 1 * i + j) = 0 + (2 + 2 * i' + j')) in F.
      change (0 <= i < 2) in Hi. change (0 <= j < 1) in Hj. lia.
    + constructor; [right; cbn; lia|]. constructor; [right; cbn; lia|constructor].
  - vm_compute. repeat constructor.
  - eexists. vm_compute. reflexivity.
  - intros q T S. apply touches_walk in T. destruct T as (p & d & i & j & Ep & _ & _ & _ & ->). injection Ep as <-.
    apply touches_walk in S. destruct S as (p & d' & i' & j' & Ep & _ & _ & _ & E). injection Ep as <-. discriminate.
Qed.

(** * C19 *)
(** [mach] is the machine's byte order.  Swapping to [e] and back to the order the
    leaves had restores every byte of memory; the node differs only in that the
    order is now recorded explicitly. *)
Theorem C19_round_trip : forall mach e o n m v,
  mach <> DEFAULT_E -> nvalue m n = Ok v -> separate n -> Forall (recorded mach (resolve mach o)) (tleaves v) ->
  exists m1 n1, nendian_swap mach m n e = Ok (m1, n1) /\
    nendian_swap mach m1 n1 o = Ok (m, nset_endian n (resolve mach o)).
Proof. exact endian_round_trip. Qed.
Print Assumptions C19_round_trip.
Theorem C19_same_order_is_identity : forall mach e n m v,
  nvalue m n = Ok v -> separate n -> Forall (recorded mach (resolve mach e)) (tleaves v) ->
  nendian_swap mach m n e = Ok (m, nset_endian n (resolve mach e)).
Proof. exact endian_same_order. Qed.
Print Assumptions C19_same_order_is_identity.
(** One swap: every element of a leaf in the other order is reversed, the numbers
    the bytes spell under the recorded order are unchanged, and nothing outside
    the node's elements is written. *)
Theorem C19_swap : forall mach e n m v,
  mach <> DEFAULT_E -> nvalue m n = Ok v -> separate n ->
  exists m' n' v', nendian_swap mach m n e = Ok (m', n') /\
    n' = nset_endian n (resolve mach e) /\
    nvalue m' n' = Ok v' /\ v' = tmap (swap_leafval mach e) v /\
    tmap (leaf_numbers mach) v' = tmap (leaf_numbers mach) v /\
    (forall q, ~ touches n q -> rd m' q = rd m q) /\ same_shape m m'.
Proof. exact endian_swap_law. Qed.
Print Assumptions C19_swap.
(** The strided records: only the "id" bytes swap. *)
Example C19_instance : separate ext_node /\ Forall (recorded LITTLE_E LITTLE_E) (tleaves ext_value) /\
  exists n1, nendian_swap LITTLE_E ubuf ext_node BIG_E =
    Ok ([Some (L "bacdefghjiklmnoprqstuvwxzy012345")], n1) /\
    nendian_swap LITTLE_E [Some (L "bacdefghjiklmnoprqstuvwxzy012345")] n1 LITTLE_E = Ok (ubuf, nset_endian ext_node LITTLE_E).
Proof.
  split; [|split; [repeat constructor|eexists; split; vm_compute; reflexivity]].
  split.
  - constructor; [|constructor; [|constructor; constructor]].
    + constructor; [|constructor; [|constructor]]; intros q [(p & i & j & E & Hi & Hj & ->) (p' & i' & j' & E' & Hi' & Hj' & F)].
      * injection E as <-. injection E' as <-. apply (f_equal snd) in F. change (0 + (0 + 8 * i + j) = 0 + (4 + 8 * i' + j')) in F.
        change (0 <= j < 2) in Hj. change (0 <= j' < 1) in Hj'. lia.
      * change (0 <= i' < 0) in Hi'. lia.
    + constructor; [|constructor]; intros q [_ (p' & i' & j' & E' & Hi' & Hj' & F)]. change (0 <= i' < 0) in Hi'. lia.
  - constructor; [right; cbn; lia|]. constructor; [right; cbn; lia|]. constructor; [left; cbn; lia|constructor].
Qed.
(** Where two leaves share bytes it fails: they are swapped twice. *)
Theorem C19_shared_bytes_refuted : exists mach e n m v m' n' v',
  nvalue m n = Ok v /\ nendian_swap mach m n e = Ok (m', n') /\ nvalue m' n' = Ok v' /\
  tmap (leaf_numbers mach) v' <> tmap (leaf_numbers mach) v.
Proof.
  exists LITTLE_E, BIG_E, (NObj (mkH None false) [(L "a", NLeaf (mkH (Some (0%nat, 0)) false) (dt_simple UINT16 1));
                                             (L "b", NLeaf (mkH (Some (0%nat, 0)) false) (dt_simple UINT16 1))]), ubuf.
  eexists. eexists. eexists. eexists. split; [vm_compute; reflexivity|]. split; [vm_compute; reflexivity|].
  split; [vm_compute; reflexivity|]. vm_compute. discriminate.
Qed.
Print Assumptions C19_shared_bytes_refuted.
