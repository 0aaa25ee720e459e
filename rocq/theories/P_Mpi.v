(** C54: nodes sent from one MPI rank to another. *)
From Verif Require Import Base DType SpecTree Schema Codec Mem MemFacts Node SpecNode NodeFacts NodeSet NodeMerge SchemaInv
  Json JsonSpec JsonFacts JsonRead JsonSchema Save SaveFacts Contig ContigFacts Number NodeDiff ArrayOps HistRun Mpi MpiFacts.
Local Open Scope Z_scope.

(** Sending with the schema, then receiving on another rank (with another memory [m2]): the
    message is taken, and the receiving node has then been updated with the values sent
    ("default" byte order has become the machine's).  The sender's memory is as before but for
    a block already freed.  Excepted are nodes that look compact and contiguous although
    their schema is not that of one packed block (see the refutations below). *)
Theorem C54_message : forall parse mach base m1 src v m2 dest dv,
  reads_json parse -> mach <> DEFAULT_E ->
  nvalue m1 src = Ok v -> names_unique (nschema src) -> all_names json_name (nschema src) ->
  (tis_compact (nschema src) = true -> is_contiguous base src = true -> packed (nschema src)) ->
  Z.of_nat (length (message mach (sent_text mach base src) (vbytes v))) < 2 ^ 31 ->
  healthy m2 dest -> nvalue m2 dest = Ok dv -> no_clash dv (tmap (file_order mach) v) ->
  exists bytes m3 r,
    send_using_schema mach base m1 src = Ok (m1 ++ [None], bytes) /\
    recv_using_schema parse m2 dest bytes = Ok (m3, r) /\
    nvalue m3 r = Ok (vupdate dv (tmap (file_order mach) v)) /\
    healthy m3 r /\ step m2 (touches dest) (ob dest) m3 (touches r) (ob r).
Proof.
  intros parse mach base m1 src v m2 dest dv P M V U N Pk B H Vd Nc.
  assert (S : sent_schema base src = tcompact (nschema src) 0).
  { unfold sent_schema. destruct (tis_compact (nschema src) && is_contiguous base src) eqn:X; [|reflexivity].
    apply andb_true_iff in X. destruct X as [X1 X2]. destruct (Pk X1 X2) as [P1 P2]. symmetry. apply packed_compact; assumption. }
  pose proof (send_ok mach base m1 src v V U S B) as E. unfold sent_text in E. rewrite S in E.
  assert (T : ttotal (nschema src) < 2 ^ 63).
  { rewrite message_length, (vbytes_length m1 src v V) in B. lia. }
  destruct (recv_ok parse mach m1 src v m2 dest dv P M V U N T H Vd Nc) as (m3 & r & E3 & V3 & H3 & S3).
  eexists _, m3, r. split; [exact E|]. split; [exact E3|]. auto.
Qed.
Print Assumptions C54_message.

(** Received into a node that holds nothing, the value is the one sent; only objects and lists
    without entries have become nothing. *)
Theorem C54_message_fresh : forall parse mach base m1 src v m2,
  reads_json parse -> mach <> DEFAULT_E ->
  nvalue m1 src = Ok v -> names_unique (nschema src) -> all_names json_name (nschema src) ->
  (tis_compact (nschema src) = true -> is_contiguous base src = true -> packed (nschema src)) ->
  Z.of_nat (length (message mach (sent_text mach base src) (vbytes v))) < 2 ^ 31 ->
  exists bytes m3 r,
    send_using_schema mach base m1 src = Ok (m1 ++ [None], bytes) /\
    recv_using_schema parse m2 nempty bytes = Ok (m3, r) /\
    nvalue m3 r = Ok (arrives (tmap (file_order mach) v)) /\
    healthy m3 r /\ step m2 (fun _ => False) (fun _ => False) m3 (touches r) (ob r).
Proof.
  intros parse mach base m1 src v m2 P M V U N Pk B.
  destruct (C54_message parse mach base m1 src v m2 nempty (TLeaf None) P M V U N Pk B) as (bytes & m3 & r & E1 & E2 & V3 & H3 & S3).
  - apply healthy_good, good_nempty.
  - reflexivity.
  - apply none_clash.
  - exists bytes, m3, r. split; [exact E1|]. split; [exact E2|].
    rewrite vupdate_none in V3 by (apply nu_tmap; apply (nvalue_unique src m1 v); assumption).
    split; [exact V3|]. split; [exact H3|].
    apply (step_ext _ _ _ _ _ _ _ _ _ _ S3); try reflexivity.
    + intros q. split; [intros []|apply touches_nempty].
Qed.
Print Assumptions C54_message_fresh.

(** Without the schema: send, or isend and wait, gives the bytes of the values, and recv, or
    irecv and wait, puts any bytes of the right number into the elements of the receiving
    node in order, whatever the layout of either node; types, byte orders and lengths stay.
    Excepted are nodes that look compact and contiguous although their elements are not next
    to each other in one block, and receiving nodes with no bytes. *)
Theorem C54_raw_send : forall base m n v, nvalue m n = Ok v -> ttotal (nschema n) < 2 ^ 31 -> one_run base n ->
  exists m', send_raw base m n = Ok (m', vbytes v) /\ (m' = m \/ m' = m ++ [None]).
Proof. exact send_raw_ok. Qed.
Print Assumptions C54_raw_send.
Theorem C54_raw_recv : forall base m dest dv bs,
  healthy m dest -> nvalue m dest = Ok dv -> names_unique (nschema dest) -> one_run base dest ->
  Z.of_nat (length bs) = ttotal (nschema dest) -> 0 < ttotal (nschema dest) < 2 ^ 31 ->
  (exists m' r, recv_raw base m dest bs = Ok (m', r) /\ filled_with m dest dv bs m' r) /\
  (exists m' r, irecv_wait base m dest bs = Ok (m', r) /\ filled_with m dest dv bs m' r).
Proof. exact recv_raw_ok. Qed.
Print Assumptions C54_raw_recv.

(** A tag is made one MPI takes; a tag MPI takes stays as it is. *)
Theorem C54_safe_tag : forall ub tag, 0 <= ub ->
  0 <= safe_tag ub tag <= ub /\ (0 <= tag <= ub -> safe_tag ub tag = tag).
Proof. exact safe_tag_range. Qed.
Print Assumptions C54_safe_tag.
(** If MPI takes the tags up to [ub], below 2^30-1, that is what probing finds. *)
Theorem C54_probe : forall ub, 0 <= ub < 2 ^ 30 - 1 -> probe (fun t => t <=? ub) = Ok ub.
Proof. exact probe_ok. Qed.
Print Assumptions C54_probe.
(** If it takes 2^30-1 or more, as common implementations do, the sum in the bisection
    overflows int. *)
Theorem C54_probe_refuted : forall ub, 2 ^ 30 - 1 <= ub -> probe (fun t => t <=? ub) = UB.
Proof. exact probe_overflow. Qed.
Print Assumptions C54_probe_refuted.

(** ---- examples ---- *)
Definition mp_base (b : nat) : Z := 1000 * (Z.of_nat b + 1).
Definition mp_leaf (b : nat) (o : Z) (d : dtype) : node := NLeaf (mkH (Some (b, o)) false) d.
(** a value as the other rank reads it *)
Definition mp_go (m : mem) (n : node) (m2 : mem) (dest : node) : outcome (tree leafval) :=
  do (m1, bs) <- send_using_schema LITTLE_E mp_base m n;
  do (m3, r) <- recv_using_schema json_read m2 dest bs;
  nvalue m3 r.
Definition mp_mem : mem := [Some (L "abcdefghijklmnop"); Some (L "hi" ++ [zero_byte])].
Definition mp_node : node :=
  NObj null_hdr
    [(L "x", NLst null_hdr [mp_leaf 0 0 (mkDT UINT16 3 2 4 2 DEFAULT_E); NLeaf null_hdr dt_empty]);
     (L "s", mp_leaf 1 0 (dt_simple CHAR8_STR 3))].
Example mp_value : exists v, nvalue mp_mem mp_node = Ok v /\ vbytes v = L "cdghklhi" ++ [zero_byte] /\
  Z.of_nat (length (message LITTLE_E (sent_text LITTLE_E mp_base mp_node) (vbytes v))) < 2 ^ 31.
Proof. eexists. split; [vm_compute; reflexivity|]. split; vm_compute; reflexivity. Qed.
Example mp_hyps : names_unique (nschema mp_node) /\ all_names json_name (nschema mp_node) /\
  tis_compact (nschema mp_node) = false.
Proof.
  split; [|split].
  - constructor.
    + cbn. constructor; [intros [H|[]]; discriminate|constructor; [intros []|constructor]].
    + repeat constructor.
  - constructor. repeat constructor; try discriminate.
  - vm_compute. reflexivity.
Qed.
Example mp_run : mp_go mp_mem mp_node [] nempty =
  Ok (TObj [(L "x", TList [TLeaf (Some (UINT16, LITTLE_E, [L "cd"; L "gh"; L "kl"])); TLeaf None]);
            (L "s", TLeaf (Some (CHAR8_STR, LITTLE_E, [L "h"; L "i"; [zero_byte]])))]).
Proof. vm_compute. reflexivity. Qed.
(** a node that is one packed block is sent without a copy *)
Definition mp_packed : node :=
  NObj null_hdr [(L "a", mp_leaf 0 0 (dt_simple UINT8 2)); (L "b", mp_leaf 0 0 (mkDT UINT8 2 2 1 1 DEFAULT_E))].
Example mp_packed_hyp : tis_compact (nschema mp_packed) = true /\ is_contiguous mp_base mp_packed = true /\
  packed (nschema mp_packed) /\ one_run mp_base mp_packed.
Proof.
  split; [vm_compute; reflexivity|]. split; [vm_compute; reflexivity|]. split.
  - split.
    + cbn. split; [intros _; repeat split; reflexivity|]. split; [intros _; repeat split; reflexivity|exact I].
    + repeat constructor; discriminate.
  - intros p E. vm_compute in E. injection E as <-. split.
    + repeat constructor.
    + unfold in_block, data_leaves. repeat constructor; eexists; reflexivity.
Qed.
Example mp_packed_run : mp_go mp_mem mp_packed [] nempty =
  Ok (TObj [(L "a", TLeaf (Some (UINT8, LITTLE_E, [L "a"; L "b"])));
            (L "b", TLeaf (Some (UINT8, LITTLE_E, [L "c"; L "d"])))]).
Proof. vm_compute. reflexivity. Qed.
Example mp_raw_run :
  match send_raw mp_base mp_mem mp_node with
  | Ok (_, bs) => bs = L "cdghklhi" ++ [zero_byte] /\
      match recv_raw mp_base mp_mem mp_node (L "CDGHKLHI" ++ [zero_byte]), irecv_wait mp_base mp_mem mp_node (L "CDGHKLHI" ++ [zero_byte]) with
      | Ok (m1, r1), Ok (m2, r2) => nth_error m1 0 = Some (Some (L "abCDefGHijKLmnop")) /\ nvalue m2 r2 = nvalue m1 r1
      | _, _ => False
      end
  | _ => False
  end.
Proof. vm_compute. repeat split; reflexivity. Qed.
Example mp_tags : probe (fun t => t <=? 32767) = Ok 32767 /\ safe_tag 32767 40000 = 32767 /\ safe_tag 32767 (-5) = 0.
Proof. vm_compute. repeat split. Qed.

(** ---- refutations ---- *)
(** Leaves set to adjacent parts of one array: the schema is sent as it is, with both
    offsets 0, and the receiver reads the first part twice. *)
Definition mp_pieces : node :=
  NObj null_hdr [(L "a", mp_leaf 0 0 (dt_simple UINT8 2)); (L "b", mp_leaf 0 2 (dt_simple UINT8 2))].
Theorem C54_pieces_refuted : exists m n,
  nvalue m n = Ok (TObj [(L "a", TLeaf (Some (UINT8, DEFAULT_E, [L "a"; L "b"]))); (L "b", TLeaf (Some (UINT8, DEFAULT_E, [L "c"; L "d"])))]) /\
  mp_go m n [] nempty =
    Ok (TObj [(L "a", TLeaf (Some (UINT8, LITTLE_E, [L "a"; L "b"]))); (L "b", TLeaf (Some (UINT8, LITTLE_E, [L "a"; L "b"])))]).
Proof. exists mp_mem, mp_pieces. split; vm_compute; reflexivity. Qed.
Print Assumptions C54_pieces_refuted.
(** A leaf that begins at an offset: the receiver applies the offset again and reads past the
    end of the message. *)
Theorem C54_offset_refuted : exists m n v, nvalue m n = Ok v /\ mp_go m n [] nempty = UB.
Proof. exists mp_mem, (mp_leaf 0 0 (mkDT UINT8 2 3 1 1 DEFAULT_E)). eexists. split; vm_compute; reflexivity. Qed.
Print Assumptions C54_offset_refuted.
(** Received into a node in use: entries and elements of the old value stay, so the node is
    not what was sent. *)
Theorem C54_stale_refuted : exists m n m2 dest,
  nvalue m n = Ok (TObj [(L "a", TLeaf (Some (UINT8, DEFAULT_E, [L "a"; L "b"])))]) /\
  mp_go m n m2 dest =
    Ok (TObj [(L "a", TLeaf (Some (UINT8, DEFAULT_E, [L "a"; L "b"; L "3"]))); (L "old", TLeaf (Some (UINT8, DEFAULT_E, [L "4"])))]).
Proof.
  exists mp_mem, (NObj null_hdr [(L "a", mp_leaf 0 0 (dt_simple UINT8 2))]), [Some (L "1234")],
    (NObj null_hdr [(L "a", mp_leaf 0 0 (dt_simple UINT8 3)); (L "old", mp_leaf 0 3 (dt_simple UINT8 1))]).
  split; vm_compute; reflexivity.
Qed.
Print Assumptions C54_stale_refuted.
(** An object without entries is not an object on arrival. *)
Theorem C54_empty_refuted : exists m n, nvalue m n = Ok (TObj []) /\ mp_go m n [] nempty = Ok (TLeaf None).
Proof. exists [], (NObj null_hdr []). split; vm_compute; reflexivity. Qed.
Print Assumptions C54_empty_refuted.
(** Leaves that happen to lie next to each other at addresses of two blocks: reading them as
    one run leaves the block. *)
Theorem C54_two_blocks_refuted : exists base m n v, nvalue m n = Ok v /\ send_raw base m n = UB.
Proof.
  exists (fun b => match b with O => 1000 | _ => 1016 end), mp_mem,
    (NObj null_hdr [(L "a", mp_leaf 0 0 (dt_simple UINT8 16)); (L "b", mp_leaf 1 0 (dt_simple UINT8 2))]).
  eexists. split; vm_compute; reflexivity.
Qed.
Print Assumptions C54_two_blocks_refuted.
