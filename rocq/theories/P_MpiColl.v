(** C55: collective operations of MPI ranks on nodes. *)
From Verif Require Import Base DType SpecTree Schema Codec Mem MemFacts Node SpecNode NodeFacts NodeSet NodeMerge SchemaInv
  Json JsonSpec JsonFacts JsonRead JsonSchema Save SaveFacts Contig ContigFacts Number NodeDiff ArrayOps HistRun Mpi MpiFacts MpiColl MpiCollFacts P_Mpi.
Local Open Scope Z_scope.

(** gather_using_schema and all_gather_using_schema: whatever the layouts and schemas of the
    nodes of the ranks, the node received is the list of their values in the order of the
    ranks ("default" byte order has become the machine's); what it was before is freed, the
    rest of the memory is as before, and no buffer stays.  The ranks' own memories are as
    before but for a block already freed. *)
Theorem C55_gather_schema : forall parse mach ranks vs m dest,
  reads_json parse -> mach <> DEFAULT_E -> Forall2 ready ranks vs -> owned_ok m dest ->
  total_len (map (fun rk => schema_text mach (snd rk) ++ [zero_byte]) ranks) < 2 ^ 31 -> total_len (map vbytes vs) < 2 ^ 31 ->
  exists parts m' r,
    Forall2 (fun rk part => exists mi, contribution mach (fst rk) (snd rk) = Ok (mi, part) /\ (mi = fst rk \/ mi = fst rk ++ [None])) ranks parts /\
    gathered parse m dest parts = Ok (m', r) /\
    nvalue m' r = Ok (TList (map (tmap (file_order mach)) vs)) /\
    owned_ok m' r /\ extends m m' (owned_blocks dest) /\ (forall b, live m' b -> (b < length m)%nat \/ ob r b).
Proof. exact gather_all. Qed.
Print Assumptions C55_gather_schema.

(** gather, of nodes of one shape (names, types, byte orders and counts): the node received is
    the list of the values.  [i] is the root.  Excepted are nodes that look compact and
    contiguous although their elements are not next to each other in one block or do not
    begin at the data pointer of the node. *)
Theorem C55_gather : forall base ranks vs i m n v dest,
  Forall2 (fun rk w => nvalue (fst rk) (snd rk) = Ok w /\ one_run base (snd rk) /\ starts_at_data base (snd rk)) ranks vs ->
  Forall (fun w => tmap lv_kind w = tmap lv_kind v) vs -> nth_error ranks i = Some (m, n) -> nth_error vs i = Some v ->
  ttotal (nschema n) < 2 ^ 31 -> owned_ok m dest ->
  exists parts m' r,
    Forall2 (fun rk part => exists mi, gather_send base (fst rk) (snd rk) = Ok (mi, part) /\ (mi = fst rk \/ mi = fst rk ++ [None])) ranks parts /\
    gather_recv m n dest parts = Ok (m', r) /\ nvalue m' r = Ok (TList vs) /\
    owned_ok m' r /\ extends m m' (owned_blocks dest) /\ (forall b, live m' b -> (b < length m)%nat \/ ob r b).
Proof.
  intros base ranks vs i m n v dest F. apply (gather_by (gather_send base) (fun n => one_run base n /\ starts_at_data base n) ranks vs i m n v dest); [|exact F].
  intros m0 n0 v0 V T [O S]. apply gather_send_ok; assumption.
Qed.
Print Assumptions C55_gather.
(** all_gather: the same on every rank, and without the last exception. *)
Theorem C55_all_gather : forall base ranks vs i m n v dest,
  Forall2 (fun rk w => nvalue (fst rk) (snd rk) = Ok w /\ one_run base (snd rk)) ranks vs ->
  Forall (fun w => tmap lv_kind w = tmap lv_kind v) vs -> nth_error ranks i = Some (m, n) -> nth_error vs i = Some v ->
  ttotal (nschema n) < 2 ^ 31 -> owned_ok m dest ->
  exists parts m' r,
    Forall2 (fun rk part => exists mi, send_raw base (fst rk) (snd rk) = Ok (mi, part) /\ (mi = fst rk \/ mi = fst rk ++ [None])) ranks parts /\
    gather_recv m n dest parts = Ok (m', r) /\ nvalue m' r = Ok (TList vs) /\
    owned_ok m' r /\ extends m m' (owned_blocks dest) /\ (forall b, live m' b -> (b < length m)%nat \/ ob r b).
Proof.
  intros base ranks vs i m n v dest F. apply (gather_by (send_raw base) (one_run base) ranks vs i m n v dest); [|exact F].
  intros m0 n0 v0 V T O. apply send_raw_ok; assumption.
Qed.
Print Assumptions C55_all_gather.

(** broadcast: a node of the shape of the root's, of whatever layout, gets its value. *)
Theorem C55_broadcast : forall base m0 n v m dest dv,
  nvalue m0 n = Ok v -> one_run base n -> healthy m dest -> nvalue m dest = Ok dv -> names_unique (nschema dest) -> one_run base dest ->
  tmap lv_kind dv = tmap lv_kind v -> 0 < ttotal (nschema n) < 2 ^ 31 ->
  exists m0' bytes m' r, send_raw base m0 n = Ok (m0', bytes) /\ (m0' = m0 \/ m0' = m0 ++ [None]) /\
    recv_raw base m dest bytes = Ok (m', r) /\ nvalue m' r = Ok v /\
    healthy m' r /\ step m (touches dest) (ob dest) m' (touches r) (ob r).
Proof.
  intros base m0 n v m dest dv V O H Vd U Od K T.
  destruct (send_raw_ok base m0 n v V ltac:(lia) O) as (m0' & E & M).
  assert (Lb : Z.of_nat (length (vbytes v)) = ttotal (nschema dest)).
  { pose proof (same_kind_length dv v K (nvalue_sized _ _ _ Vd) (nvalue_sized _ _ _ V)) as X. rewrite <- X. apply (vbytes_length m dest dv Vd). }
  pose proof (vbytes_length _ _ _ V) as Lv.
  destruct (recv_raw_ok base m dest dv (vbytes v) H Vd U Od Lb ltac:(lia)) as [(m' & r & E' & (w & Vw & Bw & Kw) & H' & S') _].
  exists m0', (vbytes v), m', r. split; [exact E|]. split; [exact M|]. split; [exact E'|]. split; [|split; assumption]. rewrite Vw. f_equal.
  apply value_same; [congruence|eapply nvalue_sized; exact Vw|eapply nvalue_sized; exact V|exact Bw].
Qed.
Print Assumptions C55_broadcast.

(** broadcast_using_schema: the text of the root's schema (compact) and the bytes of its
    values, ... *)
Theorem C55_broadcast_root : forall mach base m n v,
  nvalue m n = Ok v -> ttotal (nschema n) < 2 ^ 31 -> one_run base n -> (direct_ptr base n <> None -> packed (nschema n)) ->
  exists m', bcast_send mach base m n = Ok (m', (schema_text mach n ++ [zero_byte], vbytes v)) /\ (m' = m \/ m' = m ++ [None]).
Proof. exact bcast_send_ok. Qed.
Print Assumptions C55_broadcast_root.
(** ... of which every other rank makes the root's value, whatever its node was, ... *)
Theorem C55_broadcast_schema : forall parse mach base m0 src v m dest,
  reads_json parse -> mach <> DEFAULT_E -> ready (m0, src) v -> ttotal (nschema src) < 2 ^ 31 -> owned_ok m dest -> ~ in_place dest v ->
  exists m' r, bcast_recv base parse m dest (schema_text mach src ++ [zero_byte], vbytes v) = Ok (m', r) /\
    nvalue m' r = Ok (tmap (file_order mach) v) /\ owned_ok m' r /\ extends m m' (owned_blocks dest) /\
    (forall b, live m' b -> (b < length m)%nat \/ ob r b \/ v = TLeaf None).
Proof. exact bcast_fresh. Qed.
Print Assumptions C55_broadcast_schema.
(** ... or, if that is a leaf of the type sent with as many elements, fills its elements where
    they are; the leaf's own byte order stays. *)
Theorem C55_broadcast_in_place : forall parse mach base m0 src v m dest dv,
  reads_json parse -> mach <> DEFAULT_E -> ready (m0, src) v ->
  healthy m dest -> nvalue m dest = Ok dv -> one_run base dest -> in_place dest v ->
  Z.of_nat (length (vbytes v)) = ttotal (nschema dest) -> 0 < ttotal (nschema dest) < 2 ^ 31 ->
  exists m' r, bcast_recv base parse m dest (schema_text mach src ++ [zero_byte], vbytes v) = Ok (m', r) /\ filled_with m dest dv (vbytes v) m' r.
Proof. exact bcast_filled. Qed.
Print Assumptions C55_broadcast_in_place.

(** reduce and all_reduce: the node received has been updated with an array whose element at
    each place is made by the operation from the elements of all ranks at that place, in the
    order of the ranks.  (The bytes of the elements are taken as the machine's: see the last
    refutation.)  Excepted are leaves that count as compact although they have an offset or a
    stride. *)
Theorem C55_reduce : forall base op t k ranks ess i m n en es dest dv,
  Forall2 (fun rk es => exists en, nvalue (fst rk) (snd rk) = Ok (TLeaf (Some (t, en, es))) /\ reducible (snd rk)) ranks ess ->
  Forall (fun es => length es = k) ess -> (0 < k)%nat -> nth_error ranks i = Some (m, n) -> nvalue m n = Ok (TLeaf (Some (t, en, es))) ->
  (forall xs, xs <> [] -> Forall (fun x => length x = Z.to_nat (default_bytes t)) xs -> length (op xs) = Z.to_nat (default_bytes t)) ->
  healthy m dest -> nvalue m dest = Ok dv -> one_run base dest ->
  exists parts m' r,
    Forall2 (fun rk part => exists mi, reduce_send (fst rk) (snd rk) = Ok (mi, part) /\ (mi = fst rk \/ mi = fst rk ++ [None])) ranks parts /\
    reduce_recv base m n dest (mpi_reduce op (Z.to_nat (default_bytes t)) k parts) = Ok (m', r) /\
    nvalue m' r = Ok (vupdate dv (TLeaf (Some (t, en, elementwise op k ess)))) /\ healthy m' r /\ step m (touches dest) (ob dest) m' (touches r) (ob r).
Proof. exact reduce_all. Qed.
Print Assumptions C55_reduce.

(** ---- examples ---- *)
Definition mc_m0 : mem := [Some (L "abcdefgh")].
Definition mc_m1 : mem := [Some (L "ABCDEFGH")].
(** two ranks with nodes of different schemas *)
Definition mc_n0 : node := NObj null_hdr [(L "x", mp_leaf 0 1 (mkDT UINT16 2 0 4 2 DEFAULT_E))].
Definition mc_n1 : node := NLst null_hdr [mp_leaf 0 0 (dt_simple UINT8 3); mp_leaf 0 4 (dt_simple UINT8 1)].
Definition mc_contribs (l : list (mem * node)) : outcome (list (list byte * list byte)) :=
  omapM (fun rk => do (_, p) <- contribution LITTLE_E (fst rk) (snd rk); Ok p) l.
Example mc_ready : exists v0 v1, ready (mc_m0, mc_n0) v0 /\ ready (mc_m1, mc_n1) v1.
Proof.
  eexists _, _. split; (split; [vm_compute; reflexivity|split]).
  - constructor; [cbn; constructor; [intros []|constructor]|repeat constructor].
  - constructor. repeat constructor; try discriminate.
  - constructor. repeat constructor.
  - constructor. repeat constructor.
Qed.
Example mc_gather_run :
  (do parts <- mc_contribs [(mc_m0, mc_n0); (mc_m1, mc_n1)];
   do (m, r) <- gathered json_read mc_m0 nempty parts; nvalue m r) =
  Ok (TList [TObj [(L "x", TLeaf (Some (UINT16, LITTLE_E, [L "bc"; L "fg"])))];
             TList [TLeaf (Some (UINT8, LITTLE_E, [L "A"; L "B"; L "C"])); TLeaf (Some (UINT8, LITTLE_E, [L "E"]))]]).
Proof. vm_compute. reflexivity. Qed.
(** two ranks with nodes of one shape and different layouts *)
Definition mc_a : node := mp_leaf 0 2 (dt_simple UINT16 2).
Definition mc_b : node := mp_leaf 0 0 (mkDT UINT16 2 1 4 2 DEFAULT_E).
Example mc_hyps : one_run mp_base mc_a /\ starts_at_data mp_base mc_a /\ one_run mp_base mc_b /\ starts_at_data mp_base mc_b /\ reducible mc_a /\ reducible mc_b.
Proof.
  assert (A : one_run mp_base mc_a).
  { intros p E. vm_compute in E. injection E as <-. split; [repeat constructor|]. unfold in_block, data_leaves. repeat constructor. eexists. reflexivity. }
  assert (B : one_run mp_base mc_b) by (intros p E; vm_compute in E; discriminate).
  split; [exact A|]. split; [right; reflexivity|]. split; [exact B|]. split; [left; reflexivity|].
  split; (split; [vm_compute; reflexivity|]); intros E; vm_compute in E; try discriminate. split; [reflexivity|left; reflexivity].
Qed.
Example mc_same_run :
  (do (_, p0) <- gather_send mp_base mc_m0 mc_a; do (_, p1) <- gather_send mp_base mc_m1 mc_b;
   do (m, r) <- gather_recv mc_m0 mc_a nempty [p0; p1]; nvalue m r) =
  Ok (TList [TLeaf (Some (UINT16, DEFAULT_E, [L "cd"; L "ef"])); TLeaf (Some (UINT16, DEFAULT_E, [L "BC"; L "FG"]))]).
Proof. vm_compute. reflexivity. Qed.
Example mc_bcast_run :
  (do (_, p) <- send_raw mp_base mc_m0 mc_a; do (m, r) <- recv_raw mp_base mc_m1 mc_b p; Ok (nth_error m 0, nvalue m r)) =
  Ok (Some (Some (L "AcdDEefH")), Ok (TLeaf (Some (UINT16, DEFAULT_E, [L "cd"; L "ef"])))).
Proof. vm_compute. reflexivity. Qed.
Definition mc_bcast (m0 : mem) (n0 : node) (m : mem) (dest : node) : outcome (tree leafval) :=
  do (_, msg) <- bcast_send LITTLE_E mp_base m0 n0; do (m', r) <- bcast_recv mp_base json_read m dest msg; nvalue m' r.
Example mc_bcast_schema_run :
  mc_bcast mc_m0 mc_n0 mc_m1 mc_n1 = Ok (TObj [(L "x", TLeaf (Some (UINT16, LITTLE_E, [L "bc"; L "fg"])))]) /\
  mc_bcast mc_m0 mc_a mc_m1 mc_b = Ok (TLeaf (Some (UINT16, DEFAULT_E, [L "cd"; L "ef"]))) /\
  in_place mc_b (TLeaf (Some (UINT16, DEFAULT_E, [L "cd"; L "ef"]))).
Proof. vm_compute. repeat split; discriminate. Qed.
(** the sum of unsigned 16-bit integers on a little-endian machine *)
Definition mc_sum (xs : list (list byte)) : list byte := le_bytes 2 (fold_right (fun x a => le_value x + a) 0 xs).
Definition mc_reduce (m0 : mem) (n0 : node) (m1 : mem) (n1 : node) (dest : node) : outcome (tree leafval) :=
  do (_, p0) <- reduce_send m0 n0; do (_, p1) <- reduce_send m1 n1;
  do (m, r) <- reduce_recv mp_base m0 n0 dest (mpi_reduce mc_sum 2 2 [p0; p1]); nvalue m r.
Definition mc_byte (k : nat) : byte := ascii_of_nat k.
Definition mc_r0 : mem := [Some (map mc_byte [1; 0; 2; 0; 9; 9; 9; 9]%nat)].
Definition mc_r1 : mem := [Some (map mc_byte [9; 10; 1; 9; 9; 20; 2; 9]%nat)].
Example mc_reduce_run : mc_reduce mc_r0 (mp_leaf 0 0 (dt_simple UINT16 2)) mc_r1 mc_b nempty =
  Ok (TLeaf (Some (UINT16, DEFAULT_E, [map mc_byte [11; 1]%nat; map mc_byte [22; 2]%nat]))).
Proof. vm_compute. reflexivity. Qed.
Example mc_sum_size : forall xs, xs <> [] -> Forall (fun x : list byte => length x = 2%nat) xs -> length (mc_sum xs) = 2%nat.
Proof. reflexivity. Qed.

(** ---- refutations ---- *)
(** gather of a leaf at an offset: the elements before the offset are sent. *)
Theorem C55_gather_offset_refuted : exists base m n bytes,
  nvalue m n = Ok (TLeaf (Some (UINT8, DEFAULT_E, [L "d"; L "e"]))) /\ one_run base n /\
  gather_send base m n = Ok (m, bytes) /\ bytes = L "ab".
Proof.
  exists mp_base, mc_m0, (mp_leaf 0 0 (mkDT UINT8 2 3 1 1 DEFAULT_E)). eexists. split; [vm_compute; reflexivity|]. split.
  - intros p E. vm_compute in E. injection E as <-. split; [repeat constructor|]. unfold in_block, data_leaves. repeat constructor. eexists. reflexivity.
  - split; vm_compute; reflexivity.
Qed.
Print Assumptions C55_gather_offset_refuted.
(** gather of an object of pieces that follow one another: the object has no data pointer, and
    MPI is given a null pointer.  send and all_gather send the same object. *)
Theorem C55_gather_pieces_refuted : exists base m n v m', nvalue m n = Ok v /\ one_run base n /\
  gather_send base m n = UB /\ send_raw base m n = Ok (m', vbytes v).
Proof.
  exists mp_base, mc_m0, mp_pieces. eexists _, _. split; [vm_compute; reflexivity|]. split.
  - intros p E. vm_compute in E. injection E as <-. split; [repeat constructor|]. unfold in_block, data_leaves. repeat constructor; eexists; reflexivity.
  - split; vm_compute; reflexivity.
Qed.
Print Assumptions C55_gather_pieces_refuted.
(** gather of nodes of unequal sizes: the root takes no part longer than its own. *)
Theorem C55_gather_unequal_refuted : exists base m0 n0 m1 n1 v0 v1 p0 p1, nvalue m0 n0 = Ok v0 /\ nvalue m1 n1 = Ok v1 /\
  gather_send base m0 n0 = Ok (m0, p0) /\ gather_send base m1 n1 = Ok (m1, p1) /\ gather_recv m0 n0 nempty [p0; p1] = Err.
Proof.
  exists mp_base, mc_m0, (mp_leaf 0 0 (dt_simple UINT8 2)), mc_m1, (mp_leaf 0 0 (dt_simple UINT8 3)). eexists _, _, _, _.
  split; [vm_compute; reflexivity|]. split; [vm_compute; reflexivity|]. split; [vm_compute; reflexivity|]. split; [vm_compute; reflexivity|vm_compute; reflexivity].
Qed.
Print Assumptions C55_gather_unequal_refuted.
(** Two ranks with 2^30 bytes each: the displacements leave int. *)
Theorem C55_gather_large_refuted : exists l, Forall (fun c => 0 <= c < 2 ^ 31) l /\ displs 0 l = UB.
Proof. exists [2 ^ 30; 2 ^ 30]. split; [repeat constructor; lia|vm_compute; reflexivity]. Qed.
Print Assumptions C55_gather_large_refuted.
(** broadcast_using_schema into a leaf of the type sent with more elements: the ranks do not
    agree on the size. *)
Theorem C55_broadcast_longer_refuted : exists m0 n0 m dest v dv, nvalue m0 n0 = Ok v /\ nvalue m dest = Ok dv /\ mc_bcast m0 n0 m dest = Err.
Proof.
  exists mc_m0, (mp_leaf 0 0 (dt_simple UINT8 2)), mc_m1, (mp_leaf 0 0 (dt_simple UINT8 3)). eexists _, _. split; [vm_compute; reflexivity|]. split; vm_compute; reflexivity.
Qed.
Print Assumptions C55_broadcast_longer_refuted.
(** Into a leaf of another byte order: the bytes come without being swapped. *)
Theorem C55_broadcast_order_refuted : exists m0 n0 m dest,
  nvalue m0 n0 = Ok (TLeaf (Some (UINT16, LITTLE_E, [L "ab"]))) /\ mc_bcast m0 n0 m dest = Ok (TLeaf (Some (UINT16, BIG_E, [L "ab"]))).
Proof.
  exists mc_m0, (mp_leaf 0 0 (mkDT UINT16 1 0 2 2 LITTLE_E)), mc_m1, (mp_leaf 0 0 (mkDT UINT16 1 0 2 2 BIG_E)). split; vm_compute; reflexivity.
Qed.
Print Assumptions C55_broadcast_order_refuted.
(** Of pieces that follow one another: both have the offset 0 in the schema sent, so the others
    allocate room for one of them and receive beyond its end. *)
Theorem C55_broadcast_pieces_refuted : exists m0 n0 v, nvalue m0 n0 = Ok v /\ one_run mp_base n0 /\ mc_bcast m0 n0 [] nempty = UB.
Proof.
  exists mc_m0, mp_pieces. eexists. split; [vm_compute; reflexivity|]. split.
  - intros p E. vm_compute in E. injection E as <-. split; [repeat constructor|]. unfold in_block, data_leaves. repeat constructor; eexists; reflexivity.
  - vm_compute. reflexivity.
Qed.
Print Assumptions C55_broadcast_pieces_refuted.
(** reduce of a leaf at an offset: the elements before the offset are taken. *)
Theorem C55_reduce_offset_refuted : exists m n bytes,
  nvalue m n = Ok (TLeaf (Some (UINT16, DEFAULT_E, [L "ef"]))) /\ reduce_send m n = Ok (m, bytes) /\ bytes = L "ab".
Proof. exists mc_m0, (mp_leaf 0 0 (mkDT UINT16 1 4 2 2 DEFAULT_E)). eexists. split; [vm_compute; reflexivity|]. split; vm_compute; reflexivity. Qed.
Print Assumptions C55_reduce_offset_refuted.
(** reduce of leaves of the other byte order: 1 + 255 gives 0. *)
Theorem C55_reduce_order_refuted : exists m0 n0 m1 n1 e0 e1 r0 r1 s0 s1,
  nvalue m0 n0 = Ok (TLeaf (Some (UINT16, BIG_E, [e0; e1]))) /\ nvalue m1 n1 = Ok (TLeaf (Some (UINT16, BIG_E, [r0; r1]))) /\
  mc_reduce m0 n0 m1 n1 nempty = Ok (TLeaf (Some (UINT16, BIG_E, [s0; s1]))) /\
  uvalue BIG_E e0 = 1 /\ uvalue BIG_E r0 = 255 /\ uvalue BIG_E s0 = 0.
Proof.
  exists [Some (map mc_byte [0; 1; 0; 2]%nat)], (mp_leaf 0 0 (mkDT UINT16 2 0 2 2 BIG_E)), [Some (map mc_byte [0; 255; 0; 3]%nat)], (mp_leaf 0 0 (mkDT UINT16 2 0 2 2 BIG_E)).
  eexists _, _, _, _, _, _. split; [vm_compute; reflexivity|]. split; [vm_compute; reflexivity|]. split; [vm_compute; reflexivity|]. split; [vm_compute; reflexivity|]. split; vm_compute; reflexivity.
Qed.
Print Assumptions C55_reduce_order_refuted.
