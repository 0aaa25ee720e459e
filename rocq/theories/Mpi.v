(** Messages between MPI ranks: src/libs/relay/conduit_relay_mpi.cpp.

    Every rank has a memory and nodes of its own.  A message is a list of bytes; this file
    has what a rank puts into a message and what it makes of one it gets, and the
    collective operations as functions of what every rank puts in.  Which message goes to
    which receive is in MpiNet.v.  All ranks have the same byte order [mach].  MPI itself
    is not modelled beyond: a call copies the bytes it is told to, a negative count is an
    error, and so is a message longer than the buffer it is received into.  [base] gives the
    blocks of a rank's memory their addresses (Contig.v). *)
From Verif Require Import Base DType SpecTree Schema Mem Node Json Save Contig Number NodeDiff ArrayOps.
Local Open Scope Z_scope.

(** static_cast<int>(index_t) *)
Definition to_int (z : Z) : Z := wrap_s 32 z.
(** the count argument of MPI_Send and of the other calls *)
Definition mpi_count (z : Z) : outcome Z := let n := to_int z in if n <? 0 then Err else Ok n.

Section Rank.
  Variable mach : endian.
  Variable base : nat -> Z.

  (** n.set((int64)x), n.set(std::string): init and a copy to element_ptr(0); the source is
      not part of the modelled memory and the leaf is one of a packed message (no stride) *)
  Definition nset_bytes (m : mem) (dest : node) (d : dtype) (bs : list byte) : outcome (mem * node) :=
    do (m1, n) <- ninit m dest d;
    match n with
    | NLeaf h dd => do m2 <- ostore m1 (elem0 h dd) bs; Ok (m2, n)
    | _ => UB
    end.

  (** s_data_compact of send_using_schema, 533-543, and of communicate_using_schema, 2100-2110 *)
  Definition sent_schema (n : node) : tree dtype :=
    if tis_compact (nschema n) && is_contiguous base n then nschema n else tcompact (nschema n) 0.
  Definition sent_text (n : node) : str := to_json mach (schema_of_tree (sent_schema n)).
  (** s_msg, 547-550 *)
  Definition msg_schema (text : str) (t : tree dtype) : tree dtype :=
    TObj [(L "schema_len", TLeaf (dt_simple INT64 1));
          (L "schema", TLeaf (dt_simple CHAR8_STR (Z.of_nat (length text) + 1)));
          (L "data", t)].
  (** n_msg, 552-560: the node of the message, filled *)
  Definition fill_message (m : mem) (n : node) : outcome (mem * node) :=
    let text := sent_text n in
    do (m1, msg) <- nset_schema m nempty (tcompact (msg_schema text (sent_schema n)) 0);
    match msg with
    | NObj h [(k1, c1); (k2, c2); (k3, c3)] =>
        do (m2, c1') <- nset_bytes m1 c1 (dt_simple INT64 1) (encode mach INT64 (Z.of_nat (length text)));
        do (m3, c2') <- nset_bytes m2 c2 (dt_simple CHAR8_STR (Z.of_nat (length text) + 1)) (text ++ [zero_byte]);
        do (m4, c3') <- nupdate m3 c3 n;
        Ok (m4, NObj h [(k1, c1'); (k2, c2'); (k3, c3')])
    | _ => UB
    end.
  (** send_using_schema, 530-582; communicate_using_schema::execute_internal, 2095-2157, sends
      the same bytes: the bytes MPI_Send is given, and the memory when n_msg is gone *)
  Definition send_using_schema (m : mem) (n : node) : outcome (mem * list byte) :=
    do (m1, msg) <- fill_message m n;
    do c <- mpi_count (ttotal (nschema msg));
    do bytes <- oload m1 (h_data (n_hdr msg)) c;
    do m2 <- nfree m1 msg;
    Ok (m2, bytes).
  (** recv_using_schema, 586-632 and 636-682, and 2236-2266 *)
  Definition recv_using_schema (parse : str -> outcome jval) (m : mem) (dest : node) (bytes : list byte)
    : outcome (mem * node) :=
    do (m1, p) <- alloc m (Z.of_nat (length bytes));
    do m2 <- store m1 p bytes;
    do text <- cstr m2 (Some (padd p 8));
    do s <- schema_of_json parse text;
    let data := walk (abs s) (Some (padd p (8 + (Z.of_nat (length text) + 1)))) false in
    do (m3, r) <- nupdate m2 dest data;
    do m4 <- free m3 p;
    Ok (m4, r).

  (** the pointer send, recv, isend, irecv and broadcast use if it is there: contiguous and
      compact *)
  Definition direct_ptr (n : node) : option ptr :=
    if tis_compact (nschema n) then contiguous_data_ptr base n else None.
  (** send, 685-719; isend, 1099-1146; broadcast on the root, 1755-1777: the bytes, and the
      memory when the compact copy is gone (for isend, after wait) *)
  Definition send_raw (m : mem) (n : node) : outcome (mem * list byte) :=
    do c <- mpi_count (ttotal (nschema n));
    match direct_ptr n with
    | Some p => do bytes <- load m p c; Ok (m, bytes)
    | None =>
        do (m1, k) <- ncompact_to m n nempty;
        do bytes <- oload m1 (h_data (n_hdr k)) c;
        do m2 <- nfree m1 k;
        Ok (m2, bytes)
    end.
  (** recv, 722-817; broadcast elsewhere, 1778-1808.  A message shorter than the buffer
      fills its beginning. *)
  Definition recv_raw (m : mem) (dest : node) (bytes : list byte) : outcome (mem * node) :=
    do c <- mpi_count (ttotal (nschema dest));
    if c <? Z.of_nat (length bytes) then Err
    else
      match direct_ptr dest with
      | Some p => do m1 <- store m p bytes; Ok (m1, dest)
      | None =>
          do (m1, k) <- nset_schema m nempty (tcompact (nschema dest) 0);
          do m2 <- ostore m1 (h_data (n_hdr k)) bytes;
          do (m3, r) <- nupdate m2 dest k;
          do m4 <- nfree m3 k;
          Ok (m4, r)
      end.
  (** irecv, 1149-1201 and 1204-1250, then wait, 1257-1275: the buffer is a compact copy of the
      node instead of zeros *)
  Definition irecv_wait (m : mem) (dest : node) (bytes : list byte) : outcome (mem * node) :=
    do c <- mpi_count (ttotal (nschema dest));
    if c <? Z.of_nat (length bytes) then Err
    else
      match direct_ptr dest with
      | Some p => do m1 <- store m p bytes; Ok (m1, dest)
      | None =>
          do (m1, k) <- ncompact_to m dest nempty;
          do m2 <- ostore m1 (h_data (n_hdr k)) bytes;
          do (m3, r) <- nupdate m2 dest k;
          do m4 <- nfree m3 k;
          Ok (m4, r)
      end.
End Rank.

(** ---- tags ---- *)
(** safe_tag, 505-527, with the upper bound found by TagLimits *)
Definition safe_tag (ub tag : Z) : Z := let t := Z.max 0 tag in if ub <? t then ub else t.
(** TagLimits::probeTagUpperBound, 433-477: [takes t] is whether MPI_Isend takes the tag [t];
    low + high is an int *)
Fixpoint probe_tag (fuel : nat) (accepts : Z -> bool) (low high : Z) : outcome Z :=
  match fuel with
  | O => Fuel
  | S k =>
      if high - low <? 2 then Ok low
      else if 2 ^ 31 - 1 <? low + high then UB
      else
        let tag := (low + high) / 2 in
        if accepts tag then probe_tag k accepts tag high else probe_tag k accepts low tag
  end.
(** probe, 413-419 *)
Definition probe (accepts : Z -> bool) : outcome Z := probe_tag 40 accepts 0 (2 ^ 31 - 1).
