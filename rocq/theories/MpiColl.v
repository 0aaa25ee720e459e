(** Collective MPI operations: src/libs/relay/conduit_relay_mpi.cpp 823-990 and 1348-1943.

    Each operation is given as what every rank passes to the MPI call and as what a receiving
    rank makes of the bytes all ranks passed.  MPI is trusted to hand over the bytes.  A count
    of a receiving rank below the length of what it is sent is an error, as is a negative
    count; for MPI_Bcast the counts of all ranks must be the same (the standard calls anything
    else erroneous). *)
From Verif Require Import Base DType SpecTree Schema Mem Node Json Save Contig Number NodeDiff ArrayOps Mpi.
Local Open Scope Z_scope.

(** the bytes of several ranks at their displacements *)
Fixpoint store_parts (m : mem) (p : option ptr) (ds : list Z) (parts : list (list byte)) : outcome mem :=
  match ds, parts with
  | d :: ds', b :: parts' => do m1 <- ostore m (opadd p d) b; store_parts m1 p ds' parts'
  | _, _ => Ok m
  end.
(** the displacements, 1531-1553 and 1679-1696: running sums in int, and the whole size *)
Fixpoint displs (at_ : Z) (l : list Z) : outcome (list Z * Z) :=
  match l with
  | [] => Ok ([], at_)
  | c :: l' =>
      if 2 ^ 31 - 1 <? at_ + c then UB
      else do (ds, e) <- displs (at_ + c) l'; Ok (at_ :: ds, e)
  end.

Section Rank.
  Variable mach : endian.
  Variable base : nat -> Z.
  Variable parse : str -> outcome jval.

  (** gather_using_schema, 1465-1477, and all_gather_using_schema, 1615-1625: the text of the schema with
      its end, and the data; the memory when n_snd_compact is gone *)
  Definition contribution (m : mem) (n : node) : outcome (mem * (list byte * list byte)) :=
    do (m1, k) <- ncompact_to m n nempty;
    let text := to_json mach (schema_of_tree (nschema k)) in
    do s <- mpi_count (Z.of_nat (length text) + 1);
    do c <- mpi_count (ttotal (nschema k));
    do bytes <- oload m1 (h_data (n_hdr k)) c;
    do m2 <- nfree m1 k;
    Ok (m2, (firstn (Z.to_nat s) (text ++ [zero_byte]), bytes)).
  (** the rest of both on a rank that receives.  The buffer of the texts is one block; the nodes
      of counts and displacements are lists of numbers here. *)
  Definition gathered (m : mem) (dest : node) (parts : list (list byte * list byte)) : outcome (mem * node) :=
    do (sds, sn) <- displs 0 (map (fun x => Z.of_nat (length (fst x))) parts);
    do (dds, dn) <- displs 0 (map (fun x => Z.of_nat (length (snd x))) parts);
    do (m1, p) <- alloc m sn;
    do m2 <- store_parts m1 (Some p) sds (map fst parts);
    do ss <- omapM (fun d => do t <- cstr m2 (Some (padd p d)); schema_of_json parse t) sds;
    do (m3, r) <- nset_schema m2 dest (tcompact (TList (map abs ss)) 0);
    do m4 <- store_parts m3 (h_data (n_hdr r)) dds (map snd parts);
    do m5 <- free m4 p;
    Ok (m5, r).

  (** Node::list_of, conduit_node.cpp 14706-14728 *)
  Definition nlist_of (m : mem) (dest : node) (t : tree dtype) (num : nat) : outcome (mem * node) :=
    do (m1, _) <- nreset m dest;
    let s := tcompact t 0 in
    let eb := ttotal s in
    do (m2, h) <- nalloc m1 (eb * Z.of_nat num);
    Ok (m2, NLst h (map (fun i => walk s (opadd (h_data h) (eb * Z.of_nat i)) false) (seq 0 num))).
  (** gather, 1354-1373: data_ptr() is the pointer of the node itself, not that of its data *)
  Definition gather_send (m : mem) (n : node) : outcome (mem * list byte) :=
    match direct_ptr base n with
    | Some _ =>
        do c <- mpi_count (ttotal (nschema n));
        do bytes <- oload m (h_data (n_hdr n)) c;
        Ok (m, bytes)
    | None =>
        do (m1, k) <- ncompact_to m n nempty;
        do c <- mpi_count (ttotal (nschema k));
        do bytes <- oload m1 (h_data (n_hdr k)) c;
        do m2 <- nfree m1 k;
        Ok (m2, bytes)
    end.
  (** all_gather, 1413-1427, passes what send passes: [send_raw] *)
  (** gather, 1378-1403, and all_gather, 1434-1454, where the result is received: [n] is the node
      this rank itself sends; the part of rank i is put at i times its own size *)
  Definition gather_recv (m : mem) (n dest : node) (parts : list (list byte)) : outcome (mem * node) :=
    do (m1, r) <- nlist_of m dest (tcompact (nschema n) 0) (length parts);
    do c <- mpi_count (ttotal (nschema n));
    if existsb (fun b => c <? Z.of_nat (length b)) parts then Err
    else
      do m2 <- store_parts m1 (h_data (n_hdr r)) (map (fun i => c * Z.of_nat i) (seq 0 (length parts))) parts;
      Ok (m2, r).

  (** broadcast_using_schema on the root, 1826-1848: text of the schema, and data *)
  Definition bcast_send (m : mem) (n : node) : outcome (mem * (list byte * list byte)) :=
    do c <- mpi_count (ttotal (nschema n));
    match direct_ptr base n with
    | Some p =>
        do bytes <- load m p c;
        Ok (m, (to_json mach (schema_of_tree (nschema n)) ++ [zero_byte], bytes))
    | None =>
        do (m1, k) <- ncompact_to m n nempty;
        do bytes <- oload m1 (h_data (n_hdr k)) c;
        let text := to_json mach (schema_of_tree (nschema k)) in
        do m2 <- nfree m1 k;
        Ok (m2, (text ++ [zero_byte], bytes))
    end.
  (** elsewhere, 1861-1940 *)
  Definition bcast_recv (m : mem) (dest : node) (msg : list byte * list byte) : outcome (mem * node) :=
    do text <- until_nul (fst msg);
    do s <- schema_of_json parse text;
    let bytes := snd msg in
    let same_size (c : Z) := if Z.of_nat (length bytes) =? c then Ok tt else Err in
    match dest, abs s with
    | NLeaf h d, TLeaf e =>
        if negb (is_empty d) && negb (is_empty e) && dt_compatible d e then
          do c <- mpi_count (ttotal (nschema dest));
          do _ <- same_size c;
          match direct_ptr base dest with
          | Some p => do m1 <- store m p bytes; Ok (m1, dest)
          | None =>
              do (m1, k) <- nset_schema m nempty (abs s);
              do m2 <- ostore m1 (h_data (n_hdr k)) bytes;
              do (m3, r) <- nupdate m2 dest k;
              do m4 <- nfree m3 k;
              Ok (m4, r)
          end
        else
          do (m1, r) <- nset_schema m dest (abs s);
          do c <- mpi_count (ttotal (nschema r));
          do _ <- same_size c;
          do m2 <- ostore m1 (h_data (n_hdr r)) bytes;
          Ok (m2, r)
    | _, _ =>
        do (m1, r) <- nset_schema m dest (abs s);
        do c <- mpi_count (ttotal (nschema r));
        do _ <- same_size c;
        do m2 <- ostore m1 (h_data (n_hdr r)) bytes;
        Ok (m2, r)
    end.

  (** reduce, 829-872, and all_reduce, 907-933: the bytes of the elements MPI reads.  Types
      without an MPI type are an error. *)
  Definition reduce_send (m : mem) (n : node) : outcome (mem * list byte) :=
    match n with
    | NLeaf h d =>
        if tid_eqb (dt_id d) EMPTY then Err
        else
          do c <- mpi_count (dt_n d);
          let len := default_bytes (dt_id d) * c in
          if tis_compact (TLeaf d) then do bytes <- oload m (h_data h) len; Ok (m, bytes)
          else
            do (m1, k) <- ncompact_to m n nempty;
            do bytes <- oload m1 (h_data (n_hdr k)) len;
            do m2 <- nfree m1 k;
            Ok (m2, bytes)
    | _ => Err
    end.
  (** MPI_Reduce and MPI_Allreduce on [k] elements of [sz] bytes, with [op] for the operation on
      the elements of all ranks at one place *)
  Definition mpi_reduce (op : list (list byte) -> list byte) (sz k : nat) (parts : list (list byte)) : list byte :=
    concat (map (fun i => op (map (fun b => sub_range b (i * sz) sz) parts)) (seq 0 k)).
  (** where the result is received, 860-897 and 935-965: [n] is what this rank sends, [bytes]
      the result *)
  Definition reduce_recv (m : mem) (n dest : node) (bytes : list byte) : outcome (mem * node) :=
    let fits := match dest, n with NLeaf _ e, NLeaf _ d => dt_compatible e d | _, _ => false end in
    match direct_ptr base dest, fits with
    | Some p, true => do m1 <- store m p bytes; Ok (m1, dest)
    | _, _ =>
        do (m1, k) <- nset_schema m nempty (tcompact (nschema n) 0);
        do m2 <- ostore m1 (h_data (n_hdr k)) bytes;
        do (m3, r) <- nupdate m2 dest k;
        do m4 <- nfree m3 k;
        Ok (m4, r)
    end.
End Rank.
