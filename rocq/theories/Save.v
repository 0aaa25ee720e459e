(** Saving a node in two files and loading it back: the conduit_bin protocol of
    Node::save, Node::load and Node::mmap (conduit_node.cpp). *)
From Verif Require Import Base DType Path SpecTree Schema Codec Mem Node Json.
Local Open Scope Z_scope.

(** Files by name.  Opening a file for writing always succeeds; a file is
    created or replaced as a whole. *)
Definition files := list (str * list byte).

(** The Schema object of a node whose schema is the tree [t]: Schema children
    in order, name -> position map (conduit_schema.cpp 839-903 builds it child by
    child). *)
Fixpoint name_map (mp : list (str * Z)) (i : Z) (names : list str) : list (str * Z) :=
  match names with
  | [] => mp
  | k :: r => name_map (mset mp k i) (i + 1) r
  end.
Fixpoint schema_of_tree (t : tree dtype) : schema :=
  match t with
  | TLeaf d => SLeaf d
  | TObj es => SObj (name_map [] 0 (map fst es)) (map fst es)
                    (map (fun e => schema_of_tree (snd e)) es)
  | TList ts => SLst (map schema_of_tree ts)
  end.

(** Node::save with protocol conduit_bin, conduit_node.cpp 378-398: compact into
    a local node, Schema::save (conduit_schema.cpp 707-726) to <base>_json,
    Node::serialize (conduit_node.cpp 8430-8478) to <base>; the local node is
    destroyed on return. *)
Definition schema_file (base : str) : str := base ++ L "_json".
Definition nsave (mach : endian) (m : mem) (fs : files) (n : node) (base : str)
  : outcome (mem * files) :=
  do (m1, res) <- ncompact_to m n nempty;
  let fs1 := mset fs (schema_file base) (to_json mach (schema_of_tree (nschema res))) in
  do bytes <- nstream m1 res;
  do m2 <- nfree m1 res;
  Ok (m2, mset fs1 base bytes).

Section WithReader.
  Variable parse : str -> outcome jval.

  (** Schema::load, conduit_schema.cpp 730-743; a missing file is an error. *)
  Definition schema_load (fs : files) (name : str) : outcome schema :=
    match mget fs name with
    | None => Err
    | Some text => schema_of_json parse text
    end.

  (** Node::load(path,schema), conduit_node.cpp 292-325.  ifs.read of more bytes
      than the file holds stops at its end; the rest of the buffer stays zero. *)
  Definition nload_schema (m : mem) (fs : files) (dest : node) (base : str) (t : tree dtype)
    : outcome (mem * node) :=
    do (m1, d1) <- nreset m dest;
    do (m2, h) <- nalloc m1 (tspanned t);
    match mget fs base with
    | None => Err
    | Some bytes =>
        do m3 <- ostore m2 (h_data h) (firstn (Z.to_nat (tspanned t)) bytes);
        Ok (m3, walk t (h_data h) (h_own h))
    end.
  (** Node::load(base,"conduit_bin"), conduit_node.cpp 328-358 *)
  Definition nload (m : mem) (fs : files) (dest : node) (base : str) : outcome (mem * node) :=
    do s <- schema_load fs (schema_file base);
    nload_schema m fs dest base (abs s).

  (** Node::mmap(path,schema), conduit_node.cpp 423-448 with MMap::open
      17126-17185 (POSIX).  The mapping is a block of its own that dies with the
      node (release deletes the MMap, 17331-17338), so it is recorded as owned.
      A mapping of no bytes is MAP_FAILED; the size goes through an int, beyond
      which nothing is promised; a missing file is created empty.  Bytes of the
      mapping behind the end of the file are taken as inaccessible (in the last
      page they read as zero).  Writing through the mapping changes the file;
      that is not modelled. *)
  Definition nmmap_schema (m : mem) (fs : files) (dest : node) (base : str) (t : tree dtype)
    : outcome (mem * files * node) :=
    do (m1, d1) <- nreset m dest;
    let sz := tspanned t in
    if sz =? 0 then Err
    else if (sz <? 0) || (2 ^ 31 <=? sz) then UB
    else
      let bytes := match mget fs base with Some b => b | None => [] end in
      Ok (m1 ++ [Some (firstn (Z.to_nat sz) bytes)], mset fs base bytes,
          walk t (Some (List.length m1, 0)) true).
  (** Node::mmap(path), conduit_node.cpp 411-420 *)
  Definition nmmap (m : mem) (fs : files) (dest : node) (base : str)
    : outcome (mem * files * node) :=
    do s <- schema_load fs (schema_file base);
    nmmap_schema m fs dest base (abs s).
End WithReader.
