(** Crashes while a node is saved with the conduit_bin protocol: Node::save, conduit_node.cpp
    378-398, with Schema::save, conduit_schema.cpp 707-726, and Node::serialize(path),
    conduit_node.cpp 8430-8478 (both open the file, which empties it, and write it from the
    front; neither writes to another file first). *)
From Verif Require Import Base DType Path SpecTree Schema Codec Mem Node Json Save.

(** what the disk may hold while a file is written: a file of some length up to the whole.
    That blocks reach the disk in order is a simplification. *)
Definition growing (fs : files) (name : str) (bytes : list byte) : list files :=
  map (fun k => mset fs name (firstn k bytes)) (seq 0 (S (List.length bytes))).
(** the disks a crash of [nsave] may leave, in order *)
Definition nsave_crash (mach : endian) (m : mem) (fs : files) (n : node) (base : str) : outcome (list files) :=
  do (m1, res) <- ncompact_to m n nempty;
  let text := to_json mach (schema_of_tree (nschema res)) in
  do bytes <- nstream m1 res;
  Ok (fs :: growing fs (schema_file base) text ++ growing (mset fs (schema_file base) text) base bytes).
