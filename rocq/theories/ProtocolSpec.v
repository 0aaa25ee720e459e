(** Protocols and what follows them. *)
From Verif Require Import Base DType MeshVerify MeshVerifySpec MeshIndexSpec.
From Verif Require TableVerifySpec.
Import ListNotations.

Definition of_types (ts : list tid) (n : tree) : bool := match n with TNum t _ => existsb (tid_eqb t) ts | _ => false end.
(** compressed arrays: a header of bytes and data of unsigned words *)
Definition zfp_ok (n : tree) : bool :=
  must (L "zfp_header") (of_types [UINT8]) n && must (L "zfp_compressed_data") (of_types [UINT8; UINT16; UINT32; UINT64]) n.
Definition tops : list (str * (tree -> bool)) :=
  [(L "mesh", mesh_ok); (L "mcarray", MeshVerifySpec.components); (L "table", TableVerifySpec.tables_ok); (L "o2mrelation", relation); (L "zfparray", zfp_ok)].
Definition subs : list (str * (tree -> bool)) :=
  [(L "coordset", coordset_ok); (L "topology", topology_ok); (L "matset", matset_ok); (L "specset", specset_ok); (L "field", field_ok);
   (L "adjset", adjset_ok); (L "nestset", nestset_ok); (L "index", index_ok); (L "coordset/index", coordset_entry);
   (L "topology/index", topology_entry); (L "matset/index", matset_entry); (L "specset/index", specset_entry);
   (L "field/index", field_entry); (L "adjset/index", meeting_entry); (L "nestset/index", meeting_entry)].
(** all protocols *)
Definition protocols : list (str * (tree -> bool)) := tops ++ map (fun s => (L "mesh/" ++ fst s, snd s)) subs.
(** what C66, C67 and C69 ask for *)
Definition fit (p : str) (n : tree) : Prop :=
  clean n /\ (p = L "mesh" -> readable n = true) /\ (p = L "mesh/topology" -> readable_topology n = true) /\
  (p = L "mesh/specset" -> readable_specset n = true) /\ (p = L "table" -> TableVerifySpec.all_well n).
