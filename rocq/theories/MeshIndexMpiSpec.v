(** What the index of a mesh spread over ranks is of. *)
From Verif Require Import Base SpecTree MeshVerify MeshVerifySpec.
Import ListNotations.

(** the domains of a rank: the tree itself if it is one domain, else its members *)
Definition rank_domains (n : tree) : list tree := if given (L "coordsets") n then [n] else map snd (kids n).
(** those of all ranks *)
Definition all_domains (ranks : list tree) : list tree := concat (map rank_domains ranks).
