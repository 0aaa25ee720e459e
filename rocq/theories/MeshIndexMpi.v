(** The index of a mesh spread over the ranks of a communicator: blueprint::mpi::mesh::generate_index
    (src/libs/blueprint/conduit_blueprint_mpi_mesh.cpp). *)
From Coq Require Import ZArith.
From Verif Require Import Base DType SpecTree Mem Node Number MeshVerify MeshIndex.
Import ListNotations.
Open Scope Z_scope.

(** mesh::number_of_domains, conduit_blueprint_mesh.cpp 1970-1986, with is_multi_domain, 1956-1966 *)
Definition number_of_domains (n : tree) : Z := if has n (L "coordsets") then 1 else Z.of_nat (length (kids n)).
(** generate_index, conduit_blueprint_mpi_mesh.cpp 130-143: sum_all_reduce of the local numbers, read with to_int.
    [ranks] are the local trees in the order of the ranks; the sum of the int64s does not pass 2^63 here. *)
Definition global_number (ranks : list tree) : Z := wrap_s 32 (fold_right Z.add 0 (map number_of_domains ranks)).
(** 147-155: a rank without domains leaves its index empty *)
Definition local_index (rp : str) (total : Z) (n : tree) : outcome tree :=
  if 0 <? number_of_domains n then generate_index n rp total else Ok TNone.
Fixpoint local_indices (rp : str) (total : Z) (l : list tree) : outcome (list tree) :=
  match l with
  | [] => Ok []
  | n :: r => do i <- local_index rp total n; do is <- local_indices rp total r; Ok (i :: is)
  end.
(** 157-169: the gathered indices, by rank, are merged into the answer, which is the same on every rank.
    all_gather_using_schema is taken to deliver the trees as they were sent. An error on one rank,
    which leaves the others waiting, is an error of the whole. *)
Definition mpi_generate_index (ranks : list tree) (rp : str) : outcome tree :=
  do is <- local_indices rp (global_number ranks) ranks; Ok (fold_left (fun acc i => update i acc) is TNone).
