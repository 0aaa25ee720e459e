(** blueprint::mpi::verify, conduit_blueprint_mpi.cpp 73-93, and blueprint::mpi::mesh::verify,
    conduit_blueprint_mpi_mesh.cpp 98-117, called by all ranks of a communicator with the same
    protocol; [ns] are the nodes of the ranks.  The result has the answer, which all ranks get,
    and the reports of the ranks.  sum_all_reduce gives all ranks the sum of what they put in
    (C55).  If the check throws on one rank, the others wait: the whole is an error here. *)
From Coq Require Import ZArith.
From Verif Require Import Base Path MeshVerify.
Import ListNotations.
Local Open Scope Z_scope.

Fixpoint on_ranks (ns : list tree) : outcome (list (bool * itree)) :=
  match ns with
  | [] => Ok []
  | n :: r => do x <- mesh_verify n; do y <- on_ranks r; Ok (x :: y)
  end.
Definition mpi_mesh_verify (ns : list tree) : outcome (bool * list itree) :=
  do rs <- on_ranks ns;
  let total := fold_right Z.add 0 (map (fun r => if fst r : bool then 1 else 0) rs) in
  Ok (total =? Z.of_nat (length ns), map snd rs).
Definition mpi_verify (protocol : str) (ns : list tree) : outcome (bool * list itree) :=
  let '(curr, _) := split_path protocol in
  if str_eqb curr (L "mesh") then mpi_mesh_verify ns else Ok (false, map (fun _ => INone) ns).
