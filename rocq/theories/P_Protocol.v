(** C70: checking by the name of a protocol *)
From Coq Require Import ZArith.
From Verif Require Import Base DType Path MeshVerify MeshVerifySpec MeshVerifyFacts TableVerify Protocol ProtocolSpec ProtocolFacts ProtocolMpi ProtocolMpiFacts.
From Verif Require TableVerifySpec.
Import ListNotations.

(** every protocol has its check *)
Theorem C70_answer : forall p g n, In (p, g) protocols -> fit p n ->
  exists i, protocol_verify p n = Ok (g n, i) /\ flag i = Some (g n).
Proof. exact answer. Qed.
(** names that do not start with a protocol are errors *)
Theorem C70_unknown : forall a r n, ~ In slash a -> mget tops a = None ->
  protocol_verify a n = Err /\ protocol_verify (a ++ slash :: r) n = Err.
Proof. exact unknown. Qed.
(** nothing follows a protocol that is not there *)
Theorem C70_nested : forall a g r n, In (a, g) tops -> a <> L "mesh" -> r <> [] ->
  exists i, protocol_verify (a ++ slash :: r) n = Ok (false, i) /\ flag i = Some false.
Proof. exact nested_none. Qed.
Theorem C70_nested_mesh : forall r n, mget subs r = None -> r <> [] ->
  exists i, protocol_verify (L "mesh" ++ slash :: r) n = Ok (false, i).
Proof. exact nested_mesh. Qed.
(** a slash at the end of the name of a protocol does not matter *)
Theorem C70_slash : forall a n, ~ In slash a -> protocol_verify (a ++ [slash]) n = protocol_verify a n.
Proof. exact last_slash. Qed.

(** in parallel all ranks get yes exactly if the meshes of all ranks are good, and the report of a
    rank tells of its own mesh *)
Theorem C70_parallel : forall ns p, p = L "mesh" \/ (exists r, p = L "mesh/" ++ r) -> (forall n, In n ns -> clean n /\ readable n = true) ->
  exists is, mpi_verify p ns = Ok (forallb mesh_ok ns, is) /\ Forall2 (fun n i => flag i = Some (mesh_ok n)) ns is.
Proof. exact parallel. Qed.
(** other protocols are answered with no *)
Theorem C70_parallel_other : forall p ns, ~ In slash p -> p <> L "mesh" -> forall r,
  mpi_verify p ns = Ok (false, map (fun _ => INone) ns) /\ mpi_verify (p ++ slash :: r) ns = Ok (false, map (fun _ => INone) ns).
Proof. exact parallel_other. Qed.

(** * Nodes to try *)
Definition zfp1 : tree := TObj [(L "zfp_header", TNum UINT8 [1%Z]); (L "zfp_compressed_data", TNum UINT64 [5%Z; 6%Z])].
Definition entry1 : tree := TObj [(L "type", TStr (L "uniform")); (L "coordset", TStr (L "coords")); (L "path", TStr (L "topologies/mesh"))].
Ltac tidy_names := cbn; repeat (first [exact I|split|constructor|(intro; cbn in *; intuition discriminate)]).
Example C70_fit1 : fit (L "zfparray") zfp1 /\ zfp_ok zfp1 = true.
Proof. split; [|reflexivity]. split; [tidy_names|]. split; [discriminate|]. split; [discriminate|]. split; discriminate. Qed.
Example C70_fit2 : fit (L "mesh/topology/index") entry1 /\ exists i, protocol_verify (L "mesh/topology/index") entry1 = Ok (true, i).
Proof. split; [|eexists; vm_compute; reflexivity]. split; [tidy_names|]. split; [discriminate|]. split; [discriminate|]. split; discriminate. Qed.
Example C70_wrong : exists i, protocol_verify (L "mesh/field") entry1 = Ok (false, i) /\ protocol_verify (L "meshes") entry1 = Err.
Proof. eexists. split; vm_compute; reflexivity. Qed.

Definition mesh1 : tree := TObj [(L "coordsets", TObj [(L "coords", TObj [(L "type", TStr (L "uniform")); (L "dims", TObj [(L "i", TNum INT64 [2%Z])])])]);
  (L "topologies", TObj [(L "mesh", TObj [(L "type", TStr (L "uniform")); (L "coordset", TStr (L "coords"))])])].
Example C70_ranks : forall n, In n [mesh1; TObj []; mesh1] -> clean n /\ readable n = true.
Proof. intros n [<-|[<-|[<-|[]]]]; (split; [tidy_names|reflexivity]). Qed.
Example C70_ranks_good : exists is, mpi_verify (L "mesh") [mesh1; TObj []; mesh1] = Ok (true, is).
Proof. eexists. vm_compute. reflexivity. Qed.

(** * What is not so *)
(** the answer in parallel, on one rank, is the answer: not for parts of meshes *)
Theorem C70_parallel_part_refuted : exists p n i is, protocol_verify p n = Ok (true, i) /\ mpi_verify p [n] = Ok (false, is).
Proof. exists (L "mesh/topology/index"), entry1. do 2 eexists. split; vm_compute; reflexivity. Qed.
(** nor an error an error *)
Theorem C70_parallel_error_refuted : exists p n is, protocol_verify p n = Err /\ mpi_verify p [n] = Ok (false, is).
Proof. exists (L "meshes"), entry1. eexists. split; vm_compute; reflexivity. Qed.
(** a rank that is told no finds no in its report *)
Theorem C70_parallel_report_refuted : exists ns is, mpi_verify (L "mesh") ns = Ok (false, is) /\ exists i, In i is /\ flag i = Some true.
Proof. exists [mesh1; entry1]. eexists. split; [vm_compute; reflexivity|]. eexists. split; [left; reflexivity|vm_compute; reflexivity]. Qed.
(** the report carries the answer: not for a protocol of meshes that is not there *)
Theorem C70_silent_refuted : exists p n i, protocol_verify p n = Ok (false, i) /\ flag i = None.
Proof. exists (L "mesh/fields"), entry1. eexists. split; vm_compute; reflexivity. Qed.
(** a slash at the end matters for nested protocols *)
Theorem C70_slash_refuted : exists p n i j, protocol_verify p n = Ok (true, i) /\ protocol_verify (p ++ [slash]) n = Ok (false, j).
Proof. exists (L "mesh/topology/index"), entry1. do 2 eexists. split; vm_compute; reflexivity. Qed.
(** and one at the start makes it unknown *)
Theorem C70_front_refuted : exists p n i, protocol_verify p n = Ok (true, i) /\ protocol_verify (slash :: p) n = Err.
Proof. exists (L "zfparray"), zfp1. eexists. split; vm_compute; reflexivity. Qed.

Print Assumptions C70_answer.
Print Assumptions C70_unknown.
Print Assumptions C70_nested.
Print Assumptions C70_nested_mesh.
Print Assumptions C70_slash.
Print Assumptions C70_silent_refuted.
Print Assumptions C70_slash_refuted.
Print Assumptions C70_front_refuted.
Print Assumptions C70_parallel.
Print Assumptions C70_parallel_other.
Print Assumptions C70_parallel_part_refuted.
Print Assumptions C70_parallel_error_refuted.
Print Assumptions C70_parallel_report_refuted.
