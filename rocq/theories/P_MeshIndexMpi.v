(** C72: the index of a mesh spread over ranks. *)
From Coq Require Import ZArith.
From Verif Require Import Base DType SpecTree Mem Node Number ArrayOps NumConv Json Path MeshVerify MeshVerifySpec MeshVerifyFacts MeshVerifyParts MeshVerifySets MeshVerifyDomain MeshIndex MeshIndexSpec MeshIndexFacts MeshIndexMake MeshIndexWhole MeshIndexMany MeshIndexMpi MeshIndexMpiSpec MeshIndexMpiFacts P_MeshVerify P_MeshIndex.
Import ListNotations.

(** The index lists every part of every domain of every rank and nothing else; it states the number of
    all domains, and the cycle and time on which all domains agree. *)
Theorem C72_index rp ranks : (forall n, In n ranks -> clean n) -> (forall d, In d (all_domains ranks) -> domain_ok d = true /\ indexable d = true) ->
  consistent (all_domains ranks) -> all_domains ranks <> [] -> (Z.of_nat (length (all_domains ranks)) < 2 ^ 31)%Z ->
  exists i, mpi_generate_index ranks rp = Ok i /\ index_of_all rp (all_domains ranks) i /\
    part i (L "state") (L "number_of_domains") = Some (TNum INT64 [Z.of_nat (length (all_domains ranks))]) /\
    forall f v, In f [L "cycle"; L "time"] -> (exists t vs, v = TNum t vs) -> (forall d, In d (all_domains ranks) -> part d (L "state") f = Some v) ->
      part i (L "state") f = Some v.
Proof.
  intros C G S N B. destruct (ranks_index rp ranks (conj C G) S N) as (i & E & V & GD & T1 & T2). rewrite (global_small _ B) in T1.
  exists i. split; [exact E|]. split; [apply (inv_ok rp _ i N GD V)|]. split; [exact T1|exact T2].
Qed.
Print Assumptions C72_index.

(** It passes its check if the mesh of every rank passes; ranks may be without domains. *)
Theorem C72_accepted rp ranks : (forall n, In n ranks -> clean n /\ readable n = true /\ exists info, mesh_verify n = Ok (true, info)) ->
  (forall d, In d (all_domains ranks) -> indexable d = true) -> consistent (all_domains ranks) -> all_domains ranks <> [] ->
  exists i info, mpi_generate_index ranks rp = Ok i /\ index_verify i = Ok (true, info).
Proof.
  intros C X S N. assert (G : forall d, In d (all_domains ranks) -> domain_ok d = true /\ indexable d = true).
  { intros d D. split; [|exact (X d D)]. unfold all_domains in D. apply in_concat in D. destruct D as (l & D1 & D2). apply in_map_iff in D1. destruct D1 as (n & <- & D1).
    destruct (C n D1) as (Cn & R & info & V). destruct (verify_ok n Cn R) as (j & A & _). rewrite V in A. injection A as A _. unfold mesh_ok in A. unfold rank_domains in D2.
    destruct (given (L "coordsets") n); [destruct D2 as [<-|[]]; symmetry; exact A|]. apply in_map_iff in D2. destruct D2 as ([k c] & <- & H).
    destruct n; try discriminate A; try destruct H; symmetry in A; exact (every_In _ _ _ _ A H). }
  destruct (ranks_index rp ranks (conj (fun n H => proj1 (C n H)) G) S N) as (i & E & V & GD & _).
  destruct (inv_ok rp _ i N GD V) as [OK _]. destruct (index_report i (proj1 V)) as (r & I1 & _). rewrite OK in I1. exists i, r. auto.
Qed.
Print Assumptions C72_accepted.

(** Its entries do not depend on which rank has which domain. *)
Theorem C72_spread rp ranks ranks' : (forall n, In n (ranks ++ ranks') -> clean n) -> (forall d, In d (all_domains ranks) -> domain_ok d = true /\ indexable d = true) ->
  consistent (all_domains ranks) -> all_domains ranks <> [] -> (forall d, In d (all_domains ranks) <-> In d (all_domains ranks')) ->
  exists i i', mpi_generate_index ranks rp = Ok i /\ mpi_generate_index ranks' rp = Ok i' /\
    forall p k, In p sections -> part i p k = part i' p k.
Proof.
  intros C G S N H. destruct (ranks_index rp ranks) as (i & E & V & _); [split; [intros n K; apply C, in_or_app; auto|exact G]|exact S|exact N|].
  destruct (ranks_index rp ranks') as (i' & E' & V' & _).
  - split; [intros n K; apply C, in_or_app; auto|]. intros d D. apply G, H, D.
  - apply (consistent_incl _ (all_domains ranks)); [|exact S]. intros d D. apply H, D.
  - intro Z. apply N. destruct (all_domains ranks) as [|d r]; [reflexivity|]. pose proof (proj1 (H d) (or_introl eq_refl)) as K. rewrite Z in K. destruct K.
  - exists i, i'. split; [exact E|split; [exact E'|]]. intros p k P. destruct (part i p k) as [e|] eqn:A.
    + symmetry. apply (part_spread rp _ _ i i' p k e (fun x => proj1 (H x)) V V' P A).
    + destruct (part i' p k) as [e|] eqn:B; [|reflexivity]. rewrite (part_spread rp _ _ i' i p k e (fun x => proj2 (H x)) V' V P B) in A. discriminate A.
Qed.
Print Assumptions C72_spread.

(** * Cases *)
(** One rank has one domain, one has none, one has a mesh of several domains with one member. *)
Definition ranks3 := [mesh3; TObj []; o_ [("domain_1", mesh4)]].
Definition ranks1 := [mesh5].
Lemma ranks3_domains : all_domains ranks3 = map snd (kids mesh5). Proof. reflexivity. Qed.
Example C72_ranks : (forall n, In n (ranks3 ++ ranks1) -> clean n) /\ (forall n, In n ranks3 -> readable n = true /\ exists info, mesh_verify n = Ok (true, info)) /\
  (forall d, In d (all_domains ranks3) -> domain_ok d = true /\ indexable d = true) /\
  consistent (all_domains ranks3) /\ all_domains ranks3 <> [] /\ (Z.of_nat (length (all_domains ranks3)) < 2 ^ 31)%Z /\
  (forall d, In d (all_domains ranks3) <-> In d (all_domains ranks1)) /\
  (forall d, In d (all_domains ranks3) -> part d (L "state") (L "cycle") = Some (ints [7])).
Proof.
  destruct C67_mesh5 as (_ & _ & _ & _ & _ & CO & CY). split; [|split; [|split; [|split; [|split; [|split; [|split]]]]]].
  - intros n [<-|[<-|[<-|[<-|[]]]]]; tidy_names.
  - intros n [<-|[<-|[<-|[]]]]; (split; [reflexivity|eexists; vm_compute; reflexivity]).
  - intros d [<-|[<-|[]]]; split; reflexivity.
  - rewrite ranks3_domains. exact CO.
  - discriminate.
  - reflexivity.
  - intro d. rewrite ranks3_domains. reflexivity.
  - rewrite ranks3_domains. exact CY.
Qed.
Example C72_made : exists i info, mpi_generate_index ranks3 (L "mesh") = Ok i /\ index_verify i = Ok (true, info) /\
  option_map names (kid i (L "topologies")) = Some [L "mesh"; L "polys"; L "mixed"] /\ option_map names (kid i (L "fields")) = Some [L "u"; L "w"] /\
  part i (L "state") (L "number_of_domains") = Some (TNum INT64 [2%Z]).
Proof. eexists. eexists. split; [vm_compute; reflexivity|split; [vm_compute; reflexivity|repeat split]]. Qed.

(** * What is not so *)
(** If no rank has a domain, which every rank's check accepts, the index is empty and fails its check. *)
Theorem C72_none_refuted : exists ranks i r, (forall n, In n ranks -> clean n /\ readable n = true /\ exists info, mesh_verify n = Ok (true, info)) /\
  mpi_generate_index ranks (L "") = Ok i /\ index_verify i = Ok (false, r).
Proof.
  exists [TObj []; TObj []]. eexists. eexists. split; [|split; vm_compute; reflexivity].
  intros n [<-|[<-|[]]]; (split; [tidy_names|split; [reflexivity|eexists; vm_compute; reflexivity]]).
Qed.
Print Assumptions C72_none_refuted.
(** The state that the index gives depends on which rank has which domain. *)
Definition at_cycle z := match mesh_of [("w", field_w); ("u", o_ [("association", s_ "vertex"); ("topology", s_ "mesh"); ("values", reals [9; 8; 7; 6])])] [("mesh", quads)] with
  TObj es => TObj (es ++ [(L "state", o_ [("cycle", ints [z])])]) | t => t end.
Theorem C72_state_refuted : exists a b i i', (exists r, mesh_verify a = Ok (true, r)) /\ (exists r, mesh_verify b = Ok (true, r)) /\
  mpi_generate_index [a; b] (L "") = Ok i /\ mpi_generate_index [b; a] (L "") = Ok i' /\
  part i (L "state") (L "cycle") <> part i' (L "state") (L "cycle").
Proof.
  exists (at_cycle 7), (at_cycle 8). eexists. eexists. split; [eexists; vm_compute; reflexivity|]. split; [eexists; vm_compute; reflexivity|].
  split; [vm_compute; reflexivity|split; [vm_compute; reflexivity|]]. vm_compute. discriminate.
Qed.
Print Assumptions C72_state_refuted.
