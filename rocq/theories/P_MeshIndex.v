(** C67: the index that [generate_index] makes of a mesh, and what [mesh::index::verify] accepts. *)
From Coq Require Import ZArith.
From Verif Require Import Base DType SpecTree Mem Node Number ArrayOps NumConv Json Path MeshVerify MeshVerifySpec MeshVerifyFacts MeshVerifyParts MeshVerifySets MeshVerifyDomain MeshIndex MeshIndexSpec MeshIndexFacts MeshIndexMake MeshIndexWhole MeshIndexMany P_MeshVerify.
Import ListNotations.

(** For every tree with distinct names that are not words of reports the check ends, its
    answer is that of the schema, and the report says the same, also of each entry. *)
Theorem C67_check n : clean n ->
  exists info, index_verify n = Ok (index_ok n, info) /\ flag info = Some (index_ok n) /\
    forall p sec s c, In p sections -> kid n p = Some sec -> kid sec s = Some c -> flag (iget (iget info p) s) = Some (entries n p c).
Proof.
  intro C. destruct (index_report n C) as (i & A & B & D). exists i. split; [exact A|split; [exact B|]].
  intros p sec s c P. exact (D p P sec s c).
Qed.
Print Assumptions C67_check.

(** The index of a good domain whose axes, materials and components have names lists
    exactly its parts, with what they are and where they are, and the number of domains. *)
Theorem C67_domain rp d domains : clean d -> domain_ok d = true -> indexable d = true ->
  exists i, generate_index d rp domains = Ok i /\ index_of rp d i /\ state_of rp d i domains.
Proof. intros C D R. destruct (one_domain rp d domains C D R) as (i & A & B & E & _). exists i. auto. Qed.
Print Assumptions C67_domain.

(** A domain that passes [mesh::verify] has an index that passes [mesh::index::verify]. *)
Theorem C67_accepted rp d domains : clean d -> readable d = true -> given (L "coordsets") d = true -> indexable d = true ->
  (exists info, mesh_verify d = Ok (true, info)) ->
  exists i info, generate_index d rp domains = Ok i /\ index_verify i = Ok (true, info).
Proof.
  intros C R G X (info & V). destruct (verify_ok d C R) as (j & A & _). rewrite V in A.
  assert (D : domain_ok d = true). { injection A as A _. unfold mesh_ok in A. rewrite G in A. symmetry. exact A. }
  destruct (one_domain rp d domains C D X) as (i & E & _ & _ & CI & OK). destruct (index_report i CI) as (r & I1 & _).
  rewrite OK in I1. exists i, r. auto.
Qed.
Print Assumptions C67_accepted.

(** The index of several good domains, whose parts of the same name are alike, lists every part of
    every domain with its path and what it is, and nothing else. *)
Theorem C67_domains rp n domains : clean n -> given (L "coordsets") n = false -> kids n <> [] ->
  (forall d, In d (map snd (kids n)) -> domain_ok d = true /\ indexable d = true) -> consistent (map snd (kids n)) ->
  exists i, generate_index n rp domains = Ok i /\ index_of_all rp (map snd (kids n)) i /\
    part i (L "state") (L "number_of_domains") = Some (TNum INT64 [domains]) /\
    forall f v, In f [L "cycle"; L "time"] -> (exists t vs, v = TNum t vs) -> (forall d, In d (map snd (kids n)) -> part d (L "state") f = Some v) ->
      part i (L "state") f = Some v.
Proof.
  intros C G N D S. destruct (many_domains rp n domains C G N D S) as (i & A & B & _ & _ & E & F). exists i. auto.
Qed.
Print Assumptions C67_domains.

(** It passes its check if the mesh passes. *)
Theorem C67_domains_accepted rp n domains : clean n -> readable n = true -> given (L "coordsets") n = false -> kids n <> [] ->
  (forall d, In d (map snd (kids n)) -> indexable d = true) -> consistent (map snd (kids n)) ->
  (exists info, mesh_verify n = Ok (true, info)) ->
  exists i info, generate_index n rp domains = Ok i /\ index_verify i = Ok (true, info).
Proof.
  intros C R G N D S (info & V). destruct (verify_ok n C R) as (j & A & _). rewrite V in A.
  assert (OK : forall d, In d (map snd (kids n)) -> domain_ok d = true /\ indexable d = true).
  { intros d H. split; [|exact (D d H)]. injection A as A _. unfold mesh_ok in A. rewrite G in A. apply in_map_iff in H. destruct H as ([k c] & <- & H).
    destruct n; try discriminate A; symmetry in A; exact (every_In _ _ _ _ A H). }
  destruct (many_domains rp n domains C G N OK S) as (i & E & _ & CI & X & _). destruct (index_report i CI) as (r & I1 & _).
  rewrite X in I1. exists i, r. auto.
Qed.
Print Assumptions C67_domains_accepted.

(** * A mesh with every section *)
Open Scope string_scope.
Open Scope Z_scope.
Definition mesh3 := match mesh1 with TObj es => TObj (es ++ [(L "state", o_ [("cycle", ints [7]); ("time", reals [2]); ("domain_id", ints [0])])]) | t => t end.
Example C67_mesh : clean mesh3 /\ readable mesh3 = true /\ domain_ok mesh3 = true /\ indexable mesh3 = true /\ forallb (fun p => given p mesh3) sections = true.
Proof. split; [tidy_names|repeat split]. Qed.
Example C67_made : exists i info, generate_index mesh3 (L "root/mesh") 4 = Ok i /\ index_verify i = Ok (true, info) /\
  kid i (L "coordsets") = Some (o_
    [("coords", o_ [("type", s_ "explicit"); ("coord_system", o_ [("axes", o_ [("x", TNone); ("y", TNone)]); ("type", s_ "cartesian")]); ("path", s_ "root/mesh/coordsets/coords")]);
     ("grid", o_ [("type", s_ "uniform"); ("coord_system", o_ [("axes", o_ [("x", TNone)]); ("type", s_ "cartesian")]); ("path", s_ "root/mesh/coordsets/grid")])]) /\
  kid i (L "matsets") = Some (o_ [("m", o_ [("topology", s_ "mesh"); ("material_map", o_ [("a", TNum INT64 [0]); ("b", TNum INT64 [1])]); ("path", s_ "root/mesh/matsets/m")])]) /\
  kid i (L "state") = Some (o_ [("cycle", ints [7]); ("time", reals [2]); ("path", s_ "root/mesh/state"); ("number_of_domains", TNum INT64 [4])]).
Proof. eexists. eexists. split; [vm_compute; reflexivity|split; [vm_compute; reflexivity|repeat split]]. Qed.

(** Two domains: the second lacks two topologies and has another field, of two components. *)
Definition field_w := o_ [("association", s_ "element"); ("topology", s_ "mesh"); ("values", o_ [("a", reals [1]); ("b", reals [2])])].
Definition mesh4 := match mesh_of [("w", field_w); ("u", o_ [("association", s_ "vertex"); ("topology", s_ "mesh"); ("values", reals [9; 8; 7; 6])])] [("mesh", quads)] with
  TObj es => TObj (es ++ [(L "state", o_ [("cycle", ints [7])])]) | t => t end.
Definition mesh5 := o_ [("domain_0", mesh3); ("domain_1", mesh4)].
Ltac same_ := let f := fresh in let F := fresh in intros f F; cbn [In] in F; repeat (destruct F as [<-|F]; [reflexivity|]); destruct F.
Example C67_mesh5 : clean mesh5 /\ readable mesh5 = true /\ given (L "coordsets") mesh5 = false /\ kids mesh5 <> [] /\
  forallb (fun d => domain_ok d && indexable d) (map snd (kids mesh5)) = true /\ consistent (map snd (kids mesh5)) /\
  forall d, In d (map snd (kids mesh5)) -> part d (L "state") (L "cycle") = Some (ints [7]).
Proof.
  split; [tidy_names|]. split; [reflexivity|]. split; [reflexivity|]. split; [discriminate|]. split; [reflexivity|]. split.
  - assert (X : forall p, In p sections -> forall d d', In d [mesh3; mesh4] -> In d' [mesh3; mesh4] -> forall k a b, part d p k = Some a -> part d' p k = Some b -> alike p a b).
    { assert (G : forall p d d', (forall sa sb, kid d p = Some sa -> kid d' p = Some sb -> forall k a, In (k, a) (kids sa) -> forall b, kid sb k = Some b -> alike p a b) ->
        forall k a b, part d p k = Some a -> part d' p k = Some b -> alike p a b).
      { intros p d d' H k a b A B. apply part_kid in A, B. destruct A as (sa & A1 & A2), B as (sb & B1 & B2). exact (H sa sb A1 B1 k a (kid_kids _ _ _ A2) b B2). }
      intros p P d d' D D'. apply G. clear G. unfold sections in P. cbn [In] in P.
      destruct P as [<-|[<-|[<-|[<-|[<-|[<-|[<-|[]]]]]]]], D as [<-|[<-|[]]], D' as [<-|[<-|[]]]; intros sa sb A B; injection A as <-; injection B as <-; intros k a H;
      cbn in H; repeat destruct H as [H|H]; try contradiction; injection H as <- <-; intros b B; try discriminate B; injection B as <-;
      first [same_|split; [same_|first [reflexivity|split; first [discriminate|reflexivity]|split; reflexivity]]]. }
    intros d d' p k a b D D' P. exact (X p P d d' D D' k a b).
  - intros d [<-|[<-|[]]]; reflexivity.
Qed.
Example C67_made5 : exists i info, generate_index mesh5 (L "mesh") 2 = Ok i /\ index_verify i = Ok (true, info) /\
  option_map names (kid i (L "topologies")) = Some [L "mesh"; L "polys"; L "mixed"] /\ option_map names (kid i (L "fields")) = Some [L "u"; L "w"].
Proof. eexists. eexists. split; [vm_compute; reflexivity|split; [vm_compute; reflexivity|split; reflexivity]]. Qed.

(** * What is not so *)
(** A mesh of one coordinate set and what else is given. *)
Definition tiny (c : tree) (more : list (string * tree)) : tree :=
  o_ ([("coordsets", o_ [("coords", c)]); ("topologies", o_ [("mesh", o_ [("type", s_ "points"); ("coordset", s_ "coords")])])] ++ more).
(** Coordinates that name their axes i and j are good coordinates, but the index of the mesh
    calls them cartesian and keeps the names, so it does not pass its check. *)
Theorem C67_logical_refuted : exists d i r1 r2, clean d /\ mesh_verify d = Ok (true, r1) /\ generate_index d (L "") 1 = Ok i /\ index_verify i = Ok (false, r2).
Proof.
  exists (tiny (o_ [("type", s_ "rectilinear"); ("values", o_ [("i", reals [0; 1]); ("j", reals [0; 1])])]) []).
  eexists. eexists. eexists. split; [tidy_names|split; [vm_compute; reflexivity|split; vm_compute; reflexivity]].
Qed.
Print Assumptions C67_logical_refuted.
(** The same for values without names of axes, and for an origin without entries. *)
Theorem C67_no_axes_refuted : exists d i r1 r2, clean d /\ mesh_verify d = Ok (true, r1) /\ generate_index d (L "") 1 = Ok i /\ index_verify i = Ok (false, r2).
Proof.
  exists (tiny (o_ [("type", s_ "rectilinear"); ("values", TList [reals [0; 1]; reals [0; 1]])]) []).
  eexists. eexists. eexists. split; [tidy_names|split; [vm_compute; reflexivity|split; vm_compute; reflexivity]].
Qed.
Print Assumptions C67_no_axes_refuted.
Theorem C67_empty_origin_refuted : exists d i r1 r2, clean d /\ mesh_verify d = Ok (true, r1) /\ generate_index d (L "") 1 = Ok i /\ index_verify i = Ok (false, r2).
Proof.
  exists (tiny (o_ [("type", s_ "uniform"); ("dims", o_ [("i", ints [2])]); ("origin", o_ [])]) []).
  eexists. eexists. eexists. split; [tidy_names|split; [vm_compute; reflexivity|split; vm_compute; reflexivity]].
Qed.
Print Assumptions C67_empty_origin_refuted.
Definition line := o_ [("type", s_ "rectilinear"); ("values", o_ [("x", reals [0; 1])])].
(** A material set without materials is good, but its entry in the index is not. *)
Theorem C67_no_materials_refuted : exists d i r1 r2, clean d /\ mesh_verify d = Ok (true, r1) /\ generate_index d (L "") 1 = Ok i /\ index_verify i = Ok (false, r2).
Proof.
  exists (tiny line [("matsets", o_ [("m", o_ [("topology", s_ "mesh"); ("volume_fractions", o_ [])])])]).
  eexists. eexists. eexists. split; [tidy_names|split; [vm_compute; reflexivity|split; vm_compute; reflexivity]].
Qed.
Print Assumptions C67_no_materials_refuted.
(** Fields that are good, but of which no index can be made: volume_dependent is not looked
    at by the check, but read as text; values for each material may be one array, but the
    first child of it is asked for. *)
Theorem C67_volume_dependent_refuted : exists d r, clean d /\ mesh_verify d = Ok (true, r) /\ generate_index d (L "") 1 = Err.
Proof.
  exists (tiny line [("fields", o_ [("f", o_ [("association", s_ "element"); ("topology", s_ "mesh"); ("values", reals [1; 2]); ("volume_dependent", ints [1])])])]).
  eexists. split; [tidy_names|split; vm_compute; reflexivity].
Qed.
Print Assumptions C67_volume_dependent_refuted.
Theorem C67_matset_array_refuted : exists d r, clean d /\ mesh_verify d = Ok (true, r) /\ generate_index d (L "") 1 = Err.
Proof.
  exists (tiny line [("matsets", o_ [("m", o_ [("topology", s_ "mesh"); ("volume_fractions", o_ [("a", reals [1])])])]);
                     ("fields", o_ [("f", o_ [("association", s_ "element"); ("matset", s_ "m"); ("matset_values", reals [1; 2])])])]).
  eexists. split; [tidy_names|split; vm_compute; reflexivity].
Qed.
Print Assumptions C67_matset_array_refuted.
(** The components of a field in a list are counted as one. *)
Theorem C67_components_refuted : exists d i r e, clean d /\ mesh_verify d = Ok (true, r) /\ generate_index d (L "") 1 = Ok i /\
  match kid d (L "fields") with Some s => match kid s (L "f") with Some f => match kid f (L "values") with Some v => length (kids v) = 2%nat | None => False end | None => False end | None => False end /\
  match kid i (L "fields") with Some s => kid s (L "f") = Some e /\ kid e (L "number_of_components") = Some (TNum INT64 [1]) | None => False end.
Proof.
  exists (tiny line [("fields", o_ [("f", o_ [("association", s_ "element"); ("topology", s_ "mesh"); ("values", TList [reals [1; 2]; reals [3; 4]])])])]).
  eexists. eexists. eexists. split; [tidy_names|split; [vm_compute; reflexivity|split; [vm_compute; reflexivity|split; [reflexivity|split; reflexivity]]]].
Qed.
Print Assumptions C67_components_refuted.
(** A mesh of no domains is a good mesh; its index is not. *)
Theorem C67_no_domains_refuted : exists i r1 r2, mesh_verify (TObj []) = Ok (true, r1) /\ generate_index (TObj []) (L "") 0 = Ok i /\ index_verify i = Ok (false, r2).
Proof. eexists. eexists. eexists. split; [vm_compute; reflexivity|split; vm_compute; reflexivity]. Qed.
Print Assumptions C67_no_domains_refuted.
(** Two good domains whose coordinates of the same name are cartesian in one and cylindrical
    in the other: the axes of both are put together, and the index does not pass. *)
Theorem C67_two_systems_refuted : exists n i r1 r2, clean n /\ mesh_verify n = Ok (true, r1) /\ generate_index n (L "") 2 = Ok i /\ index_verify i = Ok (false, r2).
Proof.
  exists (TList [tiny line []; tiny (o_ [("type", s_ "rectilinear"); ("values", o_ [("r", reals [0; 1])])]) []]).
  eexists. eexists. eexists. split; [tidy_names|split; [vm_compute; reflexivity|split; vm_compute; reflexivity]].
Qed.
Print Assumptions C67_two_systems_refuted.
