(** C66: what [mesh::verify] accepts, and what its report says. *)
From Coq Require Import ZArith.
From Verif Require Import Base DType SpecTree Mem Node Number ArrayOps NumConv Json MeshVerify MeshVerifySpec MeshVerifyFacts MeshVerifyParts MeshVerifySets MeshVerifyDomain.
Import ListNotations.

(** For every tree with distinct names that are not words of reports, and whose numbers of
    shapes can be read, the check ends, its answer is that of the schema, and the report says the same. *)
Theorem C66_verify n : clean n -> readable n = true ->
  exists info, mesh_verify n = Ok (mesh_ok n, info) /\ flag info = Some (mesh_ok n).
Proof. intros C R. destruct (verify_ok n C R) as (i & A & B & _). exists i. auto. Qed.
Print Assumptions C66_verify.

(** The report says of each member of each section of a domain whether that one is good. *)
Theorem C66_report d : clean d -> readable d = true -> given (L "coordsets") d = true ->
  exists info, mesh_verify d = Ok (mesh_ok d, info) /\
    forall p sec s c, In p sections -> kid d p = Some sec -> kid sec s = Some c -> flag (iget (iget info p) s) = Some (marks d p c).
Proof.
  intros C R G. destruct (verify_ok d C R) as (i & A & _ & B). exists i. split; [exact A|]. unfold reports in B. rewrite G in B.
  intros p sec s c P. exact (proj2 B p P sec s c).
Qed.
Print Assumptions C66_report.

(** Meshes of many domains: the same for each domain. *)
Theorem C66_report_domains n : clean n -> readable n = true -> given (L "coordsets") n = false ->
  exists info, mesh_verify n = Ok (mesh_ok n, info) /\
    forall k d, In (k, d) (kids n) -> flag (iget info k) = Some (domain_ok d) /\
      forall p sec s c, In p sections -> kid d p = Some sec -> kid sec s = Some c -> flag (iget (iget (iget info k) p) s) = Some (marks d p c).
Proof.
  intros C R G. destruct (verify_ok n C R) as (i & A & _ & B). exists i. split; [exact A|]. unfold reports in B. rewrite G in B.
  intros k d H. destruct (B k d H) as [B1 B2]. split; [exact B1|]. intros p sec s c P. exact (B2 p P sec s c).
Qed.
Print Assumptions C66_report_domains.

(** The checks of single parts, whatever the report held before. *)
Theorem C66_coordset n i : exists i', coordset n i = Ok (coordset_ok n, i') /\ flag i' = Some (coordset_ok n).
Proof. exact (coordset_run n i). Qed.
Print Assumptions C66_coordset.
Theorem C66_topology n i : clean n -> readable_topology n = true ->
  exists i', topology n i = Ok (topology_ok n, i') /\ flag i' = Some (topology_ok n).
Proof. exact (topology_run n i). Qed.
Print Assumptions C66_topology.
Theorem C66_matset n i : clean n -> exists i', matset n i = Ok (matset_ok n, i') /\ flag i' = Some (matset_ok n).
Proof. exact (matset_run n i). Qed.
Print Assumptions C66_matset.
Theorem C66_field n i : exists i', field n i = Ok (field_ok n, i') /\ flag i' = Some (field_ok n).
Proof. exact (field_run n i). Qed.
Print Assumptions C66_field.
Theorem C66_specset n i : clean n -> readable_specset n = true ->
  exists i', specset n i = Ok (specset_ok n, i') /\ flag i' = Some (specset_ok n).
Proof. exact (specset_run n i). Qed.
Print Assumptions C66_specset.
Theorem C66_adjset n i : clean n -> exists i', adjset n i = Ok (adjset_ok n, i') /\ flag i' = Some (adjset_ok n).
Proof. exact (adjset_run n i). Qed.
Print Assumptions C66_adjset.
Theorem C66_nestset n i : clean n -> exists i', nestset n i = Ok (nestset_ok n, i') /\ flag i' = Some (nestset_ok n).
Proof. exact (nestset_run n i). Qed.
Print Assumptions C66_nestset.

(** * A mesh that meets the hypotheses, with every section, and variants of it *)
Definition s_ (x : string) := TStr (L x).
Definition o_ (l : list (string * tree)) : tree := TObj (map (fun e => (L (fst e), snd e)) l).
Definition ints := TNum INT32.
Definition reals := TNum FLOAT64.
Open Scope string_scope.
Open Scope Z_scope.
Definition coords := o_ [("type", s_ "explicit"); ("values", o_ [("x", reals [0; 1; 1; 0]); ("y", reals [0; 0; 1; 1])])].
Definition grid_coords := o_ [("type", s_ "uniform"); ("dims", o_ [("i", ints [3]); ("j", ints [3])]); ("origin", o_ [("x", reals [0])])].
Definition quads := o_ [("type", s_ "unstructured"); ("coordset", s_ "coords"); ("grid_function", s_ "u");
  ("elements", o_ [("shape", s_ "quad"); ("connectivity", ints [0; 1; 2; 3])])].
Definition polys := o_ [("type", s_ "unstructured"); ("coordset", s_ "coords");
  ("elements", o_ [("shape", s_ "polygonal"); ("connectivity", ints [0; 1; 2; 3]); ("sizes", ints [4]); ("offsets", ints [0])])].
Definition mixed := o_ [("type", s_ "unstructured"); ("coordset", s_ "coords");
  ("elements", o_ [("shape", s_ "mixed"); ("shape_map", o_ [("tri", ints [5]); ("line", ints [3])]); ("shapes", ints [5; 3; 5]);
                   ("connectivity", ints [0; 1; 2; 2; 3; 0; 2; 3]); ("sizes", ints [3; 2; 3]); ("offsets", ints [0; 3; 5])])].
Definition field_u := o_ [("association", s_ "vertex"); ("topology", s_ "mesh"); ("values", reals [1; 2; 3; 4])].
Definition mats := o_ [("topology", s_ "mesh"); ("volume_fractions", o_ [("a", reals [1]); ("b", reals [0])])].
Definition specs := o_ [("matset", s_ "m"); ("matset_values", o_ [("a", o_ [("H", reals [1]); ("O", reals [0])])])].
Definition window := o_ [("origin", o_ [("i", ints [0])]); ("dims", o_ [("i", ints [1])]); ("ratio", o_ [("i", ints [1])])].
Definition adj := o_ [("topology", s_ "mesh"); ("association", s_ "vertex");
  ("groups", o_ [("g", o_ [("neighbors", ints [1]); ("windows", o_ [("w0", window)])])])].
Definition nest := o_ [("topology", s_ "mesh"); ("association", s_ "element");
  ("windows", o_ [("w", o_ [("domain_id", ints [1]); ("domain_type", s_ "child"); ("ratio", o_ [("i", ints [2])])])])].
Definition mesh_of (fields topos : list (string * tree)) : tree :=
  o_ [("coordsets", o_ [("coords", coords); ("grid", grid_coords)]); ("topologies", o_ topos); ("matsets", o_ [("m", mats)]); ("specsets", o_ [("s", specs)]);
      ("fields", o_ fields); ("adjsets", o_ [("a", adj)]); ("nestsets", o_ [("n", nest)])].
Definition mesh1 := mesh_of [("u", field_u)] [("mesh", quads); ("polys", polys); ("mixed", mixed)].
Ltac tidy_names := cbn; repeat (first [exact I|split|constructor|(intro; cbn in *; intuition discriminate)]).
Example C66_clean : clean mesh1. Proof. tidy_names. Qed.
Example C66_readable : readable mesh1 = true. Proof. reflexivity. Qed.
Example C66_accepts : exists i, mesh_verify mesh1 = Ok (true, i) /\ flag i = Some true /\ flag (iget (iget i (L "topologies")) (L "mixed")) = Some true.
Proof. eexists. split; [vm_compute; reflexivity|split; reflexivity]. Qed.
Example C66_sections : forallb (fun p => given p mesh1) sections = true. Proof. reflexivity. Qed.
(** two domains in a list, the second with a field on a topology that is not there: only that field and that domain are marked *)
Definition mesh2 := TList [mesh1; mesh_of [("u", field_u); ("v", o_ [("association", s_ "vertex"); ("topology", s_ "nowhere"); ("values", reals [1])])] [("mesh", quads)]].
Example C66_clean2 : clean mesh2. Proof. tidy_names. Qed.
Example C66_readable2 : readable mesh2 = true. Proof. reflexivity. Qed.
Example C66_rejects : exists i, mesh_verify mesh2 = Ok (false, i) /\ flag (iget i (L "0")) = Some true /\ flag (iget i (L "1")) = Some false /\
  flag (iget (iget (iget i (L "1")) (L "fields")) (L "u")) = Some true /\ flag (iget (iget (iget i (L "1")) (L "fields")) (L "v")) = Some false.
Proof. eexists. split; [vm_compute; reflexivity|repeat split]. Qed.

(** * What is not so *)
(** windows of accepted adjacency sets have as many origins as dimensions and ratios *)
Definition flat_window := o_ [("origin", o_ [("i", ints [0])]); ("dims", o_ [("i", ints [1]); ("j", ints [1])]); ("ratio", o_ [("i", ints [1]); ("j", ints [1]); ("k", ints [1])])].
Definition adj_flat := o_ [("topology", s_ "mesh"); ("association", s_ "vertex");
  ("groups", o_ [("g", o_ [("neighbors", ints [1]); ("windows", o_ [("w0", flat_window)])])])].
Theorem C66_window_refuted : exists w i, clean adj_flat /\ adjset adj_flat INone = Ok (true, i) /\
  kid adj_flat (L "groups") = Some (o_ [("g", o_ [("neighbors", ints [1]); ("windows", o_ [("w0", w)])])]) /\
  must (L "origin") (fun o => must (L "dims") (fun d => negb (size o =? size d)%nat) w) w = true.
Proof. exists flat_window. eexists. split; [tidy_names|]. split; [vm_compute; reflexivity|split; reflexivity]. Qed.
Print Assumptions C66_window_refuted.
(** the same is checked in nesting sets *)
Example C66_nest_window : nestset_ok (o_ [("topology", s_ "mesh"); ("association", s_ "element");
  ("windows", o_ [("w", o_ [("domain_id", ints [1]); ("domain_type", s_ "child"); ("ratio", o_ [("i", ints [2])]); ("dims", o_ [("i", ints [2]); ("j", ints [2])])])])]) = false.
Proof. reflexivity. Qed.

(** the check ends with an answer, for shapes without a map *)
Theorem C66_shape_map_refuted : exists n, clean n /\ topology n INone = Err.
Proof.
  exists (o_ [("type", s_ "unstructured"); ("coordset", s_ "coords");
    ("elements", o_ [("shape", s_ "mixed"); ("shapes", ints [5]); ("connectivity", ints [0; 1; 2]); ("sizes", ints [3]); ("offsets", ints [0])])]).
  split; [tidy_names|vm_compute; reflexivity].
Qed.
Print Assumptions C66_shape_map_refuted.
(** … for a map with numbers of another type than int32 *)
Theorem C66_shape_type_refuted : exists n, clean n /\ topology n INone = Err.
Proof.
  exists (o_ [("type", s_ "unstructured"); ("coordset", s_ "coords");
    ("elements", o_ [("shape", s_ "mixed"); ("shape_map", o_ [("tri", TNum INT64 [5])]); ("shapes", ints [5]); ("connectivity", ints [0; 1; 2]); ("sizes", ints [3]); ("offsets", ints [0])])]).
  split; [tidy_names|vm_compute; reflexivity].
Qed.
Print Assumptions C66_shape_type_refuted.
(** … and reads only what is there, for an entry of the map with no elements *)
Theorem C66_shape_read_refuted : exists n, clean n /\ topology n INone = UB.
Proof.
  exists (o_ [("type", s_ "unstructured"); ("coordset", s_ "coords");
    ("elements", o_ [("shape", s_ "mixed"); ("shape_map", o_ [("tri", ints [])]); ("shapes", ints [5]); ("connectivity", ints [0; 1; 2]); ("sizes", ints [3]); ("offsets", ints [0])])]).
  split; [tidy_names|vm_compute; reflexivity].
Qed.
Print Assumptions C66_shape_read_refuted.
(** … for a material without species *)
Theorem C66_species_refuted : exists n, clean n /\ specset n INone = Err.
Proof. exists (o_ [("matset", s_ "m"); ("matset_values", o_ [("a", o_ [])])]). split; [tidy_names|vm_compute; reflexivity]. Qed.
Print Assumptions C66_species_refuted.
(** … for a topology that has the name of a flag of the report *)
Theorem C66_name_refuted : exists d, given (L "coordsets") d = true /\ readable d = true /\ mesh_ok d = true /\ mesh_verify d = Err.
Proof. exists (mesh_of [("u", field_u)] [("mesh", quads); ("valid", polys)]). repeat split; vm_compute; reflexivity. Qed.
Print Assumptions C66_name_refuted.

(** accepted explicit coordinate sets have coordinates *)
Theorem C66_no_coordinates_refuted : exists n i, clean n /\ coordset n INone = Ok (true, i) /\ must (L "values") (fun v => size v =? 0)%nat n = true.
Proof.
  exists (o_ [("type", s_ "explicit"); ("values", o_ [])]). eexists. split; [tidy_names|split; vm_compute; reflexivity].
Qed.
Print Assumptions C66_no_coordinates_refuted.
(** … with as many of each axis *)
Theorem C66_lengths_refuted : exists n i, clean n /\ coordset n INone = Ok (true, i) /\
  must (L "values") (fun v => must (L "x") (fun x => must (L "y") (fun y => negb (len x =? len y)%nat) v) v) n = true.
Proof.
  exists (o_ [("type", s_ "explicit"); ("values", o_ [("x", reals []); ("y", reals [1; 2])])]). eexists. split; [tidy_names|split; vm_compute; reflexivity].
Qed.
Print Assumptions C66_lengths_refuted.
(** accepted material sets have materials *)
Theorem C66_no_materials_refuted : exists n i, clean n /\ matset n INone = Ok (true, i) /\ must (L "volume_fractions") (fun v => size v =? 0)%nat n = true.
Proof.
  exists (o_ [("topology", s_ "mesh"); ("volume_fractions", o_ [])]). eexists. split; [tidy_names|split; vm_compute; reflexivity].
Qed.
Print Assumptions C66_no_materials_refuted.
(** the values of accepted fields are numbers *)
Theorem C66_leaves_refuted : exists n i, clean n /\ field n INone = Ok (true, i) /\ must (L "matset_values") (must (L "a") string_) n = true.
Proof.
  exists (o_ [("association", s_ "element"); ("matset", s_ "m"); ("matset_values", o_ [("a", s_ "x"); ("b", TList [reals [1]])])]).
  eexists. split; [tidy_names|split; vm_compute; reflexivity].
Qed.
Print Assumptions C66_leaves_refuted.
(** elements of accepted meshes name points of the coordinate set *)
Theorem C66_range_refuted : exists n i, clean n /\ readable n = true /\ mesh_verify n = Ok (true, i) /\
  must (L "coordsets") (must (L "coords") (must (L "values") (must (L "x") (fun x => len x =? 2)%nat))) n = true /\
  must (L "topologies") (must (L "mesh") (must (L "elements") (must (L "connectivity")
    (fun c => match c with TNum _ vs => existsb (Z.eqb 7) vs | _ => false end)))) n = true.
Proof.
  exists (o_ [("coordsets", o_ [("coords", o_ [("type", s_ "explicit"); ("values", o_ [("x", reals [0; 1])])])]);
    ("topologies", o_ [("mesh", o_ [("type", s_ "unstructured"); ("coordset", s_ "coords");
       ("elements", o_ [("shape", s_ "line"); ("connectivity", ints [0; 7])])])])]).
  eexists. split; [tidy_names|split; [reflexivity|split; [vm_compute; reflexivity|split; reflexivity]]].
Qed.
Print Assumptions C66_range_refuted.
(** the report of a group of an adjacency set is valid only if its windows are *)
Definition bad_adj := o_ [("topology", s_ "mesh"); ("association", s_ "vertex");
    ("groups", o_ [("g", o_ [("neighbors", ints [1]); ("windows", o_ [("w0", o_ [("origin", s_ "here")])])])])].
Theorem C66_group_flag_refuted : exists i, clean bad_adj /\ adjset bad_adj INone = Ok (false, i) /\
  flag (iget (iget i (L "groups")) (L "g")) = Some true.
Proof. eexists. split; [tidy_names|split; vm_compute; reflexivity]. Qed.
Print Assumptions C66_group_flag_refuted.
(** an empty tree counts as a mesh of no domains, as the manual says *)
Example C66_empty : exists i, mesh_verify TNone = Ok (true, i) /\ mesh_verify (TObj []) = Ok (true, i).
Proof. eexists. split; vm_compute; reflexivity. Qed.
