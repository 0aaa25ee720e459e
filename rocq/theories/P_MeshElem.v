(** C49: elements of unstructured meshes: offsets, points, centroids, faces. *)
From Verif Require Import Base DType SpecTree Number ArrayOps O2M Silo MeshConv MeshElem MeshElemFacts.
Local Open Scope Z_scope.
Import ListNotations.

(** generated offsets say where each element starts in the connectivity *)
Theorem C49_offsets t rows : has_rows t rows -> t_shape t <> L "polyhedral" -> t_offs t = None ->
  Forall (fun x => x <= int_max (offset_type t)) (starts rows) -> offsets_new t = Ok (starts rows, []) /\ offsets_inline t = Ok (starts rows, []).
Proof. intros. split; apply offsets_law; assumption. Qed.
Print Assumptions C49_offsets.
Theorem C49_offsets_polyhedral t rows faces : has_rows t rows -> has_faces t faces ->
  t_offs t = None \/ t_offs t = Some (starts rows) -> t_sub_offs t = None \/ t_sub_offs t = Some (starts faces) ->
  offsets_inline t = Ok (starts rows, starts faces).
Proof. exact (offsets_poly t rows faces). Qed.
Print Assumptions C49_offsets_polyhedral.
Theorem C49_offsets_stream types groups : stream_types_ok types groups ->
  stream_by_counts types 0 (map (fun g => (fst g, zlen (snd g))) groups) = starts (flat_map snd groups).
Proof. exact (stream_law types groups). Qed.
Print Assumptions C49_offsets_stream.
(** the points of element k are row k; on request ascending without repetition *)
Theorem C49_points fuel t rows k r : has_rows t rows -> t_shape t <> L "polyhedral" -> offsets_fit t rows -> nth_error rows k = Some r ->
  points fuel t (Z.of_nat k) false = Ok r /\ exists u, points fuel t (Z.of_nat k) true = Ok u /\ set_of u r.
Proof. exact (points_law fuel t rows k r). Qed.
Print Assumptions C49_points.
Theorem C49_points_polyhedral fuel t rows faces k r uq : has_rows t rows -> has_faces t faces ->
  t_offs t = None \/ t_offs t = Some (starts rows) -> t_sub_offs t = None \/ t_sub_offs t = Some (starts faces) ->
  nth_error rows k = Some r -> Forall (fun f => 0 <= f < zlen faces) r -> (length r < fuel)%nat -> Forall (fun l => (length l < fuel)%nat) faces ->
  exists u, points fuel t (Z.of_nat k) uq = Ok u /\ set_of u (flat_map (face faces) r).
Proof. exact (points_poly fuel t rows faces k r uq). Qed.
Print Assumptions C49_points_polyhedral.
(** the centroid of an element is the mean of its distinct points *)
Theorem C49_distinct l : NoDup (distinct l) /\ forall x, In x (distinct l) <-> In x l.
Proof. exact (distinct_ok l). Qed.
Theorem C49_centroids {F} (fadd fmul : F -> F -> F) (f0 : F) (finv : nat -> F) coords t rows : has_rows t rows -> t_shape t <> L "polyhedral" -> offsets_fit t rows ->
  Forall tame rows -> Forall (fun r => Forall (fun c => Forall (fun id => 0 <= id < zlen c) r) coords) rows ->
  centroids fadd fmul f0 finv coords t = Ok (map (fun r => map (fun c => mean fadd fmul f0 finv c (distinct r)) coords) rows).
Proof. exact (centroids_law fadd fmul f0 finv coords t rows). Qed.
Print Assumptions C49_centroids.
Theorem C49_centroids_polyhedral {F} (fadd fmul : F -> F -> F) (f0 : F) (finv : nat -> F) coords t rows faces : has_rows t rows -> has_faces t faces ->
  (t_offs t = None /\ t_sub_offs t = None) \/ (t_offs t = Some (starts rows) /\ t_sub_offs t = Some (starts faces)) ->
  Forall (Forall (fun f => 0 <= f < zlen faces)) rows ->
  Forall (fun l => Forall (fun c => Forall (fun id => 0 <= id < zlen c) l) coords) faces ->
  centroids fadd fmul f0 finv coords t = Ok (map (fun r => map (fun c => mean fadd fmul f0 finv c (distinct (flat_map (face faces) r))) coords) rows).
Proof. exact (centroids_poly fadd fmul f0 finv coords t rows faces). Qed.
Print Assumptions C49_centroids_polyhedral.
(** the faces of the solid shapes close up and face outwards *)
Theorem C49_faces name n : In name [L "tet"; L "hex"; L "wedge"; L "pyramid"] -> points_of name = Some n ->
  exists fs, shape_faces name = Ok fs /\ closed fs /\ Forall (outward (corners name)) fs /\ length (corners name) = n /\
             (forall i, 0 <= i < Z.of_nat n <-> In i (concat fs)).
Proof. exact (faces_law name n). Qed.
Print Assumptions C49_faces.

(** ---- where the code departs ---- *)
(** every polygon of more than eight points is read past its end *)
Theorem C49_big_polygon_refuted {F} (fadd fmul : F -> F -> F) f0 finv coords t rows k r : has_rows t rows -> t_shape t = L "polygonal" -> offsets_fit t rows ->
  nth_error rows k = Some r -> (8 < length r)%nat -> centroid fadd fmul f0 finv coords (t_conn t) (zlen (concat (firstn k rows))) (zlen r) = UB.
Proof. exact (centroid_over fadd fmul f0 finv coords t rows k r). Qed.
Print Assumptions C49_big_polygon_refuted.
Definition polygons (rows : list (list Z)) : topo :=
  {| t_shape := L "polygonal"; t_conn := concat rows; t_sizes := map zlen rows; t_offs := None; t_sub_conn := []; t_sub_sizes := []; t_sub_offs := None; t_leaves := [INT32; INT32] |}.
(** a point named three times counts twice *)
Theorem C49_thrice_refuted : exists rows (coords : list (list Z)), has_rows (polygons rows) rows /\ offsets_fit (polygons rows) rows /\ Forall (fun r => length r = 4%nat) rows /\
  centroids Z.add Z.div 0 Z.of_nat coords (polygons rows) = Ok [[2]] /\
  map (fun r => map (fun c => mean Z.add Z.div 0 Z.of_nat c (distinct r)) coords) rows = [[3]].
Proof.
  exists [[0; 0; 0; 1]], [[0; 6]]. split; [split; [reflexivity|cbn; auto]|]. split; [right; split; [reflexivity|repeat constructor; vm_compute; discriminate]|].
  repeat split; try (vm_compute; reflexivity). repeat constructor.
Qed.
Print Assumptions C49_thrice_refuted.
(** offsets are stored in the type of the connectivity even where they do not fit *)
Theorem C49_narrow_offsets_refuted : exists t rows o, has_rows t rows /\ t_offs t = None /\ (forall x, In x (t_conn t) -> 0 <= x <= 127) /\
  offsets_new t = Ok o /\ nth_error (starts rows) 32 = Some 128 /\ nth_error (fst o) 32 = Some (-128).
Proof.
  exists {| t_shape := L "quad"; t_conn := concat (repeat [0; 1; 2; 3] 33); t_sizes := []; t_offs := None; t_sub_conn := []; t_sub_sizes := []; t_sub_offs := None; t_leaves := [INT8] |}.
  exists (repeat [0; 1; 2; 3] 33). eexists. split; [split; [reflexivity|cbn [t_shape]; change (points_of (L "quad")) with (Some 4%nat); cbv beta iota; apply Forall_forall; intros r I; apply repeat_spec in I; subst; reflexivity]|].
  split; [reflexivity|]. split; [|repeat split; vm_compute; reflexivity].
  cbn [t_conn]. intros x I. apply in_concat in I. destruct I as (l & I & J). apply repeat_spec in I. subst. cbn in J. intuition lia.
Qed.
Print Assumptions C49_narrow_offsets_refuted.
(** stream topologies: hexahedra are taken to have six points *)
Theorem C49_stream_refuted : exists types rows, types = [(9, L "hex")] /\ Forall (fun r => length r = 8%nat) rows /\
  stream_by_counts types 0 [(9, zlen rows)] = [0; 6] /\ starts rows = [0; 8].
Proof. exists [(9, L "hex")], (repeat [0; 1; 2; 3; 4; 5; 6; 7] 2). repeat split; repeat constructor. Qed.
Print Assumptions C49_stream_refuted.
(** ... and given offsets, all but the last group are lost *)
Theorem C49_stream_offsets_refuted : exists types ids offs rows, types = [(1, L "tri"); (2, L "quad")] /\ map (@length Z) rows = [3; 4]%nat /\
  offs = starts rows /\ ids = [1; 2] /\ stream_by_offsets 10 types ids offs (zlen (concat rows)) = Ok [0; 4].
Proof. exists [(1, L "tri"); (2, L "quad")], [1; 2], [0; 3], [[0; 1; 2]; [0; 1; 2; 3]]. repeat split; vm_compute; reflexivity. Qed.
Print Assumptions C49_stream_offsets_refuted.
(** a mixed topology reads past the table of embeddings *)
Theorem C49_mixed_refuted : shape_of (L "mixed") = UB.
Proof. vm_compute. reflexivity. Qed.
Print Assumptions C49_mixed_refuted.
(** polyhedra: a tetrahedron with elements/offsets but no subelements/offsets *)
Definition one_tet (o so : option (list Z)) : topo :=
  {| t_shape := L "polyhedral"; t_conn := [0; 1; 2; 3]; t_sizes := [4]; t_offs := o;
     t_sub_conn := [0; 2; 1; 0; 1; 3; 0; 3; 2; 1; 2; 3]; t_sub_sizes := [3; 3; 3; 3]; t_sub_offs := so; t_leaves := [INT32] |}.
Definition tet_faces : list (list Z) := [[0; 2; 1]; [0; 1; 3]; [0; 3; 2]; [1; 2; 3]].
Theorem C49_half_offsets_refuted : exists (coords : list (list Z)),
  has_rows (one_tet (Some [0]) None) [[0; 1; 2; 3]] /\ has_faces (one_tet (Some [0]) None) tet_faces /\ t_offs (one_tet (Some [0]) None) = Some (starts [[0; 1; 2; 3]]) /\
  centroids Z.add Z.div 0 Z.of_nat coords (one_tet (Some [0]) None) = Ok [] /\
  centroids Z.add Z.div 0 Z.of_nat coords (one_tet None None) = Ok [[1]].
Proof. exists [[0; 4; 0; 0]]. split; [split; [reflexivity|cbn; auto]|]. split; [split; reflexivity|]. repeat split; vm_compute; reflexivity. Qed.
Print Assumptions C49_half_offsets_refuted.
(** the triangles a wedge or pyramid is split into do not run the same way around *)
Fixpoint triples (l : list Z) : list (list Z) := match l with a :: b :: c :: r => [a; b; c] :: triples r | _ => [] end.
Theorem C49_triangles_refuted name : In name [L "wedge"; L "pyramid"] ->
  exists i s l, shape_of name = Ok (Some (i, s, Some l)) /\ s_embed s = 2 /\ ~ closed (triples l).
Proof.
  assert (K : forall l e, (1 < count_occ (fun x y : Z * Z => ltac:(decide equality; apply Z.eq_dec)) (flat_map edges (triples l)) e)%nat -> ~ closed (triples l)).
  { intros l e H [N _]. rewrite (NoDup_count_occ (fun x y : Z * Z => ltac:(decide equality; apply Z.eq_dec))) in N. specialize (N e). lia. }
  cbn [In]. intros [<-|[<-|[]]]; eexists _, _, _; (split; [vm_compute; reflexivity|]); (split; [reflexivity|]); apply (K _ (0, 1)); vm_compute; repeat constructor.
Qed.
Print Assumptions C49_triangles_refuted.

(** ---- cases that meet the hypotheses ---- *)
Definition two_quads : topo := {| t_shape := L "quad"; t_conn := [0; 1; 4; 3; 1; 2; 5; 1]; t_sizes := []; t_offs := None; t_sub_conn := []; t_sub_sizes := []; t_sub_offs := None; t_leaves := [INT32] |}.
Definition quad_rows : list (list Z) := [[0; 1; 4; 3]; [1; 2; 5; 1]].
Example C49_hyps : has_rows two_quads quad_rows /\ offsets_fit two_quads quad_rows /\ Forall tame quad_rows /\
  has_rows (polygons [[0; 1; 2]; [0; 2; 3; 4; 5]]) [[0; 1; 2]; [0; 2; 3; 4; 5]] /\ has_rows (one_tet None None) [[0; 1; 2; 3]] /\ has_faces (one_tet None None) tet_faces.
Proof.
  assert (T : forall l, (forallb (fun x => (count_occ Z.eq_dec l x <=? 2)%nat) l && (1 <=? length l)%nat && (length l <=? 8)%nat) = true -> tame l).
  { intros l H. apply andb_prop in H. destruct H as [H H3]. apply andb_prop in H. destruct H as [H1 H2]. split; [apply Nat.leb_le in H2, H3; lia|]. intros x.
    destruct (in_dec Z.eq_dec x l) as [I|I]; [rewrite forallb_forall in H1; apply Nat.leb_le, (H1 x I)|]. rewrite (proj1 (count_occ_not_In Z.eq_dec l x) I). lia. }
  split; [split; [reflexivity|cbn; repeat constructor]|]. split; [right; split; [reflexivity|repeat constructor; vm_compute; discriminate]|].
  split; [constructor; [apply T; vm_compute; reflexivity|constructor; [apply T; vm_compute; reflexivity|constructor]]|]. split; [split; [reflexivity|cbn; auto]|]. split; [split; [reflexivity|cbn; auto]|]. split; reflexivity.
Qed.
Example C49_run : offsets_new two_quads = Ok ([0; 4], []) /\ points 0 two_quads 1 true = Ok [1; 2; 5] /\
  centroids Z.add Z.div 0 Z.of_nat [[0; 3; 6; 0; 3; 6]; [0; 0; 0; 3; 3; 3]] two_quads = Ok [[1; 1]; [5; 1]] /\
  points 9 (one_tet None None) 0 true = Ok [0; 1; 2; 3] /\ offsets_new (polygons [[0; 1; 2]; [0; 2; 3; 4; 5]]) = Ok ([0; 3], []).
Proof. repeat split; vm_compute; reflexivity. Qed.
Example C49_stream_hyps : stream_types_ok [(7, L "tri"); (3, L "quad")] [(7, [[0; 1; 2]]); (3, [[0; 1; 2; 3]; [4; 5; 6; 7]])] /\
  stream_by_counts [(7, L "tri"); (3, L "quad")] 0 [(7, 1); (3, 2)] = [0; 3; 7].
Proof.
  split; [|vm_compute; reflexivity]. split; [repeat constructor; cbn; intuition discriminate|].
  constructor; [exists (L "tri"), 3%nat; cbn; repeat split; auto|]. constructor; [exists (L "quad"), 4%nat; cbn; repeat split; auto 7|constructor].
Qed.

Print Assumptions C49_distinct.
