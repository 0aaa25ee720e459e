(** C50: renumbering of points and reordering of elements. *)
From Coq Require Import Permutation.
From Verif Require Import Base DType SpecTree Mem Node Number Node ArrayOps O2M Silo MeshConv MeshElem MeshElemFacts MeshRenum MeshRenumFacts.
Local Open Scope Z_scope.
Import ListNotations.

(** a builder, after any calls: the next add returns the number of elements added since the
    last execute, and execute returns those elements, in order, with every point where it was *)
Theorem C50_builder {F} (coords : list (list F)) ops b ids : b_run coords b_new ops = Ok b -> snd (b_add b ids) = zlen (since [] ops).
Proof. intros E. rewrite (history_law coords ops [] b E). apply add_number. Qed.
Print Assumptions C50_builder.
Theorem C50_builder_mesh {F} (coords : list (list F)) ops b elems shape : b_run coords b_new ops = Ok b -> elems = since [] ops ->
  in_range coords (concat elems) -> zlen (concat elems) <= int_max INT64 ->
  shape <> L "polyhedral" -> match points_of shape with Some n => Forall (fun r => length r = n) elems | None => shape = L "polygonal" end ->
  exists cs t rows, b_execute b shape coords = Ok (map (map Some) cs, t, starts rows, b_new) /\
    has_rows t rows /\ t_shape t = shape /\ t_sizes t = map zlen rows /\ length rows = length elems /\ length cs = length coords /\
    (forall k row, nth_error elems k = Some row -> exists row', nth_error rows k = Some row' /\ placed cs row' = placed coords row) /\
    (forall k row, nth_error rows k = Some row -> in_range cs row) /\
    (forall c id, In c cs -> 0 <= id < zlen c -> exists row, In row rows /\ In id row) /\
    Forall (fun c => zlen c = zlen (distinct (concat elems))) cs.
Proof. intros E ->. rewrite (history_law coords ops [] b E). apply execute_law. Qed.
Print Assumptions C50_builder_mesh.

(** reordering or selecting elements: new element j is old element order[j] with its points,
    their values and its values; the returned map tells where each old point went *)
Theorem C50_reorder {F} npts ct st ot (m : mesh (F := F)) rows order :
  m_conn m = concat rows -> m_sizes m = map zlen rows -> m_offs m = starts rows ->
  is_int ct = true -> is_int st = true -> is_int ot = true ->
  Forall (fun x => 0 <= x < Z.of_nat npts) (concat rows) ->
  Forall (fun x => x <= int_max ct) (concat rows) -> Forall (fun r => zlen r <= int_max st) rows ->
  Forall (fun c => length c = npts) (m_coords m ++ m_vfields m) -> Forall (fun c => length c = length rows) (m_efields m) ->
  Forall (fun k => 0 <= k < zlen rows) order ->
  Forall (fun x => x <= int_max ot) (starts (map (face rows) order)) ->
  exists m' o2n rows', reorder ct st ot m order npts = Ok (m', o2n) /\
    m_conn m' = concat rows' /\ m_sizes m' = map zlen rows' /\ m_offs m' = starts rows' /\ length rows' = length order /\
    (forall j k r, nth_error order j = Some k -> nth_error rows (Z.to_nat k) = Some r ->
       exists r', nth_error rows' j = Some r' /\ r' = map (fun id => nth (Z.to_nat id) o2n (-1)) r /\ placed (m_coords m') r' = placed (m_coords m) r /\ placed (m_vfields m') r' = placed (m_vfields m) r /\
         locate (m_efields m') (Z.of_nat j) = locate (m_efields m) k) /\
    Forall (fun c => Forall (fun id => 0 <= id < zlen c) (concat rows')) (m_coords m' ++ m_vfields m') /\
    (forall id, (id < npts)%nat -> nth_error o2n id = Some (-1) <-> ~ In (Z.of_nat id) (flat_map (face rows) order)).
Proof. exact (reorder_law npts ct st ot m rows order). Qed.
Print Assumptions C50_reorder.

(** points renumbered by their global ids keep their global ids *)
Theorem C50_reindex old new conn : Forall (fun v => 0 <= v < zlen old) conn -> (forall v g, In v conn -> znth old v = Some g -> In g new) ->
  exists conn', reindex old new conn = Ok conn' /\ Forall2 (fun v v' => 0 <= v' < zlen new /\ znth new v' = znth old v) conn conn'.
Proof. exact (reindex_law old new conn). Qed.
Print Assumptions C50_reindex.

(** the Hilbert ordering ends, names every element once, and is the place of each element
    along a walk through all of them which (in the plane) takes the four quarters of the
    bounding box one after the other; for every partitioning function *)
Theorem C50_hilbert {F} lt mid (coord : Z -> nat -> F) part three nelem mn mx : partitions part ->
  exists walk o, hilbert lt mid coord part three nelem mn mx = Ok (map Some o) /\
    Permutation (zseq (Z.of_nat nelem)) o /\ Permutation (zseq (Z.of_nat nelem)) walk /\
    (forall i e, nth_error walk i = Some e -> nth_error o (Z.to_nat e) = Some (Z.of_nat i)) /\
    (three = false -> (1 < nelem)%nat -> exists a b c d, walk = a ++ b ++ c ++ d /\
       Forall (fun i => lo lt mid coord mn mx 0 i /\ lo lt mid coord mn mx 1 i) a /\ Forall (fun i => lo lt mid coord mn mx 0 i /\ hi lt mid coord mn mx 1 i) b /\
       Forall (fun i => hi lt mid coord mn mx 0 i /\ hi lt mid coord mn mx 1 i) c /\ Forall (fun i => hi lt mid coord mn mx 0 i /\ lo lt mid coord mn mx 1 i) d).
Proof.
  intros P. destruct (hilbert_ok lt mid coord part P three nelem mn mx) as (walk & o & E & Pw & Po & K & Es). exists walk, o. repeat (split; [assumption|]).
  intros -> N. exact (hilbert2_parts lt mid coord part P nelem mn mx walk N Es).
Qed.
Print Assumptions C50_hilbert.

(** a point whose global id is not among the new ones becomes point 0 *)
Theorem C50_reindex_refuted : exists old new conn conn', Forall (fun v => 0 <= v < zlen old) conn /\ reindex old new conn = Ok conn' /\ map (znth new) conn' <> map (znth old) conn.
Proof. exists [10; 20; 30], [20; 10], [0; 2; 1], [1; 0; 0]. split; [repeat (constructor; [vm_compute; split; congruence|]); constructor|]. split; [reflexivity|]. vm_compute. congruence. Qed.
Print Assumptions C50_reindex_refuted.
(** two polygons swapped: the offset of the second no longer fits the type of the offsets *)
Definition polygons : mesh (F := Z) :=
  {| m_conn := [0; 1; 2] ++ zseq 130; m_sizes := [3; 130]; m_offs := [0; 3]; m_coords := [zseq 130]; m_efields := []; m_vfields := [] |}.
Theorem C50_offsets_refuted : exists m', is_int INT8 = true /\ Forall (fun x => x <= int_max INT8) (m_offs polygons) /\
  reorder INT64 INT64 INT8 polygons [1; 0] 130 = Ok (m', zseq 130) /\ m_sizes m' = [130; 3] /\ m_offs m' = [0; -126].
Proof. eexists. split; [reflexivity|]. split; [repeat (constructor; [vm_compute; congruence|]); constructor|]. split; [vm_compute; reflexivity|]. split; reflexivity. Qed.
Print Assumptions C50_offsets_refuted.
(** the four cells of a square: the ordering returned, documented as the elements in sorted
    order, starts with two opposite cells; only the walk goes from neighbour to neighbour *)
Definition mid2 (a b : Z) : Z := (a + b) / 2.
Definition square (i : Z) (c : nat) : Z := if Nat.eqb c 0 then 2 * (i mod 2) else 2 * (i / 2).
Definition stable (f : Z -> bool) (l : list Z) : list Z * list Z := (filter f l, filter (fun i => negb (f i)) l).
Lemma filter_perm f (l : list Z) : Permutation l (filter f l ++ filter (fun i => negb (f i)) l).
Proof.
  induction l as [|x l IH]; [constructor|]. cbn [filter]. destruct (f x); cbn [negb app]; [constructor; exact IH|]. apply Permutation_cons_app. exact IH.
Qed.
Example C50_stable : partitions stable.
Proof.
  intros f l. cbn [stable fst snd]. split; [apply filter_perm|]. split; apply Forall_forall; intros x I; apply filter_In in I; destruct I as [_ I]; [exact I|]. destruct (f x); [discriminate|reflexivity].
Qed.
Definition neighbours (a b : Z) : Prop := Z.abs (square a 0 - square b 0) + Z.abs (square a 1 - square b 1) = 2.
Theorem C50_hilbert_order_refuted : exists a b c d walk, hilbert Z.ltb mid2 square stable false 4 (fun _ => 0) (fun _ => 2) = Ok [Some a; Some b; Some c; Some d] /\ ~ neighbours a b /\
  sort2 Z.ltb mid2 square stable 5 0 false false (zseq 4) 0 0 2 2 = Ok walk /\ walk = [0; 2; 3; 1] /\ neighbours 0 2 /\ neighbours 2 3 /\ neighbours 3 1.
Proof. exists 0, 3, 1, 2, [0; 2; 3; 1]. split; [reflexivity|]. split; [vm_compute; congruence|]. repeat split. Qed.
Print Assumptions C50_hilbert_order_refuted.
(** elements all in one quarter of a quarter are not sorted further: the two cells near the
    corner are not next to each other in the walk *)
Definition cluster (i : Z) (c : nat) : Z := nth (Z.to_nat i) (if Nat.eqb c 0 then [0; 3; 0; 16] else [0; 3; 1; 16]) 0.
Theorem C50_hilbert_cluster_refuted : exists walk, sort2 Z.ltb mid2 cluster stable 5 0 false false (zseq 4) 0 0 16 16 = Ok walk /\ walk = [0; 1; 2; 3] /\
  cluster 0 0 < 2 /\ cluster 0 1 < 2 /\ cluster 2 0 < 2 /\ cluster 2 1 < 2 /\ 2 <= cluster 1 0 /\ 2 <= cluster 1 1.
Proof. exists [0; 1; 2; 3]. repeat split; vm_compute; congruence. Qed.
Print Assumptions C50_hilbert_cluster_refuted.

(** the hypotheses are met *)
Definition some_quads : mesh (F := Z) :=
  {| m_conn := [0; 1; 4; 3; 1; 2; 5; 4; 7; 6; 3; 4]; m_sizes := [4; 4; 4]; m_offs := [0; 4; 8];
     m_coords := [[0; 1; 2; 0; 1; 2; 0; 1]; [0; 0; 0; 1; 1; 1; 2; 2]]; m_efields := [[100; 200; 300]]; m_vfields := [[10; 11; 12; 13; 14; 15; 16; 17]] |}.
Definition quads : list (list Z) := [[0; 1; 4; 3]; [1; 2; 5; 4]; [7; 6; 3; 4]].
Example C50_reorder_hyps : m_conn some_quads = concat quads /\ m_sizes some_quads = map zlen quads /\ m_offs some_quads = starts quads /\
  reorder INT32 INT32 INT32 some_quads [2; 0] 8 =
  Ok ({| m_conn := [0; 1; 2; 3; 4; 5; 3; 2]; m_sizes := [4; 4]; m_offs := [0; 4]; m_coords := [[1; 0; 0; 1; 0; 1]; [2; 2; 1; 1; 0; 0]];
         m_efields := [[300; 100]]; m_vfields := [[17; 16; 13; 14; 10; 11]] |}, [4; 5; -1; 2; 3; -1; 1; 0]).
Proof. repeat split; reflexivity. Qed.
Example C50_builder_run : exists b, b_run (m_coords some_quads) b_new [Add [0; 1; 4]; Execute (L "tri"); Add [7; 6; 3]; Add [3; 4; 7]] = Ok b /\
  since [] [Add [0; 1; 4]; Execute (L "tri"); Add [7; 6; 3]; Add [3; 4; 7]] = [[7; 6; 3]; [3; 4; 7]] /\ in_range (m_coords some_quads) (concat [[7; 6; 3]; [3; 4; 7]]) /\
  b_conn b = [0; 1; 2; 2; 3; 0].
Proof. eexists. split; [vm_compute; reflexivity|]. split; [reflexivity|]. split; [|reflexivity]. repeat (constructor; [repeat (constructor; [vm_compute; split; congruence|]); constructor|]). constructor. Qed.
Example C50_reindex_run : reindex [10; 20; 30] [30; 20; 10; 40] [0; 2; 1] = Ok [2; 0; 1].
Proof. reflexivity. Qed.
