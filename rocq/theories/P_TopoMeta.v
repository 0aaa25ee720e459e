(** C64: the points, lines and faces of a topology, and the maps between them and its elements. *)
From Coq Require Import ZArith Permutation Sorting.Sorted.
From Verif Require Import Base Node NodeFacts O2M MeshElem TopoMeta TopoMetaSpec TopoMetaFacts TopoMetaGen TopoMetaLines TopoMetaSolid TopoMetaHash.
Local Open Scope Z_scope.
Import ListNotations.

(** Every theorem is for every std::sort: any function that sorts by any strict weak order. *)

(** The faces of solids, the lines of triangles and quads: every one once, numbered by first
    mention, each element leads to its own and each of these to the elements it belongs to. *)
Theorem C64_parts : forall srt, sorts srt -> forall s els n,
  Forall (fun el => length el = corners s) els -> told_apart (concat (map (parts_of s) els)) ->
  exists ds up down rows back, generate srt (solid_name s) (concat els) [] None n (solid_dim s - 1) = Ok (mkG ds up down) /\
    numbered (concat (map (parts_of s) els)) ds (concat rows) /\ length rows = length els /\ Forall (fun r => length r = length (parts s)) rows /\
    holds up rows /\ holds down back /\ parents rows (Z.of_nat (length ds)) back.
Proof. exact generate_parts. Qed.
Print Assumptions C64_parts.
(** The lines of polygons of up to 32 points, with the offsets left out or those of polygons one
    after the other. *)
Theorem C64_polygon_lines : forall srt, sorts srt -> forall polys given n,
  Forall (fun p => (length p <= 32)%nat) polys -> polygons_given polys given -> told_apart (concat (map cycle polys)) ->
  exists ds up down rows back, generate srt (L "polygonal") (concat polys) (map zlen polys) given n 1 = Ok (mkG ds up down) /\
    numbered (concat (map cycle polys)) ds (concat rows) /\ Forall2 (fun p r => length p = length r) polys rows /\
    holds up rows /\ holds down back /\ parents rows (Z.of_nat (length ds)) back.
Proof. exact generate_polygon_lines. Qed.
Print Assumptions C64_polygon_lines.
(** Below 256 points the hash never takes one line for another: no hypothesis left. *)
Theorem C64_small_lines : forall srt, sorts srt -> forall s els n,
  solid_dim s = 2 -> Forall (fun el => length el = corners s) els -> Forall (Forall (fun x => 0 <= x < 256)) els ->
  exists ds up down rows back, generate srt (solid_name s) (concat els) [] None n 1 = Ok (mkG ds up down) /\
    numbered (concat (map (parts_of s) els)) ds (concat rows) /\ length rows = length els /\ Forall (fun r => length r = length (parts s)) rows /\
    holds up rows /\ holds down back /\ parents rows (Z.of_nat (length ds)) back.
Proof. exact generate_small_lines. Qed.
Print Assumptions C64_small_lines.
Theorem C64_small_polygons : forall srt, sorts srt -> forall polys given n,
  Forall (fun p => (length p <= 32)%nat) polys -> polygons_given polys given -> Forall (Forall (fun x => 0 <= x < 256)) polys ->
  exists ds up down rows back, generate srt (L "polygonal") (concat polys) (map zlen polys) given n 1 = Ok (mkG ds up down) /\
    numbered (concat (map cycle polys)) ds (concat rows) /\ Forall2 (fun p r => length p = length r) polys rows /\
    holds up rows /\ holds down back /\ parents rows (Z.of_nat (length ds)) back.
Proof. exact generate_small_polygons. Qed.
Print Assumptions C64_small_polygons.
(** The lines of solids: exactly the edges, each once, numbered by first mention as one goes
    round the faces; each element leads to its own edges, and they lead back. *)
Theorem C64_solid_lines : forall srt, sorts srt -> forall s els n, solid_hyp s els -> exists faces frefs ds refs up down rows back,
  generate srt (solid_name s) (concat els) [] None n 1 = Ok (mkG ds up down) /\
  numbered (concat (map (parts_of s) els)) faces frefs /\ numbered (concat (map cycle faces)) ds refs /\
  (forall d, In d ds -> In d (concat (map (edges_of s) els))) /\ (forall e, In e (concat (map (edges_of s) els)) -> exists d, In d ds /\ Permutation e d) /\
  Forall2 (fun el row => length row = edge_count s /\ (forall i, In i row -> exists e, In e (edges_of s el) /\ is_line ds e i) /\ (forall e, In e (edges_of s el) -> exists i, In i row /\ is_line ds e i)) els rows /\
  holds up rows /\ holds down back /\ parents rows (Z.of_nat (length ds)) back.
Proof. exact generate_solid_lines. Qed.
Print Assumptions C64_solid_lines.
(** The points: those of the coordinate set, each element leads to its own and they lead back. *)
Theorem C64_solid_points : forall srt, sorts srt -> forall s els n, solid_hyp s els -> 0 <= n -> Forall (Forall (fun x => 0 <= x < n)) els -> exists up down rows back,
  generate srt (solid_name s) (concat els) [] None n 0 = Ok (mkG (map (fun i => [i]) (zseq n)) up down) /\
  Forall2 (fun el row => Permutation row el) els rows /\ holds up rows /\ holds down back /\ parents rows n back.
Proof. exact generate_solid_points. Qed.
Print Assumptions C64_solid_points.
Theorem C64_flat_points : forall srt, sorts srt -> forall s els n, solid_dim s = 2 -> Forall (fun el => length el = corners s) els -> 0 <= n -> Forall (Forall (fun x => 0 <= x < n)) els -> exists up down back,
  generate srt (solid_name s) (concat els) [] None n 0 = Ok (mkG (map (fun i => [i]) (zseq n)) up down) /\ holds up els /\ holds down back /\ parents els n back.
Proof. exact generate_flat_points. Qed.
Print Assumptions C64_flat_points.
Theorem C64_line_points : forall srt, sorts srt -> forall els n, Forall (fun el => length el = 2%nat) els -> 0 <= n -> Forall (Forall (fun x => 0 <= x < n)) els -> exists up down back,
  generate srt (L "line") (concat els) [] None n 0 = Ok (mkG (map (fun i => [i]) (zseq n)) up down) /\ holds up els /\ holds down back /\ parents els n back.
Proof. exact generate_line_points. Qed.
Print Assumptions C64_line_points.
Theorem C64_polygon_points : forall srt, sorts srt -> forall polys given n,
  Forall (fun p => (length p <= 32)%nat) polys -> polygons_given polys given -> 0 <= n -> Forall (Forall (fun x => 0 <= x < n)) polys ->
  exists up down back, generate srt (L "polygonal") (concat polys) (map zlen polys) given n 0 = Ok (mkG (map (fun i => [i]) (zseq n)) up down) /\
    holds up polys /\ holds down back /\ parents polys n back.
Proof. exact generate_polygon_points. Qed.
Print Assumptions C64_polygon_points.

(** insertion sort is one such sort *)
Example a_sort : sorts isort.
Proof. exact isort_sorts. Qed.
(** two quads side by side *)
Example quads : generate isort (L "quad") [0; 1; 4; 3; 1; 2; 5; 4] [] None 6 1 =
  Ok (mkG [[0; 1]; [1; 4]; [4; 3]; [3; 0]; [1; 2]; [2; 5]; [5; 4]]
          (mkM [0; 1; 2; 3; 4; 5; 6; 1] [4; 4] [0; 4])
          (mkM [0; 0; 1; 0; 0; 1; 1; 1] [1; 2; 1; 1; 1; 1; 1] [0; 1; 3; 4; 5; 6; 7])).
Proof. vm_compute. reflexivity. Qed.
Definition two_tets : list (list Z) := [[0; 1; 2; 3]; [1; 2; 3; 4]].
Example tets : solid_hyp Tet two_tets.
Proof. apply solid_checked. vm_compute. reflexivity. Qed.
Example tet_lines : generate isort (L "tet") (concat two_tets) [] None 5 1 =
  Ok (mkG [[0; 2]; [2; 1]; [1; 0]; [1; 3]; [3; 0]; [3; 2]; [2; 4]; [4; 1]; [4; 3]]
          (mkM [0; 1; 2; 3; 4; 5; 3; 5; 1; 6; 7; 8] [6; 6] [0; 6])
          (mkM [0; 0; 1; 0; 0; 1; 0; 0; 1; 1; 1; 1] [1; 2; 1; 2; 1; 2; 1; 1; 1] [0; 1; 3; 4; 6; 7; 9; 10; 11])).
Proof. vm_compute. reflexivity. Qed.
Definition two_hexes : list (list Z) := [[0; 1; 4; 3; 6; 7; 10; 9]; [1; 2; 5; 4; 7; 8; 11; 10]].
Example hexes : solid_hyp Hex two_hexes.
Proof. apply solid_checked. vm_compute. reflexivity. Qed.
Example hex_counts : exists f l, generate isort (L "hex") (concat two_hexes) [] None 12 2 = Ok f /\ generate isort (L "hex") (concat two_hexes) [] None 12 1 = Ok l /\
  zlen (g_conn f) = 11 /\ zlen (g_conn l) = 20.
Proof. do 2 eexists. split; [|split; [|split]]; vm_compute; reflexivity. Qed.
Example polygon_mesh : polygons_given [[0; 1; 2; 3; 4]; [2; 1; 5]] (Some [0; 5]) /\ told_apart (concat (map cycle [[0; 1; 2; 3; 4]; [2; 1; 5]])).
Proof. split; [right; reflexivity|]. apply polys_small. repeat constructor; discriminate. Qed.

(** * Where it goes wrong *)
(** Two lines that the hash takes for one another: the line from 20872 to 597357 is not among
    the lines of the two triangles. *)
Theorem C64_collision_refuted : exists els e g, generate isort (L "tri") (concat els) [] None 597467 1 = Ok g /\
  Forall (fun el => length el = 3%nat /\ Forall (fun x => 0 <= x < 597467) el) els /\ In e (concat (map (parts_of Tri) els)) /\ forall d, In d (g_conn g) -> ~ Permutation e d.
Proof.
  exists [[0; 376530; 597466]; [1; 20872; 597357]], [20872; 597357].
  eexists. split; [vm_compute; reflexivity|]. split; [repeat constructor; discriminate|]. split; [cbn; tauto|].
  intros d I P. apply Permutation_length_2_inv in P. cbn in I. decompose [or] I; try contradiction; subst d; destruct P as [P|P]; discriminate P.
Qed.
Print Assumptions C64_collision_refuted.
(** Two wedges that share all four points of a side have no face in common: each cuts the side
    in two along the other diagonal. *)
Theorem C64_wedge_side_refuted : exists els g, generate isort (L "wedge") (concat els) [] None 8 2 = Ok g /\
  els = [[0; 1; 2; 3; 4; 5]; [3; 4; 7; 0; 1; 6]] /\ zlen (g_conn g) = 16 /\ Forall (fun n => n = 1) (m_sizes (g_d2s g)).
Proof. eexists. eexists. split; [|split; [reflexivity|]]. { vm_compute. reflexivity. } split; [reflexivity|]. repeat constructor. Qed.
Print Assumptions C64_wedge_side_refuted.
(** A polygon with more than 32 points writes past the end of a buffer on the stack. *)
Theorem C64_big_polygon_refuted : exists poly, NoDup poly /\ length poly = 33%nat /\ generate isort (L "polygonal") poly [zlen poly] None 33 1 = UB.
Proof.
  exists (zseq 33). split; [|split; vm_compute; reflexivity]. repeat (constructor; [cbn; intuition discriminate|]). constructor.
Qed.
Print Assumptions C64_big_polygon_refuted.
(** Hexes whose shared faces go round the same points in different orders: an edge is looked up
    that is not there. *)
Theorem C64_twisted_refuted : exists els, Forall (fun el => length el = 8%nat /\ NoDup el) els /\ told_apart (concat (map (parts_of Hex) els)) /\
  generate isort (L "hex") (concat els) [] None 16 1 = UB.
Proof.
  exists [[0; 1; 2; 3; 4; 5; 6; 7]; [10; 11; 12; 13; 4; 9; 6; 8]; [4; 6; 5; 7; 8; 9; 14; 15]].
  split; [repeat (constructor; [split; [reflexivity|]; repeat (constructor; [cbn; intuition discriminate|]); constructor|]); constructor|].
  split; [apply apart_told; vm_compute; reflexivity|vm_compute; reflexivity].
Qed.
Print Assumptions C64_twisted_refuted.
(** Polygons whose offsets leave a gap in the connectivity: read or written out of bounds. *)
Theorem C64_gap_refuted : exists conn sizes offs, length sizes = length offs /\ omapM (fun so => slice conn (snd so) (fst so)) (combine sizes offs) = Ok [[0; 1; 2]; [2; 1; 3]] /\
  generate isort (L "polygonal") conn sizes (Some offs) 4 1 = UB.
Proof. exists [0; 1; 2; 0; 2; 1; 3], [3; 3], [0; 4]. split; [reflexivity|]. split; vm_compute; reflexivity. Qed.
Print Assumptions C64_gap_refuted.
(** Polygons stored in another order than that of their offsets: a point leads to the wrong
    element.  Point 0 is a point of polygon 1 only, the map says of polygon 0. *)
Theorem C64_reordered_refuted : exists conn sizes offs g, omapM (fun so => slice conn (snd so) (fst so)) (combine sizes offs) = Ok [[1; 3; 5]; [0; 1; 2; 4]] /\
  generate isort (L "polygonal") conn sizes (Some offs) 6 0 = Ok g /\ slice (m_values (g_d2s g)) 0 (hd 0 (m_sizes (g_d2s g))) = Ok [0].
Proof. exists [0; 1; 2; 4; 1; 3; 5], [3; 4], [4; 0]. eexists. split; [|split]; vm_compute; reflexivity. Qed.
Print Assumptions C64_reordered_refuted.
(** A degenerate element is listed twice among the elements of a point. *)
Theorem C64_twice_refuted : exists g, generate isort (L "tri") [0; 0; 1] [] None 2 0 = Ok g /\ slice (m_values (g_d2s g)) 0 (hd 0 (m_sizes (g_d2s g))) = Ok [0; 0].
Proof. eexists. split; vm_compute; reflexivity. Qed.
Print Assumptions C64_twice_refuted.
(** The points of a topology of two points: all five of its coordinate set. *)
Theorem C64_points_refuted : exists conn g, conn = [3; 1] /\ generate isort (L "point") conn [] None 5 0 = Ok g /\ g_conn g = [[0]; [1]; [2]; [3]; [4]].
Proof. eexists. eexists. split; [reflexivity|]. split; [vm_compute; reflexivity|reflexivity]. Qed.
Print Assumptions C64_points_refuted.
