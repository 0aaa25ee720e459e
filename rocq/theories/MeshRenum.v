(** Renumbering of points and reordering of elements:
    src/libs/blueprint/conduit_blueprint_mesh_utils.cpp 1735-1778 (reindex_coords),
    1860-2064 (Hilbert ordering), 2068-2174 (TopologyBuilder), 425-650 (slicing) and
    2753-2862 (unstructured::reorder).
    Accessors convert to index_t, unbounded here; reading or writing out of range is UB.
    Values of coordinates and fields have an arbitrary type. *)
From Verif Require Import Base DType SpecTree Mem Node Number ArrayOps O2M Silo MeshConv MeshElem.
Local Open Scope Z_scope.
Import ListNotations.

(** ---- TopologyBuilder ---- *)
(** old_to_new (a std::map, here in order of insertion: execute's writes below go to
    different places, so the order of iteration does not matter), topo_conn, topo_sizes *)
Record builder := { b_map : list (Z * Z); b_conn : list Z; b_sizes : list Z }.
Definition b_new : builder := {| b_map := []; b_conn := []; b_sizes := [] |}.
(** newPointId, 2083-2097 *)
Definition new_point (m : list (Z * Z)) (o : Z) : list (Z * Z) * Z :=
  match find (fun kv => fst kv =? o) m with
  | Some kv => (m, snd kv)
  | None => (m ++ [(o, zlen m)], zlen m)
  end.
(** the loop of add, 2106-2110 *)
Fixpoint add_ids (m : list (Z * Z)) (conn ids : list Z) : list (Z * Z) * list Z :=
  match ids with
  | [] => (m, conn)
  | i :: r => let (m', p) := new_point m i in add_ids m' (conn ++ [p]) r
  end.
(** add, 2101-2120: the new state and the number of the element *)
Definition b_add (b : builder) (ids : list Z) : builder * Z :=
  let (m, c) := add_ids (b_map b) (b_conn b) ids in
  ({| b_map := m; b_conn := c; b_sizes := b_sizes b ++ [zlen ids] |}, zlen (b_sizes b)).

Section Values.
Context {F : Type}.
(** coords_ptr[it->second] = acc[it->first] for all of old_to_new, 2144-2150; cells not
    written are None *)
Definition exec_axis (m : list (Z * Z)) (c : list F) : outcome (list (option F)) :=
  for_ m (fun kv cells => do x <- deref (znth c (fst kv)); put (snd kv) x cells) (repeat None (length m)).
(** execute, 2124-2165: coordinates per axis, the new topology and its offsets; the builder
    is cleared *)
Definition b_topo (b : builder) (shape : str) : topo :=
  {| t_shape := shape; t_conn := b_conn b; t_sizes := b_sizes b; t_offs := None;
     t_sub_conn := []; t_sub_sizes := []; t_sub_offs := None; t_leaves := [INT64; INT64] |}.
Definition b_execute (b : builder) (shape : str) (coords : list (list F)) : outcome (list (list (option F)) * topo * list Z * builder) :=
  do cs <- omapM (exec_axis (b_map b)) coords;
  do (o, _) <- offsets_inline (b_topo b shape);
  Ok (cs, b_topo b shape, o, b_new).
(** calls in a row; the coordinates are those of the topology the builder was made for *)
Inductive b_op := Add (ids : list Z) | Execute (shape : str).
Fixpoint b_run (coords : list (list F)) (b : builder) (ops : list b_op) : outcome builder :=
  match ops with
  | [] => Ok b
  | Add ids :: r => b_run coords (fst (b_add b ids)) r
  | Execute s :: r => do (_, b') <- b_execute b s coords; b_run coords b' r
  end.

(** ---- slicing, 425-560 ---- *)
(** dest[i] = src[ids[i]] *)
Definition slice_values (src : list F) (ids : list Z) : outcome (list F) := omapM (fun i => deref (znth src i)) ids.

(** ---- unstructured::reorder, 2753-2862 ---- *)
(** state of the loops: old2NewPoints, ptReorder, newPointIndex, newconn *)
Record rstate := { r_map : list Z; r_pts : list Z; r_next : Z; r_conn : list Z }.
Definition visit (id : Z) (s : rstate) : outcome rstate :=
  do o <- deref (znth (r_map s) id);
  do s' <- (if o =? -1 then Ok {| r_map := set_nth (r_map s) (Z.to_nat id) (r_next s); r_pts := r_pts s ++ [id]; r_next := r_next s + 1; r_conn := r_conn s |} else Ok s);
  do n <- deref (znth (r_map s') id);
  Ok {| r_map := r_map s'; r_pts := r_pts s'; r_next := r_next s'; r_conn := r_conn s' ++ [n] |}.
Definition cell (conn sizes offs : list Z) (c : Z) (s : rstate) : outcome rstate :=
  do n <- at_ sizes c;
  for_ (zseq n) (fun i s => do o <- at_ offs c; do id <- at_ conn (o + i); visit id s) s.
(** a mesh: connectivity, sizes, offsets with their types; coordinates per axis, fields on
    elements and on points, each a list of components *)
Record mesh := { m_conn : list Z; m_sizes : list Z; m_offs : list Z; m_coords : list (list F); m_efields : list (list F); m_vfields : list (list F) }.
Definition reorder (ct st ot : tid) (m : mesh) (order : list Z) (npts : nat) : outcome (mesh * list Z) :=
  do s <- for_ order (cell (m_conn m) (m_sizes m) (m_offs m)) {| r_map := repeat (-1) npts; r_pts := []; r_next := 0; r_conn := [] |};
  do ns <- omapM (at_ (m_sizes m)) order;
  do cs <- omapM (fun c => slice_values c (r_pts s)) (m_coords m);
  do es <- omapM (fun c => slice_values c order) (m_efields m);
  do vs <- omapM (fun c => slice_values c (r_pts s)) (m_vfields m);
  Ok ({| m_conn := map (conv ct) (r_conn s); m_sizes := map (conv st) ns; m_offs := map (conv ot) (running 0 ns);
         m_coords := cs; m_efields := es; m_vfields := vs |}, r_map s).
End Values.

(** ---- reindex_coords, 1735-1778 ---- *)
(** remap_vids after the loop: the last place of the id, or (operator[]) 0 *)
Fixpoint last_place (g : Z) (l : list Z) (i : Z) : option Z :=
  match l with
  | [] => None
  | x :: r => match last_place g r (i + 1) with Some p => Some p | None => if x =? g then Some i else None end
  end.
Definition reindex (old_gvids new_gvids conn : list Z) : outcome (list Z) :=
  omapM (fun v => do g <- at_ old_gvids v; Ok (match last_place g new_gvids 0 with Some p => p | None => 0 end)) conn.

(** ---- Hilbert ordering ---- *)
Section Hilbert.
Context {F : Type}.
(** a < b, (a + b) * 0.5, coordinate [c] of point [i], and std::partition, whose result
    order is unspecified *)
Variables (lt : F -> F -> bool) (mid : F -> F -> F) (coord : Z -> nat -> F) (part : (Z -> bool) -> list Z -> list Z * list Z).
(** HilbertCmp, 1867-1881 *)
Definition cmp (c : nat) (dir : bool) (m : F) (i : Z) : bool := xorb (lt (coord i c) m) dir.
Definition same {A} (l m : list A) : bool := (length l =? length m)%nat.
(** HilbertSort2D, 1885-1927; a range [p, q) is the list of its indices, p != q compares
    numbers of points; the four ranges in a row are the result *)
Fixpoint sort2 (fuel : nat) (c1 : nat) (d1 d2 : bool) (l : list Z) (xmin ymin xmax ymax : F) : outcome (list Z) :=
  match fuel with
  | O => Fuel
  | S f =>
      if (length l <=? 1)%nat then Ok l else
      let xmid := mid xmin xmax in let ymid := mid ymin ymax in
      let c2 := ((c1 + 1) mod 2)%nat in
      let (q12, q34) := part (cmp c1 d1 xmid) l in
      let (q1, q2) := part (cmp c2 d2 ymid) q12 in
      let (q3, q4) := part (cmp c2 (negb d2) ymid) q34 in
      do r1 <- (if same q1 l then Ok q1 else sort2 f c2 d2 d1 q1 ymin xmin ymid xmid);
      do r2 <- (if same q2 l then Ok q2 else sort2 f c1 d1 d2 q2 xmin ymid xmid ymax);
      do r3 <- (if same q3 l then Ok q3 else sort2 f c1 d1 d2 q3 xmid ymid xmax ymax);
      do r4 <- (if same q4 l then Ok q4 else sort2 f c2 (negb d2) (negb d1) q4 ymid xmax ymin xmid);
      Ok (r1 ++ r2 ++ r3 ++ r4)
  end.
(** HilbertSort3D, 1931-1995 *)
Fixpoint sort3 (fuel : nat) (c1 : nat) (d1 d2 d3 : bool) (l : list Z) (xmin ymin zmin xmax ymax zmax : F) : outcome (list Z) :=
  match fuel with
  | O => Fuel
  | S f =>
      if (length l <=? 1)%nat then Ok l else
      let xmid := mid xmin xmax in let ymid := mid ymin ymax in let zmid := mid zmin zmax in
      let c2 := ((c1 + 1) mod 3)%nat in let c3 := ((c1 + 2) mod 3)%nat in
      let (h1, h2) := part (cmp c1 d1 xmid) l in
      let (q1, q2) := part (cmp c2 d2 ymid) h1 in
      let (q3, q4) := part (cmp c2 (negb d2) ymid) h2 in
      let (o1, o2) := part (cmp c3 d3 zmid) q1 in
      let (o3, o4) := part (cmp c3 (negb d3) zmid) q2 in
      let (o5, o6) := part (cmp c3 d3 zmid) q3 in
      let (o7, o8) := part (cmp c3 (negb d3) zmid) q4 in
      do r1 <- (if same o1 l then Ok o1 else sort3 f c3 d3 d1 d2 o1 zmin xmin ymin zmid xmid ymid);
      do r2 <- (if same o2 l then Ok o2 else sort3 f c2 d2 d3 d1 o2 ymin zmid xmin ymid zmax xmid);
      do r3 <- (if same o3 l then Ok o3 else sort3 f c2 d2 d3 d1 o3 ymid zmid xmin ymax zmax xmid);
      do r4 <- (if same o4 l then Ok o4 else sort3 f c1 d1 (negb d2) (negb d3) o4 xmin ymax zmid xmid ymid zmin);
      do r5 <- (if same o5 l then Ok o5 else sort3 f c1 d1 (negb d2) (negb d3) o5 xmid ymax zmid xmax ymid zmin);
      do r6 <- (if same o6 l then Ok o6 else sort3 f c2 (negb d2) d3 (negb d1) o6 ymax zmid xmax ymid zmax xmid);
      do r7 <- (if same o7 l then Ok o7 else sort3 f c2 (negb d2) d3 (negb d1) o7 ymid zmid xmax ymin zmax xmid);
      do r8 <- (if same o8 l then Ok o8 else sort3 f c3 (negb d3) (negb d1) d2 o8 zmid xmax ymin zmin xmid ymid);
      Ok (r1 ++ r2 ++ r3 ++ r4 ++ r5 ++ r6 ++ r7 ++ r8)
  end.
(** hilbert_ordering, 2010-2064, for two (three = false) and three axes, [sorted] in the
    order found: ordering[indices[i]] = i *)
Definition ordering (indices : list Z) : outcome (list (option Z)) :=
  for_ (combine indices (zseq (zlen indices))) (fun ki o => put (fst ki) (snd ki) o) (repeat None (length indices)).
Definition hilbert (three : bool) (nelem : nat) (mn mx : nat -> F) : outcome (list (option Z)) :=
  do idx <- (if three then sort3 (S nelem) 0 false false false (zseq (Z.of_nat nelem)) (mn 0%nat) (mn 1%nat) (mn 2%nat) (mx 0%nat) (mx 1%nat) (mx 2%nat)
             else sort2 (S nelem) 0 false false (zseq (Z.of_nat nelem)) (mn 0%nat) (mn 1%nat) (mx 0%nat) (mx 1%nat));
  ordering idx.
End Hilbert.
