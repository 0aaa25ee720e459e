(** Elements of unstructured topologies: their shapes, offsets, points and centroids.
    src/libs/blueprint/conduit_blueprint_mesh_utils.hpp 93-167 (shape tables),
    conduit_blueprint_mesh_utils.cpp 133-243 (ShapeType), 2341-2568 (generate_offsets),
    2571-2664 (points) and conduit_blueprint_mesh.cpp 1314-1600 (unique_mask,
    unstructured_centroid, unstructured_centroid_polyhedral), 1614-1830
    (calculate_unstructured_centroids).

    Arrays are read through accessors that convert to index_t, which is unbounded here;
    reading out of range is UB.  Coordinates have an arbitrary type F with float64 addition,
    multiplication and 1. / n as parameters. *)
From Verif Require Import Base DType SpecTree Mem Node Number ArrayOps O2M Silo MeshConv.
Local Open Scope Z_scope.
Import ListNotations.

(** ---- shapes ---- *)
(** TOPO_SHAPES, TOPO_SHAPE_DIMS, TOPO_SHAPE_INDEX_COUNTS, TOPO_SHAPE_EMBED_TYPES,
    TOPO_SHAPE_EMBED_COUNTS, mesh_utils.hpp 93-124; mixed is index 10 *)
Record shape := { s_dim : Z; s_indices : Z; s_embed : Z; s_count : Z }.
Definition shape_names : list str := [L "point"; L "line"; L "tri"; L "quad"; L "tet"; L "hex"; L "wedge"; L "pyramid"; L "polygonal"; L "polyhedral"; L "mixed"].
Definition shape_table : list shape :=
  [ {| s_dim := 0; s_indices := 1; s_embed := -1; s_count := 0 |};
    {| s_dim := 1; s_indices := 2; s_embed := 0; s_count := 2 |};
    {| s_dim := 2; s_indices := 3; s_embed := 1; s_count := 3 |};
    {| s_dim := 2; s_indices := 4; s_embed := 1; s_count := 4 |};
    {| s_dim := 3; s_indices := 4; s_embed := 2; s_count := 4 |};
    {| s_dim := 3; s_indices := 8; s_embed := 3; s_count := 6 |};
    {| s_dim := 3; s_indices := 6; s_embed := 2; s_count := 8 |};
    {| s_dim := 3; s_indices := 5; s_embed := 2; s_count := 6 |};
    {| s_dim := 2; s_indices := -1; s_embed := 1; s_count := -1 |};
    {| s_dim := 3; s_indices := -1; s_embed := 8; s_count := -1 |};
    {| s_dim := -1; s_indices := -1; s_embed := -1; s_count := -1 |} ].
(** TOPO_*_EMBEDDING, hpp 131-151, flattened; TOPO_SHAPE_EMBEDDINGS, hpp 161-166, has ten
    entries, the last two null *)
Definition embeddings : list (option (list Z)) :=
  [ Some [0]; Some [0; 1]; Some [0; 1; 1; 2; 2; 0]; Some [0; 1; 1; 2; 2; 3; 3; 0];
    Some [0; 2; 1; 0; 1; 3; 0; 3; 2; 1; 2; 3];
    Some [0; 3; 2; 1; 0; 1; 5; 4; 1; 2; 6; 5; 2; 3; 7; 6; 3; 0; 4; 7; 4; 5; 6; 7];
    Some [0; 1; 2; 0; 1; 3; 1; 3; 4; 1; 2; 4; 2; 4; 5; 2; 0; 5; 0; 5; 3; 3; 4; 5];
    Some [0; 1; 2; 3; 2; 0; 0; 1; 4; 1; 2; 4; 2; 3; 4; 3; 0; 4]; None; None ].
(** TOPO_WEDGE_FACES, TOPO_PYRAMID_FACES, hpp 156-159 *)
Definition wedge_faces : list (list Z) := [[3; 0; 2; 1; -1]; [4; 0; 1; 4; 3]; [4; 1; 2; 5; 4]; [4; 2; 0; 3; 5]; [3; 3; 4; 5; -1]].
Definition pyramid_faces : list (list Z) := [[4; 0; 3; 2; 1]; [3; 0; 1; 4; -1]; [3; 1; 2; 4; -1]; [3; 2; 3; 4; -1]; [3; 3; 0; 4; -1]].
(** ShapeType::init, mesh_utils.cpp 133-180: the id (-1: unknown), the entry of the tables
    and the embedding; for mixed the vector of embeddings is read past its end *)
Fixpoint name_index (n : str) (l : list str) (i : nat) : option nat :=
  match l with [] => None | x :: r => if str_eqb n x then Some i else name_index n r (S i) end.
Definition shape_of (n : str) : outcome (option (nat * shape * option (list Z))) :=
  match name_index n shape_names 0 with
  | None => Ok None
  | Some i => do s <- deref (nth_error shape_table i);
              do e <- deref (nth_error embeddings i); Ok (Some (i, s, e))
  end.
(** is_polygonal, is_polyhedral, 190-203 *)
Definition is_polygonal (s : shape) (e : option (list Z)) : bool := match e with None => s_dim s =? 2 | Some _ => false end.
Definition is_polyhedral (s : shape) (e : option (list Z)) : bool := match e with None => s_dim s =? 3 | Some _ => false end.
(** num_faces, get_face, 213-243 *)
Definition num_faces (i : nat) (s : shape) : Z := if (i =? 6)%nat || (i =? 7)%nat then 5 else s_count s.
Definition get_face (i : nat) (s : shape) (e : option (list Z)) (face : nat) : outcome (list Z) :=
  if (i =? 6)%nat then do f <- deref (nth_error wedge_faces face); Ok (firstn (Z.to_nat (hd 0 f)) (tl f))
  else if (i =? 7)%nat then do f <- deref (nth_error pyramid_faces face); Ok (firstn (Z.to_nat (hd 0 f)) (tl f))
  else do t <- (if s_embed s <? 0 then UB else deref (nth_error shape_table (Z.to_nat (s_embed s))));
       match e with
       | None => UB
       | Some l => let n := Z.to_nat (s_indices t) in
                   if (length l <? face * n + n)%nat then UB else Ok (firstn n (skipn (face * n) l))
       end.

(** ---- offsets ---- *)
(** the children of elements and subelements; an empty offsets child counts as none *)
Record topo := { t_shape : str; t_conn : list Z; t_sizes : list Z; t_offs : option (list Z);
                 t_sub_conn : list Z; t_sub_sizes : list Z; t_sub_offs : option (list Z); t_leaves : list tid }.
(** s = 0; for each size: push s, s += size (mesh_utils.cpp 2515-2526, 2536-2562) *)
Fixpoint running (s : Z) (l : list Z) : list Z := match l with [] => [] | x :: r => s :: running (s + x) r end.
(** generate_offsets(topo, dest, subdest), 2350-2568, without stream topologies: offsets
    of elements and of subelements; [de] and [ds] are what the destinations hold, left there
    when a polyhedral topology has one of the offsets but not the other.  Shapes without a
    number of points are not modelled (UB). *)
Definition gen_offsets (de ds : list Z) (t : topo) : outcome (list Z * list Z) :=
  let it := find_widest int_defaults (t_leaves t) in
  do sh <- shape_of (t_shape t);
  match sh with
  | None => UB
  | Some (_, s, e) =>
      if is_polyhedral s e then
        match t_offs t, t_sub_offs t with
        | Some o, Some so => Ok (o, so)
        | Some _, None => Ok (de, running 0 (t_sub_sizes t))
        | None, Some _ => Ok (running 0 (t_sizes t), ds)
        | None, None => Ok (running 0 (t_sizes t), running 0 (t_sub_sizes t))
        end
      else
        match t_offs t with
        | Some o => Ok (o, ds)
        | None =>
            if is_polygonal s e then Ok (map (conv it) (running 0 (t_sizes t)), [])
            else if s_indices s <=? 0 then UB
            else Ok (map (fun k => conv it (k * s_indices s)) (zseq (Z.quot (zlen (t_conn t)) (s_indices s))), [])
        end
  end.
(** into new nodes, as calculate_unstructured_centroids does; and generate_offsets_inline,
    2308-2336, into the topology itself *)
Definition offsets_new (t : topo) : outcome (list Z * list Z) := gen_offsets [] [] t.
Definition or_empty (o : option (list Z)) : list Z := match o with Some l => l | None => [] end.
Definition offsets_inline (t : topo) : outcome (list Z * list Z) := gen_offsets (or_empty (t_offs t)) (or_empty (t_sub_offs t)) t.
(** the stream branch, 2410-2489.  Points per stream id: the last type with that id counts;
    an id without type has 0 points (std::map operator[]).  element_counts and stream_ids
    are of the widest type, by which they are read. *)
Definition stream_points (types : list (Z * str)) (sid : Z) : Z :=
  fold_left (fun n kv => if fst kv =? sid then match name_index (snd kv) shape_names 0 with
      Some i => match nth_error shape_table i with Some s => s_count s | None => n end | None => n end else n) types 0.
(** with element_counts, 2439-2460 *)
Fixpoint stream_by_counts (types : list (Z * str)) (offset : Z) (ids_counts : list (Z * Z)) : list Z :=
  match ids_counts with
  | [] => []
  | (sid, ec) :: r => let n := stream_points types sid in
      map (fun k => offset + k * n) (zseq ec) ++ stream_by_counts types (offset + Z.max 0 ec * n) r
  end.
(** with element_index/offsets, 2461-2489: every stream id starts at the first offset, and
    all but the last end at their own *)
Fixpoint while_offsets (fuel : nat) (offset next npts : Z) : outcome (list Z) :=
  match fuel with
  | O => Fuel
  | S f => if offset <? next then do l <- while_offsets f (offset + npts) next npts; Ok (offset :: l) else Ok []
  end.
Definition stream_by_offsets (fuel : nat) (types : list (Z * str)) (ids offs : list Z) (stream_len : Z) : outcome (list Z) :=
  do ls <- omapM (fun j => do sid <- at_ ids j; do o <- at_ offs j; do start <- at_ offs 0;
                           let next := if j =? zlen ids - 1 then stream_len else o in
                           while_offsets fuel start next (stream_points types sid)) (zseq (zlen ids));
  Ok (concat ls).

(** ---- points of an element ---- *)
(** for(i < n) push array[from + i] *)
Definition slice (l : list Z) (from n : Z) : outcome (list Z) := omapM (fun i => at_ l (from + i)) (zseq n).
(** std::set<index_t>::insert, in ascending order *)
Fixpoint sins (x : Z) (l : list Z) : list Z :=
  match l with
  | [] => [x]
  | y :: r => if x <? y then x :: l else if x =? y then l else y :: sins x r
  end.
Definition to_set (l : list Z) : list Z := fold_left (fun s x => sins x s) l [].
(** the relation in elements or subelements, as O2MIterator reads it *)
Definition rel_of (conn sizes offs : list Z) : o2m :=
  {| o_sizes := Some sizes; o_indices := None; o_offsets := Some offs; o_data := [(L "connectivity", conn)] |}.
(** iter.to(i, ONE); iter.to_front(MANY); while(has_next(MANY)) { next(MANY); vals[index(DATA)] } *)
Definition group_values (fuel : nat) (conn sizes offs : list Z) (i : Z) : outcome (list Z) :=
  let r := rel_of conn sizes offs in
  do s <- to_ r it_begin i ONE;
  do (ps, _) <- many_loop fuel r (to_front s MANY);
  omapM (at_ conn) ps.
(** points(n, ei, unique), 2571-2664 *)
Definition points (fuel : nat) (t : topo) (ei : Z) (unique : bool) : outcome (list Z) :=
  do sh <- shape_of (t_shape t);
  do (eo, so) <- offsets_inline t;
  match sh with
  | None => UB
  | Some (_, s, e) =>
      if is_polyhedral s e then
        do faces <- group_values fuel (t_conn t) (t_sizes t) eo ei;
        do pts <- omapM (group_values fuel (t_sub_conn t) (t_sub_sizes t) so) (to_set faces);
        Ok (to_set (concat pts))
      else
        do eoff <- at_ eo ei;
        do npts <- (if is_polygonal s e then at_ (t_sizes t) ei else Ok (s_indices s));
        do ps <- slice (t_conn t) eoff npts;
        Ok (if unique then to_set ps else ps)
  end.

(** ---- unique_mask, mesh.cpp 1314-1470 ---- *)
Definition ncaseslut : list nat := [0; 0; 1; 3; 6; 10; 15; 21; 28]%nat.
Definition lut_offsets : list nat := [0; 0; 0; 1; 4; 10; 20; 35; 56]%nat.
Definition leftlut : list nat :=
  [0;
   0;0; 1;
   0;0;0; 1;1; 2;
   0;0;0;0; 1;1;1; 2;2; 3;
   0;0;0;0;0; 1;1;1;1; 2;2;2; 3;3; 4;
   0;0;0;0;0;0; 1;1;1;1;1; 2;2;2;2; 3;3;3; 4;4; 5;
   0;0;0;0;0;0;0; 1;1;1;1;1;1; 2;2;2;2;2; 3;3;3;3; 4;4;4; 5;5; 6]%nat.
Definition rightlut : list nat :=
  [1;
   1;2; 2;
   1;2;3; 2;3; 3;
   1;2;3;4; 2;3;4; 3;4; 4;
   1;2;3;4;5; 2;3;4;5; 3;4;5; 4;5; 5;
   1;2;3;4;5;6; 2;3;4;5;6; 3;4;5;6; 4;5;6; 5;6; 6;
   1;2;3;4;5;6;7; 2;3;4;5;6;7; 3;4;5;6;7; 4;5;6;7; 5;6;7; 6;7; 7]%nat.
(** the pairs compared: from the tables for n <= 8, else by the two loops, in which col
    runs up to n *)
Definition mask_pairs (n : nat) : list (nat * nat) :=
  if (n <=? 8)%nat then
    let o := nth n lut_offsets 0%nat in let c := nth n ncaseslut 0%nat in
    combine (firstn c (skipn o leftlut)) (firstn c (skipn o rightlut))
  else flat_map (fun row => map (pair row) (seq (S row) (n - row))) (seq 0 n).
(** if(values[l] == values[r]) { mask[r]--; needmask = true; } *)
Definition mask_step (values : list Z) (lr : nat * nat) (st : list Z * bool) : outcome (list Z * bool) :=
  do a <- deref (nth_error values (fst lr));
  do b <- deref (nth_error values (snd lr));
  if a =? b then do m <- deref (nth_error (fst st) (snd lr)); Ok (set_nth (fst st) (snd lr) (m - 1), true)
  else Ok st.
Definition unique_mask (values : list Z) : outcome (list Z * bool) :=
  for_ (mask_pairs (length values)) (mask_step values) (repeat 1 (length values), false).

(** ---- centroids ---- *)
Section Centroid.
Context {F : Type}.
Variables (fadd fmul : F -> F -> F) (f0 : F) (finv : nat -> F).
(** centroid[ai] += coords[ai][id] for the ids, then *= 1. / n *)
Definition axis_mean (coords : list F) (ids : list Z) : outcome F :=
  do xs <- omapM (fun id => deref (znth coords id)) ids;
  Ok (fmul (fold_left fadd xs f0) (finv (length ids))).
(** unstructured_centroid, mesh.cpp 1476-1548, one element: the ids used, then the mean on
    each axis *)
Definition used_ids (eids : list Z) : outcome (list Z) :=
  do (mask, need) <- unique_mask eids;
  Ok (if need then map fst (filter (fun im => negb (snd im =? 0)) (combine eids mask)) else eids).
Definition centroid (coords : list (list F)) (conn : list Z) (eoffset npts : Z) : outcome (list F) :=
  if npts <=? 0 then UB else
  do eids <- slice conn eoffset npts;
  do ids <- used_ids eids;
  omapM (fun c => axis_mean c ids) coords.
(** unstructured_centroid_polyhedral, 1553-1600, one element *)
Definition push_new (ids : list Z) (id : Z) : list Z := if existsb (Z.eqb id) ids then ids else ids ++ [id].
Definition face_ids (t : topo) (so : list Z) (foffset : Z) (ids : list Z) : outcome (list Z) :=
  do f <- at_ (t_conn t) foffset;
  do o <- at_ so f;
  do n <- at_ (t_sub_sizes t) f;
  do ps <- slice (t_sub_conn t) o n; Ok (fold_left push_new ps ids).
Definition centroid_poly (coords : list (list F)) (t : topo) (eo so : list Z) (ei : Z) : outcome (list F) :=
  do eoffset <- at_ eo ei;
  do nf <- at_ (t_sizes t) ei;
  do ids <- for_ (zseq nf) (fun fi ids => face_ids t so (eoffset + fi) ids) [];
  omapM (fun c => axis_mean c ids) coords.
(** calculate_unstructured_centroids, 1614-1830, as far as the values go: before they are
    converted to the float type of the result *)
Definition centroids (coords : list (list F)) (t : topo) : outcome (list (list F)) :=
  do sh <- shape_of (t_shape t);
  do (eo, so) <- offsets_new t;
  match sh with
  | None => UB
  | Some (_, s, e) =>
      if is_polyhedral s e then omapM (centroid_poly coords t eo so) (zseq (zlen eo))
      else omapM (fun ei => do o <- at_ eo ei;
                            do n <- (if is_polygonal s e then at_ (t_sizes t) ei else Ok (s_indices s));
                            centroid coords (t_conn t) o n) (zseq (zlen eo))
  end.
End Centroid.
