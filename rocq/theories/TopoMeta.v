(** Points, lines and faces of unstructured topologies, with the maps between them.
    src/libs/blueprint/conduit_blueprint_mesh_topology_metadata.cpp (TopologyMetadata),
    conduit_blueprint_mesh.cpp 4645-4735 (generate_points, generate_lines, generate_faces)
    and src/libs/conduit/conduit_utils.cpp 1928-1990 (the hash).

    Left out: polyhedral topologies, the local maps, the conversion of the results to the
    widest integer type of the topology.  Reading or writing out of range is UB.  index_t
    is unbounded except in the hash, which sees its eight bytes on a little endian machine.
    The sorts of the standard library are a parameter: any function that sorts. *)
From Verif Require Import Base DType SpecTree Mem Node Number ArrayOps O2M MeshElem.
Local Open Scope Z_scope.
Import ListNotations.

(** ---- the hash, conduit_utils.cpp 1928-1966 ---- *)
(** h += byte; h += h << 10; h ^= h >> 6, in uint32 *)
Definition mix (h b : Z) : Z := let h := ((h + b) * 1025) mod 2 ^ 32 in Z.lxor h (Z.shiftr h 6).
Definition finish (h : Z) : Z :=
  let h := (h * 9) mod 2 ^ 32 in let h := Z.lxor h (Z.shiftr h 11) in (h * 32769) mod 2 ^ 32.
(** the bytes of an index_t *)
Fixpoint le_bytes (n : nat) (z : Z) : list Z := match n with O => [] | S k => z mod 256 :: le_bytes k (z / 256) end.
Definition hash_bytes (l : list Z) : Z :=
  let h := fold_left mix (le_bytes 8 (Z.of_nat (length l))) 0 in
  finish (fold_left mix l h) * 2 ^ 32 + finish (fold_left mix (rev l) h).
(** hash(const index_t * k, length), 1984-1989 *)
Definition hash (ids : list Z) : Z := hash_bytes (flat_map (le_bytes 8) ids).

(** what get_global_dim_map copies out: an association as values, sizes and offsets, 2964-3031 *)
Record omap := mkM { m_values : list Z; m_sizes : list Z; m_offsets : list Z }.
Definition single (n : Z) (len : Z) (data : list Z) : omap :=
  mkM data (map (fun _ => n) (zseq len)) (map (fun i => i * n) (zseq len)).

Section Sorts.
  (** std::sort and execution::sort with a comparison *)
  Variable srt : forall A : Type, (A -> A -> bool) -> list A -> list A.
  Definition zsort : list Z -> list Z := srt Z Z.ltb.
  (** operator < of pairs *)
  Definition pair_ltb (x y : Z * Z) : bool := (fst x <? fst y) || ((fst x =? fst y) && (snd x <? snd y)).
  Definition first_ltb (x y : Z * Z) : bool := fst x <? fst y.
  Definition second_ltb (x y : Z * Z) : bool := snd x <? snd y.

  (** ---- unique entities ---- *)
  (** make_unique, 1776-1801: runs of equal first components get increasing numbers.  The loop
      over start and i is written as a recursion that carries the id and number of the run. *)
  Fixpoint uniq (cur u : Z) (l : list (Z * Z)) : list (Z * Z) * Z :=
    match l with
    | [] => ([], u)
    | (id, ef) :: r => let v := if id =? cur then u else u + 1 in let '(o, n) := uniq id v r in ((ef, v) :: o, n)
    end.
  Definition make_unique (l : list (Z * Z)) : list (Z * Z) * Z :=
    match l with [] => ([], 0) | (id, _) :: _ => let '(o, n) := uniq id 0 l in (o, n + 1) end.
  (** sort the labels, number them, sort back by place: 920-948 and 1176-1204 *)
  Definition place_to_unique (labels : list (Z * Z)) : list (Z * Z) * Z :=
    let '(o, n) := make_unique (srt _ pair_ltb labels) in (srt _ first_ltb o, n).
  (** the loops 985-1012 and 1232-1261: an entity is emitted when its number comes for the
      first time; the map has its place in the output.  (The loops without a map, 1030-1048
      and 1291-1307, emit the same.) *)
  Fixpoint emit (l : list (list Z * Z)) (reorder : list Z) (next : Z) : outcome (list (list Z) * list Z) :=
    match l with
    | [] => Ok ([], [])
    | (f, u) :: r =>
        do x <- deref (znth reorder u);
        if x =? -1
        then do t <- emit r (set_nth reorder (Z.to_nat u) next) (next + 1); Ok (f :: fst t, next :: snd t)
        else do t <- emit r reorder next; Ok (fst t, x :: snd t)
    end.
  Definition fresh_order (n : Z) : list Z := map (fun _ => -1) (zseq n).

  (** make_embedded_connectivity, 884-1058.  The faces of all elements in order: *)
  Definition elem_faces (ppe : Z) (emb : list (list Z)) (conn : list Z) : outcome (list (list (list Z))) :=
    omapM (fun e => omapM (fun f => omapM (fun i => at_ conn (e * ppe + i)) f) emb) (zseq (Z.quot (zlen conn) ppe)).
  Definition label (f : list Z) : Z := hash (zsort f).
  Definition embedded (faces : list (list Z)) : outcome (list (list Z) * list Z) :=
    let labels := combine (map label faces) (zseq (zlen faces)) in
    let '(pu, n) := place_to_unique labels in
    emit (combine faces (map snd pu)) (fresh_order n) 0.

  (** make_embedded_connectivity_polygons_to_lines, 1071-1318: two arrays of the number of
      edges are filled at offset + edge; 32 points fit on the stack. *)
  Definition poly_edges (conn : list Z) (size off : Z) : outcome (list (Z * list Z)) :=
    if size >? 32 then UB else
    do pts <- omapM (fun i => at_ conn (off + i)) (zseq size);
    omapM (fun i => do a <- at_ pts i; do b <- at_ pts ((i + 1) mod size); Ok (off + i, [a; b])) (zseq size).
  Fixpoint fill {A} (arr : list A) (l : list (Z * A)) : outcome (list A) :=
    match l with
    | [] => Ok arr
    | (i, x) :: r => do _ <- deref (znth arr i); fill (set_nth arr (Z.to_nat i) x) r
    end.
  Definition sort2 (e : list Z) : list Z := match e with [a; b] => if b <? a then [b; a] else [a; b] | _ => e end.
  Definition poly_lines (conn sizes offs : list Z) : outcome (list (list Z) * list Z) :=
    let n := zsum sizes in
    do es <- omapM (fun e => do s <- at_ sizes e; do o <- at_ offs e; poly_edges conn s o) (zseq (zlen sizes));
    do ids <- fill (map (fun _ => (0, 0)) (zseq n)) (map (fun ie => (fst ie, (hash (sort2 (snd ie)), fst ie))) (concat es));
    do edges <- fill (map (fun _ => [0; 0]) (zseq n)) (concat es);
    let '(pu, k) := place_to_unique ids in
    do l <- omapM (fun eu => do f <- deref (znth edges (fst eu)); Ok (f, snd eu)) pu;
    emit l (fresh_order k) 0.

  (** ---- child to parent, build_child_to_parent_association, 2420-2524 ---- *)
  Fixpoint tally (cnt data : list Z) : outcome (list Z) :=
    match data with
    | [] => Ok cnt
    | c :: r => do x <- deref (znth cnt c); tally (set_nth cnt (Z.to_nat c) (x + 1)) r
    end.
  (** the parents of the entries, in order: 2454-2484; with fewer entries in the sizes than in
      the data the rest stays (0, 0), with more it is written out of range *)
  Definition p2c (m : omap) : outcome (list (Z * Z)) :=
    let ps := concat (map (fun ps => map (fun _ => fst ps) (zseq (snd ps))) (combine (zseq (zlen (m_sizes m))) (m_sizes m))) in
    if zlen (m_values m) <? zlen ps then UB
    else Ok (combine ps (m_values m) ++ map (fun _ => (0, 0)) (zseq (zlen (m_values m) - zlen ps))).
  Definition child_to_parent (n : Z) (m : omap) : outcome omap :=
    do sizes <- tally (map (fun _ => 0) (zseq n)) (m_values m);
    let offs := running 0 sizes in
    do pc <- p2c m;
    let data := map fst (srt _ second_ltb pc) in
    do bins <- omapM (fun so => do b <- slice data (snd so) (fst so); Ok (if 1 <? fst so then zsort b else b)) (combine sizes offs);
    Ok (mkM (concat bins) sizes offs).

  (** ---- elements to lines and points, 1986-2014 and 2160-2395 ---- *)
  (** the edges of a face with n points: next to each other, and last to first *)
  Definition face_edges (f : list Z) : list (Z * Z) := combine f (tl f ++ firstn 1 f).
  Definition same_edge (x y : Z * Z) : bool := (Z.min (fst x) (snd x) =? Z.min (fst y) (snd y)) && (Z.max (fst x) (snd x) =? Z.max (fst y) (snd y)).
  (** embedding_3_1_edges, 1989-2014 *)
  Fixpoint new_edges (seen l : list (Z * Z)) : list (Z * Z) :=
    match l with
    | [] => []
    | e :: r => if existsb (same_edge e) seen then new_edges seen r else e :: new_edges (e :: seen) r
    end.
  Definition template (emb : list (list Z)) : list (Z * Z) := new_edges [] (flat_map face_edges emb).
  (** the key of an edge: the hash of the larger and the smaller end *)
  Definition edge_key (a b : Z) : Z := if a <? b then hash [b; a] else hash [a; b].
  (** build_edge_key_to_id, 2162-2204 *)
  Definition edge_keys (lines : list (list Z)) : outcome (list (Z * Z)) :=
    do ks <- omapM (fun li => match fst li with [a; b] => Ok (edge_key a b, snd li) | _ => UB end) (combine lines (zseq (zlen lines)));
    Ok (srt _ first_ltb ks).
  (** lookup_edge_id, 2208-2230; not found: entry -1 is read *)
  Fixpoint search (fuel : nat) (ks : list (Z * Z)) (key left right : Z) : outcome Z :=
    match fuel with
    | O => Fuel
    | S k =>
        if left <=? right then
          let m := (left + right) / 2 in
          do x <- deref (znth ks m);
          if fst x <? key then search k ks key (m + 1) right
          else if key <? fst x then search k ks key left (m - 1)
          else Ok (snd x)
        else UB
    end.
  Definition lookup_edge (ks : list (Z * Z)) (a b : Z) : outcome Z := search (S (length ks)) ks (edge_key a b) 0 (zlen ks - 1).
  (** build_association_3_1_and_3_0_nonph, 2233-2395: lines per element, and points per element
      in the order in which the edges name them.  (All points of the four shapes lie on edges.) *)
  Definition elem_lines (ppe : Z) (emb : list (list Z)) (conn : list Z) (lines : list (list Z)) : outcome (list Z) :=
    do ks <- edge_keys lines;
    do rows <- omapM (fun e => omapM (fun t => do a <- at_ conn (e * ppe + fst t); do b <- at_ conn (e * ppe + snd t); lookup_edge ks a b)
                                     (template emb)) (zseq (Z.quot (zlen conn) ppe));
    Ok (concat rows).
  Fixpoint new_points (seen l : list Z) : list Z :=
    match l with [] => [] | x :: r => if existsb (Z.eqb x) seen then new_points seen r else x :: new_points (x :: seen) r end.
  Definition point_order (emb : list (list Z)) : list Z := new_points [] (flat_map (fun e => [fst e; snd e]) (template emb)).
  Definition elem_points (ppe : Z) (emb : list (list Z)) (conn : list Z) : outcome (list Z) :=
    do rows <- omapM (fun e => omapM (fun i => at_ conn (e * ppe + i)) (point_order emb)) (zseq (Z.quot (zlen conn) ppe));
    Ok (concat rows).

  (** ---- generate_points, generate_lines, generate_faces ---- *)
  (** rows of the embedding of a shape: its faces, or its lines *)
  Fixpoint chop (fuel n : nat) (l : list Z) : list (list Z) :=
    match fuel with O => [] | S k => match l with [] => [] | _ => firstn n l :: chop k n (skipn n l) end end.
  Definition shape_faces (s : shape) (e : list Z) : outcome (list (list Z)) :=
    do t <- (if s_embed s <? 0 then UB else deref (nth_error shape_table (Z.to_nat (s_embed s))));
    Ok (chop (length e) (Z.to_nat (s_indices t)) e).
  (** the shape of the embedded entities: ShapeCascade, mesh_utils.cpp 285-296 *)
  Definition embedded_shape (s : shape) : outcome (shape * list Z) :=
    if s_embed s <? 0 then UB else
    do t <- deref (nth_error shape_table (Z.to_nat (s_embed s)));
    do e <- deref (nth_error embeddings (Z.to_nat (s_embed s)));
    match e with Some l => Ok (t, l) | None => UB end.
  Definition rows_of_conn (n : Z) (conn : list Z) : list (list Z) := chop (length conn) (Z.to_nat n) conn.
  Record generated := mkG { g_conn : list (list Z); g_s2d : omap; g_d2s : omap }.
  Definition with_back (n : Z) (dest : list (list Z)) (m : omap) : outcome generated :=
    do b <- child_to_parent n m; Ok (mkG dest m b).
  Definition point_rows (n : Z) : list (list Z) := map (fun i => [i]) (zseq n).
  Definition identity (n : Z) : omap := single 1 n (zseq n).

  (** the cascade for shapes with a table, 700-733 and 1466-1510: faces, and the lines of the
      faces (made from the faces as they were emitted) *)
  Definition faces_of (s : shape) (e : list Z) (conn : list Z) : outcome (list (list Z) * list Z) :=
    do emb <- shape_faces s e;
    do fs <- elem_faces (s_indices s) emb conn;
    embedded (concat fs).
  Definition lines_of_faces (s : shape) (faces : list (list Z)) : outcome (list (list Z) * list Z) :=
    do te <- embedded_shape s; faces_of (fst te) (snd te) (concat faces).

  (** a topology of a shape with a table; [n] points in its coordinate set.  A connectivity
      that is not made of whole elements is not modelled (UB), nor are offsets other than
      those of elements one after the other.  The points of a topology of points are those of
      the coordinate set: 1485-1491. *)
  Definition gen_table (s : shape) (e : list Z) (conn : list Z) (n dst : Z) : outcome generated :=
    let nelem := Z.quot (zlen conn) (s_indices s) in
    if s_dim s <? dst then Err
    else if negb (zlen conn mod s_indices s =? 0) then UB
    else if s_dim s =? 0 then let m := identity n in Ok (mkG (point_rows n) m m)
    else if dst =? s_dim s then
      let m := identity nelem in Ok (mkG (rows_of_conn (s_indices s) conn) m m)
    else if s_dim s =? 1 then with_back n (point_rows n) (single 2 nelem conn)
    else if s_dim s =? 2 then
      do l <- faces_of s e conn;
      if dst =? 1 then with_back (zlen (fst l)) (fst l) (single (s_count s) nelem (snd l))
      else with_back n (point_rows n) (single (s_indices s) nelem conn)
    else
      do f <- faces_of s e conn;
      do l <- lines_of_faces s (fst f);
      do emb <- shape_faces s e;
      if dst =? 2 then with_back (zlen (fst f)) (fst f) (single (s_count s) nelem (snd f))
      else if dst =? 1 then do d <- elem_lines (s_indices s) emb conn (fst l);
                            with_back (zlen (fst l)) (fst l) (single (zlen (template emb)) nelem d)
      else do _ <- elem_lines (s_indices s) emb conn (fst l); do d <- elem_points (s_indices s) emb conn;
           with_back n (point_rows n) (single (s_indices s) nelem d).
  (** a polygonal topology; its offsets are generated if missing (copy_topology, 1725-1750) *)
  Definition gen_polygons (conn sizes : list Z) (given : option (list Z)) (n dst : Z) : outcome generated :=
    let offs := match given with Some o => o | None => running 0 sizes end in
    if 2 <? dst then Err
    else if dst =? 2 then
      do rows <- omapM (fun so => slice conn (snd so) (fst so)) (combine sizes offs);
      let m := identity (zlen sizes) in Ok (mkG rows m m)
    else
      do l <- poly_lines conn sizes offs;
      if dst =? 1 then with_back (zlen (fst l)) (fst l) (mkM (snd l) sizes offs)
      else with_back n (point_rows n) (mkM conn sizes offs).
  (** generate_points, generate_lines, generate_faces with [dst] 0, 1, 2; polyhedra are not modelled (UB) *)
  Definition generate (name : str) (conn sizes : list Z) (given : option (list Z)) (n dst : Z) : outcome generated :=
    do sh <- shape_of name;
    match sh with
    | Some (_, s, Some e) => gen_table s e conn n dst
    | Some (_, s, None) => if s_dim s =? 2 then gen_polygons conn sizes given n dst else UB
    | None => UB
    end.
End Sorts.
