(** Joining coordinate sets:
    src/libs/blueprint/conduit_blueprint_mesh_partition.cpp 4665-6195 (kdtree, point_merge) and
    src/libs/blueprint/conduit_blueprint_mesh_utils.cpp 1225-1515 (get_coordset_info, extents).
    Coordinates are float64 with an arbitrary arithmetic; leaves of other types are not
    modelled. Ids are unbounded. *)
From Coq Require Import QArith Floats.SpecFloat.
From Verif Require Import Base DType SpecTree Mem Node Number ArrayOps O2M MeshConv KdTree.
Local Open Scope Z_scope.
Import ListNotations.

Section Merge.
Context {F : Type}.
Variable ar : arith F.
(** numeric_limits::lowest() *)
Variable lowest : F.
Variable sort : (Z -> Z -> bool) -> list Z -> list Z.

(** ---- the tree ---- *)
(** vector, 4774-4904; the default of nth is never used: indices are below the size *)
Notation vec := (list F).
Definition co (p : vec) (d : nat) : F := nth d p (zero ar).
(** distance2, 4889-4898: other is the argument *)
Definition vdist2 (p other : vec) : F :=
  fold_left (fun s xy => let d := sub ar (snd xy) (fst xy) in add ar s (mul ar d d)) (combine p other) (zero ar).
(** bounding_box, 4911-4936 *)
Definition contains (p : vec) (b : box (F := F)) : bool :=
  forallb (fun xb => le ar (fst (snd xb)) (fst xb)) (combine p b) && forallb (fun xb => le ar (fst xb) (snd (snd xb))) (combine p b).
Definition contains_tol (p : vec) (b : box (F := F)) (tol : F) : bool :=
  contains p (map (fun mm => (sub ar (fst mm) tol, add ar (snd mm) tol)) b).
Definition grow (p : vec) (b : box (F := F)) : box (F := F) :=
  map (fun xb => (min_ ar (fst (snd xb)) (fst xb), max_ ar (snd (snd xb)) (fst xb))) (combine p b).
(** kdnode, 4966-4977: with points, or split *)
Inductive kd :=
| Leaf (b : box (F := F)) (ps : list (vec * Z))
| Split (b : box (F := F)) (d : nat) (at_ : F) (l r : kd).
Definition bb (t : kd) : box (F := F) := match t with Leaf b _ | Split b _ _ _ _ => b end.
(** create_node, 5052-5076, and node_add_data, 5078-5083, for each of [ps] *)
Definition no_box (n : nat) : box (F := F) := repeat (num_max ar, lowest) n.
Definition filled (n : nat) (ps : list (vec * Z)) : kd := Leaf (fold_left (fun b p => grow (fst p) b) ps (no_box n)) ps.
(** the choice of dim, 5090-5104 *)
Definition widest (b : box (F := F)) : nat :=
  snd (fold_left (fun s ib => let len := sub ar (snd (snd ib)) (fst (snd ib)) in if lt ar (fst s) len then (len, fst ib) else s) (combine (seq 0 (length b)) b) (lowest, 0%nat)).
(** node_split, 5088-5158; [n] is point_vec_size *)
Definition split (n : nat) (b : box (F := F)) (ps : list (vec * Z)) (p : vec) (x : Z) : outcome kd :=
  let d := widest b in
  let at_i i := match znth ps i with Some q => co (fst q) d | None => zero ar end in
  let scratch := sort (fun i j => lt ar (at_i i) (at_i j)) (zseq (Z.of_nat n)) in
  let m := Z.of_nat (length scratch / 2) in
  do i1 <- deref (znth scratch m);
  do q1 <- deref (znth ps i1);
  do i0 <- deref (znth scratch (m - 1));
  do q0 <- deref (znth ps i0);
  let med := if lt ar (co (fst q0) d) (co p d) && lt ar (co p d) (co (fst q1) d) then co p d else co (fst q1) d in
  let is_left q := lt ar (co (fst q) d) med in
  let all := ps ++ [(p, x)] in
  Ok (Split b d med (filled (length p) (filter is_left all)) (filled (length p) (filter (fun q => negb (is_left q)) all))).
(** insert, 5231-5263 *)
Fixpoint insert (n : nat) (p : vec) (x : Z) (t : kd) : outcome kd :=
  match t with
  | Split b d s l r =>
      if lt ar (co p d) s then do l' <- insert n p x l; Ok (Split (grow p b) d s l' r)
      else do r' <- insert n p x r; Ok (Split (grow p b) d s l r')
  | Leaf b ps => if (length ps =? n)%nat then split n (grow p b) ps p x else Ok (Leaf (grow p b) (ps ++ [(p, x)]))
  end.
(** the public insert, 5009-5021 *)
Definition insert_root (n : nat) (p : vec) (x : Z) (t : option kd) : outcome kd :=
  match t with None => Ok (filled (length p) [(p, x)]) | Some t => insert n p x t end.
(** find_point, 5160-5228 *)
Fixpoint find_in (p : vec) (tol : F) (t : kd) : option Z :=
  match t with
  | Split _ _ _ l r =>
      let lc := contains_tol p (bb l) tol in
      let rc := contains_tol p (bb r) tol in
      if lc && rc then
        if contains p (bb l) then match find_in p tol l with Some x => Some x | None => find_in p tol r end
        else match find_in p tol r with Some x => Some x | None => find_in p tol l end
      else if lc then find_in p tol l
      else if rc then find_in p tol r
      else None
  | Leaf _ ps => option_map snd (find (fun q => le ar (vdist2 p (fst q)) (mul ar tol tol)) ps)
  end.
(** the public find_point, 4995-5007 *)
Definition find_root (p : vec) (tol : F) (t : option kd) : option Z :=
  match t with None => None | Some t => if contains_tol p (bb t) tol then find_in p tol t else None end.

(** ---- merging ---- *)
(** the points so far: the tree, and new_coords by point, with all coordinates of its key *)
Record found := { f_tree : option kd; f_new : list vec }.
Definition nothing : found := {| f_tree := None; f_new := [] |}.
(** the lambda merge, 6046-6067 *)
Definition merge_point (n : nat) (tol : F) (p : vec) (s : found) : outcome (found * Z) :=
  let id := Z.of_nat (length (f_new s)) in
  match find_root p tol (f_tree s) with
  | None => do t <- insert_root n p id (f_tree s); Ok ({| f_tree := Some t; f_new := f_new s ++ [p] |}, id)
  | Some j => Ok (s, j)
  end.
Fixpoint merge_set (n : nat) (tol : F) (ps : list vec) (s : found) : outcome (found * list Z) :=
  match ps with
  | [] => Ok (s, [])
  | p :: r => do a <- merge_point n tol p s; do b <- merge_set n tol r (fst a); Ok (fst b, snd a :: snd b)
  end.
Fixpoint merge_sets (n : nat) (tol : F) (sets : list (list vec)) (s : found) : outcome (found * list (list Z)) :=
  match sets with
  | [] => Ok (s, [])
  | ps :: r => do a <- merge_set n tol ps s; do b <- merge_sets n tol r (fst a); Ok (fst b, snd a :: snd b)
  end.
(** append_data, 5704-5738, of points in the output system *)
Fixpoint append_sets (id : Z) (sets : list (list vec)) : list (list Z) :=
  match sets with
  | [] => []
  | ps :: r => map (Z.add id) (zseq (Z.of_nat (length ps))) :: append_sets (id + Z.of_nat (length ps)) r
  end.

(** ---- coordinate sets ---- *)
Inductive system := Cartesian | Cylindrical | Spherical | Logical.
Definition sys_eqb (a b : system) : bool :=
  match a, b with Cartesian, Cartesian | Cylindrical, Cylindrical | Spherical, Spherical | Logical, Logical => true | _, _ => false end.
(** rtp_to_xyz, xyz_to_rtp, 6095-6110: with sqrt, cos, sin, acos and atan *)
Variables (to_xyz to_rtp : vec -> vec).
(** index_t to float64, float64 to index_t *)
Variables (fofz : Z -> F) (ftrunc : F -> Z).
(** translate_system, 6114-6168 *)
Definition translate (i o : system) (p : vec) : vec :=
  match o with
  | Logical | Cartesian | Cylindrical => match i with Spherical => to_xyz p | _ => p end
  | Spherical => match i with Cartesian | Cylindrical => to_rtp p | _ => p end
  end.
(** get_axes_for_system, 6172-6192 *)
Definition axes_for (s : system) : list str :=
  match s with Cartesian => cartesian_axes | Cylindrical => cylindrical_axes | Spherical => spherical_axes | Logical => logical_axes end.
(** coordsys, utils.cpp 1273-1293; an unknown system counts as cartesian, 5599-5603 *)
Definition coordsys (names : list str) : system :=
  let ns := map strip_d names in
  if MeshConv.has ns (L "theta") || MeshConv.has ns (L "phi") then Spherical
  else if MeshConv.has ns (L "r") then Cylindrical
  else if MeshConv.has ns (L "x") || MeshConv.has ns (L "y") || MeshConv.has ns (L "z") then Cartesian
  else if MeshConv.has ns (L "i") || MeshConv.has ns (L "j") || MeshConv.has ns (L "k") then Logical
  else Cartesian.
(** an explicit set, by its values; a uniform or rectilinear one *)
Inductive source := Explicit (values : list (str * list F)) | Implicit (b : base) (c : cset (F := F)).
Definition src_names (s : source) : list str :=
  match s with
  | Explicit vs => map fst vs
  | Implicit Uniform c => match c_origin c, c_spacing c with
                          | Some o, _ => map fst o
                          | None, Some s => map fst s
                          | None, None => map fst (c_dims c)
                          end
  | Implicit _ c => map fst (c_values c)
  end.
(** typed_minmax, utils.cpp 1421-1437 *)
Definition minmax (c : list F) : F * F := fold_left (fun b x => (min_ ar (fst b) x, max_ ar (snd b) x)) c (num_max ar, lowest).
(** extents, utils.cpp 1440-1515: the origin is taken as an index_t *)
Definition uniform_extent (c : cset (F := F)) (i : nat) (ax : str) : outcome (F * F) :=
  do l <- deref (nth_error logical_axes i);
  do n <- need (c_dims c) l;
  let o := match c_origin c with Some o => match mget o ax with Some x => ftrunc (snd x) | None => 0 end | None => 0 end in
  let s := match c_spacing c with Some s => match mget s ("d"%char :: ax) with Some x => snd x | None => fofz 1 end | None => fofz 1 end in
  let lo := fofz o in
  let hi := add ar (fofz o) (mul ar s (sub ar (fofz n) (fofz 1))) in
  Ok (if lt ar s (zero ar) then (hi, lo) else (lo, hi)).
Definition src_extents (s : source) : outcome (box (F := F)) :=
  let axs := axes_of (src_names s) in
  match s with
  | Explicit vs => omapM (fun ax => do v <- need vs ax; Ok (minmax v)) axs
  | Implicit Uniform c => omapM (fun ia => uniform_extent c (fst ia) (snd ia)) (numbered axs)
  | Implicit _ c => omapM (fun ax => do v <- need (c_values c) ax; Ok (minmax (snd v))) axs
  end.
(** to_explicit, 5606-5618; every entry of a set made here is written (C48) *)
Definition src_values (s : source) : outcome (list (str * list F)) :=
  match s with
  | Explicit vs => Ok vs
  | Implicit b c =>
      do r <- to_explicit (add ar) (mul ar) fofz (zero ar) (fofz 1) (fun _ _ x => x) b c;
      omapM (fun nv => do v <- omapM deref (snd nv); Ok (fst nv, v)) (snd r)
  end.
(** iterate_coordinates, 5832-5921: always three coordinates *)
Definition row (cols : list (option (list F))) (i : Z) : outcome vec :=
  omapM (fun c => match c with Some v => deref (znth v i) | None => Ok (zero ar) end) cols.
Definition iterate (vs : list (str * list F)) : outcome (list vec) :=
  let g n := mget vs n in
  let xyz :=
    match g (L "x") with
    | Some x => Some (x, g (L "y"), g (L "z"))
    | None => match g (L "z") with
              | Some x => Some (x, g (L "r"), None)
              | None => match g (L "r") with
                        | Some x => Some (x, g (L "theta"), g (L "phi"))
                        | None => match g (L "i") with Some x => Some (x, g (L "j"), g (L "k")) | None => None end
                        end
              end
    end in
  match xyz with
  | None => Err
  | Some (x, y, z) =>
      let z := match y with Some _ => z | None => None end in
      omapM (row [Some x; y; z]) (zseq (Z.of_nat (length x)))
  end.
(** examine_extents, 5660-5698: missing entries are zero *)
Definition pad (b : box (F := F)) : box (F := F) := firstn 3 (b ++ repeat (zero ar, zero ar) 3).
Definition overlap (a b : box (F := F)) : bool :=
  forallb (fun ab => le ar (fst (snd ab)) (snd (fst ab)) && le ar (fst (fst ab)) (snd (snd ab))) (combine (pad a) (pad b)).
Definition overlapping (exts : list (box (F := F))) : Z :=
  zsum (concat (map (fun ia => map (fun jb => if (fst ia =? fst jb)%nat then 0 else if overlap (snd ia) (snd jb) then 1 else 0) (numbered exts)) (numbered exts))).
(** out_system, 5621-5640: None if no set counts *)
Definition out_of (ss : list system) : option system :=
  let n s := existsb (sys_eqb s) ss in
  if n Cartesian || (n Cylindrical && n Spherical) then Some Cartesian
  else if n Spherical then Some Spherical
  else if n Cylindrical then Some Cylindrical
  else None.
(** what happens to the output: it is left alone; it gets a child coordsets/coords; it is set
    to an explicit set with the values and the pointmaps *)
Inductive result := Untouched | Wrapped (s : source) | Merged (values : list (str * list F)) (maps : list (list Z)).
(** create_output, 5758-5826 *)
Definition output (dim : nat) (o : system) (new : list vec) : outcome (list (str * list F)) :=
  omapM (fun i => do a <- deref (nth_error (axes_for o) i); Ok (a, map (fun p => co p i) new)) (seq 0 dim).
(** execute, 5537-5656; None stands for a null pointer. Sets without a type are not modelled *)
Definition execute (tol : F) (csets : list (option source)) : outcome result :=
  match csets with
  | [] | [None] => Ok Untouched
  | [Some s] => Ok (Wrapped s)
  | _ =>
      let ss := flat_map (fun o => match o with Some s => [s] | None => [] end) csets in
      let dim := fold_left Nat.max (map (fun s => length (axes_of (src_names s))) ss) 0%nat in
      do exts <- omapM src_extents ss;
      let systems := map (fun s => coordsys (src_names s)) ss in
      do vals <- omapM src_values ss;
      match out_of systems with
      | None => Ok Untouched
      | Some o =>
          do pts <- omapM iterate vals;
          let moved t := map (fun sp => if sys_eqb (fst sp) t || sys_eqb (fst sp) Logical then snd sp else map (translate (fst sp) t) (snd sp)) (combine systems pts) in
          if overlapping exts =? 0 then
            do vs <- output dim o (concat (moved o));
            Ok (Merged vs (append_sets 0 (moved o)))
          else
            do r <- merge_sets 32 tol (moved Cartesian) nothing;
            do vs <- output dim o (f_new (fst r));
            Ok (Merged vs (snd r))
      end
  end.
End Merge.
