(** What is a mesh: the rules of the mesh blueprint, as far as the library checks them.
    Written as a schema over trees, with no report and no order of checks. *)
From Coq Require Import ZArith.
From Verif Require Import Base DType SpecTree Mem Node Number ArrayOps NumConv Json MeshVerify.
Import ListNotations.

(** the child [f] is there and is as [p] says; the child is as [p] says if it is there *)
Definition must (f : str) (p : tree -> bool) (n : tree) : bool :=
  match kid n f with Some c => p c | None => false end.
Definition may (f : str) (p : tree -> bool) (n : tree) : bool :=
  match kid n f with Some c => p c | None => true end.
Definition given (f : str) (n : tree) : bool := match kid n f with Some _ => true | None => false end.
Definition every (p : tree -> bool) (n : tree) : bool := forallb (fun e => p (snd e)) (kids n).
Definition int_ (n : tree) : bool :=
  match n with TNum t _ => existsb (tid_eqb t) [INT8; INT16; INT32; INT64; UINT8; UINT16; UINT32; UINT64] | _ => false end.
Definition num_ (n : tree) : bool :=
  match n with
  | TNum t _ => existsb (tid_eqb t) [INT8; INT16; INT32; INT64; UINT8; UINT16; UINT32; UINT64; FLOAT32; FLOAT64]
  | _ => false end.
Definition string_ (n : tree) : bool := match n with TStr _ => true | _ => false end.
Definition word (ws : list str) (n : tree) : bool := match n with TStr s => existsb (str_eqb s) ws | _ => false end.
(** an object with at least one child *)
Definition object_ (n : tree) : bool := match n with TObj (_ :: _) => true | _ => false end.
Definition any_object (n : tree) : bool := match n with TObj _ => true | _ => false end.
Definition len (n : tree) : nat := match n with TStr s => Datatypes.S (length s) | TNum _ vs => length vs | _ => 0 end.

(** i, and j and k if there are more dimensions *)
Definition dims_ok (n : tree) : bool := must (L "i") int_ n && may (L "j") int_ n && may (L "k") int_ n.

(** arrays with components: the lengths after leading empty ones agree *)
Fixpoint agree (l : list nat) : bool :=
  match l with [] => true | O :: r => agree r | m :: r => forallb (Nat.eqb m) r end.
Definition components (n : tree) : bool :=
  match n with TObj _ | TList _ => true | _ => false end && every num_ n && agree (map (fun e => len (snd e)) (kids n)).
(** one-to-many relations: at least one array besides sizes, offsets and indices *)
Definition relation (n : tree) : bool :=
  any_object n && may (L "sizes") int_ n && may (L "offsets") int_ n && may (L "indices") int_ n &&
  match kid n (L "sizes"), kid n (L "offsets") with
  | None, None => true | Some s, Some o => Nat.eqb (len s) (len o) | _, _ => false end &&
  existsb (fun e => num_ (snd e) && negb (word [L "sizes"; L "offsets"; L "indices"] (TStr (fst e)))) (kids n).
(** arrays in levels: on each level but the last all nodes have the same names; the
    last level, no deeper than [hi], has numbers *)
Fixpoint height (n : tree) : nat :=
  match n with
  | TObj es => match es with [] => 0 | _ => Datatypes.S (list_max (map (fun e => height (snd e)) es)) end
  | TList ts => match ts with [] => 0 | _ => Datatypes.S (list_max (map height ts)) end
  | _ => 0
  end.
Fixpoint row (d : nat) (n : tree) : list tree :=
  match d with O => [n] | Datatypes.S d => flat_map (fun e => row d (snd e)) (kids n) end.
Definition names (n : tree) : list str := match n with TObj es => map fst es | _ => [] end.
Definition inside (a b : list str) : bool := forallb (fun x => existsb (str_eqb x) b) a.
Definition levels (hi : nat) (n : tree) : bool :=
  (match n with TNone => false | _ => true end) &&
  forallb (fun d => forallb (fun x => forallb (fun y => inside (names x) (names y)) (row d n)) (row d n)) (seq 0 (height n)) &&
  forallb num_ (row (height n) n) && Nat.leb (height n) hi.

(** coordinates *)
Definition axes := [L "x"; L "y"; L "z"; L "r"; L "theta"; L "phi"].
Definition axes_ok (pre : str) (n : tree) : bool := forallb (fun a => may (pre ++ a) num_ n) axes.
Definition coordset_ok (n : tree) : bool :=
  must (L "type") (word [L "uniform"]) n && must (L "dims") (fun d => object_ d && dims_ok d) n &&
    may (L "origin") (axes_ok []) n && may (L "spacing") (axes_ok (L "d")) n
  || must (L "type") (word [L "rectilinear"]) n &&
    must (L "values") (fun v => match v with TObj (_ :: _) | TList (_ :: _) => true | _ => false end && every num_ v) n
  || must (L "type") (word [L "explicit"]) n && must (L "values") components n.

(** topologies *)
Definition shapes := [L "point"; L "line"; L "tri"; L "quad"; L "tet"; L "hex"; L "wedge"; L "pyramid";
                      L "polygonal"; L "polyhedral"; L "mixed"].
Definition block (n : tree) : bool := must (L "shape") (word shapes) n && must (L "connectivity") int_ n.
Definition of_shape (s : str) (n : tree) : bool := must (L "shape") (word [s]) n.
(** faces of polyhedra *)
Definition faces (n : tree) : bool := of_shape (L "polygonal") n && must (L "connectivity") int_ n && relation n.
(** elements with polygons or polyhedra; [faces_ok] says that the subelements have the faces *)
Definition poly_ok (faces_ok : tree -> bool) (e topo : tree) : bool :=
  (negb (of_shape (L "polygonal") e || of_shape (L "polyhedral") e) || relation e) &&
  (negb (of_shape (L "polyhedral") e) || must (L "subelements") (fun s => object_ s && faces_ok s) topo).
(** elements of mixed shapes: each entry of shapes is the number of a shape *)
Definition shape_numbers (m : tree) : list Z :=
  flat_map (fun e => match snd e with TNum _ (v :: _) => [v] | _ => [] end) (kids m).
Definition mixed_ok (e : tree) : bool :=
  must (L "shape") (word shapes) e &&
  must (L "shape_map") (fun m => object_ m && forallb (fun e => word shapes (TStr (fst e))) (kids m)) e &&
  must (L "shapes") (fun s => int_ s && match s, kid e (L "shape_map") with
                                        | TNum _ vs, Some m => forallb (fun v => existsb (Z.eqb (conv INT32 v)) (shape_numbers m)) vs
                                        | _, _ => false end) e.
Definition elements_ok (topo e : tree) : bool :=
  object_ e &&
  if given (L "shape") e then
    block e &&
    if of_shape (L "mixed") e then mixed_ok e && relation e && may (L "subelements") (fun s => mixed_ok s && relation s) topo
    else poly_ok faces e topo
  else given (L "element_types") e ||
       forallb (fun c => block (snd c) && poly_ok (must (fst c) faces) (snd c) topo) (kids e).
Definition topology_ok (n : tree) : bool :=
  must (L "coordset") string_ n && may (L "grid_function") string_ n &&
  (must (L "type") (word [L "points"; L "uniform"; L "rectilinear"]) n
   || must (L "type") (word [L "structured"]) n && must (L "elements") (fun e => object_ e && must (L "dims") (fun d => object_ d && dims_ok d) e) n
   || must (L "type") (word [L "unstructured"]) n && must (L "elements") (elements_ok n) n).

(** materials *)
Definition material_map_ok (n : tree) : bool := object_ n && every int_ n.
Definition matset_ok (n : tree) : bool :=
  must (L "topology") string_ n &&
  (must (L "volume_fractions") num_ n && must (L "material_ids") int_ n && relation n &&
     must (L "material_map") material_map_ok n && may (L "element_ids") int_ n
   || must (L "volume_fractions") (fun vf => any_object vf &&
        every (fun m => if any_object m then relation m else num_ m) vf &&
        may (L "material_map") (fun m => material_map_ok m && inside (names m) (names vf)) n &&
        may (L "element_ids") (fun e => any_object e && inside (names vf) (names e) && inside (names e) (names vf) && every int_ e) n) n).

Definition either (a b : str) (n : tree) : bool := given a n || given b n.
(** both or none *)
Definition pair_ok (a b : str) (hi : nat) (n : tree) : bool :=
  must a string_ n && must b (levels hi) n || negb (given a n) && negb (given b n).
Definition field_ok (n : tree) : bool :=
  either (L "association") (L "basis") n && may (L "association") (word [L "vertex"; L "element"]) n && may (L "basis") string_ n &&
  either (L "topology") (L "matset") n && pair_ok (L "topology") (L "values") 1 n && pair_ok (L "matset") (L "matset_values") 2 n.
(** species: the lengths of the first components agree *)
Definition first_len (n : tree) : nat := match kids n with (_, c) :: _ => len c | [] => 0 end.
Definition specset_ok (n : tree) : bool :=
  must (L "matset") string_ n &&
  must (L "matset_values") (fun vs => object_ vs && every components vs && agree (map (fun e => first_len (snd e)) (kids vs))) n.
(** domains that meet *)
Definition assoc_ok (n : tree) : bool := must (L "association") (word [L "vertex"; L "element"]) n.
Definition window_ok (w : tree) : bool := must (L "origin") dims_ok w && must (L "dims") dims_ok w && must (L "ratio") dims_ok w.
Definition group_ok (g : tree) : bool :=
  must (L "neighbors") int_ g &&
  if given (L "values") g then must (L "values") int_ g
  else if given (L "windows") g then must (L "windows") (fun ws => object_ ws && every window_ok ws) g && may (L "orientation") int_ g
  else true.
Definition adjset_ok (n : tree) : bool :=
  must (L "topology") string_ n && assoc_ok n && must (L "groups") (fun gs => any_object gs && every group_ok gs) n.
Definition size (n : tree) : nat := length (kids n).
Definition nest_ok (w : tree) : bool :=
  must (L "domain_id") int_ w && must (L "domain_type") (word [L "parent"; L "child"]) w &&
  must (L "ratio") (fun r => dims_ok r &&
    may (L "origin") (fun o => dims_ok o && Nat.eqb (size o) (size r)) w &&
    may (L "dims") (fun d => dims_ok d && Nat.eqb (size d) (size r)) w) w.
Definition nestset_ok (n : tree) : bool :=
  must (L "topology") string_ n && assoc_ok n && must (L "windows") (fun ws => object_ ws && every nest_ok ws) n.

(** references: the child [f] names a member of [rp] that is [good] *)
Definition names_good (d : tree) (f rp : str) (good : tree -> bool) (c : tree) : bool :=
  must f (fun s => match s with TStr s => must rp (fun sec => object_ sec && must s good sec) d | _ => false end) c.
Definition topo_good (d c : tree) : bool := topology_ok c && names_good d (L "coordset") (L "coordsets") coordset_ok c.
Definition mat_good (d c : tree) : bool := matset_ok c && names_good d (L "topology") (L "topologies") (topo_good d) c.
Definition spec_good (d c : tree) : bool := specset_ok c && names_good d (L "matset") (L "matsets") (mat_good d) c.
Definition field_good (d c : tree) : bool :=
  field_ok c && (negb (given (L "topology") c) || names_good d (L "topology") (L "topologies") (topo_good d) c) &&
  (negb (given (L "matset") c) || names_good d (L "matset") (L "matsets") (mat_good d) c).
Definition adj_good (d c : tree) : bool := adjset_ok c && names_good d (L "topology") (L "topologies") (topo_good d) c.
Definition nest_good (d c : tree) : bool := nestset_ok c && names_good d (L "topology") (L "topologies") (topo_good d) c.
Definition grid_good (d c : tree) : bool :=
  negb (given (L "grid_function") c) || names_good d (L "grid_function") (L "fields") (field_good d) c.
Definition all_good (p : tree -> bool) (sec : tree) : bool := object_ sec && every p sec.
Definition domain_ok (d : tree) : bool :=
  must (L "coordsets") (all_good coordset_ok) d &&
  must (L "topologies") (all_good (fun c => topo_good d c && grid_good d c)) d &&
  may (L "matsets") (all_good (mat_good d)) d && may (L "specsets") (all_good (spec_good d)) d &&
  may (L "fields") (all_good (field_good d)) d && may (L "adjsets") (all_good (adj_good d)) d &&
  may (L "nestsets") (all_good (nest_good d)) d.
(** members of the sections of a domain, as the report calls them valid or not *)
Definition sections : list str := [L "coordsets"; L "topologies"; L "matsets"; L "specsets"; L "fields"; L "adjsets"; L "nestsets"].
Definition marks (d : tree) (p : str) (c : tree) : bool :=
  if str_eqb p (L "coordsets") then coordset_ok c
  else if str_eqb p (L "topologies") then topo_good d c && grid_good d c
  else if str_eqb p (L "matsets") then mat_good d c
  else if str_eqb p (L "specsets") then spec_good d c
  else if str_eqb p (L "fields") then field_good d c
  else if str_eqb p (L "adjsets") then adj_good d c
  else nest_good d c.
Definition mesh_ok (n : tree) : bool :=
  if given (L "coordsets") n then domain_ok n
  else match n with TObj _ | TList _ | TNone => every domain_ok n | _ => false end.

(** * Trees that can be checked at all *)
(** distinct names, none of which is one of the words used in reports *)
Fixpoint clean (n : tree) : Prop :=
  match n with
  | TObj es => NoDup (map fst es) /\
      (fix go l := match l with [] => True | (k, c) :: r =>
         ~ In k [L "valid"; L "info"; L "optional"; L "errors"] /\ clean c /\ go r end) es
  | TList ts => (fix go l := match l with [] => True | c :: r => clean c /\ go r end) ts
  | _ => True
  end.
(** numbers of shapes can be read *)
Definition readable_map (e : tree) : bool :=
  may (L "shape_map") (every (fun c => match c with TNum t (_ :: _) => tid_eqb t INT32 | _ => false end)) e &&
  (negb (given (L "shapes") e) || given (L "shape_map") e && negb (must (L "shapes") string_ e)).
Definition readable_topology (t : tree) : bool :=
  may (L "elements") (fun e => negb (of_shape (L "mixed") e) || readable_map e && may (L "subelements") readable_map t) t &&
  may (L "subelements") (fun s => may (L "shape") string_ s && every (may (L "shape") string_) s) t.
(** no material without species *)
Definition readable_specset (s : tree) : bool :=
  may (L "matset_values") (every (fun m => match m with TObj [] | TList [] => false | _ => true end)) s.
Definition readable_domain (d : tree) : bool :=
  may (L "topologies") (every readable_topology) d && may (L "specsets") (every readable_specset) d.
Definition readable (n : tree) : bool :=
  if given (L "coordsets") n then readable_domain n else every readable_domain n.
