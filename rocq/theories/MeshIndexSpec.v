(** What an index of a mesh is: a schema over trees, with the words of MeshVerifySpec.v,
    and what an index of a given domain has to say. *)
From Coq Require Import ZArith.
From Verif Require Import Base DType SpecTree Mem Node Number ArrayOps NumConv Json Path MeshVerify MeshVerifySpec.
Import ListNotations.

(** coordinate systems and their axes *)
Definition kinds : list (str * list str) :=
  [(L "cartesian", [L "x"; L "y"; L "z"]); (L "cylindrical", [L "r"; L "z"]); (L "spherical", [L "r"; L "theta"; L "phi"])].
Definition system_ok (n : tree) : bool :=
  existsb (fun s => must (L "type") (word [fst s]) n && must (L "axes") (fun a => object_ a && inside (names a) (snd s)) n) kinds.
Definition coordset_entry (n : tree) : bool :=
  must (L "type") (word [L "uniform"; L "rectilinear"; L "explicit"]) n && must (L "path") string_ n &&
  must (L "coord_system") system_ok n.
Definition topology_entry (n : tree) : bool :=
  must (L "type") (word [L "points"; L "uniform"; L "rectilinear"; L "structured"; L "unstructured"]) n &&
  must (L "coordset") string_ n && must (L "path") string_ n && may (L "grid_function") string_ n.
Definition matset_entry (n : tree) : bool :=
  must (L "topology") string_ n && must (L "path") string_ n &&
  (must (L "material_map") material_map_ok n || negb (given (L "material_map") n) && must (L "materials") object_ n).
Definition specset_entry (n : tree) : bool :=
  must (L "matset") string_ n && must (L "species") object_ n && must (L "path") string_ n.
Definition field_entry (n : tree) : bool :=
  either (L "association") (L "basis") n && may (L "association") (word [L "vertex"; L "element"]) n && may (L "basis") string_ n &&
  either (L "topology") (L "matset") n && may (L "topology") string_ n && may (L "matset") string_ n &&
  must (L "number_of_components") int_ n && must (L "path") string_ n.
Definition meeting_entry (n : tree) : bool :=
  must (L "topology") string_ n && assoc_ok n && must (L "path") string_ n.
(** entries whose references are good *)
Definition topo_listed (d c : tree) : bool := topology_entry c && names_good d (L "coordset") (L "coordsets") coordset_entry c.
Definition mat_listed (d c : tree) : bool := matset_entry c && names_good d (L "topology") (L "topologies") (topo_listed d) c.
Definition spec_listed (d c : tree) : bool := specset_entry c && names_good d (L "matset") (L "matsets") (mat_listed d) c.
Definition field_listed (d c : tree) : bool :=
  field_entry c && (negb (given (L "topology") c) || names_good d (L "topology") (L "topologies") (topo_listed d) c) &&
  (negb (given (L "matset") c) || names_good d (L "matset") (L "matsets") (mat_listed d) c).
Definition meeting_listed (d c : tree) : bool := meeting_entry c && names_good d (L "topology") (L "topologies") (topo_listed d) c.
Definition index_ok (d : tree) : bool :=
  must (L "coordsets") (all_good coordset_entry) d && must (L "topologies") (all_good (topo_listed d)) d &&
  may (L "matsets") (all_good (mat_listed d)) d && may (L "specsets") (all_good (spec_listed d)) d &&
  may (L "fields") (all_good (field_listed d)) d && may (L "adjsets") (all_good (meeting_listed d)) d &&
  may (L "nestsets") (all_good (meeting_listed d)) d.
(** members of the sections, as the report calls them valid or not *)
Definition entries (d : tree) (p : str) : tree -> bool :=
  if str_eqb p (L "coordsets") then coordset_entry else if str_eqb p (L "topologies") then topo_listed d
  else if str_eqb p (L "matsets") then mat_listed d else if str_eqb p (L "specsets") then spec_listed d
  else if str_eqb p (L "fields") then field_listed d else meeting_listed d.

(** * Domains of which an index can be made *)
(** the names of the axes: those of the origin, those of the spacing (dx is the axis x), or
    as many of x, y, z as there are of i, j, k; those of the values *)
Definition axis_of (s : str) : str := match s with "d"%char :: (_ :: _) as r => r | _ => s end.
Definition axis_names (c : tree) : list str :=
  if must (L "type") (word [L "uniform"]) c then
    match kid c (L "origin"), kid c (L "spacing"), kid c (L "dims") with
    | Some o, _, _ => names o
    | None, Some s, _ => map axis_of (names s)
    | None, None, Some d => if inside (names d) [L "i"; L "j"; L "k"] then firstn (length (names d)) [L "x"; L "y"; L "z"] else []
    | None, None, None => []
    end
  else match kid c (L "values") with Some v => names v | None => [] end.
(** at least one, and all of one system *)
Definition one_system (c : tree) : bool :=
  negb (match axis_names c with [] => true | _ => false end) && existsb (fun s => inside (axis_names c) (snd s)) kinds.
(** materials have names *)
Definition named_materials (c : tree) : bool :=
  given (L "material_map") c || must (L "materials") object_ c || negb (given (L "materials") c) && must (L "volume_fractions") object_ c.
(** the components of values for each material can be counted *)
Definition countable (c : tree) : bool :=
  may (L "volume_dependent") string_ c && (given (L "values") c || negb (must (L "matset_values") num_ c)).
Definition indexable (d : tree) : bool :=
  may (L "coordsets") (every one_system) d && may (L "matsets") (every named_materials) d &&
  may (L "specsets") (every readable_specset) d && may (L "fields") (every countable) d.

(** * What the index says of a part *)
(** the system of axes *)
Definition system_of (l : list str) : str :=
  if existsb (str_eqb (L "theta")) l || existsb (str_eqb (L "phi")) l then L "spherical"
  else if existsb (str_eqb (L "r")) l then L "cylindrical" else L "cartesian".
(** the path of the part *)
Definition place (rp p k : str) : str := join_path (join_path rp p) k.
(** children that are the same *)
Definition same (l : list str) (c e : tree) : Prop := forall f, In f l -> kid e f = kid c f.
(** the names below a node, as the iterator gives them *)
Definition member_names (n : tree) : list str := map fst (kids n).
(** one for a single array or a list of them *)
Definition width (n : tree) : nat := match n with TObj es => length es | _ => 1 end.
Definition int64 (n : nat) : tree := TNum INT64 [Z.of_nat n].
Definition says (p : str) (c e : tree) : Prop :=
  if str_eqb p (L "coordsets") then
    same [L "type"] c e /\ exists s a, kid e (L "coord_system") = Some s /\ kid s (L "axes") = Some a /\
      (forall x, In x (names a) <-> In x (axis_names c)) /\ kid s (L "type") = Some (TStr (system_of (axis_names c)))
  else if str_eqb p (L "topologies") then same [L "type"; L "coordset"; L "grid_function"] c e
  else if str_eqb p (L "matsets") then
    same [L "topology"] c e /\
    (given (L "material_map") c = true -> same [L "material_map"] c e) /\
    (forall ms, given (L "material_map") c = false -> kid c (L "materials") = Some ms ->
       exists m, kid e (L "materials") = Some m /\ names m = names ms) /\
    (forall vf, given (L "material_map") c = false -> given (L "materials") c = false -> kid c (L "volume_fractions") = Some vf ->
       exists m, kid e (L "material_map") = Some m /\ names m = names vf /\
         forall j k, nth_error (names vf) j = Some k -> kid m k = Some (int64 j))
  else if str_eqb p (L "specsets") then
    same [L "matset"] c e /\ exists vs sp, kid c (L "matset_values") = Some vs /\ kid e (L "species") = Some sp /\ names sp = names vs /\
      forall m v, kid vs m = Some v -> exists x, kid sp m = Some x /\ names x = member_names v
  else if str_eqb p (L "fields") then
    same [L "topology"; L "matset"; L "volume_dependent"; L "association"] c e /\
    (given (L "association") c = false -> same [L "basis"] c e) /\
    (forall v, kid c (L "values") = Some v -> kid e (L "number_of_components") = Some (int64 (width v))) /\
    (forall vs m v r, given (L "values") c = false -> kid c (L "matset_values") = Some vs -> kids vs = (m, v) :: r ->
       kid e (L "number_of_components") = Some (int64 (width v)))
  else same [L "association"; L "topology"] c e.
(** section by section: the same names in the same order, each with its path *)
Definition index_of (rp : str) (d i : tree) : Prop :=
  forall p, In p sections ->
    match kid d p with
    | None => kid i p = None
    | Some sec => exists es, kid i p = Some (TObj es) /\ map fst es = member_names sec /\
        forall k c, kid sec k = Some c -> exists e, mget es k = Some e /\
          kid e (L "path") = Some (TStr (place rp p k)) /\ says p c e
    end.
(** what the index says of the domain as a whole *)
Definition state_of (rp : str) (d i : tree) (z : Z) : Prop := exists s, kid i (L "state") = Some s /\ kid s (L "number_of_domains") = Some (TNum INT64 [z]) /\
  forall t, kid d (L "state") = Some t -> kid s (L "cycle") = kid t (L "cycle") /\ kid s (L "time") = kid t (L "time") /\ kid s (L "path") = Some (TStr (join_path rp (L "state"))).

(** * Meshes of several domains *)
(** parts of the same name of which one entry tells all: *)
Definition names_at (f : str) (c : tree) : option (list str) := option_map member_names (kid c f).
Definition components (c : tree) : option nat :=
  match kid c (L "values"), kid c (L "matset_values") with
  | Some v, _ => Some (width v)
  | None, Some vs => match kids vs with (_, v) :: _ => Some (width v) | [] => None end
  | None, None => None
  end.
Definition alike (p : str) (a b : tree) : Prop :=
  if str_eqb p (L "coordsets") then same [L "type"] a b /\ axis_names a = axis_names b
  else if str_eqb p (L "topologies") then same [L "type"; L "coordset"; L "grid_function"] a b
  else if str_eqb p (L "matsets") then
    same [L "topology"; L "material_map"] a b /\ (given (L "material_map") a = false ->
      names_at (L "materials") a = names_at (L "materials") b /\ names_at (L "volume_fractions") a = names_at (L "volume_fractions") b)
  else if str_eqb p (L "specsets") then
    same [L "matset"] a b /\
    option_map (fun vs => map (fun e => (fst e, member_names (snd e))) (kids vs)) (kid a (L "matset_values")) =
    option_map (fun vs => map (fun e => (fst e, member_names (snd e))) (kids vs)) (kid b (L "matset_values"))
  else if str_eqb p (L "fields") then
    same [L "topology"; L "matset"; L "volume_dependent"; L "association"] a b /\
    (given (L "association") a = false -> same [L "basis"] a b) /\ components a = components b
  else same [L "association"; L "topology"] a b.
(** the part k of section p *)
Definition part (d : tree) (p k : str) : option tree := match kid d p with Some sec => kid sec k | None => None end.
Definition consistent (ds : list tree) : Prop :=
  forall d d' p k a b, In d ds -> In d' ds -> In p sections -> part d p k = Some a -> part d' p k = Some b -> alike p a b.
(** every part of every domain is listed with its path, and nothing else *)
Definition index_of_all (rp : str) (ds : list tree) (i : tree) : Prop :=
  (forall d p k c, In d ds -> In p sections -> part d p k = Some c ->
     exists e, part i p k = Some e /\ kid e (L "path") = Some (TStr (place rp p k)) /\ says p c e) /\
  (forall p s, In p sections -> kid i p = Some s -> object_ s = true /\
     forall k e, part i p k = Some e -> exists d c, In d ds /\ part d p k = Some c).
