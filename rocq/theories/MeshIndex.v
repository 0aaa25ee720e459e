(** Indices of meshes: blueprint::mesh::generate_index and mesh::index::verify,
    src/libs/blueprint/conduit_blueprint_mesh.cpp 2111-2471 and 7207-7411, and the functions
    below them.

    Trees and reports are those of MeshVerify.v.  An entry of the index is written in full
    where the code sets its children one after the other; names of children are distinct,
    have no '/' in them and are not empty. *)
From Coq Require Import ZArith.
From Verif Require Import Base DType SpecTree Mem Node Number ArrayOps NumConv Json Path MeshVerify.
Import ListNotations.

(** * Building the index *)
Definition text (n : tree) (f : str) : outcome str := do c <- fetch n f; as_string c.
Definition names_of (n : tree) : list str := map fst (kids n).
Definition count (n : nat) : tree := TNum INT64 [Z.of_nat n].
(** reading idx[p] of a node that is not const makes the child; existing ones stay *)
Definition marked (l : list str) : list (str * tree) := fold_left (fun acc a => mset acc a TNone) l [].
(** 2212-2216 and get_coordset_info, conduit_blueprint_mesh_utils.cpp 1262-1269 *)
Definition strip_d (a : str) : str :=
  match a with c :: (_ :: _) as r => if ascii_dec c "d" then r else a | _ => a end.
(** 2183-2254: the names of the axes *)
Definition index_axes (c : tree) (ty : str) : outcome (list str) :=
  if str_eqb ty (L "uniform") then
    if has c (L "origin") then do o <- fetch c (L "origin"); Ok (names_of o)
    else if has c (L "spacing") then do s <- fetch c (L "spacing"); Ok (map strip_d (names_of s))
    else do d <- fetch c (L "dims"); Ok (firstn (length (kids d)) [L "x"; L "y"; L "z"])
  else do v <- fetch c (L "values"); Ok (names_of v).
(** get_coordset_info(n).first, conduit_blueprint_mesh_utils.cpp 1227-1295 *)
Definition coordsys (c : tree) : outcome str :=
  do ty <- text c (L "type");
  do n <- fetch c (if str_eqb ty (L "uniform") then
                     if has c (L "origin") then L "origin" else if has c (L "spacing") then L "spacing" else L "dims"
                   else L "values");
  let any l := existsb (fun a => existsb (str_eqb a) l) (map strip_d (names_of n)) in
  Ok (if any [L "theta"; L "phi"] then L "spherical"
      else if any [L "r"] then L "cylindrical"
      else if any [L "x"; L "y"; L "z"] then L "cartesian"
      else if any [L "i"; L "j"; L "k"] then L "logical"
      else L "unknown").
Definition ref (rp p name : str) : tree := TStr (join_path (join_path rp p) name).
Definition idx_coordset (rp name : str) (c : tree) : outcome tree :=
  do ty <- text c (L "type");
  do axes <- index_axes c ty;
  do s <- coordsys c;
  Ok (TObj [(L "type", TStr ty);
            (L "coord_system", TObj ((match axes with [] => [] | _ => [(L "axes", TObj (marked axes))] end) ++
                                     [(L "type", TStr (if str_eqb s (L "logical") then L "cartesian" else s))]));
            (L "path", ref rp (L "coordsets") name)]).
(** 2284-2307 *)
Definition optional (n : tree) (f : str) : outcome (list (str * tree)) :=
  if has n f then do s <- text n f; Ok [(f, TStr s)] else Ok [].
Definition idx_topology (rp name : str) (c : tree) : outcome tree :=
  do ty <- text c (L "type");
  do cs <- text c (L "coordset");
  do g <- optional c (L "grid_function");
  Ok (TObj ([(L "type", TStr ty); (L "coordset", TStr cs); (L "path", ref rp (L "topologies") name)] ++ g)).
(** 2309-2355 *)
Definition idx_matset (rp name : str) (c : tree) : outcome tree :=
  do t <- text c (L "topology");
  do m <- (if has c (L "material_map") then do m <- fetch c (L "material_map"); Ok [(L "material_map", m)]
           else if has c (L "materials") then
             do m <- fetch c (L "materials");
             Ok (match names_of m with [] => [] | l => [(L "materials", TObj (marked l))] end)
           else if has c (L "volume_fractions") then
             do v <- fetch c (L "volume_fractions");
             Ok (match names_of v with [] => [] | l => [(L "material_map", TObj (combine l (map count (seq 0 (length l)))))] end)
           else Err);
  Ok (TObj ([(L "topology", TStr t)] ++ m ++ [(L "path", ref rp (L "matsets") name)])).
(** 2357-2388: materials without species are not made *)
Definition idx_specset (rp name : str) (c : tree) : outcome tree :=
  do m <- text c (L "matset");
  do vs <- fetch c (L "matset_values");
  let sp := flat_map (fun e => match names_of (snd e) with [] => [] | l => [(fst e, TObj (marked l))] end) (kids vs) in
  Ok (TObj ([(L "matset", TStr m)] ++ match sp with [] => [] | _ => [(L "species", TObj sp)] end ++
            [(L "path", ref rp (L "specsets") name)])).
(** 2390-2445 *)
Definition components_of (n : tree) : nat := match n with TObj es => length es | _ => 1 end.
Definition idx_field (rp name : str) (c : tree) : outcome tree :=
  do k <- (if has c (L "values") then do v <- fetch c (L "values"); Ok (components_of v)
           else do v <- fetch c (L "matset_values"); match kids v with (_, x) :: _ => Ok (components_of x) | [] => Err end);
  do t <- optional c (L "topology");
  do m <- optional c (L "matset");
  do v <- optional c (L "volume_dependent");
  do a <- (if has c (L "association") then do a <- fetch c (L "association"); Ok (L "association", a)
           else do b <- fetch c (L "basis"); Ok (L "basis", b));
  Ok (TObj ([(L "number_of_components", count k)] ++ t ++ m ++ v ++ [a; (L "path", ref rp (L "fields") name)])).
(** 2447-2486: p is adjsets or nestsets *)
Definition idx_meeting (p : str) (rp name : str) (c : tree) : outcome tree :=
  do a <- text c (L "association");
  do t <- text c (L "topology");
  Ok (TObj [(L "association", TStr a); (L "topology", TStr t); (L "path", ref rp p name)]).
(** one section: the child of the index is made with its first entry *)
Definition idx_section (d : tree) (p : str) (f : str -> tree -> outcome tree) : outcome (list (str * tree)) :=
  if has d p then
    do s <- fetch d p;
    do es <- omapM (fun e => do x <- f (fst e) (snd e); Ok (fst e, x)) (kids s);
    Ok (match es with [] => [] | _ => [(p, TObj es)] end)
  else Ok [].
(** 2164-2181 *)
Definition idx_state (rp : str) (d : tree) : outcome (list (str * tree)) :=
  if has d (L "state") then
    do s <- fetch d (L "state");
    let part f := match kid s f with Some c => [(f, c)] | None => [] end in
    Ok [(L "state", TObj (part (L "cycle") ++ part (L "time") ++ [(L "path", TStr (join_path rp (L "state")))]))]
  else Ok [].
(** generate_index_for_single_domain, 2152-2490 *)
Definition index_domain (rp : str) (d : tree) : outcome tree :=
  if negb (has d (L "coordsets")) then Err
  else
    do st <- idx_state rp d;
    do cs <- idx_section d (L "coordsets") (idx_coordset rp);
    do ts <- idx_section d (L "topologies") (idx_topology rp);
    do ms <- idx_section d (L "matsets") (idx_matset rp);
    do ss <- idx_section d (L "specsets") (idx_specset rp);
    do fs <- idx_section d (L "fields") (idx_field rp);
    do a <- idx_section d (L "adjsets") (idx_meeting (L "adjsets") rp);
    do n <- idx_section d (L "nestsets") (idx_meeting (L "nestsets") rp);
    Ok (match st ++ cs ++ ts ++ ms ++ ss ++ fs ++ a ++ n with [] => TNone | l => TObj l end).

(** Node::update, conduit_node.cpp 8509-8585.  A shorter text copied over a longer one ends
    with its 0, so as_string gives the new one *)
Definition ents (n : tree) : list (str * tree) := match n with TObj es => es | _ => [] end.
Definition get (es : list (str * tree)) (k : str) : tree := match mget es k with Some c => c | None => TNone end.
Fixpoint update (src : tree) (dst : tree) : tree :=
  match src with
  | TObj [] => dst
  | TObj es => TObj ((fix go l acc := match l with [] => acc | (k, c) :: r => go r (mset acc k (update c (get acc k))) end) es (ents dst))
  | TList ts =>
      match ts, dst with
      | [], _ => dst
      | _, TList ds => TList ((fix go l ds := match l, ds with
                                              | [], _ => ds
                                              | c :: r, d :: ds => update c d :: go r ds
                                              | c :: r, [] => update c TNone :: go r [] end) ts ds)
      | _, _ => TList (map (fun c => update c TNone) ts)
      end
  | TNone => dst
  | TStr s => TStr s
  | TNum t vs =>
      match dst with
      | TNum t' ws => if tid_eqb t t' && Nat.leb (length vs) (length ws) then TNum t (vs ++ skipn (length vs) ws) else src
      | _ => src
      end
  end.
(** mesh::generate_index, 2111-2148 *)
Fixpoint index_domains (rp : str) (l : list tree) (acc : tree) : outcome tree :=
  match l with
  | [] => Ok acc
  | d :: r => do i <- index_domain rp d; index_domains rp r (update i acc)
  end.
Definition put_ (n : tree) (k : str) (c : tree) : tree := TObj (mset (ents n) k c).
Definition generate_index (n : tree) (rp : str) (domains : Z) : outcome tree :=
  match n with
  | TNone => Err
  | _ =>
      do i <- (if has n (L "coordsets") then index_domain rp n else index_domains rp (map snd (kids n)) TNone);
      Ok (put_ i (L "state") (put_ (get (ents i) (L "state")) (L "number_of_domains") (TNum INT64 [domains])))
  end.

(** * Checking the index *)
(** coordset::coord_system::verify, 4055-4106 *)
Definition system_axes (s : str) : list str :=
  if str_eqb s (L "cartesian") then [L "x"; L "y"; L "z"]
  else if str_eqb s (L "cylindrical") then [L "r"; L "z"]
  else [L "r"; L "theta"; L "phi"].
Definition systems := [L "cartesian"; L "cylindrical"; L "spherical"].
Definition v_system (n : tree) : V :=
  reset (finish (bindV (v_enum n (L "type") systems) (fun a =>
    bindV (v_obj n (L "axes")) (fun b =>
      if b then
        if a then
          need (fetch n (L "axes")) (fun ax =>
          need (fetch n (L "type")) (fun t => fun i => do s <- as_string t;
            each (fun e => if existsb (str_eqb (fst e)) (system_axes s) then ret true else fails) (kids ax) i))
        else ret false
      else ret false)))).
(** coordset::index::verify, 4120-4137 *)
Definition coordset_index (n : tree) : V :=
  reset (finish (all_ [v_sub (v_name coord_types) n (L "type"); v_str n (L "path"); v_objsub v_system n (L "coord_system")])).
(** topology::index::verify, 6058-6080 *)
Definition topology_index (n : tree) : V :=
  reset (finish (all_ [v_sub (v_name topo_types) n (L "type"); v_str n (L "coordset"); v_str n (L "path");
    when (has n (L "grid_function")) (tell log_optional (v_str n (L "grid_function")))])).
(** matset::index::verify, 6395-6424 *)
Definition matset_index (n : tree) : V :=
  reset (finish (all_ [v_str n (L "topology");
    (if has n (L "material_map") then v_material_map n else v_obj n (L "materials")); v_str n (L "path")])).
(** specset::index::verify, 6692-6710 *)
Definition specset_index (n : tree) : V :=
  reset (finish (all_ [v_str n (L "matset"); v_obj n (L "species"); v_str n (L "path")])).
(** field::index::verify, 6579-6624 *)
Definition field_index (n : tree) : V :=
  reset (finish (all_
    [(if negb (has n (L "association")) && negb (has n (L "basis")) then fails else ret true);
     v_given (v_name associations) n (L "association");
     v_given v_basis n (L "basis");
     (if negb (has n (L "topology")) && negb (has n (L "matset")) then fails else ret true);
     when (has n (L "topology")) (v_str n (L "topology"));
     when (has n (L "matset")) (v_str n (L "matset"));
     v_int n (L "number_of_components"); v_str n (L "path")])).
(** adjset::index::verify, nestset::index::verify, 7073-7090, 7163-7180 *)
Definition meeting_index (n : tree) : V :=
  reset (finish (all_ [v_str n (L "topology"); v_sub (v_name associations) n (L "association"); v_str n (L "path")])).
(** mesh::index::verify, 7207-7411 *)
Definition index_verify (n : tree) : outcome (bool * itree) :=
  reset (finish (all_
    [section n (L "coordsets") coordset_index (fun _ => []);
     section n (L "topologies") topology_index (fun _ => [(L "coordset", L "coordsets")]);
     when (has n (L "matsets")) (section n (L "matsets") matset_index to_topology);
     when (has n (L "specsets")) (section n (L "specsets") specset_index (fun _ => [(L "matset", L "matsets")]));
     when (has n (L "fields")) (section n (L "fields") field_index field_refs);
     when (has n (L "adjsets")) (section n (L "adjsets") meeting_index to_topology);
     when (has n (L "nestsets")) (section n (L "nestsets") meeting_index to_topology)])) INone.
