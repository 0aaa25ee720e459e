(** Meshes as tables: blueprint::mesh::flatten,
    src/libs/blueprint/conduit_blueprint_mesh_flatten.cpp and .hpp.

    A mesh is the list of its domains (execute, 509-525, puts a single domain in such a
    list).  Arrays are typed lists of numbers; an element of a topology is the list of the
    vertices iterate_elements gives for it (for a polyhedron those of all its faces, one
    after another, 296-312).  A coordinate set carries its explicit form: coordset_to_explicit
    (600-621) is the identity on explicit ones, and C48 is about the others; with it come the
    types of the leaves below the node of a uniform or rectilinear one.  The options are
    taken after set_options (356-505) has read them.  Messages are left out.  A table is the
    association list below "values"; an empty list is a table that was removed. *)
From Coq Require Import ZArith Floats.SpecFloat.
From Verif Require Import Base DType SpecTree Mem Node Number ArrayOps NumConv FloatText MeshConv.
Import ListNotations.

Record col := Col { c_ty : tid; c_vals : list number }.
Inductive vals := VArr (c : col) | VMc (cs : list (str * col)).
Record topo := Topo { t_cset : str; t_elems : list (list nat) }.
Record cset := Cset { cs_leaves : option (list tid); cs_values : list (str * col) }.
Record field := Field { f_topo : option str; f_matset : bool; f_assoc : option str; f_vals : vals }.
Record dom := Dom { d_id : option Z; d_topos : list (str * topo); d_csets : list (str * cset);
                    d_fields : option (list (str * field)) }.
Record opts := Opts { o_topo : str; o_names : list str; o_float : spec_float; o_int : Z;
                      o_centers : bool; o_info : bool; o_verts : bool }.
Notation table := (list (str * vals)).

(** a child that has to be there (const fetch: an error otherwise) *)
Definition need {A} (o : option A) : outcome A := match o with Some x => Ok x | None => Err end.
Definition slot {A} (l : list A) (i : nat) : outcome A :=
  match nth_error l i with Some x => Ok x | None => UB end.

(** get_topology, 535-539, with the name of the node *)
Definition get_topo (o : opts) (d : dom) : outcome (str * topo) :=
  match o_topo o with
  | [] => match d_topos d with t :: _ => Ok t | [] => Err end
  | n => do t <- need (mget (d_topos d) n); Ok (n, t)
  end.
(** get_coordset, 527-532 *)
Definition get_cset (o : opts) (d : dom) : outcome (str * cset) :=
  do t <- get_topo o d;
  do c <- need (mget (d_csets d) (t_cset (snd t)));
  Ok (t_cset (snd t), c).
(** coordset::axes, conduit_blueprint_mesh_utils.cpp 1304-1310 *)
Definition cs_axes (c : cset) : list str := axes_of (map fst (cs_values c)).
(** coordset::length, conduit_blueprint_mesh_utils.cpp 1326-1350: the length of the array of
    the last axis *)
Definition cs_length (c : cset) : outcome nat :=
  for_ (cs_axes c) (fun a _ => do v <- need (mget (cs_values c) a); Ok (length (c_vals v))) 1%nat.
Definition topo_length (t : topo) : nat := length (t_elems t).

(** determine_element_dtype, 770-781; find_widest_dtype takes the leaves from the back *)
Definition elem_type (leaves : list tid) : tid := find_widest [FLOAT32; INT32; UINT32] (rev leaves).
Definition leaves_of (v : vals) : list tid :=
  match v with VArr c => [c_ty c] | VMc cs => map (fun c => c_ty (snd c)) cs end.

(** collect_mesh_info, 542-597 *)
Record info := Info { i_verts : list nat; i_elems : list nat; i_ids : list Z;
                      i_axes : list str; i_type : tid; i_cset : str }.
Definition sizes (o : opts) (d : dom) : outcome (nat * nat) :=
  do t <- get_topo o d;
  do c <- get_cset o d;
  do n <- cs_length (snd c);
  Ok (n, topo_length (snd t)).
Definition has_id (d : dom) : list Z := match d_id d with Some i => [i] | None => [] end.
Definition collect (o : opts) (ds : list dom) : outcome info :=
  do ss <- omapM (sizes o) ds;
  match ds with
  | [] => Err
  | d0 :: _ =>
      do c <- get_cset o d0;
      let given := concat (map has_id ds) in
      Ok (Info (map fst ss) (map snd ss)
            (if Nat.eqb (length given) (length ds) then given else map Z.of_nat (seq 0 (length ds)))
            (cs_axes (snd c))
            (elem_type (match cs_leaves (snd c) with
                        | Some l => l
                        | None => map (fun v => c_ty (snd v)) (cs_values (snd c)) end))
            (fst c))
  end.

(** check_field_supported, 623-672 *)
Definition supported (report : bool) (tn : str) (f : field) : outcome bool :=
  match f_topo f with
  | None => if f_matset f then Ok false else if report then Err else Ok false
  | Some t => Ok (str_eqb t tn && match f_assoc f with Some _ => true | None => false end)
  end.
(** get_fields_to_flatten, 675-745 *)
Definition fields_list (d : dom) : list (str * field) := match d_fields d with Some l => l | None => [] end.
Fixpoint find_named (tn : str) (ds : list dom) (n : str) : outcome bool :=
  match ds with
  | [] => Ok false
  | d :: r =>
      match mget (fields_list d) n with
      | Some f => do b <- supported true tn f; if b then Ok true else find_named tn r n
      | None => find_named tn r n
      end
  end.
Definition fields_to_flatten (o : opts) (tn : str) (ds : list dom) : outcome (list str) :=
  match o_names o with
  | [] =>
      for_ ds (fun d acc =>
        do fs <- need (d_fields d);
        for_ fs (fun nf acc =>
          if existsb (str_eqb (fst nf)) acc then Ok acc
          else do b <- supported true tn (snd nf); Ok (if b then acc ++ [fst nf] else acc)) acc) []
  | names =>
      for_ names (fun n acc => do b <- find_named tn ds n; Ok (if b then acc ++ [n] else acc)) []
  end.
(** get_reference_field, 748-767 *)
Fixpoint reference (tn : str) (ds : list dom) (n : str) : outcome (option field) :=
  match ds with
  | [] => Ok None
  | d :: r =>
      do fs <- need (d_fields d);
      match mget fs n with
      | Some f => do b <- supported false tn f; if b then Ok (Some f) else reference tn r n
      | None => reference tn r n
      end
  end.

(** default_initialize_column, 784-858, on a column of zeros *)
Definition fill (o : opts) (t : tid) : outcome number :=
  if is_float t then
    match o_float o with
    | S754_zero _ => Ok (zero_of t)
    | x => cast t (NF x)
    end
  else if is_int t then
    if Z.eqb (o_int o) 0 then Ok (zero_of t) else cast t (NI (o_int o))
  else Err.
(** allocate_column, 861-890: an array; an array for each component *)
Definition fresh (o : opts) (t : tid) (n : nat) : outcome col :=
  do v <- fill o t; Ok (Col t (repeat v n)).
Definition alloc (o : opts) (tb : table) (name : str) (n : nat) (t : tid) : outcome table :=
  do c <- fresh o t n; Ok (mset tb name (VArr c)).
Definition comps (tb : table) (name : str) : list (str * col) :=
  match mget tb name with Some (VMc cs) => cs | _ => [] end.
Definition alloc_comp (o : opts) (name : str) (n : nat) (t : tid) (a : str) (tb : table) : outcome table :=
  do c <- fresh o t n; Ok (mset tb name (VMc (mset (comps tb name) a c))).
(** table["values/" + name] creates the column *)
Definition touch (tb : table) (name : str) : table :=
  match mget tb name with Some _ => tb | None => mset tb name (VMc []) end.
Definition alloc_as (o : opts) (tb : table) (name : str) (n : nat) (t : tid) (ref : vals) : outcome table :=
  match ref with
  | VArr _ => alloc o tb name n t
  | VMc cs => for_ (map fst cs) (alloc_comp o name n t) (touch tb name)
  end.

(** writing ws from row off on *)
Definition splice (c : col) (off : nat) (ws : list number) : col :=
  Col (c_ty c) (firstn off (c_vals c) ++ ws ++ skipn (off + length ws) (c_vals c)).
(** append_data_array, 160-249, with append_data_array_impl1 and 2, 69-158 *)
Definition append_array (src : col) (dst : col) (off n : nat) : outcome col :=
  if Nat.ltb (length (c_vals dst)) (off + n) then Err
  else if negb (numeric (c_ty src) && numeric (c_ty dst)) then Err
  else do ws <- omapM (fun i => do v <- slot (c_vals src) i; cast (c_ty dst) v) (seq 0 n);
       Ok (splice dst off ws).
(** append_mc_data, 252-268 *)
Definition append_mc (src : list (str * col)) (dst : list (str * col)) (off n : nat) : outcome (list (str * col)) :=
  for_ src (fun s dst =>
    do d <- need (mget dst (fst s));
    do d' <- append_array (snd s) d off n;
    Ok (mset dst (fst s) d')) dst.
(** append_data, 271-284, on a column that exists; an array has no children, an object no
    elements *)
Definition append_vals (src dst : vals) (off n : nat) : outcome vals :=
  match src, dst with
  | VArr s, VArr d => do d' <- append_array s d off n; Ok (VArr d')
  | VMc s, VMc d => do d' <- append_mc s d off n; Ok (VMc d')
  | VMc [], VArr d => Ok dst
  | _, _ => Err
  end.
Definition append (tb : table) (name : str) (src : vals) (off n : nat) : outcome table :=
  let tb := touch tb name in
  do d <- need (mget tb name);
  do d' <- append_vals src d off n;
  Ok (mset tb name d').

(** generate_element_centers_impl, 287-331: the sum of the coordinates as float64, in order,
    by their number; the sum of none is 0 *)
Definition real (v : number) : outcome spec_float :=
  do w <- cast FLOAT64 v; match w with NF x => Ok x | NI _ => UB end.
Definition center (c : col) (e : list nat) : outcome number :=
  do s <- for_ e (fun i s => do v <- slot (c_vals c) i; do x <- real v; Ok (dadd s x)) (S754_zero false);
  do n <- real (NI (Z.of_nat (length e)));
  Ok (NF (ddiv s n)).
(** generate_element_centers, 892-1053.  The columns are float64 (default_dtype, 344); a
    column of another type is only there when a field is named element_centers.  Components
    of different types: to_data_type of an object is an error.  DataArray does not check
    indices. *)
Definition set_comp (cs : list (str * col)) (i : nat) (c : col) : list (str * col) :=
  set_nth cs i (match nth_error cs i with Some (k, _) => k | None => [] end, c).
Definition overwrite (c : col) (off : nat) (ws : list number) : outcome col :=
  if Nat.ltb (length (c_vals c)) (off + length ws) then UB else Ok (splice c off ws).
Definition centers (t : topo) (cs : list (str * col)) (tb : table) (off : nat) : outcome table :=
  match mget tb (L "element_centers") with
  | Some (VMc out) =>
      do o0 <- slot out 0;
      if negb (is_float (c_ty (snd o0))) then Err
      else
        let ct := elem_type (map (fun c => c_ty (snd c)) cs) in
        if negb (forallb (fun c => if tid_eq_dec (c_ty (snd c)) ct then true else false) cs) then Err
        else if Nat.ltb 3 (length cs) then UB
        else
          do out' <- for_ (seq 0 (length cs)) (fun i out =>
              do c <- slot cs i;
              do d <- slot out i;
              do ws <- omapM (center (snd c)) (t_elems t);
              if tid_eq_dec (c_ty (snd d)) FLOAT64 then
                do d' <- overwrite (snd d) off ws; Ok (set_comp out i d')
              else Err) out;
          Ok (mset tb (L "element_centers") (VMc out'))
  | _ => UB
  end.

(** for_each_in_range, mesh_flatten.hpp 206-284, storing zs *)
Definition set_range (tb : table) (name : str) (off : nat) (zs : list Z) : outcome table :=
  match mget tb name with
  | Some (VArr c) =>
      if negb (numeric (c_ty c)) then Err
      else do ws <- omapM (fun z => cast (c_ty c) (NI z)) zs;
           do c' <- overwrite c off ws; Ok (mset tb name (VArr c'))
  | _ => Err
  end.
Definition set_ids (tb : table) (ids : str) (off n : nat) (id : Z) : outcome table :=
  match mget tb (L "domain_id"), mget tb ids with
  | Some _, Some _ =>
      do tb <- set_range tb (L "domain_id") off (repeat id n);
      set_range tb ids off (map Z.of_nat (seq 0 n))
  | _, _ => Ok tb
  end.

(** flatten_single_domain, 1082-1189 *)
Definition single (o : opts) (names : list str) (d : dom) (id : Z) (voff eoff : nat) (s : table * table)
  : outcome (table * table) :=
  let '(vt, et) := s in
  do t <- get_topo o d;
  do c <- get_cset o d;
  let ne := topo_length (snd t) in
  do nv <- cs_length (snd c);
  do vt <- (if o_verts o then
              match vt with
              | [] => UB
              | (k, v) :: _ =>
                  do v' <- append_vals (VMc (cs_values (snd c))) v voff nv; Ok (mset vt k v')
              end
            else Ok vt);
  do et <- (if o_centers o then centers (snd t) (cs_values (snd c)) et eoff else Ok et);
  do vt <- set_ids vt (L "vertex_id") voff nv id;
  do et <- set_ids et (L "element_id") eoff ne id;
  do fs <- need (d_fields d);
  for_ names (fun n s =>
    match mget fs n with
    | None => Ok s
    | Some f =>
        do a <- need (f_assoc f);
        if str_eqb a (L "vertex") then do vt <- append (fst s) n (f_vals f) voff nv; Ok (vt, snd s)
        else if str_eqb a (L "element") then do et <- append (snd s) n (f_vals f) eoff ne; Ok (fst s, et)
        else Ok s
    end) (vt, et).

(** flatten_many_domains, 1192-1291 *)
Definition add_ids (o : opts) (tb : table) (ids : str) (n : nat) : outcome table :=
  if negb (Nat.eqb (length tb) 0) && o_info o then
    do tb <- alloc o tb (L "domain_id") n INT64; alloc o tb ids n INT64
  else Ok tb.
Fixpoint domains (o : opts) (names : list str) (ds : list dom) (ids : list Z) (vs es : list nat)
    (voff eoff : nat) (s : table * table) : outcome (table * table) :=
  match ds, ids, vs, es with
  | d :: ds, id :: ids, v :: vs, e :: es =>
      do s <- single o names d id voff eoff s;
      domains o names ds ids vs es (voff + v) (eoff + e) s
  | _, _, _, _ => Ok s
  end.
Definition allocate (o : opts) (tn : str) (ds : list dom) (names : list str) (nv ne : nat) (s : table * table)
  : outcome (table * table) :=
  for_ names (fun n s =>
    do r <- reference tn ds n;
    do f <- need r;
    do a <- need (f_assoc f);
    let ty := elem_type (leaves_of (f_vals f)) in
    if str_eqb a (L "vertex") then do vt <- alloc_as o (fst s) n nv ty (f_vals f); Ok (vt, snd s)
    else if str_eqb a (L "element") then do et <- alloc_as o (snd s) n ne ty (f_vals f); Ok (fst s, et)
    else Err) s.
Definition flatten (o : opts) (ds : list dom) : outcome (table * table) :=
  do i <- collect o ds;
  let nv := list_sum (i_verts i) in
  let ne := list_sum (i_elems i) in
  do vt <- (if o_verts o then for_ (i_axes i) (alloc_comp o (i_cset i) nv (i_type i)) [] else Ok []);
  do et <- (if o_centers o then for_ (i_axes i) (alloc_comp o (L "element_centers") ne FLOAT64) [] else Ok []);
  match ds with
  | [] => Err
  | d0 :: _ =>
      do t0 <- get_topo o d0;
      do names <- fields_to_flatten o (fst t0) ds;
      do s <- allocate o (fst t0) ds names nv ne (vt, et);
      do vt <- add_ids o (fst s) (L "vertex_id") nv;
      do et <- add_ids o (snd s) (L "element_id") ne;
      domains o names ds (i_ids i) (i_verts i) (i_elems i) 0 0 (vt, et)
  end.
