(** Checking meshes: blueprint::mesh::verify and the functions below it,
    src/libs/blueprint/conduit_blueprint_mesh.cpp; conduit_blueprint_mcarray.cpp and
    conduit_blueprint_o2mrelation.cpp for arrays and relations; conduit_log.cpp for the
    report.

    A node is a tree; of an array of floats only the type and the length are looked at, so
    its values may be anything.  Names have no '/' in them (as with every tree made by
    paths).  In the report, messages are left out: a list of messages is [IMsgs].  The
    default handlers are in place: warnings are errors, too, so as_string of something
    else is an error. *)
From Coq Require Import ZArith.
From Verif Require Import Base DType SpecTree Mem Node Number ArrayOps NumConv Json.
Import ListNotations.

Inductive tree := TNone | TObj (es : list (str * tree)) | TList (ts : list tree) | TStr (s : str) | TNum (t : tid) (vs : list Z).
(** has_child and operator[] of a const node *)
Definition kid (n : tree) (k : str) : option tree := match n with TObj es => mget es k | _ => None end.
Definition has (n : tree) (k : str) : bool := match kid n k with Some _ => true | None => false end.
Definition fetch (n : tree) (k : str) : outcome tree := match kid n k with Some c => Ok c | None => Err end.
(** children(), with the names of the iterator (conduit_node_iterator.cpp 391-406) *)
Definition kids (n : tree) : list (str * tree) :=
  match n with
  | TObj es => es
  | TList ts => combine (map (fun i => show_Z (Z.of_nat i)) (seq 0 (length ts))) ts
  | _ => []
  end.
Definition is_object (n : tree) : bool := match n with TObj _ => true | _ => false end.
Definition is_list (n : tree) : bool := match n with TList _ => true | _ => false end.
Definition is_string (n : tree) : bool := match n with TStr _ => true | _ => false end.
Definition is_integer (n : tree) : bool := match n with TNum t _ => is_int t | _ => false end.
Definition is_number (n : tree) : bool := match n with TNum t _ => numeric t | _ => false end.
(** dtype().number_of_elements(): a string has its final 0 *)
Definition numel (n : tree) : nat :=
  match n with TStr s => Datatypes.S (length s) | TNum _ vs => length vs | _ => 0 end.
Definition as_string (n : tree) : outcome str := match n with TStr s => Ok s | _ => Err end.

(** * The report (conduit_log.cpp 38-75) *)
Inductive itree := INone | IObj (es : list (str * itree)) | IFlag (b : bool) | IMsgs.
Definition ikids (i : itree) : list (str * itree) := match i with IObj es => es | _ => [] end.
(** operator[] of a node: makes an object of anything else *)
Definition iget (i : itree) (k : str) : itree := match mget (ikids i) k with Some c => c | None => INone end.
Definition iput (i : itree) (k : str) (c : itree) : itree := IObj (mset (ikids i) k c).
Definition log_info (i : itree) : itree := iput i (L "info") IMsgs.
Definition log_optional (i : itree) : itree := iput i (L "optional") IMsgs.
Definition log_error (i : itree) : itree := iput i (L "errors") IMsgs.
Definition validation (i : itree) (r : bool) : outcome itree :=
  match mget (ikids i) (L "valid") with
  | None => Ok (iput i (L "valid") (IFlag r))
  | Some (IFlag b) => Ok (iput i (L "valid") (IFlag (r && b)))
  | Some _ => Err
  end.

(** * Steps of a check: the report is passed on *)
Definition V := itree -> outcome (bool * itree).
Definition ret (b : bool) : V := fun i => Ok (b, i).
Definition bindV (v : V) (k : bool -> V) : V := fun i => do r <- v i; k (fst r) (snd r).
Definition tell (f : itree -> itree) (v : V) : V := fun i => v (f i).
Definition need (o : outcome tree) (k : tree -> V) : V := fun i => do n <- o; k n i.
Definition fails : V := tell log_error (ret false).
(** a && b: b is not run when a fails *)
Definition andb_ (a b : V) : V := bindV a (fun x => if x then b else ret false).
(** res &= a; res &= b; ...: all are run *)
Definition also (a b : V) : V := bindV a (fun x => bindV b (fun y => ret (x && y))).
Definition all_ (l : list V) : V := fold_right also (ret true) l.
Definition each {A} (f : A -> V) (l : list A) : V := all_ (map f l).
(** passing info[k] *)
Definition at_ (k : str) (v : V) : V := fun i => do r <- v (iget i k); Ok (fst r, iput i k (snd r)).
Definition reset (v : V) : V := fun _ => v INone.
(** log::validation(info, res) *)
Definition valid (b : bool) : V := fun i => do j <- validation i b; Ok (b, j).
Definition finish (v : V) : V := bindV v valid.
Definition when (b : bool) (v : V) : V := if b then v else ret true.

(** * Fields of a node *)
(** verify_field_exists, 197-216, of a named field *)
Definition exists_ (n : tree) (f : str) : V :=
  bindV (if has n f then ret true else fails) (fun r => at_ f (valid r)).
(** verify_integer_field, verify_number_field, verify_string_field, verify_object_field,
    219-341: they differ in the test only *)
Definition typed (p : tree -> bool) (n : tree) (f : str) : V :=
  bindV (tell (fun i => iput i f (iget i f)) (exists_ n f)) (fun r =>
  bindV (match kid n f with
         | Some c => if r then if p c then ret true else fails else ret false
         | None => ret false
         end) (fun r => at_ f (valid r))).
(** the same without a name *)
Definition typed_self (p : tree -> bool) (n : tree) : V :=
  finish (if p n then ret true else fails).
Definition object_like (allow_list allow_empty : bool) (num : nat) (n : tree) : bool :=
  (is_object n || allow_list && is_list n) &&
  (allow_empty || negb (Nat.eqb (length (kids n)) 0)) &&
  (Nat.eqb num 0 || Nat.eqb (length (kids n)) num).
Definition v_int := typed is_integer.
Definition v_num := typed is_number.
Definition v_str := typed is_string.
Definition v_obj := typed (object_like false false 0).
(** verify_enum_field, 434-473, with and without a name *)
Definition one_of (names : list str) (n : tree) : bool :=
  match n with TStr s => existsb (str_eqb s) names | _ => false end.
Definition v_enum (n : tree) (f : str) (names : list str) : V :=
  bindV (v_str n f) (fun r =>
  bindV (match kid n f with
         | Some c => if r then if one_of names c then tell log_info (ret true) else fails else ret false
         | None => ret false
         end) (fun r => at_ f (valid r))).
Definition v_enum_self (n : tree) (names : list str) : V :=
  bindV (typed_self is_string n) (fun r =>
  finish (if r then if one_of names n then tell log_info (ret true) else fails else ret false)).
(** the fields that have functions of their own: verify_mcarray_field, verify_mlarray_field,
    verify_o2mrelation_field, 344-431 *)
Definition v_by (v : tree -> V) (n : tree) (f : str) : V :=
  bindV (tell (fun i => iput i f (iget i f)) (exists_ n f)) (fun r =>
  bindV (match kid n f with
         | Some c => if r then bindV (at_ f (v c)) (fun r => tell (if r then log_info else log_error) (ret r)) else ret false
         | None => ret false
         end) (fun r => at_ f (valid r))).

(** * Arrays and relations *)
(** mcarray::verify, conduit_blueprint_mcarray.cpp 63-131 *)
Fixpoint mc_lens (num : nat) (l : list (str * tree)) : bool * bool :=
  match l with
  | [] => (true, true)
  | (_, c) :: r =>
      if is_number c then
        let num := if Nat.eqb num 0 then numel c else num in
        let '(a, b) := mc_lens num r in (a && Nat.eqb (numel c) num, b)
      else let '(a, _) := mc_lens num r in (a, false)
  end.
Definition mcarray (n : tree) : V :=
  reset (finish
    (also (if is_object n || is_list n then ret true else fails)
          (let '(a, b) := mc_lens 0 (kids n) in if a && b then ret true else fails))).
(** mlarray::verify, conduit_blueprint_mcarray.cpp 315-439: the nodes by depth; child_names
    of a list is empty *)
Fixpoint depth (n : tree) : nat :=
  match n with
  | TObj es => match es with [] => 0 | _ => Datatypes.S (list_max (map (fun e => depth (snd e)) es)) end
  | TList ts => match ts with [] => 0 | _ => Datatypes.S (list_max (map depth ts)) end
  | _ => 0
  end.
Fixpoint level (d : nat) (n : tree) : list tree :=
  match d with
  | O => [n]
  | Datatypes.S d => flat_map (fun e => level d (snd e)) (kids n)
  end.
Definition child_names (n : tree) : list str := match n with TObj es => map fst es | _ => [] end.
Definition subset (a b : list str) : bool := forallb (fun x => existsb (str_eqb x) b) a.
Definition same_set (a b : list str) : bool := subset a b && subset b a.
Definition mlarray (lo hi : nat) (n : tree) : V :=
  reset
    (let m := depth n in
     let shape := forallb (fun d => match level d n with
                                    | [] => true
                                    | x :: _ => forallb (fun y => same_set (child_names y) (child_names x)) (level d n) end) (seq 0 m) in
     let leaves := forallb is_number (level m n) in
     let deep := negb (Nat.ltb m lo || Nat.ltb hi m) in
     if match n with TNone => false | _ => true end && shape && leaves && deep then ret true else fails).
(** o2mrelation::verify, conduit_blueprint_o2mrelation.cpp 66-148: the report is not reset *)
Definition o2m_paths : list str := [L "sizes"; L "offsets"; L "indices"].
Definition o2m_meta (n : tree) : bool :=
  forallb (fun p => match kid n p with Some c => is_integer c | None => true end) o2m_paths.
Definition o2m_pair (n : tree) : bool :=
  match kid n (L "sizes"), kid n (L "offsets") with
  | Some s, Some o => Nat.eqb (numel s) (numel o)
  | None, None => true
  | _, _ => false
  end.
Definition o2m_data (n : tree) : bool :=
  existsb (fun e => is_number (snd e) && negb (is_object n && existsb (str_eqb (fst e)) o2m_paths)) (kids n).
Definition o2m (n : tree) : V :=
  finish (all_ [(if is_object n then ret true else fails);
                (if o2m_meta n then ret true else fails);
                (if o2m_pair n then ret true else fails);
                (if o2m_data n then tell log_info (ret true) else fails)]).

(** * Parts of meshes *)
(** logical_dims::verify, 3703-3724 *)
Definition v_dims (n : tree) : V :=
  reset (finish (all_ [v_int n (L "i");
                       when (has n (L "j")) (v_int n (L "j"));
                       when (has n (L "k")) (v_int n (L "k"))])).
(** the functions that check a name: association, coordset::type, topology::type,
    topology::shape, nestset::type, 3733-3747, 4034-4047, 6088-6121, 7187-7200 *)
Definition v_name (names : list str) (n : tree) : V := reset (finish (v_enum_self n names)).
Definition associations := [L "vertex"; L "element"].
Definition coord_types := [L "uniform"; L "rectilinear"; L "explicit"].
Definition topo_types := [L "points"; L "uniform"; L "rectilinear"; L "structured"; L "unstructured"].
Definition topo_shapes := [L "point"; L "line"; L "tri"; L "quad"; L "tet"; L "hex"; L "wedge"; L "pyramid";
                           L "polygonal"; L "polyhedral"; L "mixed"].
Definition nest_types := [L "parent"; L "child"].
Definition coord_axes := [L "x"; L "y"; L "z"; L "r"; L "theta"; L "phi"].
(** verify_field_exists(...) && g(n[f], info[f]) *)
Definition v_sub (g : tree -> V) (n : tree) (f : str) : V :=
  andb_ (exists_ n f) (need (fetch n f) (fun c => at_ f (g c))).
(** verify_object_field(...) && g(n[f], info[f]) *)
Definition v_objsub (g : tree -> V) (n : tree) (f : str) : V :=
  andb_ (v_obj n f) (need (fetch n f) (fun c => at_ f (g c))).
(** uniform::origin::verify, uniform::spacing::verify, 3759-3804 *)
Definition v_axes (pre : str) (n : tree) : V :=
  reset (finish (each (fun a => when (has n (pre ++ a)) (v_num n (pre ++ a))) coord_axes)).
Definition v_option (g : tree -> V) (n : tree) (f : str) : V :=
  when (has n f) (tell log_optional (need (fetch n f) (fun c => at_ f (g c)))).
(** coordset::uniform, rectilinear, explicit, 3808-3896 *)
Definition v_uniform (n : tree) : V :=
  reset (finish (all_ [v_enum n (L "type") [L "uniform"];
                       v_objsub v_dims n (L "dims");
                       v_option (v_axes []) n (L "origin");
                       v_option (v_axes (L "d")) n (L "spacing")])).
Definition v_rectilinear (n : tree) : V :=
  reset (finish (all_ [v_enum n (L "type") [L "rectilinear"];
                       andb_ (typed (object_like true false 0) n (L "values"))
                             (need (fetch n (L "values")) (fun vs => each (fun e => if is_number (snd e) then ret true else fails) (kids vs)))])).
Definition v_explicit (n : tree) : V :=
  reset (finish (all_ [v_enum n (L "type") [L "explicit"]; v_by mcarray n (L "values")])).
(** coordset::verify, 3900-3933 *)
Definition coordset (n : tree) : V :=
  reset (finish (bindV (v_sub (v_name coord_types) n (L "type")) (fun r =>
    if r then
      need (fetch n (L "type")) (fun t => fun i =>
        do s <- as_string t;
        if str_eqb s (L "uniform") then v_uniform n i
        else if str_eqb s (L "rectilinear") then v_rectilinear n i
        else if str_eqb s (L "explicit") then v_explicit n i
        else Ok (true, i))
    else ret false))).

(** topology::points, uniform, rectilinear, 4247-4343 *)
Definition v_implicit (t : str) (n : tree) : V :=
  reset (finish (all_ [v_str n (L "coordset"); v_enum n (L "type") [t]])).
(** topology::structured, 4375-4410 *)
Definition v_structured (n : tree) : V :=
  reset (finish (all_ [v_str n (L "coordset"); v_enum n (L "type") [L "structured"];
    andb_ (v_obj n (L "elements"))
          (need (fetch n (L "elements")) (fun e => at_ (L "elements") (finish (v_objsub v_dims e (L "dims")))))])).
(** topology::shape_map::verify, 6128-6158: as_int32 of each child *)
Definition first_int32 (n : tree) : outcome Z :=
  match n with
  | TNum t vs => if tid_eqb t INT32 then match vs with v :: _ => Ok v | [] => UB end else Err
  | _ => Err
  end.
Definition v_shape_map (n : tree) : V :=
  reset (finish (also (typed_self (object_like false false 0) n)
    (each (fun e i => do v <- first_int32 (snd e);
                      (if is_object n && existsb (str_eqb (fst e)) topo_shapes then tell log_info (ret true) else fails) i) (kids n)))).
(** verify_shapes_node, 509-546.  v_shape_map has run: the entries are int32 *)
Definition v_shapes (n map_ : tree) : V :=
  bindV (typed_self is_integer n) (fun r i =>
    if is_string n then Err
    else
      let range := flat_map (fun e => match snd e with TNum _ (v :: _) => [v] | _ => [0%Z] end) (kids map_) in
      let vs := match n with TNum t vs => if is_int t then vs else [] | _ => [] end in
      let ok := forallb (fun v => existsb (Z.eqb (conv INT32 v)) range) vs in
      (if ok then ret r else fails) i).
(** verify_mixed_elements_node, 548-561 *)
Definition v_mixed_part (n : tree) : V :=
  all_ [v_sub (v_name topo_shapes) n (L "shape");
        v_sub v_shape_map n (L "shape_map");
        andb_ (exists_ n (L "shapes"))
              (need (fetch n (L "shapes")) (fun s => need (fetch n (L "shape_map")) (fun m => at_ (L "shapes") (v_shapes s m))))].
(** verify_mixed_node, 563-583; the report is that of the topology *)
Definition v_mixed (n : tree) : V :=
  need (fetch n (L "elements")) (fun e =>
  all_ [at_ (L "elements") (v_mixed_part e);
        v_by o2m n (L "elements");
        when (has n (L "subelements"))
             (need (fetch n (L "subelements")) (fun s => also (at_ (L "subelements") (v_mixed_part s)) (v_by o2m n (L "subelements"))))]).
(** verify_poly_node, 585-658.  [place] is where the report of the node is; [res] is the
    value of elems_res *)
Definition is_shape (s : str) (n : tree) : bool :=
  match kid n (L "shape") with Some (TStr t) => str_eqb t s | _ => false end.
Definition v_faces (n : tree) : V :=
  finish (if has n (L "shape") then
            all_ [v_sub (v_name topo_shapes) n (L "shape");
                  v_int n (L "connectivity");
                  need (fetch n (L "shape")) (fun s => fun i => do s <- as_string s; Ok (str_eqb s (L "polygonal"), i));
                  o2m n]
          else ret false).
Definition v_subelems (name : option str) (topo : tree) : V :=
  andb_ (v_obj topo (L "subelements"))
    (need (fetch topo (L "subelements")) (fun s =>
      at_ (L "subelements")
        (finish (match name with
                 | None => if has s (L "shape") then v_faces s else ret false
                 | Some k => match kid s k with Some c => at_ k (v_faces c) | None => ret false end
                 end)))).
Definition v_poly (name : option str) (place : V -> V) (n topo : tree) : V :=
  if is_shape (L "polygonal") n || is_shape (L "polyhedral") n then
    also (place (o2m n)) (if is_shape (L "polyhedral") n then v_subelems name topo else ret true)
  else ret true.
(** the loop of topology::unstructured over elements of several shapes, 4476-4499.  The
    flag of a child takes the results of those before it as well *)
Fixpoint v_kinds (topo : tree) (before : bool) (l : list (str * tree)) : V :=
  match l with
  | [] => ret before
  | (k, c) :: r =>
      let el v := at_ (L "elements") (at_ k v) in
      bindV (all_ [el (v_sub (v_name topo_shapes) c (L "shape")); el (v_int c (L "connectivity"));
                   v_poly (Some k) el c topo; ret before]) (fun x =>
      bindV (el (valid x)) (fun x => v_kinds topo x r))
  end.
(** topology::unstructured, 4428-4514: the results of all parts are combined by &=.  The
    elements are an object with children, so the last case (4500-4504) is never reached *)
Definition v_unstructured (n : tree) : V :=
  reset (finish (all_ [v_str n (L "coordset"); v_enum n (L "type") [L "unstructured"];
    andb_ (v_obj n (L "elements"))
      (need (fetch n (L "elements")) (fun e =>
        let el := at_ (L "elements") in
        if has e (L "shape") then
          bindV (all_ [el (v_sub (v_name topo_shapes) e (L "shape")); el (v_int e (L "connectivity"));
                       if is_shape (L "mixed") e then v_mixed n else v_poly None el e n]) (fun r => el (valid r))
        else if has e (L "element_types") then el (valid true)
        else
          bindV (v_kinds n true (kids e)) (fun r => el (valid r))))])).
(** topology::verify, 4146-4194 *)
Definition topology (n : tree) : V :=
  reset (finish (also
    (bindV (v_sub (v_name topo_types) n (L "type")) (fun r =>
      if r then need (fetch n (L "type")) (fun t => fun i =>
        do s <- as_string t;
        (if str_eqb s (L "points") then v_implicit s n
         else if str_eqb s (L "uniform") then v_implicit s n
         else if str_eqb s (L "rectilinear") then v_implicit s n
         else if str_eqb s (L "structured") then v_structured n
         else if str_eqb s (L "unstructured") then v_unstructured n
         else ret true) i)
      else ret false))
    (when (has n (L "grid_function")) (tell log_optional (v_str n (L "grid_function")))))).

(** verify_matset_material_map, 6170-6200 *)
Definition v_material_map (n : tree) : V :=
  finish (andb_ (v_obj n (L "material_map"))
    (need (fetch n (L "material_map")) (fun m => each (fun e => if is_integer (snd e) then ret true else fails) (kids m)))).
(** matset::verify, 6204-6355.  The first part gives vfs_res and whether the map is
    optional; an empty object of volume fractions is reported, but does not count *)
Definition v_fractions (n : tree) : V :=
  andb_ (exists_ n (L "volume_fractions"))
    (need (fetch n (L "volume_fractions")) (fun vf =>
      if is_number vf then
        andb_ (v_num n (L "volume_fractions"))
              (tell log_info (also (v_int n (L "material_ids")) (o2m n)))
      else if is_object vf then
        bindV (v_obj n (L "volume_fractions")) (fun r =>
          if r then
            tell log_info (at_ (L "volume_fractions")
              (finish (each (fun e => if is_object (snd e) then v_by o2m vf (fst e) else v_num vf (fst e)) (kids vf))))
          else ret true)
      else fails)).
Definition uni_buffer (n : tree) : bool := match kid n (L "volume_fractions") with Some vf => is_number vf | None => false end.
Definition multi_buffer (n : tree) : bool := match kid n (L "volume_fractions") with Some vf => is_object vf | None => false end.
Definition v_map (n : tree) : V :=
  also (if uni_buffer n && negb (has n (L "material_map")) then fails else ret true)
    (when (has n (L "material_map"))
      (tell (if uni_buffer n then fun i => i else log_optional)
        (also (v_material_map n)
          (need (fetch n (L "material_map")) (fun m =>
            when (multi_buffer n)
              (each (fun e => match kid n (L "volume_fractions") with
                              | Some vf => if has vf (fst e) then ret true else fails
                              | None => ret true end) (kids m))))))).
Definition v_element_ids (n : tree) (vfs : bool) : V :=
  match kid n (L "element_ids") with
  | None => ret true
  | Some e =>
      when vfs (
        if negb (is_integer e) && negb (is_object e) then fails
        else if is_object e && multi_buffer n then
          need (fetch n (L "volume_fractions")) (fun vf =>
            tell (if same_set (child_names vf) (child_names e) then fun i => i else log_error)
            (at_ (L "element_ids") (finish
              (also (ret (same_set (child_names vf) (child_names e)))
                    (each (fun c => v_int e (fst c)) (kids e))))))
        else if is_integer e && uni_buffer n then v_int n (L "element_ids")
        else fails)
  end.
Definition matset (n : tree) : V :=
  reset (finish (also (v_str n (L "topology"))
    (bindV (v_fractions n) (fun vfs => also (v_map n) (also (v_element_ids n vfs) (ret vfs)))))).

(** field::verify, 6432-6502; field::basis::verify, 6560-6572 *)
Definition v_basis (n : tree) : V := reset (finish (typed_self is_string n)).
Definition v_given (g : tree -> V) (n : tree) (f : str) : V :=
  when (has n f) (need (fetch n f) (fun c => at_ f (g c))).
Definition v_pair (n : tree) (a b : str) (hi : nat) : V :=
  if xorb (has n a) (has n b) then fails
  else when (has n a && has n b) (also (v_str n a) (v_by (mlarray 0 hi) n b)).
Definition field (n : tree) : V :=
  reset (finish (all_
    [(if negb (has n (L "association")) && negb (has n (L "basis")) then fails else ret true);
     v_given (v_name associations) n (L "association");
     v_given v_basis n (L "basis");
     (if negb (has n (L "topology")) && negb (has n (L "matset")) then fails else ret true);
     v_pair n (L "topology") (L "values") 1;
     v_pair n (L "matset") (L "matset_values") 2])).

(** specset::verify, 6633-6685: [len] is specmats_len, [b] specmats_res *)
Fixpoint v_species (vs : tree) (l : list (str * tree)) (b : bool) (len : nat) : V :=
  match l with
  | [] => ret b
  | (k, c) :: r =>
      bindV (v_by mcarray vs k) (fun ok =>
        if ok then
          match kids c with
          | [] => fun _ => Err
          | (_, x) :: _ =>
              if Nat.eqb len 0 then v_species vs r b (numel x)
              else if Nat.eqb len (numel x) then v_species vs r b len
              else tell log_error (v_species vs r false len)
          end
        else v_species vs r false len)
  end.
Definition specset (n : tree) : V :=
  reset (finish (also (v_str n (L "matset"))
    (v_objsub (fun vs => finish (v_species vs (kids vs) true 0)) n (L "matset_values")))).

(** adjset::verify, 6718-6815.  The fifth argument of verify_object_field is allow_empty:
    the number of dimensions is given there (6782-6787).  What is wrong with the windows
    goes to the result, not to the group *)
Definition v_window (w : tree) : V :=
  finish (bindV (all_ [v_sub v_dims w (L "origin"); v_sub v_dims w (L "dims"); v_sub v_dims w (L "ratio")]) (fun r =>
    if r then
      need (fetch w (L "origin")) (fun o =>
        let p := object_like false (negb (Nat.eqb (length (kids o)) 0)) 0 in
        also (when (has w (L "dims")) (typed p w (L "dims"))) (when (has w (L "ratio")) (typed p w (L "ratio"))))
    else ret false)).
Definition v_windows (g : tree) : V :=
  need (fetch g (L "windows")) (fun ws =>
    at_ (L "windows") (finish (each (fun e => at_ (fst e) (v_window (snd e))) (kids ws)))).
(** group_res, and the windows_res that goes to the result *)
Definition v_group (g : tree) : V :=
  if has g (L "values") then finish (also (v_int g (L "neighbors")) (v_int g (L "values")))
  else if has g (L "windows") then
    bindV (v_int g (L "neighbors")) (fun a =>
    bindV (v_obj g (L "windows")) (fun b =>
    bindV (v_windows g) (fun w =>
    bindV (when (has g (L "orientation")) (v_int g (L "orientation"))) (fun o =>
    bindV (valid (a && b && o)) (fun r => ret (r && w))))))
  else finish (v_int g (L "neighbors")).
(** the flag of info["groups"] takes group_res only; [group_res] is that of one group *)
Definition group_res (g : tree) : bool :=
  let int f := match kid g f with Some c => is_integer c | None => false end in
  int (L "neighbors") &&
  (if has g (L "values") then int (L "values")
   else if has g (L "windows") then
     match kid g (L "windows") with Some ws => object_like false false 0 ws | None => false end &&
     (negb (has g (L "orientation")) || int (L "orientation"))
   else true).
Definition adjset (n : tree) : V :=
  reset (finish (all_
    [v_str n (L "topology"); v_sub (v_name associations) n (L "association");
     andb_ (typed (object_like false true 0) n (L "groups"))
       (need (fetch n (L "groups")) (fun gs =>
         bindV (each (fun e => at_ (L "groups") (at_ (fst e) (v_group (snd e)))) (kids gs)) (fun r =>
         bindV (at_ (L "groups") (valid (forallb (fun e => group_res (snd e)) (kids gs)))) (fun _ => ret r))))])).

(** nestset::verify, 7097-7156 *)
Definition v_nest (w : tree) : V :=
  finish (bindV (all_ [v_int w (L "domain_id"); v_sub (v_name nest_types) w (L "domain_type"); v_sub v_dims w (L "ratio");
                       v_given v_dims w (L "origin"); v_given v_dims w (L "dims")]) (fun r =>
    if r then
      need (fetch w (L "ratio")) (fun o =>
        let p := object_like false false (length (kids o)) in
        also (when (has w (L "origin")) (typed p w (L "origin"))) (when (has w (L "dims")) (typed p w (L "dims"))))
    else ret false)).
Definition nestset (n : tree) : V :=
  reset (finish (all_
    [v_str n (L "topology"); v_sub (v_name associations) n (L "association");
     v_objsub (fun ws => finish (each (fun e => at_ (fst e) (v_nest (snd e))) (kids ws))) n (L "windows")])).

(** * Meshes *)
(** verify_reference_field, 476-507: the report of the child is at [path]/[name] *)
Definition v_ref (n : tree) (path name : str) (c : tree) (f rp : str) : V :=
  let here v := at_ path (at_ name v) in
  bindV (here (v_str c f)) (fun r =>
  bindV (match kid c f with
         | Some (TStr s) =>
             if negb (match kid n rp with Some t => has t s | None => false end) then here fails
             else fun i => match mget (ikids (iget (iget i rp) s)) (L "valid") with
                           | Some (IFlag true) => Ok (true, i)
                           | Some (IFlag false) => here fails i
                           | _ => Err
                           end
         | _ => ret false
         end) (fun r => here (bindV (at_ f (valid r)) valid))).
(** the parts of verify_single_domain, 669-853: one section of children of one kind, with
    the references of each child *)
Definition section (n : tree) (path : str) (v : tree -> V) (refs : tree -> list (str * str)) : V :=
  andb_ (v_obj n path) (need (fetch n path) (fun s =>
    bindV (each (fun e => also (at_ path (at_ (fst e) (v (snd e))))
                               (each (fun r => v_ref n path (fst e) (snd e) (fst r) (snd r)) (refs (snd e)))) (kids s))
          (fun r => at_ path (valid r)))).
Definition to_topology (_ : tree) := [(L "topology", L "topologies")].
Definition field_refs (c : tree) : list (str * str) :=
  (if has c (L "topology") then [(L "topology", L "topologies")] else []) ++
  (if has c (L "matset") then [(L "matset", L "matsets")] else []).
(** the last pass, 856-877 *)
Definition v_grid (n : tree) : V :=
  when (has n (L "topologies")) (need (fetch n (L "topologies")) (fun s =>
    bindV (each (fun e => when (has (snd e) (L "grid_function"))
                               (v_ref n (L "topologies") (fst e) (snd e) (L "grid_function") (L "fields"))) (kids s))
          (fun r => at_ (L "topologies") (valid r)))).
(** verify_single_domain, 662-882 *)
Definition single_domain (n : tree) : V :=
  reset (finish (all_
    [section n (L "coordsets") coordset (fun _ => []);
     section n (L "topologies") topology (fun _ => [(L "coordset", L "coordsets")]);
     when (has n (L "matsets")) (section n (L "matsets") matset to_topology);
     when (has n (L "specsets")) (section n (L "specsets") specset (fun _ => [(L "matset", L "matsets")]));
     when (has n (L "fields")) (section n (L "fields") field field_refs);
     when (has n (L "adjsets")) (section n (L "adjsets") adjset to_topology);
     when (has n (L "nestsets")) (section n (L "nestsets") nestset to_topology);
     v_grid n])).
(** verify_multi_domain, 887-922 *)
Definition multi_domain (n : tree) : V :=
  reset (finish
    (match n with
     | TObj _ | TList _ | TNone =>
         bindV (each (fun e => at_ (fst e) (single_domain (snd e))) (kids n)) (fun r => tell log_info (ret r))
     | _ => fails
     end)).
(** mesh::verify, 1936-1953 *)
Definition mesh_verify (n : tree) : outcome (bool * itree) :=
  (if has n (L "coordsets") then single_domain n else multi_domain n) INone.
