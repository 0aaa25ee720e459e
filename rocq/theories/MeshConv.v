(** Uniform, rectilinear and structured meshes as explicit coordinates and unstructured
    cells: src/libs/blueprint/conduit_blueprint_mesh.cpp 99-136 (grid_ijk_to_id,
    grid_id_to_ijk), 929-1052 (convert_coordset_to_rectilinear, _to_explicit), 1120-1300
    (convert_topology_to_structured, _to_unstructured) and
    conduit_blueprint_mesh_utils.cpp 312-351 (find_widest_dtype), 1226-1300
    (get_coordset_info), 1326-1350 (coordset::length).

    A coordinate set is the record of its children.  Numbers along an axis have an
    arbitrary type F; its addition, multiplication and conversions (of float64 arithmetic
    and to_data_type) are parameters.  index_t is unbounded.  Arrays are read with the
    element type of the leaf in the byte order of the machine. *)
From Verif Require Import Base DType SpecTree Mem Node Number ArrayOps.
Local Open Scope Z_scope.
Import ListNotations.

(** SPHERICAL_AXES, CYLINDRICAL_AXES, CARTESIAN_AXES, LOGICAL_AXES, mesh_utils.hpp 71-74 *)
Definition spherical_axes : list str := [L "r"; L "theta"; L "phi"].
Definition cylindrical_axes : list str := [L "z"; L "r"].
Definition cartesian_axes : list str := [L "x"; L "y"; L "z"].
Definition logical_axes : list str := [L "i"; L "j"; L "k"].
(** one leading d is dropped from a name of two or more characters, mesh_utils.cpp 1258-1265 *)
Definition strip_d (n : str) : str :=
  match n with
  | c :: ((_ :: _) as r) => if ascii_dec c "d"%char then r else n
  | _ => n
  end.
Definition has (ns : list str) (n : str) : bool := existsb (str_eqb n) ns.
(** get_coordset_info(n).second, mesh_utils.cpp 1253-1300, from the names of the children of
    origin, spacing, dims or values *)
Definition axes_of (names : list str) : list str :=
  let ns := map strip_d names in
  let base :=
    if has ns (L "theta") || has ns (L "phi") then spherical_axes
    else if has ns (L "r") then cylindrical_axes
    else if has ns (L "x") || has ns (L "y") || has ns (L "z") then cartesian_axes
    else if has ns (L "i") || has ns (L "j") || has ns (L "k") then logical_axes
    else [] in
  filter (has ns) base.

(** find_widest_dtype, mesh_utils.cpp 312-351, over the types of the leaves in the order
    they are taken from the bag; None is the initial type of zero bytes *)
Definition family (t u : tid) : bool :=
  (is_float t && is_float u) || (is_signed t && is_signed u) || (is_unsigned t && is_unsigned u).
Definition wider (defaults : list tid) (w : option tid) (t : tid) : option tid :=
  let wb := match w with Some u => default_bytes u | None => 0 end in
  if existsb (family t) defaults && (wb <? default_bytes t) then Some t else w.
Definition find_widest (defaults : list tid) (leaves : list tid) : tid :=
  match fold_left (wider defaults) leaves None with
  | Some t => t
  | None => hd INT32 defaults
  end.
(** DEFAULT_INT_DTYPES, DEFAULT_FLOAT_DTYPE, mesh_utils.hpp 58-61 *)
Definition int_defaults : list tid := [INT32; UINT32].
Definition float_defaults : list tid := [FLOAT32].

(** for(x in l) s = body(x, s) *)
Fixpoint for_ {A S} (l : list A) (body : A -> S -> outcome S) (s : S) : outcome S :=
  match l with
  | [] => Ok s
  | x :: r => do s' <- body x s; for_ r body s'
  end.
(** a write through element_ptr(off); None: not written yet *)
Definition put {A} (off : Z) (v : A) (a : list (option A)) : outcome (list (option A)) :=
  if (0 <=? off) && (off <? Z.of_nat (length a)) then Ok (set_nth a (Z.to_nat off) (Some v)) else UB.

Inductive base := Uniform | Rectilinear | Structured.

Section Coords.
Context {F : Type}.
(** float64 sum and product, index_t to float64, 0.0, 1.0, conversion of a number of one
    type to another *)
Variables (fadd fmul : F -> F -> F) (fofz : Z -> F) (f0 f1 : F) (cast : tid -> tid -> F -> F).

(** a uniform coordinate set has dims, and origin and spacing if present; a rectilinear one
    has values.  Scalars and arrays carry the type of their leaf. *)
Record cset := {
  c_dims : list (str * Z);
  c_origin : option (list (str * (tid * F)));
  c_spacing : option (list (str * (tid * F)));
  c_values : list (str * (tid * list F)) }.

(** coordset::axes, mesh_utils.cpp 1233-1251, 1354-1357 *)
Definition axes (b : base) (c : cset) : list str :=
  axes_of (match b with
    | Uniform => match c_origin c, c_spacing c with
                 | Some o, _ => map fst o
                 | None, Some s => map fst s
                 | None, None => map fst (c_dims c)
                 end
    | _ => map fst (c_values c)
    end).
(** const Node operator[]: an error if there is no such child *)
Definition need {V} (es : list (str * V)) (k : str) : outcome V :=
  match mget es k with Some v => Ok v | None => Err end.
(** find_widest_dtype(coordset, DEFAULT_FLOAT_DTYPE); dims are integers and do not count.
    The order of the leaves is immaterial: there are only two float types. *)
Definition float_leaves (c : cset) : list tid :=
  let sc o := match o with Some es => map (fun kv => fst (snd kv)) es | None => [] end in
  sc (c_origin c) ++ sc (c_spacing c) ++ map (fun kv => fst (snd kv)) (c_values c).
Definition float_type (c : cset) : tid := find_widest float_defaults (float_leaves c).
(** dim_origin, dim_spacing, mesh.cpp 948-951 *)
Definition origin_at (c : cset) (ax : str) : outcome F :=
  match c_origin c with
  | Some o => do x <- need o ax; Ok (cast (fst x) FLOAT64 (snd x))
  | None => Ok f0
  end.
Definition spacing_at (c : cset) (ax : str) : outcome F :=
  match c_spacing c with
  | Some s => do x <- need s ("d"%char :: ax); Ok (cast (fst x) FLOAT64 (snd x))
  | None => Ok f1
  end.
(** dim_lens[i], mesh.cpp 985-990; i is less than the number of axes, at most three *)
Definition dim_len (b : base) (c : cset) (i : nat) (ax : str) : outcome Z :=
  match b with
  | Rectilinear => do v <- need (c_values c) ax; Ok (Z.of_nat (length (snd v)))
  | _ => do l <- deref (nth_error logical_axes i); need (c_dims c) l
  end.
Definition numbered {A} (l : list A) : list (nat * A) := combine (seq 0 (length l)) l.
Definition dim_lens (b : base) (c : cset) : outcome (list Z) :=
  omapM (fun ia => dim_len b c (fst ia) (snd ia)) (numbered (axes b c)).
(** coordset::length, mesh_utils.cpp 1326-1350, of a uniform or rectilinear set *)
Definition cset_length (b : base) (c : cset) : outcome Z :=
  do ls <- dim_lens b c; Ok (fold_left Z.mul ls 1).

(** convert_coordset_to_rectilinear, mesh.cpp 930-966: the type and the values of each axis *)
Definition rect_axis (c : cset) (i : nat) (ax : str) : outcome (str * list F) :=
  do o <- origin_at c ax;
  do s <- spacing_at c ax;
  do n <- dim_len Uniform c i ax;
  Ok (ax, map (fun d => cast FLOAT64 (float_type c) (fadd o (fmul (fofz d) s))) (zseq n)).
Definition to_rectilinear (c : cset) : outcome (tid * list (str * list F)) :=
  do vs <- omapM (fun ia => rect_axis c (fst ia) (snd ia)) (numbered (axes Uniform c));
  Ok (float_type c, vs).

(** dim_block_size, dim_block_count, mesh.cpp 1009-1014 *)
Definition block_size (lens : list Z) (i : nat) : Z :=
  fold_left (fun a jl => a * (if (fst jl <? i)%nat then snd jl else 1)) (numbered lens) 1.
Definition block_count (lens : list Z) (i : nat) : Z :=
  fold_left (fun a jl => a * (if (i <? fst jl)%nat then snd jl else 1)) (numbered lens) 1.
(** the three loops, mesh.cpp 1020-1048, with [val d] the converted value *)
Definition fill_axis {A} (bs bc n : Z) (val : Z -> outcome A) (a : list (option A)) : outcome (list (option A)) :=
  for_ (zseq n) (fun d =>
    for_ (zseq bc) (fun b =>
      for_ (zseq bs) (fun bi a =>
        do v <- val d; put (d * bs + b * bs * n + bi) v a))) a.
(** src_cval_node.to_data_type, mesh.cpp 1032-1043 *)
Definition axis_value (b : base) (c : cset) (ax : str) (d : Z) : outcome F :=
  match b with
  | Rectilinear => do v <- need (c_values c) ax;
                   do x <- deref (znth (snd v) d); Ok (cast (fst v) (float_type c) x)
  | _ => do o <- origin_at c ax;
         do s <- spacing_at c ax; Ok (cast FLOAT64 (float_type c) (fadd o (fmul (fofz d) s)))
  end.
(** convert_coordset_to_explicit, mesh.cpp 970-1051; a negative length is not modelled *)
Definition explicit_axis (b : base) (c : cset) (lens : list Z) (len : Z) (i : nat) (ax : str) : outcome (str * list (option F)) :=
  do n <- deref (nth_error lens i);
  do a <- fill_axis (block_size lens i) (block_count lens i) n (axis_value b c ax) (repeat None (Z.to_nat len));
  Ok (ax, a).
Definition to_explicit (b : base) (c : cset) : outcome (tid * list (str * list (option F))) :=
  do lens <- dim_lens b c;
  let len := fold_left Z.mul lens 1 in
  if len <? 0 then UB else
  do vs <- omapM (fun ia => explicit_axis b c lens len (fst ia) (snd ia)) (numbered (axes b c));
  Ok (float_type c, vs).

(** convert_topology_to_structured, mesh.cpp 1146-1166: elements/dims, for the types of
    the leaves of the topology *)
Definition to_structured (b : base) (c : cset) (leaves : list tid) : outcome (tid * list Z) :=
  let t := find_widest int_defaults leaves in
  do ls <- dim_lens b c;
  Ok (t, map (fun n => conv t (n - 1)) ls).

(** edims_axes, mesh.cpp 1213-1243, before the entries of the missing axes (1); [sdims]
    are the elements/dims of a structured topology *)
Definition edims (b : base) (c : cset) (sdims : list (str * Z)) : outcome (list Z) :=
  match b with
  | Structured => omapM (fun ia => do l <- deref (nth_error logical_axes (fst ia));
                                   do n <- need sdims l; Ok (conv INT32 n)) (numbered (axes b c))
  | Rectilinear => do ls <- dim_lens b c; Ok (map (fun n => n - 1) ls)
  | Uniform => do ls <- dim_lens b c; Ok (map (fun n => conv INT32 n - 1) ls)
  end.
End Coords.

(** grid_ijk_to_id, mesh.cpp 99-115, loops unrolled *)
Definition ijk_to_id (ijk dims : Z * Z * Z) : Z :=
  let '(i, j, k) := ijk in let '(d0, d1, d2) := dims in i + j * d0 + k * d0 * d1.
(** grid_id_to_ijk, mesh.cpp 118-136, loops unrolled; division by zero is UB *)
Definition id_to_ijk (id : Z) (dims : Z * Z * Z) : outcome (Z * Z * Z) :=
  let '(d0, d1, d2) := dims in
  if (d0 * d1 =? 0) || (d0 =? 0) then UB else
  let k := Z.quot id (d0 * d1) in let r := Z.rem id (d0 * d1) in
  let j := Z.quot r d0 in let r' := Z.rem r d0 in
  Ok (Z.quot r' 1, j, k).
(** the array of three with 1 for missing axes, mesh.cpp 1213 *)
Definition pad3 (l : list Z) : Z * Z * Z := (nth 0 l 1, nth 1 l 1, nth 2 l 1).
(** (i & pow(2,d)) >> d for d below the number of axes, mesh.cpp 1266-1269 *)
Definition bit (n : nat) (i : Z) (d : nat) : Z :=
  if (d <? n)%nat then Z.shiftr (Z.land i (2 ^ Z.of_nat d)) (Z.of_nat d) else 0.
Definition swap_at (l : list Z) (p : nat) : list Z :=
  set_nth (set_nth l p (nth (S p) l 0)) (S p) (nth p l 0).
(** the ids of element e, mesh.cpp 1257-1298 *)
Definition cell_ids (n : nat) (t : tid) (ed : list Z) (e : Z) : outcome (list Z) :=
  let '(e0, e1, e2) := pad3 ed in
  let ipe := 2 ^ Z.of_nat n in
  do c <- id_to_ijk e (e0, e1, e2);
  let '(i, j, k) := c in
  let ids := map (fun v => conv t (ijk_to_id (i + bit n v 0, j + bit n v 1, k + bit n v 2) (e0 + 1, e1 + 1, e2 + 1))) (zseq ipe) in
  Ok (fold_left swap_at (map (fun q => Z.to_nat (2 + 4 * q)) (zseq ((ipe + 1) / 4))) ids).
(** elements/connectivity, mesh.cpp 1245-1299; element e writes the places from
    e * indices_per_elem on *)
Definition connectivity (n : nat) (t : tid) (ed : list Z) : outcome (list Z) :=
  let '(e0, e1, e2) := pad3 ed in
  do cs <- omapM (cell_ids n t ed) (zseq (e0 * e1 * e2)); Ok (concat cs).

(** convert_topology_to_unstructured, mesh.cpp 1170-1300: the type and entries of
    elements/connectivity *)
Definition to_unstructured {F} (b : base) (c : @cset F) (sdims : list (str * Z)) (leaves : list tid) : outcome (tid * list Z) :=
  let t := find_widest int_defaults leaves in
  do ed <- edims b c sdims;
  do ids <- connectivity (length (axes b c)) t ed;
  Ok (t, ids).
