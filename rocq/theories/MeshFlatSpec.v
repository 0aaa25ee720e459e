(** What the tables of mesh::flatten hold, row by row. *)
From Coq Require Import ZArith Floats.SpecFloat.
From Verif Require Import Base DType Number NumConv FloatText MeshConv MeshFlat.
Import ListNotations.

(** the array of a column, or of one of its components *)
Definition part (v : vals) (a : option str) : option col :=
  match v, a with
  | VArr c, None => Some c
  | VMc cs, Some a => mget cs a
  | _, _ => None
  end.
Definition column (tb : table) (n : str) (a : option str) : option col :=
  match mget tb n with Some v => part v a | None => None end.

(** the topology and the coordinates of a domain that are flattened *)
Definition topo_of (o : opts) (d : dom) : option (str * topo) :=
  match o_topo o with
  | [] => hd_error (d_topos d)
  | n => match mget (d_topos d) n with Some t => Some (n, t) | None => None end
  end.
Definition cset_of (o : opts) (d : dom) : option (str * cset) :=
  match topo_of o d with
  | Some (_, t) => match mget (d_csets d) (t_cset t) with Some c => Some (t_cset t, c) | None => None end
  | None => None
  end.
Definition coords (o : opts) (d : dom) : list (str * col) :=
  match cset_of o d with Some (_, c) => cs_values c | None => [] end.
Definition cells (o : opts) (d : dom) : list (list nat) :=
  match topo_of o d with Some (_, t) => t_elems t | None => [] end.
(** how many rows a domain has in the two tables *)
Definition verts (o : opts) (d : dom) : nat :=
  match coords o d with (_, c) :: _ => length (c_vals c) | [] => 0 end.
Definition elems (o : opts) (d : dom) : nat := length (cells o d).
Definition total (size : dom -> nat) (ds : list dom) : nat := list_sum (map size ds).

(** the fields of a domain, and whether a field is one of the topology *)
Definition fields_of (d : dom) : list (str * field) := match d_fields d with Some l => l | None => [] end.
Definition field_of (d : dom) (n : str) : option field := mget (fields_of d) n.
Definition on (tn : str) (f : field) : bool :=
  match f_topo f, f_assoc f with
  | Some t, Some _ => str_eqb t tn
  | _, _ => false
  end.
(** each name once, where it comes first *)
Definition firsts (l : list str) : list str :=
  fold_left (fun acc n => if existsb (str_eqb n) acc then acc else acc ++ [n]) l [].
(** the fields asked for, or all, that some domain has on the topology *)
Definition chosen (o : opts) (tn : str) (ds : list dom) : list str :=
  match o_names o with
  | [] => firsts (concat (map (fun d => map fst (filter (fun nf => on tn (snd nf)) (fields_of d))) ds))
  | names => filter (fun n => existsb (fun d => match field_of d n with Some f => on tn f | None => false end) ds) names
  end.
(** the first field of that name *)
Fixpoint first_field (ds : list dom) (n : str) : option field :=
  match ds with
  | [] => None
  | d :: r => match field_of d n with Some f => Some f | None => first_field r n end
  end.
Definition of_assoc (ds : list dom) (a n : str) : bool :=
  match first_field ds n with
  | Some f => match f_assoc f with Some b => str_eqb a b | None => false end
  | None => false
  end.

(** names that the tables use for themselves *)
Definition own (cs : str) : list str :=
  [cs; L "element_centers"; L "domain_id"; L "vertex_id"; L "element_id"].
(** domains that go together: the same axes in the usual order and arrays of one length; a
    field chosen is, in every domain that has it, a field of the topology with the
    association it has in the first, with components of different names, and it is not
    called like one of the table's own columns *)
Record fits (o : opts) (tn cs : str) (axes : list str) (ds : list dom) : Prop := {
  fit_topo : exists d, hd_error ds = Some d /\ (exists t, topo_of o d = Some (tn, t)) /\ (exists c, cset_of o d = Some (cs, c));
  fit_axes : axes <> [] /\ axes_of axes = axes;
  fit_coords : Forall (fun d => map fst (coords o d) = axes /\
                 Forall (fun c => length (c_vals (snd c)) = verts o d) (coords o d)) ds;
  fit_cs : ~ In cs [L "domain_id"; L "vertex_id"];
  fit_names : NoDup (o_names o);
  fit_own : forall n, In n (chosen o tn ds) -> ~ In n (own cs);
  fit_fields : forall n d f, In n (chosen o tn ds) -> In d ds -> field_of d n = Some f ->
                 on tn f = true /\
                 (forall g, first_field ds n = Some g -> f_assoc g = f_assoc f) /\
                 (forall l, f_vals f = VMc l -> NoDup (map fst l))
}.

(** float64 mean of the values of c at the vertices e, summed in order *)
Definition mean_of (c : col) (e : list nat) (m : number) : Prop :=
  exists xs, Forall2 (fun i x => exists v, nth_error (c_vals c) i = Some v /\ cast FLOAT64 v = Ok (NF x)) e xs /\
    m = NF (ddiv (fold_left dadd xs (S754_zero false))
                 (binary_normalize (prec_of FLOAT64) (emax_of FLOAT64) (Z.of_nat (length e)) 0 false)).

(** the number of the domain in position k: those given, or the positions if one is missing *)
Definition id_of (ds : list dom) (k : nat) : option Z :=
  if forallb (fun d => match d_id d with Some _ => true | None => false end) ds
  then match nth_error ds k with Some d => d_id d | None => None end
  else Some (Z.of_nat k).

(** what row j of a domain holds: the value in its field converted to the type of the
    column, or the fill value of the type *)
Definition fill_of (o : opts) (t : tid) : outcome number :=
  if is_float t then cast t (NF (match o_float o with S754_zero _ => S754_zero false | x => x end))
  else cast t (NI (o_int o)).
Definition row_ok (o : opts) (t : tid) (src : option col) (j : nat) (got : option number) : Prop :=
  match src with
  | Some s => exists v w, nth_error (c_vals s) j = Some v /\ cast t v = Ok w /\ got = Some w
  | None => exists w, fill_of o t = Ok w /\ got = Some w
  end.
(** the part a of the values of a field of d *)
Definition field_part (d : dom) (n : str) (a : option str) : option col :=
  match field_of d n with Some f => part (f_vals f) a | None => None end.
(** the columns of a table, in order *)
Definition id_columns (o : opts) (l : list str) (ids : str) : list str :=
  if o_info o then match l with [] => [] | _ => l ++ [L "domain_id"; ids] end else l.
(** the widest type of a list of leaves: the last of the numeric ones that have the most
    bytes, float32 if there are none *)
Definition widest (l : list tid) (t : tid) : Prop :=
  (exists a b, l = a ++ t :: b /\ numeric t = true /\
     Forall (fun u => numeric u = true -> (default_bytes u <= default_bytes t)%Z) a /\
     Forall (fun u => numeric u = true -> (default_bytes u < default_bytes t)%Z) b) \/
  (Forall (fun u => numeric u = false) l /\ t = FLOAT32).
(** a column of type t with a row for each row of each domain, in order, taken from src *)
Definition column_ok (o : opts) (ds : list dom) (size : dom -> nat) (got : option col) (t : tid) (src : dom -> option col) : Prop :=
  exists c, got = Some c /\ c_ty c = t /\ length (c_vals c) = total size ds /\
    forall before d after j, ds = before ++ d :: after -> j < size d ->
      row_ok o t (src d) j (nth_error (c_vals c) (total size before + j)).
(** a column whose row j for the domain in position k is right by P d k j *)
Definition column_by (ds : list dom) (size : dom -> nat) (got : option col) (t : tid) (P : dom -> nat -> nat -> number -> Prop) : Prop :=
  exists c, got = Some c /\ c_ty c = t /\ length (c_vals c) = total size ds /\
    forall before d after j, ds = before ++ d :: after -> j < size d ->
      exists w, nth_error (c_vals c) (total size before + j) = Some w /\ P d (length before) j w.
(** the leaves that decide the type of the coordinates *)
Definition coord_leaves (o : opts) (ds : list dom) : list tid :=
  match ds with
  | d :: _ =>
      match cset_of o d with
      | Some (_, c) => match cs_leaves c with Some l => l | None => map (fun v => c_ty (snd v)) (cs_values c) end
      | None => []
      end
  | [] => []
  end.

(** the row of a domain's number; of the number in the domain *)
Definition int64 (z : Z) : Prop := (- 2 ^ 63 <= z < 2 ^ 63)%Z.
Definition domain_row (ds : list dom) (d : dom) (k j : nat) (w : number) : Prop := exists id, id_of ds k = Some id /\ (int64 id -> w = NI id).
Definition local_row (d : dom) (k j : nat) (w : number) : Prop := int64 (Z.of_nat j) -> w = NI (Z.of_nat j).

(** nothing in the way of flattening: every domain has fields, each says where it lives, the
    elements use vertices that exist, coordinates have one type in a domain if centers are
    wanted, the arrays are long enough and floats only go to float columns, and no domain has
    components the first does not have *)
Definition castable (t : tid) (v : number) : Prop := is_float t = true \/ exists z, v = NI z.
Definition ready (l : list tid) (n : nat) (c : col) : Prop :=
  numeric (c_ty c) = true /\ n <= length (c_vals c) /\ forall t, widest l t -> Forall (castable t) (c_vals c).
Definition size_by (o : opts) (f : field) (d : dom) : nat :=
  match f_assoc f with
  | Some a => if str_eqb a (L "vertex") then verts o d else elems o d
  | None => 0
  end.
Record whole (o : opts) (tn : str) (ds : list dom) : Prop := {
  wh_fields : forall d, In d ds -> d_fields d <> None;
  wh_place : forall d n f, In d ds -> In (n, f) (fields_of d) -> f_topo f <> None \/ f_matset f = true;
  wh_cells : forall d e i, In d ds -> In e (cells o d) -> In i e -> i < verts o d;
  wh_coords : forall d a c, In d ds -> In (a, c) (coords o d) -> ready (coord_leaves o ds) (verts o d) c;
  wh_same : forall d c c', In d ds -> o_centers o = true -> In c (coords o d) -> In c' (coords o d) -> c_ty (snd c) = c_ty (snd c');
  wh_assoc : forall n d f, In n (chosen o tn ds) -> In d ds -> field_of d n = Some f ->
    f_assoc f = Some (L "vertex") \/ f_assoc f = Some (L "element");
  wh_values : forall n d f g, In n (chosen o tn ds) -> In d ds -> field_of d n = Some f -> first_field ds n = Some g ->
    match f_vals f, f_vals g with
    | VArr c, VArr _ => ready (leaves_of (f_vals g)) (size_by o f d) c
    | VMc l, VMc l' => forall a c, In (a, c) l -> In a (map fst l') /\ ready (leaves_of (f_vals g)) (size_by o f d) c
    | _, _ => False
    end
}.
