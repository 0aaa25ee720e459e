(** Material sets: src/libs/blueprint/conduit_blueprint_mesh_matset_xforms.cpp.

    A matset node is given by the contents of its children: names, and arrays as the
    accessors see them (float64_accessor, int64_accessor, index_t accessors), so an
    element type plays no role except where [to_silo] chooses one.  Volume fractions and
    field values are of an abstract type [V] with the test "x > epsilon" and the value 0.
    int and index_t are unbounded.  Material names are plain child names (no slash).
    Reading outside an array and writing outside a std::vector are UB.  The "topology"
    string and the parts of a field that do not depend on materials are copied and left
    out here. *)
From Verif Require Import Base Node NodeDiff O2M.
Local Open Scope Z_scope.

Definition get {A} (l : list A) (i : Z) : outcome A := deref (znth l i).
Definition vput {A} (l : list A) (i : Z) (v : A) : outcome (list A) :=
  if (0 <=? i) && (i <? zlen l) then Ok (set_nth l (Z.to_nat i) v) else UB.
(** for a loop that changes [acc] *)
Fixpoint ofold {A B} (f : B -> A -> outcome B) (l : list A) (acc : B) : outcome B :=
  match l with [] => Ok acc | x :: r => do acc' <- f acc x; ofold f r acc' end.

(** std::map<std::string, T>: an association list; iterating goes by name. *)
Fixpoint str_leb (a b : str) : bool :=
  match a, b with
  | [], _ => true
  | _, [] => false
  | c :: a', d :: b' =>
      if (N_of_ascii c <? N_of_ascii d)%N then true
      else if (N_of_ascii d <? N_of_ascii c)%N then false
      else str_leb a' b'
  end.
Fixpoint insert_name {A} (x : str * A) (l : list (str * A)) : list (str * A) :=
  match l with
  | [] => [x]
  | y :: r => if str_leb (fst x) (fst y) then x :: l else y :: insert_name x r
  end.
Definition by_name {A} (l : list (str * A)) : list (str * A) := fold_right insert_name [] l.
(** std::map<int, T>: kept in the order of the keys. *)
Fixpoint zget {A} (m : list (Z * A)) (k : Z) : option A :=
  match m with [] => None | (k', v) :: r => if k =? k' then Some v else zget r k end.
Fixpoint zset {A} (m : list (Z * A)) (k : Z) (v : A) : list (Z * A) :=
  match m with
  | [] => [(k, v)]
  | (k', v') :: r =>
      if k =? k' then (k', v) :: r
      else if k <? k' then (k, v) :: m
      else (k', v') :: zset r k v
  end.

Section Values.
Context {V : Type}.
Variable zero : V.
Variable above : V -> bool.   (** x > epsilon *)

(** * The representations *)

(** multi-buffer, element dominant ("full"): volume_fractions/name is an array over the
    elements *)
Definition full := list (str * list V).
(** uni-buffer, element dominant ("sparse by element") *)
Record uni := mkUni {
  u_map : list (str * Z);          (** material_map *)
  u_vals : list V;                 (** volume_fractions *)
  u_ids : list Z;                  (** material_ids *)
  u_sizes : option (list Z);
  u_indices : option (list Z);
  u_offsets : option (list Z)
}.
(** multi-buffer, material dominant ("sparse by material") *)
Record sbm := mkSbm {
  s_vals : list (str * list V);    (** volume_fractions *)
  s_eids : list (str * list Z)     (** element_ids *)
}.
(** the o2mrelation of a uni-buffer matset *)
Definition u_rel (u : uni) : o2m :=
  {| o_sizes := u_sizes u; o_indices := u_indices u; o_offsets := u_offsets u;
     o_data := [(L "material_ids", u_ids u)] |}.

(** * Full to sparse by element *)

(** mat_id = 0, 1, ... for the children *)
Fixpoint number_from {A} (i : Z) (l : list A) : list (Z * A) :=
  match l with [] => [] | x :: r => (i, x) :: number_from (i + 1) r end.
(** the loop over mat_id for one element, lines 706-716 and 778-787; [fv] is what is pushed back *)
Fixpoint pick (cols : list (Z * (list V * list V))) (e : Z) : outcome (list (Z * V)) :=
  match cols with
  | [] => Ok []
  | (id, (vf, fv)) :: r =>
      do w <- get fv e;
      do v <- get vf e;
      do l <- pick r e;
      Ok (if above v then (id, w) :: l else l)
  end.
Fixpoint offsets_from (off : Z) (sizes : list Z) : list Z :=
  match sizes with [] => [] | s :: r => off :: offsets_from (off + s) r end.
(** src_matset["volume_fractions"][0]: an error without children *)
Definition first_len (f : full) : outcome Z :=
  match f with [] => Err | (_, c) :: _ => Ok (zlen c) end.
(** multi_buffer_by_element_to_uni_buffer_by_element_matset, 670-725 *)
Definition full_to_uni (f : full) : outcome uni :=
  do n <- first_len f;
  do rows <- omapM (pick (number_from 0 (map (fun c => (snd c, snd c)) f))) (zseq n);
  let sizes := map zlen rows in
  Ok (mkUni (map (fun c => (fst (snd c), fst c)) (number_from 0 f))
            (map snd (concat rows)) (map fst (concat rows))
            (Some sizes) None (Some (offsets_from 0 sizes))).
(** multi_buffer_by_element_to_uni_buffer_by_element_field, 729-796: the children of
    the matset and of the field go in step and must have the same names *)
Fixpoint in_step (f vals : full) : outcome (list (list V * list V)) :=
  match f, vals with
  | (k, c) :: fr, (k', w) :: vr =>
      if str_eqb k k' then do l <- in_step fr vr; Ok ((c, w) :: l) else Err
  | _, _ => Ok []
  end.
Definition full_to_uni_field (f vals : full) : outcome (list V) :=
  do cols <- in_step f vals;
  do n <- first_len f;
  do rows <- omapM (pick (number_from 0 cols)) (zseq n);
  Ok (map snd (concat rows)).

(** * Sparse by element to full and to sparse by material *)

(** create_reverse_matmap, 531-545 *)
Definition reverse_map (m : list (str * Z)) : list (Z * str) :=
  fold_left (fun acc c => zset acc (snd c) (fst c)) m [].
(** reverse_matmap[id]: an unknown id is entered with the empty name *)
Definition name_of (rm : list (Z * str)) (id : Z) : str := match zget rm id with Some k => k | None => [] end.
(** the loops over elements and slots, 588-601, 893-908 and 942-955: element, material id and
    value of each slot.  The reads come before the writes of all slots here. *)
Definition slot (u : uni) (vals : list V) (e k : Z) : outcome (Z * (Z * V)) :=
  do j <- ix_index (u_rel u) e k;
  do v <- get vals j;
  do id <- get (u_ids u) j;
  Ok (e, (id, v)).
Definition slots_of (u : uni) (vals : list V) (e : Z) : outcome (list (Z * (Z * V))) :=
  do s <- ix_size (u_rel u) e;
  omapM (slot u vals e) (zseq s).
Definition all_slots (u : uni) (vals : list V) : outcome (list (Z * (Z * V))) :=
  do n <- ix_size (u_rel u) (-1);
  do l <- omapM (slots_of u vals) (zseq n);
  Ok (concat l).
(** walk_uni_buffer_by_element_to_multi_buffer_by_element, 570-602 *)
Definition put_full (rm : list (Z * str)) (acc : full) (s : Z * (Z * V)) : outcome full :=
  let k := name_of rm (fst (snd s)) in
  do c <- vput (match mget acc k with Some c => c | None => [] end) (fst s) (snd (snd s));
  Ok (mset acc k c).
(** uni_buffer_by_element_to_multi_buffer_by_element_matset, _field: 799-868 *)
Definition uni_to_full (u : uni) (vals : list V) : outcome full :=
  let rm := reverse_map (u_map u) in
  do n <- ix_size (u_rel u) (-1);
  let start := fold_left (fun acc c => mset acc (snd c) (repeat zero (Z.to_nat n))) rm [] in
  do l <- all_slots u vals;
  do r <- ofold (put_full rm) l start;
  Ok (by_name r).
(** uni_buffer_by_element_to_multi_buffer_by_material_matset, _field: 872-963 *)
Definition push {A} (acc : list (str * list A)) (k : str) (x : A) : list (str * list A) :=
  mset acc k ((match mget acc k with Some c => c | None => [] end) ++ [x]).
Definition uni_to_sbm (u : uni) (vals : list V) : outcome sbm :=
  let rm := reverse_map (u_map u) in
  do l <- all_slots u vals;
  Ok (mkSbm (by_name (fold_left (fun acc s => push acc (name_of rm (fst (snd s))) (snd (snd s))) l []))
            (by_name (fold_left (fun acc s => push acc (name_of rm (fst (snd s))) (fst s)) l []))).

(** * Full to sparse by material *)

(** the loop over elements, 988-995, 1038-1044 *)
Fixpoint sift (i : Z) (vf fv : list V) : outcome (list (Z * V)) :=
  match vf with
  | [] => Ok []
  | v :: r =>
      do l <- sift (i + 1) r fv;
      if above v then do w <- get fv i; Ok ((i, w) :: l) else Ok l
  end.
(** multi_buffer_by_element_to_multi_buffer_by_material_matset, 967-1000 *)
Definition full_to_sbm (f : full) : outcome sbm :=
  do l <- omapM (fun c => do s <- sift 0 (snd c) (snd c); Ok (fst c, s)) f;
  Ok (mkSbm (map (fun c => (fst c, map snd (snd c))) l) (map (fun c => (fst c, map fst (snd c))) l)).
(** multi_buffer_by_element_to_multi_buffer_by_material_field, 1004-1053 *)
Fixpoint full_to_sbm_field (f vals : full) : outcome full :=
  match f, vals with
  | (k, c) :: fr, (k', w) :: vr =>
      if str_eqb k k' then
        do s <- sift 0 c w;
        do l <- full_to_sbm_field fr vr;
        Ok ((k, map snd s) :: l)
      else Err
  | _, _ => Ok []
  end.

(** * Sparse by material to full and to sparse by element *)

(** create_sbm_rep, 619-639: both arrays of each name; a missing one is empty *)
Definition or_nil {A} (o : option (list A)) : list A := match o with Some l => l | None => [] end.
Definition sbm_rep (eids : list (str * list Z)) (vals : list (str * list V)) : list (str * (list Z * list V)) :=
  let a := fold_left (fun acc c => mset acc (fst c) (snd c, [])) eids [] in
  fold_left (fun acc c => mset acc (fst c) (fst (match mget acc (fst c) with Some p => p | None => ([], []) end), snd c)) vals a.
(** determine_num_elems_in_multi_buffer_by_material, 548-567: the number of different
    element ids *)
Definition num_elems (eids : list (str * list Z)) : Z :=
  zlen (nodup Z.eq_dec (concat (map snd eids))).
(** the values of one material with their elements: sbm_vals decides the length *)
Fixpoint entries (i : Z) (es : list Z) (vs : list V) : outcome (list (Z * V)) :=
  match vs with
  | [] => Ok []
  | v :: r => do e <- get es i; do l <- entries (i + 1) es r; Ok ((e, v) :: l)
  end.
(** sbm_rep_to_full, 642-667; multi_buffer_by_material_to_multi_buffer_by_element_matset,
    _field: 1057-1108 *)
Definition column (n : Z) (es : list Z) (vs : list V) : outcome (list V) :=
  do l <- entries 0 es vs;
  ofold (fun acc p => vput acc (fst p) (snd p)) l (repeat zero (Z.to_nat n)).
Definition sbm_to_full (eids : list (str * list Z)) (vals : list (str * list V)) : outcome full :=
  let n := num_elems eids in
  omapM (fun c => do col <- column n (fst (snd c)) (snd (snd c)); Ok (fst c, col)) (by_name (sbm_rep eids vals)).
(** multi_buffer_by_material_to_uni_buffer_by_element_matset, 1112-1197 *)
Definition add_row {A} (rows : list (list A)) (e : Z) (x : A) : outcome (list (list A)) :=
  do row <- get rows e; vput rows e (row ++ [x]).
Definition sbm_rows (eids : list (str * list Z)) (vals : list (str * list V)) (ids : list (str * Z))
  : outcome (list (list (Z * V))) :=
  ofold (fun rows c =>
           do l <- entries 0 (fst (snd c)) (snd (snd c));
           ofold (fun rows p => add_row rows (fst p) (match mget ids (fst c) with Some i => i | None => 0 end, snd p)) l rows)
        (by_name (sbm_rep eids vals)) (repeat [] (Z.to_nat (num_elems eids))).
Definition sbm_to_uni (eids : list (str * list Z)) (vals : list (str * list V)) : outcome uni :=
  let ids := map (fun c => (fst (snd c), fst c)) (number_from 0 vals) in
  do rows <- sbm_rows eids vals ids;
  let sizes := map zlen rows in
  Ok (mkUni ids (map snd (concat rows)) (map fst (concat rows)) (Some sizes) None (Some (offsets_from 0 sizes))).
(** multi_buffer_by_material_to_uni_buffer_by_element_field, 1201-1277 *)
Definition sbm_to_uni_field (eids : list (str * list Z)) (vals : list (str * list V)) : outcome (list V) :=
  do rows <- sbm_rows eids vals [];
  Ok (map snd (concat rows)).

(** * Choosing the conversion *)

Inductive matset :=
| MFull (f : full)
| MUni (u : uni)
| MSbm (s : sbm)
| MUniMat (u : uni) (eids : list Z).   (** uni-buffer, material dominant *)

(** to_multi_buffer_full, 1308-1341.  A uni-buffer, material dominant matset is taken
    for a multi-buffer one: its arrays have no children. *)
Definition to_full (s : matset) : outcome matset :=
  match s with
  | MFull f => Ok (MFull f)
  | MUni u => do f <- uni_to_full u (u_vals u); Ok (MFull f)
  | MSbm b => do f <- sbm_to_full (s_eids b) (s_vals b); Ok (MFull f)
  | MUniMat _ _ => do f <- sbm_to_full [] []; Ok (MFull f)
  end.
(** to_sparse_by_element, 1344-1379 *)
Definition to_uni (s : matset) : outcome matset :=
  match s with
  | MFull f => do u <- full_to_uni f; Ok (MUni u)
  | MUni u => Ok (MUni u)
  | MSbm b => do u <- sbm_to_uni (s_eids b) (s_vals b); Ok (MUni u)
  | MUniMat _ _ => do u <- sbm_to_uni [] []; Ok (MUni u)
  end.
(** to_multi_buffer_by_material, 1382-1419 *)
Definition to_sbm (s : matset) : outcome matset :=
  match s with
  | MFull f => do b <- full_to_sbm f; Ok (MSbm b)
  | MUni u => do b <- uni_to_sbm u (u_vals u); Ok (MSbm b)
  | MSbm b => Ok (MSbm b)
  | MUniMat u e => Ok (MUniMat u e)
  end.
End Values.
