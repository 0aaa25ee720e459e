(** Material sets in Silo form: src/libs/blueprint/conduit_blueprint_mesh_matset_xforms.cpp,
    detail::to_silo and specset::to_silo.  Arrays are seen through accessors as in
    MatSet.v; elements are read one at a time through an external node of default
    endianness there, so foreign endianness is left out.  index_t and int are unbounded,
    but integers put into the result are converted to the chosen type, and floating
    point values go through [rnd]. *)
From Verif Require Import Base DType Node Number NodeDiff ArrayOps O2M MatSet.
Local Open Scope Z_scope.

(** ---- find_widest_dtype, conduit_blueprint_mesh_utils.cpp 313-350 ---- *)
(** The types of the leaves of a node. *)
Inductive types := TLeaf (t : tid) | TNode (l : list types).
Definition is_real (a : tid) : bool := match a with FLOAT32 | FLOAT64 => true | _ => false end.
Definition same_kind (a b : tid) : bool := (is_real a && is_real b) || (is_signed a && is_signed b) || (is_unsigned a && is_unsigned b).
(** the loop over default_dtypes; [None] stands for the type without bytes to begin with *)
Definition wider (defaults : list tid) (t : tid) (w : option tid) : option tid :=
  fold_left (fun w d =>
    if same_kind t d && (match w with Some w => default_bytes w | None => 0 end <? default_bytes t) then Some t else w) defaults w.
(** The bag is a stack: the last child comes first. *)
Fixpoint widest (defaults : list tid) (n : types) (w : option tid) : option tid :=
  match n with
  | TLeaf t => wider defaults t w
  | TNode l => fold_right (fun c w => widest defaults c w) w l
  end.
Definition find_widest (defaults : list tid) (n : types) : tid :=
  match widest defaults n None with Some t => t | None => hd EMPTY defaults end.
(** mesh_utils.hpp 58-61 *)
Definition DEFAULT_INTS := [INT32; UINT32].

(** ---- detail::to_silo, 78-506 ---- *)
(** while(iter.has_next(MANY)) { iter.next(MANY); iter.index(DATA); }, 216-221 *)
Fixpoint many_loop (fuel : nat) (r : o2m) (s : its) : outcome (list Z * its) :=
  match fuel with
  | O => Fuel
  | S f => do b <- has_next r s MANY;
           if b then do (_, s') <- next r s MANY; do i <- it_index_at r (fst s') (snd s');
                     do (l, s2) <- many_loop f r s'; Ok (i :: l, s2)
           else Ok ([], s)
  end.
(** while(iter.has_next(DATA)) { iter.next(ONE); iter.to_front(MANY); ... }, 198-217 *)
Fixpoint one_loop (fuel : nat) (r : o2m) (s : its) : outcome (list (Z * list Z)) :=
  match fuel with
  | O => Fuel
  | S f => do b <- has_next r s DATA;
           if b then do (one, s1) <- next r s ONE;
                     do (ps, s2) <- many_loop f r (to_front s1 MANY);
                     do l <- one_loop f r s2; Ok ((one, ps) :: l)
           else Ok []
  end.
(** the largest element id + 1, at least 0: 126-154 *)
Definition max_id (l : list Z) : Z := fold_left (fun n e => Z.max n (e + 1)) l 0.

Section Values.
Context {V : Type}.
Variable zero : V.
Variable above : V -> bool.   (** x > epsilon *)
Variable rnd : V -> V.        (** conversion to the floating point type of the matset *)
Variable t : tid.             (** integer type of the matset *)

(** elem_mat_maps[e][id] = x for each (e, (id, x)) *)
Definition enter {X} (maps : list (list (Z * X))) (s : Z * (Z * X)) : outcome (list (list (Z * X))) :=
  do m <- get maps (fst s); vput maps (fst s) (zset m (fst (snd s)) (snd (snd s))).
Definition enter_all {X} (n : Z) (l : list (Z * (Z * X))) : outcome (list (list (Z * X))) :=
  ofold enter l (repeat [] (Z.to_nat n)).

(** dest *)
Record silo := mkSilo {
  si_matlist : list Z; si_next : list Z; si_mat : list Z;
  si_vf : list V; si_var : list V      (** field_mixvar_values *)
}.
(** mix_next of the [m] slots from [slot]: 482-495 *)
Definition nexts_of (slot : Z) (m : nat) : list Z :=
  map (fun i => conv t (slot + Z.of_nat i + 2)) (seq 0 (m - 1)) ++ [conv t 0].
(** the loop over the elements, 445-506.  The arrays are filled from the front, so they
    are built in order here. *)
Fixpoint layout (slot : Z) (maps vmaps : list (list (Z * V))) : outcome silo :=
  match maps, vmaps with
  | m :: r, w :: rw =>
      match m with
      | [] => Err
      | [(id, _)] =>
          do s <- layout slot r rw;
          Ok (mkSilo (conv t id :: si_matlist s) (si_next s) (si_mat s) (si_vf s) (si_var s))
      | _ =>
          do s <- layout (slot + zlen m) r rw;
          Ok (mkSilo (conv t (- slot - 1) :: si_matlist s) (nexts_of slot (length m) ++ si_next s)
                     (map (fun p => conv t (fst p)) m ++ si_mat s) (map (fun p => rnd (snd p)) m ++ si_vf s)
                     (map (fun p => rnd (match zget w (fst p) with Some x => x | None => zero end)) m ++ si_var s))
      end
  | _, _ => Ok (mkSilo [] [] [] [] [])
  end.

(** uni-buffer, 185-263; [eids] when material dominant, [fv] the field's matset_values.
    Element, material id, volume fraction and field value of each slot. *)
Definition uni_slot (u : uni (V:=V)) (fv : option (list V)) (e p : Z) : outcome (Z * (Z * (V * V))) :=
  do v <- get (u_vals u) p;
  do w <- match fv with Some f => get f p | None => Ok zero end;
  do id <- get (u_ids u) p;
  Ok (e, (id, (v, w))).
Definition uni_slots (fuel : nat) (u : uni) (eids : option (list Z)) (fv : option (list V))
  : outcome (list (Z * (Z * (V * V)))) :=
  do l <- one_loop fuel (u_rel u) it_begin;
  do ll <- omapM (fun op => do e <- match eids with Some es => get es (fst op) | None => Ok (fst op) end;
                            omapM (uni_slot u fv e) (snd op)) l;
  Ok (concat ll).
Definition of_vf (s : Z * (Z * (V * V))) : Z * (Z * V) := (fst s, (fst (snd s), fst (snd (snd s)))).
Definition of_value (s : Z * (Z * (V * V))) : Z * (Z * V) := (fst s, (fst (snd s), snd (snd (snd s)))).
Definition to_silo_uni (fuel : nat) (u : uni) (eids : option (list Z)) (fv : option (list V)) : outcome silo :=
  do n <- match eids with Some es => Ok (max_id es) | None => elements_one (u_rel u) end;
  do l <- uni_slots fuel u eids fv;
  let k := filter (fun s => above (fst (snd (snd s)))) l in
  do maps <- enter_all n (map of_vf k);
  do vmaps <- enter_all n (map of_value k);
  layout 0 maps vmaps.

(** multi-buffer, 264-415; a raw array is put into a relation of its own.  The n-th value
    visited belongs to element n, or to the n-th of the element ids. *)
Definition raw (len : nat) : o2m :=
  {| o_sizes := None; o_indices := None; o_offsets := None; o_data := [(L "values", repeat 0 len)] |}.
Definition column_slots (fuel : nat) (id : Z) (c : list V) (es : option (list Z)) : outcome (list (Z * (Z * V))) :=
  do ps <- walk fuel (raw (length c)) it_begin;
  omapM (fun ip => do v <- get c (snd ip);
                   do e <- match es with Some es => get es (fst ip) | None => Ok (fst ip) end;
                   Ok (e, (id, v))) (number_from 0 ps).
(** matset["element_ids"][name] and mset_mat_map[name] on const nodes: missing is an error *)
Definition named_child {A} (m : list (str * A)) (k : str) : outcome A :=
  match mget m k with Some x => Ok x | None => Err end.
Definition multi_slots (fuel : nat) (mm : list (str * Z)) (f : full (V:=V)) (eids : option (list (str * list Z)))
  : outcome (list (Z * (Z * V))) :=
  do ll <- omapM (fun c => do id <- named_child mm (fst c);
                           do es <- match eids with Some m => do es <- named_child m (fst c); Ok (Some es) | None => Ok None end;
                           column_slots fuel id (snd c) es) f;
  Ok (concat ll).
(** the values of the slots that are in the map, 399-411 *)
Fixpoint in_maps (maps : list (list (Z * V))) (l : list (Z * (Z * V))) : outcome (list (Z * (Z * V))) :=
  match l with
  | [] => Ok []
  | s :: r =>
      do m <- get maps (fst s);
      do k <- in_maps maps r;
      Ok (match zget m (fst (snd s)) with Some _ => s :: k | None => k end)
  end.
(** material_map, or the order of the materials: 97-121 (converted to the integer type) *)
Definition implied_map (f : full (V:=V)) : list (str * Z) := map (fun c => (fst (snd c), conv t (fst c))) (number_from 0 f).
Definition to_silo_multi (fuel : nat) (mm : option (list (str * Z))) (f : full) (eids : option (list (str * list Z)))
  (fv : option full) : outcome silo :=
  let mm := match mm with Some m => m | None => implied_map f end in
  do n <- match eids with
          | Some m => Ok (max_id (concat (map snd m)))
          | None => match f with [] => Err | (_, c) :: _ => elements_one (raw (length c)) end
          end;
  do l <- multi_slots fuel mm f eids;
  do maps <- enter_all n (filter (fun s => above (snd (snd s))) l);
  do vmaps <- match fv with
              | Some g => do l2 <- multi_slots fuel mm g eids; do k <- in_maps maps l2; enter_all n k
              | None => Ok (repeat [] (Z.to_nat n))
              end;
  layout 0 maps vmaps.
End Values.

(** ---- specset::to_silo, 1434-1690 ---- *)
Section Species.
Context {V : Type}.
(** matset_values: for each material its species, an array over the elements each *)
Definition species := list (str * list (str * list V)).
Record spec_silo := mkSpec {
  sp_nmatspec : list Z; sp_names : list str; sp_mf : list V; sp_list : list Z; sp_mix : list Z
}.
(** matmap_map, 1471-1494: the names must agree in order *)
Fixpoint number_map (i : Z) (sp : species) (mm : list (str * Z)) (acc : list (Z * Z)) : outcome (list (Z * Z)) :=
  match sp, mm with
  | (k, _) :: sp', (k', id) :: mm' => if str_eqb k k' then number_map (i + 1) sp' mm' (zset acc id i) else Err
  | _, _ => Ok acc
  end.
(** 1533-1555: the mass fractions of all species in zone [z] *)
Definition zone_mf (sp : species) (z : Z) : outcome (list V) :=
  omapM (fun c : str * list V => get (snd c) z) (concat (map snd sp)).
(** calculate_species_index, 1563-1606 *)
Definition species_index (nspec : list Z) (z i : Z) : outcome Z :=
  do before <- omapM (get nspec) (zseq i);
  Ok (z * zsum nspec + (1 + zsum before)).
(** matmap_map[matno]: 0 when missing *)
Definition mat_index (m : list (Z * Z)) (id : Z) : Z := match zget m id with Some i => i | None => 0 end.
(** the while loop of a mixed zone, 1645-1661 *)
Fixpoint mixed (fuel : nat) (next mat : list Z) (nm : list (Z * Z)) (nspec : list Z) (z mix : Z) : outcome (list Z) :=
  match fuel with
  | O => Fuel
  | S f =>
      if mix <? 0 then Ok []
      else
        do id <- get mat mix;
        do q <- species_index nspec z (mat_index nm id);
        do nx <- get next mix;
        do l <- mixed f next mat nm nspec z (nx - 1);
        Ok (q :: l)
  end.
(** the loop over the zones, 1616-1663; [start] is mix_start_index *)
Fixpoint zones (fuel : nat) (next mat : list Z) (nm : list (Z * Z)) (nspec : list Z) (z start : Z) (matlist : list Z)
  : outcome (list Z * list Z) :=
  match matlist with
  | [] => Ok ([], [])
  | m :: r =>
      if 0 <=? m then
        do q <- species_index nspec z (mat_index nm m);
        do (sl, mx) <- zones fuel next mat nm nspec (z + 1) start r;
        Ok (q :: sl, mx)
      else
        do l <- mixed fuel next mat nm nspec z (-1 * (m + 1));
        do (sl, mx) <- zones fuel next mat nm nspec (z + 1) (start - zlen l) r;
        Ok (start :: sl, l ++ mx)
  end.
Definition spec_to_silo (fuel : nat) (sp : species) (mm : list (str * Z)) (matlist next mat : list Z) : outcome spec_silo :=
  if Z.of_nat (length mm) =? Z.of_nat (length sp) then
    do nm <- number_map 0 sp mm [];
    let nspec := map (fun c => zlen (snd c)) sp in
    do mf <- omapM (zone_mf sp) (zseq (zlen matlist));
    do (sl, mx) <- zones fuel next mat nm nspec 0 (-1) matlist;
    Ok (mkSpec nspec (map fst (concat (map snd sp))) (concat mf) sl mx)
  else Err.
End Species.
