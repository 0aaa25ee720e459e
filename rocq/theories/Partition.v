(** Partitioning a mesh, in serial: which elements go to which output domain.
    blueprint/conduit_blueprint_mesh_partition.cpp.

    A mesh has one topology; an element is its number in its domain.  The element fields are
    the ones used by field selections, already converted to index_t.  What extract and combine
    then make of the elements is not part of this file; index_t, int and unsigned int do not
    wrap, except where a field value becomes a domain number. *)
From Coq Require Import ZArith.
From Verif Require Import Base Node.
Local Open Scope Z_scope.

Definition ijk : Type := Z * Z * Z.
Definition c0 (p : ijk) : Z := fst (fst p).
Definition c1 (p : ijk) : Z := snd (fst p).
Definition c2 (p : ijk) : Z := snd p.
(** a domain: its number (state/domain_id, or its place: get_global_domids 2023-2041), its
    logical dimensions in elements if it is structured, the number of elements, the fields *)
Record dom := mkDom { d_id : Z; d_grid : option ijk; d_n : Z; d_fields : list (str * list Z) }.

(** the selections: logical (start, end), explicit, ranges, field (with the selected value) *)
Inductive sel := SLog (s e : ijk) | SExp (ids : list Z) | SRng (rs : list (Z * Z)) | SFld (f : str) (v : option Z).
(** with what is known of Selection::whole, and the domain it is for, by place *)
Record selection := mkSel { s_what : sel; s_whole : option bool; s_from : nat }.

(** for(i = a; i <= b; i++) *)
Definition zrange (a b : Z) : list Z := map (fun i => a + i) (zseq (b - a + 1)).
(** cells_for_axis, 394-398 *)
Definition cells (f : ijk -> Z) (s e : ijk) : Z := f e - f s + 1.
Definition field (d : dom) (f : str) : list Z := match mget (d_fields d) f with Some l => l | None => [] end.
Definition numbered (l : list Z) : list (Z * Z) := combine (zseq (Z.of_nat (length l))) l.
Definition with_value (l : list Z) (v : Z) : list Z := map fst (filter (fun e => snd e =? v) (numbered l)).

(** length: 352-357, 694-697, 1051-1062, 1450-1478 *)
Definition slen (d : dom) (s : sel) : Z :=
  match s with
  | SLog s e => cells c0 s e * cells c1 s e * cells c2 s e
  | SExp ids => Z.of_nat (length ids)
  | SRng rs => fold_left (fun n r => n + (snd r - fst r + 1)) rs 0
  | SFld f (Some v) => Z.of_nat (length (with_value (field d f) v))
  | SFld f None => Z.of_nat (length (field d f))
  end.
(** get_element_ids: 641-666, 894-916, 1196-1220, 1608-1628 *)
Definition box (g s e : ijk) : list Z :=
  flat_map (fun k => flat_map (fun j => map (fun i => k * (c0 g * c1 g) + j * c0 g + i) (zrange (c0 s) (c0 e))) (zrange (c1 s) (c1 e))) (zrange (c2 s) (c2 e)).
Definition sel_ids (d : dom) (s : sel) : list Z :=
  match s with
  | SLog s e => match d_grid d with Some g => box g s e | None => [] end
  | SExp ids => filter (fun i => i <? d_n d) ids
  | SRng rs => filter (fun i => i <? d_n d) (flat_map (fun r => zrange (fst r) (snd r)) rs)
  | SFld f (Some v) => with_value (field d f) v
  | SFld f None => [] (* not asked for: a field selection is split by value first *)
  end.
(** std::set size *)
Definition unique (l : list Z) : Z := Z.of_nat (length (nodup Z.eq_dec l)).
Fixpoint ascending (l : list Z) : bool :=
  match l with x :: (y :: _) as r => (x <? y) && ascending r | _ => true end.
(** determine_is_whole: 522-539, 802-838, 1072-1109, 1481-1499 *)
Definition is_whole (d : dom) (s : sel) : bool :=
  match s with
  | SLog _ _ | SFld _ _ => d_n d =? slen d s
  | SExp ids => (Z.of_nat (length ids) =? d_n d) && (unique ids =? d_n d) && ascending ids
  | SRng [r] => (fst r =? 0) && (Z.min (snd r) (d_n d - 1) =? d_n d - 1)
  | SRng rs => unique (flat_map (fun r => zrange (fst r) (Z.min (snd r) (d_n d - 1))) rs) =? d_n d
  end.

(** partition: a selection in two; none: nothing to split *)
(** 546-600 *)
Definition split_log (s e : ijk) : list sel :=
  let n0 := cells c0 s e in let n1 := cells c1 s e in let n2 := cells c2 s e in
  if 1 <? n0 * n1 * n2 then
    let la := if n0 <? n1 then 1 else 0 in
    let la2 := if (if la =? 1 then n1 else n0) <? n2 then 2 else la in
    if la2 =? 0 then [SLog s (c0 s + n0 / 2 - 1, c1 e, c2 e); SLog (c0 s + n0 / 2, c1 s, c2 s) e]
    else if la2 =? 1 then [SLog s (c0 e, c1 s + n1 / 2 - 1, c2 e); SLog (c0 s, c1 s + n1 / 2, c2 s) e]
    else [SLog s (c0 e, c1 e, c2 s + n2 / 2 - 1); SLog (c0 s, c1 s, c2 s + n2 / 2) e]
  else [].
(** 841-891: by position, then without the ids that are too large *)
Definition split_exp (n : Z) (ids : list Z) : list sel :=
  let h := (length ids / 2)%nat in
  [SExp (filter (fun i => i <? n) (firstn h ids)); SExp (filter (fun i => i <? n) (skipn h ids))].
(** 1113-1193 *)
Fixpoint split_index (half count : Z) (i : nat) (rs : list (Z * Z)) : nat :=
  match rs with
  | [] => 0%nat
  | r :: rest => let c := snd r - fst r + 1 in if half <? count + c then i else split_index half (count + c) (S i) rest
  end.
Definition cut (r : Z * Z) : list (Z * Z) * list (Z * Z) :=
  let '(a, b) := r in
  let c := b - a + 1 in
  if c =? 1 then ([(a, a)], [])
  else if c =? 2 then ([(a, a)], [(b, b)])
  else ([(a, a + c / 2)], [(a + c / 2 + 1, b)]).
Definition split_rng (rs : list (Z * Z)) : list sel :=
  let len := fold_left (fun n r => n + (snd r - fst r + 1)) rs 0 in
  let k := split_index (len / 2) 0 0 rs in
  let '(x, y) := match nth_error rs k with Some r => cut r | None => ([], []) end in
  [SRng (firstn k rs ++ x); SRng (y ++ skipn (S k) rs)].
(** std::set in order *)
Fixpoint zinsert (x : Z) (l : list Z) : list Z :=
  match l with
  | [] => [x]
  | y :: r => if x <? y then x :: l else if x =? y then l else y :: zinsert x r
  end.
Definition zset (l : list Z) : list Z := fold_right zinsert [] l.
(** 1504-1576 *)
Definition split_sel (d : dom) (s : sel) : list sel :=
  match s with
  | SLog s e => split_log s e
  | SExp ids => split_exp (d_n d) ids
  | SRng rs => split_rng rs
  | SFld f None => map (fun v => SFld f (Some v)) (zset (field d f))
  | SFld f (Some v) =>
      let ids := with_value (field d f) v in let h := (length ids / 2)%nat in
      [SExp (firstn h ids); SExp (skipn h ids)]
  end.

(** get_destination_domain, 242-246, 1579-1583: FREE_DOMAIN_ID is -1; static_cast to int *)
Definition to_int (z : Z) : Z := (z + 2 ^ 31) mod 2 ^ 32 - 2 ^ 31.
Definition dest (s : sel) : Z := match s with SFld _ (Some v) => to_int v | _ => -1 end.
(** count_targets, 2044-2065 *)
Definition is_free (x : Z) : bool := x =? -1.
Definition count_targets (ss : list selection) : Z :=
  let ds := map (fun s => dest (s_what s)) ss in
  Z.of_nat (length (filter is_free ds)) + Z.of_nat (length (zset (filter (fun x => negb (is_free x)) ds))).

Definition sel_dom (doms : list dom) (s : selection) : dom := nth (s_from s) doms (mkDom 0 None 0 []).
(** get_largest_selection, 2068-2083: the first of the largest, none (-1) if all are empty *)
Fixpoint largest (doms : list dom) (i : nat) (best : Z) (at_ : option nat) (ss : list selection) : option nat :=
  match ss with
  | [] => at_
  | s :: r =>
      let n := slen (sel_dom doms s) (s_what s) in
      if best <? n then largest doms (S i) n (Some i) r else largest doms (S i) best at_ r
  end.
(** split_selections, 2093-2147 *)
Fixpoint split_loop (fuel : nat) (doms : list dom) (target : Z) (ss : list selection) : outcome (list selection) :=
  match fuel with
  | O => Fuel
  | S k =>
      let nt := count_targets ss in
      if nt =? 0 then Ok ss
      else if nt <? target then
        match largest doms 0 0 None ss with
        | None => UB (* selections[-1] *)
        | Some i =>
            match nth_error ss i with
            | None => UB
            | Some s =>
                match split_sel (sel_dom doms s) (s_what s) with
                | [] => split_loop k doms target ss
                | ps => split_loop k doms target (firstn i ss ++ map (fun p => mkSel p (Some false) (s_from s)) ps ++ skipn (S i) ss)
                end
            end
        end
      else Ok ss
  end.

(** * map_chunks, 4460-4627 *)
(** while(reserved_dd.find(domid) != end) domid++ *)
Fixpoint next_free (fuel : nat) (res : list Z) (d : Z) : Z :=
  match fuel with
  | O => d
  | S k => if existsb (Z.eqb d) res then next_free k res (d + 1) else d
  end.
Definition next_id (res : list Z) (d : Z) : Z := next_free (S (length res)) res d.
(** 4530-4551: as many targets as wanted *)
Fixpoint assign_each (domid : Z) (res dds : list Z) : list Z :=
  match dds with
  | [] => []
  | dd :: r =>
      if is_free dd then let n := next_id res domid in domid :: assign_each n (n :: res) r
      else dd :: assign_each domid res r
  end.
(** 4553-4614: more; [chunks] are sizes with their destinations *)
Fixpoint assign_group (domid : Z) (res : list Z) (running remaining len rt : Z) (chunks : list (Z * Z)) : list Z :=
  match chunks with
  | [] => []
  | (size, dd) :: r =>
      if is_free dd then
        let left := Z.of_nat (length r) in
        let running := running + size in
        let remaining := remaining - size in
        if negb (left =? 0) && ((len <=? running) || (left =? rt))
        then let n := next_id res domid in domid :: assign_group n (n :: res) 0 remaining (remaining / Z.max rt 1) (rt - 1) r
        else domid :: assign_group domid res running remaining len rt r
      else dd :: assign_group domid res running remaining len rt r
  end.
Definition map_chunks (target nt : Z) (chunks : list (Z * Z)) : outcome (list Z) :=
  let dds := map snd chunks in
  let res := filter (fun x => negb (is_free x)) dds in
  let d0 := next_id res 0 in
  let total := fold_left Z.add (map fst chunks) 0 in
  if nt =? target then Ok (assign_each d0 (d0 :: res) dds)
  else if target <? nt then
    (* target - 1 is of type unsigned int *)
    Ok (assign_group d0 (d0 :: res) 0 total (total / Z.max target 1) (if target =? 0 then 2 ^ 32 - 1 else target - 1) chunks)
  else Err.

(** * initialize, 1856-2020 *)
(** applicable: 481-519 (which clamps the end), 795-799, 1044-1048, 1412-1446 *)
Definition applicable (d : dom) (s : sel) : option sel :=
  match s with
  | SLog s e =>
      match d_grid d with
      | Some g =>
          if (c0 s <? c0 g) && (c1 s <? c1 g) && (c2 s <? c2 g)
          then Some (SLog s (Z.min (c0 e) (c0 g - 1), Z.min (c1 e) (c1 g - 1), Z.min (c2 e) (c2 g - 1))) else None
      | None => None
      end
  | SFld f _ => match mget (d_fields d) f with Some _ => Some s | None => None end
  | _ => Some s
  end.
(** the domain wanted; None: any, for field selections only *)
Record request := mkReq { q_sel : sel; q_dom : option Z }.
Definition chosen (i : nat) (d : dom) (s : sel) : list selection :=
  match s with
  | SFld _ _ => map (fun p => mkSel p (Some false) i) (split_sel d s)
  | _ => [mkSel s None i]
  end.
(** 1889-1933: the first domain of that number it applies to, or all domains *)
Fixpoint init_one (i : nat) (doms : list dom) (q : request) : list selection :=
  match doms with
  | [] => []
  | d :: r =>
      if match q_dom q with Some n => d_id d =? n | None => true end then
        match applicable d (q_sel q) with
        | Some s => chosen i d s ++ match q_dom q with None => init_one (S i) r q | Some _ => [] end
        | None => init_one (S i) r q
        end
      else init_one (S i) r q
  end.
(** create_selection_all_elements, 1742-1803 *)
Definition last_cell (n : Z) : Z := if 0 <? n then n - 1 else 0.
Definition all_of (d : dom) : sel :=
  match d_grid d with
  | Some g => SLog (0, 0, 0) (last_cell (c0 g), last_cell (c1 g), last_cell (c2 g))
  | None => SRng [(0, d_n d - 1)]
  end.
Fixpoint init_all (i : nat) (doms : list dom) : list selection :=
  match doms with [] => [] | d :: r => mkSel (all_of d) (Some true) i :: init_all (S i) r end.
Definition initialize (doms : list dom) (qs : option (list request)) : list selection :=
  match qs with None => init_all 0 doms | Some l => flat_map (init_one 0 doms) l end.

(** * execute, 4268-4450: the elements of each chunk; the chunks of each output domain *)
Definition chunk (doms : list dom) (s : selection) : list (nat * Z) :=
  let d := sel_dom doms s in
  let whole := match s_whole s with Some b => b | None => is_whole d (s_what s) end in
  map (fun e => (s_from s, e)) (if whole then zseq (d_n d) else sel_ids d (s_what s)).
(** mesh::partition, blueprint_mesh.cpp 7480-7496: options_get_target 1806-1853 gave [target] *)
Definition partition (fuel : nat) (doms : list dom) (qs : option (list request)) (target : option Z) : outcome (list (Z * list (nat * Z))) :=
  let ss := initialize doms qs in
  let t := match target with Some t => t | None => count_targets ss end in
  do ss' <- split_loop fuel doms t ss;
  let cs := map (chunk doms) ss' in
  do ds <- map_chunks t (count_targets ss') (combine (map (fun c => Z.of_nat (length c)) cs) (map (fun s => dest (s_what s)) ss'));
  Ok (map (fun v => (v, flat_map snd (filter (fun x => fst x =? v) (combine ds cs)))) (zset ds)).
