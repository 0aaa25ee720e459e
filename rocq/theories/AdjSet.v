(** Adjacency sets:
    src/libs/blueprint/conduit_blueprint_mesh.cpp 6819-7066 (is_pairwise, is_maxshare,
    to_pairwise, to_maxshare, group_prefix) and
    src/libs/blueprint/conduit_blueprint_mesh_utils.cpp 2875-2950 (canonicalize, is_canonical).
    A group has integer leaves "neighbors" and "values", in this order; groups given by
    windows are not modelled.  Group names hold no slash, so that operator[] reaches the
    child of that name.  The children of the adjacency set other than "groups" are copied
    unchanged and left out, and so is the verification of the tree above it: what
    find_domain_id returns is the argument [d]. *)
From Verif Require Import Base Path DType Mem Node Schema Json Number ArrayOps O2M MatSet MeshConv.
Local Open Scope Z_scope.
Import ListNotations.

(** a leaf: its type and its elements *)
Record group := Group { g_nbrs : tid * list Z; g_vals : tid * list Z }.
(** the children of "groups" in their order *)
Notation adjset := (list (str * group)).

(** Node::to_index_t of every element *)
Definition ids (l : tid * list Z) : list Z := map (conv INT64) (snd l).
(** Node::to_data_type of an array of index_t *)
Definition store (t : tid) (xs : list Z) : tid * list Z := (t, map (conv t) xs).

(** std::sort of a vector of index_t: the sorted list is determined by the elements *)
Fixpoint zins (x : Z) (l : list Z) : list Z :=
  match l with
  | [] => [x]
  | y :: r => if x <=? y then x :: l else y :: zins x r
  end.
Definition zsort (l : list Z) : list Z := fold_right zins [] l.
(** std::set<index_t>: its elements in order *)
Fixpoint sadd (x : Z) (s : list Z) : list Z :=
  match s with
  | [] => [x]
  | y :: r => if x =? y then s else if x <? y then x :: s else y :: sadd x r
  end.
Fixpoint zeqs (a b : list Z) : bool :=
  match a, b with
  | [], [] => true
  | x :: a', y :: b' => (x =? y) && zeqs a' b'
  | _, _ => false
  end.

(** * mesh_utils.cpp *)

(** the name made by canonicalize, mesh_utils.cpp 2884-2910 *)
Definition new_name (d : Z) (g : group) : str :=
  L "group" ++ concat (map (fun n => "_"%char :: show_Z n) (zsort (d :: ids (g_nbrs g)))).
(** Schema::rename_child, conduit_schema.cpp 1029-1074, on the children of an object *)
Definition rename_child {A} (a : list (str * A)) (cur new : str) : outcome (list (str * A)) :=
  match mget a cur, mget a new with
  | Some _, None => Ok (map (fun p => if str_eqb (fst p) cur then (new, snd p) else p) a)
  | _, _ => Err
  end.
(** adjset::canonicalize, mesh_utils.cpp 2875-2915.  The loop runs over the names as they
    change; a step changes the name it is at only, so the names seen are those at the
    start. *)
Definition canonicalize (d : Z) (a : adjset) : outcome adjset :=
  ofold (fun a old =>
    match mget a old with
    | None => Err
    | Some g => let new := new_name d g in if str_eqb old new then Ok a else rename_child a old new
    end) (map fst a) a.

(** atoi: undefined if the number is no int *)
Fixpoint a_digits (acc : Z) (t : str) : Z :=
  match t with
  | [] => acc
  | c :: r =>
      let v := Z.of_N (N_of_ascii c) - 48 in
      if (0 <=? v) && (v <=? 9) then a_digits (10 * acc + v) r else acc
  end.
Fixpoint a_blank (t : str) : str :=
  match t with
  | [] => []
  | c :: r => let v := N_of_ascii c in if ((v =? 32) || ((9 <=? v) && (v <=? 13)))%N then a_blank r else t
  end.
Definition atoi (t : str) : outcome Z :=
  let z := match a_blank t with
           | [] => 0
           | c :: r =>
               if Ascii.eqb c "-" then - a_digits 0 r
               else if Ascii.eqb c "+" then a_digits 0 r
               else a_digits 0 (c :: r)
           end in
  if (- 2 ^ 31 <=? z) && (z <? 2 ^ 31) then Ok z else UB.
(** adjset::is_canonical, mesh_utils.cpp 2918-2950 *)
Fixpoint climbs (l : list Z) : bool :=
  match l with
  | x :: ((y :: _) as r) => (x <? y) && climbs r
  | _ => true
  end.
Fixpoint starts (p s : str) : bool :=
  match p, s with
  | [], _ => true
  | c :: p', x :: s' => Ascii.eqb c x && starts p' s'
  | _, _ => false
  end.
Definition canonical_name (k : str) : outcome bool :=
  if starts (L "group") k then
    let tokens := split_string_vec k "_"%char in
    if (3 <=? length tokens)%nat then
      do doms <- omapM atoi (tl tokens);
      Ok (climbs doms)
    else Ok false
  else Ok false.
Fixpoint canonical_names (ks : list str) : outcome bool :=
  match ks with
  | [] => Ok true
  | k :: r => do b <- canonical_name k; if b : bool then canonical_names r else Ok false
  end.
Definition is_canonical (a : adjset) : outcome bool := canonical_names (map fst a).

(** * mesh.cpp *)

(** find_widest_dtype(adjset, DEFAULT_INT_DTYPES): the bag is emptied from its end *)
Definition int_type (a : adjset) : tid :=
  find_widest int_defaults (concat (map (fun p => [fst (g_vals (snd p)); fst (g_nbrs (snd p))]) (rev a))).

(** adjset::is_pairwise, mesh.cpp 6819-6832 *)
Definition is_pairwise (a : adjset) : bool := forallb (fun p => zlen (snd (g_nbrs (snd p))) =? 1) a.
(** adjset::is_maxshare, mesh.cpp 6835-6860: [seen] is the set of ids.  The loop over the
    values of one group runs on after a repeated id. *)
Fixpoint fresh (vs seen : list Z) : bool * list Z :=
  match vs with
  | [] => (true, seen)
  | v :: r => let b := negb (existsb (Z.eqb v) seen) in let '(b', s') := fresh r (v :: seen) in (b && b', s')
  end.
Fixpoint maxshare_from (gs : list group) (seen : list Z) : bool :=
  match gs with
  | [] => true
  | g :: r => let '(b, s') := fresh (ids (g_vals g)) seen in if b then maxshare_from r s' else false
  end.
Definition is_maxshare (a : adjset) : bool := maxshare_from (map snd a) [].

(** the groups in the order of the sorted names, mesh.cpp 6873-6874, 6955-6956 *)
Definition in_order (a : adjset) : list group := map snd (by_name a).
(** dest["groups"][std::to_string(number_of_children)] for new children in turn *)
Definition counted (gs : list group) : adjset :=
  combine (map (fun i => show_Z (Z.of_nat i)) (seq 0 (length gs))) gs.

(** pair_values_map, mesh.cpp 6878-6913 *)
Definition add_values (vs : list Z) (m : list (Z * list Z)) (n : Z) : list (Z * list Z) :=
  zset m n (match zget m n with Some l => l ++ vs | None => vs end).
Definition pair_values (a : adjset) : list (Z * list Z) :=
  fold_left (fun m g => fold_left (add_values (ids (g_vals g))) (ids (g_nbrs g)) m) (in_order a) [].
(** adjset::to_pairwise, mesh.cpp 6863-6941 *)
Definition to_pairwise (d : Z) (a : adjset) : outcome adjset :=
  let t := int_type a in
  canonicalize d (counted (map (fun p => Group (store t [fst p]) (store t (snd p))) (pair_values a))).

(** entity_groupset_map, mesh.cpp 6958-6988 *)
Definition add_sharers (ns : list Z) (m : list (Z * list Z)) (e : Z) : list (Z * list Z) :=
  zset m e (fold_left (fun s n => sadd n s) ns (match zget m e with Some s => s | None => [] end)).
Definition groupsets (a : adjset) : list (Z * list Z) :=
  fold_left (fun m g => fold_left (add_sharers (ids (g_nbrs g))) (ids (g_vals g)) m) (in_order a) [].
(** std::map<std::set<index_t>, T>: only looked up *)
Fixpoint sget {A} (m : list (list Z * A)) (k : list Z) : option A :=
  match m with [] => None | (k', v) :: r => if zeqs k k' then Some v else sget r k end.
Fixpoint sset {A} (m : list (list Z * A)) (k : list Z) (v : A) : list (list Z * A) :=
  match m with
  | [] => [(k, v)]
  | (k', v') :: r => if zeqs k k' then (k', v) :: r else (k', v') :: sset r k v
  end.
(** the keys of groupset_groupnode_map in the order the nodes are made, mesh.cpp 6999-7015 *)
Definition group_keys (es : list (Z * list Z)) : list (list Z) :=
  fold_left (fun ks p => if existsb (zeqs (snd p)) ks then ks else ks ++ [snd p]) es [].
(** groupset_values_map, mesh.cpp 7020-7042; the std::set of values holds what the vector
    holds *)
Definition add_entity (es : list (Z * list Z)) (m : list (list Z * list Z)) (e : Z) : list (list Z * list Z) :=
  let key := match zget es e with Some s => s | None => [] end in
  let vs := match sget m key with Some l => l | None => [] end in
  sset m key (if existsb (Z.eqb e) vs then vs else vs ++ [e]).
Definition groupset_values (es : list (Z * list Z)) (a : adjset) : list (list Z * list Z) :=
  fold_left (fun m g => fold_left (add_entity es) (ids (g_vals g)) m) (in_order a) [].
(** adjset::to_maxshare, mesh.cpp 6945-7059.  Both maps have the sets of the entities as
    keys, so the last loop fills in every node once. *)
Definition to_maxshare (d : Z) (a : adjset) : outcome adjset :=
  let t := int_type a in
  let es := groupsets a in
  let vm := groupset_values es a in
  canonicalize d (counted (map (fun s => Group (store t s) (store t (match sget vm s with Some l => l | None => [] end))) (group_keys es))).
