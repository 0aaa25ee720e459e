(** conduit::Schema - src/libs/conduit/conduit_schema.{hpp,cpp}. *)
From Verif Require Import Base DType Path SpecTree.
Local Open Scope Z_scope.

(** conduit_schema.hpp (class end): m_dtype, m_hierarchy_data, m_parent.
    An object's hierarchy data holds three containers that must stay in step:
    children (vector), object_order (vector), object_map (map name->index).
    m_parent is not stored: a schema is addressed by its position (list of child
    indices) below a root, and its parent is the position without the last
    index.  Simplification: a container's m_dtype is always DataType::object() /
    list(); set(DataType) with OBJECT_ID and other fields (161-170) and
    set(index_t) with a container id (151-156, leaves m_hierarchy_data NULL) are
    not modelled. *)
Inductive schema : Type :=
| SLeaf (d : dtype)
| SObj (omap : list (str * Z)) (order : list str) (kids : list schema)
| SLst (kids : list schema).

(** m_dtype *)
Definition s_dtype (s : schema) : dtype :=
  match s with SLeaf d => d | SObj _ _ _ => dt_object | SLst _ => dt_list end.
Definition s_id (s : schema) : tid := dt_id (s_dtype s).
(** children() *)
Definition s_kids (s : schema) : list schema :=
  match s with SLeaf _ => [] | SObj _ _ ks => ks | SLst ks => ks end.
Definition set_kids (s : schema) (ks : list schema) : schema :=
  match s with SLeaf d => SLeaf d | SObj m o _ => SObj m o ks | SLst _ => SLst ks end.

(** new Schema() / reset(): init_defaults 1399-1406, release 1436-1459 *)
Definition s_empty : schema := SLeaf dt_empty.

(** conduit_schema.cpp 161-170 *)
Definition s_set_dtype (d : dtype) : schema :=
  match dt_id d with OBJECT => SObj [] [] [] | LIST => SLst [] | _ => SLeaf d end.

(** conduit_schema.cpp 1409-1431 *)
Definition init_object (s : schema) : schema :=
  match s with SObj _ _ _ => s | _ => SObj [] [] [] end.
Definition init_list (s : schema) : schema :=
  match s with SLst _ => s | _ => SLst [] end.

Fixpoint zsum (l : list Z) : Z := match l with [] => 0 | x :: r => x + zsum r end.
Fixpoint zmax0 (l : list Z) : Z := match l with [] => 0 | x :: r => Z.max x (zmax0 r) end.

(** conduit_schema.cpp 223-241 *)
Fixpoint total_strided_bytes (s : schema) : Z :=
  match s with
  | SLeaf d => if tid_eqb (dt_id d) EMPTY then 0 else strided_bytes d
  | SObj _ _ ks => zsum (map total_strided_bytes ks)
  | SLst ks => zsum (map total_strided_bytes ks)
  end.
(** conduit_schema.cpp 245-263 *)
Fixpoint total_bytes_compact (s : schema) : Z :=
  match s with
  | SLeaf d => if tid_eqb (dt_id d) EMPTY then 0 else bytes_compact d
  | SObj _ _ ks => zsum (map total_bytes_compact ks)
  | SLst ks => zsum (map total_bytes_compact ks)
  end.
(** conduit_schema.cpp 267-270 *)
Definition s_is_compact (s : schema) : bool :=
  total_bytes_compact s =? total_strided_bytes s.
(** conduit_schema.cpp 274-299 *)
Fixpoint s_spanned_bytes (s : schema) : Z :=
  match s with
  | SLeaf d => spanned_bytes d
  | SObj _ _ ks => zmax0 (map s_spanned_bytes ks)
  | SLst ks => zmax0 (map s_spanned_bytes ks)
  end.

(** conduit_schema.cpp 755-761 *)
Definition number_of_children (s : schema) : Z := Z.of_nat (List.length (s_kids s)).

(** conduit_schema.cpp 767-777: unchecked vector access (null hierarchy for a
    leaf). *)
Definition child_at (s : schema) (i : Z) : outcome schema := deref (znth (s_kids s) i).

(** conduit_schema.cpp 1239-1255 *)
Definition has_child (s : schema) (k : str) : bool :=
  match s with
  | SObj m _ _ => match mget m k with Some _ => true | None => false end
  | _ => false
  end.
(** conduit_schema.cpp 986-1007, called on objects only. *)
Definition child_index (s : schema) (k : str) : outcome Z :=
  match s with
  | SObj m _ _ => match mget m k with Some i => Ok i | None => Err end
  | _ => UB
  end.
(** conduit_schema.cpp 875-901 *)
Definition child_named (s : schema) (k : str) : outcome schema :=
  match s with
  | SObj m _ ks => do i <- child_index s k; deref (znth ks i)
  | _ => Err
  end.
(** conduit_schema.cpp 1011-1025 *)
Definition child_name (s : schema) (i : Z) : str :=
  match s with
  | SObj _ o _ => match znth o i with Some k => k | None => [] end
  | _ => []
  end.
(** conduit_schema.cpp 1305-1315 *)
Definition child_names (s : schema) : list str :=
  match s with SObj _ o _ => o | _ => [] end.

(** conduit_schema.cpp 855-870 (and the identical block in fetch 1097-1104):
    append a new empty child under a name that is not in use. *)
Definition push_named (m : list (str * Z)) (o : list str) (ks : list schema) (k : str)
  : schema :=
  SObj (mset m k (Z.of_nat (List.length ks))) (o ++ [k]) (ks ++ [s_empty]).
Definition add_child (s : schema) (k : str) : schema :=
  if has_child s k then s
  else match init_object s with
       | SObj m o ks => push_named m o ks k
       | s' => s'
       end.

(** object_map()[k]-- for each k of a suffix of the order vector
    (conduit_schema.cpp 818-821, 1362-1365). operator[] inserts 0 when absent. *)
Definition mdec (m : list (str * Z)) (k : str) : list (str * Z) :=
  mset m k (match mget m k with Some v => v - 1 | None => -1 end).
Definition shift_down (m : list (str * Z)) (names : list str) : list (str * Z) :=
  fold_left mdec names m.

(** The common tail of remove(index_t) 815-830 for objects and remove_child
    1357-1368; [k] is the name erased from the map. *)
Definition obj_erase (m : list (str * Z)) (o : list str) (ks : list schema)
           (i : nat) (k : str) : schema :=
  SObj (mdel (shift_down m (skipn i o)) k) (erase_nth o i) (erase_nth ks i).

(** conduit_schema.cpp 797-831 *)
Definition remove_at (s : schema) (i : Z) : outcome schema :=
  match s with
  | SLeaf _ => Err
  | SLst ks =>
      if (i <? 0) || (Z.of_nat (List.length ks) <=? i) then Err
      else Ok (SLst (erase_nth ks (Z.to_nat i)))
  | SObj m o ks =>
      if (i <? 0) || (Z.of_nat (List.length ks) <=? i) then Err
      else match znth o i with
           | None => UB
           | Some k => Ok (obj_erase m o ks (Z.to_nat i) k)
           end
  end.
(** conduit_schema.cpp 1347-1369 *)
Definition remove_child (s : schema) (k : str) : outcome schema :=
  match s with
  | SObj m o ks =>
      do i <- child_index s k;
      match znth ks i, znth o i with
      | Some _, Some _ => Ok (obj_erase m o ks (Z.to_nat i) k)
      | _, _ => UB
      end
  | _ => Err
  end.
(** conduit_schema.cpp 1029-1074 *)
Definition rename_child (s : schema) (a b : str) : outcome schema :=
  match s with
  | SObj m o ks =>
      if negb (has_child s a) then Err
      else if has_child s b then Err
      else do i <- child_index s a;
           match znth o i with
           | None => UB
           | Some _ => Ok (SObj (mset (mdel m a) b i) (set_nth o (Z.to_nat i) b) ks)
           end
  | _ => Err
  end.
(** conduit_schema.cpp 1373-1380 *)
Definition s_append (s : schema) : schema :=
  match init_list s with SLst ks => SLst (ks ++ [s_empty]) | s' => s' end.

(** conduit_schema.cpp 1260-1300.  Fuel: one unit per recursive call. *)
Definition strip_slash (p : str) : str :=
  match p with c :: r => if ascii_dec c slash then r else p | [] => p end.
Fixpoint has_path_f (f : nat) (s : schema) (path : str) : outcome bool :=
  match f with
  | O => Fuel
  | S f' =>
      match s with
      | SObj m _ ks =>
          let '(c, n) := split_path (strip_slash path) in
          match mget m c with
          | None => Ok false
          | Some i =>
              match n with
              | [] => Ok true
              | _ => do k <- deref (znth ks i); has_path_f f' k n
              end
          end
      | _ => Ok false
      end
  end.
(** Every recursive call consumes at least one byte of the path. *)
Definition has_path (s : schema) (path : str) : outcome bool :=
  has_path_f (S (List.length path)) s path.

(** Positions below a root. *)
Fixpoint get_at (s : schema) (p : list nat) : option schema :=
  match p with
  | [] => Some s
  | i :: p' => match nth_error (s_kids s) i with Some k => get_at k p' | None => None end
  end.
Fixpoint put_at (s : schema) (p : list nat) (x : schema) : option schema :=
  match p with
  | [] => Some x
  | i :: p' =>
      match nth_error (s_kids s) i with
      | Some k => match put_at k p' x with
                  | Some k' => Some (set_kids s (set_nth (s_kids s) i k'))
                  | None => None
                  end
      | None => None
      end
  end.

(** A "this" pointer: the root of the hierarchy and the position of *this. *)
Definition dotdot : str := L "..".

(** Schema::fetch, conduit_schema.cpp 1079-1115 ([fetch_child] is 1096-1106);
    returns the new root and the
    position of the schema the C++ code returns a reference to. *)
Definition fetch_child (root : schema) (p : list nat) (s : schema) (c : str)
  : outcome (schema * list nat) :=
  do b <- has_path s c;
  let s' := if b then s
            else match s with
                 | SObj m o ks => push_named m o ks c
                 | _ => s
                 end in
  do root' <- deref (put_at root p s');
  do i <- child_index s' c;
  do _ <- deref (znth (s_kids s') i);
  Ok (root', p ++ [Z.to_nat i]).
Fixpoint fetch_f (f : nat) (root : schema) (p : list nat) (path : str)
  : outcome (schema * list nat) :=
  match f with
  | O => Fuel
  | S f' =>
      do s0 <- deref (get_at root p);
      let s := init_object s0 in
      let '(c, n) := split_path path in
      if str_eqb c dotdot && match p with [] => false | _ => true end then
        do root' <- deref (put_at root p s);
        fetch_f f' root' (removelast p) n
      else
        do (root', p') <- fetch_child root p s c;
        match n with
        | [] => Ok (root', p')
        | _ => fetch_f f' root' p' n
        end
  end.
Definition fetch (root : schema) (p : list nat) (path : str) : outcome (schema * list nat) :=
  fetch_f (2 + List.length path) root p path.

(** Schema::fetch_existing (non-const), conduit_schema.cpp 905-943.  child_index
    runs before the ".." test. *)
Fixpoint fetch_existing_f (f : nat) (root : schema) (p : list nat) (path : str)
  : outcome (list nat) :=
  match f with
  | O => Fuel
  | S f' =>
      do s <- deref (get_at root p);
      match s with
      | SObj m o ks =>
          let '(c, n) := split_path path in
          do i <- child_index s c;
          if str_eqb c dotdot then
            match p with
            | [] => Err
            | _ => fetch_existing_f f' root (removelast p) n
            end
          else
            let p' := p ++ [Z.to_nat i] in
            match n with
            | [] => match get_at root p' with Some _ => Ok p' | None => UB end
            | _ => fetch_existing_f f' root p' n
            end
      | _ => Err
      end
  end.
Definition fetch_existing (root : schema) (p : list nat) (path : str) : outcome (list nat) :=
  fetch_existing_f (S (List.length path)) root p path.

(** Schema::fetch_existing const, conduit_schema.cpp 948-981. *)
Fixpoint fetch_existing_const_f (f : nat) (root : schema) (p : list nat) (path : str)
  : outcome (list nat) :=
  match f with
  | O => Fuel
  | S f' =>
      do s <- deref (get_at root p);
      match s with
      | SObj m o ks =>
          let '(c, n) := split_path path in
          if str_eqb c dotdot && match p with [] => false | _ => true end then
            fetch_existing_const_f f' root (removelast p) n
          else
            do i <- child_index s c;
            let p' := p ++ [Z.to_nat i] in
            match n with
            | [] => match get_at root p' with Some _ => Ok p' | None => UB end
            | _ => fetch_existing_const_f f' root p' n
            end
      | _ => Err
      end
  end.
Definition fetch_existing_const (root : schema) (p : list nat) (path : str)
  : outcome (list nat) :=
  fetch_existing_const_f (S (List.length path)) root p path.

(** Schema::remove(path), conduit_schema.cpp 1319-1343. *)
Fixpoint remove_path_f (f : nat) (s : schema) (path : str) : outcome schema :=
  match f with
  | O => Fuel
  | S f' =>
      match s with
      | SObj m o ks =>
          let '(c, n) := split_path path in
          match n with
          | [] => remove_child s c
          | _ =>
              do i <- child_index s c;
              do k <- deref (znth ks i);
              do k' <- remove_path_f f' k n;
              Ok (SObj m o (set_nth ks (Z.to_nat i) k'))
          end
      | _ => Err
      end
  end.
Definition remove_path (s : schema) (path : str) : outcome schema :=
  remove_path_f (S (List.length path)) s path.

(** Decimal rendering of an index_t by operator<<; only used for "[i]" in names
    of list entries. *)
Fixpoint digits_f (f : nat) (n : N) (acc : str) : str :=
  match f with
  | O => acc
  | S f' =>
      let d := ascii_of_N (48 + N.modulo n 10) in
      if N.ltb n 10 then d :: acc else digits_f f' (N.div n 10) (d :: acc)
  end.
Definition show_nat (n : nat) : str := digits_f (S n) (N.of_nat n) [].

Definition has_slash (s : str) : bool :=
  existsb (fun c => if ascii_dec c slash then true else false) s.

(** Schema::name(), conduit_schema.cpp 1156-1210.  The scan for the child pointer
    equal to [this] finds the position index. *)
Definition s_name (root : schema) (p : list nat) : str :=
  match p with
  | [] => []
  | _ =>
      let i := last p 0%nat in
      match get_at root (removelast p) with
      | Some (SObj m o ks) =>
          let k := child_name (SObj m o ks) (Z.of_nat i) in
          if has_slash k then "{"%char :: k ++ ["}"%char] else k
      | Some (SLst _) => "["%char :: show_nat i ++ ["]"%char]
      | _ => []
      end
  end.
(** Schema::path(), conduit_schema.cpp 1214-1235.  Recursion on the number of
    ancestors. *)
Fixpoint s_path_f (f : nat) (root : schema) (p : list nat) : str :=
  match f with
  | O => []
  | S f' =>
      match p with
      | [] => []
      | _ =>
          match s_path_f f' root (removelast p) with
          | [] => s_name root p
          | pp => pp ++ slash :: s_name root p
          end
      end
  end.
Definition s_path (root : schema) (p : list nat) : str :=
  s_path_f (List.length p) root p.

(** Schema::compatible, conduit_schema.cpp 304-358: does [a] ( *this ) accept [b]?
    [zs] walks b's object_map. *)
Fixpoint compatible_f (f : nat) (a b : schema) : outcome bool :=
  match f with
  | O => Fuel
  | S f' =>
      if negb (tid_eqb (s_id a) (s_id b)) then Ok false
      else match a, b with
           | SObj _ _ _, SObj mb _ kb =>
               (fix go (zs : list (str * Z)) : outcome bool :=
                  match zs with
                  | [] => Ok true
                  | (k, i) :: r =>
                      do h <- has_path a k;
                      if h then
                        do cb <- deref (znth kb i);
                        do ca <- child_named a k;
                        do x <- compatible_f f' ca cb;
                        if x then go r else Ok false
                      else go r
                  end) mb
           | SLst ka, SLst kb =>
               if (List.length ka <? List.length kb)%nat then Ok false
               else (fix go (xs ys : list schema) : outcome bool :=
                       match xs, ys with
                       | x :: xs', y :: ys' =>
                           do c <- compatible_f f' x y;
                           if c then go xs' ys' else Ok false
                       | _, _ => Ok true
                       end) ka kb
           | _, _ => Ok (dt_compatible (s_dtype a) (s_dtype b))
           end
  end.

(** One of the two loops of Schema::equals: for every (k,i) of [src]'s object
    map, [dst] must have_path k and src.children[i].equals(dst.child(k)). *)
Fixpoint eq_loop (eqf : schema -> schema -> outcome bool)
         (dst : schema) (ksrc : list schema) (zs : list (str * Z)) : outcome bool :=
  match zs with
  | [] => Ok true
  | (k, i) :: r =>
      do h <- has_path dst k;
      if h then
        do cs <- deref (znth ksrc i);
        do cd <- child_named dst k;
        do x <- eqf cs cd;
        if x then eq_loop eqf dst ksrc r else Ok false
      else Ok false
  end.
Fixpoint eq_list (eqf : schema -> schema -> outcome bool) (xs ys : list schema)
  : outcome bool :=
  match xs, ys with
  | x :: xs', y :: ys' =>
      do c <- eqf x y; if c then eq_list eqf xs' ys' else Ok false
  | _, _ => Ok true
  end.
(** Schema::equals, conduit_schema.cpp 362-431. *)
Fixpoint equals_f (f : nat) (a b : schema) : outcome bool :=
  match f with
  | O => Fuel
  | S f' =>
      if negb (tid_eqb (s_id a) (s_id b)) then Ok false
      else match a, b with
           | SObj ma _ ka, SObj mb _ kb =>
               do r1 <- eq_loop (equals_f f') a kb mb;
               if r1 then eq_loop (equals_f f') b ka ma else Ok false
           | SLst ka, SLst kb =>
               if (List.length ka =? List.length kb)%nat
               then eq_list (equals_f f') ka kb else Ok false
           | _, _ => Ok (dt_equals (s_dtype a) (s_dtype b))
           end
  end.
Fixpoint depth (s : schema) : nat :=
  match s with
  | SLeaf _ => 1%nat
  | SObj _ _ ks => S (fold_right Nat.max 0%nat (map depth ks))
  | SLst ks => S (fold_right Nat.max 0%nat (map depth ks))
  end.
Definition s_equals (a b : schema) : outcome bool := equals_f (S (depth a)) a b.
Definition s_compatible (a b : schema) : outcome bool := compatible_f (S (depth a)) a b.

(** Schema::compact_to(s_dest,curr_offset), conduit_schema.cpp 1473-1507, with
    s_dest freshly reset (compact_to(s_dest) 443-447).  [add_last] is
    s_dest.add_child(name) / append() followed by filling that child in.
    Simplification: for an object whose order holds the same name twice (not a
    well-formed object) add_child would return the first entry; there the child
    index returned by the map is used, as in the C++ code. *)
Definition compact_kids (compact : schema -> Z -> schema) :=
  fix go (dest : schema) (names : list str) (ks : list schema) (off : Z) : schema :=
  match ks with
  | [] => dest
  | k :: r =>
      let c := compact k off in
      let dest' :=
        match dest with
        | SObj _ _ _ =>
            let d1 := add_child dest (hd [] names) in
            match child_index d1 (hd [] names) with
            | Ok i => set_kids d1 (set_nth (s_kids d1) (Z.to_nat i) c)
            | _ => d1
            end
        | SLst ds => SLst (ds ++ [c])
        | _ => dest
        end in
      go dest' (tl names) r (off + total_bytes_compact c)
  end.
Fixpoint compact_at (s : schema) (off : Z) : schema :=
  match s with
  | SLeaf d =>
      if tid_eqb (dt_id d) EMPTY then s_empty
      else let c := dt_compact d in
           SLeaf (mkDT (dt_id c) (dt_n c) off (dt_stride c) (dt_ebytes c) (dt_endian c))
  | SObj _ o ks => compact_kids compact_at (SObj [] [] []) o ks off
  | SLst ks => compact_kids compact_at (SLst []) [] ks off
  end.
Definition s_compact_to (s : schema) : schema := compact_at s 0.

(** Schema::set(const Schema&), conduit_schema.cpp 111-146, where *this is at
    position [p] and the source at position [q] of the same hierarchy.
    - source strictly below *this: reset() deletes it first: UB;
    - source = *this: after reset() the source is empty too;
    - otherwise the loop copies their children one at a time, reading the source
      after the children copied so far have been attached to *this (this matters
      only when the source is an ancestor of *this). *)
Fixpoint is_prefix (p q : list nat) : bool :=
  match p, q with
  | [], _ => true
  | x :: p', y :: q' => Nat.eqb x y && is_prefix p' q'
  | _ :: _, [] => false
  end.
Fixpoint copy_kids (n : nat) (i : nat) (root : schema) (p q : list nat) : outcome schema :=
  match n with
  | O => Ok root
  | S n' =>
      do k <- deref (get_at root (q ++ [i]));
      do t <- deref (get_at root p);
      do root' <- deref (put_at root p (set_kids t (s_kids t ++ [k])));
      copy_kids n' (S i) root' p q
  end.
Definition set_from (root : schema) (p q : list nat) : outcome schema :=
  do src <- deref (get_at root q);
  if is_prefix p q then
    if is_prefix q p then deref (put_at root p s_empty) else UB
  else
    let init := match src with
                | SObj m o _ => SObj m o []
                | SLst _ => SLst []
                | SLeaf d => SLeaf d
                end in
    do root' <- deref (put_at root p init);
    copy_kids (List.length (s_kids src)) 0 root' p q.

(** Abstraction to the specification tree: an object is its (order, children)
    association; the map is redundant. *)
Fixpoint abs (s : schema) : tree dtype :=
  match s with
  | SLeaf d => TLeaf d
  | SObj _ o ks => TObj (combine o (map abs ks))
  | SLst ks => TList (map abs ks)
  end.

(** One API call on the schema at position [p] of [root]; the outcome carries the
    new root.  Every Err below is raised before anything is modified (see the
    line ranges of the functions called), so an Err leaves [root] unchanged. *)
Definition apply_op (root : schema) (p : list nat) (op : sop) : outcome schema :=
  do s <- deref (get_at root p);
  let put s' := deref (put_at root p s') in
  match op with
  | OpAddChild k => put (add_child s k)
  | OpFetch cs => do (r, _) <- fetch root p (path_of cs); Ok r
  | OpRemoveAt i => do s' <- remove_at s i; put s'
  | OpRemoveChild k => do s' <- remove_child s k; put s'
  | OpRemovePath cs => do s' <- remove_path s (path_of cs); put s'
  | OpRename a b => do s' <- rename_child s a b; put s'
  | OpAppend => put (s_append s)
  | OpSetDType d => put (s_set_dtype d)
  | OpReset => put s_empty
  end.
Definition step_op (root : schema) (po : list nat * sop) : schema :=
  match apply_op root (fst po) (snd po) with Ok r => r | _ => root end.
Definition run_ops (root : schema) (h : list (list nat * sop)) : schema :=
  fold_left step_op h root.
