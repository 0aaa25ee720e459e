(** One-to-many relations, src/libs/blueprint/conduit_blueprint_o2mrelation.cpp,
    conduit_blueprint_o2mrelation_index.cpp, conduit_blueprint_o2mrelation_iterator.cpp.
    index_t is unbounded here (no 64 bit wrap-around); reading an accessor out of
    range is UB. *)
From Verif Require Import Base.
Local Open Scope Z_scope.

(** The arrays of a relation node, as the index_t accessors see them, and the
    numeric data arrays in child order (data_paths, o2mrelation.cpp 154-171). *)
Record o2m := { o_sizes : option (list Z); o_indices : option (list Z); o_offsets : option (list Z);
                o_data : list (str * list Z) }.
Definition zlen {A} (l : list A) : Z := Z.of_nat (length l).
Definition at_ (l : list Z) (i : Z) : outcome Z := deref (znth l i).
Fixpoint zsum (l : list Z) : Z := match l with [] => 0 | x :: r => x + zsum r end.

Inductive itype := DATA | ONE | MANY.

(** ---- O2MIterator ---- *)
(** Constructor, iterator.cpp 61-80: paths.front() of the data paths. *)
Definition it_data (r : o2m) : outcome (list Z) := match o_data r with d :: _ => Ok (snd d) | [] => UB end.
(** elements(one_index, itype), iterator.cpp 441-499 *)
Definition elements_one (r : o2m) : outcome Z :=
  match o_sizes r with
  | Some s => Ok (zlen s)
  | None => match o_indices r with
            | Some i => Ok (zlen i)
            | None => do d <- it_data r; Ok (zlen d)
            end
  end.
Definition elements_data (r : o2m) : outcome Z :=
  match o_sizes r with Some s => Ok (zsum s) | None => elements_one r end.
Definition elements_many (r : o2m) (one : Z) : outcome Z :=
  do n <- elements_one r;
  if one <? n then match o_sizes r with Some s => at_ s one | None => Ok 1 end
  else Ok 0.
(** index(one_index, many_index, DATA), iterator.cpp 398-437 *)
Definition it_index_at (r : o2m) (one many : Z) : outcome Z :=
  do offset <- match o_offsets r with Some o => at_ o one | None => Ok one end;
  do index <- match o_indices r with Some i => at_ i offset | None => Ok offset end;
  Ok (index + (many - 1)).

(** m_one_index, m_many_index *)
Definition its := (Z * Z)%type.
Definition it_begin : its := (0, 0).
(** has_next, iterator.cpp 148-168 *)
Definition has_next_one (r : o2m) (s : its) : outcome bool := do n <- elements_one r; Ok (fst s <? n - 1).
Definition has_next_many (r : o2m) (s : its) : outcome bool := do n <- elements_many r (fst s); Ok (snd s <? n).
Definition has_next (r : o2m) (s : its) (t : itype) : outcome bool :=
  match t with
  | DATA => do a <- has_next_one r s; if a then Ok true else has_next_many r s
  | ONE => has_next_one r s
  | MANY => has_next_many r s
  end.
(** next, iterator.cpp 172-210 *)
Definition next (r : o2m) (s : its) (t : itype) : outcome (Z * its) :=
  let (one, many) := s in
  match t with
  | DATA =>
      do n <- elements_many r one;
      let s' := if many <? n then (one, many + 1) else (one + 1, 1) in
      do i <- it_index_at r (fst s') (snd s'); Ok (i, s')
  | ONE => if many <? 1 then Ok (one, (one, many + 1)) else Ok (one + 1, (one + 1, many))
  | MANY => Ok (many, (one, many + 1))
  end.
(** peek_next, iterator.cpp 214-241 *)
Definition peek_next (r : o2m) (s : its) (t : itype) : outcome Z :=
  let (one, many) := s in
  match t with
  | DATA => do n <- elements_many r one;
            if many <? n then it_index_at r one (many + 1) else it_index_at r (one + 1) 1
  | ONE => Ok (one + (if many <? 1 then 0 else 1))
  | MANY => Ok many
  end.
(** to_front, iterator.cpp 245-261 *)
Definition to_front (s : its) (t : itype) : its :=
  match t with DATA => (0, 0) | ONE => (0, snd s) | MANY => (fst s, 0) end.
(** has_previous, iterator.cpp 268-286 *)
Definition has_previous (s : its) (t : itype) : bool :=
  match t with DATA => (0 <? fst s) || (1 <? snd s) | ONE => 0 <? fst s | MANY => 1 <? snd s end.
(** previous, iterator.cpp 290-319 *)
Definition previous (r : o2m) (s : its) (t : itype) : outcome (Z * its) :=
  let (one, many) := s in
  match t with
  | DATA =>
      do s' <- (if 1 <? many then Ok (one, many - 1) else do n <- elements_many r (one - 1); Ok (one - 1, n));
      do i <- it_index_at r (fst s') (snd s'); Ok (i, s')
  | ONE => Ok (one - 1, (one - 1, many))
  | MANY => Ok (many - 2, (one, many - 1))
  end.
(** peek_previous, iterator.cpp 323-348 *)
Definition peek_previous (r : o2m) (s : its) (t : itype) : outcome Z :=
  let (one, many) := s in
  match t with
  | DATA => if 1 <? many then it_index_at r one (many - 1)
            else do n <- elements_many r (one - 1); it_index_at r (one - 1) n
  | ONE => Ok (one - 1)
  | MANY => Ok (many - 2)
  end.
(** to_back, iterator.cpp 352-369 *)
Definition to_back (r : o2m) (s : its) (t : itype) : outcome its :=
  match t with
  | DATA => do n <- elements_one r; Ok (n, 1)
  | ONE => do n <- elements_one r; Ok (n, snd s)
  | MANY => do n <- elements_many r (fst s); Ok (fst s, n)
  end.
(** to(i, itype), iterator.cpp 377-398: to_front, then i + 1 times next(DATA) *)
Fixpoint nexts (r : o2m) (k : nat) (s : its) : outcome its :=
  match k with O => Ok s | S k' => do (_, s') <- next r s DATA; nexts r k' s' end.
Definition to_ (r : o2m) (s : its) (i : Z) (t : itype) : outcome its :=
  match t with
  | DATA => do (_, s') <- next r (0, 0) DATA; nexts r (Z.to_nat i) s'
  | ONE => Ok (i, snd s)
  | MANY => Ok (fst s, i + 1)
  end.
(** while(it.has_next(DATA)) it.next(DATA): the usual loop, collecting results *)
Fixpoint walk (fuel : nat) (r : o2m) (s : its) : outcome (list Z) :=
  match fuel with
  | O => Fuel
  | S f => do b <- has_next r s DATA;
           if b then do (i, s') <- next r s DATA; do l <- walk f r s'; Ok (i :: l) else Ok []
  end.

(** ---- O2MIndex (index.cpp): an array without elements counts as absent ---- *)
Definition present (o : option (list Z)) : option (list Z) :=
  match o with Some [] => None | x => x end.
(** index(one_index, many_index), index.cpp 129-152 *)
Definition ix_index (r : o2m) (one many : Z) : outcome Z :=
  do offset <- match present (o_offsets r) with Some o => at_ o one | None => Ok one end;
  match present (o_indices r) with Some i => at_ i (offset + many) | None => Ok (offset + many) end.
(** size(one_index), index.cpp 156-185; -1 asks for the number of ones *)
Definition ix_size (r : o2m) (one : Z) : outcome Z :=
  if one =? -1 then
    match present (o_offsets r) with
    | Some o => Ok (zlen o)
    | None => match present (o_indices r) with Some i => Ok (zlen i) | None => Ok 0 end
    end
  else match present (o_sizes r) with Some s => at_ s one | None => Ok 1 end.
(** offset(one_index), index.cpp 188-197 *)
Definition ix_offset (r : o2m) (one : Z) : outcome Z :=
  match present (o_offsets r) with Some o => at_ o one | None => Ok one end.

(** ---- generate_offsets, o2mrelation.cpp 247-278: the loop reads back the offset
    written before; [None] for the base object missing "sizes" (returns false). ---- *)
Fixpoint gen_offsets (prev_off prev_size : Z) (sizes : list Z) : list Z :=
  match sizes with
  | [] => []
  | s :: r => let o := prev_off + prev_size in o :: gen_offsets o s r
  end.
Definition generate_offsets (r : o2m) : option o2m :=
  match o_sizes r with
  | None => None
  | Some s => Some {| o_sizes := o_sizes r; o_indices := o_indices r; o_offsets := Some (gen_offsets 0 0 s); o_data := o_data r |}
  end.

(** ---- compact_to, o2mrelation.cpp 175-243 ---- *)
(** Fresh arrays hold zeros (the default allocator is calloc); writing outside
    them is UB.  Conversions between equal types are identities; the offsets are
    assumed to fit the offsets type. *)
Definition put (l : list Z) (i v : Z) : outcome (list Z) :=
  if (0 <=? i) && (i <? zlen l) then Ok (set_nth l (Z.to_nat i) v) else UB.
(** the for loop over data paths, lines 227-236; curr_index advances once per path *)
Fixpoint copy_paths (data : list (str * list Z)) (res : list (str * list Z)) (di ci : Z) : outcome (list (str * list Z) * Z) :=
  match data, res with
  | (_, d) :: dr, (k, q) :: qr =>
      do v <- at_ d di;
      do q' <- put q ci v;
      do (qr', ci') <- copy_paths dr qr di (ci + 1);
      Ok ((k, q') :: qr', ci')
  | _, _ => Ok (res, ci)
  end.
(** lines 222-238 *)
Fixpoint many_loop (fuel : nat) (r : o2m) (s : its) (res : list (str * list Z)) (ci : Z)
  : outcome (its * list (str * list Z) * Z) :=
  match fuel with
  | O => Fuel
  | S f =>
      do b <- has_next r s MANY;
      if b then
        do (_, s') <- next r s MANY;
        do di <- it_index_at r (fst s') (snd s');
        do (res', ci') <- copy_paths (o_data r) res di ci;
        many_loop f r s' res' ci'
      else Ok (s, res, ci)
  end.
(** lines 212-241 *)
Fixpoint one_loop (fuel : nat) (r : o2m) (s : its) (offs : list Z) (res : list (str * list Z)) (ci co : Z)
  : outcome (list Z * list (str * list Z)) :=
  match fuel with
  | O => Fuel
  | S f =>
      do b <- has_next r s ONE;
      if b then
        do (oi, s1) <- next r s ONE;
        do offs' <- put offs oi co;
        do (s2, res', ci') <- many_loop fuel r (to_front s1 MANY) res ci;
        do n <- elements_many r (fst s2);
        one_loop f r s2 offs' res' ci' (co + n)
      else Ok (offs, res)
  end.
Definition compact_to (fuel : nat) (r : o2m) : outcome o2m :=
  match o_sizes r with
  | None => Ok r
  | Some s =>
      do _ <- it_data r;
      match o_offsets r with
      | None => Err
      | Some _ =>
          do n <- elements_one r;
          do t <- elements_data r;
          let res0 := map (fun d => (fst d, repeat 0 (Z.to_nat t))) (o_data r) in
          do (offs, res) <- one_loop fuel r it_begin (repeat 0 (Z.to_nat n)) res0 0 0;
          Ok {| o_sizes := Some s; o_indices := None; o_offsets := Some offs; o_data := res |}
      end
  end.
