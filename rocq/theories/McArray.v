(** Blueprint multi-component arrays - src/libs/blueprint/conduit_blueprint_mcarray.cpp. *)
From Verif Require Import Base DType SpecTree Schema Mem Node.
Local Open Scope Z_scope.

(** Schema::operator[](path) = DataType: fetch (conduit_schema.cpp 1149-1153), then
    Schema::operator=(const DataType&), which is set(dtype) (161-170). *)
Definition s_assign (s : schema) (path : str) (d : dtype) : outcome schema :=
  do (s', p) <- fetch s [] path; deref (put_at s' p (s_set_dtype d)).

(** What a NodeConstIterator over the children yields: itr.name() (the decimal
    index for a list, conduit_node_iterator.cpp 391-406) and chld.dtype(). *)
Definition mc_items (n : node) : list (str * dtype) :=
  match n with
  | NLeaf _ _ => []
  | NObj _ es => map (fun e => (fst e, n_dtype (snd e))) es
  | NLst _ ks => combine (map show_nat (seq 0 (length ks))) (map n_dtype ks)
  end.
Definition dt_place (d : dtype) (off stride : Z) : dtype :=
  mkDT (dt_id d) (dt_n d) off stride (dt_ebytes d) (dt_endian d).

(** The loop of to_contiguous, conduit_blueprint_mcarray.cpp 151-174 *)
Fixpoint mc_contiguous (s : schema) (l : list (str * dtype)) (off : Z) : outcome schema :=
  match l with
  | [] => Ok s
  | (k, d) :: r =>
      do s' <- s_assign s k (dt_place d off (dt_ebytes d));
      mc_contiguous s' r (off + dt_ebytes d * dt_n d)
  end.
(** The first loop of to_interleaved, 199-205 *)
Definition mc_tuple (l : list (str * dtype)) : Z :=
  fold_right (fun e s => default_bytes (dt_id (snd e)) + s) 0 l.
(** ... and its second loop, 209-230 *)
Fixpoint mc_interleaved (s : schema) (l : list (str * dtype)) (stride off : Z) : outcome schema :=
  match l with
  | [] => Ok s
  | (k, d) :: r =>
      do s' <- s_assign s k (dt_place d off stride);
      mc_interleaved s' r stride (off + default_bytes (dt_id d))
  end.
(** dest.set(s_dest); dest.update(src); - 176-181, 232-237 *)
Definition mc_fill (m : mem) (s : schema) (src dest : node) : outcome (mem * node) :=
  do (m1, d1) <- nset_schema m dest (abs s); nupdate m1 d1 src.
(** to_contiguous, 139-182 *)
Definition mc_to_contiguous (m : mem) (src dest : node) : outcome (mem * node) :=
  do s <- mc_contiguous s_empty (mc_items src) 0; mc_fill m s src dest.
(** to_interleaved, 187-238 *)
Definition mc_to_interleaved (m : mem) (src dest : node) : outcome (mem * node) :=
  do s <- mc_interleaved s_empty (mc_items src) (mc_tuple (mc_items src)) 0; mc_fill m s src dest.

(** Difference of two addresses.  For different blocks the C++ result is some
    number that depends on the allocator; it is represented by [None] and taken
    to equal nothing. *)
Definition pdiff (p q : option ptr) : option Z :=
  match p, q with
  | Some a, Some b => if Nat.eqb (fst a) (fst b) then Some (snd a - snd b) else None
  | None, None => Some 0
  | _, _ => None
  end.
(** is_interleaved, 243-275.  [start] = starting_data_ptr and stride once set. *)
Fixpoint mc_scan (start : option (ptr * Z)) (tot : Z) (ks : list node) : bool :=
  match ks with
  | [] => true
  | c :: r =>
      let e := elem0 (n_hdr c) (n_dtype c) in
      let sp := match start with
                | Some (p, st) => (Some p, st)
                | None => (e, dt_stride (n_dtype c))
                end in
      match pdiff e (fst sp) with
      | Some x => if (tot =? x) && (snd sp =? dt_stride (n_dtype c))
                  then mc_scan (match fst sp with Some p => Some (p, snd sp) | None => None end)
                               (tot + dt_ebytes (n_dtype c)) r
                  else false
      | None => false
      end
  end.
Definition n_kids (n : node) : list node :=
  match n with NLeaf _ _ => [] | NObj _ es => map snd es | NLst _ ks => ks end.
Definition mc_is_interleaved (n : node) : bool := mc_scan None 0 (n_kids n).

(** DataType::is_number, conduit_data_type.cpp 717-721 *)
Definition is_number (d : dtype) : bool :=
  match dt_id d with
  | INT8 | INT16 | INT32 | INT64 | UINT8 | UINT16 | UINT32 | UINT64 | FLOAT32 | FLOAT64 => true
  | _ => false
  end.
(** verify, 63-135, without the messages: the count of the first component with a
    positive count is what the others are compared with. *)
Fixpoint mc_verify_loop (num : Z) (ks : list node) (res : bool) : bool :=
  match ks with
  | [] => res
  | c :: r =>
      let d := n_dtype c in
      if is_number d then
        let num' := if num =? 0 then dt_n d else num in
        mc_verify_loop num' r (if dt_n d =? num' then res else false)
      else mc_verify_loop num r false
  end.
Definition mc_verify (n : node) : bool :=
  mc_verify_loop 0 (n_kids n)
    (match n with NLeaf _ _ => false | _ => true end).
