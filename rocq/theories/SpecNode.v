(** Independent specification of what a Node holds: the tree of values a reader
    sees, which bytes it depends on and which buffers it owns. *)
From Verif Require Import Base DType SpecTree Mem MemFacts Node.
Local Open Scope Z_scope.

(** A leaf value: type, recorded byte order, and each element's bytes in memory
    order; [None] for an empty leaf. *)
Definition leafval := option (tid * endian * list (list byte)).

(** Element [i] of a leaf: the [default_bytes] bytes at data + offset + stride*i
    (what n.as_<type>_array()[i] dereferences). *)
Definition leaf_elem (m : mem) (data : option ptr) (d : dtype) (i : Z) : outcome (list byte) :=
  oload m (opadd data (eaddr d i)) (default_bytes (dt_id d)).
Definition leaf_value (m : mem) (data : option ptr) (d : dtype) : outcome leafval :=
  match dt_id d with
  | EMPTY => Ok None
  | OBJECT | LIST => UB
  | t => if dt_n d <? 0 then UB
         else do es <- omapM (leaf_elem m data d) (zseq (dt_n d)); Ok (Some (t, dt_endian d, es))
  end.
Fixpoint nvalue (m : mem) (n : node) : outcome (tree leafval) :=
  match n with
  | NLeaf h d => do v <- leaf_value m (h_data h) d; Ok (TLeaf v)
  | NObj _ es =>
      do vs <- omapM (fun e => do v <- nvalue m (snd e); Ok (fst e, v)) es; Ok (TObj vs)
  | NLst _ ks => do vs <- omapM (nvalue m) ks; Ok (TList vs)
  end.

(** All leaves with their data pointers, left to right. *)
Fixpoint nleaves (n : node) : list (option ptr * dtype) :=
  match n with
  | NLeaf h d => [(h_data h, d)]
  | NObj _ es => flat_map (fun e => nleaves (snd e)) es
  | NLst _ ks => flat_map nleaves ks
  end.
(** [touches n q]: the byte at [q] is part of an element of some leaf of [n]. *)
Definition leaf_touches (q : ptr) (l : option ptr * dtype) : Prop :=
  exists p i j, fst l = Some p /\ 0 <= i < dt_n (snd l) /\
    0 <= j < default_bytes (dt_id (snd l)) /\ q = padd p (eaddr (snd l) i + j).
Definition touches (n : node) (q : ptr) : Prop := Exists (leaf_touches q) (nleaves n).

(** The buffers a node frees when it is destroyed. *)
Definition own_ptr (h : hdr) : list ptr :=
  match h_own h, h_data h with true, Some p => [p] | _, _ => [] end.
Fixpoint owns (n : node) : list ptr :=
  match n with
  | NLeaf h d => if is_empty d then [] else own_ptr h
  | NObj h es => flat_map (fun e => owns (snd e)) es ++ own_ptr h
  | NLst h ks => flat_map owns ks ++ own_ptr h
  end.
Definition owned_blocks (n : node) : list nat := map fst (owns n).
(** Each owned buffer is live, pointed to at its start, and owned once. *)
Definition owned_ok (m : mem) (n : node) : Prop :=
  Forall (fun p => snd p = 0 /\ live m (fst p)) (owns n) /\ NoDup (owned_blocks n).

(** The bytes of all elements of all leaves, one after the other. *)
Definition leaf_bytes (lv : leafval) : list byte :=
  match lv with Some (_, _, es) => concat es | None => [] end.
Definition vbytes (v : tree leafval) : list byte := flat_map leaf_bytes (tleaves v).
(** Element size is that of the type (what every constructor except an explicit
    element_bytes argument produces). *)
Definition std_leaf (d : dtype) : Prop := dt_ebytes d = default_bytes (dt_id d).

(** Two leaves share no byte. *)
Definition leaves_apart (l1 l2 : option ptr * dtype) : Prop :=
  forall q, ~ (leaf_touches q l1 /\ leaf_touches q l2).
(** No two leaves share a byte and no two elements of a leaf do. *)
Definition separate (n : node) : Prop :=
  ForallOrdPairs leaves_apart (nleaves n) /\
  Forall (fun l => elems_apart (dt_n (snd l)) (default_bytes (dt_id (snd l))) (dt_stride (snd l))) (nleaves n).

(** Byte order: what a leaf looks like after conversion to [e] on a machine whose
    native order is [mach]. *)
Definition swap_leafval (mach e : endian) (lv : leafval) : leafval :=
  match lv with
  | None => None
  | Some (t, en, es) =>
      Some (t, resolve mach e,
            if endian_eqb (resolve mach en) (resolve mach e) then es else map (@rev byte) es)
  end.
(** The unsigned number an element spells. *)
Fixpoint be_number (acc : N) (bs : list byte) : N :=
  match bs with
  | [] => acc
  | b :: r => be_number (acc * 256 + N_of_ascii b)%N r
  end.
Definition elem_number (mach en : endian) (bs : list byte) : N :=
  match resolve mach en with
  | LITTLE_E => be_number 0 (rev bs)
  | _ => be_number 0 bs
  end.
Definition leaf_numbers (mach : endian) (lv : leafval) : list N :=
  match lv with None => [] | Some (_, en, es) => map (elem_number mach en) es end.

(** The same node with [e] recorded as the byte order of every leaf. *)
Fixpoint nset_endian (n : node) (e : endian) : node :=
  match n with
  | NLeaf h d => NLeaf h (dt_set_endian d e)
  | NObj h es => NObj h (map (fun x => (fst x, nset_endian (snd x) e)) es)
  | NLst h ks => NLst h (map (fun c => nset_endian c e) ks)
  end.
(** The byte order recorded with a leaf value is [o]. *)
Definition recorded (mach o : endian) (lv : leafval) : Prop :=
  match lv with None => True | Some (_, en, _) => resolve mach en = o end.

(** ---- update ---- *)
(** Overwriting the first elements of a leaf of the same type that is long
    enough; anything else is left alone. *)
Definition fits_into (d s : leafval) : bool :=
  match d, s with
  | Some (t, _, es), Some (t', _, es') => tid_eqb t t' && (length es' <=? length es)%nat
  | _, _ => false
  end.
Definition lv_overwrite (d s : leafval) : leafval :=
  match d, s with
  | Some (t, en, es), Some (_, _, es') => Some (t, en, es' ++ skipn (length es') es)
  | _, _ => d
  end.
(** update_compatible: entries present on both sides, all the way down. *)
Fixpoint vtake (d s : tree leafval) {struct s} : tree leafval :=
  match s, d with
  | TLeaf sv, TLeaf dv => TLeaf (if fits_into dv sv then lv_overwrite dv sv else dv)
  | TObj ses, TObj des =>
      TObj ((fix go des l := match l with
                             | [] => des
                             | (k, c) :: r =>
                                 go (match mget des k with
                                     | Some dk => mset des k (vtake dk c)
                                     | None => des
                                     end) r
                             end) des ses)
  | TList ss, TList ds =>
      TList ((fix go ds l {struct l} := match l, ds with
                                        | c :: r, d0 :: dr => vtake d0 c :: go dr r
                                        | _, _ => ds
                                        end) ds ss)
  | _, _ => d
  end.
(** update: entries of the source overwrite or are added at the end; a leaf of
    the source that does not fit replaces what is there.  An empty object, list
    or leaf of the source changes nothing. *)
Fixpoint vupdate (d s : tree leafval) {struct s} : tree leafval :=
  match s with
  | TLeaf None => d
  | TLeaf sv => match d with
                | TLeaf dv => TLeaf (if fits_into dv sv then lv_overwrite dv sv else sv)
                | _ => s
                end
  | TObj [] => d
  | TObj ses =>
      TObj ((fix go des l :=
               match l with
               | [] => des
               | (k, c) :: r =>
                   go (mset des k (vupdate (match mget des k with Some dk => dk | None => TLeaf None end) c)) r
               end) (tentries d) ses)
  | TList [] => d
  | TList ss =>
      TList ((fix go ds l {struct l} :=
                match l with
                | [] => ds
                | c :: r => match ds with
                            | d0 :: dr => vupdate d0 c :: go dr r
                            | [] => vupdate (TLeaf None) c :: go [] r
                            end
                end) (match d with TList ds => ds | _ => [] end) ss)
  end.

(** No node reads memory that one of its siblings owns, anywhere in the tree. *)
Definition kids_private (ns : list node) : Prop :=
  forall i j a b q, i <> j -> nth_error ns i = Some a -> nth_error ns j = Some b ->
    touches a q -> ~ In (fst q) (owned_blocks b).
Fixpoint private (n : node) : Prop :=
  match n with
  | NLeaf _ _ => True
  | NObj _ es => kids_private (map snd es) /\ (fix go l := match l with [] => True | (_, c) :: r => private c /\ go r end) es
  | NLst _ ks => kids_private ks /\ (fix go l := match l with [] => True | c :: r => private c /\ go r end) ks
  end.
(** A non-empty object is never merged into a non-empty list. *)
Inductive no_clash : tree leafval -> tree leafval -> Prop :=
| nc_leaf d lv : no_clash d (TLeaf lv)
| nc_none d : no_clash d (TObj [])
| nc_obj d ses : (forall t ts, d <> TList (t :: ts)) ->
    (forall k c, In (k, c) ses ->
       no_clash (match mget (tentries d) k with Some dk => dk | None => TLeaf None end) c) ->
    no_clash d (TObj ses)
| nc_list d ss :
    (forall i c, nth_error ss i = Some c ->
       no_clash (match d with
                 | TList ds => match nth_error ds i with Some x => x | None => TLeaf None end
                 | _ => TLeaf None
                 end) c) ->
    no_clash d (TList ss).

(** What an operation on one node may do to memory.  [T] and [O] are the bytes
    the node reads and the blocks it owns before, [T'] and [O'] after:
    new bytes and blocks are fresh, nothing that belongs to others changes or
    dies, dead blocks stay dead, and nothing leaks. *)
Record step (m : mem) (T : ptr -> Prop) (O : nat -> Prop) (m' : mem) (T' : ptr -> Prop) (O' : nat -> Prop) : Prop := {
  st_len : (length m <= length m')%nat;
  st_touch : forall q, T' q -> T q \/ (length m <= fst q)%nat;
  st_owned : forall b, O' b -> O b \/ (length m <= b)%nat;
  st_frame : forall q, (fst q < length m)%nat -> ~ O (fst q) -> ~ T q -> rd m' q = rd m q;
  st_live : forall b, live m b -> ~ O b -> live m' b;
  st_dead : forall b, (b < length m)%nat -> live m' b -> live m b;
  st_leak : forall b, live m' b -> O b \/ (length m <= b)%nat -> O' b
}.
Definition ob (n : node) (b : nat) : Prop := In b (owned_blocks n).
