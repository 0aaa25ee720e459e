(** Independent specification: what a user thinks a conduit hierarchy is.

    A tree whose interior nodes are either insertion-ordered dictionaries
    (objects) or sequences (lists).  No map/order/children redundancy, no
    pointers, no paths-as-strings.  The model (Schema.v, Node.v) is related to
    it by theorems; nothing here cites the C++ code. *)
From Verif Require Import Base DType.
Local Open Scope list_scope.

Inductive tree (A : Type) : Type :=
| TLeaf (a : A)
| TObj (es : list (str * tree A))
| TList (ts : list (tree A)).
Arguments TLeaf {A} a.
Arguments TObj {A} es.
Arguments TList {A} ts.

(** Insertion-ordered dictionary operations. *)
Section ODict.
  Context {V : Type}.
  Definition od_names (d : list (str * V)) : list str := map fst d.
  (** Adding a new name puts it last; adding an existing one changes nothing. *)
  Definition od_add (d : list (str * V)) (k : str) (v : V) : list (str * V) :=
    match mget d k with Some _ => d | None => d ++ [(k, v)] end.
  (** Removing a name keeps every other entry, in order. *)
  Definition od_remove (d : list (str * V)) (k : str) : list (str * V) :=
    filter (fun e => negb (str_eqb k (fst e))) d.
  (** Renaming keeps position and value. *)
  Definition od_rename (d : list (str * V)) (a b : str) : list (str * V) :=
    map (fun e => if str_eqb a (fst e) then (b, snd e) else e) d.
End ODict.

(** Walk down a list of names through objects. *)
Fixpoint tlookup {A} (t : tree A) (p : list str) : option (tree A) :=
  match p with
  | [] => Some t
  | k :: p' =>
      match t with
      | TObj es => match mget es k with Some t' => tlookup t' p' | None => None end
      | _ => None
      end
  end.

(** Equality of trees in which the order of an object's entries is immaterial. *)
Inductive teq {A} : tree A -> tree A -> Prop :=
| teq_leaf a : teq (TLeaf a) (TLeaf a)
| teq_list l1 l2 : Forall2 teq l1 l2 -> teq (TList l1) (TList l2)
| teq_obj e1 e2 :
    (forall k, mget e1 k = None <-> mget e2 k = None) ->
    (forall k a b, mget e1 k = Some a -> mget e2 k = Some b -> teq a b) ->
    teq (TObj e1) (TObj e2).

(** All leaves, left to right. *)
Fixpoint tleaves {A} (t : tree A) : list A :=
  match t with
  | TLeaf a => [a]
  | TObj es => flat_map (fun e => tleaves (snd e)) es
  | TList ts => flat_map tleaves ts
  end.

(** Entries of a node seen as a dictionary (a non-object is discarded). *)
Definition tentries {A} (t : tree A) : list (str * tree A) :=
  match t with TObj es => es | _ => [] end.

(** Make sure a path of names exists, creating empty leaves as needed;
    [mset] overwrites in place or adds at the end. *)
Fixpoint tensure {A} (e : A) (t : tree A) (p : list str) : tree A :=
  match p with
  | [] => t
  | k :: p' =>
      TObj (mset (tentries t) k
                 (tensure e (match mget (tentries t) k with Some u => u | None => TLeaf e end) p'))
  end.

(** Remove the entry at the end of a path of names. *)
Fixpoint tremove {A} (t : tree A) (p : list str) : option (tree A) :=
  match t, p with
  | TObj es, [k] => match mget es k with Some _ => Some (TObj (od_remove es k)) | None => None end
  | TObj es, k :: p' =>
      match mget es k with
      | Some u => match tremove u p' with
                  | Some u' => Some (TObj (mset es k u'))
                  | None => None
                  end
      | None => None
      end
  | _, _ => None
  end.

(** Subtree at / replacement at a position given by child indices. *)
Definition tkids {A} (t : tree A) : list (tree A) :=
  match t with TLeaf _ => [] | TObj es => map snd es | TList ts => ts end.
Fixpoint tget {A} (t : tree A) (p : list nat) : option (tree A) :=
  match p with
  | [] => Some t
  | i :: p' => match nth_error (tkids t) i with Some u => tget u p' | None => None end
  end.
Fixpoint tput {A} (t : tree A) (p : list nat) (x : tree A) : option (tree A) :=
  match p with
  | [] => Some x
  | i :: p' =>
      match t with
      | TLeaf _ => None
      | TObj es =>
          match nth_error es i with
          | Some (k, u) => match tput u p' x with
                           | Some u' => Some (TObj (set_nth es i (k, u')))
                           | None => None
                           end
          | None => None
          end
      | TList ts =>
          match nth_error ts i with
          | Some u => match tput u p' x with
                      | Some u' => Some (TList (set_nth ts i u'))
                      | None => None
                      end
          | None => None
          end
      end
  end.

(** ---- path strings ---- *)
(** Components joined with single slashes. *)
Fixpoint path_of (cs : list str) : str :=
  match cs with
  | [] => []
  | [c] => c
  | c :: r => c ++ "/"%char :: path_of r
  end.
(** An ordinary path component. *)
Definition plain (c : str) : Prop :=
  c <> [] /\ ~ In "/"%char c /\ c <> L "..".

(** ---- mutation histories ---- *)
Inductive sop : Type :=
| OpAddChild (k : str)
| OpFetch (cs : list str)
| OpRemoveAt (i : Z)
| OpRemoveChild (k : str)
| OpRemovePath (cs : list str)
| OpRename (a b : str)
| OpAppend
| OpSetDType (d : dtype)
| OpReset.

(** What each operation does to the node it is applied to; [None] = reports an
    error and changes nothing. *)
Definition in_range {A} (i : Z) (l : list A) : bool :=
  (0 <=? i)%Z && (i <? Z.of_nat (List.length l))%Z.
Definition spec_op (t : tree dtype) (op : sop) : option (tree dtype) :=
  match op with
  | OpAddChild k => Some (TObj (od_add (tentries t) k (TLeaf dt_empty)))
  | OpFetch cs => Some (tensure dt_empty t cs)
  | OpRemoveAt i =>
      match t with
      | TObj es => if in_range i es then Some (TObj (erase_nth es (Z.to_nat i))) else None
      | TList ts => if in_range i ts then Some (TList (erase_nth ts (Z.to_nat i))) else None
      | TLeaf _ => None
      end
  | OpRemoveChild k => tremove t [k]
  | OpRemovePath cs => tremove t cs
  | OpRename a b =>
      match t with
      | TObj es => match mget es a, mget es b with
                   | Some _, None => Some (TObj (od_rename es a b))
                   | _, _ => None
                   end
      | _ => None
      end
  | OpAppend => Some (TList (match t with TList ts => ts | _ => [] end ++ [TLeaf dt_empty]))
  | OpSetDType d =>
      Some (match dt_id d with OBJECT => TObj [] | LIST => TList [] | _ => TLeaf d end)
  | OpReset => Some (TLeaf dt_empty)
  end.
(** A history: operations applied at positions; an operation at a position that
    does not exist, or one that errors, leaves the hierarchy as it was. *)
Definition spec_step (t : tree dtype) (po : list nat * sop) : tree dtype :=
  match tget t (fst po) with
  | Some u => match spec_op u (snd po) with
              | Some u' => match tput t (fst po) u' with Some t' => t' | None => t end
              | None => t
              end
  | None => t
  end.
Definition spec_run (t : tree dtype) (h : list (list nat * sop)) : tree dtype :=
  fold_left spec_step h t.

(** Objects never hold two entries of the same name. *)
Inductive names_unique {A} : tree A -> Prop :=
| nu_leaf a : names_unique (TLeaf a)
| nu_obj es : NoDup (map fst es) -> Forall (fun e => names_unique (snd e)) es ->
              names_unique (TObj es)
| nu_list ts : Forall names_unique ts -> names_unique (TList ts).

(** ---- layout vocabulary ---- *)
(** Byte range of element [i] of a leaf described by [d]. *)
Definition occupies (d : dtype) (i b : Z) : Prop :=
  (0 <= i < dt_n d /\
   dt_off d + dt_stride d * i <= b < dt_off d + dt_stride d * i + dt_ebytes d)%Z.
(** What a leaf is, disregarding where its elements are. *)
Definition leaf_kind (d : dtype) : option (tid * Z * endian) :=
  match dt_id d with EMPTY => None | t => Some (t, dt_n d, dt_endian d) end.
Fixpoint tmap {A B} (f : A -> B) (t : tree A) : tree B :=
  match t with
  | TLeaf a => TLeaf (f a)
  | TObj es => TObj (map (fun e => (fst e, tmap f (snd e))) es)
  | TList ts => TList (map (tmap f) ts)
  end.
(** Leaves placed back to back from [off], each densely packed. *)
Fixpoint back_to_back (off : Z) (ds : list dtype) : Prop :=
  match ds with
  | [] => True
  | d :: r =>
      (dt_id d <> EMPTY ->
       dt_off d = off /\ dt_stride d = default_bytes (dt_id d) /\
       dt_ebytes d = default_bytes (dt_id d)) /\
      back_to_back (off + default_bytes (dt_id d) * dt_n d)%Z r
  end.
Fixpoint total_of (ds : list dtype) : Z :=
  match ds with
  | [] => 0
  | d :: r => (default_bytes (dt_id d) * dt_n d + total_of r)%Z
  end.

(** ---- positions and names ---- *)
(** The names met on the way down to a position; [None] if the way leads through
    a list, or does not exist. *)
Fixpoint tnames {A} (t : tree A) (p : list nat) : option (list str) :=
  match p with
  | [] => Some []
  | i :: p' =>
      match t with
      | TObj es => match nth_error es i with
                   | Some (k, u) => option_map (cons k) (tnames u p')
                   | None => None
                   end
      | _ => None
      end
  end.
Definition sprefix {A} (p q : list A) : Prop := exists r, q = p ++ r.

(** [written cs p]: the string [p] spells the components [cs]; any number of
    slashes may precede a component and one may follow the last. *)
Inductive written : list str -> str -> Prop :=
| wr_last c : written [c] c
| wr_last_slash c : written [c] (c ++ ["/"%char])
| wr_more c cs p : written cs p -> written (c :: cs) (c ++ "/"%char :: p)
| wr_lead cs p : written cs p -> written cs ("/"%char :: p).

(** ---- compatibility ---- *)
(** [tcompat t u]: wherever [t] and [u] both have something at the same place
    (same names; for lists every position of [u]) the kinds agree, and a leaf of
    [t] has the same type and element size as, and at least as many elements as,
    that of [u]. *)
Inductive tcompat : tree dtype -> tree dtype -> Prop :=
| tc_leaf d e : dt_id d = dt_id e -> dt_ebytes d = dt_ebytes e -> (dt_n e <= dt_n d)%Z ->
                tcompat (TLeaf d) (TLeaf e)
| tc_obj e1 e2 :
    (forall k a b, mget e1 k = Some a -> mget e2 k = Some b -> tcompat a b) ->
    tcompat (TObj e1) (TObj e2)
| tc_list l1 l2 :
    (length l2 <= length l1)%nat ->
    (forall i a b, nth_error l1 i = Some a -> nth_error l2 i = Some b -> tcompat a b) ->
    tcompat (TList l1) (TList l2).

(** Every entry of [u] has a counterpart in [t], all the way down. *)
Inductive tcovers {A} : tree A -> tree A -> Prop :=
| cov_leaf t a : tcovers t (TLeaf a)
| cov_obj e1 e2 :
    (forall k b, mget e2 k = Some b -> exists a, mget e1 k = Some a /\ tcovers a b) ->
    tcovers (TObj e1) (TObj e2)
| cov_list l1 l2 :
    (forall i b, nth_error l2 i = Some b -> exists a, nth_error l1 i = Some a /\ tcovers a b) ->
    tcovers (TList l1) (TList l2).

(** Every name in the tree satisfies [P]. *)
Inductive all_names {A} (P : str -> Prop) : tree A -> Prop :=
| an_leaf a : all_names P (TLeaf a)
| an_obj es : Forall (fun e => P (fst e) /\ all_names P (snd e)) es -> all_names P (TObj es)
| an_list ts : Forall (all_names P) ts -> all_names P (TList ts).
Definition no_slash (k : str) : Prop := ~ In "/"%char k.
