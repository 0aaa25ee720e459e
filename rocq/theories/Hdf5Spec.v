(** What a user relies on when trees are kept in an HDF5 file: the file is a tree of
    values.  Nothing here refers to the model of the code. *)
From Verif Require Import Base DType SpecTree Mem Node SpecNode.
Local Open Scope Z_scope.
Import ListNotations.

(** Names that mean themselves: not empty, without slashes, and neither "." nor "..". *)
Definition plain_name (k : str) : Prop := k <> [] /\ no_slash k /\ k <> L "." /\ k <> L "..".
(** A value whose names are plain and different within an object, whose lists have
    fewer than 2^31 entries and whose leaves hold numbers or text. *)
Definition leaf_kind (l : leafval) : Prop :=
  match l with
  | Some (t, _, es) => (t <> EMPTY /\ t <> OBJECT /\ t <> LIST) /\ Z.of_nat (length es) < 2 ^ 63
  | None => True
  end.
Inductive storable : tree leafval -> Prop :=
| st_leaf l : leaf_kind l -> storable (TLeaf l)
| st_obj es : NoDup (map fst es) -> Forall (fun e => plain_name (fst e) /\ storable (snd e)) es -> storable (TObj es)
| st_list ts : Z.of_nat (length ts) < 2 ^ 31 -> Forall storable ts -> storable (TList ts).

(** A leaf with its byte order made explicit; text has none. *)
Definition stored (mach : endian) (l : leafval) : leafval :=
  match l with
  | None => None
  | Some (t, e, es) => Some (t, if tid_eqb t CHAR8_STR then DEFAULT_E else resolve mach e, es)
  end.
(** The same leaf in the byte order of the machine. *)
Definition in_machine_order (mach : endian) (l : leafval) : leafval :=
  match l with
  | None => None
  | Some (t, e, es) =>
      if tid_eqb t CHAR8_STR then Some (t, DEFAULT_E, es)
      else Some (t, mach, if endian_eqb (resolve mach e) mach then es else map (@rev byte) es)
  end.

(** Arrays of more than two million bytes may change their length in the file: a
    shorter one replaces the beginning only.  All others keep it. *)
Definition large (t : tid) (es : list (list byte)) : bool := 2000000 <? default_bytes t * Z.of_nat (length es).
Definition leaf_fits (old new : leafval) : bool :=
  match old, new with
  | None, None => true
  | Some (t, e, x), Some (t', e', y) =>
      tid_eqb t t' && endian_eqb e e' && (large t x || (length x =? length y)%nat)
  | _, _ => false
  end.
Definition leaf_over (old new : leafval) : leafval :=
  match old, new with
  | Some (_, _, x), Some (t, e, y) => Some (t, e, y ++ skipn (length y) x)
  | _, _ => new
  end.

(** Object and list meet where neither is empty... *)
Definition kinds_differ {A} (old new : tree A) : bool :=
  match old, new with
  | TObj (_ :: _), TList _ => true
  | TList (_ :: _), TObj _ => true
  | _, _ => false
  end.
(** What is under a name, or at a place *)
Definition entries {A} (old : option (tree A)) : list (str * tree A) := match old with Some (TObj d) => d | _ => [] end.
Definition items {A} (old : option (tree A)) : list (tree A) := match old with Some (TList d) => d | _ => [] end.

(** [fits old new]: may [new] be written where the file has [old]?  Leaves must fit;
    an entry with nothing at its name or place always does. *)
Fixpoint fits (mach : endian) (old : option (tree leafval)) (new : tree leafval) : bool :=
  match new with
  | TLeaf l => match old with None => true | Some (TLeaf l0) => leaf_fits l0 (stored mach l) | Some _ => false end
  | TObj es =>
      match old with Some (TLeaf _) => false | _ => forallb (fun e => fits mach (mget (entries old) (fst e)) (snd e)) es end
  | TList ts =>
      match old with
      | Some (TLeaf _) => false
      | _ => (fix go (ts us : list (tree leafval)) : bool :=
                match ts, us with
                | c :: ts', u :: us' => fits mach (Some u) c && go ts' us'
                | _, _ => true
                end) ts (items old)
      end
  end.
(** [put old new]: what the file has afterwards: entries by name, items by place,
    everything that [new] does not mention as it was. *)
Fixpoint put (mach : endian) (old : option (tree leafval)) (new : tree leafval) : tree leafval :=
  match new with
  | TLeaf l => match old with Some (TLeaf l0) => TLeaf (leaf_over l0 (stored mach l)) | _ => TLeaf (stored mach l) end
  | TObj es =>
      TObj ((fix go (es : list (str * tree leafval)) (d : list (str * tree leafval)) :=
               match es with [] => d | e :: r => go r (mset d (fst e) (put mach (mget d (fst e)) (snd e))) end) es (entries old))
  | TList ts =>
      TList ((fix go (ts us : list (tree leafval)) : list (tree leafval) :=
                match ts, us with
                | [], _ => us
                | c :: ts', [] => put mach None c :: go ts' []
                | c :: ts', u :: us' => put mach (Some u) c :: go ts' us'
                end) ts (items old))
  end.
(** Nowhere does an object meet a non-empty list or a list a non-empty object. *)
Inductive same_kinds : option (tree leafval) -> tree leafval -> Prop :=
| sk_none v : same_kinds None v
| sk_leaf old l : same_kinds old (TLeaf l)
| sk_under l v : same_kinds (Some (TLeaf l)) v
| sk_obj old es : kinds_differ old (TObj es) = false ->
    Forall (fun e => same_kinds (mget (entries (Some old)) (fst e)) (snd e)) es -> same_kinds (Some old) (TObj es)
| sk_list old ts : kinds_differ old (TList ts) = false ->
    (forall i c, nth_error ts i = Some c -> same_kinds (nth_error (items (Some old)) i) c) -> same_kinds (Some old) (TList ts).

(** A path given by its names; only objects lie on the way. *)
Definition placed {A} (p : list str) (v : tree A) : tree A := fold_right (fun k u => TObj [(k, u)]) v p.
Fixpoint through_objects {A} (s : tree A) (p : list str) : Prop :=
  match p with
  | [] => True
  | k :: p' => match s with
               | TList _ => False
               | TLeaf _ => True
               | TObj d => match mget d k with Some u => through_objects u p' | None => True end
               end
  end.

(** Programs: each operation succeeds and changes the tree, or is refused and changes
    nothing. *)
Inductive file_op := Write (p : list str) (v : tree leafval) | Remove (p : list str).
Definition tree_step (mach : endian) (s : tree leafval) (op : file_op) : option (tree leafval) :=
  match op with
  | Write p v => if fits mach (Some s) (placed p v) then Some (put mach (Some s) (placed p v)) else None
  | Remove p => tremove s p
  end.
Definition op_ok (s : tree leafval) (op : file_op) : Prop :=
  match op with
  | Write p v => storable v /\ Forall plain_name p /\ same_kinds (Some s) (placed p v)
  | Remove p => through_objects s p
  end.
Fixpoint tree_run (mach : endian) (s : tree leafval) (ops : list file_op) : tree leafval * list bool :=
  match ops with
  | [] => (s, [])
  | op :: r =>
      match tree_step mach s op with
      | Some s1 => let (s2, bs) := tree_run mach s1 r in (s2, true :: bs)
      | None => let (s2, bs) := tree_run mach s r in (s2, false :: bs)
      end
  end.
Fixpoint ops_ok (mach : endian) (s : tree leafval) (ops : list file_op) : Prop :=
  match ops with
  | [] => True
  | op :: r => op_ok s op /\ ops_ok mach (match tree_step mach s op with Some s1 => s1 | None => s end) r
  end.
