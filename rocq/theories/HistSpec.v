(** What a program over Node variables means: every variable is a value (a tree of
    leaf values, SpecNode.v), every call replaces one value, and no call touches another
    variable.  No pointers, buffers or headers here. *)
From Verif Require Import Base DType SpecTree Mem Node SpecNode NodeAlloc NodeHist.
Local Open Scope Z_scope.

Notation value := (tree leafval).
Definition none : value := TLeaf None.
Definition vitems (v : value) : list value := match v with TList ts => ts | _ => [] end.

(** [vat R p v v']: the node at [p] in [v] is changed as [R] says; names and list entries
    that do not exist are created, a value of another kind on the way is replaced. *)
Inductive vat (R : value -> value -> Prop) : list sel -> value -> value -> Prop :=
| va_here v v' : R v v' -> vat R [] v v'
| va_name k p v c' :
    vat R p (match mget (tentries v) k with Some c => c | None => none end) c' ->
    vat R (Name k :: p) v (TObj (mset (tentries v) k c'))
| va_append p v c' : vat R p none c' -> vat R (Append :: p) v (TList (vitems v ++ [c']))
| va_nth_obj i p es k c c' : nth_error es i = Some (k, c) -> vat R p c c' ->
    vat R (Index i :: p) (TObj es) (TObj (set_nth es i (k, c')))
| va_nth_lst i p ts c c' : nth_error ts i = Some c -> vat R p c c' ->
    vat R (Index i :: p) (TList ts) (TList (set_nth ts i c')).
(** [vsub v p w]: the value at [p], which exists, is [w]. *)
Inductive vsub : value -> list sel -> value -> Prop :=
| vs_here v : vsub v [] v
| vs_name es k c p w : mget es k = Some c -> vsub c p w -> vsub (TObj es) (Name k :: p) w
| vs_nth_obj es i k c p w : nth_error es i = Some (k, c) -> vsub c p w -> vsub (TObj es) (Index i :: p) w
| vs_nth_lst ts i c p w : nth_error ts i = Some c -> vsub c p w -> vsub (TList ts) (Index i :: p) w.

(** The elements a descriptor finds in a buffer. *)
Definition leaf_view (bytes : list byte) (d : dtype) : leafval :=
  match dt_id d with
  | EMPTY => None
  | t => Some (t, dt_endian d,
               map (fun i => firstn (Z.to_nat (default_bytes t)) (skipn (Z.to_nat (eaddr d i)) bytes)) (zseq (dt_n d)))
  end.
(** A schema that can be allocated: leaves at non-negative offsets, no two elements on the
    same byte, names unique. *)
Definition usable (t : tree dtype) : Prop :=
  Forall laid_out (tleaves t) /\ disjoint_leaves t /\ names_unique t /\ 0 <= tspanned t /\
  (forall d, t = TLeaf d -> dt_id d <> EMPTY).

(** The effect of a call on the value of its node; [w] is the value of the argument. *)
Inductive effect (mach : endian) (w : value) : act -> value -> value -> Prop :=
| e_set j q v : effect mach w (ASet j q) v w
| e_compact j q v : effect mach w (ACompact j q) v w
| e_update j q v : no_clash v w -> effect mach w (AUpdate j q) v (vupdate v w)
| e_take j q v : effect mach w (AUpdateCompatible j q) v (vtake v w)
| e_data t bytes v : usable t -> tspanned t <= Z.of_nat (length bytes) ->
    effect mach w (AData t bytes) v (tmap (leaf_view bytes) t)
| e_schema t v : usable t -> effect mach w (ASchema t) v (tmap leaf_zero t)
| e_reset v : effect mach w AReset v none
| e_endian e v : effect mach w (AEndian e) v (tmap (swap_leafval mach e) v)
| e_remove_child k a c b : ~ In k (map fst a) -> effect mach w (ARemoveChild k) (TObj (a ++ (k, c) :: b)) (TObj (a ++ b))
| e_remove_obj a e b : effect mach w (ARemove (length a)) (TObj (a ++ e :: b)) (TObj (a ++ b))
| e_remove_lst a c b : effect mach w (ARemove (length a)) (TList (a ++ c :: b)) (TList (a ++ b)).

(** The argument of a call: a value inside another variable. *)
Definition argument (vs : list value) (i : nat) (a : act) (w : value) : Prop :=
  match arg_of a with
  | Some (j, q) => j <> i /\ exists x, nth_error vs j = Some x /\ vsub x q w
  | None => w = none
  end.
Inductive meaning1 (mach : endian) (vs : list value) : cmd -> list value -> Prop :=
| m_do i p a v v' w : nth_error vs i = Some v -> argument vs i a w -> vat (effect mach w a) p v v' ->
    meaning1 mach vs (Do i p a) (set_nth vs i v')
| m_exchange i j v v' : nth_error vs i = Some v -> nth_error vs j = Some v' ->
    meaning1 mach vs (Exchange i j) (set_nth (set_nth vs i v') j v)
| m_move i j v v' : i <> j -> nth_error vs i = Some v -> nth_error vs j = Some v' ->
    meaning1 mach vs (Move i j) (set_nth (set_nth vs i v') j none).
Inductive meaning (mach : endian) : list value -> list cmd -> list value -> Prop :=
| m_nil vs : meaning mach vs [] vs
| m_cons vs c vs1 l vs2 : meaning1 mach vs c vs1 -> meaning mach vs1 l vs2 -> meaning mach vs (c :: l) vs2.
