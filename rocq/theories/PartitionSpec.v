(** What the partition of a mesh is to give, in terms of the elements. *)
From Coq Require Import ZArith.
From Verif Require Import Base Node Partition.
Local Open Scope Z_scope.

(** A mesh that can be partitioned: the logical dimensions give the number of elements, a field
    has one value for each element, and no two domains have the same number. *)
Definition well_formed (d : dom) : Prop :=
  0 <= d_n d
  /\ (forall g, d_grid d = Some g -> 1 <= c0 g /\ 1 <= c1 g /\ 1 <= c2 g /\ c0 g * c1 g * c2 g = d_n d)
  /\ (forall f l, mget (d_fields d) f = Some l -> Z.of_nat (length l) = d_n d).
Definition mesh_ok (doms : list dom) : Prop := Forall well_formed doms /\ NoDup (map d_id doms).

(** does a selection want this element of the domain? *)
Definition between (a x b : Z) : bool := (a <=? x) && (x <=? b).
Definition wanted (d : dom) (s : sel) (e : Z) : bool :=
  match s with
  | SLog s t =>
      match d_grid d with
      | Some g => between (c0 s) (e mod c0 g) (c0 t) && between (c1 s) (e / c0 g mod c1 g) (c1 t) && between (c2 s) (e / (c0 g * c1 g)) (c2 t)
      | None => false
      end
  | SExp ids => existsb (Z.eqb e) ids
  | SRng rs => existsb (fun r => between (fst r) e (snd r)) rs
  | SFld f _ => match mget (d_fields d) f with Some _ => true | None => false end
  end.
Definition goes_to (q : request) (d : dom) : bool := match q_dom q with Some n => d_id d =? n | None => true end.
(** the elements, each with the place of its domain: all of them, or those of the requests *)
Definition placed (doms : list dom) : list (nat * dom) := combine (seq 0 (length doms)) doms.
Definition elements (d : nat * dom) : list (nat * Z) := map (pair (fst d)) (zseq (d_n (snd d))).
Definition picks (q : request) (d : nat * dom) : list (nat * Z) :=
  if goes_to q (snd d) then filter (fun e => wanted (snd d) (q_sel q) (snd e)) (elements d) else [].
Definition picked (doms : list dom) (qs : option (list request)) : list (nat * Z) :=
  match qs with
  | None => flat_map elements (placed doms)
  | Some l => flat_map (fun q => flat_map (picks q) (placed doms)) l
  end.

(** A request that names no element twice, and, by its number, only elements there are. *)
Definition fair (doms : list dom) (q : request) : Prop :=
  match q_sel q with
  | SLog s e => 0 <= c0 s <= c0 e /\ 0 <= c1 s <= c1 e /\ 0 <= c2 s <= c2 e
  | SExp ids => NoDup ids /\ forall d, In d doms -> goes_to q d = true -> Forall (fun i => 0 <= i < d_n d) ids
  | SRng rs => Forall (fun r => 0 <= fst r <= snd r) rs /\ ForallOrdPairs (fun r r' => snd r < fst r' \/ snd r' < fst r) rs
  | SFld _ None => True
  | SFld _ (Some _) => False (* not a request: made when a field is split by value *)
  end.
(** A request that can be divided down to single elements. *)
Definition divisible (doms : list dom) (q : request) : Prop :=
  fair doms q /\
  match q_sel q with
  | SLog _ _ => True
  | SExp ids => ids <> []
  | SRng rs => exists a b, rs = [(a, b)] /\ forall d, In d doms -> goes_to q d = true -> b < d_n d
  | SFld _ _ => False
  end.
(** the elements with a value, and the values *)
Definition value_at (d : dom) (f : str) (e : Z) : option Z := match mget (d_fields d) f with Some l => znth l e | None => None end.
Definition has_value (d : dom) (f : str) (v e : Z) : bool := match value_at d f e with Some x => x =? v | None => false end.
Definition with_field_value (doms : list dom) (f : str) (v : Z) : list (nat * Z) :=
  flat_map (fun d => filter (fun e => has_value (snd d) f v (snd e)) (elements d)) (placed doms).
