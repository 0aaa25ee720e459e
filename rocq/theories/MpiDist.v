(** Domains handed out to ranks: blueprint::mpi::mesh::distribute,
    src/libs/blueprint/conduit_blueprint_mpi_mesh_distribute.cpp 54-194, and
    generate_domain_to_rank_map, conduit_blueprint_mpi_mesh.cpp 176-213, on all ranks.

    A rank's mesh is given by the ids of its domains in order, as read at
    distribute.cpp 107-120 and mpi_mesh.cpp 183-197 (state/domain_id, or the rank), and its
    domains are Node variables; the children of the output are further variables.  int and
    index_t do not wrap.  Offsets missing from the domain map (75-87): [generate_offsets]
    of O2M.v, not repeated here. *)
From Verif Require Import Base DType SpecTree Schema Mem Node Json Save Contig Number NodeDiff ArrayOps NodeHist Mpi MpiNet O2M.
Local Open Scope Z_scope.

(** ---- generate_domain_to_rank_map ---- *)
(** mpi_mesh.cpp 180, 196: the largest id of a rank, -1 without domains *)
Definition max_id (ids : list Z) : Z := fold_left (fun m id => if m <? id then id else m) ids (-1).
(** 204-208: an id below zero writes outside of the vector *)
Fixpoint fill_map (m : list Z) (me : Z) (ids : list Z) : outcome (list Z) :=
  match ids with
  | [] => Ok m
  | id :: r => do m' <- put m id me; fill_map m' me r
  end.
(** 204-211: local_map[0] of an empty vector when no rank has a domain *)
Definition local_map (top : Z) (me : nat) (ids : list Z) : outcome (list Z) :=
  if top + 1 <? 1 then UB else fill_map (repeat (-1) (Z.to_nat (top + 1))) (Z.of_nat me) ids.
(** the elementwise maximum over the ranks: max_all_reduce, C55 *)
Fixpoint max_each (a b : list Z) : list Z :=
  match a, b with x :: a', y :: b' => Z.max x y :: max_each a' b' | _, _ => [] end.
Definition max_all (l : list (list Z)) : list Z :=
  match l with [] => [] | a :: r => fold_left max_each r a end.
(** what every rank gets *)
Definition domain_to_rank (meshes : list (list Z)) : outcome (list Z) :=
  let top := fold_left Z.max (map max_id meshes) (-1) in
  do ms <- omapM (fun x => local_map top (fst x) (snd x)) (combine (seq 0 (length meshes)) meshes);
  Ok (max_all ms).

(** ---- distribute ---- *)
(** 147-190, the destinations of one domain; 137-191, all: (domain, destination) in order *)
Fixpoint dest_loop (fuel : nat) (r : o2m) (vals : list Z) (i : Z) (s : its) : outcome (list (Z * Z) * its) :=
  match fuel with
  | O => Fuel
  | S f =>
      do b <- has_next r s MANY;
      if b then
        do (_, s') <- next r s MANY;
        do p <- it_index_at r (fst s') (snd s');
        do des <- at_ vals p;
        do (l, s2) <- dest_loop f r vals i s';
        Ok ((i, des) :: l, s2)
      else Ok ([], s)
  end.
Fixpoint domain_loop (fuel : nat) (r : o2m) (vals : list Z) (s : its) : outcome (list (Z * Z)) :=
  match fuel with
  | O => Fuel
  | S f =>
      do b <- has_next r s DATA;
      if b then
        do (i, s1) <- next r s ONE;
        do (l, s2) <- dest_loop fuel r vals i (to_front s1 MANY);
        do l' <- domain_loop f r vals s2;
        Ok (l ++ l')
      else Ok []
  end.
(** local_domain_ids, 104-120: of two domains with one id the last *)
Fixpoint local_domain (ids : list Z) (i : Z) (k : nat) : option nat :=
  match ids with
  | [] => None
  | id :: r => match local_domain r i (S k) with Some x => Some x | None => if id =? i then Some k else None end
  end.
(** 155-189: [output.append()] is a new variable, empty.  A rank below zero that MPI is given
    is an error for a send; for a receive it means something else in each MPI library. *)
Definition add_output (s : state) : state := mkSt (s_mem s) (s_vars s ++ [nempty]).
Definition hand_out (mach : endian) (me : nat) (ids d2r : list Z) (s : state) (ops : list call) (tag : Z) (i des : Z)
  : outcome (state * list call) :=
  match local_domain ids i 0 with
  | Some x =>
      if Z.of_nat me =? des then
        do s' <- exec1 mach (add_output s) (Do (length (s_vars s)) [] (ASet x []));
        Ok (s', ops)
      else if des <? 0 then Err
      else do ops' <- add_call ops (Isend x (Z.to_nat des) tag); Ok (s, ops')
  | None =>
      if Z.of_nat me =? des then
        do src <- at_ d2r i;
        if src <? 0 then UB
        else do ops' <- add_call ops (Irecv (length (s_vars s)) (Z.to_nat src) tag); Ok (add_output s, ops')
      else Ok (s, ops)
  end.
Fixpoint hand_all (mach : endian) (me : nat) (ids d2r : list Z) (s : state) (ops : list call) (tag : Z) (l : list (Z * Z))
  : outcome (state * list call) :=
  match l with
  | [] => Ok (s, ops)
  | (i, des) :: r => do (s', ops') <- hand_out mach me ids d2r s ops tag i des; hand_all mach me ids d2r s' ops' (tag + 1) r
  end.
(** every rank up to 191; execute() of 192 is the exchange of MpiNet.v *)
Definition distribute (mach : endian) (fuel : nat) (r : o2m) (meshes : list (list Z)) (sts : list state)
  : outcome (list (state * list call)) :=
  do d2r <- domain_to_rank meshes;
  omapM (fun x =>
    do l <- domain_loop fuel r (match mget (o_data r) (L "values") with Some d => d | None => [] end) it_begin;
    hand_all mach (fst x) (fst (snd x)) d2r (snd (snd x)) [] 422000 l)
  (combine (seq 0 (length meshes)) (combine meshes sts)).
