(** Which rank has a domain: blueprint::mpi::mesh::generate_domain_to_rank_map,
    conduit_blueprint_mpi_mesh.cpp 175-213, called by all ranks of a communicator.  A rank is the
    list of its domains, each with its state/domain_id or without one.  max_all_reduce gives all
    ranks the maxima, element by element, of what they put in (C55). *)
From Coq Require Import ZArith.
From Verif Require Import Base.
Import ListNotations.
Local Open Scope Z_scope.

(** 183-195: the numbers of the domains of a rank *)
Definition numbers (rank : Z) (ds : list (option Z)) : list Z := map (fun d => match d with Some z => z | None => rank end) ds.
Definition max_local (l : list Z) : Z := fold_left (fun m d => if m <? d then d else m) l (-1).
Definition max_reduce (l : list Z) : Z := match l with [] => -1 | x :: r => fold_left Z.max r x end.
(** 203-206: writing outside the vector is undefined *)
Fixpoint put_at (v : list Z) (i : nat) (x : Z) : list Z :=
  match v, i with
  | [], _ => []
  | _ :: r, O => x :: r
  | a :: r, S i => a :: put_at r i x
  end.
Definition mark (v : list Z) (i x : Z) : outcome (list Z) :=
  if (0 <=? i) && (i <? Z.of_nat (length v)) then Ok (put_at v (Z.to_nat i) x) else UB.
Fixpoint mark_all (v : list Z) (l : list Z) (x : Z) : outcome (list Z) :=
  match l with
  | [] => Ok v
  | i :: r => do v <- mark v i x; mark_all v r x
  end.
(** the ranks with their numbers *)
Fixpoint ranked (k : Z) (rs : list (list (option Z))) : list (Z * list Z) :=
  match rs with [] => [] | ds :: r => (k, numbers k ds) :: ranked (k + 1) r end.
Fixpoint local_maps (size : nat) (l : list (Z * list Z)) : outcome (list (list Z)) :=
  match l with
  | [] => Ok []
  | (k, ids) :: r => do v <- mark_all (repeat (-1) size) ids k; do vs <- local_maps size r; Ok (v :: vs)
  end.
(** 208-212: the address of the first element of an empty vector is undefined *)
Definition rank_map (rs : list (list (option Z))) : outcome (list Z) :=
  let l := ranked 0 rs in
  let size := Z.to_nat (max_reduce (map (fun r => max_local (snd r)) l) + 1) in
  do vs <- local_maps size l;
  match size with
  | O => UB
  | _ => Ok (map (fun i => max_reduce (map (fun v => nth i v (-1)) vs)) (seq 0 size))
  end.
