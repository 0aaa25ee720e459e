(** Who has a domain. *)
From Coq Require Import ZArith.
From Verif Require Import Base.
Import ListNotations.
Local Open Scope Z_scope.

(** rank [r] has a domain with the number [id]; a domain without a number has that of its rank *)
Definition has_domain (rs : list (list (option Z))) (r : nat) (id : Z) : Prop :=
  exists ds, nth_error rs r = Some ds /\ (In (Some id) ds \/ In None ds /\ id = Z.of_nat r).
(** [m] tells for every number the last rank that has such a domain, or -1, and ends with the largest number *)
Definition tells (rs : list (list (option Z))) (m : list Z) : Prop :=
  (forall r id, has_domain rs r id -> 0 <= id < Z.of_nat (length m)) /\
  (exists r, has_domain rs r (Z.of_nat (length m) - 1)) /\
  (forall i k, nth_error m i = Some k ->
     (k = -1 /\ forall r, ~ has_domain rs r (Z.of_nat i)) \/
     (exists r, k = Z.of_nat r /\ has_domain rs r (Z.of_nat i) /\ forall r', has_domain rs r' (Z.of_nat i) -> (r' <= r)%nat)).
