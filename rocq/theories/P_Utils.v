(** Property theorems C29 (factor) and C37 (allocator registry). *)
From Coq Require Import Znumtheory Sorted FinFun.
From Verif Require Import Base Utils UtilsFacts.
Local Open Scope Z_scope.

(** * C29 *)
Theorem C29_factor : forall num, 2 <= num ->
  exists fs, factor num = Ok fs /\ fold_right Z.mul 1 fs = num /\ Forall prime fs /\ Sorted Z.le fs.
Proof. exact factor_law. Qed.
Print Assumptions C29_factor.
(** The primes returned are exactly the prime divisors. *)
Theorem C29_factor_complete : forall num, 2 <= num ->
  exists fs, factor num = Ok fs /\ forall p, In p fs <-> prime p /\ (p | num).
Proof.
  intros num H. destruct (factor_law num H) as (fs & E & P & A & _). exists fs. split; [exact E|]. intros p. split.
  - intros I. split; [rewrite Forall_forall in A; auto|]. rewrite <- P. clear -I. induction fs as [|x fs IH]; [destruct I|]. destruct I as [->|I].
    + exists (zprod fs). unfold zprod. cbn [fold_right]. lia.
    + destruct (IH I) as [z Ez]. exists (x * z). unfold zprod in *. cbn [fold_right]. rewrite Ez. ring.
  - intros [Hp D]. apply prime_div_in; [exact Hp|exact A|]. rewrite P. exact D.
Qed.
Print Assumptions C29_factor_complete.
(** Below two the result is [1], which is not a list of primes. *)
Theorem C29_factor_small : forall num, num <= 1 -> factor num = Ok [1].
Proof. exact factor_small. Qed.
Print Assumptions C29_factor_small.
Example C29_instance : factor 360 = Ok [2; 2; 2; 3; 3; 5] /\ factor 97 = Ok [97].
Proof. split; vm_compute; reflexivity. Qed.

(** * C37 *)
(** After any history of registrations and hook changes: the ids handed out are
    1, 2, 3, ... in order of registration; id [i] calls exactly the [i]-th
    registered pair (0 the default pair), every other id is a call through a null
    pointer; the hooks in force are the last ones installed. *)
Theorem C37_registry : forall (A F C M : Type) (a0 : A) (f0 : F) (c0 : C) (m0 : M) (l : list (aop A F C M)),
  let (xs, s) := a_run (a_init a0 f0 c0 m0) l in
  ids xs = map Z.of_nat (seq 1 (length (regs _ _ _ _ l))) /\
  (forall i, a_allocator s (Z.of_nat i) = deref (option_map fst (nth_error ((a0, f0) :: regs _ _ _ _ l) i))) /\
  (forall i, a_deallocator s (Z.of_nat i) = deref (option_map snd (nth_error ((a0, f0) :: regs _ _ _ _ l) i))) /\
  (forall i, i < 0 -> a_allocator s i = UB /\ a_deallocator s i = UB) /\
  a_copy s = last_copy _ _ _ _ c0 l /\ a_memset s = last_memset _ _ _ _ m0 l.
Proof. exact registry_law. Qed.
Print Assumptions C37_registry.
Theorem C37_ids_distinct : forall (A F C M : Type) (a0 : A) (f0 : F) (c0 : C) (m0 : M) (l : list (aop A F C M)),
  NoDup (0 :: ids (fst (a_run (a_init a0 f0 c0 m0) l))).
Proof.
  intros. pose proof (registry_law A F C M a0 f0 c0 m0 l) as H. destruct (a_run (a_init a0 f0 c0 m0) l) as [xs s]. destruct H as [H _].
  cbn [fst]. rewrite H. change (0 :: map Z.of_nat (seq 1 (length (regs _ _ _ _ l)))) with (map Z.of_nat (seq 0 (S (length (regs _ _ _ _ l))))).
  apply Injective_map_NoDup; [intros a b; lia|]. apply seq_NoDup.
Qed.
Print Assumptions C37_ids_distinct.
(** A registration is remembered whatever happens later. *)
Theorem C37_registration_persists : forall (A F C M : Type) (a0 : A) (f0 : F) (c0 : C) (m0 : M) (l1 l2 : list (aop A F C M)) a f,
  let i := Z.of_nat (S (length (regs _ _ _ _ l1))) in
  nth_error (fst (a_run (a_init a0 f0 c0 m0) (l1 ++ Register a f :: l2))) (length l1) = Some (Some i) /\
  a_allocator (snd (a_run (a_init a0 f0 c0 m0) (l1 ++ Register a f :: l2))) i = Ok a /\
  a_deallocator (snd (a_run (a_init a0 f0 c0 m0) (l1 ++ Register a f :: l2))) i = Ok f.
Proof.
  intros. split.
  - assert (X : forall l s n, a_next s = Z.of_nat n ->
      nth_error (fst (a_run s (l ++ Register a f :: l2))) (length l) = Some (Some (Z.of_nat (n + length (regs A F C M l))))).
    { clear. induction l as [|o l IH]; intros s n Hn.
      - cbn. destruct (a_run _ l2). cbn. rewrite Nat.add_0_r, Hn. reflexivity.
      - cbn [app a_run]. destruct o as [a1 f1|c|x]; cbn [a_step].
        + specialize (IH (mkA (a_next s + 1) (zset (a_alloc s) (a_next s) a1) (zset (a_free s) (a_next s) f1) (a_copy s) (a_memset s)) (S n)).
          destruct (a_run _ _) as [xs s']. cbn [fst length nth_error regs flat_map app] in *. rewrite IH by (cbn [a_next]; lia).
          unfold regs. cbn [flat_map app length]. do 2 f_equal. lia.
        + specialize (IH (mkA (a_next s) (a_alloc s) (a_free s) c (a_memset s)) n Hn). destruct (a_run _ _) as [xs s']. exact IH.
        + specialize (IH (mkA (a_next s) (a_alloc s) (a_free s) (a_copy s) x) n Hn). destruct (a_run _ _) as [xs s']. exact IH. }
    rewrite (X l1 (a_init a0 f0 c0 m0) 1%nat eq_refl). reflexivity.
  - pose proof (registry_law A F C M a0 f0 c0 m0 (l1 ++ Register a f :: l2)) as H. destruct (a_run _ _) as [xs s]. destruct H as (_ & H1 & H2 & _).
    cbn [snd]. unfold i. rewrite H1, H2. cbn [nth_error]. unfold regs. rewrite flat_map_app. cbn [flat_map app].
    rewrite nth_error_app2 by lia. rewrite Nat.sub_diag. split; reflexivity.
Qed.
Print Assumptions C37_registration_persists.
Example C37_instance :
  let r := a_run (a_init 10 20 30 40) [Register 11 21; SetCopy 31; Register 12 22] in
  ids (fst r) = [1; 2] /\ a_allocator (snd r) 1 = Ok 11 /\ a_deallocator (snd r) 2 = Ok 22 /\ a_allocator (snd r) 3 = UB /\ a_copy (snd r) = 31.
Proof. vm_compute. auto. Qed.
