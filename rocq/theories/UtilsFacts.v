(** Facts about factor() and the allocator registry. *)
From Coq Require Import Znumtheory Sorted.
From Verif Require Import Base Utils.
Local Open Scope Z_scope.

Definition zprod (l : list Z) : Z := fold_right Z.mul 1 l.
Lemma zprod_app a b : zprod (a ++ b) = zprod a * zprod b.
Proof. unfold zprod. induction a as [|x a IH]; cbn [app fold_right]; [lia|]. rewrite IH. lia. Qed.
Lemma zprod_rev a : zprod (rev a) = zprod a.
Proof. induction a as [|x a IH]; [reflexivity|]. cbn [rev]. rewrite zprod_app, IH. unfold zprod. cbn [fold_right]. lia. Qed.

(** [n] has no divisor in [2, f). *)
Definition rough (f n : Z) : Prop := forall d, 2 <= d < f -> ~ (d | n).
Lemma rough_prime f n : 2 <= f -> 1 <= n -> rough f n -> (f | n) -> prime f.
Proof.
  intros Hf Hn R D. apply prime_alt. split; [lia|]. intros x Hx Dx. apply (R x); [lia|]. eapply Z.divide_trans; eauto.
Qed.
Record finv (num f n prod : Z) (acc : list Z) : Prop := {
  fi_n : 1 <= n; fi_f : 2 <= f; fi_prod : zprod acc = prod; fi_num : n * prod = num;
  fi_rough : rough f n; fi_prime : Forall prime acc; fi_le : Forall (fun x => x <= f) acc;
  fi_sorted : Sorted Z.ge acc }.
Lemma while_ok fuel : forall num f n prod acc, finv num f n prod acc -> n < Z.of_nat fuel ->
  exists n' prod' acc', factor_while fuel f n prod acc = Ok (n', prod', acc') /\ finv num (f + 1) n' prod' acc' /\ n' <= n.
Proof.
  induction fuel as [|fuel IH]; intros num f n prod acc I Hn; [destruct I; lia|].
  destruct I as [In If Ip Inum Ir Ipr Ile Iso]. cbn [factor_while]. destruct (Z.eqb_spec (Z.rem n f) 0) as [E|E].
  - assert (D : n = f * Z.quot n f) by (apply Z.quot_exact; lia).
    assert (Hq : 1 <= Z.quot n f) by nia.
    destruct (IH num f (Z.quot n f) (prod * f) (f :: acc)) as (n' & p' & a' & E1 & I1 & L1).
    + constructor; auto.
      * unfold zprod in *. cbn [fold_right]. rewrite Ip. lia.
      * rewrite <- Inum. rewrite D at 2. ring.
      * intros d Hd Dv. apply (Ir d Hd). rewrite D. apply Z.divide_mul_r. exact Dv.
      * constructor; [|exact Ipr]. apply (rough_prime f n); auto. exists (Z.quot n f). lia.
      * constructor; [lia|exact Ile].
      * constructor; [exact Iso|]. destruct acc as [|y acc]; constructor. inversion Ile; subst. lia.
    + nia.
    + exists n', p', a'. split; [exact E1|]. split; [exact I1|]. nia.
  - exists n, prod, acc. split; [reflexivity|]. split; [|lia]. constructor; auto; try lia.
    + intros d Hd Dv. destruct (Z.eq_dec d f) as [->|N]; [|apply (Ir d); [lia|exact Dv]].
      apply E. apply Z.rem_divide; [lia|exact Dv].
    + eapply Forall_impl; [|exact Ile]. cbn. intros. lia.
Qed.
Lemma sorted_snoc l x : Sorted Z.le l -> Forall (fun y => y <= x) l -> Sorted Z.le (l ++ [x]).
Proof.
  induction l as [|a l IH]; intros S F; cbn [app]; [constructor; constructor|]. inversion S; subst. inversion F; subst.
  constructor; [apply IH; assumption|]. destruct l as [|b l]; cbn [app]; constructor; [assumption|]. inversion H2; assumption.
Qed.
Lemma sorted_forall_ge x l : Sorted Z.ge (x :: l) -> Forall (fun y => y <= x) l.
Proof.
  intros S. apply Sorted_extends in S; [|intros a b c; lia]. eapply Forall_impl; [|exact S]. cbn. intros. lia.
Qed.
Lemma sorted_rev l : Sorted Z.ge l -> Sorted Z.le (rev l).
Proof.
  induction l as [|a l IH]; intros S; cbn [rev]; [constructor|]. apply sorted_snoc.
  - apply IH. inversion S; assumption.
  - apply Forall_rev. apply sorted_forall_ge. exact S.
Qed.
Lemma for_ok fuel : forall num f n prod acc, finv num f n prod acc -> n <= num -> num + 2 - f <= Z.of_nat fuel -> (0 < fuel)%nat ->
  exists fs, factor_for fuel num f n prod acc = Ok fs /\ zprod fs = num /\ Forall prime fs /\ Sorted Z.le fs.
Proof.
  induction fuel as [|fuel IH]; intros num f n prod acc I Hn Hf H0; [lia|]. cbn [factor_for].
  destruct ((f <=? num) && (prod <? num)) eqn:E.
  - apply andb_prop in E. destruct E as [E1 E2].
    destruct (while_ok (S (Z.to_nat num)) num f n prod acc I) as (n' & p' & a' & Ew & I' & L'); [destruct I; lia|].
    rewrite Ew. cbn [obind]. apply IH; [exact I'|lia|lia|lia].
  - exists (rev acc). split; [reflexivity|]. destruct I as [In If Ip Inum Ir Ipr Ile Iso].
    assert (Pp : 1 <= prod).
    { rewrite <- Ip. clear -Ipr. induction Ipr as [|x l P _ IH]; unfold zprod in *; cbn [fold_right]; [lia|]. destruct P. nia. }
    assert (N1 : n = 1).
    { apply andb_false_iff in E. destruct E as [E|E]; [|nia].
      destruct (Z.eq_dec n 1) as [|N]; [assumption|]. exfalso. apply (Ir n); [lia|apply Z.divide_refl]. }
    split; [rewrite zprod_rev; nia|]. split; [apply Forall_rev; exact Ipr|]. apply sorted_rev. exact Iso.
Qed.
Lemma factor_law num : 2 <= num ->
  exists fs, factor num = Ok fs /\ zprod fs = num /\ Forall prime fs /\ Sorted Z.le fs.
Proof.
  intros H. unfold factor. destruct (for_ok (S (Z.to_nat num)) num 2 num 1 []) as (fs & E & P & A & S); try lia.
  - constructor; try lia; try reflexivity; try apply Forall_nil; [intros d Hd; lia|apply Sorted_nil].
  - rewrite E. cbn [obind]. exists fs. split; [|auto]. destruct fs as [|x fs]; [|reflexivity]. unfold zprod in P. cbn in P. lia.
Qed.
Lemma factor_small num : num <= 1 -> factor num = Ok [1].
Proof.
  intros H. unfold factor. cbn [factor_for]. replace (2 <=? num) with false by lia. cbn. replace (1 <? num) with false by lia. reflexivity.
Qed.
(** A factorisation into non-decreasing primes is unique. *)
Lemma prime_div_in p l : prime p -> Forall prime l -> (p | zprod l) -> In p l.
Proof.
  intros Hp F. induction F as [|q l Hq F IH]; intros D; unfold zprod in *; cbn [fold_right] in D.
  - destruct Hp. apply Z.divide_1_r in D. lia.
  - destruct (prime_mult p Hp _ _ D) as [D1|D1]; [|right; auto]. left. symmetry. apply prime_div_prime; assumption.
Qed.

(** ---- allocator registry ---- *)
Section Reg.
  Variables A F C M : Type.
  Notation st := (areg A F C M).
  Lemma zget_zset {V} (m : list (Z * V)) k v k' : zget (zset m k v) k' = if k' =? k then Some v else zget m k'.
  Proof.
    induction m as [|[k0 v0] m IH]; cbn [zset zget].
    - destruct (k' =? k); reflexivity.
    - destruct (Z.eqb_spec k k0) as [->|N]; cbn [zget].
      + destruct (k' =? k0); reflexivity.
      + rewrite IH. destruct (Z.eqb_spec k' k0) as [->|N2]; [|reflexivity]. replace (k0 =? k) with false by lia. reflexivity.
  Qed.
  Definition regs (l : list (aop A F C M)) : list (A * F) :=
    flat_map (fun o => match o with Register a f => [(a, f)] | _ => [] end) l.
  Definition last_copy (c : C) (l : list (aop A F C M)) : C := fold_left (fun c o => match o with SetCopy x => x | _ => c end) l c.
  Definition last_memset (c : M) (l : list (aop A F C M)) : M := fold_left (fun c o => match o with SetMemset x => x | _ => c end) l c.
  (** ids handed out, in order *)
  Definition ids (xs : list (option Z)) : list Z := flat_map (fun x => match x with Some i => [i] | None => [] end) xs.

  Lemma run_ok (l : list (aop A F C M)) : forall (s : st) (pairs : list (A * F)),
    a_next s = Z.of_nat (length pairs) ->
    (forall i, a_allocator s (Z.of_nat i) = deref (option_map fst (nth_error pairs i))) ->
    (forall i, a_deallocator s (Z.of_nat i) = deref (option_map snd (nth_error pairs i))) ->
    (forall i, i < 0 -> a_allocator s i = UB /\ a_deallocator s i = UB) ->
    let (xs, s') := a_run s l in
    ids xs = map Z.of_nat (seq (length pairs) (length (regs l))) /\
    a_next s' = Z.of_nat (length (pairs ++ regs l)) /\
    (forall i, a_allocator s' (Z.of_nat i) = deref (option_map fst (nth_error (pairs ++ regs l) i))) /\
    (forall i, a_deallocator s' (Z.of_nat i) = deref (option_map snd (nth_error (pairs ++ regs l) i))) /\
    (forall i, i < 0 -> a_allocator s' i = UB /\ a_deallocator s' i = UB) /\
    a_copy s' = last_copy (a_copy s) l /\ a_memset s' = last_memset (a_memset s) l.
  Proof.
    induction l as [|o l IH]; intros s pairs Hn Ha Hf Hneg.
    - cbn. rewrite app_nil_r. auto 10.
    - cbn [a_run]. destruct o as [a f|c|x]; cbn [a_step].
      + specialize (IH (mkA (a_next s + 1) (zset (a_alloc s) (a_next s) a) (zset (a_free s) (a_next s) f) (a_copy s) (a_memset s)) (pairs ++ [(a, f)])).
        destruct (a_run _ l) as [xs s']. cbn [a_next a_copy a_memset] in IH.
        assert (X : forall i, nth_error (pairs ++ [(a, f)]) i = if Z.of_nat i =? a_next s then Some (a, f) else nth_error pairs i).
        { intros i. destruct (Z.eqb_spec (Z.of_nat i) (a_next s)) as [E|E].
          - rewrite nth_error_app2 by lia. replace (i - length pairs)%nat with O by lia. reflexivity.
          - destruct (Nat.lt_ge_cases i (length pairs)); [rewrite nth_error_app1 by lia; reflexivity|].
            transitivity (@None (A * F)); [|symmetry]; apply nth_error_None; [rewrite app_length; cbn|]; lia. }
        destruct IH as (I1 & I2 & I3 & I4 & I5 & I6 & I7).
        * rewrite app_length. cbn [length]. lia.
        * intros i. unfold a_allocator. cbn [a_alloc]. rewrite zget_zset, X. destruct (Z.of_nat i =? a_next s); [reflexivity|]. apply Ha.
        * intros i. unfold a_deallocator. cbn [a_free]. rewrite zget_zset, X. destruct (Z.of_nat i =? a_next s); [reflexivity|]. apply Hf.
        * intros i Hi. unfold a_allocator, a_deallocator. cbn [a_alloc a_free]. rewrite !zget_zset. replace (i =? a_next s) with false by lia. apply (Hneg i Hi).
        * cbn [regs flat_map app ids] in *. unfold regs, ids in *. cbn [flat_map app length seq map].
          rewrite <- app_assoc in I2, I3, I4. cbn [app] in I2, I3, I4. rewrite app_length in I1. cbn [length] in I1. rewrite Nat.add_1_r in I1.
          rewrite I1, Hn. auto 10.
      + specialize (IH (mkA (a_next s) (a_alloc s) (a_free s) c (a_memset s)) pairs Hn Ha Hf Hneg). destruct (a_run _ l) as [xs s']. exact IH.
      + specialize (IH (mkA (a_next s) (a_alloc s) (a_free s) (a_copy s) x) pairs Hn Ha Hf Hneg). destruct (a_run _ l) as [xs s']. exact IH.
  Qed.
  Lemma registry_law (a0 : A) (f0 : F) (c0 : C) (m0 : M) l :
    let (xs, s) := a_run (a_init a0 f0 c0 m0) l in
    ids xs = map Z.of_nat (seq 1 (length (regs l))) /\
    (forall i, a_allocator s (Z.of_nat i) = deref (option_map fst (nth_error ((a0, f0) :: regs l) i))) /\
    (forall i, a_deallocator s (Z.of_nat i) = deref (option_map snd (nth_error ((a0, f0) :: regs l) i))) /\
    (forall i, i < 0 -> a_allocator s i = UB /\ a_deallocator s i = UB) /\
    a_copy s = last_copy c0 l /\ a_memset s = last_memset m0 l.
  Proof.
    pose proof (run_ok l (a_init a0 f0 c0 m0) [(a0, f0)]) as H. destruct (a_run (a_init a0 f0 c0 m0) l) as [xs s].
    destruct H as (I1 & _ & I3 & I4 & I5 & I6 & I7); [reflexivity| | | |].
    - intros [|i]; [reflexivity|]. unfold a_allocator, a_init. cbn [a_alloc zget]. replace (Z.of_nat (S i) =? 0) with false by lia. destruct i; reflexivity.
    - intros [|i]; [reflexivity|]. unfold a_deallocator, a_init. cbn [a_free zget]. replace (Z.of_nat (S i) =? 0) with false by lia. destruct i; reflexivity.
    - intros i Hi. unfold a_allocator, a_deallocator, a_init. cbn [a_alloc a_free zget]. replace (i =? 0) with false by lia. auto.
    - cbn [length app] in *. auto 10.
  Qed.
End Reg.
