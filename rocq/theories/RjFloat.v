(** Doubles through rapidjson's reader: accuracy. *)
From Coq Require Import ZArith QArith Qabs Qpower Qround Qfield Lia Floats.SpecFloat.
From Verif Require Import Base DType Mem Number ArrayOps Codec Json JsonSpec JsonSchema FloatText CsvNum RoundFacts RoundText NumConv NumConvFacts NumConvText GText GRead FloatOps RjRead.
From Coq Require Import Lqa.
Local Open Scope Z_scope.

Definition W : Q := inject_Z (2 ^ 53).
Lemma W_val : W = (9007199254740992 # 1).
Proof. reflexivity. Qed.
Lemma no_overflow v : (Qabs v <= t10 308)%Q -> ~ overflows 53 1024 v.
Proof.
  intros H O. unfold overflows in O. assert (X : (t10 308 < dyadic (2 ^ (53 + 1) - 1) (1024 - 53 - 1))%Q).
  { rewrite dyadic_t2, t10_Z, t2_Z, <- inject_Z_mult by lia. rewrite <- Zlt_Qlt. vm_compute. reflexivity. }
  lra.
Qed.
(** close: the float y of a positive number v, half a step away at most *)
Definition close (x : spec_float) (v : Q) : Prop :=
  exists m e, x = S754_finite false m e /\ 2 ^ 52 <= Zpos m < 2 ^ 53 /\ valid_binary 53 1024 x = true /\
    (dyadic (Zpos m) e * (W - 1) <= v * W)%Q /\ (v * W <= dyadic (Zpos m) e * (W + 1))%Q.
Lemma nearest_close v x : (t2 (-1022) <= v)%Q -> (v <= t10 308)%Q -> a_nearest 53 1024 v x -> close x v.
Proof.
  intros V1 V2 N. pose proof (t2_pos (-1022)) as P0. assert (O : ~ overflows 53 1024 v) by (apply no_overflow; rewrite Qabs_pos by lra; exact V2).
  destruct (nearest_normal 53 1024 eq_refl eq_refl v x N) as (s & m & e & -> & M); [unfold normal; rewrite Qabs_pos by lra; exact V1|].
  pose proof N as (Va & q & Fq & Nq). destruct (finite_valid 53 1024 s m e Va) as (MB & _).
  assert (s = false).
  { destruct s; [|reflexivity]. exfalso. cbn [float_value cond_Zopp] in Fq. injection Fq as <-. specialize (Nq (S754_zero false) 0%Q eq_refl eq_refl). pose proof (dyadic_opp (Zpos m) e) as DO. cbn [Z.opp] in DO. rewrite DO in Nq.
    assert (Y : (0 < dyadic (Zpos m) e)%Q) by (unfold dyadic; apply Qmult_lt_0_compat; [reflexivity|apply pow2_pos]). rewrite !Qabs_neg in Nq by lra. lra. }
  subst s. exists m, e. split; [reflexivity|]. split; [change (53 - 1) with 52 in M; lia|]. split; [exact Va|].
  pose proof (half_ulp_rel 53 1024 eq_refl v false m e N O M) as H. cbn [cond_Zopp] in H. fold W in H. set (y := dyadic (Zpos m) e) in *.
  pose proof (Qle_Qabs (y - v)) as A1. pose proof (Qle_Qabs (- (y - v))) as A2. rewrite Qabs_opp in A2. rewrite W_val in *. split; lra.
Qed.
Lemma dbl_close i : 0 < i < 10 ^ 18 -> close (dbl_of_Z i) (inject_Z i).
Proof.
  intros I. assert (V1 : (t2 (-1022) <= inject_Z i)%Q). { apply Qle_trans with (t2 0); [apply t2_mono; lia|]. change (t2 0) with (inject_Z 1). rewrite <- Zle_Qle. lia. }
  assert (V2 : (inject_Z i <= t10 308)%Q). { rewrite t10_Z by lia. rewrite <- Zle_Qle. assert (10 ^ 18 <= 10 ^ 308) by (apply Z.pow_le_mono_r; lia). lia. }
  apply nearest_close; [exact V1|exact V2|]. pose proof (normalize_nearest 53 1024 eq_refl eq_refl i 0 false ltac:(lia)) as N. cbn zeta in N. fold (dbl_of_Z i) in N.
  assert (E : (dyadic i 0 == inject_Z i)%Q) by (unfold dyadic; change (Qpower (2 # 1) 0) with 1%Q; ring).
  destruct N as [[O _]|[_ N]]; [|exact (a_nearest_eq 53 1024 _ _ _ E N)]. exfalso. revert O. apply no_overflow. rewrite E, Qabs_pos; [exact V2|]. change 0%Q with (inject_Z 0). rewrite <- Zle_Qle. lia.
Qed.
Lemma pow10_close n : 0 <= n <= 308 -> close (pow10 n) (t10 n).
Proof.
  intros N. pose proof (t10_pos n) as T0. assert (V2 : (t10 n <= t10 308)%Q) by (apply t10_mono; lia).
  assert (V1 : (t2 (-1022) <= t10 n)%Q) by (apply Qle_trans with (t2 0); [apply t2_mono; lia|]; change (t2 0) with (t10 0); apply t10_mono; lia).
  apply nearest_close; [exact V1|exact V2|]. pose proof (p10_pos n ltac:(lia)) as P. pose proof (nearest_nearest 53 1024 eq_refl eq_refl false (10 ^ n) 1 P eq_refl) as X. cbn zeta in X. fold (pow10 n) in X.
  assert (E : (fraction false (10 ^ n) 1 == t10 n)%Q) by (unfold fraction; rewrite t10_Z by lia; change (inject_Z 1) with 1%Q; field).
  destruct X as [[O _]|[_ X]]; [|exact (a_nearest_eq 53 1024 _ _ _ E X)]. exfalso. revert O. apply no_overflow. rewrite E, Qabs_pos by lra. exact V2.
Qed.
(** within four half steps *)
Definition near4 (x : spec_float) (v : Q) : Prop :=
  exists m e, x = S754_finite false m e /\ 2 ^ 52 <= Zpos m < 2 ^ 53 /\ valid_binary 53 1024 x = true /\
    (dyadic (Zpos m) e * (W - 4) <= v * W)%Q /\ (v * W <= dyadic (Zpos m) e * (W + 4))%Q.
Lemma dyadic_pos m e : (0 < dyadic (Zpos m) e)%Q.
Proof. unfold dyadic. apply Qmult_lt_0_compat; [reflexivity|apply pow2_pos]. Qed.
Lemma mul_near x1 v1 x2 v2 : close x1 v1 -> close x2 v2 -> (0 < v1)%Q -> (0 < v2)%Q -> (t10 (-291) <= v1 * v2)%Q -> (v1 * v2 <= t10 306)%Q -> near4 (dmul x1 x2) (v1 * v2).
Proof.
  intros (m1 & e1 & -> & M1 & _ & A1 & B1) (m2 & e2 & -> & M2 & _ & A2 & B2) P1 P2 R1 R2.
  pose proof (dyadic_pos m1 e1) as Y1. pose proof (dyadic_pos m2 e2) as Y2.
  pose proof (sfmul_nearest 53 1024 eq_refl eq_refl false m1 e1 false m2 e2 ltac:(change (53 - 1) with 52; lia)) as N. cbn zeta in N. cbn [xorb cond_Zopp] in N.
  assert (E : (dyadic (Zpos m1 * Zpos m2) (e1 + e2) == dyadic (Zpos m1) e1 * dyadic (Zpos m2) e2)%Q) by (rewrite !dyadic_t2, inject_Z_mult, t2_add; ring).
  set (y1 := dyadic (Zpos m1) e1) in *. set (y2 := dyadic (Zpos m2) e2) in *. set (z := (y1 * y2)%Q) in *. set (D := (v1 * v2)%Q) in *.
  assert (U : (D * W * W <= z * (W + 1) * (W + 1))%Q).
  { assert (X : (v1 * W * (v2 * W) <= y1 * (W + 1) * (y2 * (W + 1)))%Q).
    { rewrite W_val in *. apply Qle_trans with (v1 * (9007199254740992 # 1) * (y2 * ((9007199254740992 # 1) + 1)))%Q; [rewrite !(Qmult_comm (v1 * _)); apply Qmult_le_compat_r; [exact B2|lra]|apply Qmult_le_compat_r; [exact B1|lra]]. }
    setoid_replace (D * W * W)%Q with (v1 * W * (v2 * W))%Q by (unfold D; ring). setoid_replace (z * (W + 1) * (W + 1))%Q with (y1 * (W + 1) * (y2 * (W + 1)))%Q by (unfold z; ring). exact X. }
  assert (Lo : (z * (W - 1) * (W - 1) <= D * W * W)%Q).
  { assert (X : (y1 * (W - 1) * (y2 * (W - 1)) <= v1 * W * (v2 * W))%Q).
    { rewrite W_val in *. apply Qle_trans with (y1 * ((9007199254740992 # 1) - 1) * (v2 * (9007199254740992 # 1)))%Q; [rewrite !(Qmult_comm (y1 * _)); apply Qmult_le_compat_r; [exact A2|lra]|apply Qmult_le_compat_r; [exact A1|lra]]. }
    setoid_replace (D * W * W)%Q with (v1 * W * (v2 * W))%Q by (unfold D; ring). setoid_replace (z * (W - 1) * (W - 1))%Q with (y1 * (W - 1) * (y2 * (W - 1)))%Q by (unfold z; ring). exact X. }
  assert (Z0 : (0 < z)%Q) by (unfold z; apply Qmult_lt_0_compat; assumption). rewrite W_val in U, Lo.
  assert (T1 : (2 * t2 (-1022) <= t10 (-291))%Q) by (vm_compute; discriminate). assert (T2 : (2 * t10 306 <= t10 308)%Q) by (vm_compute; discriminate).
  assert (C : close (dmul (S754_finite false m1 e1) (S754_finite false m2 e2)) z).
  { apply nearest_close; [lra|lra|]. destruct N as [[O _]|[_ N]]; [|exact (a_nearest_eq 53 1024 _ _ _ E N)]. exfalso. revert O. apply no_overflow. rewrite E, Qabs_pos; lra. }
  destruct C as (m & e & -> & M & V & A & B). exists m, e. split; [reflexivity|]. split; [exact M|]. split; [exact V|]. pose proof (dyadic_pos m e). set (y := dyadic (Zpos m) e) in *. rewrite W_val in *. split; lra.
Qed.
Lemma div_near x1 v1 x2 v2 D : close x1 v1 -> close x2 v2 -> (0 < v2)%Q -> (D * v2 == v1)%Q -> (t10 (-291) <= D)%Q -> (D <= t10 306)%Q -> near4 (ddiv x1 x2) D.
Proof.
  intros (m1 & e1 & -> & M1 & _ & A1 & B1) (m2 & e2 & -> & M2 & _ & A2 & B2) P2 DV R1 R2.
  pose proof (dyadic_pos m1 e1) as Y1. pose proof (dyadic_pos m2 e2) as Y2. pose proof (t10_pos (-291)) as T0.
  set (z := (dyadic (Zpos m1) e1 / dyadic (Zpos m2) e2)%Q).
  assert (ZE : (z * dyadic (Zpos m2) e2 == dyadic (Zpos m1) e1)%Q) by (unfold z; field; lra).
  assert (Z0 : (0 < z)%Q) by (unfold z; apply Qlt_shift_div_l; lra).
  assert (U : (D * (W - 1) <= z * (W + 1))%Q).
  { apply (Qmult_le_r _ _ (dyadic (Zpos m2) e2) Y2). rewrite <- DV in B1. rewrite <- ZE in B1. set (y2 := dyadic (Zpos m2) e2) in *. rewrite W_val in *.
    assert (X : (D * (y2 * ((9007199254740992 # 1) - 1)) <= D * (v2 * (9007199254740992 # 1)))%Q) by (rewrite !(Qmult_comm D); apply Qmult_le_compat_r; [exact A2|lra]).
    apply Qle_trans with (D * (y2 * ((9007199254740992 # 1) - 1)))%Q; [lra|]. apply Qle_trans with (D * v2 * (9007199254740992 # 1))%Q; [lra|]. eapply Qle_trans; [exact B1|]. lra. }
  assert (Lo : (z * (W - 1) <= D * (W + 1))%Q).
  { apply (Qmult_le_r _ _ (dyadic (Zpos m2) e2) Y2). rewrite <- DV in A1. rewrite <- ZE in A1. set (y2 := dyadic (Zpos m2) e2) in *. rewrite W_val in *.
    assert (X : (D * (v2 * (9007199254740992 # 1)) <= D * (y2 * ((9007199254740992 # 1) + 1)))%Q) by (rewrite !(Qmult_comm D); apply Qmult_le_compat_r; [exact B2|lra]).
    apply Qle_trans with (z * y2 * ((9007199254740992 # 1) - 1))%Q; [lra|]. eapply Qle_trans; [exact A1|]. lra. }
  assert (EE : emin 53 1024 + 53 <= e1 - e2 <= 1024 - 3).
  { assert (T : (t2 e1 == t2 (e1 - e2) * t2 e2)%Q) by (rewrite <- t2_add; replace (e1 - e2 + e2) with e1 by lia; reflexivity).
    assert (MT : (inject_Z (Zpos m1) * t2 (e1 - e2) == z * inject_Z (Zpos m2))%Q).
    { pose proof (t2_pos e2) as Te. rewrite !dyadic_t2 in ZE. apply (Qmult_inj_r _ _ (t2 e2)); [lra|]. rewrite <- !Qmult_assoc, <- T. rewrite <- ZE. ring. }
    pose proof (t2_pos (e1 - e2)) as TT. set (T3 := t2 (e1 - e2)) in *. assert (Q1 : (0 < inject_Z (Zpos m1))%Q) by reflexivity. assert (Q2 : (0 < inject_Z (Zpos m2))%Q) by reflexivity.
    assert (L1 : (inject_Z (Zpos m1) <= 2 * inject_Z (Zpos m2))%Q) by (change 2%Q with (inject_Z 2); rewrite <- inject_Z_mult, <- Zle_Qle; lia).
    assert (L2 : (inject_Z (Zpos m2) <= 2 * inject_Z (Zpos m1))%Q) by (change 2%Q with (inject_Z 2); rewrite <- inject_Z_mult, <- Zle_Qle; lia).
    rewrite W_val in *.
    assert (Z1 : (z <= 2 * T3)%Q).
    { apply (Qmult_le_r _ _ (inject_Z (Zpos m2)) Q2). rewrite <- MT. apply Qle_trans with (2 * inject_Z (Zpos m2) * T3)%Q; [apply Qmult_le_compat_r; [exact L1|lra]|]. lra. }
    assert (Z2 : (T3 <= 2 * z)%Q).
    { apply (Qmult_le_r _ _ (inject_Z (Zpos m1)) Q1). rewrite (Qmult_comm T3), MT. apply Qle_trans with (z * (2 * inject_Z (Zpos m1)))%Q; [rewrite !(Qmult_comm z); apply Qmult_le_compat_r; [exact L2|lra]|]. lra. }
    assert (T4 : (8 * t2 (-1022) <= t10 (-291))%Q) by (vm_compute; discriminate). assert (T5 : (8 * t10 306 <= t2 1021)%Q) by (vm_compute; discriminate).
    pose proof (t2_pos (-1022)) as T6. assert (F1 : (t2 (-1022) < t2 (e1 - e2))%Q) by (fold T3; lra). assert (F2 : (t2 (e1 - e2) < t2 1021)%Q) by (fold T3; lra).
    apply t2_lt in F1. apply t2_lt in F2. change (emin 53 1024) with (-1074). lia. }
  assert (C : close (ddiv (S754_finite false m1 e1) (S754_finite false m2 e2)) z).
  { assert (T1 : (2 * t2 (-1022) <= t10 (-291))%Q) by (vm_compute; discriminate). assert (T2 : (2 * t10 306 <= t10 308)%Q) by (vm_compute; discriminate). rewrite W_val in *.
    apply nearest_close; [lra|lra|]. apply (sfdiv_nearest 53 1024 eq_refl); change (53 - 1) with 52; assumption. }
  destruct C as (m & e & -> & M & V & A & B). exists m, e. split; [reflexivity|]. split; [exact M|]. split; [exact V|]. pose proof (dyadic_pos m e). set (y := dyadic (Zpos m) e) in *. rewrite W_val in *. split; lra.
Qed.
Theorem fast_near i p : 0 < i < 10 ^ 18 -> -308 <= p <= 308 -> (t10 (-291) <= inject_Z i * t10 p)%Q -> (inject_Z i * t10 p <= t10 306)%Q ->
  near4 (strtod_normal (dbl_of_Z i) p) (inject_Z i * t10 p).
Proof.
  intros I P R1 R2. unfold strtod_normal. destruct (Z.ltb_spec p (-308)); [lia|]. unfold fast_path. destruct (Z.ltb_spec p (-308)); [lia|].
  pose proof (dbl_close i I) as CI. assert (I0 : (0 < inject_Z i)%Q) by (apply iz_pos; lia). destruct (Z.leb_spec 0 p).
  - apply mul_near; try assumption; [apply pow10_close; lia|apply t10_pos].
  - apply (div_near _ (inject_Z i) _ (t10 (- p))); try assumption; [apply pow10_close; lia|apply t10_pos|].
    rewrite <- Qmult_assoc, t10_inv. ring.
Qed.
