(** Floats through detailed JSON text: single precision exactly, double precision closely and
    from then on exactly, whole numbers exactly. *)
From Coq Require Import ZArith QArith Qabs Qpower Qround Qfield Lia Floats.SpecFloat.
From Verif Require Import Base DType Mem Number NumberFacts ArrayOps ArrayOpsFacts Codec Json JsonSpec JsonSchema B64Json ValueJson FloatText FloatFacts ValueFacts CsvNum RoundFacts RoundText NumConv NumConvFacts NumConvText GText GRead CsvFloat FloatOps RjRead RjFloat RjText.
From Coq Require Import Lqa.
Local Open Scope Z_scope.

(** * bytes *)
Lemma bits_of_float prec emax w u : 1 < prec -> 2 <= w - prec -> emax = 2 ^ (w - prec - 1) -> 0 <= u < 2 ^ w ->
  float_of_bits prec emax w u <> S754_nan -> float_bits prec emax w (float_of_bits prec emax w u) = u.
Proof.
  intros Hp Hw He U. pose proof (EP prec w Hp Hw) as EPw. pose proof (P_big prec w Hp Hw) as PB. pose proof (E_big prec emax w Hp Hw He) as [EB EB4].
  set (P := 2 ^ (prec - 1)) in *. set (E := 2 ^ (w - prec)) in *. assert (W2 : 2 ^ w = 2 * (E * P)) by (rewrite EPw, <- Z.pow_succ_r by lia; f_equal; lia).
  set (r := u mod P). set (k := (u / P) mod E). set (s := (E * P <=? u)).
  assert (R : 0 <= r < P) by (apply Z.mod_pos_bound; lia). assert (K : 0 <= k < E) by (apply Z.mod_pos_bound; lia).
  assert (UE : u = (if s then E * P else 0) + k * P + r).
  { pose proof (Z.div_mod u P ltac:(lia)) as D1. pose proof (Z.div_mod (u / P) E ltac:(lia)) as D2. fold r in D1. fold k in D2. set (q := u / P / E) in *.
    assert (Q : q = if s then 1 else 0).
    { unfold s. assert (QB : 0 <= q) by (apply Z.div_pos; [apply Z.div_pos|]; lia). destruct (Z.leb_spec (E * P) u); nia. }
    rewrite Q in D2. destruct s; nia. }
  clearbody r k s. pose proof (from_fields prec emax w Hp Hw He s k r K R) as FF. fold P E in FF. rewrite <- UE in FF. rewrite FF. unfold float_bits. fold P E. rewrite <- EPw.
  destruct (Z.eqb_spec k (E - 1)).
  - destruct (Z.eqb_spec r 0); [intros _; fold P; lia|intros X; congruence].
  - intros _. destruct (Z.eqb_spec k 0).
    + destruct r as [|p|p]; [lia| |lia]. destruct (Z.ltb_spec (Zpos p) P); lia.
    + destruct (r + P) as [|p|p] eqn:RP; [lia| |lia]. destruct (Z.ltb_spec (Zpos p) P); [lia|]. lia.
Qed.
(** ten times an integer, divided by ten *)
Lemma ten_over_ten s m e n : 0 < n < 10 ^ 15 -> valid_binary 53 1024 (S754_finite s m e) = true -> (dyadic (Zpos m) e == inject_Z n)%Q -> strtod_normal (dbl_of_Z (10 * n)) (-1) = S754_finite false m e.
Proof.
  intros N V E. change (strtod_normal (dbl_of_Z (10 * n)) (-1)) with (ddiv (dbl_of_Z (10 * n)) (pow10 1)).
  assert (P1 : pow10 1 = S754_finite false 5629499534213120 (-49)) by (vm_compute; reflexivity). rewrite P1.
  change (10 ^ 15) with 1000000000000000 in N.
  destruct (dbl_close (10 * n) ltac:(change (10 ^ 18) with 1000000000000000000; lia)) as (m1 & e1 & DE & M1 & V1 & A & B).
  assert (Q1 : (dyadic (Zpos m1) e1 == inject_Z (10 * n))%Q).
  { destruct n as [|n|n]; try lia. destruct (is_a_float 53 1024 eq_refl false (5 * n) 1 ltac:(lia) ltac:(vm_compute; split; discriminate)) as (m2 & e2 & V2 & Q2).
    assert (Q3 : (dyadic (Zpos (5 * n)) 1 == dyadic (Zpos (10 * n)) 0)%Q).
    { rewrite !dyadic_t2. change (t2 1) with (inject_Z 2). change (t2 0) with (inject_Z 1). rewrite <- !inject_Z_mult. apply inject_Z_injective. lia. }
    pose proof (normalize_nearest 53 1024 eq_refl eq_refl (10 * Zpos n) 0 false ltac:(lia)) as NN. cbn zeta in NN. fold (dbl_of_Z (10 * Zpos n)) in NN. change (10 * Zpos n) with (Zpos (10 * n)) in *.
    rewrite Q3 in Q2. destruct NN as [[O _]|[_ NN]].
    - exfalso. apply (valid_not_overflows FLOAT64 (S754_finite false m2 e2) _ eq_refl V2 eq_refl). eapply overflows_eq; [|exact O]. cbn [cond_Zopp]. rewrite Q2. reflexivity.
    - pose proof (nearest_is 53 1024 eq_refl eq_refl _ _ false m2 e2 V2 Q2 NN) as X. rewrite X in DE. injection DE as <- <-. rewrite Q2. rewrite dyadic_t2. change (t2 0) with 1%Q. ring. }
  rewrite DE. assert (E1 : -54 < e1 < 61).
  { rewrite dyadic_t2 in Q1. pose proof (t2_pos e1) as T0.
    assert (U1 : (inject_Z (2 ^ 52) * t2 e1 <= inject_Z (10 ^ 16))%Q). { apply Qle_trans with (inject_Z (Zpos m1) * t2 e1)%Q; [apply Qmult_le_compat_r; [rewrite <- Zle_Qle; lia|lra]|]. rewrite Q1. rewrite <- Zle_Qle. change (10 ^ 16) with 10000000000000000. lia. }
    assert (U2 : (1 <= inject_Z (2 ^ 53) * t2 e1)%Q). { apply Qle_trans with (inject_Z (Zpos m1) * t2 e1)%Q; [|apply Qmult_le_compat_r; [rewrite <- Zle_Qle; lia|lra]]. rewrite Q1. change 1%Q with (inject_Z 1). rewrite <- Zle_Qle. lia. }
    change (inject_Z (2 ^ 52)) with (4503599627370496 # 1) in U1. change (inject_Z (10 ^ 16)) with (10000000000000000 # 1) in U1. change (inject_Z (2 ^ 53)) with (9007199254740992 # 1) in U2.
    split; apply t2_lt; [assert ((t2 (-54) == 1 # 18014398509481984)%Q) by reflexivity|assert ((t2 61 == 2305843009213693952)%Q) by reflexivity]; lra. }
  pose proof (sfdiv_nearest 53 1024 eq_refl eq_refl m1 e1 5629499534213120 (-49) ltac:(lia) ltac:(lia) ltac:(change (emin 53 1024) with (-1074); lia)) as SN.
  apply (nearest_is 53 1024 eq_refl eq_refl (dyadic (Zpos m1) e1 / dyadic 5629499534213120 (-49))%Q _ false m e); [destruct s; exact V| |exact SN]. cbn [cond_Zopp]. rewrite E, Q1.
  assert (T : (dyadic 5629499534213120 (-49) == 10)%Q) by reflexivity. rewrite T, inject_Z_mult. change (inject_Z 10) with 10%Q. field.
Qed.
Section JFloat.
Variable mach : endian.
Notation F := (libc mach).
Lemma float_bytes_of t bs q : is_float t = true -> Z.of_nat (length bs) = default_bytes t -> float_value (fvalue mach t bs) = Some q ->
  float_bytes mach t (fvalue mach t bs) = bs /\ valid_binary (prec_of t) (emax_of t) (fvalue mach t bs) = true.
Proof.
  intros T Ln Q. destruct (float_format t T) as (F1 & F2 & F3 & F4 & F5). split; [|apply float_of_bits_valid; assumption].
  apply (uvalue_inj mach); [unfold float_bytes; rewrite encode_length; unfold byte in *; lia|]. unfold float_bytes. rewrite encode_uvalue by (destruct t; discriminate).
  pose proof (uvalue_range mach bs) as U. replace (8 * Z.of_nat (length bs)) with (bits t) in U by (unfold bits; lia).
  unfold fvalue in *. rewrite bits_of_float; try assumption; [apply Z.mod_small; exact U|]. intros X. rewrite X in Q. discriminate Q.
Qed.
Lemma to_double_exact s m e : valid_binary 24 128 (S754_finite s m e) = true -> exists m' e', to_double (S754_finite s m e) = S754_finite s m' e' /\ valid_binary 53 1024 (S754_finite s m' e') = true /\ (dyadic (Zpos m') e' == dyadic (Zpos m) e)%Q.
Proof.
  intros V. destruct (finite_valid 24 128 s m e V) as (B & E & _). change (emin 24 128) with (-149) in E.
  destruct (is_a_float 53 1024 eq_refl s m e ltac:(lia) ltac:(change (emin 53 1024) with (-1074); lia)) as (m' & e' & V' & Q). exists m', e'. split; [|split; assumption].
  assert (VQ : (dyadic (cond_Zopp s (Zpos m')) e' == dyadic (cond_Zopp s (Zpos m)) e)%Q) by (rewrite !dyadic_cond, Q; reflexivity).
  pose proof (normalize_nearest 53 1024 eq_refl eq_refl (cond_Zopp s (Zpos m)) e s ltac:(destruct s; discriminate)) as N. cbn zeta in N.
  destruct N as [[O _]|[_ N]]; [|exact (nearest_is 53 1024 eq_refl eq_refl _ _ s m' e' V' VQ N)]. exfalso.
  apply (valid_not_overflows FLOAT64 (S754_finite s m' e') _ eq_refl V' eq_refl). eapply overflows_eq; [symmetry; exact VQ|exact O].
Qed.
Lemma to_float_same t s m e : is_float t = true -> valid_binary (prec_of t) (emax_of t) (S754_finite s m e) = true -> to_float t (S754_finite s m e) = S754_finite s m e.
Proof.
  intros T V. destruct (float_format t T) as (F1 & F2 & _). cbn [to_float].
  pose proof (normalize_nearest (prec_of t) (emax_of t) F1 F2 (cond_Zopp s (Zpos m)) e s ltac:(destruct s; discriminate)) as N. cbn zeta in N.
  destruct N as [[O _]|[_ N]]; [|exact (nearest_is _ _ F1 F2 _ _ s m e V (Qeq_refl _) N)]. exfalso. apply (valid_not_overflows t _ _ T V eq_refl O).
Qed.
Lemma float32_range s m e : valid_binary 24 128 (S754_finite s m e) = true -> t10_between (-280) 305 (dyadic (Zpos m) e).
Proof.
  intros V. destruct (finite_valid 24 128 s m e V) as (MB & EB & _). change (emin 24 128) with (-149) in EB.
  assert (M1 : (1 <= inject_Z (Zpos m))%Q) by (change 1%Q with (inject_Z 1); rewrite <- Zle_Qle; lia). assert (M2 : (inject_Z (Zpos m) <= inject_Z (2 ^ 24))%Q) by (rewrite <- Zle_Qle; lia).
  assert (T1 : (t2 (-149) <= t2 e)%Q) by (apply t2_mono; lia). assert (T2 : (t2 e <= t2 104)%Q) by (apply t2_mono; lia). pose proof (t2_pos e) as T0.
  split; rewrite dyadic_t2.
  - apply Qle_trans with (1 * t2 (-149))%Q; [vm_compute; discriminate|]. apply Qle_trans with (1 * t2 e)%Q; [lra|]. apply Qmult_le_compat_r; lra.
  - apply Qle_trans with (inject_Z (2 ^ 24) * t2 e)%Q; [apply Qmult_le_compat_r; lra|]. apply Qle_trans with (inject_Z (2 ^ 24) * t2 104)%Q; [|vm_compute; discriminate].
    rewrite !(Qmult_comm (inject_Z (2 ^ 24))). apply Qmult_le_compat_r; [exact T2|]. change 0%Q with (inject_Z 0). rewrite <- Zle_Qle. lia.
Qed.
(** D is X to 15 digits, Y is within four half steps of D *)
Lemma error15 X D Y : (0 < X)%Q -> significant 15 X D -> (Y * (W - 4) <= D * W)%Q -> (D * W <= Y * (W + 4))%Q -> (Qabs (Y - X) <= (6 # 1000000000000000) * X)%Q.
Proof.
  intros X0 (r & k & S1 & S2 & S3 & S4) A B. replace (k - 15 + 1) with (k - 14) in * by lia. apply Qabs_Qle_condition in S4.
  assert (TK : (t10 k == 100000000000000 * t10 (k - 14))%Q) by (replace k with (14 + (k - 14)) at 1 by lia; rewrite t10_add; reflexivity).
  rewrite W_val in *. pose proof (t10_pos (k - 14)). apply Qabs_Qle_condition. split; lra.
Qed.
Lemma zero_text t s : t = FLOAT32 \/ t = FLOAT64 -> float_back F t (float_bytes mach t (S754_zero s)).
Proof.
  intros T. assert (TF : is_float t = true) by (destruct T as [-> | ->]; reflexivity).
  assert (FT : f_text F t (float_bytes mach t (S754_zero s)) = if s then L "-0.0" else L "0.0") by (cbn [f_text libc]; rewrite float_round_trip by (exact TF || reflexivity); destruct s; reflexivity).
  unfold float_back. rewrite FT.
  assert (MN : JsonSpec.number (if s then L "-0.0" else L "0.0") /\ modest (if s then L "-0.0" else L "0.0")).
  { assert (Z0 : digits (L "0")) by (split; [discriminate|constructor; [left; reflexivity|constructor]]).
    replace (if s then L "-0.0" else L "0.0") with ((if s then L "-" else []) ++ L "0" ++ L ".0" ++ []) by (destruct s; reflexivity).
    apply modest_number; [destruct s; [right|left]; reflexivity|exact Z0|left; reflexivity|right; exists (L "0"); split; [reflexivity|exact Z0]|left; reflexivity|destruct s; cbn; lia]. }
  split; [apply MN|]. split; [apply MN|]. split; [destruct s; [right|]; right; left; left; reflexivity|].
  cbn [f_read libc]. assert (RD : rj_double (if s then L "-0.0" else L "0.0") = Ok (S754_zero s)) by (destruct s; vm_compute; reflexivity). rewrite RD. destruct T as [-> | ->]; reflexivity.
Qed.

(** Every finite float32 survives its text. *)
Theorem float32_back bs q : Z.of_nat (length bs) = 4 -> float_value (fvalue mach FLOAT32 bs) = Some q -> float_back F FLOAT32 bs.
Proof.
  intros Ln Q. destruct (float_bytes_of FLOAT32 bs q eq_refl Ln Q) as [BE V]. rewrite <- BE. set (x := fvalue mach FLOAT32 bs) in *. clearbody x. clear bs Ln BE.
  destruct x as [s|s| |s m e]; try discriminate Q; [apply zero_text; left; reflexivity|]. clear q Q. cbn [prec_of emax_of] in V.
  destruct (finite_valid 24 128 s m e V) as (MB & EB & _). change (emin 24 128) with (-149) in EB.
  destruct (to_double_exact s m e V) as (m2 & e2 & TD & V2 & EQ). pose proof (dyadic_pos m e) as X0. set (X := dyadic (Zpos m) e) in *.
  assert (XB : t10_between (-280) 305 (dyadic (Zpos m2) e2)) by (destruct (float32_range s m e V) as [R1 R2]; split; rewrite EQ; assumption).
  destruct (text_read s m2 e2 XB) as (NU & MO & EX & m' & e' & D & RD & VA & SG & A & B & _).
  assert (FT : f_text F FLOAT32 (float_bytes mach FLOAT32 (S754_finite s m e)) = float64_to_string (S754_finite s m2 e2)) by (cbn [f_text libc]; rewrite float_round_trip by (reflexivity || exact V); rewrite TD; reflexivity).
  unfold float_back. rewrite FT. split; [exact NU|]. split; [exact MO|]. split; [exact EX|]. cbn [f_read libc]. rewrite RD. f_equal. cbn [to_float prec_of emax_of].
  pose proof (error15 _ D _ (dyadic_pos m2 e2) SG A B) as ER. rewrite EQ in ER. set (Y := dyadic (Zpos m') e') in *.
  pose proof (normalize_nearest 24 128 eq_refl eq_refl (cond_Zopp s (Zpos m')) e' s ltac:(destruct s; discriminate)) as N. cbn zeta in N.
  assert (DS : (Qabs (dyadic (cond_Zopp s (Zpos m')) e' - dyadic (cond_Zopp s (Zpos m)) e) == Qabs (Y - X))%Q).
  { rewrite !dyadic_cond. fold Y X. destruct s; [setoid_replace ((-1 # 1) * Y - (-1 # 1) * X)%Q with (- (Y - X))%Q by ring; apply Qabs_opp|apply Qabs_wd; ring]. }
  destruct N as [[O _]|[_ N]].
  - exfalso. unfold overflows in O. rewrite dyadic_abs in O. replace (Z.abs (cond_Zopp s (Zpos m'))) with (Zpos m') in O by (destruct s; reflexivity). fold Y in O.
    assert (XM : (X <= inject_Z (2 ^ 24 - 1) * t2 104)%Q).
    { unfold X. rewrite dyadic_t2. pose proof (t2_pos e). apply Qle_trans with (inject_Z (2 ^ 24 - 1) * t2 e)%Q; [apply Qmult_le_compat_r; [rewrite <- Zle_Qle; lia|lra]|]. rewrite !(Qmult_comm (inject_Z _)). apply Qmult_le_compat_r; [apply t2_mono; lia|]. change 0%Q with (inject_Z 0). rewrite <- Zle_Qle. lia. }
    rewrite dyadic_t2 in O. change (128 - 24 - 1) with 103 in O. assert (T : (t2 104 == 2 * t2 103)%Q) by (change 104 with (1 + 103); rewrite t2_add; reflexivity). rewrite T in XM. pose proof (t2_pos 103). change (inject_Z (2 ^ (24 + 1) - 1)) with (33554431 # 1) in O. change (inject_Z (2 ^ 24 - 1)) with (16777215 # 1) in XM.
    pose proof (Qle_Qabs (Y - X)). lra.
  - destruct N as (VZ & qz & FZ & NZ). pose proof (NZ (S754_finite s m e) _ V eq_refl) as NX. assert (DS' : (Qabs (dyadic (cond_Zopp s (Zpos m)) e - dyadic (cond_Zopp s (Zpos m')) e') == Qabs (Y - X))%Q) by (rewrite <- DS; rewrite <- Qabs_opp; apply Qabs_wd; ring). rewrite DS' in NX.
    destruct (binary_normalize 24 128 (cond_Zopp s (Z.pos m')) e' s) as [sz|sz| |sz mz ez]; try discriminate FZ; cbn [float_value] in FZ; injection FZ as <-.
    + exfalso. setoid_replace (0 - dyadic (cond_Zopp s (Zpos m')) e')%Q with (- dyadic (cond_Zopp s (Zpos m')) e')%Q in NX by ring. rewrite Qabs_opp, dyadic_abs in NX. replace (Z.abs (cond_Zopp s (Zpos m'))) with (Zpos m') in NX by (destruct s; reflexivity). fold Y in NX.
      apply Qabs_Qle_condition in ER. assert (Y0 : (Qabs (Y - X) <= (6 # 1000000000000000) * X)%Q) by (apply Qabs_Qle_condition; exact ER). lra.
    + apply (same_float 24 128 eq_refl eq_refl); [exact V|exact VZ|]. fold X. change (inject_Z (2 ^ (24 + 1))) with (33554432 # 1).
      assert (TR : (Qabs (dyadic (cond_Zopp sz (Zpos mz)) ez - dyadic (cond_Zopp s (Zpos m)) e) <= Qabs (dyadic (cond_Zopp sz (Zpos mz)) ez - dyadic (cond_Zopp s (Zpos m')) e') + Qabs (dyadic (cond_Zopp s (Zpos m')) e' - dyadic (cond_Zopp s (Zpos m)) e))%Q).
      { eapply Qle_trans; [|apply Qabs_triangle]. apply Qle_lteq. right. apply Qabs_wd. ring. }
      rewrite DS in TR. lra.
Qed.

(** A float64 comes back close to what it was, prints the same text, and from then on survives. *)
Theorem float64_again bs q : Z.of_nat (length bs) = 8 -> float_value (fvalue mach FLOAT64 bs) = Some q -> (t10 (-280) <= Qabs q)%Q -> (Qabs q <= t10 305)%Q ->
  let bs' := f_read F FLOAT64 (f_text F FLOAT64 bs) in
  f_text F FLOAT64 bs' = f_text F FLOAT64 bs /\ float_back F FLOAT64 bs' /\
  exists q', float_value (fvalue mach FLOAT64 bs') = Some q' /\ (Qabs (q' - q) <= (6 # 1000000000000000) * Qabs q)%Q.
Proof.
  intros Ln Q B1 B2. destruct (float_bytes_of FLOAT64 bs q eq_refl Ln Q) as [BE V]. rewrite <- BE. set (x := fvalue mach FLOAT64 bs) in *. clearbody x. clear bs Ln BE.
  pose proof (t10_pos (-280)) as T0. destruct x as [s|s| |s m e]; try discriminate Q; cbn [float_value] in Q; injection Q as <-; [change (Qabs 0) with 0%Q in B1; lra|].
  assert (AB : forall s' m' e', (Qabs (dyadic (cond_Zopp s' (Zpos m')) e') == dyadic (Zpos m') e')%Q) by (intros s' m' e'; rewrite dyadic_abs; destruct s'; reflexivity).
  rewrite AB in B1, B2. cbn [prec_of emax_of] in V.
  destruct (text_read s m e (conj B1 B2)) as (NU & MO & EX & m' & e' & D & RD & VA & SG & A & B & AG).
  assert (TX : forall sx mx ex, valid_binary 53 1024 (S754_finite sx mx ex) = true -> f_text F FLOAT64 (float_bytes mach FLOAT64 (S754_finite sx mx ex)) = float64_to_string (S754_finite sx mx ex)).
  { intros sx mx ex Vx. cbn [f_text libc]. rewrite float_round_trip by (reflexivity || exact Vx). f_equal. exact (to_float_same FLOAT64 sx mx ex eq_refl Vx). }
  assert (RX : f_read F FLOAT64 (float64_to_string (S754_finite s m e)) = float_bytes mach FLOAT64 (S754_finite s m' e')).
  { cbn [f_read libc]. rewrite RD. f_equal. exact (to_float_same FLOAT64 s m' e' eq_refl VA). }
  rewrite (TX s m e V), RX. cbn zeta. rewrite (TX s m' e' VA). split; [exact AG|]. split.
  - unfold float_back. rewrite (TX s m' e' VA), AG. split; [exact NU|]. split; [exact MO|]. split; [exact EX|]. exact RX.
  - rewrite float_round_trip by (reflexivity || exact VA). eexists. split; [reflexivity|]. rewrite AB. pose proof (error15 _ D _ (dyadic_pos m e) SG A B) as ER.
    rewrite !dyadic_cond. set (Y := dyadic (Zpos m') e') in *. set (X := dyadic (Zpos m) e) in *. destruct s; [setoid_replace ((-1 # 1) * Y - (-1 # 1) * X)%Q with (- (Y - X))%Q by ring; rewrite Qabs_opp; exact ER|setoid_replace (1 * Y - 1 * X)%Q with (Y - X)%Q by ring; exact ER].
Qed.

(** Whole numbers below 10^15 survive exactly. *)
Theorem whole_back bs q z : Z.of_nat (length bs) = 8 -> float_value (fvalue mach FLOAT64 bs) = Some q -> (q == inject_Z z)%Q -> Z.abs z < 10 ^ 15 -> float_back F FLOAT64 bs.
Proof.
  intros Ln Q QZ ZB. destruct (float_bytes_of FLOAT64 bs q eq_refl Ln Q) as [BE V]. rewrite <- BE. set (x := fvalue mach FLOAT64 bs) in *. clearbody x. clear bs Ln BE.
  destruct x as [s|s| |s m e]; try discriminate Q; [apply zero_text; right; reflexivity|]. cbn [float_value] in Q. injection Q as <-. cbn [prec_of emax_of] in V.
  set (n := Z.abs z) in *. assert (E : (dyadic (Zpos m) e == inject_Z n)%Q).
  { unfold n. change (inject_Z (Z.abs z)) with (Qabs (inject_Z z)). rewrite <- QZ, dyadic_abs. destruct s; reflexivity. }
  pose proof (dyadic_pos m e) as X0. assert (N : 0 < n < 10 ^ 15) by (split; [rewrite E in X0; change 0%Q with (inject_Z 0) in X0; rewrite <- Zlt_Qlt in X0; exact X0|exact ZB]).
  assert (XB : t10_between (-280) 305 (dyadic (Zpos m) e)).
  { split; rewrite E.
    - apply Qle_trans with (inject_Z 1); [vm_compute; discriminate|]. rewrite <- Zle_Qle. lia.
    - apply Qle_trans with (inject_Z (10 ^ 15)); [rewrite <- Zle_Qle; lia|vm_compute; discriminate]. }
  destruct (text_read s m e XB) as (NU & MO & EX & _).
  assert (FT : f_text F FLOAT64 (float_bytes mach FLOAT64 (S754_finite s m e)) = float64_to_string (S754_finite s m e)).
  { cbn [f_text libc]. rewrite float_round_trip by (reflexivity || exact V). f_equal. exact (to_float_same FLOAT64 s m e eq_refl V). }
  unfold float_back. rewrite FT. split; [exact NU|]. split; [exact MO|]. split; [exact EX|]. cbn [f_read libc]. clear NU MO EX FT.
  destruct (show_Z_pos n ltac:(lia)) as ([NE DG] & VD & _ & HD).
  assert (TX : float64_to_string (S754_finite s m e) = (if s then L "-" else []) ++ show_Z n ++ L ".0" ++ []).
  { unfold float64_to_string, g15. rewrite (gfmt_integer 15 s m e n ltac:(lia) N E). rewrite existsb_app, (no_mark _ DG). destruct s; reflexivity || (cbn [existsb orb L list_ascii_of_string]; rewrite <- ?app_assoc; reflexivity). }
  rewrite TX. rewrite (rj_law s (show_Z n) (L ".0") (L "0") [] 0); try assumption.
  - change (L "0") with ["0"%char]. rewrite dec_app, VD. change (10 * n + digit_val "0") with (10 * n + 0). rewrite Z.add_0_r. change (0 - Z.of_nat (length ["0"%char])) with (-1). rewrite (ten_over_ten s m e n N V E). f_equal.
    destruct s; cbn [SFopp negb]; exact (to_float_same FLOAT64 _ m e eq_refl V).
  - right. exact HD.
  - right. reflexivity.
  - constructor; [left; reflexivity|constructor].
  - left. split; reflexivity.
  - vm_compute. discriminate.
  - change (L "0") with ["0"%char]. rewrite dec_app, VD. change (digit_val "0") with 0. change (10 ^ 15) with 1000000000000000 in N. lia.
Qed.

(** Any finite float that is zero or not too small or large: its text is a number, and
    read as a double the number is close to the float. *)
Theorem float_near t bs q : is_float t = true -> Z.of_nat (length bs) = default_bytes t -> float_value (fvalue mach t bs) = Some q -> (q == 0)%Q \/ t = FLOAT32 \/ ((t10 (-280) <= Qabs q)%Q /\ (Qabs q <= t10 305)%Q) ->
  JsonSpec.number (f_text F t bs) /\ modest (f_text F t bs) /\ Exists (fun c => In c (L ".eE")) (f_text F t bs) /\
  exists q', float_value (fvalue mach FLOAT64 (f_read F FLOAT64 (f_text F t bs))) = Some q' /\ (Qabs (q' - q) <= (6 # 1000000000000000) * Qabs q)%Q.
Proof.
  intros T Ln Q RG. destruct (float_bytes_of t bs q T Ln Q) as [BE V]. rewrite <- BE. set (x := fvalue mach t bs) in *. clearbody x. clear bs Ln BE.
  assert (AB : forall s' m' e', (Qabs (dyadic (cond_Zopp s' (Zpos m')) e') == dyadic (Zpos m') e')%Q) by (intros s' m' e'; rewrite dyadic_abs; destruct s'; reflexivity).
  assert (TT : t = FLOAT32 \/ t = FLOAT64) by (destruct t; try discriminate T; auto).
  destruct x as [s|s| |s m e]; try discriminate Q.
  - destruct (zero_text t s TT) as (A & B & C & _). split; [exact A|]. split; [exact B|]. split; [exact C|]. injection Q as <-. exists 0%Q. split; [|vm_compute; discriminate].
    assert (FT : f_text F t (float_bytes mach t (S754_zero s)) = if s then L "-0.0" else L "0.0") by (cbn [f_text libc]; rewrite float_round_trip by (exact T || reflexivity); destruct s; reflexivity).
    rewrite FT. cbn [f_read libc]. assert (RD : rj_double (if s then L "-0.0" else L "0.0") = Ok (S754_zero s)) by (destruct s; vm_compute; reflexivity). rewrite RD. rewrite float_round_trip by reflexivity. reflexivity.
  - injection Q as <-. pose proof (dyadic_pos m e) as X0.
    assert (K : exists m2 e2, to_double (S754_finite s m e) = S754_finite s m2 e2 /\ valid_binary 53 1024 (S754_finite s m2 e2) = true /\ (dyadic (Zpos m2) e2 == dyadic (Zpos m) e)%Q /\ t10_between (-280) 305 (dyadic (Zpos m2) e2)).
    { destruct TT as [-> | ->].
      - destruct (to_double_exact s m e V) as (m2 & e2 & A & B & C). exists m2, e2. split; [exact A|]. split; [exact B|]. split; [exact C|]. destruct (float32_range s m e V) as [R1 R2]. split; rewrite C; assumption.
      - exists m, e. split; [exact (to_float_same FLOAT64 s m e eq_refl V)|]. split; [exact V|]. split; [reflexivity|]. destruct RG as [Z0|[D|[R1 R2]]]; [|discriminate D|rewrite AB in R1, R2; split; assumption].
        exfalso. assert (Z1 : (Qabs (dyadic (cond_Zopp s (Zpos m)) e) == 0)%Q) by (rewrite Z0; reflexivity). rewrite AB in Z1. lra. }
    destruct K as (m2 & e2 & TD & V2 & EQ & XB). destruct (text_read s m2 e2 XB) as (NU & MO & EX & m' & e' & D & RD & VA & SG & A & B & _).
    assert (FT : f_text F t (float_bytes mach t (S754_finite s m e)) = float64_to_string (S754_finite s m2 e2)) by (cbn [f_text libc]; rewrite float_round_trip by (exact T || exact V); rewrite TD; reflexivity).
    rewrite FT. split; [exact NU|]. split; [exact MO|]. split; [exact EX|]. cbn [f_read libc]. rewrite RD.
    assert (TS : to_float FLOAT64 (S754_finite s m' e') = S754_finite s m' e') by (apply (to_float_same FLOAT64); [reflexivity|exact VA]). rewrite TS, float_round_trip by (reflexivity || exact VA).
    eexists. split; [reflexivity|]. rewrite AB. pose proof (error15 _ D _ (dyadic_pos m2 e2) SG A B) as ER. rewrite EQ in ER.
    rewrite !dyadic_cond. set (Y := dyadic (Zpos m') e') in *. set (X := dyadic (Zpos m) e) in *. destruct s; [setoid_replace ((-1 # 1) * Y - (-1 # 1) * X)%Q with (- (Y - X))%Q by ring; rewrite Qabs_opp; exact ER|setoid_replace (1 * Y - 1 * X)%Q with (Y - X)%Q by ring; exact ER].
Qed.
End JFloat.
