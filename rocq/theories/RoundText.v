(** The decimal fraction nearest: [nearest] of FloatText gives a number of the format nearest to n/d. *)
From Coq Require Import ZArith QArith Qabs Qpower Lia Floats.SpecFloat.
From Verif Require Import Base DType Number Json FloatText RoundFacts.
Local Open Scope Z_scope.

Lemma Qabs_scaled a b c : (0 < c)%Q -> (Qabs (a * c) <= Qabs (b * c))%Q -> (Qabs a <= Qabs b)%Q.
Proof.
  intros C H. rewrite !Qabs_Qmult, (Qabs_pos c) in H by (apply Qlt_le_weak, C). apply Qmult_le_r in H; assumption.
Qed.
Section Text.
Variables prec emax : Z.
Hypothesis Hp : 1 < prec.
Hypothesis He : prec < emax.
(** the number n/d * 2^e *)
Definition scaled_value (n d e : Z) : Q := (dyadic n e / inject_Z d)%Q.
Lemma scaled_mul n d e a ea : 0 < d -> ((dyadic a ea - scaled_value n d e) * inject_Z d == dyadic (a * d) ea - dyadic n e)%Q.
Proof.
  intros D. assert (N : ~ (inject_Z d == 0)%Q) by (unfold Qeq; cbn; lia).
  unfold scaled_value, dyadic. rewrite inject_Z_mult. field. exact N.
Qed.
Lemma d_pos d : 0 < d -> (0 < inject_Z d)%Q.
Proof. intros H. unfold Qlt. cbn. lia. Qed.
Lemma grid_nearest n d e e' k j f : 0 < d -> e <= e' -> emin prec emax <= e' ->
  2 * Z.abs (k * 2 ^ (e' - e) * d - n) <= 2 ^ (e' - e) * d -> (emin prec emax < e' -> 2 ^ (prec - 1) * 2 ^ (e' - e) * d <= n) ->
  Z.abs j < 2 ^ prec -> emin prec emax <= f ->
  (Qabs (dyadic k e' - scaled_value n d e) <= Qabs (dyadic j f - scaled_value n d e))%Q.
Proof.
  intros D C EM H L J F. apply (Qabs_scaled _ _ (inject_Z d) (d_pos d D)). rewrite !scaled_mul by exact D.
  assert (P : 0 < 2 ^ (e' - e)) by (apply pow_pos; lia). set (u := 2 ^ (e' - e)) in *.
  assert (N : forall i, Z.abs (k * d * u - n) <= Z.abs (i * d * u - n)).
  { intros i. destruct (Z.eq_dec i k) as [->|X]; [lia|].
    assert (U : 0 < u * d) by (apply Z.mul_pos_pos; assumption).
    assert (1 * (u * d) <= Z.abs (i - k) * (u * d)) by (apply Z.mul_le_mono_nonneg_r; lia).
    assert (Z.abs (i - k) * (u * d) = Z.abs (i * d * u - k * d * u)).
    { replace (i * d * u - k * d * u) with ((i - k) * (u * d)) by ring. rewrite Z.abs_mul, (Z.abs_eq (u * d)) by lia. reflexivity. }
    replace (k * u * d) with (k * d * u) in H by ring. lia. }
  destruct (Z.le_gt_cases e' f) as [G|G].
  - apply (near_scaled (k * d) (j * d) n e' f e e); [lia..|]. rewrite Z.sub_diag, Z.pow_0_r, Z.mul_1_r. fold u.
    replace (f - e) with (f - e' + (e' - e)) by lia. rewrite Z.pow_add_r by lia. fold u.
    replace (j * d * (2 ^ (f - e') * u)) with (j * 2 ^ (f - e') * d * u) by ring. apply N.
  - specialize (L ltac:(lia)). set (h := Z.min e f). apply (near_scaled (k * d) (j * d) n e' f e h); [lia..|].
    replace (e' - h) with (e' - e + (e - h)) by lia. rewrite Z.pow_add_r, Z.mul_assoc by lia. fold u.
    assert (Ph : 0 < 2 ^ (e - h)) by (apply pow_pos; lia).
    specialize (N (2 ^ (prec - 1))). rewrite <- Z.mul_sub_distr_r, Z.abs_mul, (Z.abs_eq (2 ^ (e - h))) by lia.
    apply Z.le_trans with (Z.abs (2 ^ (prec - 1) * d * u - n) * 2 ^ (e - h)); [apply Z.mul_le_mono_nonneg_r; lia|].
    replace (2 ^ (prec - 1) * u * d) with (2 ^ (prec - 1) * d * u) in L by ring.
    rewrite Z.abs_neq by lia.
    assert (M : j * d * 2 ^ (f - h) <= 2 ^ (prec - 1) * d * u * 2 ^ (e - h)).
    { replace (2 ^ (prec - 1) * d * u * 2 ^ (e - h)) with (2 ^ (prec - 1) * u * 2 ^ (e - h) * d) by ring.
      replace (j * d * 2 ^ (f - h)) with (j * 2 ^ (f - h) * d) by ring. apply Z.mul_le_mono_nonneg_r; [lia|]. unfold u.
      rewrite <- !Z.pow_add_r by lia. apply Z.le_trans with (2 ^ prec * 2 ^ (f - h)); [apply Z.mul_le_mono_nonneg_r; [apply Z.pow_nonneg|]; lia|].
      rewrite <- Z.pow_add_r by lia. apply Z.pow_le_mono_r; lia. }
    lia.
Qed.
Lemma overflows_wd a b : (a == b)%Q -> overflows prec emax a <-> overflows prec emax b.
Proof. intros E. unfold overflows. rewrite E. reflexivity. Qed.
(** n/d with its sign *)
Definition fraction (s : bool) (n d : Z) : Q := ((if s then -1 # 1 else 1) * (inject_Z n / inject_Z d))%Q.
Theorem nearest_nearest s n d : 0 < n -> 0 < d -> let v := fraction s n d in let x := nearest prec emax s n d in
  (overflows prec emax v /\ x = S754_infinity s) \/ (~ overflows prec emax v /\ a_nearest prec emax v x).
Proof.
  intros N D v x. unfold x, nearest. set (k := Z.max 0 (prec + 3 + Z.log2 d - Z.log2 n)).
  set (q := n * 2 ^ k / d). set (r := n * 2 ^ k mod d). set (w := 2 * q + (if r =? 0 then 0 else 1)). set (e := - k - 1).
  assert (K0 : 0 <= k) by lia. pose proof (pow_pos k K0) as Pk.
  pose proof (Z.div_mod (n * 2 ^ k) d ltac:(lia)) as DM. fold q r in DM. pose proof (Z.mod_pos_bound (n * 2 ^ k) d D) as RB. fold r in RB.
  set (M := 2 * (n * 2 ^ k)).
  assert (In : (r = 0 /\ w * d = M) \/ (0 < r /\ w = 2 * q + 1 /\ 2 * q * d < M < (2 * q + 2) * d)).
  { unfold w. destruct (Z.eqb_spec r 0) as [R|R]; [left|right]; unfold M; nia. }
  assert (Q0 : 2 ^ (prec + 2) <= q).
  { unfold q. apply Z.div_le_lower_bound; [exact D|]. pose proof (Z.log2_spec n N) as [L1 _]. pose proof (Z.log2_spec d D) as [_ L2].
    pose proof (Z.log2_nonneg n). pose proof (Z.log2_nonneg d).
    apply Z.le_trans with (2 ^ Z.succ (Z.log2 d) * 2 ^ (prec + 2)); [apply Z.mul_le_mono_nonneg_r; [apply Z.pow_nonneg|]; lia|].
    apply Z.le_trans with (2 ^ Z.log2 n * 2 ^ k); [|apply Z.mul_le_mono_nonneg_r; lia].
    rewrite <- !Z.pow_add_r by lia. apply Z.pow_le_mono_r; lia. }
  assert (W0 : 2 ^ (prec + 3) <= w).
  { assert (2 ^ (prec + 3) = 2 * 2 ^ (prec + 2)) by (rewrite <- Z.pow_succ_r by lia; f_equal; lia). unfold w. destruct (r =? 0); lia. }
  pose proof (pow_pos (prec + 3) ltac:(lia)) as Pp.
  assert (V : (v == (if s then -1 # 1 else 1) * scaled_value M d e)%Q).
  { unfold v, fraction. apply Qmult_comp; [reflexivity|]. unfold scaled_value. apply Qmult_comp; [|reflexivity].
    unfold M, e. replace (2 * (n * 2 ^ k)) with (n * 2 ^ (k + 1)) by (rewrite Z.pow_add_r by lia; ring).
    replace (- k - 1) with (0 - (k + 1)) by lia. rewrite <- dyadic_scale by lia. unfold dyadic. cbn [Qpower]. ring. }
  destruct w as [|p|p] eqn:Ew; [lia| |lia]. rewrite <- Ew in In, W0.
  assert (B : binary_normalize prec emax (cond_Zopp s (Zpos p)) e s = binary_round prec emax s p e) by (destruct s; reflexivity).
  rewrite B. destruct (round_shape prec emax Hp s p e) as (c & C & -> & A1 & A2). set (e' := low_exp prec emax p e) in *.
  assert (Sh : shape prec emax p e c e') by (split; [exact C|split; [reflexivity|split; assumption]]).
  assert (Big : 4 <= e' - e).
  { pose proof (digits_bound p) as [_ D2]. rewrite <- Ew in D2.
    assert (prec + 3 < Zpos (digits2_pos p)). { apply (Z.pow_lt_mono_r_iff 2); lia. }
    unfold e', low_exp, fexp. lia. }
  specialize (A2 ltac:(lia)). rewrite <- Ew in A2.
  assert (D4 : 2 ^ (e' - e) = 4 * 2 ^ (e' - e - 2)) by (change 4 with (2 ^ 2); rewrite <- Z.pow_add_r by lia; f_equal; lia).
  set (u := 2 ^ (e' - e - 2)) in *. assert (U : 0 < u) by (apply pow_pos; lia).
  assert (Near : 2 * Z.abs (c * 2 ^ (e' - e) * d - M) <= 2 ^ (e' - e) * d).
  { rewrite D4 in A2 |- *. destruct A2 as [A2 _]. destruct In as [(R & I)|(R & I1 & I2)].
    - rewrite <- I. replace (c * (4 * u) * d - w * d) with ((c * (4 * u) - w) * d) by ring. rewrite Z.abs_mul, (Z.abs_eq d) by lia. nia.
    - rewrite I1 in A2. assert (Y : c * (4 * u) - 2 * u <= 2 * q /\ 2 * q + 2 <= c * (4 * u) + 2 * u) by lia.
      destruct Y as [Y1 Y2]. assert ((c * (4 * u) - 2 * u) * d <= 2 * q * d) by (apply Z.mul_le_mono_nonneg_r; lia).
      assert ((2 * q + 2) * d <= (c * (4 * u) + 2 * u) * d) by (apply Z.mul_le_mono_nonneg_r; lia).
      replace (c * (4 * u) * d - M) with ((c * (4 * u) - 2 * u) * d + 2 * u * d - M) by ring. nia. }
  assert (Low : emin prec emax < e' -> 2 ^ (prec - 1) * 2 ^ (e' - e) * d <= M).
  { intros X. destruct (shape_low prec emax Hp p e c e' Sh X) as [_ L]. specialize (L ltac:(lia)). rewrite <- Ew in L.
    destruct In as [(R & I)|(R & I1 & I2)].
    - rewrite <- I. apply Z.mul_le_mono_nonneg_r; lia.
    - rewrite D4 in L |- *. assert (2 ^ (prec - 1) * (4 * u) <= 2 * q) by nia.
      assert (2 ^ (prec - 1) * (4 * u) * d <= 2 * q * d) by (apply Z.mul_le_mono_nonneg_r; lia). lia. }
  (* overflow *)
  assert (O : overflows prec emax v <-> overflows prec emax (dyadic (Zpos p) e)).
  { assert (O1 : overflows prec emax v <-> overflows prec emax (scaled_value M d e)).
    { unfold overflows. rewrite V. destruct s.
      - setoid_replace ((-1 # 1) * scaled_value M d e)%Q with (- scaled_value M d e)%Q by ring. rewrite Qabs_opp. reflexivity.
      - setoid_replace (1 * scaled_value M d e)%Q with (scaled_value M d e) by ring. reflexivity. }
    rewrite O1. unfold overflows. rewrite dyadic_abs. cbn [Z.abs]. rewrite <- Ew.
    assert (M0 : 0 <= M) by (unfold M; pose proof (Z.mul_pos_pos n (2 ^ k) N Pk); lia).
    assert (Ab : (Qabs (scaled_value M d e) == scaled_value M d e)%Q).
    { apply Qabs_pos. unfold scaled_value, Qdiv. apply Qmult_le_0_compat; [|apply Qinv_le_0_compat, Qlt_le_weak, d_pos, D].
      unfold dyadic. apply Qmult_le_0_compat; [change (inject_Z 0 <= inject_Z M)%Q; rewrite <- Zle_Qle; exact M0|apply Qlt_le_weak, pow2_pos]. }
    rewrite Ab. set (T := 2 ^ (prec + 1) - 1). set (E := emax - prec - 1).
    assert (Sc : (dyadic T E <= scaled_value M d e)%Q <-> (dyadic (T * d) E <= dyadic M e)%Q).
    { unfold scaled_value. assert (Nd : ~ (inject_Z d == 0)%Q) by (unfold Qeq; cbn; lia). split; intros H.
      - apply (Qmult_le_r _ _ (inject_Z d) (d_pos d D)) in H.
        setoid_replace (dyadic M e / inject_Z d * inject_Z d)%Q with (dyadic M e) in H by (field; exact Nd).
        setoid_replace (dyadic (T * d) E) with (dyadic T E * inject_Z d)%Q; [exact H|]. unfold dyadic. rewrite inject_Z_mult. ring.
      - apply (Qmult_le_r _ _ (inject_Z d) (d_pos d D)).
        setoid_replace (dyadic M e / inject_Z d * inject_Z d)%Q with (dyadic M e) by (field; exact Nd).
        setoid_replace (dyadic T E * inject_Z d)%Q with (dyadic (T * d) E); [exact H|]. unfold dyadic. rewrite inject_Z_mult. ring. }
    rewrite Sc. set (h := Z.min E e). rewrite (dyadic_le2 (T * d) M E e h), (dyadic_le2 T w E e h) by lia.
    assert (TH : T < 2 ^ (prec + 1)) by (unfold T; lia). assert (T0 : 0 < T) by (unfold T; pose proof (Z.pow_le_mono_r 2 1 (prec + 1) ltac:(lia) ltac:(lia)); lia).
    destruct (Z.le_gt_cases E e) as [G|G].
    - assert (Hh : h = E) by lia. rewrite Hh, Z.sub_diag, Z.pow_0_r, !Z.mul_1_r. pose proof (pow_pos (e - E) ltac:(lia)) as Pe.
      assert (T <= q). { assert (2 ^ (prec + 1) <= 2 ^ (prec + 2)) by (apply Z.pow_le_mono_r; lia). lia. }
      assert (QM : q * d <= M) by (destruct In as [(R & I)|(R & I1 & I2)]; [unfold w in *; nia|nia]).
      split; intros _.
      + apply Z.le_trans with (w * 1); [|apply Z.mul_le_mono_nonneg_l; lia]. assert (q <= w) by (unfold w; destruct (r =? 0); lia). lia.
      + apply Z.le_trans with (M * 1); [|apply Z.mul_le_mono_nonneg_l; lia]. assert (T * d <= q * d) by (apply Z.mul_le_mono_nonneg_r; lia). lia.
    - assert (Hh : h = e) by lia. rewrite Hh, Z.sub_diag, Z.pow_0_r, !Z.mul_1_r.
      assert (D2 : 2 ^ (E - e) = 2 * 2 ^ (E - e - 1)) by (rewrite <- Z.pow_succ_r by lia; f_equal; lia). rewrite D2.
      pose proof (pow_pos (E - e - 1) ltac:(lia)) as Pu. set (u2 := 2 ^ (E - e - 1)) in *.
      replace (T * d * (2 * u2)) with (2 * (T * u2) * d) by ring. replace (T * (2 * u2)) with (2 * (T * u2)) by ring. set (g := T * u2).
      destruct In as [(R & I)|(R & I1 & I2)].
      + rewrite <- I. split; intros H; [apply (Z.mul_le_mono_pos_r _ _ d D); lia|apply Z.mul_le_mono_nonneg_r; lia].
      + split; intros H.
        * assert (2 * g * d < (2 * q + 2) * d) by lia. assert (2 * g < 2 * q + 2) by (apply (Z.mul_lt_mono_pos_r d); assumption). lia.
        * assert (2 * g <= 2 * q) by lia. assert (2 * g * d <= 2 * q * d) by (apply Z.mul_le_mono_nonneg_r; lia). lia. }
  destruct (shape_infinite prec emax Hp He s p e c e' Sh) as [I F].
  assert (Dec : as_float prec emax s c e' = S754_infinity s \/ as_float prec emax s c e' <> S754_infinity s).
  { destruct (as_float prec emax s c e') as [b|b| |b p' z]; try (right; discriminate). destruct (Bool.bool_dec b s) as [->|X]; [left; reflexivity|right; congruence]. }
  destruct Dec as [Dc|Dc].
  - left. split; [apply O, I, Dc|exact Dc].
  - right. split; [intros X; apply Dc, I, O, X|]. split; [exact (as_float_valid prec emax Hp s p e c e' Sh)|].
    destruct (F Dc) as (y & Y). exists y. split; [exact Y|]. pose proof (as_float_value prec emax Hp s c e' y (proj1 C) Y) as Vy.
    intros z t Zv Zt. rewrite Vy, V.
    assert (Sg : forall a ea, (Qabs (dyadic (cond_Zopp s a) ea - (if s then -1 # 1 else 1) * scaled_value M d e) == Qabs (dyadic a ea - scaled_value M d e))%Q).
    { intros a ea. destruct s; cbn [cond_Zopp].
      - rewrite dyadic_opp, <- (Qabs_opp (dyadic a ea - scaled_value M d e)). apply Qabs_wd. ring.
      - apply Qabs_wd. ring. }
    rewrite Sg. pose proof (shape_emin prec emax p e c e' Sh) as EM.
    assert (G : forall j f, Z.abs j < 2 ^ prec -> emin prec emax <= f ->
      (Qabs (dyadic c e' - scaled_value M d e) <= Qabs (dyadic j f - scaled_value M d e))%Q).
    { intros j f Hj Hf. apply grid_nearest; try assumption; lia. }
    destruct z as [b|b| |b p' f]; try discriminate; cbn [float_value] in Zt; injection Zt as <-.
    + assert (Z0 : (0 == dyadic (cond_Zopp s 0) e')%Q) by (unfold dyadic; destruct s; cbn [cond_Zopp Z.opp]; ring).
      rewrite Z0, Sg. apply G; [apply pow_pos; lia|exact EM].
    + destruct (finite_valid prec emax b p' f Zv) as (P1 & P2 & _).
      assert (Z1 : (dyadic (cond_Zopp b (Zpos p')) f == dyadic (cond_Zopp s (cond_Zopp s (cond_Zopp b (Zpos p')))) f)%Q).
      { destruct s, b; cbn [cond_Zopp Z.opp]; reflexivity. }
      rewrite Z1, Sg. apply G; [|lia]. destruct s, b; cbn [cond_Zopp Z.opp Z.abs]; exact P1.
Qed.
End Text.
