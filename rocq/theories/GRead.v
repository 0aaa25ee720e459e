(** Reading the text of %.<p>g back: relative error, and the same text again. *)
From Coq Require Import ZArith QArith Qabs Qpower Qround Qfield Lia Floats.SpecFloat.
From Verif Require Import Base DType Mem Number ArrayOps Codec Json JsonSpec JsonSchema FloatText CsvNum RoundFacts RoundText NumConv NumConvFacts NumConvText GText.
From Coq Require Import Lqa.
Local Open Scope Z_scope.

Definition t2 (e : Z) : Q := Qpower (2 # 1) e.
Lemma t2_pos e : (0 < t2 e)%Q.
Proof. apply Qpower_0_lt. reflexivity. Qed.
Lemma t2_add a b : (t2 (a + b) == t2 a * t2 b)%Q.
Proof. apply Qpower_plus. discriminate. Qed.
Lemma t2_Z e : 0 <= e -> (t2 e == inject_Z (2 ^ e))%Q.
Proof. intros E. unfold t2. change (2 # 1) with (inject_Z 2). rewrite <- Zpower_Qpower by exact E. reflexivity. Qed.
Lemma t2_mono a b : a <= b -> (t2 a <= t2 b)%Q.
Proof.
  intros H. replace b with ((b - a) + a) by lia. rewrite t2_add, (t2_Z (b - a)) by lia.
  assert (1 <= 2 ^ (b - a)) by (pose proof (Z.pow_pos_nonneg 2 (b - a)); lia). rewrite Zle_Qle in H0. pose proof (t2_pos a). change (inject_Z 1) with 1%Q in H0. nra.
Qed.
Lemma t2_lt a b : (t2 a < t2 b)%Q -> a < b.
Proof. intros H. destruct (Z.lt_ge_cases a b); [assumption|]. pose proof (t2_mono b a H0). lra. Qed.
Lemma t2_inv e : (t2 e * t2 (- e) == 1)%Q.
Proof. rewrite <- t2_add. replace (e + - e) with 0 by lia. reflexivity. Qed.
Lemma dyadic_t2 m e : dyadic m e = (inject_Z m * t2 e)%Q.
Proof. reflexivity. Qed.

Section Ulp.
Variables prec emax : Z.
Hypothesis Hp : 1 < prec.
Hypothesis He : prec < emax.
Notation emn := (emin prec emax).

Lemma valid_opp x : valid_binary prec emax (SFopp x) = valid_binary prec emax x.
Proof. destruct x; reflexivity. Qed.
Lemma value_opp x q : float_value x = Some q -> exists q', float_value (SFopp x) = Some q' /\ (q' == - q)%Q.
Proof.
  destruct x as [s| | |s m e]; cbn [float_value SFopp]; intros H; inversion H; subst; eexists; (split; [reflexivity|]).
  - reflexivity.
  - rewrite <- dyadic_opp. destruct s; reflexivity.
Qed.
Lemma nearest_opp v x : a_nearest prec emax v x -> a_nearest prec emax (- v) (SFopp x).
Proof.
  intros (V & q & Fq & N). split; [rewrite valid_opp; exact V|]. destruct (value_opp x q Fq) as (q' & Fq' & E). exists q'. split; [exact Fq'|].
  intros y r Vy Fy. destruct (value_opp y r Fy) as (r' & Fr & E'). specialize (N (SFopp y) r' ltac:(rewrite valid_opp; exact Vy) Fr).
  rewrite E. rewrite E' in N. rewrite <- (Qabs_opp (- q - - v)), <- (Qabs_opp (r - - v)).
  assert (X1 : (- (- q - - v) == q - v)%Q) by ring. assert (X2 : (- (r - - v) == - r - v)%Q) by ring. rewrite X1, X2. exact N.
Qed.
Lemma overflows_opp v : overflows prec emax (- v) <-> overflows prec emax v.
Proof. unfold overflows. rewrite Qabs_opp. reflexivity. Qed.
(** half a step to either side *)
Lemma half_ulp_pos v m e : a_nearest prec emax v (S754_finite false m e) -> ~ overflows prec emax v -> (Qabs (dyadic (Zpos m) e - v) <= t2 (e - 1))%Q.
Proof.
  intros (V & q & Fq & N) O. cbn [float_value cond_Zopp] in Fq. inversion Fq; subst q. clear Fq. destruct (finite_valid prec emax false m e V) as (B & E & C).
  pose proof (t2_pos (e - 1)) as TP. assert (T2 : (t2 e == 2 * t2 (e - 1))%Q) by (replace e with (1 + (e - 1)) at 1 by lia; rewrite t2_add; reflexivity).
  rewrite dyadic_t2 in *. set (y := (inject_Z (Zpos m) * t2 e)%Q) in *.
  apply Qabs_Qle_condition. split.
  - assert (X : (v <= y + t2 (e - 1))%Q); [|lra]. apply Qnot_lt_le. intros G.
    assert (Y : (exists x', valid_binary prec emax x' = true /\ exists r, float_value x' = Some r /\ r == y + t2 e)%Q \/ (Zpos m + 1 = 2 ^ prec /\ e = emax - prec)).
    { destruct (Z.eq_dec (Zpos m + 1) (2 ^ prec)) as [M|M].
      - destruct (Z.eq_dec e (emax - prec)) as [E'|E']; [right; auto|left].
        assert (P0 : 0 < 2 ^ (prec - 1)) by (apply Z.pow_pos_nonneg; lia). assert (P1 : 2 ^ prec = 2 * 2 ^ (prec - 1)) by (replace prec with (1 + (prec - 1)) at 1 by lia; rewrite Z.pow_add_r by lia; reflexivity).
        exists (S754_finite false (Z.to_pos (2 ^ (prec - 1))) (e + 1)). split; [apply valid_finite; try rewrite Z2Pos.id by lia; lia|]. eexists. split; [reflexivity|]. cbn [cond_Zopp]. rewrite Z2Pos.id by lia.
        rewrite dyadic_t2, t2_add. change (t2 1) with 2%Q. assert (Z2 : (inject_Z (Zpos m) + 1 == 2 * inject_Z (2 ^ (prec - 1)))%Q) by (change 1%Q with (inject_Z 1); rewrite <- inject_Z_plus, M, P1, inject_Z_mult; reflexivity).
        unfold y. assert (inject_Z (Zpos m) == 2 * inject_Z (2 ^ (prec - 1)) - 1)%Q by lra. rewrite H. ring.
      - left. exists (S754_finite false (m + 1) e). split; [apply valid_finite; lia|]. eexists. split; [reflexivity|]. cbn [cond_Zopp]. rewrite dyadic_t2, Pos2Z.inj_add, inject_Z_plus. unfold y. ring. }
    destruct Y as [(x' & Vx & r & Fr & Er)|[M E']].
    + specialize (N x' r Vx Fr). rewrite Er in N. rewrite (Qabs_neg (y - v)) in N by lra. revert N. apply Qlt_not_le. apply Qabs_case; intros; lra.
    + apply O. unfold overflows. rewrite dyadic_t2. replace (emax - prec - 1) with (e - 1) by lia. apply Qle_trans with v; [|apply Qle_Qabs]. apply Qlt_le_weak. eapply Qle_lt_trans; [|exact G].
      unfold y. rewrite T2. rewrite Z.pow_add_r by lia. change (2 ^ 1) with 2. rewrite <- M. unfold Z.sub. rewrite inject_Z_plus, inject_Z_mult, inject_Z_plus. change (inject_Z 2) with 2%Q. change (inject_Z 1) with 1%Q. change (inject_Z (-(1))) with (-1)%Q. lra.
  - assert (X : (y - t2 (e - 1) <= v)%Q); [|lra]. apply Qnot_lt_le. intros G.
    assert (Y : (exists x', valid_binary prec emax x' = true /\ exists r, float_value x' = Some r /\ r == y - t2 e)%Q).
    { destruct (Z.eq_dec (Zpos m) 1) as [M|M].
      - assert (E' : e = emn). { destruct C as [C|C]; [exact C|]. exfalso. assert (2 ^ 1 <= 2 ^ (prec - 1)) by (apply Z.pow_le_mono_r; lia). change (2 ^ 1) with 2 in H. lia. }
        exists (S754_zero false). split; [reflexivity|]. exists 0%Q. split; [reflexivity|]. unfold y. rewrite M. ring.
      - destruct (Z.eq_dec e emn) as [E'|E'].
        + exists (S754_finite false (m - 1) e). split; [apply valid_finite; lia|]. eexists. split; [reflexivity|]. cbn [cond_Zopp]. rewrite dyadic_t2, Pos2Z.inj_sub by lia. unfold Z.sub, y. rewrite inject_Z_plus. change (inject_Z (- Zpos 1)) with (-1)%Q. ring.
        + destruct C as [C|C]; [congruence|]. destruct (Z.eq_dec (Zpos m) (2 ^ (prec - 1))) as [M2|M2].
          * assert (P1 : 2 ^ prec = 2 * 2 ^ (prec - 1)) by (replace prec with (1 + (prec - 1)) at 1 by lia; rewrite Z.pow_add_r by lia; reflexivity).
            assert (P2 : 2 ^ 1 <= 2 ^ (prec - 1)) by (apply Z.pow_le_mono_r; lia). change (2 ^ 1) with 2 in P2.
            exists (S754_finite false (2 * m - 2) (e - 1)). split; [apply valid_finite; lia|]. eexists. split; [reflexivity|]. cbn [cond_Zopp]. rewrite dyadic_t2. unfold y. replace (Zpos (2 * m - 2)) with (2 * Zpos m + -2) by lia. rewrite inject_Z_plus, inject_Z_mult. change (inject_Z (-2)) with (-2)%Q. change (inject_Z 2) with 2%Q. rewrite T2. ring.
          * exists (S754_finite false (m - 1) e). split; [apply valid_finite; lia|]. eexists. split; [reflexivity|]. cbn [cond_Zopp]. rewrite dyadic_t2, Pos2Z.inj_sub by lia. unfold Z.sub, y. rewrite inject_Z_plus. change (inject_Z (- Zpos 1)) with (-1)%Q. ring. }
    destruct Y as (x' & Vx & r & Fr & Er). specialize (N x' r Vx Fr). rewrite Er in N. rewrite (Qabs_pos (y - v)) in N by lra. revert N. apply Qlt_not_le. apply Qabs_case; intros; lra.
Qed.
Lemma half_ulp v s m e : a_nearest prec emax v (S754_finite s m e) -> ~ overflows prec emax v -> (Qabs (dyadic (cond_Zopp s (Zpos m)) e - v) <= t2 (e - 1))%Q.
Proof.
  destruct s; intros N O; [|exact (half_ulp_pos v m e N O)].
  apply nearest_opp in N. cbn [SFopp negb] in N. pose proof (half_ulp_pos (- v) m e N ltac:(rewrite overflows_opp; exact O)) as H. cbn [cond_Zopp].
  rewrite dyadic_opp. rewrite <- Qabs_opp. assert (X : (- (- dyadic (Z.pos m) e - v) == dyadic (Z.pos m) e - - v)%Q) by ring. rewrite X. exact H.
Qed.
(** relative to the float *)
Lemma half_ulp_rel v s m e : a_nearest prec emax v (S754_finite s m e) -> ~ overflows prec emax v -> 2 ^ (prec - 1) <= Zpos m ->
  (Qabs (dyadic (cond_Zopp s (Zpos m)) e - v) * inject_Z (2 ^ prec) <= dyadic (Zpos m) e)%Q.
Proof.
  intros N O M. pose proof (half_ulp v s m e N O) as H. pose proof (t2_pos (e - 1)). pose proof (t2_pos prec) as TP. rewrite <- t2_Z by lia.
  apply Qle_trans with (t2 (e - 1) * t2 prec)%Q; [apply Qmult_le_compat_r; [exact H|apply Qlt_le_weak, TP]|].
  rewrite <- t2_add, dyadic_t2. replace (e - 1 + prec) with ((prec - 1) + e) by lia. rewrite t2_add, (t2_Z (prec - 1)) by lia. apply Qmult_le_compat_r; [rewrite <- Zle_Qle; exact M|apply Qlt_le_weak, t2_pos].
Qed.
(** numbers in the normal range become normal floats *)
Definition normal (v : Q) : Prop := (t2 (emn + prec - 1) <= Qabs v)%Q.
Lemma nearest_normal v x : a_nearest prec emax v x -> normal v -> exists s m e, x = S754_finite s m e /\ 2 ^ (prec - 1) <= Zpos m.
Proof.
  intros (V & q & Fq & N) B. unfold normal in B. assert (P0 : 0 < 2 ^ (prec - 1)) by (apply Z.pow_pos_nonneg; lia).
  assert (P1 : 2 ^ prec = 2 * 2 ^ (prec - 1)) by (replace prec with (1 + (prec - 1)) at 1 by lia; rewrite Z.pow_add_r by lia; reflexivity).
  assert (BV : (dyadic (2 ^ (prec - 1)) emn == t2 (emn + prec - 1))%Q) by (rewrite dyadic_t2, <- t2_Z, <- t2_add by lia; replace (prec - 1 + emn) with (emn + prec - 1) by lia; reflexivity).
  set (b := t2 (emn + prec - 1)) in *. assert (B0 : (0 < b)%Q) by apply t2_pos.
  assert (QB : (b <= Qabs q)%Q).
  { assert (Vb : forall s, valid_binary prec emax (S754_finite s (Z.to_pos (2 ^ (prec - 1))) emn) = true) by (intros s; apply valid_finite; try rewrite Z2Pos.id by lia; try lia; unfold emin; lia).
    destruct (Qlt_le_dec v 0) as [S'|S'].
    - rewrite Qabs_neg in B by lra. pose proof (N _ _ (Vb true) eq_refl) as N1. cbn [cond_Zopp] in N1. rewrite Z2Pos.id, dyadic_opp, BV in N1 by lia.
      rewrite (Qabs_pos (- b - v)) in N1 by lra. apply Qabs_Qle_condition in N1. apply Qle_trans with (- q)%Q; [lra|]. rewrite <- Qabs_opp. apply Qle_Qabs.
    - rewrite Qabs_pos in B by lra. pose proof (N _ _ (Vb false) eq_refl) as N1. cbn [cond_Zopp] in N1. rewrite Z2Pos.id, BV in N1 by lia.
      rewrite (Qabs_neg (b - v)) in N1 by lra. apply Qabs_Qle_condition in N1. apply Qle_trans with q; [lra|]. apply Qle_Qabs. }
  destruct x as [s|s| |s m e]; cbn [float_value] in Fq; try discriminate.
  - inversion Fq; subst q. change (Qabs 0) with 0%Q in QB. lra.
  - inversion Fq; subst q. exists s, m, e. split; [reflexivity|]. destruct (finite_valid prec emax s m e V) as (_ & E & [->|C]); [|exact C].
    rewrite <- BV in QB. rewrite dyadic_abs in QB. replace (Z.abs (cond_Zopp s (Z.pos m))) with (Zpos m) in QB by (destruct s; reflexivity). apply dyadic_le in QB. exact QB.
Qed.
End Ulp.

(** * the text of a float *)
Lemma mag_frac m e : exists n d, 0 < n /\ 0 < d /\ (frac n d == dyadic (Zpos m) e)%Q /\
  forall p s, gfmt p (S754_finite s m e) = (if s then L "-" else []) ++ (let '(r, k) := digits_g p n d in show_g p r k).
Proof.
  destruct (Z.leb_spec 0 e) as [E|E].
  - assert (0 < 2 ^ e) by (apply Z.pow_pos_nonneg; lia). exists (Zpos m * 2 ^ e), 1. split; [lia|]. split; [lia|]. split.
    + rewrite dyadic_t2, t2_Z, <- inject_Z_mult by exact E. unfold frac. change (inject_Z 1) with 1%Q. field.
    + intros p s. unfold gfmt. replace (0 <=? e) with true by (symmetry; apply Z.leb_le; exact E). destruct (digits_g p (Z.pos m * 2 ^ e) 1) as [r k]. destruct s; reflexivity.
  - assert (P : 0 < 2 ^ (- e)) by (apply Z.pow_pos_nonneg; lia). exists (Zpos m), (2 ^ (- e)). split; [lia|]. split; [lia|]. split.
    + pose proof (t2_inv e) as I. rewrite (t2_Z (- e)) in I by lia. apply iz_pos in P. rewrite dyadic_t2.
      assert (IK : (t2 e == / inject_Z (2 ^ (- e)))%Q) by (apply (Qmult_inj_r _ _ (inject_Z (2 ^ (- e)))); [lra|]; rewrite I, Qmult_comm, Qmult_inv_r; [reflexivity|lra]).
      rewrite IK. reflexivity.
    + intros p s. unfold gfmt. replace (0 <=? e) with false by (symmetry; apply Z.leb_gt; exact E). destruct (digits_g p (Z.pos m) (2 ^ (- e))) as [r k]. destruct s; reflexivity.
Qed.
Lemma digits_significant p n d : 1 <= p -> 0 < n -> 0 < d -> exists r k, digits_g p n d = (r, k) /\ 10 ^ (p - 1) <= r < 10 ^ p /\
  significant p (frac n d) (inject_Z r * t10 (k - p + 1)).
Proof.
  intros P N D. destruct (digits_law p n d P N D) as (x & r0 & (A & B & H) & R & E). rewrite E. clear E.
  assert (P10 : 10 ^ p = 10 * 10 ^ (p - 1)) by (replace p with (1 + (p - 1)) at 1 by lia; rewrite Z.pow_add_r by lia; reflexivity).
  pose proof (p10_pos (p - 1) ltac:(lia)) as P0. destruct (Z.eqb_spec r0 (10 ^ p)) as [E|E].
  - exists (10 ^ (p - 1)), (x + 1). split; [reflexivity|]. split; [lia|]. exists r0, x.
    assert (X : (inject_Z (10 ^ (p - 1)) * t10 (x + 1 - p + 1) == inject_Z r0 * t10 (x - p + 1))%Q).
    { rewrite E, P10, inject_Z_mult. replace (x + 1 - p + 1) with (1 + (x - p + 1)) by lia. rewrite t10_add. change (t10 1) with (inject_Z 10). ring. }
    rewrite X. split; [exact A|]. split; [exact B|]. split; [reflexivity|exact H].
  - exists r0, x. split; [reflexivity|]. split; [lia|]. exists r0, x. split; [exact A|]. split; [exact B|]. split; [reflexivity|exact H].
Qed.
Definition whole (txt sg ip b fp x : str) (s : bool) (e : Z) : Prop :=
  txt = sg ++ ip ++ b ++ x /\ sign_text sg s /\ point_text b fp /\ ip ++ fp <> [] /\ Forall digit ip /\ Forall digit fp /\ exponent_text x e.
Lemma gfmt_text p s m e n d : 1 <= p -> 0 < n -> 0 < d ->
  (forall p s, gfmt p (S754_finite s m e) = (if s then L "-" else []) ++ (let '(r, k) := digits_g p n d in show_g p r k)) ->
  exists r k sg ip b fp x ex, digits_g p n d = (r, k) /\ 10 ^ (p - 1) <= r < 10 ^ p /\ significant p (frac n d) (inject_Z r * t10 (k - p + 1)) /\
    whole (gfmt p (S754_finite s m e)) sg ip b fp x s ex /\
    (inject_Z (dec_of (ip ++ fp)) * t10 (ex - Z.of_nat (length fp)) == inject_Z r * t10 (k - p + 1))%Q.
Proof.
  intros P N D G. destruct (digits_significant p n d P N D) as (r & k & E & R & S'). destruct (show_g_text p r k P R) as (ip & b & fp & x & ex & T & PT & NE & D1 & D2 & X & V).
  exists r, k, (if s then L "-" else []), ip, b, fp, x, ex. split; [exact E|]. split; [exact R|]. split; [exact S'|]. split; [|exact V].
  split; [rewrite G, E, T; reflexivity|]. split; [destruct s; [right|left]; auto|]. auto.
Qed.
(** the text is a decimal number that is the float to [p] significant digits *)
Theorem gfmt_decimal p s m e : 1 <= p ->
  exists q, decimal_text (gfmt p (S754_finite s m e)) s q /\ significant p (dyadic (Zpos m) e) (Qabs q).
Proof.
  intros P. destruct (mag_frac m e) as (n & d & N & D & F & G).
  destruct (gfmt_text p s m e n d P N D G) as (r & k & sg & ip & b & fp & x & ex & _ & R & (r' & k' & S1 & S2 & S3 & S4) & (T & SG & PT & NE & D1 & D2 & X) & V).
  eexists. split.
  - exists [], sg, ip, b, fp, x, []. exists (dec_of (ip ++ fp)), ex. rewrite app_nil_r. split; [exact T|]. split; [constructor|]. split; [exact SG|]. split; [exact PT|]. split; [exact NE|].
    split; [apply digits_numeral, Forall_app; auto|]. split; [eexists; apply digits_numeral; exact D2|]. split; [eexists; apply digits_numeral; exact D1|]. split; [exact X|]. split; [exact I|reflexivity].
  - fold (t10 (ex - Z.of_nat (length fp))).
    assert (A : (Qabs (inject_Z (signed s (dec_of (ip ++ fp))) * t10 (ex - Z.of_nat (length fp))) == inject_Z r * t10 (k - p + 1))%Q).
    { rewrite Qabs_Qmult, (Qabs_pos (t10 _)) by apply Qlt_le_weak, t10_pos. rewrite <- V. apply Qmult_comp; [|reflexivity].
      change (Qabs (inject_Z (signed s (dec_of (ip ++ fp))))) with (inject_Z (Z.abs (signed s (dec_of (ip ++ fp))))). destruct (dec_range (ip ++ fp)) as [DR _]; [apply Forall_app; auto|]. replace (Z.abs (signed s (dec_of (ip ++ fp)))) with (dec_of (ip ++ fp)) by (unfold signed; destruct s; lia). reflexivity. }
    exists r', k'. rewrite F in S1, S2, S4. split; [exact S1|]. split; [exact S2|]. split; [rewrite A; exact S3|]. rewrite A. exact S4.
Qed.

(** * reading it *)
Lemma whole_strto prec emax txt sg ip b fp x s ex : whole txt sg ip b fp x s ex ->
  c_strto prec emax txt = (let '(v, err) := scaled prec emax s 10 (dec_of (ip ++ fp)) (ex - Z.of_nat (length fp)) in (v, err, Some [])).
Proof.
  intros (-> & SG & PT & NE & D1 & D2 & X). apply strto_decimal; try assumption; (eapply Forall_impl; [|eassumption]; intros c; apply digit_num).
Qed.
Lemma signed_abs s n e : 0 <= n -> (Qabs (inject_Z (signed s n) * t10 e) == inject_Z n * t10 e)%Q.
Proof.
  intros N. rewrite Qabs_Qmult, (Qabs_pos (t10 _)) by apply Qlt_le_weak, t10_pos. apply Qmult_comp; [|reflexivity].
  change (Qabs (inject_Z (signed s n))) with (inject_Z (Z.abs (signed s n))). replace (Z.abs (signed s n)) with n by (unfold signed; destruct s; lia). reflexivity.
Qed.
(** in the normal range there is no range error *)
Lemma scaled_normal t s n e : is_float t = true -> 0 < n -> let q := (inject_Z (signed s n) * t10 e)%Q in
  normal (prec_of t) (emax_of t) q -> ~ overflows (prec_of t) (emax_of t) q ->
  exists m e', scaled (prec_of t) (emax_of t) s 10 n e = (S754_finite s m e', false) /\ rounded t q s (S754_finite s m e') /\ 2 ^ (prec_of t - 1) <= Zpos m.
Proof.
  intros T N q B O. destruct (float_format t T) as (F1 & F2 & _). pose proof (scaled_rounded t s n e T ltac:(lia)) as R. fold (t10 e) in R. fold q in R.
  destruct R as [R1 [[R2 _]|[_ R2]]]; [elim (O R2)|]. destruct (nearest_normal (prec_of t) (emax_of t) F1 F2 q _ R2 B) as (s' & m & e' & E & M).
  rewrite E in R1, R2. cbn [fsign] in R1. subst s'. exists m, e'. split; [|split; [split; [reflexivity|right; auto]|exact M]].
  unfold scaled in *. destruct (Z.eqb_spec n 0); [lia|]. destruct (if 0 <=? e then _ else _) as [a d]. cbn [fst] in E. rewrite E. f_equal. cbn [range_error].
  destruct (Z.ltb_spec (Zpos m) (2 ^ (prec_of t - 1))); [lia|reflexivity].
Qed.
(** without a range error the result is a normal float, or exact *)
Lemma scaled_no_error t s n e y : is_float t = true -> 0 < n -> let q := (inject_Z (signed s n) * t10 e)%Q in
  scaled (prec_of t) (emax_of t) s 10 n e = (y, false) ->
  ~ overflows (prec_of t) (emax_of t) q /\ exists m e', y = S754_finite s m e' /\ a_nearest (prec_of t) (emax_of t) q y /\ (2 ^ (prec_of t - 1) <= Zpos m \/ (dyadic (Zpos m) e' == inject_Z n * t10 e)%Q).
Proof.
  intros T N q E. destruct (float_format t T) as (F1 & F2 & _). pose proof (scaled_rounded t s n e T ltac:(lia)) as R. fold (t10 e) in R. fold q in R. rewrite E in R. cbn [fst] in R.
  unfold scaled in E. destruct (Z.eqb_spec n 0); [lia|].
  assert (X : exists a d, (if 0 <=? e then (n * 10 ^ e, 1) else (n, 10 ^ (- e))) = (a, d) /\ 0 < d /\ (frac a d == inject_Z n * t10 e)%Q).
  { destruct (Z.leb_spec 0 e) as [L0|L0].
    - exists (n * 10 ^ e), 1. split; [reflexivity|]. split; [lia|]. rewrite t10_Z, <- inject_Z_mult by exact L0. unfold frac. change (inject_Z 1) with 1%Q. field.
    - exists n, (10 ^ (- e)). pose proof (p10_pos (- e) ltac:(lia)) as P. split; [reflexivity|]. split; [exact P|]. pose proof (t10_inv e) as I. rewrite (t10_Z (- e)) in I by lia. apply iz_pos in P.
      assert (IK : (t10 e == / inject_Z (10 ^ (- e)))%Q) by (apply (Qmult_inj_r _ _ (inject_Z (10 ^ (- e)))); [lra|]; rewrite I, Qmult_comm, Qmult_inv_r; [reflexivity|lra]).
      rewrite IK. reflexivity. }
  destruct X as (a & d & EA & PD & FA). rewrite EA in E. injection E as E1 E2.
  destruct R as [R1 [[_ R2]|[O R2]]]; [rewrite E1, R2 in E2; discriminate E2|]. split; [exact O|].
  rewrite E1 in E2. destruct y as [sy|sy| |sy m e']; cbn [range_error] in E2; try discriminate E2; [destruct R2 as (_ & r & Fr & _); discriminate Fr|]. cbn [fsign] in R1. subst sy. exists m, e'. split; [reflexivity|]. split; [exact R2|].
  destruct (Z.ltb_spec (Zpos m) (2 ^ (prec_of t - 1))) as [M|M]; [right|left; exact M]. cbn [andb] in E2. apply Bool.negb_false_iff, Z.eqb_eq in E2.
  destruct R2 as [V _]. destruct (finite_valid (prec_of t) (emax_of t) s m e' V) as (_ & EM & [C|C]); [|lia].
  assert (E0 : e' <= 0) by (unfold emin in C; lia). rewrite <- FA, dyadic_t2. pose proof (t2_inv e') as I. rewrite (t2_Z (- e')) in I by lia.
  pose proof (frac_mul a d PD) as FM. pose proof (iz_pos d PD) as PD'.
  assert (EQ : (inject_Z (Zpos m) * inject_Z d == inject_Z a * inject_Z (2 ^ (- e')))%Q) by (rewrite <- !inject_Z_mult, E2; reflexivity).
  apply (Qmult_inj_r _ _ (inject_Z d)); [lra|]. rewrite FM. transitivity (inject_Z (Zpos m) * inject_Z d * t2 e')%Q; [ring|]. rewrite EQ.
  transitivity (inject_Z a * (t2 e' * inject_Z (2 ^ (- e'))))%Q; [ring|]. rewrite I. ring.
Qed.
(** the float read prints the same text *)
Theorem gfmt_again t p s m e y r : is_float t = true -> 1 <= p -> 10 ^ p < 2 ^ (prec_of t - 1) ->
  c_strto (prec_of t) (emax_of t) (gfmt p (S754_finite s m e)) = (y, false, Some r) -> gfmt p y = gfmt p (S754_finite s m e).
Proof.
  intros T P W E. destruct (float_format t T) as (F1 & F2 & _). destruct (mag_frac m e) as (n & d & N & D & F & G).
  destruct (gfmt_text p s m e n d P N D G) as (r0 & k & sg & ip & b & fp & x & ex & DG & R & _ & WH & V).
  rewrite (whole_strto _ _ _ sg ip b fp x s ex WH) in E. destruct (scaled (prec_of t) (emax_of t) s 10 (dec_of (ip ++ fp)) (ex - Z.of_nat (length fp))) as [v err] eqn:SC. inversion E; subst v err r. clear E.
  destruct WH as (_ & _ & _ & _ & D1 & D2 & _). destruct (dec_range (ip ++ fp)) as [DR _]; [apply Forall_app; auto|]. pose proof (p10_pos (p - 1) ltac:(lia)) as P0.
  pose proof (t10_pos (k - p + 1)) as PU. set (u := t10 (k - p + 1)) in *. set (n10 := dec_of (ip ++ fp)) in *. set (e10 := ex - Z.of_nat (length fp)) in *.
  assert (NP : 0 < n10).
  { destruct (Z.eq_dec n10 0) as [Z0|Z0]; [|lia]. exfalso. rewrite Z0 in V. assert (R' : 1 <= r0) by lia. rewrite Zle_Qle in R'. change (inject_Z 1) with 1%Q in R'. change (inject_Z 0) with 0%Q in V. nra. }
  destruct (scaled_no_error t s n10 e10 y T NP SC) as (O & m' & e' & -> & NR & EX). destruct (mag_frac m' e') as (n' & d' & N' & D' & F' & G').
  rewrite G, G', DG. f_equal. enough (EQ : digits_g p n' d' = (r0, k)) by (rewrite EQ; reflexivity).
  set (yy := frac n' d') in *. set (dd := (inject_Z r0 * u)%Q) in *.
  assert (DL : (Qabs (yy - dd) * inject_Z (2 ^ prec_of t) <= yy)%Q).
  { destruct EX as [M|EX].
    - pose proof (half_ulp_rel (prec_of t) (emax_of t) F1 _ s m' e' NR O M) as H. rewrite <- F' in H. fold yy in H. eapply Qle_trans; [|exact H]. apply Qmult_le_compat_r; [|rewrite <- (t2_Z (prec_of t)) by lia; apply Qlt_le_weak, t2_pos].
      assert (X : (dyadic (cond_Zopp s (Z.pos m')) e' - inject_Z (signed s n10) * t10 e10 == (if s then -1 # 1 else 1) * (yy - dd))%Q).
      { rewrite dyadic_cond, <- F'. fold yy. assert (Y : (inject_Z (signed s n10) == (if s then -1 # 1 else 1) * inject_Z n10)%Q) by (unfold signed; destruct s; [rewrite inject_Z_opp|]; ring). rewrite Y. rewrite <- V. ring. }
      rewrite X, Qabs_Qmult. destruct s; change (Qabs (-1 # 1)) with 1%Q; change (Qabs 1) with 1%Q; lra.
    - assert (X : (yy - dd == 0)%Q) by (rewrite <- F', V in EX; lra). rewrite X. change (Qabs 0) with 0%Q. pose proof (frac_pos n' d' N' D'). fold yy in H. lra. }
  set (w := inject_Z (2 ^ prec_of t)) in *. set (dl := Qabs (yy - dd)) in *.
  assert (W2 : (2 * inject_Z (10 ^ p) + 2 <= w)%Q).
  { unfold w. change 2%Q with (inject_Z 2). rewrite <- inject_Z_mult, <- inject_Z_plus, <- Zle_Qle. replace (2 ^ prec_of t) with (2 * 2 ^ (prec_of t - 1)) by (rewrite <- Z.pow_succ_r by lia; f_equal; lia). lia. }
  assert (YD : (yy <= dd + dl)%Q) by (pose proof (Qle_Qabs (yy - dd)); fold dl in H; lra).
  assert (DL0 : (0 <= dl)%Q) by apply Qabs_nonneg.
  assert (K : forall c z, (0 < c -> 0 <= inject_Z z -> inject_Z z <= inject_Z (10 ^ p) -> dd == inject_Z z * c -> dl < (1 # 2) * c)%Q).
  { intros c z C Z0 Z1 ED. apply Qnot_le_lt. intros H. assert ((1 # 2) * c * (w - 1) <= dl * (w - 1))%Q by (apply Qmult_le_compat_r; [exact H|lra]). nra. }
  assert (R10 : (inject_Z r0 <= inject_Z (10 ^ p))%Q) by (rewrite <- Zle_Qle; lia). assert (R00 : (0 <= inject_Z r0)%Q) by (change 0%Q with (inject_Z 0); rewrite <- Zle_Qle; lia).
  apply digits_unique; try assumption.
  - fold yy. fold u. fold dd. fold dl. apply (K u r0); try assumption. reflexivity.
  - intros RE. fold yy. right.
    assert (U : (u == 10 * t10 (k - p))%Q) by (unfold u; replace (k - p + 1) with (1 + (k - p)) by lia; rewrite t10_add; reflexivity).
    assert (DE : (dd == inject_Z (10 ^ p) * t10 (k - p))%Q).
    { unfold dd. rewrite RE, U. replace (10 ^ p) with (10 ^ (p - 1) * 10) by (rewrite Z.mul_comm, <- Z.pow_succ_r by lia; f_equal; lia). rewrite inject_Z_mult. change (inject_Z 10) with 10%Q. ring. }
    assert (TK : (t10 k == dd)%Q) by (rewrite DE, <- t10_Z, <- t10_add by lia; replace (p + (k - p)) with k by lia; reflexivity).
    rewrite TK. assert (H := K (t10 (k - p)) (10 ^ p) (t10_pos _)). pose proof (Qle_Qabs (- (yy - dd))) as QA. rewrite Qabs_opp in QA. fold dl in QA. apply Qle_lt_trans with dl; [lra|]. apply H; [|lra|exact DE].
    change 0%Q with (inject_Z 0). rewrite <- Zle_Qle. pose proof (p10_pos p ltac:(lia)). lia.
Qed.
