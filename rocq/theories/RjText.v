(** The text of a double (%.15g) through rapidjson's reader. *)
From Coq Require Import ZArith QArith Qabs Qpower Qround Qfield Lia Floats.SpecFloat.
From Verif Require Import Base DType Mem Number ArrayOps Codec Json JsonSpec JsonSchema FloatText FloatFacts CsvNum RoundFacts RoundText NumConv NumConvFacts NumConvText GText GRead FloatOps RjRead RjFloat.
From Coq Require Import Lqa.
Local Open Scope Z_scope.

(** * floats that are close are equal *)
Section Apart.
Variables prec emax : Z.
Hypothesis Hp : 1 < prec.
Hypothesis He : prec < emax.
Lemma same_float s m e s' m' e' : valid_binary prec emax (S754_finite s m e) = true -> valid_binary prec emax (S754_finite s' m' e') = true ->
  (Qabs (dyadic (cond_Zopp s' (Zpos m')) e' - dyadic (cond_Zopp s (Zpos m)) e) * inject_Z (2 ^ (prec + 1)) < dyadic (Zpos m) e)%Q ->
  S754_finite s' m' e' = S754_finite s m e.
Proof.
  intros V V' H. destruct (finite_valid _ _ _ _ _ V) as (B & E & C). destruct (finite_valid _ _ _ _ _ V') as (B' & E' & C').
  set (f := Z.min e e'). set (A := cond_Zopp s (Zpos m) * 2 ^ (e - f)). set (A' := cond_Zopp s' (Zpos m') * 2 ^ (e' - f)).
  assert (X : Z.abs (A' - A) * 2 ^ (prec + 1) < Zpos m * 2 ^ (e - f)).
  { assert (S1 : forall n g, f <= g -> (dyadic n g == dyadic (n * 2 ^ (g - f)) f)%Q) by (intros n g G; rewrite (dyadic_scale n g (g - f)) by lia; replace (g - (g - f)) with f by lia; reflexivity).
    rewrite (S1 _ e'), (S1 _ e), (S1 (Zpos m) e) in H by lia. fold A A' in H. rewrite dyadic_sub, dyadic_abs in H. rewrite !dyadic_t2 in H.
    apply Znot_ge_lt. intros G. revert H. apply Qle_not_lt. pose proof (t2_pos f) as T. setoid_replace (inject_Z (Z.abs (A' - A)) * t2 f * inject_Z (2 ^ (prec + 1)))%Q with (inject_Z (Z.abs (A' - A) * 2 ^ (prec + 1)) * t2 f)%Q by (rewrite inject_Z_mult; ring).
    apply Qmult_le_compat_r; [rewrite <- Zle_Qle; lia|lra]. }
  assert (P0 : 0 < 2 ^ (prec - 1)) by (apply pow_pos; lia). assert (P1 : 2 ^ prec = 2 * 2 ^ (prec - 1)) by (replace prec with (1 + (prec - 1)) at 1 by lia; rewrite Z.pow_add_r by lia; reflexivity).
  assert (P2 : 2 ^ (prec + 1) = 4 * 2 ^ (prec - 1)) by (replace (prec + 1) with (2 + (prec - 1)) at 1 by lia; rewrite Z.pow_add_r by lia; reflexivity). rewrite P1, P2 in *. set (P := 2 ^ (prec - 1)) in *.
  assert (SG : forall (b : bool) n, Z.abs (cond_Zopp b (Zpos n)) = Zpos n) by (intros [] n; reflexivity).
  destruct (Z.le_gt_cases e e') as [L0|L0].
  - assert (F : f = e) by lia. rewrite F in *. rewrite Z.sub_diag, Z.pow_0_r, Z.mul_1_r in *. assert (A' = A) by nia. unfold A, A' in H0. rewrite ?F in H0. rewrite Z.sub_diag, Z.pow_0_r, Z.mul_1_r in H0.
    destruct (Z.eq_dec e e') as [<-|N].
    + rewrite Z.sub_diag, Z.pow_0_r, Z.mul_1_r in H0. destruct s, s'; cbn [cond_Zopp Z.opp] in H0; try discriminate H0; injection H0 as ->; reflexivity.
    + exfalso. destruct C' as [C'|C']; [lia|]. assert (2 <= 2 ^ (e' - e)) by (change 2 with (2 ^ 1) at 1; apply Z.pow_le_mono_r; lia). assert (Z.abs (cond_Zopp s' (Zpos m') * 2 ^ (e' - e)) = Zpos m) by (rewrite H0; apply SG).
      rewrite Z.abs_mul, SG, (Z.abs_eq (2 ^ (e' - e))) in H2 by lia. nia.
  - exfalso. assert (F : f = e') by lia. rewrite F in *. destruct C as [C|C]; [lia|]. unfold A' in X. rewrite ?F in X. rewrite Z.sub_diag, Z.pow_0_r, Z.mul_1_r in X. set (u := 2 ^ (e - e')) in *.
    assert (AA : Z.abs A = Zpos m * u) by (unfold A; rewrite ?F; fold u; rewrite Z.abs_mul, SG, (Z.abs_eq u) by (unfold u; apply Z.pow_nonneg; lia); reflexivity).
    pose proof (SG s' m') as BB. set (Bv := cond_Zopp s' (Zpos m')) in *. assert (D : Z.abs A - Z.abs Bv <= Z.abs (Bv - A)) by lia.
    destruct (Z.eq_dec (e - e') 1) as [U|U].
    + assert (u = 2) by (unfold u; rewrite U; reflexivity). rewrite H0 in *. assert (1 <= Z.abs (Bv - A)) by lia. nia.
    + assert (4 <= u) by (change 4 with (2 ^ 2); apply Z.pow_le_mono_r; lia). rewrite AA, BB in D. assert (2 * Zpos m' <= Zpos m * u) by nia. nia.
Qed.
Lemma nearest_is v x s m e : valid_binary prec emax (S754_finite s m e) = true -> (dyadic (cond_Zopp s (Zpos m)) e == v)%Q -> a_nearest prec emax v x -> x = S754_finite s m e.
Proof.
  intros V E (Vx & q & Fq & N). specialize (N _ _ V eq_refl). rewrite E in N. setoid_replace (v - v)%Q with 0%Q in N by ring. change (Qabs 0) with 0%Q in N. apply Qabs_Qle_condition in N.
  assert (Q0 : (q == v)%Q) by lra. pose proof (dyadic_pos m e) as Pm. rewrite dyadic_cond in E. destruct x as [b|b| |b m' e']; try discriminate Fq; cbn [float_value] in Fq; injection Fq as <-.
  - exfalso. destruct s; lra.
  - apply same_float; [exact V|exact Vx|]. rewrite Q0, <- E, dyadic_cond. setoid_replace ((if s then -1 # 1 else 1) * dyadic (Zpos m) e - (if s then -1 # 1 else 1) * dyadic (Zpos m) e)%Q with 0%Q by ring. change (Qabs 0) with 0%Q. lra.
Qed.
(** numbers of few bits are floats *)
Lemma is_a_float s n f : Zpos n < 2 ^ prec -> emin prec emax + prec <= f <= emax - prec -> exists m e, valid_binary prec emax (S754_finite s m e) = true /\ (dyadic (Zpos m) e == dyadic (Zpos n) f)%Q.
Proof.
  intros B F. pose proof (digits_bound n) as [D1 D2]. pose proof (digits_mono n prec B) as D3. set (k := Zpos (digits2_pos n)) in *.
  assert (K : 1 <= k) by (unfold k; lia). assert (P : 0 < 2 ^ (prec - k)) by (apply pow_pos; lia).
  exists (Z.to_pos (Zpos n * 2 ^ (prec - k))), (f - (prec - k)). assert (M0 : 0 < Zpos n * 2 ^ (prec - k)) by lia.
  assert (M1 : 2 ^ (prec - 1) <= Zpos n * 2 ^ (prec - k)) by (replace (prec - 1) with ((k - 1) + (prec - k)) by lia; rewrite Z.pow_add_r by lia; apply Z.mul_le_mono_nonneg_r; lia).
  assert (M2 : Zpos n * 2 ^ (prec - k) < 2 ^ prec) by (replace prec with (k + (prec - k)) at 2 by lia; rewrite Z.pow_add_r by lia; apply Z.mul_lt_mono_pos_r; lia).
  split.
  - apply valid_finite; rewrite ?Z2Pos.id by exact M0; try lia.
  - rewrite Z2Pos.id by exact M0. rewrite <- dyadic_scale by lia. reflexivity.
Qed.
End Apart.

(** * the digits of a number near a short decimal *)
Lemma digits_near p n d r k w : 1 <= p -> 0 < n -> 0 < d -> 10 ^ (p - 1) <= r < 10 ^ p -> (2 * inject_Z (10 ^ p) + 2 <= w)%Q ->
  let dd := (inject_Z r * t10 (k - p + 1))%Q in (Qabs (frac n d - dd) * w <= frac n d)%Q -> digits_g p n d = (r, k).
Proof.
  intros P N D R W2 dd DL. pose proof (p10_pos (p - 1) ltac:(lia)) as P0. pose proof (t10_pos (k - p + 1)) as PU. set (u := t10 (k - p + 1)) in *. set (yy := frac n d) in *. set (dl := Qabs (yy - dd)) in *.
  assert (YD : (yy <= dd + dl)%Q) by (pose proof (Qle_Qabs (yy - dd)); fold dl in H; lra).
  assert (DL0 : (0 <= dl)%Q) by apply Qabs_nonneg.
  assert (W1 : (2 <= w)%Q) by (pose proof (p10_pos p ltac:(lia)) as PP; apply iz_pos in PP; lra).
  assert (K : forall c z, (0 < c -> 0 <= inject_Z z -> inject_Z z <= inject_Z (10 ^ p) -> dd == inject_Z z * c -> dl < (1 # 2) * c)%Q).
  { intros c z C Z0 Z1 ED. apply Qnot_le_lt. intros H. assert ((1 # 2) * c * (w - 1) <= dl * (w - 1))%Q by (apply Qmult_le_compat_r; [exact H|lra]). nra. }
  assert (R10 : (inject_Z r <= inject_Z (10 ^ p))%Q) by (rewrite <- Zle_Qle; lia). assert (R00 : (0 <= inject_Z r)%Q) by (change 0%Q with (inject_Z 0); rewrite <- Zle_Qle; lia).
  apply digits_unique; try assumption.
  - fold yy. fold u. fold dd. fold dl. apply (K u r); try assumption. reflexivity.
  - intros RE. fold yy. right.
    assert (U : (u == 10 * t10 (k - p))%Q) by (unfold u; replace (k - p + 1) with (1 + (k - p)) by lia; rewrite t10_add; reflexivity).
    assert (DE : (dd == inject_Z (10 ^ p) * t10 (k - p))%Q).
    { unfold dd. rewrite RE, U. replace (10 ^ p) with (10 ^ (p - 1) * 10) by (rewrite Z.mul_comm, <- Z.pow_succ_r by lia; f_equal; lia). rewrite inject_Z_mult. change (inject_Z 10) with 10%Q. ring. }
    assert (TK : (t10 k == dd)%Q) by (rewrite DE, <- t10_Z, <- t10_add by lia; replace (p + (k - p)) with k by lia; reflexivity).
    rewrite TK. assert (H := K (t10 (k - p)) (10 ^ p) (t10_pos _)). pose proof (Qle_Qabs (- (yy - dd))) as QA. rewrite Qabs_opp in QA. fold dl in QA. apply Qle_lt_trans with dl; [lra|]. apply H; [|lra|exact DE].
    change 0%Q with (inject_Z 0). rewrite <- Zle_Qle. pose proof (p10_pos p ltac:(lia)). lia.
Qed.

(** * the parts of the text of a double *)
Lemma two_digits_short z : 0 < z < 1000 -> (length (two_digits z) <= 3)%nat.
Proof.
  intros Z0. destruct (show_Z_pos z ltac:(lia)) as (_ & _ & [B1 B2] & _). unfold two_digits. destruct (Z.ltb_spec z 10); cbn [length].
  - assert (Z.of_nat (length (show_Z z)) - 1 < 1) by (apply pow10_lt_inj; [lia|]; change (10 ^ 1) with 10; lia). lia.
  - assert (Z.of_nat (length (show_Z z)) - 1 < 3) by (apply pow10_lt_inj; [lia|]; change (10 ^ 3) with 1000; lia). lia.
Qed.
Definition sgn (s : bool) : str := if s then L "-" else [].
Lemma no_mark s : Forall digit s -> existsb (fun c => existsb (Ascii.eqb c) (L "n.e")) s = false.
Proof.
  induction 1 as [|c s C _ IH]; [reflexivity|]. cbn [existsb]. rewrite IH, orb_false_r. apply digit_num in C. change (existsb (Ascii.eqb c) (L "n.e")) with (Ascii.eqb c "n" || (Ascii.eqb c "." || (Ascii.eqb c "e" || false))).
  destruct (Ascii.eqb_spec c "n") as [->|_]; [discriminate C|]. destruct (Ascii.eqb_spec c ".") as [->|_]; [discriminate C|]. destruct (Ascii.eqb_spec c "e") as [->|_]; [discriminate C|]. reflexivity.
Qed.
Lemma text_parts s m e n d r k : 0 < n -> 0 < d -> (forall p s, gfmt p (S754_finite s m e) = sgn s ++ (let '(r, k) := digits_g p n d in show_g p r k)) ->
  digits_g 15 n d = (r, k) -> 10 ^ 14 <= r < 10 ^ 15 -> Z.abs k <= 308 ->
  exists ip b fp x ex, float64_to_string (S754_finite s m e) = sgn s ++ ip ++ b ++ x /\ ip <> [] /\ Forall digit ip /\ (ip = L "0" \/ hd "0"%char ip <> "0"%char) /\ point_text b fp /\ Forall digit fp /\ e_text x ex /\
    dec_of (ip ++ fp) < 10 ^ 16 /\ Z.abs ex <= 308 /\ (length fp <= 20)%nat /\ (ex = 0 \/ ex = k) /\ (inject_Z (dec_of (ip ++ fp)) * t10 (ex - Z.of_nat (length fp)) == inject_Z r * t10 (k - 14))%Q /\
    JsonSpec.number (sgn s ++ ip ++ b ++ x) /\ modest (sgn s ++ ip ++ b ++ x) /\ Exists (fun c => In c (L ".eE")) (sgn s ++ ip ++ b ++ x).
Proof.
  intros N D G DG R K. destruct (show_g_form 15 r k ltac:(lia) R) as (ip & b & fp & x & ex & T & PT & NI & D1 & D2 & XT & V & ZI & DL & LN & NB & X).
  replace (k - 15 + 1) with (k - 14) in V by lia.
  assert (GT : g15 (S754_finite s m e) = sgn s ++ ip ++ b ++ x) by (unfold g15; rewrite G, DG, T; reflexivity).
  assert (XE : e_text x ex /\ Z.abs ex <= 308 /\ (ex = 0 \/ ex = k) /\ (length x <= 5)%nat /\
    (x = [] \/ (exists c g td, x = c :: g ++ td /\ In c ["e"; "E"]%char /\ In g [[]; ["+"%char]; ["-"%char]] /\ digits td /\ (g <> ["-"%char] -> decimal td <= 308)))).
  { destruct X as [[-> X]|[-> ->]].
    - assert (E0 : ex = 0) by (destruct XT as [[_ XT]|(? & ? & ? & ? & ? & XT & _)]; [exact XT|discriminate XT]). subst ex. split; [left; auto|]. split; [lia|]. split; [left; reflexivity|]. split; [cbn; lia|]. left. reflexivity.
    - assert (K0 : k <> 0).
      { intros ->. assert (CC : show_g 15 r 0 = with_frac (firstn (Z.to_nat 1) (show_Z r)) (skipn (Z.to_nat 1) (show_Z r))) by reflexivity. rewrite CC in T.
        assert (A : In "e"%char (with_frac (firstn (Z.to_nat 1) (show_Z r)) (skipn (Z.to_nat 1) (show_Z r)))) by (rewrite T; apply in_or_app; right; apply in_or_app; right; left; reflexivity).
        destruct (with_frac_split (firstn (Z.to_nat 1) (show_Z r)) (skipn (Z.to_nat 1) (show_Z r))) as (b' & f' & j & W1 & W2 & W3). rewrite W1 in A.
        destruct (show_Z_pos r ltac:(lia)) as ([_ DR] & _). rewrite <- (firstn_skipn (Z.to_nat 1) (show_Z r)), W3, !Forall_app in DR. destruct DR as (DR1 & DR2 & _).
        assert (NE : forall t, Forall digit t -> ~ In "e"%char t) by (intros t F I; rewrite Forall_forall in F; specialize (F _ I); apply digit_num in F; discriminate F).
        apply in_app_or in A. destruct A as [A|A]; [exact (NE _ DR1 A)|]. destruct W2 as [[-> _]| ->]; [exact A|]. destruct A as [A|A]; [discriminate A|exact (NE _ DR2 A)]. }
      destruct (Z.ltb_spec k 0).
      + destruct (two_digits_text (- k) ltac:(lia)) as (T1 & T2 & T3). pose proof (two_digits_short (- k) ltac:(lia)) as T4. split; [right; exists (two_digits (- k)); destruct (Z.ltb_spec k 0); [|lia]; split; [reflexivity|]; split; [exact T2|]; rewrite T3; lia|].
        split; [exact K|]. split; [right; reflexivity|]. split; [cbn [length]; lia|]. right. exists "e"%char, ["-"%char], (two_digits (- k)). split; [reflexivity|]. split; [left; reflexivity|]. split; [right; right; left; reflexivity|]. split; [split; assumption|]. congruence.
      + destruct (two_digits_text k ltac:(lia)) as (T1 & T2 & T3). pose proof (two_digits_short k ltac:(lia)) as T4. split; [right; exists (two_digits k); destruct (Z.ltb_spec k 0); [lia|]; split; [reflexivity|]; split; [exact T2|]; rewrite T3; lia|].
        split; [exact K|]. split; [right; reflexivity|]. split; [cbn [length]; lia|]. right. exists "e"%char, ["+"%char], (two_digits k). split; [reflexivity|]. split; [left; reflexivity|]. split; [right; left; reflexivity|]. split; [split; assumption|].
        intros _. change (decimal (two_digits k)) with (dec_of (two_digits k)). rewrite T3. lia. }
  destruct XE as (E1 & E2 & E3 & E4 & E5).
  assert (SG : sgn s = [] \/ sgn s = ["-"%char]) by (destruct s; [right|left]; reflexivity).
  assert (SL : (length (sgn s) <= 1)%nat) by (destruct s; cbn; lia).
  assert (MN : forall b' f', b' = [] \/ (exists t, b' = "."%char :: t /\ digits t) -> (length b' <= 21)%nat -> f' = b' -> JsonSpec.number (sgn s ++ ip ++ b' ++ x) /\ modest (sgn s ++ ip ++ b' ++ x)).
  { intros b' f' B LB _. apply modest_number; try assumption; [split; assumption|]. rewrite !app_length. lia. }
  assert (DD : digits ip) by (split; assumption).
  destruct PT as [[-> ->]| ->].
  - destruct E5 as [E5|(c & g & td & E5 & C1 & C2)].
    + (* an integer *)
      subst x. assert (F0 : float64_to_string (S754_finite s m e) = sgn s ++ ip ++ L ".0" ++ []).
      { unfold float64_to_string. rewrite GT. rewrite !app_nil_r. assert (EX : existsb (fun c => existsb (Ascii.eqb c) (L "n.e")) (sgn s ++ ip) = false) by (rewrite existsb_app, (no_mark ip D1); destruct s; reflexivity).
        rewrite EX, <- app_assoc. reflexivity. }
      exists ip, (L ".0"), (L "0"), [], ex. rewrite app_nil_r in V, DL. cbn [length] in V.
      split; [exact F0|]. split; [exact NI|]. split; [exact D1|]. split; [exact ZI|]. split; [right; reflexivity|]. split; [constructor; [left; reflexivity|constructor]|]. split; [exact E1|].
      change (L "0") with (repeat "0"%char 1). rewrite dec_app_zeros. change (10 ^ Z.of_nat 1) with 10. split; [lia|]. split; [exact E2|]. split; [cbn; lia|]. split; [exact E3|]. split.
      * rewrite <- V, inject_Z_mult. cbn [repeat length]. replace (ex - Z.of_nat 0) with (1 + (ex - Z.of_nat 1)) by lia. rewrite t10_add. change (t10 1) with (inject_Z 10). ring.
      * destruct (MN (L ".0") (L ".0")) as [M1 M2]; [right; exists (L "0"); split; [reflexivity|split; [discriminate|constructor; [left; reflexivity|constructor]]]|cbn; lia|reflexivity|].
        split; [exact M1|]. split; [exact M2|]. apply Exists_app. right. apply Exists_app. right. left. left. reflexivity.
    + assert (CE : c = "e"%char) by (destruct X as [[-> _]|[_ ->]]; [discriminate E5|injection E5 as <- _; reflexivity]). subst c.
      exists ip, [], [], x, ex. split.
      { unfold float64_to_string. rewrite GT. assert (EX : existsb (fun c => existsb (Ascii.eqb c) (L "n.e")) (sgn s ++ ip ++ [] ++ x) = true) by (rewrite E5, !existsb_app; cbn [app existsb]; rewrite !orb_true_r; reflexivity). rewrite EX. reflexivity. }
      split; [exact NI|]. split; [exact D1|]. split; [exact ZI|]. split; [left; auto|]. split; [constructor|]. split; [exact E1|]. split; [lia|]. split; [exact E2|]. split; [cbn; lia|]. split; [exact E3|]. split; [exact V|].
      destruct (MN [] []) as [M1 M2]; [left; reflexivity|cbn; lia|reflexivity|]. split; [exact M1|]. split; [exact M2|]. rewrite E5. apply Exists_app. right. apply Exists_app. right. left. right. left. reflexivity.
  - destruct NB as [NB|NB]; [discriminate NB|]. exists ip, ("."%char :: fp), fp, x, ex. split.
    { unfold float64_to_string. rewrite GT. assert (EX : existsb (fun c => existsb (Ascii.eqb c) (L "n.e")) (sgn s ++ ip ++ ("."%char :: fp) ++ x) = true) by (rewrite !existsb_app; cbn [app existsb]; rewrite !orb_true_r; reflexivity). rewrite EX. reflexivity. }
    assert (LP : (1 <= length ip)%nat) by (destruct ip; [congruence|cbn; lia]).
    split; [exact NI|]. split; [exact D1|]. split; [exact ZI|]. split; [right; reflexivity|]. split; [exact D2|]. split; [exact E1|]. split; [lia|]. split; [exact E2|]. split; [lia|]. split; [exact E3|]. split; [exact V|].
    destruct (MN ("."%char :: fp) ("."%char :: fp)) as [M1 M2]; [right; exists fp; split; [reflexivity|split; assumption]|cbn [length]; lia|reflexivity|].
    split; [exact M1|]. split; [exact M2|]. apply Exists_app. right. apply Exists_app. right. left. left. reflexivity.
Qed.

(** * reading it *)
Definition t10_between (a b : Z) (q : Q) : Prop := (t10 a <= q /\ q <= t10 b)%Q.
Theorem text_read s m e : let X := dyadic (Zpos m) e in t10_between (-280) 305 X ->
  let x := S754_finite s m e in let txt := float64_to_string x in
  JsonSpec.number txt /\ modest txt /\ Exists (fun c => In c (L ".eE")) txt /\
  exists m' e' D, rj_double txt = Ok (S754_finite s m' e') /\ valid_binary 53 1024 (S754_finite s m' e') = true /\ significant 15 X D /\
    (dyadic (Zpos m') e' * (W - 4) <= D * W)%Q /\ (D * W <= dyadic (Zpos m') e' * (W + 4))%Q /\ float64_to_string (S754_finite s m' e') = txt.
Proof.
  intros X [B1 B2] x txt. destruct (mag_frac m e) as (n & d & N & D & F & G). fold X in F.
  destruct (digits_significant 15 n d ltac:(lia) N D) as (r & k & DG & R & SG). change (15 - 1) with 14 in R. replace (k - 15 + 1) with (k - 14) in SG by lia.
  pose proof SG as (r' & k' & S1 & S2 & S3 & S4). rewrite F in S1, S2, S4. replace (k' - 15 + 1) with (k' - 14) in * by lia. set (Dv := (inject_Z r * t10 (k - 14))%Q) in *.
  pose proof (t10_pos (k' - 14)) as PU. pose proof (t10_pos (k - 14)) as PK. assert (TK' : (t10 k' == 100000000000000 * t10 (k' - 14))%Q) by (replace k' with (14 + (k' - 14)) at 1 by lia; rewrite t10_add; reflexivity).
  assert (TK : (t10 k == 100000000000000 * t10 (k - 14))%Q) by (replace k with (14 + (k - 14)) at 1 by lia; rewrite t10_add; reflexivity).
  assert (TK1 : (t10 (k + 1) == 1000000000000000 * t10 (k - 14))%Q) by (replace (k + 1) with (15 + (k - 14)) at 1 by lia; rewrite t10_add; reflexivity).
  apply Qabs_Qle_condition in S4.
  assert (DX1 : (Dv <= 2 * X)%Q) by lra. assert (DX2 : (X <= 2 * Dv)%Q) by lra.
  assert (RQ : (100000000000000 <= inject_Z r /\ inject_Z r <= 1000000000000000)%Q) by (split; [change 100000000000000%Q with (inject_Z (10 ^ 14))|change 1000000000000000%Q with (inject_Z (10 ^ 15))]; rewrite <- Zle_Qle; lia).
  assert (KD1 : (t10 k <= Dv)%Q) by (rewrite TK; unfold Dv; apply Qmult_le_compat_r; lra). assert (KD2 : (Dv <= t10 (k + 1))%Q) by (rewrite TK1; unfold Dv; apply Qmult_le_compat_r; lra).
  assert (KB : -283 < k < 306).
  { split.
    - assert (-282 < k + 1); [|lia]. apply t10_lt. assert (T : (2 * t10 (-282) < t10 (-280))%Q) by (vm_compute; reflexivity). lra.
    - apply t10_lt. assert (T : (2 * t10 305 < t10 306)%Q) by (vm_compute; reflexivity). lra. }
  destruct (text_parts s m e n d r k N D G DG R ltac:(lia)) as (ip & b & fp & xx & ex & FT & NI & D1 & ZI & PT & D2 & XT & DB & EB & FL & EK & V & NU & MO & EX).
  unfold txt, x. rewrite FT. split; [exact NU|]. split; [exact MO|]. split; [exact EX|].
  set (i := dec_of (ip ++ fp)) in *. set (p := ex - Z.of_nat (length fp)) in *. destruct (dec_range (ip ++ fp)) as [DR _]; [apply Forall_app; auto|]. fold i in DR.
  assert (I0 : 0 < i). { destruct (Z.eq_dec i 0) as [Z0|Z0]; [|lia]. exfalso. rewrite Z0 in V. change (inject_Z 0) with 0%Q in V. fold Dv in V. pose proof (t10_pos k). lra. }
  fold Dv in V. assert (T1 : (t10 (-291) <= t10 (-280) * (1 # 2))%Q) by (vm_compute; discriminate). assert (T2 : (2 * t10 305 <= t10 306)%Q) by (vm_compute; discriminate).
  destruct (fast_near i p) as (m' & e' & FE & MB & VA & A & B); [change (10 ^ 16) with 10000000000000000 in DB; change (10 ^ 18) with 1000000000000000000; lia|unfold p; lia|rewrite V; lra|rewrite V; lra|].
  rewrite V in A, B. rewrite FE in VA. exists m', e', Dv.
  split. { etransitivity; [apply (rj_law s ip b fp xx ex); try assumption; change (10 ^ 16) with 10000000000000000 in DB; fold i; change (10 * 2 ^ 53) with 90071992547409920; lia|]. fold i. fold p. rewrite FE. destruct s; reflexivity. }
  split; [destruct s; exact VA|]. split; [exists r', k'; replace (k' - 15 + 1) with (k' - 14) by lia; split; [exact S1|]; split; [exact S2|]; split; [exact S3|]; apply Qabs_Qle_condition; exact S4|]. split; [exact A|]. split; [exact B|].
  destruct (mag_frac m' e') as (n' & d' & N' & D' & F' & G').
  assert (GE : g15 (S754_finite s m' e') = g15 (S754_finite s m e)).
  { unfold g15. rewrite G, G', DG. rewrite (digits_near 15 n' d' r k (2251799813685248 # 1)); [reflexivity|lia|exact N'|exact D'|exact R|vm_compute; discriminate|].
    replace (k - 15 + 1) with (k - 14) by lia. fold Dv. rewrite F'. set (Y := dyadic (Zpos m') e') in *. rewrite W_val in *. apply Qabs_case; intros; lra. }
  rewrite <- FT. unfold float64_to_string. rewrite GE. reflexivity.
Qed.
