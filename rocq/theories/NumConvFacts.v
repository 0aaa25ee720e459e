(** Specification and lemmas for conversions between numeric types (C59). *)
From Coq Require Import ZArith QArith Qabs Qround Lia Floats.SpecFloat Nnat.
From Verif Require Import Base DType SpecTree Mem MemFacts Node NodeFacts SpecNode NodeCompact NodeSet NodeEndian NodeUpdate NodeMerge NodeSetArray.
From Verif Require Import Number NumberFacts NodeDiff DiffFacts DiffMore ArrayOps ArrayOpsFacts FloatText RoundFacts NumConv.
From Coq Require Import Lqa.
Local Open Scope Z_scope.

(** ---- specification ---- *)
(** the numbers of a type *)
Definition has (t : tid) (v : number) : Prop :=
  match v with
  | NI z => is_int t = true /\ in_type t z
  | NF x => is_float t = true /\ valid_binary (prec_of t) (emax_of t) x = true
  end.
(** the rational a number is; none for infinities and NaN *)
Definition rational (v : number) : option Q := match v with NI z => Some (inject_Z z) | NF x => float_value x end.
Definition fsign (x : spec_float) : bool :=
  match x with S754_zero s | S754_infinity s | S754_finite s _ _ => s | S754_nan => false end.
(** IEEE-754 round to nearest: no number of the type is nearer; infinite from half a step
    above the largest one *)
Definition rounded (t : tid) (q : Q) (s : bool) (y : spec_float) : Prop :=
  fsign y = s /\
  ((overflows (prec_of t) (emax_of t) q /\ y = S754_infinity s) \/
   (~ overflows (prec_of t) (emax_of t) q /\ a_nearest (prec_of t) (emax_of t) q y)).
(** [q] without its fraction *)
Definition truncated (q : Q) (z : Z) : Prop :=
  (inject_Z (Z.abs z) <= Qabs q)%Q /\ (Qabs q < inject_Z (Z.abs z + 1))%Q /\ (0 <= inject_Z z * q)%Q.
Definition converted (t : tid) (v w : number) : Prop :=
  has t w /\
  match v, w with
  | NI z, NI y => converts t z y
  | NI z, NF y => rounded t (inject_Z z) (z <? 0) y
  | NF x, NF y => match float_value x with Some q => rounded t q (fsign x) y | None => y = x end
  | NF x, NI y => exists q, float_value x = Some q /\ truncated q y
  end.
(** C++ gives (T)v a meaning *)
Definition convertible (t : tid) (v : number) : Prop :=
  match v with
  | NI _ => True
  | NF x => is_int t = true -> exists q z, float_value x = Some q /\ truncated q z /\ in_type t z
  end.
(** The leaf behind a view holds the numbers [vs]. *)
Definition shows_n (mach : endian) (m : mem) (h : hdr) (d : dtype) (vs : list number) : Prop :=
  numeric (dt_id d) = true /\
  exists es, leaf_value m (h_data h) d = Ok (Some (dt_id d, dt_endian d, es)) /\ vs = map (read_number mach (dt_id d)) es.
Definition assigned_n (mach : endian) (m m' : mem) (h : hdr) (d : dtype) (vs : list number) : Prop :=
  same_shape m m' /\ shows_n mach m' h d vs /\ (forall q, ~ leaf_touches q (h_data h, d) -> rd m' q = rd m q).

(** ---- floats and their bytes ---- *)
Lemma numeric_cases t : numeric t = true -> is_int t = true /\ is_float t = false \/ is_int t = false /\ is_float t = true.
Proof. destruct t; intros H; try discriminate H; auto. Qed.
Lemma numeric_data t : numeric t = true -> is_data t = true.
Proof. destruct t; intros H; try discriminate H; reflexivity. Qed.
Lemma float_format t : is_float t = true -> 1 < prec_of t /\ prec_of t < emax_of t /\ prec_of t < bits t /\ emax_of t = 2 ^ (bits t - prec_of t - 1) /\ 2 <= bits t - prec_of t.
Proof. destruct t; intros H; try discriminate H; vm_compute; auto 6; repeat split; discriminate. Qed.
Lemma encode_uvalue mach t x : 0 <= default_bytes t -> uvalue mach (encode mach t x) = x mod 2 ^ bits t.
Proof. intros D. unfold uvalue, encode. destruct mach; rewrite ?rev_involutive, le_bytes_value; f_equal; f_equal; unfold bits in *; lia. Qed.
(** the fields of a bit pattern *)
Lemma fields P E (s : bool) k r : 0 < P -> 0 < E -> 0 <= k < E -> 0 <= r < P ->
  let x := (if s then E * P else 0) + k * P + r in
  x mod P = r /\ (x / P) mod E = k /\ (E * P <=? x) = s /\ 0 <= x < 2 * (E * P).
Proof.
  intros HP HE K R x. set (S := if s then 1 else 0). assert (X : x = (S * E + k) * P + r) by (unfold x, S; destruct s; ring).
  assert (D : x / P = S * E + k) by (symmetry; apply (Z.div_unique x P (S * E + k) r); lia).
  assert (M : x mod P = r) by (symmetry; apply (Z.mod_unique x P (S * E + k) r); lia).
  split; [exact M|]. rewrite D. split; [symmetry; apply (Z.mod_unique (S * E + k) E S k); lia|]. unfold x. split; [|destruct s; nia].
  destruct s; [apply Z.leb_le; nia|apply Z.leb_gt; nia].
Qed.
Section Format.
Variables prec emax w : Z.
Hypothesis Hp : 1 < prec.
Hypothesis Hw : 2 <= w - prec.
Hypothesis He : emax = 2 ^ (w - prec - 1).
Let P := 2 ^ (prec - 1).
Let E := 2 ^ (w - prec).
Lemma EP : E * P = 2 ^ (w - 1). Proof. unfold E, P. rewrite <- Z.pow_add_r by lia. f_equal. lia. Qed.
Lemma P_big : 2 <= P. Proof. unfold P. replace (prec - 1) with (Z.succ (prec - 2)) by lia. rewrite Z.pow_succ_r by lia. pose proof (Z.pow_pos_nonneg 2 (prec - 2)). lia. Qed.
Lemma E_big : E = 2 * emax /\ 4 <= E. Proof. unfold E. subst emax. replace (w - prec) with (Z.succ (w - prec - 1)) at 1 3 by lia. rewrite Z.pow_succ_r by lia. replace (w - prec - 1) with (Z.succ (w - prec - 2)) by lia. rewrite Z.pow_succ_r by lia. pose proof (Z.pow_pos_nonneg 2 (w - prec - 2)). lia. Qed.
Lemma prec_pow : 2 ^ prec = 2 * P. Proof. unfold P. rewrite <- Z.pow_succ_r by lia. f_equal. lia. Qed.
Lemma from_fields (s : bool) k r : 0 <= k < E -> 0 <= r < P ->
  float_of_bits prec emax w ((if s then E * P else 0) + k * P + r) =
  if k =? E - 1 then (if r =? 0 then S754_infinity s else S754_nan)
  else if k =? 0 then match r with Zpos p => S754_finite s p (emin prec emax) | _ => S754_zero s end
  else match r + P with Zpos p => S754_finite s p (k + emin prec emax - 1) | _ => S754_nan end.
Proof.
  intros K R. pose proof P_big. pose proof E_big. destruct (fields P E s k r ltac:(lia) ltac:(lia) K R) as (F1 & F2 & F3 & _). cbv zeta in *.
  unfold float_of_bits. fold P E. rewrite <- EP. rewrite F1, F2, F3. reflexivity.
Qed.
Lemma bits_float x : valid_binary prec emax x = true ->
  float_of_bits prec emax w (float_bits prec emax w x) = x /\ 0 <= float_bits prec emax w x < 2 ^ w.
Proof.
  intros V. pose proof P_big as PB. pose proof E_big as [EB EB4]. assert (W : 2 ^ w = 2 * (E * P)) by (rewrite EP, <- Z.pow_succ_r by lia; f_equal; lia).
  assert (C : exists (s : bool) k r, 0 <= k < E /\ 0 <= r < P /\ float_bits prec emax w x = (if s then E * P else 0) + k * P + r /\
              x = (if k =? E - 1 then (if r =? 0 then S754_infinity s else S754_nan)
                   else if k =? 0 then match r with Zpos p => S754_finite s p (emin prec emax) | _ => S754_zero s end
                   else match r + P with Zpos p => S754_finite s p (k + emin prec emax - 1) | _ => S754_nan end)).
  { unfold float_bits. fold P E. rewrite <- EP. destruct x as [s|s| |s m e].
    - exists s, 0, 0. split; [lia|]. split; [lia|]. split; [lia|]. destruct (Z.eqb_spec 0 (E - 1)); [lia|reflexivity].
    - exists s, (E - 1), 0. split; [lia|]. split; [lia|]. split; [lia|]. rewrite !Z.eqb_refl. reflexivity.
    - exists false, (E - 1), (2 ^ (prec - 2)). assert (Q : 0 < 2 ^ (prec - 2)) by (apply Z.pow_pos_nonneg; lia).
      assert (PQ : P = 2 * 2 ^ (prec - 2)) by (unfold P; rewrite <- Z.pow_succ_r by lia; f_equal; lia).
      split; [lia|]. split; [lia|]. split; [lia|]. rewrite Z.eqb_refl. destruct (Z.eqb_spec (2 ^ (prec - 2)) 0); [lia|reflexivity].
    - apply finite_valid in V. rewrite prec_pow in V. fold P in V. destruct V as (V1 & V2 & V3). unfold emin in *. destruct (Z.ltb_spec (Zpos m) P).
      + exists s, 0, (Zpos m). split; [lia|]. split; [lia|]. split; [lia|]. destruct (Z.eqb_spec 0 (E - 1)); [lia|]. rewrite Z.eqb_refl. f_equal. lia.
      + exists s, (e - (3 - emax - prec) + 1), (Zpos m - P). split; [lia|]. split; [lia|]. split; [lia|].
        destruct (Z.eqb_spec (e - (3 - emax - prec) + 1) (E - 1)); [lia|]. destruct (Z.eqb_spec (e - (3 - emax - prec) + 1) 0); [lia|].
        replace (Zpos m - P + P) with (Zpos m) by lia. f_equal. lia. }
  destruct C as (s & k & r & K & R & B & X). rewrite B. split; [rewrite (from_fields s k r K R); symmetry; exact X|].
  rewrite W. apply (fields P E s k r); lia.
Qed.
Lemma float_of_bits_valid x : valid_binary prec emax (float_of_bits prec emax w x) = true.
Proof.
  pose proof P_big as PB. pose proof E_big as [EB EB4]. unfold float_of_bits. fold P E.
  assert (M : 0 <= x mod P < P) by (apply Z.mod_pos_bound; lia). assert (K : 0 <= (x / P) mod E < E) by (apply Z.mod_pos_bound; lia).
  destruct (Z.eqb_spec ((x / P) mod E) (E - 1)); [destruct (x mod P =? 0); reflexivity|].
  destruct (Z.eqb_spec ((x / P) mod E) 0).
  - destruct (x mod P) as [|p|p] eqn:Q; try reflexivity. apply valid_finite; [exact Hp|rewrite prec_pow; lia|unfold emin; lia|left; reflexivity].
  - destruct (x mod P + P) as [|p|p] eqn:Q; try reflexivity. apply valid_finite; [exact Hp|rewrite prec_pow; lia|unfold emin; lia|right; fold P; lia].
Qed.
End Format.
Section Bytes.
Variable mach : endian.
Lemma float_round_trip t x : is_float t = true -> valid_binary (prec_of t) (emax_of t) x = true -> fvalue mach t (float_bytes mach t x) = x.
Proof.
  intros T V. destruct (float_format t T) as (F1 & F2 & F3 & F4 & F5). destruct (bits_float (prec_of t) (emax_of t) (bits t) F1 F5 F4 x V) as [R B].
  unfold fvalue, float_bytes. rewrite encode_uvalue by (destruct t; discriminate). rewrite Z.mod_small by exact B. exact R.
Qed.
Lemma number_round_trip t v : has t v -> read_number mach t (number_bytes mach t v) = v.
Proof.
  destruct v as [z|x]; intros [T V]; unfold read_number, number_bytes.
  - replace (is_float t) with false by (destruct t; try discriminate T; reflexivity). f_equal. apply encode_value; assumption.
  - rewrite T. f_equal. apply float_round_trip; assumption.
Qed.
Lemma number_bytes_length t v : length (number_bytes mach t v) = Z.to_nat (default_bytes t).
Proof. destruct v; apply encode_length. Qed.
Lemma read_has t bs : numeric t = true -> length bs = Z.to_nat (default_bytes t) -> has t (read_number mach t bs).
Proof.
  intros N Lb. unfold read_number. destruct (numeric_cases t N) as [[A B]|[A B]]; rewrite B; cbn [has]; split; auto.
  - apply ivalue_in_type; assumption.
  - destruct (float_format t B) as (F1 & F2 & F3 & F4 & F5). exact (float_of_bits_valid _ _ _ F1 F5 F4 _).
Qed.
End Bytes.

(** ---- conversions ---- *)
Lemma as_float_sign prec emax s k e : fsign (as_float prec emax s k e) = s.
Proof. unfold as_float. destruct k; try reflexivity. destruct (_ =? _); [destruct (_ <=? _); reflexivity|]. destruct (_ <=? _); reflexivity. Qed.
Lemma round_sign prec emax s m e : 1 < prec -> fsign (binary_round prec emax s m e) = s.
Proof. intros Hp. destruct (round_shape prec emax Hp s m e) as (k & _ & -> & _). apply as_float_sign. Qed.
Lemma nearest_zero prec emax s : a_nearest prec emax 0 (S754_zero s).
Proof. split; [reflexivity|]. exists 0%Q. split; [reflexivity|]. intros y r _ _. setoid_replace (0 - 0)%Q with 0%Q by ring. apply Qabs_nonneg. Qed.
Lemma not_overflows_zero prec emax : 1 < prec -> ~ overflows prec emax 0.
Proof.
  intros Hp H. unfold overflows in H. change (Qabs 0) with 0%Q in H. assert (D : (dyadic 0 (emax - prec - 1) == 0)%Q) by (unfold dyadic; ring).
  rewrite <- D in H. apply dyadic_le in H. assert (2 ^ 1 <= 2 ^ (prec + 1)) by (apply Z.pow_le_mono_r; lia). lia.
Qed.
Lemma overflows_eq prec emax a b : (a == b)%Q -> overflows prec emax a -> overflows prec emax b.
Proof. intros E H. unfold overflows in *. rewrite <- E. exact H. Qed.
Lemma a_nearest_eq prec emax a b x : (a == b)%Q -> a_nearest prec emax a x -> a_nearest prec emax b x.
Proof. intros E (V & q & Q & N). split; [exact V|]. exists q. split; [exact Q|]. intros y r Y R. rewrite <- E. exact (N y r Y R). Qed.
Lemma rounded_eq t a b s x : (a == b)%Q -> rounded t a s x -> rounded t b s x.
Proof.
  intros E [S [[O X]|[O X]]]; (split; [exact S|]).
  - left. split; [eapply overflows_eq; eauto|exact X].
  - right. split; [intros H; apply O; symmetry in E; eapply overflows_eq; eauto|eapply a_nearest_eq; eauto].
Qed.
Lemma rounded_valid t q s x : rounded t q s x -> valid_binary (prec_of t) (emax_of t) x = true.
Proof. intros [_ [[_ ->]|[_ [V _]]]]; [reflexivity|exact V]. Qed.
Lemma dyadic_0 z : (dyadic z 0 == inject_Z z)%Q.
Proof. unfold dyadic. cbn [Qpower]. ring. Qed.
Lemma normalize_rounded t z e s : is_float t = true -> z <> 0 -> rounded t (dyadic z e) (z <? 0) (binary_normalize (prec_of t) (emax_of t) z e s).
Proof.
  intros T Z. destruct (float_format t T) as (F1 & F2 & _). split.
  - destruct z as [|p|p]; [elim Z; reflexivity| |]; cbn [binary_normalize]; apply round_sign; exact F1.
  - exact (normalize_nearest (prec_of t) (emax_of t) F1 F2 z e s Z).
Qed.
Lemma rounded_zero t s : is_float t = true -> rounded t 0 s (S754_zero s).
Proof. intros T. destruct (float_format t T) as (F1 & _). split; [reflexivity|]. right. split; [apply not_overflows_zero; exact F1|apply nearest_zero]. Qed.
Lemma cond_sign s p : (cond_Zopp s (Zpos p) <? 0) = s.
Proof. destruct s; reflexivity. Qed.

Lemma int_value_abs m e : let a := if 0 <=? e then Zpos m * 2 ^ e else Zpos m / 2 ^ (- e) in
  0 <= a /\ (inject_Z a <= dyadic (Zpos m) e)%Q /\ (dyadic (Zpos m) e < inject_Z (a + 1))%Q.
Proof.
  intros a. destruct (Z.leb_spec 0 e) as [H|H]; subst a.
  - assert (P : 0 < 2 ^ e) by (apply Z.pow_pos_nonneg; lia). split; [lia|].
    assert (Q : (dyadic (Zpos m) e == inject_Z (Zpos m * 2 ^ e))%Q) by (rewrite (dyadic_scale (Zpos m) e e H), Z.sub_diag; apply dyadic_0).
    rewrite Q. rewrite <- Zle_Qle, <- Zlt_Qlt. lia.
  - assert (P : 0 < 2 ^ (- e)) by (apply Z.pow_pos_nonneg; lia). split; [apply Z.div_pos; lia|].
    assert (S : forall z, (inject_Z z == dyadic (z * 2 ^ (- e)) e)%Q) by (intros z; rewrite <- (dyadic_0 z), (dyadic_scale z 0 (- e)) by lia; replace (0 - - e) with e by lia; reflexivity).
    pose proof (Z.div_mod (Zpos m) (2 ^ (- e)) ltac:(lia)). pose proof (Z.mod_pos_bound (Zpos m) (2 ^ (- e)) P).
    rewrite !S. split; [apply dyadic_le; nia|]. apply Qnot_le_lt. intros L. apply dyadic_le in L. nia.
Qed.
Definition int_part (x : spec_float) : option Z :=
  match x with
  | S754_zero _ => Some 0
  | S754_finite s m e => Some (cond_Zopp s (if 0 <=? e then Zpos m * 2 ^ e else Zpos m / 2 ^ (- e)))
  | _ => None
  end.
Lemma trunc_int_part t x : trunc_to t x = match x with S754_zero _ => Ok 0 | _ => match int_part x with Some z => if (int_min t <=? z) && (z <=? int_max t) then Ok z else UB | None => UB end end.
Proof. destruct x as [s|s| |[|] m e]; reflexivity. Qed.
Lemma int_part_truncated x z : int_part x = Some z -> exists q, float_value x = Some q /\ truncated q z.
Proof.
  destruct x as [s|s| |s m e]; intros H; try discriminate H; injection H as <-.
  - exists 0%Q. split; [reflexivity|]. unfold truncated. cbn. split; [discriminate|]. split; [reflexivity|discriminate].
  - eexists. split; [reflexivity|]. pose proof (int_value_abs m e) as (A & B & C). set (a := if 0 <=? e then _ else _) in *. clearbody a.
    unfold truncated. assert (AB : (Qabs (dyadic (cond_Zopp s (Zpos m)) e) == dyadic (Zpos m) e)%Q) by (rewrite dyadic_abs; destruct s; reflexivity).
    rewrite AB. replace (Z.abs (cond_Zopp s a)) with a by (destruct s; cbn [cond_Zopp]; lia). split; [exact B|]. split; [exact C|].
    assert (PQ : (0 <= inject_Z a * dyadic (Zpos m) e)%Q). { apply Qmult_le_0_compat; [change (inject_Z 0 <= inject_Z a)%Q; rewrite <- Zle_Qle; exact A|]. apply Qle_trans with (2 := B). change (inject_Z 0 <= inject_Z a)%Q. rewrite <- Zle_Qle. exact A. }
    destruct s; cbn [cond_Zopp]; [|exact PQ]. rewrite dyadic_opp, inject_Z_opp. setoid_replace (- inject_Z a * - dyadic (Zpos m) e)%Q with (inject_Z a * dyadic (Zpos m) e)%Q by ring. exact PQ.
Qed.
Lemma truncated_unique q y z : truncated q y -> truncated q z -> y = z.
Proof.
  intros (A & B & C) (A' & B' & C').
  assert (L1 : (inject_Z (Z.abs y) < inject_Z (Z.abs z + 1))%Q) by (eapply Qle_lt_trans; eauto). assert (L2 : (inject_Z (Z.abs z) < inject_Z (Z.abs y + 1))%Q) by (eapply Qle_lt_trans; eauto).
  rewrite <- Zlt_Qlt in L1, L2. assert (E : Z.abs y = Z.abs z) by lia. destruct (Z.eq_dec y z) as [|N]; [assumption|]. exfalso.
  assert (Y : y = - z) by lia. assert (NZ : z <> 0) by lia. subst y. rewrite inject_Z_opp in C.
  assert (Z0 : (inject_Z z * q == 0)%Q) by lra. apply Qmult_integral in Z0. destruct Z0 as [Z0|Z0].
  - change 0%Q with (inject_Z 0) in Z0. apply NZ. rewrite <- inject_Z_injective. exact Z0.
  - assert (Q0 : (Qabs q == 0)%Q) by (rewrite Z0; reflexivity). rewrite Q0 in A'. change 0%Q with (inject_Z 0) in A'. rewrite <- Zle_Qle in A'. lia.
Qed.
Lemma truncated_eq q r z : (q == r)%Q -> truncated q z -> truncated r z.
Proof. intros E (A & B & C). unfold truncated. rewrite <- E. auto. Qed.
Lemma truncated_int z : truncated (inject_Z z) z.
Proof.
  unfold truncated. change (Qabs (inject_Z z)) with (inject_Z (Z.abs z)). rewrite <- Zle_Qle, <- Zlt_Qlt, <- inject_Z_mult.
  split; [lia|]. split; [lia|]. change (inject_Z 0 <= inject_Z (z * z))%Q. rewrite <- Zle_Qle. nia.
Qed.

Theorem cast_law t v : numeric t = true -> convertible t v -> exists w, cast t v = Ok w /\ converted t v w.
Proof.
  intros N C. destruct (numeric_cases t N) as [[A B]|[A B]]; destruct v as [z|x]; cbn [cast]; rewrite B.
  - eexists. split; [reflexivity|]. pose proof (conv_converts t z A) as H. split; [split; [exact A|apply H]|exact H].
  - destruct (C A) as (q & z & Q & T & R).
    assert (I : exists y, int_part x = Some y) by (destruct x; try discriminate Q; eexists; reflexivity). destruct I as (y & I).
    destruct (int_part_truncated x y I) as (q' & Q' & T'). rewrite Q in Q'. injection Q' as <-. assert (y = z) by (eapply truncated_unique; eauto). subst y.
    assert (TR : trunc_to t x = Ok z).
    { rewrite trunc_int_part, I. destruct x as [s|s| |s m e]; try discriminate I; [injection I as <-; reflexivity|]. unfold in_type in R. replace ((int_min t <=? z) && (z <=? int_max t)) with true by lia. reflexivity. }
    rewrite TR. cbn [obind]. eexists. split; [reflexivity|]. split; [split; assumption|]. exists q. auto.
  - eexists. split; [reflexivity|]. assert (R : rounded t (inject_Z z) (z <? 0) (binary_normalize (prec_of t) (emax_of t) z 0 false)).
    { destruct (Z.eq_dec z 0) as [->|Z]; [exact (rounded_zero t false B)|]. apply (rounded_eq t (dyadic z 0)); [apply dyadic_0|]. apply normalize_rounded; assumption. }
    split; [|exact R]. split; [exact B|]. eapply rounded_valid; eauto.
  - eexists. split; [reflexivity|]. destruct x as [s|s| |s m e]; cbn [to_float]; try (split; [split; [exact B|reflexivity]|reflexivity]).
    + split; [split; [exact B|reflexivity]|]. exact (rounded_zero t s B).
    + assert (R : rounded t (dyadic (cond_Zopp s (Zpos m)) e) s (binary_normalize (prec_of t) (emax_of t) (cond_Zopp s (Zpos m)) e s)).
      { pose proof (normalize_rounded t (cond_Zopp s (Zpos m)) e s B ltac:(destruct s; discriminate)) as R. rewrite cond_sign in R. exact R. }
      split; [|exact R]. split; [exact B|]. eapply rounded_valid; eauto.
Qed.
Theorem cast_undefined t v : ~ convertible t v -> cast t v = UB.
Proof.
  intros C. destruct v as [z|x]; [elim C; exact I|]. cbn [cast]. destruct (is_float t) eqn:F.
  { exfalso. apply C. intros T. destruct t; discriminate. }
  destruct (is_int t) eqn:A; [|exfalso; apply C; intros T; cbn in T; congruence].
  rewrite trunc_int_part. destruct (int_part x) as [z|] eqn:I; [|destruct x; try discriminate I; reflexivity].
  destruct (int_part_truncated x z I) as (q & Q & T).
  assert (R : ~ in_type t z) by (intros R; apply C; intros _; exists q, z; auto).
  destruct x as [s|s| |s m e]; try discriminate I; [injection I as <-; elim R; apply zero_in_type; exact A|].
  unfold in_type in R. replace ((int_min t <=? z) && (z <=? int_max t)) with false by lia. reflexivity.
Qed.
Lemma valid_not_overflows t y q : is_float t = true -> valid_binary (prec_of t) (emax_of t) y = true -> float_value y = Some q -> ~ overflows (prec_of t) (emax_of t) q.
Proof.
  intros T V Q. destruct (float_format t T) as (F1 & F2 & _). set (p := prec_of t) in *. set (em := emax_of t) in *. destruct y as [s|s| |s m e]; try discriminate Q; injection Q as <-.
  - apply not_overflows_zero. exact F1.
  - apply finite_valid in V. destruct V as (V1 & V2 & _). intros O. unfold overflows in O. rewrite dyadic_abs in O.
    replace (Z.abs (cond_Zopp s (Zpos m))) with (Zpos m) in O by (destruct s; reflexivity). unfold emin in V2.
    pose proof (proj1 (dyadic_le2 (2 ^ (p + 1) - 1) (Zpos m) (em - p - 1) e (Z.min (em - p - 1) e) ltac:(lia) ltac:(lia)) O) as L.
    assert (PP : 2 ^ (p + 1) = 2 * 2 ^ p) by (rewrite <- Z.pow_succ_r by lia; f_equal; lia). assert (P0 : 0 < 2 ^ p) by (apply Z.pow_pos_nonneg; lia).
    destruct (Z.eq_dec e (em - p)) as [->|Ne].
    + replace (Z.min (em - p - 1) (em - p)) with (em - p - 1) in L by lia. replace (em - p - 1 - (em - p - 1)) with 0 in L by lia. replace (em - p - (em - p - 1)) with 1 in L by lia. change (2 ^ 0) with 1 in L. change (2 ^ 1) with 2 in L. lia.
    + replace (Z.min (em - p - 1) e) with e in L by lia. rewrite Z.sub_diag in L. change (2 ^ 0) with 1 in L. assert (0 < 2 ^ (em - p - 1 - e)) by (apply Z.pow_pos_nonneg; lia). nia.
Qed.
Theorem cast_exact t v q w r : has t w -> rational v = Some q -> rational w = Some r -> (q == r)%Q ->
  exists w' q', cast t v = Ok w' /\ has t w' /\ rational w' = Some q' /\ (q' == q)%Q.
Proof.
  intros H V W E. assert (N : numeric t = true) by (destruct w; destruct H as [H _]; unfold numeric; rewrite H; [reflexivity|apply Bool.orb_true_r]).
  assert (RN : forall a s y, (a == r)%Q -> is_float t = true -> rounded t a s y -> exists q', float_value y = Some q' /\ (q' == a)%Q).
  { intros a s y A F R. destruct w as [z|x]; destruct H as [H1 H2]; [destruct t; discriminate|]. cbn [rational] in W.
    destruct R as [_ [[O _]|[_ (_ & q' & Q' & B)]]].
    - exfalso. apply (valid_not_overflows t x r F H2 W). eapply overflows_eq; eauto.
    - exists q'. split; [exact Q'|]. specialize (B x r H2 W). assert (Z : (Qabs (r - a) == 0)%Q) by (rewrite A; setoid_replace (r - r)%Q with 0%Q by ring; reflexivity).
      rewrite Z in B. apply Qabs_Qle_condition in B. lra. }
  assert (C : convertible t v).
  { destruct v as [z|x]; [exact I|]. intros F. exists q. destruct w as [z|y]; destruct H as [H1 H2]; [|destruct t; discriminate].
    injection W as <-. exists z. split; [exact V|]. split; [|exact H2]. symmetry in E. apply (truncated_eq _ _ _ E), truncated_int. }
  destruct (cast_law t v N C) as (w' & Ew & Hw & K). exists w'. destruct v as [z|x], w' as [z'|y]; cbn [rational] in *.
  - injection V as <-. destruct Hw as [I R]. destruct w as [z2|x2]; destruct H as [H1 H2]; [|destruct t; discriminate]. injection W as <-.
    apply (proj1 (inject_Z_injective _ _)) in E. subst z2. assert (z' = z) by (apply (converts_unique t z z' z I K); split; [exact H2|rewrite Z.sub_diag; apply Z.mod_0_l; apply Z.pow_nonzero; [lia|pose proof (bits_pos t I); lia]]). subst z'.
    exists (inject_Z z). split; [exact Ew|]. split; [split; assumption|]. split; [reflexivity|apply Qeq_refl].
  - injection V as <-. destruct Hw as [F Vy]. destruct (RN (inject_Z z) _ y E F K) as (q' & Q' & A). exists q'. split; [exact Ew|]. split; [split; assumption|]. split; [exact Q'|exact A].
  - destruct K as (q' & Q' & T). rewrite V in Q'. injection Q' as <-. destruct Hw as [I R]. destruct w as [z2|x2]; destruct H as [H1 H2]; [|destruct t; discriminate]. injection W as <-.
    assert (z' = z2) by (symmetry in E; apply (truncated_unique q z' z2 T); apply (truncated_eq _ _ _ E), truncated_int). subst z'.
    exists (inject_Z z2). split; [exact Ew|]. split; [split; assumption|]. split; [reflexivity|symmetry; exact E].
  - rewrite V in K. destruct Hw as [F Vy]. destruct (RN q _ y E F K) as (q' & Q' & A). exists q'. split; [exact Ew|]. split; [split; assumption|]. split; [exact Q'|exact A].
Qed.
