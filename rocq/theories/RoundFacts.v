(** Rounding to a binary floating point format: [binary_normalize] of Coq's SpecFloat gives a
    number of the format nearest to the one given, ties to even. *)
From Coq Require Import ZArith QArith Qabs Qpower Lia Floats.SpecFloat.
From Verif Require Import Base.
Local Open Scope Z_scope.

(** * Specification *)
(** the number m * 2^e *)
Definition dyadic (m e : Z) : Q := (inject_Z m * Qpower (2 # 1) e)%Q.
(** the number a float stands for; infinities and NaN stand for none *)
Definition float_value (x : spec_float) : option Q :=
  match x with
  | S754_zero _ => Some 0%Q
  | S754_finite s m e => Some (dyadic (cond_Zopp s (Zpos m)) e)
  | _ => None
  end.
(** x is a number of the format and no number of the format is nearer to v *)
Definition a_nearest (prec emax : Z) (v : Q) (x : spec_float) : Prop :=
  valid_binary prec emax x = true /\
  exists q, float_value x = Some q /\
  forall y r, valid_binary prec emax y = true -> float_value y = Some r -> (Qabs (q - v) <= Qabs (r - v))%Q.

(** * Scaling *)
Lemma pow2_pos e : (0 < Qpower (2 # 1) e)%Q.
Proof. apply Qpower_0_lt. reflexivity. Qed.
Lemma dyadic_scale m e k : 0 <= k -> (dyadic m e == dyadic (m * 2 ^ k) (e - k))%Q.
Proof.
  intros K. unfold dyadic. rewrite inject_Z_mult.
  assert (P : (inject_Z (2 ^ k) == Qpower (2 # 1) k)%Q) by (rewrite <- (Zpower_Qpower 2 k K); reflexivity).
  rewrite P, <- Qmult_assoc, <- Qpower_plus by discriminate.
  replace (k + (e - k)) with e by lia. reflexivity.
Qed.
Lemma dyadic_sub a b e : (dyadic a e - dyadic b e == dyadic (a - b) e)%Q.
Proof. unfold dyadic. unfold Zminus. rewrite inject_Z_plus, inject_Z_opp. ring. Qed.
Lemma dyadic_abs a e : (Qabs (dyadic a e) == dyadic (Z.abs a) e)%Q.
Proof.
  unfold dyadic. rewrite Qabs_Qmult. rewrite (Qabs_pos (Qpower _ e)) by (apply Qlt_le_weak, pow2_pos).
  assert (A : (Qabs (inject_Z a) == inject_Z (Z.abs a))%Q) by reflexivity.
  rewrite A. reflexivity.
Qed.
Lemma dyadic_le a b e : (dyadic a e <= dyadic b e)%Q <-> a <= b.
Proof.
  unfold dyadic. split; intros H.
  - apply Qmult_le_r in H; [|apply pow2_pos]. rewrite <- Zle_Qle in H. exact H.
  - apply Qmult_le_r; [apply pow2_pos|]. rewrite <- Zle_Qle. exact H.
Qed.
Lemma dyadic_opp a e : (dyadic (- a) e == - dyadic a e)%Q.
Proof. unfold dyadic. rewrite inject_Z_opp. ring. Qed.
(** comparing distances at a common exponent *)
Lemma near_scaled a b c ea eb ec k : k <= ea -> k <= eb -> k <= ec ->
  ((Qabs (dyadic a ea - dyadic c ec) <= Qabs (dyadic b eb - dyadic c ec))%Q <->
   Z.abs (a * 2 ^ (ea - k) - c * 2 ^ (ec - k)) <= Z.abs (b * 2 ^ (eb - k) - c * 2 ^ (ec - k))).
Proof.
  intros A B C.
  assert (SA : (dyadic a ea == dyadic (a * 2 ^ (ea - k)) k)%Q) by (rewrite (dyadic_scale a ea (ea - k)) by lia; replace (ea - (ea - k)) with k by lia; reflexivity).
  assert (SB : (dyadic b eb == dyadic (b * 2 ^ (eb - k)) k)%Q) by (rewrite (dyadic_scale b eb (eb - k)) by lia; replace (eb - (eb - k)) with k by lia; reflexivity).
  assert (SC : (dyadic c ec == dyadic (c * 2 ^ (ec - k)) k)%Q) by (rewrite (dyadic_scale c ec (ec - k)) by lia; replace (ec - (ec - k)) with k by lia; reflexivity).
  rewrite SA, SB, SC, !dyadic_sub, !dyadic_abs. apply dyadic_le.
Qed.

(** * Shifting right *)
Lemma iter_S_r {A} (f : A -> A) n x : Nat.iter (S n) f x = Nat.iter n f (f x).
Proof. induction n as [|n IH]; [reflexivity|]. change (f (Nat.iter (S n) f x) = f (Nat.iter n f (f x))). f_equal. exact IH. Qed.
Lemma iter_plus {A} (f : A -> A) n k x : Nat.iter (n + k) f x = Nat.iter n f (Nat.iter k f x).
Proof. induction n as [|n IH]; [reflexivity|]. change (f (Nat.iter (n + k) f x) = f (Nat.iter n f (Nat.iter k f x))). f_equal. exact IH. Qed.
Lemma iter_pos_nat {A} (f : A -> A) p x : SpecFloat.iter_pos f p x = Nat.iter (Pos.to_nat p) f x.
Proof.
  revert x. induction p as [p IH|p IH|]; intros x; cbn [SpecFloat.iter_pos].
  - rewrite !IH, <- !iter_plus. rewrite Pos2Nat.inj_xI. cbn [Nat.mul]. rewrite Nat.add_0_r, iter_S_r. reflexivity.
  - rewrite !IH, <- !iter_plus. rewrite Pos2Nat.inj_xO. cbn [Nat.mul]. rewrite Nat.add_0_r. reflexivity.
  - reflexivity.
Qed.
Lemma shr_1_spec m r s : 0 <= m ->
  shr_1 {| shr_m := m; shr_r := r; shr_s := s |} = {| shr_m := m / 2; shr_r := Z.odd m; shr_s := r || s |}.
Proof.
  intros H. destruct m as [|[p|p|]|p]; [reflexivity| | |reflexivity|lia]; cbn [shr_1 Z.odd].
  - change (Zpos p~1) with (2 * Zpos p + 1). rewrite <- (Z.div_unique (2 * Zpos p + 1) 2 (Zpos p) 1) by lia. reflexivity.
  - change (Zpos p~0) with (2 * Zpos p). rewrite (Z.mul_comm 2), Z.div_mul by lia. reflexivity.
Qed.
Lemma shr_iter m n : 0 <= m ->
  Nat.iter (S n) shr_1 {| shr_m := m; shr_r := false; shr_s := false |} =
  {| shr_m := m / 2 ^ Z.of_nat (S n); shr_r := Z.odd (m / 2 ^ Z.of_nat n); shr_s := negb (m mod 2 ^ Z.of_nat n =? 0) |}.
Proof.
  intros H. induction n as [|n IH].
  - change (Nat.iter 1 shr_1 {| shr_m := m; shr_r := false; shr_s := false |}) with (shr_1 {| shr_m := m; shr_r := false; shr_s := false |}).
    rewrite shr_1_spec by exact H. cbn [Z.of_nat]. change (2 ^ Zpos (Pos.of_succ_nat 0)) with 2. rewrite Z.pow_0_r, Z.div_1_r, Z.mod_1_r. reflexivity.
  - change (Nat.iter (S (S n)) shr_1 ?x) with (shr_1 (Nat.iter (S n) shr_1 x)). rewrite IH, shr_1_spec by (apply Z.div_pos; [exact H|apply Z.pow_pos_nonneg; lia]).
    assert (P : 2 ^ Z.of_nat (S n) = 2 * 2 ^ Z.of_nat n) by (rewrite Nat2Z.inj_succ, Z.pow_succ_r by lia; reflexivity).
    assert (P0 : 0 < 2 ^ Z.of_nat n) by (apply Z.pow_pos_nonneg; lia).
    f_equal.
    + rewrite (Nat2Z.inj_succ (S n)), Z.pow_succ_r by lia. rewrite Z.div_div by lia. f_equal. lia.
    + rewrite P. rewrite (Z.mul_comm 2), Z.rem_mul_r by lia.
      rewrite Zodd_mod. pose proof (Z.mod_pos_bound m (2 ^ Z.of_nat n) P0). pose proof (Z.mod_pos_bound (m / 2 ^ Z.of_nat n) 2 ltac:(lia)).
      destruct (Z.eqb_spec (m mod 2 ^ Z.of_nat n) 0) as [E|E]; cbn [negb orb].
      * rewrite E, Bool.orb_false_r. destruct (Z.eqb_spec (0 + 2 ^ Z.of_nat n * ((m / 2 ^ Z.of_nat n) mod 2)) 0) as [F|F]; cbn [negb]; unfold Zeq_bool;
        destruct (Z.compare_spec ((m / 2 ^ Z.of_nat n) mod 2) 1); try reflexivity; nia.
      * rewrite Bool.orb_true_r. destruct (Z.eqb_spec (m mod 2 ^ Z.of_nat n + 2 ^ Z.of_nat n * ((m / 2 ^ Z.of_nat n) mod 2)) 0); [nia|reflexivity].
Qed.
(** m / 2^n to the nearest integer, ties to even *)
Definition halfway (m d k : Z) : Prop := 2 * Z.abs (k * d - m) <= d /\ (2 * Z.abs (k * d - m) = d -> Z.even k = true).
Lemma shr_round m n : 0 <= m -> 0 <= n ->
  let '(r, _) := shr (shr_record_of_loc m loc_Exact) 0 n in
  halfway m (2 ^ n) (round_nearest_even (shr_m r) (loc_of_shr_record r)).
Proof.
  intros M N. cbn [shr_record_of_loc shr]. destruct n as [|p|p]; [|clear N|lia]; cbn [shr].
  - cbn [shr_m loc_of_shr_record round_nearest_even]. split; rewrite Z.pow_0_r; [lia|]. intros H. exfalso. lia.
  - rewrite iter_pos_nat. destruct (Pos2Nat.is_succ p) as (k & K). rewrite K, shr_iter by exact M.
    assert (E : Zpos p = Z.of_nat (S k)) by lia. rewrite E.
    assert (P : 2 ^ Z.of_nat (S k) = 2 * 2 ^ Z.of_nat k) by (rewrite Nat2Z.inj_succ, Z.pow_succ_r by lia; reflexivity).
    assert (P0 : 0 < 2 ^ Z.of_nat k) by (apply Z.pow_pos_nonneg; lia).
    set (d := 2 ^ Z.of_nat k) in *. rewrite P. cbn [shr_m].
    pose proof (Z.div_mod m d ltac:(lia)) as D1. pose proof (Z.mod_pos_bound m d P0) as B1.
    pose proof (Z.div_mod (m / d) 2 ltac:(lia)) as D2. pose proof (Z.mod_pos_bound (m / d) 2 ltac:(lia)) as B2.
    rewrite Z.div_div, (Z.mul_comm d 2) in D2 by lia. rewrite Zodd_mod. set (q := m / (2 * d)) in *. set (r := m mod d) in *.
    unfold Zeq_bool. destruct (Z.compare_spec ((m / d) mod 2) 1) as [O|O|O].
    + destruct (Z.eqb_spec r 0) as [R|R]; cbn [negb loc_of_shr_record round_nearest_even].
      * unfold halfway. destruct (Z.even q) eqn:Q; cbn [negb]. { split; [nia|]. intros _. exact Q. }
        split; [nia|]. intros _. rewrite Z.even_add, Q. reflexivity.
      * unfold halfway. split; nia.
    + assert (O' : (m / d) mod 2 = 0) by lia. rewrite O' in D2.
      destruct (Z.eqb_spec r 0) as [R|R]; cbn [negb loc_of_shr_record round_nearest_even]; unfold halfway; split; nia.
    + lia.
Qed.

(** * The rounded number *)
Section Round.
Variables prec emax : Z.
Hypothesis Hp : 1 < prec.
Hypothesis He : prec < emax.

Lemma digits_bound p : 2 ^ (Zpos (digits2_pos p) - 1) <= Zpos p < 2 ^ Zpos (digits2_pos p).
Proof.
  induction p as [p IH|p IH|]; cbn [digits2_pos].
  - rewrite Pos2Z.inj_succ. replace (Z.succ (Zpos (digits2_pos p)) - 1) with (Z.succ (Zpos (digits2_pos p) - 1)) by lia.
    rewrite !Z.pow_succ_r by lia. lia.
  - rewrite Pos2Z.inj_succ. replace (Z.succ (Zpos (digits2_pos p)) - 1) with (Z.succ (Zpos (digits2_pos p) - 1)) by lia.
    rewrite !Z.pow_succ_r by lia. lia.
  - cbn. lia.
Qed.
Lemma digits_unique p d : 2 ^ (d - 1) <= Zpos p < 2 ^ d -> 0 < d -> Zpos (digits2_pos p) = d.
Proof.
  intros [A B] D. pose proof (digits_bound p) as [F G].
  destruct (Z.lt_trichotomy (Zpos (digits2_pos p)) d) as [H|[H|H]]; [|exact H|].
  - assert (2 ^ Zpos (digits2_pos p) <= 2 ^ (d - 1)) by (apply Z.pow_le_mono_r; lia). lia.
  - assert (2 ^ d <= 2 ^ (Zpos (digits2_pos p) - 1)) by (apply Z.pow_le_mono_r; lia). lia.
Qed.
Lemma digits_mono p d : Zpos p < 2 ^ d -> Zpos (digits2_pos p) <= d.
Proof.
  intros H. pose proof (digits_bound p) as [F _].
  assert (0 <= d). { destruct (Z.le_gt_cases 0 d); [assumption|]. rewrite Z.pow_neg_r in H by assumption. lia. }
  destruct (Z.le_gt_cases (Zpos (digits2_pos p)) d); [assumption|].
  assert (2 ^ d <= 2 ^ (Zpos (digits2_pos p) - 1)) by (apply Z.pow_le_mono_r; lia). lia.
Qed.
(** k * 2^e as a float, for k <= 2^prec *)
Definition as_float (s : bool) (k e : Z) : spec_float :=
  match k with
  | Zpos p => if k =? 2 ^ prec then if e + 1 <=? emax - prec then S754_finite s (Z.to_pos (2 ^ (prec - 1))) (e + 1) else S754_infinity s
              else if e <=? emax - prec then S754_finite s p e else S754_infinity s
  | _ => S754_zero s
  end.
Lemma shr_neg r e n : n <= 0 -> shr r e n = (r, e).
Proof. intros H. destruct n; [reflexivity|lia|reflexivity]. Qed.
Lemma shr_move r e n : shr r e n = (fst (shr r 0 n), e + Z.max 0 n).
Proof. destruct n; cbn [shr fst]; f_equal; lia. Qed.
Lemma second_shift s k e : 0 <= k <= 2 ^ prec -> emin prec emax <= e ->
  (let '(r, e'') := shr_fexp prec emax k e loc_Exact in
   match shr_m r with
   | Z0 => S754_zero s
   | Zpos m => if e'' <=? emax - prec then S754_finite s m e'' else S754_infinity s
   | _ => S754_nan
   end) = as_float s k e.
Proof.
  intros [K0 K] E. unfold shr_fexp. destruct k as [|p|p]; [| |lia].
  - cbn [Zdigits2 shr_record_of_loc]. rewrite shr_neg; [reflexivity|]. unfold fexp. lia.
  - cbn [Zdigits2 shr_record_of_loc as_float]. destruct (Z.eqb_spec (Zpos p) (2 ^ prec)) as [F|F].
    + assert (D : Zpos (digits2_pos p) = prec + 1).
      { apply digits_unique; [|lia]. rewrite F. replace (prec + 1 - 1) with prec by lia. split; [lia|]. apply Z.pow_lt_mono_r; lia. }
      rewrite D. unfold fexp. replace (Z.max (prec + 1 + e - prec) (emin prec emax) - e) with 1 by lia.
      cbn [shr SpecFloat.iter_pos]. rewrite shr_1_spec by lia. cbn [shr_m]. rewrite F.
      replace (2 ^ prec) with (2 ^ (prec - 1) * 2) by (rewrite Z.mul_comm, <- Z.pow_succ_r by lia; f_equal; lia).
      rewrite Z.div_mul by lia. destruct (2 ^ (prec - 1)) as [|q|q] eqn:Q.
      * assert (0 < 2 ^ (prec - 1)) by (apply Z.pow_pos_nonneg; lia). lia.
      * cbn [Z.to_pos]. destruct (e + 1 <=? emax - prec); reflexivity.
      * assert (0 < 2 ^ (prec - 1)) by (apply Z.pow_pos_nonneg; lia). lia.
    + rewrite shr_neg; [cbn [shr_m]; reflexivity|]. unfold fexp.
      assert (Zpos (digits2_pos p) <= prec) by (apply digits_mono; lia). lia.
Qed.
Definition low_exp (m : positive) (e : Z) : Z := fexp prec emax (Zpos (digits2_pos m) + e).
Lemma halfway_bound m d k b : 0 < d -> m <= b * d -> halfway m d k -> k <= b.
Proof. intros D M [H _]. destruct (Z.le_gt_cases k b); [assumption|]. nia. Qed.
Lemma halfway_pos m d k : 0 < d -> 0 <= m -> halfway m d k -> 0 <= k.
Proof. intros D M [H T]. destruct (Z.le_gt_cases 0 k); [assumption|]. assert (k = -1) by nia. subst k. assert (2 * Z.abs (-1 * d - m) = d) by lia. lia. Qed.
Theorem round_shape s m e :
  let e' := low_exp m e in
  exists k, 0 <= k <= 2 ^ prec /\ binary_round prec emax s m e = as_float s k e' /\
    (e' <= e -> k = Zpos m * 2 ^ (e - e')) /\ (e < e' -> halfway (Zpos m) (2 ^ (e' - e)) k).
Proof.
  intros e'. pose proof (digits_bound m) as [D1 D2]. set (d := Zpos (digits2_pos m)) in *.
  assert (E1 : e' = Z.max (d + e - prec) (emin prec emax)) by reflexivity.
  unfold binary_round, shl_align. change (fexp prec emax (Z.pos (digits2_pos m) + e)) with e'.
  destruct (Z.le_gt_cases e' e) as [L|L].
  - assert (K : forall z, 0 < z -> z = Zpos m * 2 ^ (e - e') -> 0 <= z <= 2 ^ prec).
    { intros z Z0 ->. split; [lia|]. apply Z.le_trans with (2 ^ d * 2 ^ (e - e')); [apply Z.mul_le_mono_nonneg_r; [apply Z.pow_nonneg; lia|lia]|].
      rewrite <- Z.pow_add_r by lia. apply Z.pow_le_mono_r; lia. }
    exists (Zpos m * 2 ^ (e - e')). split; [apply K; [|reflexivity]; apply Z.mul_pos_pos; [lia|apply Z.pow_pos_nonneg; lia]|].
    split; [|split; [reflexivity|lia]].
    assert (S : forall z, Zpos z = Zpos m * 2 ^ (e - e') -> binary_round_aux prec emax s (Zpos z) e' loc_Exact = as_float s (Zpos m * 2 ^ (e - e')) e').
    { intros z Z. pose proof (K (Zpos z) ltac:(lia) Z) as Kz. unfold binary_round_aux.
      assert (F : shr_fexp prec emax (Zpos z) e' loc_Exact = ({| shr_m := Zpos z; shr_r := false; shr_s := false |}, e')).
      { unfold shr_fexp. cbn [Zdigits2 shr_record_of_loc]. apply shr_neg. unfold fexp.
        assert (Zpos (digits2_pos z) = d + (e - e')).
        { apply digits_unique; [|lia]. rewrite Z. replace (d + (e - e') - 1) with (d - 1 + (e - e')) by lia. rewrite !Z.pow_add_r by lia.
          assert (0 < 2 ^ (e - e')) by (apply Z.pow_pos_nonneg; lia). nia. }
        lia. }
      rewrite F. cbn [shr_m loc_of_shr_record round_nearest_even]. rewrite <- Z. apply second_shift; [exact Kz|lia]. }
    destruct (e' - e) as [|p|p] eqn:P; [|lia|].
    + replace e with e' at 1 by lia. apply S. replace (e - e') with 0 by lia. lia.
    + apply S. rewrite shift_pos_correct, Z.mul_comm. f_equal. change (Z.pow_pos 2 p) with (2 ^ Zpos p). f_equal. lia.
  - assert (Q : (match e' - e with Z.neg d0 => (shift_pos d0 m, e') | _ => (m, e) end) = (m, e)).
    { destruct (e' - e) eqn:P; [lia|reflexivity|lia]. }
    rewrite Q. unfold binary_round_aux; unfold shr_fexp at 1. cbn [Zdigits2]. fold d. change (fexp prec emax (d + e)) with e'.
    rewrite shr_move. pose proof (shr_round (Zpos m) (e' - e) ltac:(lia) ltac:(lia)) as R.
    destruct (shr (shr_record_of_loc (Zpos m) loc_Exact) 0 (e' - e)) as [r x]. cbn [fst].
    set (k := round_nearest_even (shr_m r) (loc_of_shr_record r)) in *.
    replace (e + Z.max 0 (e' - e)) with e' by lia.
    assert (P : 0 < 2 ^ (e' - e)) by (apply Z.pow_pos_nonneg; lia).
    assert (K : 0 <= k <= 2 ^ prec).
    { split; [exact (halfway_pos (Zpos m) (2 ^ (e' - e)) k P ltac:(lia) R)|]. apply (halfway_bound (Zpos m) (2 ^ (e' - e)) k); [exact P| |exact R].
      rewrite <- Z.pow_add_r by lia. apply Z.le_trans with (2 ^ d); [lia|]. apply Z.pow_le_mono_r; lia. }
    exists k. split; [exact K|]. split; [apply second_shift; [exact K|lia]|]. split; [lia|]. intros _. exact R.
Qed.

(** what round_shape says of m * 2^e, k and e' *)
Definition shape (m : positive) (e k e' : Z) : Prop :=
  0 <= k <= 2 ^ prec /\ e' = low_exp m e /\
  (e' <= e -> k = Zpos m * 2 ^ (e - e')) /\ (e < e' -> halfway (Zpos m) (2 ^ (e' - e)) k).
Lemma pow_pos n : 0 <= n -> 0 < 2 ^ n.
Proof. intros H. apply Z.pow_pos_nonneg; lia. Qed.
Lemma shape_emin m e k e' : shape m e k e' -> emin prec emax <= e'.
Proof. intros (_ & -> & _). unfold low_exp, fexp. lia. Qed.
Lemma halfway_low m d k b : 0 < d -> b * d <= m -> halfway m d k -> b <= k.
Proof. intros D M [H T]. destruct (Z.le_gt_cases b k); [assumption|]. nia. Qed.
Lemma shape_low m e k e' : shape m e k e' -> emin prec emax < e' ->
  2 ^ (prec - 1) <= k /\ (e < e' -> 2 ^ (prec - 1) * 2 ^ (e' - e) <= Zpos m).
Proof.
  intros (K & E & A & B) L. pose proof (digits_bound m) as [D1 D2]. unfold low_exp, fexp in E.
  assert (E1 : e' = Zpos (digits2_pos m) + e - prec) by lia.
  destruct (Z.le_gt_cases e' e) as [C|C].
  - split; [|lia]. rewrite (A C). apply Z.le_trans with (2 ^ (Zpos (digits2_pos m) - 1) * 2 ^ (e - e')).
    + rewrite <- Z.pow_add_r by lia. apply Z.pow_le_mono_r; lia.
    + apply Z.mul_le_mono_nonneg_r; [apply Z.pow_nonneg; lia|exact D1].
  - assert (M : 2 ^ (prec - 1) * 2 ^ (e' - e) <= Zpos m).
    { rewrite <- Z.pow_add_r by lia. replace (prec - 1 + (e' - e)) with (Zpos (digits2_pos m) - 1) by lia. exact D1. }
    split; [|intros _; exact M]. apply (halfway_low (Zpos m) (2 ^ (e' - e))); [apply pow_pos; lia|exact M|exact (B C)].
Qed.
Lemma valid_finite s p e : Zpos p < 2 ^ prec -> emin prec emax <= e <= emax - prec ->
  (e = emin prec emax \/ 2 ^ (prec - 1) <= Zpos p) -> valid_binary prec emax (S754_finite s p e) = true.
Proof.
  intros P E C. cbn [valid_binary]. unfold bounded, canonical_mantissa. apply Bool.andb_true_iff. split; [|apply Zle_is_le_bool; lia].
  apply Zeq_is_eq_bool. unfold fexp. pose proof (digits_mono p prec P).
  destruct C as [->|C]; [lia|]. rewrite (digits_unique p prec ltac:(lia) ltac:(lia)). lia.
Qed.
Lemma finite_valid s p e : valid_binary prec emax (S754_finite s p e) = true ->
  Zpos p < 2 ^ prec /\ emin prec emax <= e <= emax - prec /\ (e = emin prec emax \/ 2 ^ (prec - 1) <= Zpos p).
Proof.
  cbn [valid_binary]. unfold bounded, canonical_mantissa. rewrite Bool.andb_true_iff. intros [C L].
  apply Zeq_bool_eq in C. apply Zle_is_le_bool in L. unfold fexp in C. pose proof (digits_bound p) as [D1 D2].
  split; [|split; [lia|]].
  - apply Z.lt_le_trans with (2 ^ Zpos (digits2_pos p)); [exact D2|]. apply Z.pow_le_mono_r; lia.
  - destruct (Z.eq_dec e (emin prec emax)); [left; assumption|right].
    replace (prec - 1) with (Zpos (digits2_pos p) - 1) by lia. exact D1.
Qed.
Lemma as_float_valid s m e k e' : shape m e k e' -> valid_binary prec emax (as_float s k e') = true.
Proof.
  intros Sh. pose proof (shape_emin _ _ _ _ Sh) as E. pose proof Sh as (K & _). unfold as_float.
  destruct k as [|p|p]; [reflexivity| |reflexivity].
  destruct (Z.eqb_spec (Zpos p) (2 ^ prec)) as [F|F].
  - destruct (Z.leb_spec (e' + 1) (emax - prec)); [|reflexivity].
    assert (P : 0 < 2 ^ (prec - 1)) by (apply pow_pos; lia).
    apply valid_finite; rewrite ?Z2Pos.id by exact P; [apply Z.pow_lt_mono_r; lia|lia|right; lia].
  - destruct (Z.leb_spec e' (emax - prec)); [|reflexivity].
    apply valid_finite; [lia|lia|]. destruct (Z.eq_dec e' (emin prec emax)); [left; assumption|right].
    apply (shape_low _ _ _ _ Sh). lia.
Qed.
Lemma as_float_value s k e q : 0 <= k -> float_value (as_float s k e) = Some q -> (q == dyadic (cond_Zopp s k) e)%Q.
Proof.
  intros K. unfold as_float. destruct k as [|p|p]; [| |lia].
  - cbn. intros H. injection H as <-. unfold dyadic. destruct s; cbn [cond_Zopp Z.opp]; ring.
  - destruct (Z.eqb_spec (Zpos p) (2 ^ prec)) as [F|F].
    + destruct (e + 1 <=? emax - prec); [|discriminate]. cbn [float_value]. intros H. injection H as <-.
      rewrite (dyadic_scale _ (e + 1) 1) by lia. replace (e + 1 - 1) with e by lia.
      rewrite Z2Pos.id by (apply pow_pos; lia). rewrite F.
      assert (G : 2 ^ prec = 2 ^ (prec - 1) * 2 ^ 1) by (rewrite <- Z.pow_add_r by lia; f_equal; lia). rewrite G.
      destruct s; cbn [cond_Zopp]; [rewrite Z.mul_opp_l|]; reflexivity.
    + destruct (e <=? emax - prec); [|discriminate]. cbn [float_value]. intros H. injection H as <-. reflexivity.
Qed.
(** no number with at most [prec] bits and an exponent of at least [emin] is nearer *)
Lemma shape_nearest m e k e' j f : shape m e k e' -> Z.abs j < 2 ^ prec -> emin prec emax <= f ->
  (Qabs (dyadic k e' - dyadic (Zpos m) e) <= Qabs (dyadic j f - dyadic (Zpos m) e))%Q.
Proof.
  intros Sh J F. pose proof Sh as (K & E & A & B). destruct (Z.le_gt_cases e' e) as [C|C].
  - rewrite (A C). rewrite (dyadic_scale (Zpos m) e (e - e')) by lia. replace (e - (e - e')) with e' by lia.
    setoid_replace (dyadic (Zpos m * 2 ^ (e - e')) e' - dyadic (Zpos m * 2 ^ (e - e')) e')%Q with 0%Q by ring.
    change (Qabs 0) with 0%Q. apply Qabs_nonneg.
  - specialize (B C). assert (P : 0 < 2 ^ (e' - e)) by (apply pow_pos; lia).
    assert (N : forall i, Z.abs (k * 2 ^ (e' - e) - Zpos m) <= Z.abs (i * 2 ^ (e' - e) - Zpos m)).
    { intros i. destruct B as [H T]. destruct (Z.eq_dec i k) as [->|D]; [lia|].
      assert (1 * 2 ^ (e' - e) <= Z.abs (i - k) * 2 ^ (e' - e)) by (apply Z.mul_le_mono_nonneg_r; lia).
      assert (Z.abs (i - k) * 2 ^ (e' - e) = Z.abs (i * 2 ^ (e' - e) - k * 2 ^ (e' - e))).
      { rewrite <- Z.mul_sub_distr_r, Z.abs_mul, (Z.abs_eq (2 ^ (e' - e))) by lia. reflexivity. }
      lia. }
    destruct (Z.le_gt_cases e' f) as [G|G].
    + apply (near_scaled k j (Zpos m) e' f e e); [lia..|]. rewrite Z.sub_diag, Z.pow_0_r, Z.mul_1_r.
      replace (f - e) with (f - e' + (e' - e)) by lia. rewrite Z.pow_add_r, Z.mul_assoc by lia. apply N.
    + destruct (shape_low _ _ _ _ Sh ltac:(lia)) as [_ M]. specialize (M C).
      set (h := Z.min e f). apply (near_scaled k j (Zpos m) e' f e h); [lia..|].
      replace (e' - h) with (e' - e + (e - h)) by lia. rewrite Z.pow_add_r, Z.mul_assoc by lia.
      assert (Ph : 0 < 2 ^ (e - h)) by (apply pow_pos; lia).
      specialize (N (2 ^ (prec - 1))). rewrite <- Z.mul_sub_distr_r, Z.abs_mul, (Z.abs_eq (2 ^ (e - h))) by lia.
      apply Z.le_trans with (Z.abs (2 ^ (prec - 1) * 2 ^ (e' - e) - Zpos m) * 2 ^ (e - h)); [apply Z.mul_le_mono_nonneg_r; lia|].
      rewrite Z.abs_neq by lia.
      assert (L : j * 2 ^ (f - h) <= 2 ^ (prec - 1) * 2 ^ (e' - e) * 2 ^ (e - h)).
      { rewrite <- !Z.pow_add_r by lia. apply Z.le_trans with (2 ^ prec * 2 ^ (f - h)); [apply Z.mul_le_mono_nonneg_r; [apply Z.pow_nonneg|]; lia|].
        rewrite <- Z.pow_add_r by lia. apply Z.pow_le_mono_r; lia. }
      lia.
Qed.
Definition overflows (v : Q) : Prop := (dyadic (2 ^ (prec + 1) - 1) (emax - prec - 1) <= Qabs v)%Q.
Lemma dyadic_le2 a b ea eb k : k <= ea -> k <= eb -> ((dyadic a ea <= dyadic b eb)%Q <-> a * 2 ^ (ea - k) <= b * 2 ^ (eb - k)).
Proof.
  intros A B.
  assert (SA : (dyadic a ea == dyadic (a * 2 ^ (ea - k)) k)%Q) by (rewrite (dyadic_scale a ea (ea - k)) by lia; replace (ea - (ea - k)) with k by lia; reflexivity).
  assert (SB : (dyadic b eb == dyadic (b * 2 ^ (eb - k)) k)%Q) by (rewrite (dyadic_scale b eb (eb - k)) by lia; replace (eb - (eb - k)) with k by lia; reflexivity).
  rewrite SA, SB. apply dyadic_le.
Qed.
Lemma shape_infinite s m e k e' : shape m e k e' ->
  (as_float s k e' = S754_infinity s <-> overflows (dyadic (Zpos m) e)) /\
  (as_float s k e' <> S754_infinity s -> exists q, float_value (as_float s k e') = Some q).
Proof.
  intros Sh. split; [|].
  2: { intros H. unfold as_float in *. destruct k as [|p|p]; [eexists; reflexivity| |eexists; reflexivity].
       destruct (Zpos p =? 2 ^ prec); [destruct (e' + 1 <=? emax - prec)|destruct (e' <=? emax - prec)]; try (elim H; reflexivity); eexists; reflexivity. }
  pose proof Sh as (K & E & A & B). pose proof (digits_bound m) as [D1 D2].
  set (d := Zpos (digits2_pos m)) in *. assert (E1 : e' = Z.max (d + e - prec) (emin prec emax)) by (rewrite E; reflexivity).
  assert (EM : emin prec emax = 3 - emax - prec) by reflexivity.
  unfold overflows. rewrite dyadic_abs. cbn [Z.abs]. set (h := Z.min e (emax - prec - 1)).
  rewrite (dyadic_le2 _ _ _ _ h) by lia. set (T := 2 ^ (prec + 1) - 1).
  assert (TH : T < 2 ^ (prec + 1)) by (unfold T; lia). assert (T0 : 2 ^ prec < T) by (unfold T; rewrite Z.pow_add_r by lia; pose proof (pow_pos prec ltac:(lia)); pose proof (Z.pow_le_mono_r 2 1 prec ltac:(lia) ltac:(lia)); lia).
  assert (P1 : 0 < 2 ^ (emax - prec - 1 - h)) by (apply pow_pos; lia). assert (P2 : 0 < 2 ^ (e - h)) by (apply pow_pos; lia).
  destruct (Z.le_gt_cases e' (emax - prec)) as [C|C].
  - (* e' <= emax - prec *)
    assert (V : Zpos m * 2 ^ (e - h) < 2 ^ (prec + e' - h) \/ prec + e' - h < 0).
    { destruct (Z.le_gt_cases 0 (prec + e' - h)); [left|right; assumption].
      apply Z.lt_le_trans with (2 ^ d * 2 ^ (e - h)); [apply Z.mul_lt_mono_pos_r; assumption|].
      rewrite <- Z.pow_add_r by lia. apply Z.pow_le_mono_r; lia. }
    destruct (Z.eq_dec e' (emax - prec)) as [F|F].
    + assert (IFF : as_float s k e' = S754_infinity s <-> k = 2 ^ prec).
      { unfold as_float. pose proof (pow_pos prec ltac:(lia)). destruct k as [|p|p]; [split; [discriminate|lia]| |lia].
        destruct (Z.eqb_spec (Zpos p) (2 ^ prec)) as [Q|Q].
        - destruct (Z.leb_spec (e' + 1) (emax - prec)); [lia|]. split; intros _; [exact Q|reflexivity].
        - destruct (Z.leb_spec e' (emax - prec)); [|lia]. split; [discriminate|]. intros X. elim Q. exact X. }
      rewrite IFF. destruct (Z.le_gt_cases e' e) as [G|G].
      * assert (Hh : h = e' - 1) by lia. rewrite Hh. replace (emax - prec - 1 - (e' - 1)) with 0 by lia. rewrite Z.pow_0_r, Z.mul_1_r.
        replace (e - (e' - 1)) with (e - e' + 1) by lia. rewrite Z.pow_add_r by lia. rewrite Z.mul_assoc, <- (A G). change (2 ^ 1) with 2.
        unfold T. rewrite Z.pow_add_r by lia. change (2 ^ 1) with 2. lia.
      * specialize (B G). assert (Hh : h = e) by lia. rewrite Hh, Z.sub_diag, Z.pow_0_r, Z.mul_1_r.
        replace (emax - prec - 1 - e) with (e' - e - 1) by lia.
        assert (D : 2 ^ (e' - e) = 2 * 2 ^ (e' - e - 1)) by (rewrite <- Z.pow_succ_r by lia; f_equal; lia).
        rewrite D in B. unfold T. rewrite Z.pow_add_r by lia. change (2 ^ 1) with 2.
        pose proof (pow_pos (e' - e - 1) ltac:(lia)). set (u := 2 ^ (e' - e - 1)) in *. destruct B as [B1 B2].
        split; [intros ->; nia|]. intros L. destruct (Z.eq_dec k (2 ^ prec)) as [Q|Q]; [exact Q|exfalso].
        assert (k <= 2 ^ prec - 1) by lia. assert (k * (2 * u) <= (2 ^ prec - 1) * (2 * u)) by (apply Z.mul_le_mono_nonneg_r; lia).
        assert (B3 : k = 2 ^ prec - 1) by nia. subst k. assert (B4 : 2 * Z.abs ((2 ^ prec - 1) * (2 * u) - Zpos m) = 2 * u) by nia.
        specialize (B2 B4). rewrite Z.even_sub, Z.even_pow in B2 by lia. discriminate.
    + assert (N : as_float s k e' <> S754_infinity s).
      { unfold as_float. destruct k as [|p|p]; [discriminate| |discriminate]. destruct (Zpos p =? 2 ^ prec).
        - destruct (Z.leb_spec (e' + 1) (emax - prec)); [discriminate|lia].
        - destruct (Z.leb_spec e' (emax - prec)); [discriminate|lia]. }
      split; [intros H; elim (N H)|]. intros H. exfalso.
      assert (2 ^ prec * 2 ^ (emax - prec - 1 - h) < T * 2 ^ (emax - prec - 1 - h)) by (apply Z.mul_lt_mono_pos_r; assumption).
      rewrite <- Z.pow_add_r in * by lia.
      assert (V' : Zpos m * 2 ^ (e - h) < 2 ^ (prec + (emax - prec - 1 - h))).
      { destruct V as [V|V]; [|lia]. apply Z.lt_le_trans with (1 := V). apply Z.pow_le_mono_r; lia. }
      lia.
  - (* overflow for certain *)
    destruct (shape_low _ _ _ _ Sh ltac:(lia)) as [KL _]. pose proof (pow_pos (prec - 1) ltac:(lia)) as P3.
    split; [intros _|intros _].
    + apply Z.le_trans with (2 ^ (prec + 1) * 2 ^ (emax - prec - 1 - h)); [apply Z.mul_le_mono_nonneg_r; lia|].
      apply Z.le_trans with (2 ^ (d - 1) * 2 ^ (e - h)); [|apply Z.mul_le_mono_nonneg_r; lia].
      rewrite <- !Z.pow_add_r by lia. apply Z.pow_le_mono_r; lia.
    + unfold as_float. destruct k as [|p|p]; [lia| |lia]. destruct (Zpos p =? 2 ^ prec).
      * destruct (Z.leb_spec (e' + 1) (emax - prec)); [lia|reflexivity].
      * destruct (Z.leb_spec e' (emax - prec)); [lia|reflexivity].
Qed.
Lemma dyadic_cond s k e : (dyadic (cond_Zopp s k) e == (if s then -1 # 1 else 1) * dyadic k e)%Q.
Proof. destruct s; cbn [cond_Zopp]; [rewrite dyadic_opp|]; ring. Qed.
Lemma binary_round_nearest s m e : let v := dyadic (cond_Zopp s (Zpos m)) e in let x := binary_round prec emax s m e in
  (overflows v /\ x = S754_infinity s) \/ (~ overflows v /\ a_nearest prec emax v x).
Proof.
  intros v x. unfold x. destruct (round_shape s m e) as (k & K & -> & A & B). set (e' := low_exp m e) in *.
  assert (Sh : shape m e k e') by (split; [exact K|split; [reflexivity|split; assumption]]).
  assert (O : overflows v <-> overflows (dyadic (Zpos m) e)).
  { unfold overflows, v. rewrite !dyadic_abs. destruct s; cbn [cond_Zopp Z.opp Z.abs]; reflexivity. }
  destruct (shape_infinite s m e k e' Sh) as [I F].
  assert (Dec : as_float s k e' = S754_infinity s \/ as_float s k e' <> S754_infinity s).
  { destruct (as_float s k e') as [b|b| |b p z]; try (right; discriminate). destruct (Bool.bool_dec b s) as [->|N]; [left; reflexivity|right; congruence]. }
  destruct Dec as [D|D].
  - left. split; [apply O, I, D|exact D].
  - right. split; [intros X; apply D, I, O, X|]. split; [exact (as_float_valid s m e k e' Sh)|].
    destruct (F D) as (q & Q). exists q. split; [exact Q|]. pose proof (as_float_value s k e' q (proj1 K) Q) as V.
    intros y r Y R. rewrite V. unfold v.
    assert (Sg : forall a ea c ec, (Qabs (dyadic (cond_Zopp s a) ea - dyadic (cond_Zopp s c) ec) == Qabs (dyadic a ea - dyadic c ec))%Q).
    { intros a ea c ec. destruct s; cbn [cond_Zopp]; [|reflexivity]. rewrite !dyadic_opp, <- (Qabs_opp (dyadic a ea - dyadic c ec)). apply Qabs_wd. ring. }
    rewrite Sg. destruct y as [b|b| |b p f]; try discriminate; cbn [float_value] in R; injection R as <-.
    + assert (Z0 : (0 == dyadic (cond_Zopp s 0) e')%Q) by (unfold dyadic; destruct s; cbn [cond_Zopp Z.opp]; ring).
      rewrite Z0, Sg. apply (shape_nearest m e k e' 0 e' Sh); [apply pow_pos; lia|exact (shape_emin _ _ _ _ Sh)].
    + destruct (finite_valid b p f Y) as (P1 & P2 & _).
      assert (Z1 : (dyadic (cond_Zopp b (Zpos p)) f == dyadic (cond_Zopp s (cond_Zopp s (cond_Zopp b (Zpos p)))) f)%Q).
      { destruct s, b; cbn [cond_Zopp Z.opp]; reflexivity. }
      rewrite Z1, Sg. apply (shape_nearest m e k e' _ f Sh); [|lia]. destruct s, b; cbn [cond_Zopp Z.opp Z.abs]; exact P1.
Qed.
(** z * 2^e rounded *)
Theorem normalize_nearest z e s : z <> 0 -> let v := dyadic z e in let x := binary_normalize prec emax z e s in
  (overflows v /\ x = S754_infinity (z <? 0)) \/ (~ overflows v /\ a_nearest prec emax v x).
Proof.
  intros Z v x. unfold v, x. destruct z as [|p|p]; [elim Z; reflexivity| |]; cbn [binary_normalize].
  - exact (binary_round_nearest false p e).
  - exact (binary_round_nearest true p e).
Qed.
End Round.
