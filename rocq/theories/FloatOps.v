(** Multiplication and division of floats (Coq's SFmul and SFdiv) are correctly rounded. *)
From Coq Require Import ZArith QArith Qabs Qpower Qfield Lia Floats.SpecFloat.
From Verif Require Import Base RoundFacts FloatText RoundText.
From Coq Require Import Lqa.
Local Open Scope Z_scope.

Section Ops.
Variables prec emax : Z.
Hypothesis Hp : 1 < prec.
Hypothesis He : prec < emax.
Notation emn := (emin prec emax).

Lemma aux_round s m e : e <= low_exp prec emax m e -> binary_round_aux prec emax s (Zpos m) e loc_Exact = binary_round prec emax s m e.
Proof.
  intros H. unfold binary_round, shl_align. fold (low_exp prec emax m e). destruct (low_exp prec emax m e - e) eqn:E; [reflexivity|reflexivity|lia].
Qed.
Theorem sfmul_nearest s1 m1 e1 s2 m2 e2 : 2 ^ (prec - 1) <= Zpos m1 ->
  let v := dyadic (cond_Zopp (xorb s1 s2) (Zpos m1 * Zpos m2)) (e1 + e2) in let x := SFmul prec emax (S754_finite s1 m1 e1) (S754_finite s2 m2 e2) in
  (overflows prec emax v /\ x = S754_infinity (xorb s1 s2)) \/ (~ overflows prec emax v /\ a_nearest prec emax v x).
Proof.
  intros M v x. unfold x. cbn [SFmul]. rewrite aux_round.
  - exact (binary_round_nearest prec emax Hp He (xorb s1 s2) (m1 * m2) (e1 + e2)).
  - unfold low_exp, fexp. assert (2 ^ (prec - 1) <= Zpos (m1 * m2)) by nia. pose proof (digits_bound (m1 * m2)) as [_ D].
    assert (prec - 1 < Zpos (digits2_pos (m1 * m2))) by (apply (Z.pow_lt_mono_r_iff 2); lia). lia.
Qed.

(** four times the quotient, and one more if there is a remainder that is not half *)
Definition sticky (q r d : Z) : Z := 4 * q + (if r =? 0 then 0 else if 2 * r <? d then 1 else if 2 * r =? d then 2 else 3).
Lemma location_cases r d : 0 <= r < d -> new_location d r =
  if r =? 0 then loc_Exact else if 2 * r <? d then loc_Inexact Lt else if 2 * r =? d then loc_Inexact Eq else loc_Inexact Gt.
Proof.
  intros R. unfold new_location. destruct (Z.even d) eqn:E.
  - unfold new_location_even. destruct (Zeq_bool r 0) eqn:Z0; [apply Zeq_bool_eq in Z0; subst; reflexivity|]. apply Zeq_bool_neq in Z0.
    destruct (Z.eqb_spec r 0); [lia|]. destruct (Z.compare_spec (2 * r) d), (Z.ltb_spec (2 * r) d), (Z.eqb_spec (2 * r) d); try lia; reflexivity.
  - unfold new_location_odd. destruct (Zeq_bool r 0) eqn:Z0; [apply Zeq_bool_eq in Z0; subst; reflexivity|]. apply Zeq_bool_neq in Z0.
    destruct (Z.eqb_spec r 0); [lia|]. assert (d mod 2 = 1) by (rewrite Zmod_even, E; reflexivity). pose proof (Z.div_mod d 2).
    destruct (Z.compare_spec (2 * r + 1) d), (Z.ltb_spec (2 * r) d), (Z.eqb_spec (2 * r) d); try lia; reflexivity.
Qed.
Lemma sticky_round s q r d e : 0 <= r < d -> 2 ^ (prec - 1) <= Zpos q < 2 ^ (prec + 1) -> emn <= e ->
  exists w, Zpos w = sticky (Zpos q) r d /\ low_exp prec emax w (e - 2) = low_exp prec emax q e /\ e <= low_exp prec emax q e <= e + 1 /\
    binary_round_aux prec emax s (Zpos q) e (new_location d r) = binary_round prec emax s w (e - 2).
Proof.
  intros R Q E. rewrite (location_cases r d R).
  assert (DQ : Zpos (digits2_pos q) = prec \/ Zpos (digits2_pos q) = prec + 1).
  { destruct (Z.lt_ge_cases (Zpos q) (2 ^ prec)); [left|right]; apply digits_unique; try lia. replace (prec + 1 - 1) with prec by lia. lia. }
  assert (LQ : low_exp prec emax q e = e + (Zpos (digits2_pos q) - prec)) by (unfold low_exp, fexp; lia).
  assert (G : forall w l, digits2_pos w = (digits2_pos q + 2)%positive ->
    shr_record_of_loc (Zpos q) l = shr_1 (shr_1 {| shr_m := Zpos w; shr_r := false; shr_s := false |}) ->
    low_exp prec emax w (e - 2) = low_exp prec emax q e /\ e <= low_exp prec emax q e <= e + 1 /\
    binary_round_aux prec emax s (Zpos q) e l = binary_round prec emax s w (e - 2)).
  { intros w l W RL. assert (LW : low_exp prec emax w (e - 2) = low_exp prec emax q e) by (unfold low_exp; rewrite W, Pos2Z.inj_add; f_equal; lia).
    split; [exact LW|]. split; [lia|]. rewrite <- aux_round by lia. unfold binary_round_aux, shr_fexp at 1 3. cbn [Zdigits2].
    fold (low_exp prec emax q e). fold (low_exp prec emax w (e - 2)). rewrite LW, RL. change (shr_record_of_loc (Zpos w) loc_Exact) with {| shr_m := Zpos w; shr_r := false; shr_s := false |}.
    destruct DQ as [DQ|DQ]; rewrite LQ, DQ.
    - replace (e + (prec - prec) - e) with 0 by lia. replace (e + (prec - prec) - (e - 2)) with 2 by lia. cbn [shr]. cbn [SpecFloat.iter_pos]. replace (e - 2 + 2) with e by lia. reflexivity.
    - replace (e + (prec + 1 - prec) - e) with 1 by lia. replace (e + (prec + 1 - prec) - (e - 2)) with 3 by lia. cbn [shr]. cbn [SpecFloat.iter_pos]. replace (e - 2 + 3) with (e + 1) by lia. reflexivity. }
  assert (DG : forall p, digits2_pos (p~0) = Pos.succ (digits2_pos p) /\ digits2_pos (p~1) = Pos.succ (digits2_pos p)) by (intros p; split; reflexivity).
  assert (D2 : forall a b : positive -> positive, (forall p, digits2_pos (a p) = Pos.succ (digits2_pos p)) -> (forall p, digits2_pos (b p) = Pos.succ (digits2_pos p)) -> digits2_pos (b (a q)) = (digits2_pos q + 2)%positive).
  { intros a b A B. rewrite B, A. lia. }
  unfold sticky. destruct (r =? 0); [|destruct (2 * r <? d); [|destruct (2 * r =? d)]].
  - exists (q~0~0)%positive. split; [lia|]. apply G; [apply (D2 xO xO); apply DG|reflexivity].
  - exists (q~0~1)%positive. split; [lia|]. apply G; [apply (D2 xO xI); apply DG|reflexivity].
  - exists (q~1~0)%positive. split; [lia|]. apply G; [apply (D2 xI xO); apply DG|reflexivity].
  - exists (q~1~1)%positive. split; [lia|]. apply G; [apply (D2 xI xI); apply DG|reflexivity].
Qed.
Theorem sfdiv_nearest m1 e1 m2 e2 : 2 ^ (prec - 1) <= Zpos m1 < 2 ^ prec -> 2 ^ (prec - 1) <= Zpos m2 < 2 ^ prec ->
  emn + prec <= e1 - e2 <= emax - 3 ->
  a_nearest prec emax (dyadic (Zpos m1) e1 / dyadic (Zpos m2) e2) (SFdiv prec emax (S754_finite false m1 e1) (S754_finite false m2 e2)).
Proof.
  intros M1 M2 EE. cbn [SFdiv xorb]. unfold SFdiv_core_binary. cbn [Zdigits2].
  rewrite (digits_unique m1 prec ltac:(lia) ltac:(lia)), (digits_unique m2 prec ltac:(lia) ltac:(lia)).
  assert (E' : Z.min (fexp prec emax (prec + e1 - (prec + e2))) (e1 - e2) = e1 - e2 - prec) by (unfold fexp; lia). rewrite E'.
  replace (e1 - e2 - (e1 - e2 - prec)) with prec by lia.
  assert (SH : match prec with Z0 => Zpos m1 | Zpos _ => Z.shiftl (Zpos m1) prec | Zneg _ => 0 end = Zpos m1 * 2 ^ prec) by (rewrite <- Z.shiftl_mul_pow2 by lia; destruct prec; [lia|reflexivity|lia]).
  rewrite SH. clear SH E'. set (N := Zpos m1 * 2 ^ prec). set (e := e1 - e2 - prec). pose proof (Z_div_mod N (Zpos m2) ltac:(lia)) as DM.
  destruct (Z.div_eucl N (Zpos m2)) as [q r]. destruct DM as [DM R]. set (d := Zpos m2) in *.
  assert (P0 : 0 < 2 ^ (prec - 1)) by (apply pow_pos; lia). assert (P1 : 2 ^ prec = 2 * 2 ^ (prec - 1)) by (replace prec with (1 + (prec - 1)) at 1 by lia; rewrite Z.pow_add_r by lia; reflexivity).
  assert (P2 : 2 ^ (prec + 1) = 4 * 2 ^ (prec - 1)) by (replace (prec + 1) with (2 + (prec - 1)) at 1 by lia; rewrite Z.pow_add_r by lia; reflexivity).
  set (P := 2 ^ (prec - 1)) in *. assert (NN : N = Zpos m1 * (2 * P)) by (unfold N; rewrite P1; reflexivity).
  assert (QB : P <= q < 4 * P) by nia.
  destruct q as [|q|q]; [lia| |lia]. destruct (sticky_round false q r d e R ltac:(lia) ltac:(lia)) as (w & W & LW & LB & ->).
  destruct (round_shape prec emax Hp false w (e - 2)) as (c & C & -> & A1 & A2). set (e' := low_exp prec emax w (e - 2)) in *.
  assert (Sh : shape prec emax w (e - 2) c e') by (split; [exact C|split; [reflexivity|split; assumption]]).
  specialize (A2 ltac:(lia)). set (M := 4 * N).
  assert (In : Zpos w * d = M \/ (exists h, Zpos w = 2 * h + 1 /\ 2 * h * d < M < (2 * h + 2) * d)).
  { unfold M. rewrite W. unfold sticky. destruct (Z.eqb_spec r 0); [left; nia|]. destruct (Z.ltb_spec (2 * r) d); [right; exists (2 * Zpos q); nia|].
    destruct (Z.eqb_spec (2 * r) d); [left; nia|right; exists (2 * Zpos q + 1); nia]. }
  assert (D4 : 2 ^ (e' - (e - 2)) = 4 * 2 ^ (e' - e)) by (change 4 with (2 ^ 2); rewrite <- Z.pow_add_r by lia; f_equal; lia).
  set (u := 2 ^ (e' - e)) in *. assert (U : 0 < u) by (apply pow_pos; lia).
  assert (Near : 2 * Z.abs (c * 2 ^ (e' - (e - 2)) * d - M) <= 2 ^ (e' - (e - 2)) * d).
  { rewrite D4 in A2 |- *. destruct A2 as [A2 _]. destruct In as [I|(h & I1 & I2)].
    - rewrite <- I. replace (c * (4 * u) * d - Zpos w * d) with ((c * (4 * u) - Zpos w) * d) by ring. rewrite Z.abs_mul, (Z.abs_eq d) by lia. nia.
    - rewrite I1 in A2. assert (Y : c * (4 * u) - 2 * u <= 2 * h /\ 2 * h + 2 <= c * (4 * u) + 2 * u) by lia.
      destruct Y as [Y1 Y2]. assert ((c * (4 * u) - 2 * u) * d <= 2 * h * d) by (apply Z.mul_le_mono_nonneg_r; lia).
      assert ((2 * h + 2) * d <= (c * (4 * u) + 2 * u) * d) by (apply Z.mul_le_mono_nonneg_r; lia).
      replace (c * (4 * u) * d - M) with ((c * (4 * u) - 2 * u) * d + 2 * u * d - M) by ring. nia. }
  assert (Low : emn < e' -> 2 ^ (prec - 1) * 2 ^ (e' - (e - 2)) * d <= M).
  { intros X. destruct (shape_low prec emax Hp w (e - 2) c e' Sh X) as [_ Lo]. specialize (Lo ltac:(lia)).
    destruct In as [I|(h & I1 & I2)].
    - rewrite <- I. apply Z.mul_le_mono_nonneg_r; lia.
    - rewrite D4 in Lo |- *. assert (2 ^ (prec - 1) * (4 * u) <= 2 * h) by nia.
      assert (2 ^ (prec - 1) * (4 * u) * d <= 2 * h * d) by (apply Z.mul_le_mono_nonneg_r; lia). lia. }
  assert (V : (dyadic (Zpos m1) e1 / dyadic d e2 == scaled_value M d (e - 2))%Q).
  { unfold scaled_value, M, N. assert (X : (dyadic (4 * (Zpos m1 * 2 ^ prec)) (e - 2) == dyadic (Zpos m1) (e1 - e2))%Q).
    { replace (4 * (Zpos m1 * 2 ^ prec)) with (Zpos m1 * 2 ^ (prec + 2)) by (rewrite Z.pow_add_r by lia; ring). replace (e - 2) with (e1 - e2 - (prec + 2)) by (unfold e; lia). rewrite <- dyadic_scale by lia. reflexivity. }
    rewrite X. unfold dyadic. assert (T : (Qpower (2 # 1) e1 == Qpower (2 # 1) (e1 - e2) * Qpower (2 # 1) e2)%Q) by (rewrite <- Qpower_plus by discriminate; replace (e1 - e2 + e2) with e1 by lia; reflexivity).
    rewrite T. pose proof (pow2_pos e2). assert (~ (inject_Z d == 0)%Q) by (unfold Qeq; cbn; lia). field. split; [exact H0|]. intros Z0. rewrite Z0 in H. discriminate H. }
  assert (CP : P <= c).
  { rewrite D4 in A2. apply (halfway_low (Zpos w) (4 * u) c P); [lia| |exact A2]. assert (X : emn < e' \/ e' = emn) by (pose proof (shape_emin _ _ _ _ _ _ Sh); lia).
    destruct X as [X|X]; [pose proof (shape_low prec emax Hp w (e - 2) c e' Sh X) as [_ Lo]; specialize (Lo ltac:(lia)); rewrite D4 in Lo; exact Lo|].
    assert (e' = e) by lia. unfold u. replace (e' - e) with 0 by lia. rewrite W. unfold sticky. destruct (r =? 0), (2 * r <? d), (2 * r =? d); lia. }
  assert (FV : exists y, float_value (as_float prec emax false c e') = Some y).
  { unfold as_float. destruct c as [|c|c]; [eexists; reflexivity| |eexists; reflexivity]. destruct (Z.pos c =? 2 ^ prec).
    - destruct (Z.leb_spec (e' + 1) (emax - prec)); [eexists; reflexivity|lia].
    - destruct (Z.leb_spec e' (emax - prec)); [eexists; reflexivity|lia]. }
  split; [exact (as_float_valid prec emax Hp false w (e - 2) c e' Sh)|].
  destruct FV as (y & Y). exists y. split; [exact Y|]. pose proof (as_float_value prec emax Hp false c e' y (proj1 C) Y) as Vy. cbn [cond_Zopp] in Vy.
  intros z t Zv Zt. rewrite Vy, V. pose proof (shape_emin prec emax w (e - 2) c e' Sh) as EM.
  assert (G : forall j f, Z.abs j < 2 ^ prec -> emn <= f ->
    (Qabs (dyadic c e' - scaled_value M d (e - 2)) <= Qabs (dyadic j f - scaled_value M d (e - 2)))%Q).
  { intros j f Hj Hf. apply (grid_nearest prec emax Hp); try assumption; lia. }
  destruct z as [b|b| |b p' f]; try discriminate; cbn [float_value] in Zt; injection Zt as <-.
  - assert (Z0 : (0 == dyadic 0 e')%Q) by (unfold dyadic; ring). rewrite Z0. apply G; [apply pow_pos; lia|exact EM].
  - destruct (finite_valid prec emax b p' f Zv) as (Q1 & Q2 & _). apply G; [|lia]. destruct b; cbn [cond_Zopp Z.opp Z.abs]; exact Q1.
Qed.
End Ops.
