(** Floats in comma separated text: the error, and the same text when written again. *)
From Coq Require Import ZArith QArith Qabs Qpower Lia Floats.SpecFloat.
From Verif Require Import Base DType Mem Number ArrayOps Codec Json JsonSpec JsonSchema FloatText Node NodeFacts MatSet Csv CsvFacts CsvNum RoundFacts RoundText NumConv NumConvFacts NumConvText GText GRead.
From Coq Require Import Lqa.
Local Open Scope Z_scope.

Definition float_cell (c : cell) (x : spec_float) : Prop := c = CF32 x \/ c = CF64 x.
(** from twice the smallest normal float of the type to the largest *)
Definition in_range (t : tid) (q : Q) : Prop :=
  (t2 (emin (prec_of t) (emax_of t) + prec_of t) <= q /\ q <= dyadic (2 ^ prec_of t - 1) (emax_of t - prec_of t))%Q.
Lemma large32 q D : in_range FLOAT32 q -> significant 6 q D -> ~ overflows 24 128 D.
Proof.
  intros [_ Q] (r & k & K1 & K2 & E & H). cbn [prec_of emax_of] in Q. unfold overflows.
  assert (M1 : (dyadic (2 ^ 24 - 1) (128 - 24) == inject_Z ((2 ^ 24 - 1) * 2 ^ 104))%Q) by (vm_compute; reflexivity).
  assert (M2 : (dyadic (2 ^ (24 + 1) - 1) (128 - 24 - 1) == inject_Z ((2 ^ 25 - 1) * 2 ^ 103))%Q) by (vm_compute; reflexivity).
  rewrite M1 in Q. rewrite M2. clear M1 M2. intros O. replace (k - 6 + 1) with (k - 5) in * by lia.
  apply Qabs_Qle_condition in H. pose proof (t10_pos (k - 5)) as PU. pose proof (t10_pos k) as PK.
  assert (T5 : (t10 k == 100000 * t10 (k - 5))%Q) by (replace k with (5 + (k - 5)) at 1 by lia; rewrite t10_add; reflexivity).
  assert (D0 : (0 <= D)%Q) by lra. rewrite Qabs_pos in O by exact D0.
  assert (K : k <= 38).
  { assert (k < 39); [|lia]. apply t10_lt. rewrite (t10_Z 39) by lia. apply Qle_lt_trans with (inject_Z ((2 ^ 24 - 1) * 2 ^ 104)); [lra|]. rewrite <- Zlt_Qlt. reflexivity. }
  destruct (Z.eq_dec k 38) as [K'|K'].
  - subst k. change (38 - 5) with 33 in *. rewrite (t10_Z 33) in * by lia. rewrite E in H, O. rewrite <- inject_Z_mult in O, H. rewrite <- Zle_Qle in O.
    assert (R : r <= 340282).
    { destruct (Z.le_gt_cases r 340282) as [|G]; [assumption|exfalso]. destruct H as [_ H].
      assert (X : (2 * inject_Z (r * 10 ^ 33) <= 2 * inject_Z ((2 ^ 24 - 1) * 2 ^ 104) + inject_Z (10 ^ 33))%Q) by lra.
      change 2%Q with (inject_Z 2) in X. rewrite <- !inject_Z_mult, <- inject_Z_plus, <- Zle_Qle in X. change (10 ^ 33) with 1000000000000000000000000000000000 in X. change ((2 ^ 24 - 1) * 2 ^ 104) with 340282346638528859811704183484516925440 in X. lia. }
    change (10 ^ 33) with 1000000000000000000000000000000000 in O. change ((2 ^ 25 - 1) * 2 ^ 103) with 340282356779733661637539395458142568448 in O. lia.
  - assert (KQ : (q < t10 38)%Q) by (apply Qlt_le_trans with (t10 (k + 1)); [exact K2|apply t10_mono; lia]). assert (U33 : (t10 (k - 5) <= t10 33)%Q) by (apply t10_mono; lia).
    rewrite (t10_Z 38) in KQ by lia. rewrite (t10_Z 33) in U33 by lia.
    assert (X : (inject_Z ((2 ^ 25 - 1) * 2 ^ 103) < inject_Z (10 ^ 38) + inject_Z (10 ^ 33))%Q) by lra. rewrite <- inject_Z_plus, <- Zlt_Qlt in X. vm_compute in X. discriminate X.
Qed.
Definition max64 : Z := Eval vm_compute in (2 ^ 53 - 1) * 2 ^ 971.
Definition over64 : Z := Eval vm_compute in (2 ^ 54 - 1) * 2 ^ 970.
Definition p303 : Z := Eval vm_compute in 10 ^ 303.
Lemma large64 q D : in_range FLOAT64 q -> significant 6 q D -> ~ overflows 53 1024 D.
Proof.
  intros [_ Q] (r & k & K1 & K2 & E & H). cbn [prec_of emax_of] in Q. unfold overflows.
  assert (M1 : (dyadic (2 ^ 53 - 1) (1024 - 53) == inject_Z max64)%Q) by (vm_compute; reflexivity).
  assert (M2 : (dyadic (2 ^ (53 + 1) - 1) (1024 - 53 - 1) == inject_Z over64)%Q) by (vm_compute; reflexivity).
  rewrite M1 in Q. rewrite M2. clear M1 M2. intros O. replace (k - 6 + 1) with (k - 5) in * by lia.
  apply Qabs_Qle_condition in H. pose proof (t10_pos (k - 5)) as PU. pose proof (t10_pos k) as PK.
  assert (T5 : (t10 k == 100000 * t10 (k - 5))%Q) by (replace k with (5 + (k - 5)) at 1 by lia; rewrite t10_add; reflexivity).
  assert (D0 : (0 <= D)%Q) by lra. rewrite Qabs_pos in O by exact D0.
  assert (K : k <= 308).
  { assert (k < 309); [|lia]. apply t10_lt. rewrite (t10_Z 309) by lia. apply Qle_lt_trans with (inject_Z max64); [lra|]. rewrite <- Zlt_Qlt. vm_compute. reflexivity. }
  assert (E303 : (t10 303 == inject_Z p303)%Q) by (rewrite t10_Z by lia; vm_compute; reflexivity).
  destruct (Z.eq_dec k 308) as [K'|K'].
  - subst k. change (308 - 5) with 303 in *. rewrite E303 in *. rewrite E in H, O. rewrite <- inject_Z_mult in O, H. rewrite <- Zle_Qle in O.
    assert (R : r <= 179769).
    { destruct (Z.le_gt_cases r 179769) as [|G]; [assumption|exfalso]. destruct H as [_ H].
      assert (X : (2 * inject_Z (r * p303) <= 2 * inject_Z max64 + inject_Z p303)%Q) by lra.
      change 2%Q with (inject_Z 2) in X. rewrite <- !inject_Z_mult, <- inject_Z_plus, <- Zle_Qle in X.
      assert (Y : 2 * max64 + p303 < 2 * (179770 * p303)) by (vm_compute; reflexivity). assert (P : 0 < p303) by (vm_compute; reflexivity). clearbody max64 p303 || idtac. generalize dependent max64. generalize dependent p303. intros. nia. }
    assert (Y : 179769 * p303 < over64) by (vm_compute; reflexivity). assert (P : 0 < p303) by (vm_compute; reflexivity). generalize dependent over64. generalize dependent p303. intros. nia.
  - assert (KQ : (q < t10 308)%Q) by (apply Qlt_le_trans with (t10 (k + 1)); [exact K2|apply t10_mono; lia]). assert (U33 : (t10 (k - 5) <= t10 303)%Q) by (apply t10_mono; lia).
    rewrite (t10_Z 308) in KQ by lia. rewrite E303 in U33.
    assert (X : (inject_Z over64 < inject_Z (10 ^ 308) + inject_Z p303)%Q) by lra. rewrite <- inject_Z_plus, <- Zlt_Qlt in X. vm_compute in X. discriminate X.
Qed.
(** six digits are near *)
Lemma significant_near q D : (0 < q)%Q -> significant 6 q D -> (Qabs (D - q) <= (5 # 1000000) * q)%Q.
Proof.
  intros Q (r & k & K1 & K2 & E & H). replace (k - 6 + 1) with (k - 5) in * by lia. eapply Qle_trans; [exact H|].
  assert (T5 : (t10 k == 100000 * t10 (k - 5))%Q) by (replace k with (5 + (k - 5)) at 1 by lia; rewrite t10_add; reflexivity). pose proof (t10_pos (k - 5)). lra.
Qed.
Theorem csv_float t c s m e : is_float t = true -> float_cell c (S754_finite s m e) -> in_range t (dyadic (Zpos m) e) ->
  exists y r D, back t c y /\ significant 6 (dyadic (Zpos m) e) (Qabs D) /\ rounded t D s y /\ float_value y = Some r /\
    (Qabs (r - dyadic (cond_Zopp s (Zpos m)) e) <= (6 # 1000000) * dyadic (Zpos m) e)%Q.
Proof.
  intros T C IR. destruct (float_format t T) as (F1 & F2 & _). destruct (mag_frac m e) as (n & d & N & D & F & G).
  destruct (gfmt_text 6 s m e n d ltac:(lia) N D G) as (r0 & k & sg & ip & b & fp & x & ex & DG & R & SI & WH & V). set (q := dyadic (Zpos m) e) in *.
  set (n10 := dec_of (ip ++ fp)) in *. set (e10 := ex - Z.of_nat (length fp)) in *. set (DD := (inject_Z (signed s n10) * t10 e10)%Q).
  assert (N0 : 0 <= n10) by (destruct WH as (_ & _ & _ & _ & D1 & D2 & _); destruct (dec_range (ip ++ fp)) as [DR _]; [apply Forall_app; auto|]; apply DR).
  assert (AB : (Qabs DD == inject_Z r0 * t10 (k - 6 + 1))%Q) by (unfold DD; rewrite signed_abs by exact N0; exact V).
  assert (SG : significant 6 q (Qabs DD)).
  { destruct SI as (r' & k' & S1 & S2 & S3 & S4). exists r', k'. rewrite F in S1, S2, S4. split; [exact S1|]. split; [exact S2|]. split; [rewrite AB; exact S3|]. rewrite AB. exact S4. }
  assert (Q0 : (0 < q)%Q) by (rewrite <- F; apply frac_pos; assumption).
  pose proof (significant_near q _ Q0 SG) as NR. apply Qabs_Qle_condition in NR.
  assert (NM : normal (prec_of t) (emax_of t) DD).
  { unfold normal. destruct IR as [I1 _]. set (b0 := emin (prec_of t) (emax_of t) + prec_of t) in *. assert (T1 : (t2 b0 == 2 * t2 (b0 - 1))%Q) by (replace b0 with (1 + (b0 - 1)) at 1 by lia; rewrite t2_add; reflexivity).
    pose proof (t2_pos (b0 - 1)). lra. }
  assert (NO : ~ overflows (prec_of t) (emax_of t) DD).
  { assert (X : ~ overflows (prec_of t) (emax_of t) (Qabs DD)); [|unfold overflows in *; rewrite Qabs_pos in X by apply Qabs_nonneg; exact X]. destruct t; try discriminate T; [eapply large32|eapply large64]; eassumption. }
  assert (NP : 0 < n10).
  { destruct (Z.eq_dec n10 0) as [Z0|]; [|lia]. exfalso. assert (X : (Qabs DD == 0)%Q) by (unfold DD; rewrite signed_abs by exact N0; rewrite Z0; ring). unfold normal in NM. rewrite X in NM. pose proof (t2_pos (emin (prec_of t) (emax_of t) + prec_of t - 1)). lra. }
  destruct (scaled_normal t s n10 e10 T NP NM NO) as (m' & e' & SC & RD & MM). exists (S754_finite s m' e'). eexists. exists DD.
  split; [|split; [exact SG|split; [exact RD|split; [reflexivity|]]]].
  - unfold back, stox. replace (show c) with (gfmt 6 (S754_finite s m e)) by (destruct C as [-> | ->]; reflexivity). rewrite (whole_strto _ _ _ sg ip b fp x s ex WH). fold n10 e10. rewrite SC. eexists. reflexivity.
  - destruct RD as [_ [[O _]|[_ RD]]]; [elim (NO O)|]. pose proof (half_ulp_rel (prec_of t) (emax_of t) F1 DD s m' e' RD NO MM) as HU. fold q.
    assert (W : (inject_Z (2 ^ 24) <= inject_Z (2 ^ prec_of t))%Q) by (rewrite <- Zle_Qle; destruct t; try discriminate T; vm_compute; discriminate). change (inject_Z (2 ^ 24)) with (16777216 # 1)%Q in W.
    rewrite dyadic_cond in HU. rewrite !dyadic_cond. set (y := dyadic (Zpos m') e') in *. set (w := inject_Z (2 ^ prec_of t)) in *. fold q.
    assert (X : (DD == (if s then -1 # 1 else 1) * Qabs DD)%Q).
    { unfold DD. rewrite signed_abs by exact N0. unfold signed. destruct s; [rewrite inject_Z_opp|]; ring. }
    assert (A1 : (Qabs ((if s then -1 # 1 else 1) * y - DD) == Qabs (y - Qabs DD))%Q).
    { rewrite X at 1. setoid_replace ((if s then -1 # 1 else 1) * y - (if s then -1 # 1 else 1) * Qabs DD)%Q with ((if s then -1 # 1 else 1) * (y - Qabs DD))%Q by ring. rewrite Qabs_Qmult. destruct s; change (Qabs (-1 # 1)) with 1%Q; change (Qabs 1) with 1%Q; ring. }
    rewrite A1 in HU.
    setoid_replace ((if s then -1 # 1 else 1) * y - (if s then -1 # 1 else 1) * q)%Q with ((if s then -1 # 1 else 1) * (y - q))%Q by ring. rewrite Qabs_Qmult.
    assert (A2 : (Qabs (if s then -1 # 1 else 1) == 1)%Q) by (destruct s; reflexivity). rewrite A2. 
    set (dl := Qabs (y - Qabs DD)) in *. assert (DL0 : (0 <= dl)%Q) by apply Qabs_nonneg.
    assert (B1 : (dl * (16777216 # 1) <= y)%Q) by (eapply Qle_trans; [|exact HU]; rewrite (Qmult_comm dl (16777216 # 1)), (Qmult_comm dl w); apply Qmult_le_compat_r; assumption).
    pose proof (Qle_Qabs (y - Qabs DD)) as B2. fold dl in B2. pose proof (Qle_Qabs (- (y - Qabs DD))) as B3. rewrite Qabs_opp in B3. fold dl in B3. rewrite Qmult_1_l. apply Qabs_Qle_condition. split; lra.
Qed.

(** * Written again *)
Lemma digit_val_inj a b : digit a -> digit b -> digit_val a = digit_val b -> a = b.
Proof.
  intros A B. assert (X : forall c, digit c -> c = ascii_of_N (Z.to_N (digit_val c + 48))) by (intros c C; apply (digit_cases c (fun c => c = ascii_of_N (Z.to_N (digit_val c + 48)))); [reflexivity..|exact C]).
  intros E. rewrite (X a A), (X b B), E. reflexivity.
Qed.
Lemma dec_inj s : Forall digit s -> forall u, Forall digit u -> length s = length u -> dec_of s = dec_of u -> s = u.
Proof.
  induction s as [|c s IH] using rev_ind; intros D u U LN E; [destruct u; [reflexivity|discriminate]|].
  destruct (rev_case u) as [->|(u' & d & ->)] || (assert (X : u = [] \/ exists u' d, u = u' ++ [d]) by (destruct u as [|a0 l0] using rev_ind; [left; reflexivity|right; eauto]); destruct X as [->|(u' & d & ->)]).
  - rewrite app_length in LN. cbn in LN. lia.
  - apply Forall_app in D. destruct D as [D C]. apply Forall_app in U. destruct U as [U K]. inversion_clear C as [|? ? C' _]. inversion_clear K as [|? ? K' _].
    rewrite !app_length in LN. cbn [length] in LN. rewrite !dec_app in E. destruct (digit_range c C') as [R1 _]. destruct (digit_range d K') as [R2 _].
    rewrite (IH D u' U ltac:(lia) ltac:(lia)), (digit_val_inj c d C' K' ltac:(lia)). reflexivity.
Qed.
Lemma show_Z_unique z s : 0 < z -> Forall digit s -> hd "0"%char s <> "0"%char -> dec_of s = z -> show_Z z = s.
Proof.
  intros P D H E. destruct (show_Z_pos z P) as ([N D'] & V & R & H'). apply dec_inj; try assumption; [|congruence].
  destruct (dec_range s D) as [R1 R2]. assert (NE : s <> []) by (intros ->; apply H; reflexivity). specialize (R2 NE H). rewrite E in R1, R2.
  set (a := Z.of_nat (length (show_Z z))) in *. set (b := Z.of_nat (length s)) in *. assert (0 < a) by (unfold a; destruct (show_Z z); [congruence|cbn [length]; lia]). assert (0 < b) by (unfold b; destruct s; [congruence|cbn [length]; lia]).
  assert (a - 1 < b) by (apply pow10_lt_inj; lia). assert (b - 1 < a) by (apply pow10_lt_inj; lia). unfold a, b in *. lia.
Qed.
Lemma strip_zeros_repeat j : strip_zeros (repeat "0"%char j) = [].
Proof. induction j; [reflexivity|]. cbn [repeat strip_zeros]. rewrite IHj. reflexivity. Qed.
(** an integer of at most [p] digits is written with all of them *)
Lemma gfmt_integer p s m e z : 1 <= p -> 0 < z < 10 ^ p -> (dyadic (Zpos m) e == inject_Z z)%Q -> gfmt p (S754_finite s m e) = (if s then L "-" else []) ++ show_Z z.
Proof.
  intros P Z0 E. destruct (mag_frac m e) as (n & d & N & D & F & G). rewrite G. destruct (show_Z_pos z ltac:(lia)) as ([NE DG] & V & R & H).
  set (l := Z.of_nat (length (show_Z z))) in *. assert (L0 : 0 < l) by (unfold l; destruct (show_Z z); [congruence|cbn [length]; lia]).
  assert (LP : l - 1 < p) by (apply pow10_lt_inj; lia). set (k := l - 1) in *. set (r := z * 10 ^ (p - 1 - k)).
  pose proof (p10_pos (p - 1 - k) ltac:(lia)) as PJ.
  assert (PE : 10 ^ (p - 1) = 10 ^ k * 10 ^ (p - 1 - k)) by (rewrite <- Z.pow_add_r by lia; f_equal; lia).
  assert (PF : 10 ^ p = 10 ^ l * 10 ^ (p - 1 - k)) by (rewrite <- Z.pow_add_r by lia; f_equal; lia).
  assert (RR : 10 ^ (p - 1) <= r < 10 ^ p) by (unfold r; rewrite PE, PF; split; [apply Z.mul_le_mono_nonneg_r; lia|apply Z.mul_lt_mono_pos_r; lia]).
  assert (VR : (inject_Z r * t10 (k - p + 1) == frac n d)%Q).
  { rewrite F, E. unfold r. rewrite inject_Z_mult, <- t10_Z by lia. rewrite <- Qmult_assoc, <- t10_add. replace (p - 1 - k + (k - p + 1)) with 0 by lia. change (t10 0) with 1%Q. ring. }
  assert (DE : digits_g p n d = (r, k)).
  { apply digits_unique; try assumption.
    - rewrite VR. setoid_replace (frac n d - frac n d)%Q with 0%Q by ring. change (Qabs 0) with 0%Q. pose proof (t10_pos (k - p + 1)). lra.
    - intros RE. left. rewrite <- VR, RE, <- t10_Z by lia. rewrite <- t10_add. replace (p - 1 + (k - p + 1)) with k by lia. lra. }
  rewrite DE. f_equal.
  assert (SR : show_Z r = show_Z z ++ repeat "0"%char (Z.to_nat (p - 1 - k))).
  { apply show_Z_unique; [unfold r; nia| | |].
    - apply Forall_app. split; [exact DG|]. apply Forall_forall. intros c I. apply repeat_spec in I. subst c. left; reflexivity.
    - destruct (show_Z z); [congruence|exact H].
    - rewrite dec_app_zeros, V, Z2Nat.id by lia. reflexivity. }
  unfold show_g. rewrite SR. assert (LN : length (show_Z z) = Z.to_nat (k + 1)) by (unfold k, l; lia).
  destruct (Z.ltb_spec k (-4)); [lia|]. destruct (Z.leb_spec p k); [lia|]. cbn [orb]. destruct (Z.leb_spec 0 k); [|lia].
  rewrite <- LN, firstn_app, skipn_app, firstn_all, skipn_all, Nat.sub_diag. cbn [firstn skipn app]. rewrite app_nil_r. unfold with_frac. rewrite strip_zeros_repeat. reflexivity.
Qed.
Lemma is_integer_value s m e z : is_integer (S754_finite s m e) z -> z <> 0 -> (dyadic (Zpos m) e == inject_Z (Z.abs z))%Q /\ s = (z <? 0).
Proof.
  intros [S' E] N. split.
  - rewrite dyadic_t2. destruct (Z.le_gt_cases 0 e) as [H|H].
    + rewrite Z.max_l, (Z.max_r (- e) 0) in E by lia. rewrite t2_Z, <- inject_Z_mult, E by lia. change (2 ^ 0) with 1. rewrite Z.mul_1_r. reflexivity.
    + rewrite Z.max_r, (Z.max_l (- e) 0) in E by lia. change (2 ^ 0) with 1 in E. rewrite Z.mul_1_r in E. rewrite E, inject_Z_mult, <- (t2_Z (- e)) by lia. rewrite <- Qmult_assoc. pose proof (t2_inv e) as I. rewrite (Qmult_comm (t2 (- e))), I. ring.
  - destruct s; destruct (Z.ltb_spec z 0); try reflexivity; lia.
Qed.
Definition cell_of (t : tid) (x : spec_float) : cell := match t with FLOAT32 => CF32 x | _ => CF64 x end.
(** what is written as text of six digits: floats, and integers of at most six digits *)
Definition six_digits (c : cell) : Prop := match c with CInt z | CUns z => Z.abs z < 10 ^ 6 | _ => True end.
Lemma show_cell_of t y : show (cell_of t y) = gfmt 6 y.
Proof. destruct t; reflexivity. Qed.
Theorem cell_again t c y : t = FLOAT32 \/ t = FLOAT64 -> six_digits c -> back t c y -> show (cell_of t y) = show c.
Proof.
  intros T X B. rewrite show_cell_of.
  assert (FC : forall x, show c = gfmt 6 x -> gfmt 6 y = show c).
  { intros x SX. destruct B as (i & B). rewrite SX in *. unfold stox in B. destruct x as [s|s| |s m e].
    - destruct T as [-> | ->]; destruct s; vm_compute in B; inversion B; subst; reflexivity.
    - destruct T as [-> | ->]; destruct s; vm_compute in B; inversion B; subst; reflexivity.
    - destruct T as [-> | ->]; vm_compute in B; inversion B; subst; reflexivity.
    - destruct (c_strto (prec_of t) (emax_of t) (gfmt 6 (S754_finite s m e))) as [[v err] rest] eqn:E. destruct rest as [rest|]; [|discriminate B]. destruct err; [discriminate B|]. inversion B; subst v.
      apply (gfmt_again t 6 s m e y rest); [destruct T as [-> | ->]; reflexivity|lia|destruct T as [-> | ->]; vm_compute; reflexivity|exact E]. }
  destruct c as [z|z|x|x]; [| |exact (FC x eq_refl)|exact (FC x eq_refl)]; cbn [six_digits] in X.
  all: assert (I : exists x, back t (CInt z) x /\ is_integer x z) by (apply integer_back; [exact T|left; reflexivity|destruct T as [-> | ->]; cbn [prec_of]; change (10 ^ 6) with 1000000 in X; [change (2 ^ 24) with 16777216|change (2 ^ 53) with 9007199254740992]; lia]).
  all: destruct I as (x & BX & IX); assert (x = y) by (destruct B as (i & B); destruct BX as (j & BX); cbn [show] in B, BX; congruence); subst x.
  all: cbn [show]; destruct y as [s|s| |s m e]; try contradiction IX.
  1,3: cbn [is_integer] in IX; subst z; destruct B as (i & B); destruct T as [-> | ->]; vm_compute in B; inversion B; subst; reflexivity.
  all: destruct (Z.eq_dec z 0) as [Z0|Z0]; [destruct IX as [_ IX]; rewrite Z0 in IX; cbn [Z.abs] in IX; assert (0 < 2 ^ Z.max e 0) by (apply Z.pow_pos_nonneg; lia); lia|].
  all: destruct (is_integer_value s m e z IX Z0) as [V ->]; rewrite (gfmt_integer 6 _ m e (Z.abs z) ltac:(lia) ltac:(lia) V); unfold show_Z; destruct (Z.ltb_spec z 0), (Z.ltb_spec (Z.abs z) 0); try lia; cbn [app L list_ascii_of_string]; do 2 f_equal; lia.
Qed.

(** a table read, as a table to write *)
Definition cells_of (t : tid) (n : rnode) : list cell := match n with RLeaf xs => map (cell_of t) xs | _ => [] end.
Definition col_of (t : tid) (n : rnode) : col :=
  match n with RObj ks => Group (KObj (map (fun e => (fst e, cells_of t (snd e))) ks)) | _ => Leaf (cells_of t n) end.
Definition values_of (t : tid) (n : rnode) : values :=
  match n with RObj ks => KObj (map (fun e => (fst e, col_of t (snd e))) ks) | _ => KObj [] end.

(** tables with the same names and texts are written alike *)
Definition same_cells (a b : list cell) : Prop := map show a = map show b.
Definition same_col (a b : col) : Prop :=
  match a, b with
  | Leaf l, Leaf l' => same_cells l l'
  | Group g, Group g' => Forall2 (fun x y => fst x = fst y /\ same_cells (snd x) (snd y)) (named g) (named g')
  | _, _ => False
  end.
Definition same_text (v w : values) : Prop := Forall2 (fun x y => fst x = fst y /\ same_col (snd x) (snd y)) (named v) (named w).
Lemma same_length a b : same_cells a b -> length a = length b.
Proof. intros H. rewrite <- (map_length show a), H. apply map_length. Qed.
Lemma same_at r a b : same_cells a b -> write_at r a = write_at r b.
Proof.
  intros H. unfold write_at. assert (X : option_map show (nth_error a r) = option_map show (nth_error b r)) by (rewrite <- !nth_error_map, H; reflexivity).
  destruct (nth_error a r), (nth_error b r); cbn [option_map] in X; try discriminate X; [injection X as X; cbn [deref obind]; rewrite X|]; reflexivity.
Qed.
Lemma omapM_same {A B} (f : A -> outcome B) (g : A -> outcome B) (R : A -> A -> Prop) : (forall a b, R a b -> f a = g b) ->
  forall l l', Forall2 R l l' -> omapM f l = omapM g l'.
Proof. intros H l l' F. induction F as [|a b l l' E _ IH]; [reflexivity|]. rewrite !omapM_cons, (H a b E), IH. reflexivity. Qed.
Lemma map_same {A B} (f : A -> B) (R : A -> A -> Prop) : (forall a b, R a b -> f a = f b) -> forall l l', Forall2 R l l' -> map f l = map f l'.
Proof. intros H l l' F. induction F as [|a b l l' E _ IH]; [reflexivity|]. cbn [map]. rewrite (H a b E), IH. reflexivity. Qed.
Lemma same_written v w : same_text v w -> write_csv v = write_csv w.
Proof.
  intros H. unfold same_text in H.
  assert (LK : forall g g' : kids (list cell), Forall2 (fun x y => fst x = fst y /\ same_cells (snd x) (snd y)) (named g) (named g') -> map (fun x => length (snd x)) (named g) = map (fun x => length (snd x)) (named g')).
  { intros g g' F. eapply map_same; [|exact F]. intros a b [_ S']. apply same_length, S'. }
  assert (CR : map (fun e => col_rows (snd e)) (named v) = map (fun e => col_rows (snd e)) (named w)).
  { eapply map_same; [|exact H]. intros [k a] [k' b] [_ S']. cbn [snd] in *. destruct a as [l|g], b as [l'|g']; try contradiction; cbn [col_rows].
    - f_equal. apply same_length, S'.
    - specialize (LK _ _ S'). rewrite <- !(map_map snd (@length cell)) in LK. destruct (map snd (named g)) as [|x l], (map snd (named g')) as [|x' l']; try discriminate LK; [reflexivity|]. cbn [map] in LK. injection LK as E1 E2.
      rewrite E1. replace (forallb (fun y => (length y =? length x')%nat) l') with (forallb (fun y => (length y =? length x')%nat) l); [reflexivity|].
      clear - E2. revert l' E2. induction l as [|a l IH]; intros [|b l'] E; try discriminate E; [reflexivity|]. cbn [map] in E. injection E as E1 E2. cbn [forallb]. rewrite E1, (IH l' E2). reflexivity. }
  unfold write_csv, verify_values. rewrite CR. destruct (match map (fun e => col_rows (snd e)) (named w) with [] => true | Some n :: r => _ | None :: _ => false end); [|reflexivity].
  unfold write_table.
  assert (RW : get_nrows v = get_nrows w).
  { unfold get_nrows. inversion H as [|[k a] [k' b] l l' [_ S'] _ EV EW]; [reflexivity|]. cbn [snd] in S'. destruct a as [x|g], b as [x'|g']; try contradiction; [apply same_length, S'|].
    specialize (LK _ _ S'). destruct (named g) as [|[? ?] ?], (named g') as [|[? ?] ?]; try discriminate LK; [reflexivity|]. cbn [map snd] in LK. injection LK as E1 _. exact E1. }
  assert (HD : write_header v = write_header w).
  { unfold write_header. f_equal. f_equal. eapply map_same; [|exact H]. intros [k a] [k' b] [E S']. cbn [fst snd] in *. subst k'. unfold header_of. cbn [fst snd]. destruct a as [x|g], b as [x'|g']; try contradiction; [reflexivity|].
    assert (X : map fst (named g) = map fst (named g')) by (eapply map_same; [|exact S']; intros ? ? [? _]; assumption).
    assert (Y : map (fun c => k ++ slash :: fst c) (named g) = map (fun c => k ++ slash :: fst c) (named g')) by (eapply map_same; [|exact S']; intros ? ? [Q _]; cbn beta; do 2 f_equal; exact Q).
    destruct (named g) as [|a1 [|a2 l]], (named g') as [|b1 [|b2 l']]; try discriminate X; try reflexivity. rewrite Y. reflexivity. }
  rewrite RW, HD. f_equal. apply (omapM_same _ _ eq); [|induction (seq 0 (get_nrows w)); constructor; auto]. intros r r' <-. unfold write_row. f_equal.
  eapply omapM_same; [|exact H]. intros [k a] [k' b] [_ S']. cbn [snd] in *. unfold write_col. cbn [snd]. destruct a as [x|g], b as [x'|g']; try contradiction; [apply same_at, S'|].
  f_equal. eapply omapM_same; [|exact S']. intros ? ? [_ Y]. apply same_at, Y.
Qed.
Definition cells_all (P : cell -> Prop) (v : values) : Prop :=
  Forall (fun e => match snd e with Leaf l => Forall P l | Group g => Forall (fun e' => Forall P (snd e')) (named g) end) (named v).
Lemma plain_name s : good_name s -> obj_name s = s.
Proof.
  intros (_ & _ & _ & _ & H & _). unfold obj_name. destruct (has_char slash s) eqn:E; [|reflexivity]. unfold has_char in E. apply existsb_exists in E. destruct E as (c & I & Q). apply Ascii.eqb_eq in Q. subst c. contradiction.
Qed.
Lemma leaf_again t l n : t = FLOAT32 \/ t = FLOAT64 -> Forall six_digits l -> leaf_back t l n -> exists xs, n = RLeaf xs /\ same_cells l (map (cell_of t) xs).
Proof.
  intros T S' (xs & -> & B). exists xs. split; [reflexivity|]. unfold same_cells. rewrite map_map. induction B as [|c x l xs Bc _ IH]; [reflexivity|]. inversion_clear S' as [|? ? S1 S2].
  cbn [map]. rewrite (cell_again t c x T S1 Bc), IH by exact S2. reflexivity.
Qed.
(** the table read is written as the same text *)
Theorem table_again t n v x : t = FLOAT32 \/ t = FLOAT64 -> good_table t n v -> cells_all six_digits v -> table_back t v x ->
  write_csv (values_of t x) = write_csv v.
Proof.
  intros T (_ & G & _) S' (ks & -> & B). symmetry. apply same_written. unfold same_text. cbn [values_of named]. unfold cells_all in S'.
  revert G S'. induction B as [|[k a] [k' b] l ks [E B1] _ IH]; intros G S'; [constructor|]. inversion_clear G as [|? ? [N G1] G2]. inversion_clear S' as [|? ? S1 S2]. cbn [fst snd] in *. subst k'. cbn [map]. constructor; [|exact (IH G2 S2)].
  cbn [fst snd]. split; [symmetry; apply plain_name, N|]. destruct a as [c|g]; cbn [col_back] in B1.
  - destruct (leaf_again t c b T S1 B1) as (xs & -> & SC). exact SC.
  - destruct B1 as (hs & -> & B1). cbn [col_of same_col named]. destruct G1 as (_ & _ & G1). revert G1 S1. clear - B1 T. induction B1 as [|[j c] [j' h] m hs [E B2] _ IH]; intros G S'; [constructor|].
    inversion_clear G as [|? ? (N & _) G2]. inversion_clear S' as [|? ? S1 S2]. cbn [fst snd] in *. subst j'. cbn [map]. constructor; [|exact (IH G2 S2)]. cbn [fst snd]. split; [symmetry; apply plain_name, N|].
    destruct (leaf_again t c h T S1 B2) as (xs & -> & SC). exact SC.
Qed.
