(** printf's %.<p>g: the text is the number to [p] significant digits, and a float of enough
    precision read from it prints the same text again. *)
From Coq Require Import ZArith QArith Qabs Qpower Qfield Lia Floats.SpecFloat.
From Verif Require Import Base DType Mem Number ArrayOps Codec Json JsonSpec JsonSchema FloatText CsvNum RoundFacts RoundText NumConv NumConvFacts NumConvText.
From Coq Require Import Lqa.
Local Open Scope Z_scope.

Definition t10 (e : Z) : Q := Qpower (10 # 1) e.
(** [D] is [q] > 0 rounded to [p] significant digits: 10^k is the power of ten below [q] *)
Definition significant (p : Z) (q D : Q) : Prop :=
  exists r k, (t10 k <= q /\ q < t10 (k + 1) /\ D == inject_Z r * t10 (k - p + 1) /\ Qabs (D - q) <= (1 # 2) * t10 (k - p + 1))%Q.

(** * powers of ten *)
Lemma t10_pos e : (0 < t10 e)%Q.
Proof. apply Qpower_0_lt. reflexivity. Qed.
Lemma t10_add a b : (t10 (a + b) == t10 a * t10 b)%Q.
Proof. apply Qpower_plus. discriminate. Qed.
Lemma t10_Z e : 0 <= e -> (t10 e == inject_Z (10 ^ e))%Q.
Proof. intros E. unfold t10. change (10 # 1) with (inject_Z 10). rewrite <- Zpower_Qpower by exact E. reflexivity. Qed.
Lemma t10_mono a b : a <= b -> (t10 a <= t10 b)%Q.
Proof.
  intros H. replace b with ((b - a) + a) by lia. rewrite t10_add, (t10_Z (b - a)) by lia.
  assert (1 <= 10 ^ (b - a)) by (pose proof (Z.pow_pos_nonneg 10 (b - a)); lia). rewrite Zle_Qle in H0. pose proof (t10_pos a). change (inject_Z 1) with 1%Q in H0. nra.
Qed.
Lemma t10_lt a b : (t10 a < t10 b)%Q -> a < b.
Proof. intros H. destruct (Z.lt_ge_cases a b); [assumption|]. pose proof (t10_mono b a H0). lra. Qed.
Lemma p10_pos e : 0 <= e -> 0 < 10 ^ e.
Proof. intros H. apply Z.pow_pos_nonneg; lia. Qed.
Definition frac (n d : Z) : Q := (inject_Z n / inject_Z d)%Q.
Lemma iz_pos d : 0 < d -> (0 < inject_Z d)%Q.
Proof. intros H. rewrite Zlt_Qlt in H. exact H. Qed.
Lemma frac_mul n d : 0 < d -> (frac n d * inject_Z d == inject_Z n)%Q.
Proof. intros D. apply iz_pos in D. unfold frac. field. intros E. lra. Qed.
Lemma frac_le a n d : 0 < d -> (inject_Z a <= frac n d)%Q <-> a * d <= n.
Proof.
  intros D. pose proof (iz_pos d D) as P. pose proof (frac_mul n d D) as F. rewrite (Zle_Qle (a * d) n), inject_Z_mult, <- F. symmetry. apply Qmult_le_r. exact P.
Qed.
Lemma frac_lt a n d : 0 < d -> (frac n d < inject_Z a)%Q <-> n < a * d.
Proof.
  intros D. pose proof (iz_pos d D) as P. pose proof (frac_mul n d D) as F. rewrite (Zlt_Qlt n (a * d)), inject_Z_mult, <- F. symmetry. apply Qmult_lt_r. exact P.
Qed.
Lemma frac_pos n d : 0 < n -> 0 < d -> (0 < frac n d)%Q.
Proof. intros N D. pose proof (iz_pos _ N). pose proof (iz_pos _ D). unfold frac. apply Qlt_shift_div_l; lra. Qed.
Lemma frac_inv n d : 0 < n -> 0 < d -> (frac n d * frac d n == 1)%Q.
Proof. intros N D. apply iz_pos in N. apply iz_pos in D. unfold frac. field. split; intros E; lra. Qed.
Lemma t10_inv e : (t10 e * t10 (- e) == 1)%Q.
Proof. rewrite <- t10_add. replace (e + - e) with 0 by lia. reflexivity. Qed.

(** * how many digits *)
Lemma dec_app s c : dec_of (s ++ [c]) = 10 * dec_of s + digit_val c.
Proof. unfold dec_of. rewrite fold_left_app. reflexivity. Qed.
Lemma digit_range c : digit c -> 0 <= digit_val c <= 9 /\ (c <> "0"%char -> 1 <= digit_val c).
Proof. intros D. apply (digit_cases c (fun c => 0 <= digit_val c <= 9 /\ (c <> "0"%char -> 1 <= digit_val c))); [vm_compute; (split; [split|]; try discriminate); intros H; try discriminate; exfalso; apply H; reflexivity..|exact D]. Qed.
Lemma dec_range s : Forall digit s -> 0 <= dec_of s < 10 ^ Z.of_nat (length s) /\ (s <> [] -> hd "0"%char s <> "0"%char -> 10 ^ (Z.of_nat (length s) - 1) <= dec_of s).
Proof.
  induction s as [|c s IH] using rev_ind; intros D; [split; [vm_compute; split; [discriminate|reflexivity]|congruence]|].
  apply Forall_app in D. destruct D as [D C]. inversion_clear C as [|? ? C' _]. specialize (IH D). destruct IH as [I1 I2]. destruct (digit_range c C') as [R1 R2].
  rewrite dec_app, app_length. cbn [length]. rewrite Nat2Z.inj_add. change (Z.of_nat 1) with 1. rewrite Z.pow_add_r by lia. change (10 ^ 1) with 10. split; [nia|].
  intros _ H. destruct s as [|a s'].
  - cbn in H. specialize (R2 H). cbn. lia.
  - cbn [app hd] in H. specialize (I2 ltac:(discriminate) H). remember (a :: s') as u eqn:U.
    assert (0 < Z.of_nat (length u)) by (subst u; cbn [length]; lia).
    replace (Z.of_nat (length u) + 1 - 1) with (1 + (Z.of_nat (length u) - 1)) by lia. rewrite Z.pow_add_r by lia. lia.
Qed.
Lemma show_Z_pos z : 0 < z -> digits (show_Z z) /\ dec_of (show_Z z) = z /\ 10 ^ (Z.of_nat (length (show_Z z)) - 1) <= z < 10 ^ Z.of_nat (length (show_Z z)) /\ hd "0"%char (show_Z z) <> "0"%char.
Proof.
  intros P. assert (E : show_Z z = show_N (Z.to_N z)) by (unfold show_Z; destruct (Z.ltb_spec z 0); [lia|reflexivity]). rewrite E.
  destruct (show_N_spec (Z.to_N z)) as (D & H & V). destruct D as [N D]. rewrite (dec_fold' _ D) in V.
  assert (V' : dec_of (show_N (Z.to_N z)) = z).
  { assert (V' := f_equal (fun o => match o with Some z => z | None => 0 end) V). cbv beta iota in V'. unfold dec_of. rewrite V', Z2N.id; lia. }
  assert (H' : hd "0"%char (show_N (Z.to_N z)) <> "0"%char).
  { destruct H as [H|H]; [|exact H]. rewrite H in V'. vm_compute in V'. lia. }
  destruct (dec_range _ D) as [R1 R2]. specialize (R2 N H'). rewrite V' in R1, R2. split; [split; assumption|]. split; [exact V'|]. split; [lia|exact H'].
Qed.
Lemma pow10_lt_inj a b : 0 <= b -> 10 ^ a < 10 ^ b -> a < b.
Proof. intros B H. apply (Z.pow_lt_mono_r_iff 10); lia. Qed.
Lemma show_Z_length p z : 1 <= p -> 10 ^ (p - 1) <= z < 10 ^ p -> Z.of_nat (length (show_Z z)) = p.
Proof.
  intros P H. pose proof (p10_pos (p - 1) ltac:(lia)). destruct (show_Z_pos z ltac:(lia)) as ([N _] & _ & R & _). set (l := Z.of_nat (length (show_Z z))) in *.
  assert (0 < l) by (unfold l; destruct (show_Z z); [congruence|cbn [length]; lia]).
  assert (p - 1 < l) by (apply pow10_lt_inj; lia). assert (l - 1 < p) by (apply pow10_lt_inj; lia). lia.
Qed.

(** * the digits of %g *)
Lemma dec_exp_law n d : 0 < n -> 0 < d -> let x := dec_exp n d in (t10 x <= frac n d)%Q /\ (frac n d < t10 (x + 1))%Q.
Proof.
  intros N D. cbv zeta. unfold dec_exp. destruct (Z.leb_spec d n) as [H|H].
  - assert (Q : 0 < n / d) by (apply Z.div_str_pos; lia). destruct (show_Z_pos (n / d) Q) as ([NE _] & _ & R & _). set (l := Z.of_nat (length (show_Z (n / d)))) in *.
    assert (0 < l) by (unfold l; destruct (show_Z (n / d)); [congruence|cbn [length]; lia]).
    pose proof (Z.div_mod n d ltac:(lia)). pose proof (Z.mod_pos_bound n d D). replace (l - 1 + 1) with l by lia. rewrite !t10_Z by lia. rewrite frac_le, frac_lt by exact D. nia.
  - assert (Q : 0 < d / n) by (apply Z.div_str_pos; lia). destruct (show_Z_pos (d / n) Q) as ([NE _] & _ & R & _). set (j := Z.of_nat (length (show_Z (d / n)))) in *.
    assert (0 < j) by (unfold j; destruct (show_Z (d / n)); [congruence|cbn [length]; lia]).
    pose proof (Z.div_mod d n ltac:(lia)). pose proof (Z.mod_pos_bound d n N).
    assert (A : (t10 (j - 1) <= frac d n)%Q) by (rewrite t10_Z, frac_le by lia; nia).
    assert (B : (frac d n < t10 j)%Q) by (rewrite t10_Z, frac_lt by lia; nia).
    pose proof (frac_inv n d N D) as I. pose proof (frac_pos n d N D) as F1. pose proof (frac_pos d n D N) as F2.
    pose proof (t10_inv (j - 1)) as I1. pose proof (t10_inv j) as I2. pose proof (t10_pos (j - 1)). pose proof (t10_pos j). pose proof (t10_pos (- (j - 1))). pose proof (t10_pos (- j)).
    destruct (Z.eqb_spec (n * 10 ^ (j - 1)) d) as [E|E].
    + replace (1 - j) with (- (j - 1)) by lia.
      assert (EQ : (frac n d == t10 (- (j - 1)))%Q).
      { assert (X : (frac n d * t10 (j - 1) == 1)%Q); [|nra]. rewrite t10_Z by lia. rewrite <- E at 1. unfold frac. rewrite inject_Z_mult. pose proof (iz_pos n N). pose proof (iz_pos _ (p10_pos (j - 1) ltac:(lia))). field. split; lra. }
      split; [lra|]. rewrite EQ. rewrite t10_add. change (t10 1) with 10%Q. lra.
    + replace (- j + 1) with (- (j - 1)) by lia.
      assert (A' : (t10 (j - 1) < frac d n)%Q).
      { apply Qle_lt_or_eq in A. destruct A as [A|A]; [exact A|]. exfalso. apply E. rewrite t10_Z in A by lia.
        assert (X : (inject_Z (10 ^ (j - 1)) * inject_Z n == inject_Z d)%Q) by (rewrite A; apply frac_mul; exact N).
        rewrite <- inject_Z_mult in X. apply (proj1 (inject_Z_injective _ _)) in X. lia. }
      split; nra.
Qed.
Lemma round_even_law n d : 0 <= n -> 0 < d -> 2 * Z.abs (round_even n d * d - n) <= d.
Proof.
  intros N D. unfold round_even. pose proof (Z.div_mod n d ltac:(lia)) as E. pose proof (Z.mod_pos_bound n d D) as M.
  destruct (Z.ltb_spec (2 * (n mod d)) d); cbn [orb]; [nia|]. destruct (Z.eqb_spec (2 * (n mod d)) d); cbn [andb]; [destruct (Z.even (n / d)); nia|nia].
Qed.
Lemma digits_law p n d : 1 <= p -> 0 < n -> 0 < d ->
  exists x r0, (t10 x <= frac n d /\ frac n d < t10 (x + 1) /\ Qabs (inject_Z r0 * t10 (x - p + 1) - frac n d) <= (1 # 2) * t10 (x - p + 1))%Q /\
    10 ^ (p - 1) <= r0 <= 10 ^ p /\ digits_g p n d = if r0 =? 10 ^ p then (10 ^ (p - 1), x + 1) else (r0, x).
Proof.
  intros P N D. destruct (dec_exp_law n d N D) as [A B]. set (x := dec_exp n d) in *. set (k := p - 1 - x).
  assert (X : exists N' D', (if 0 <=? k then round_even (n * 10 ^ k) d else round_even n (d * 10 ^ (- k))) = round_even N' D' /\ 0 < N' /\ 0 < D' /\ (frac N' D' == frac n d * t10 k)%Q).
  { pose proof (iz_pos d D). destruct (Z.leb_spec 0 k) as [K|K].
    - pose proof (p10_pos k K). exists (n * 10 ^ k), d. split; [reflexivity|]. split; [nia|]. split; [lia|]. rewrite t10_Z by exact K. unfold frac. rewrite inject_Z_mult. field. lra.
    - pose proof (p10_pos (- k) ltac:(lia)) as PK. exists n, (d * 10 ^ (- k)). split; [reflexivity|]. split; [lia|]. split; [nia|].
      pose proof (t10_inv k) as I. rewrite (t10_Z (- k)) in I by lia. apply iz_pos in PK. unfold frac. rewrite inject_Z_mult.
      assert (IK : (t10 k == / inject_Z (10 ^ (- k)))%Q).
      { apply (Qmult_inj_r _ _ (inject_Z (10 ^ (- k)))); [lra|]. rewrite I, Qmult_comm, Qmult_inv_r; [reflexivity|lra]. }
      rewrite IK. field. split; lra. }
  destruct X as (N' & D' & E & PN & PD & F). pose proof (round_even_law N' D' ltac:(lia) PD) as R. set (r0 := round_even N' D') in *. exists x, r0.
  pose proof (t10_pos k) as TK.
  assert (L1 : (inject_Z (10 ^ (p - 1)) <= frac N' D')%Q).
  { rewrite F, <- t10_Z by lia. replace (p - 1) with (x + k) by (unfold k; lia). rewrite t10_add. nra. }
  assert (L2 : (frac N' D' < inject_Z (10 ^ p))%Q).
  { rewrite F, <- t10_Z by lia. replace p with (x + 1 + k) by (unfold k; lia). rewrite t10_add. nra. }
  rewrite frac_le in L1 by exact PD. rewrite frac_lt in L2 by exact PD.
  assert (B0 : 10 ^ (p - 1) <= r0 <= 10 ^ p) by (clearbody r0; split; nia).
  split; [|split; [exact B0|]].
  - split; [exact A|]. split; [exact B|]. replace (x - p + 1) with (- k) by (unfold k; lia).
    assert (HQ : (2 * Qabs (inject_Z r0 * inject_Z D' - inject_Z N') <= inject_Z D')%Q).
    { rewrite <- inject_Z_mult. unfold Qminus. rewrite <- inject_Z_opp, <- inject_Z_plus. change (Qabs (inject_Z (r0 * D' + - N'))) with (inject_Z (Z.abs (r0 * D' - N'))). change 2%Q with (inject_Z 2). rewrite <- inject_Z_mult, <- Zle_Qle. exact R. }
    assert (E1 : (inject_Z r0 * t10 (- k) - frac n d == (inject_Z r0 * inject_Z D' - inject_Z N') * (t10 (- k) * / inject_Z D'))%Q).
    { pose proof (iz_pos D' PD) as PD'. pose proof (frac_mul N' D' PD) as FM. rewrite <- FM, F. pose proof (t10_inv k) as I.
      transitivity (inject_Z r0 * t10 (- k) - frac n d * (t10 k * t10 (- k)))%Q; [rewrite I; ring|]. field. lra. }
    pose proof (iz_pos D' PD) as PD'. pose proof (t10_pos (- k)) as TN. assert (ID : (0 < / inject_Z D')%Q) by (apply Qinv_lt_0_compat; exact PD').
    assert (IM : (inject_Z D' * / inject_Z D' == 1)%Q) by (apply Qmult_inv_r; lra).
    rewrite E1, Qabs_Qmult, (Qabs_pos (t10 (- k) * / inject_Z D')) by nra.
    apply Qle_trans with ((1 # 2) * inject_Z D' * (t10 (- k) * / inject_Z D'))%Q; [apply Qmult_le_compat_r; [lra|nra]|].
    apply Qle_trans with ((1 # 2) * t10 (- k) * (inject_Z D' * / inject_Z D'))%Q; [apply Qle_lteq; right; ring|]. rewrite IM. lra.
  - unfold digits_g. fold x. fold k. cbv zeta. rewrite E. reflexivity.
Qed.
Lemma Qabs_lt_iff x y : (Qabs x < y)%Q <-> (- y < x /\ x < y)%Q.
Proof. split; [intros H; pose proof (Qle_Qabs x); pose proof (Qle_Qabs (- x)); rewrite Qabs_opp in H1; split; lra|intros [A B]; apply Qabs_case; intros; lra]. Qed.
(** a number near a decimal of [p] digits has these digits *)
Lemma digits_unique p n d r k : 1 <= p -> 0 < n -> 0 < d -> 10 ^ (p - 1) <= r < 10 ^ p ->
  (Qabs (frac n d - inject_Z r * t10 (k - p + 1)) < (1 # 2) * t10 (k - p + 1))%Q ->
  (r = 10 ^ (p - 1) -> (t10 k <= frac n d \/ t10 k - frac n d < (1 # 2) * t10 (k - p))%Q) ->
  digits_g p n d = (r, k).
Proof.
  intros P N D R C C1. destruct (digits_law p n d P N D) as (x & r0 & (A & B & H) & R0 & ->). set (q := frac n d) in *. set (u := t10 (k - p + 1)) in *. pose proof (t10_pos (k - p + 1)) as PU. fold u in PU.
  assert (U1 : (t10 k == inject_Z (10 ^ (p - 1)) * u)%Q) by (unfold u; rewrite <- t10_Z, <- t10_add by lia; replace (p - 1 + (k - p + 1)) with k by lia; reflexivity).
  assert (U2 : (t10 (k + 1) == inject_Z (10 ^ p) * u)%Q) by (unfold u; rewrite <- t10_Z, <- t10_add by lia; replace (p + (k - p + 1)) with (k + 1) by lia; reflexivity).
  apply Qabs_lt_iff in C. destruct C as [Ca Cb].
  assert (QD : (q < t10 (k + 1))%Q).
  { rewrite U2. assert (X : r + 1 <= 10 ^ p) by lia. rewrite Zle_Qle, inject_Z_plus in X. change (inject_Z 1) with 1%Q in X. nra. }
  assert (X1 : x <= k) by (assert (x < k + 1); [apply t10_lt; lra|lia]).
  assert (EQ : forall a b c, (0 < c -> Qabs (inject_Z a * c - q) <= (1 # 2) * c -> - ((1 # 2) * c) < q - inject_Z b * c -> q - inject_Z b * c < (1 # 2) * c -> inject_Z (a - b) < 1 /\ -1 < inject_Z (a - b))%Q).
  { intros a b c C0 H1 H2 H3. apply Qabs_Qle_condition in H1. unfold Z.sub. rewrite inject_Z_plus, inject_Z_opp. split; nra. }
  destruct (Qlt_le_dec q (t10 k)) as [G|G].
  - assert (r = 10 ^ (p - 1)) as RE.
    { destruct (Z.eq_dec r (10 ^ (p - 1))) as [E|E]; [exact E|]. exfalso. assert (X : 10 ^ (p - 1) + 1 <= r) by lia. rewrite Zle_Qle, inject_Z_plus in X. change (inject_Z 1) with 1%Q in X. rewrite U1 in G. nra. }
    destruct (C1 RE) as [Y|Y]; [lra|].
    assert (U3 : (t10 k == inject_Z (10 ^ p) * t10 (k - p))%Q) by (rewrite <- t10_Z, <- t10_add by lia; replace (p + (k - p)) with k by lia; reflexivity).
    assert (X2 : x = k - 1).
    { assert (x < k) by (apply t10_lt; lra). assert (k - 1 < x + 1); [|lia]. apply t10_lt. pose proof (t10_mono (k - p) (k - 1) ltac:(lia)). pose proof (t10_pos (k - p)).
      assert (Z10 : (t10 k == t10 (k - 1) * 10)%Q) by (replace k with (k - 1 + 1) at 1 by lia; rewrite t10_add; reflexivity). lra. }
    subst x. replace (k - 1 - p + 1) with (k - p) in H by lia.
    destruct (EQ r0 (10 ^ p) (t10 (k - p)) (t10_pos _) H) as [Z1 Z2]; [lra|lra|].
    change 1%Q with (inject_Z 1) in Z1. change (-1)%Q with (inject_Z (-1)) in Z2. rewrite <- Zlt_Qlt in Z1, Z2. assert (r0 = 10 ^ p) by lia. subst r0. rewrite Z.eqb_refl. f_equal; lia.
  - assert (X2 : x = k) by (assert (k < x + 1) by (apply t10_lt; lra); lia). subst x. fold u in H.
    destruct (EQ r0 r u PU H) as [Z1 Z2]; [lra|lra|]. change 1%Q with (inject_Z 1) in Z1. change (-1)%Q with (inject_Z (-1)) in Z2. rewrite <- Zlt_Qlt in Z1, Z2. assert (r0 = r) by lia. subst r0.
    destruct (Z.eqb_spec r (10 ^ p)); [lia|reflexivity].
Qed.
(** * the text *)
Lemma digits_numeral s : Forall digit s -> numeral s (dec_of s).
Proof.
  induction s as [|c s IH] using rev_ind; intros D; [constructor|]. apply Forall_app in D. destruct D as [D C]. inversion_clear C as [|? ? C' _].
  rewrite dec_app. unfold digit in C'. apply In_nth_error in C'. destruct C' as [d E]. destruct (digit_val_nth d c E) as [-> _]. constructor; auto.
Qed.
Lemma digit_num c : digit c -> num_char c = true.
Proof. intros D. apply (digit_cases c (fun c => num_char c = true)); [reflexivity..|exact D]. Qed.
Lemma strip_split f : exists j, f = strip_zeros f ++ repeat "0"%char j.
Proof.
  induction f as [|c f [j IH]]; [exists 0%nat; reflexivity|]. cbn [strip_zeros]. destruct (strip_zeros f) as [|a g] eqn:E.
  - destruct (Ascii.eqb_spec c "0"); [subst c; exists (S j)|exists j]; cbn [repeat app] in *; congruence.
  - exists j. cbn [app]. cbn [app] in IH. congruence.
Qed.
Lemma with_frac_split a f : exists b f' j, with_frac a f = a ++ b /\ point_text b f' /\ f = f' ++ repeat "0"%char j.
Proof.
  destruct (strip_split f) as [j E]. unfold with_frac. destruct (strip_zeros f) as [|c g].
  - exists [], [], j. rewrite app_nil_r. split; [reflexivity|]. split; [left; auto|exact E].
  - exists ("."%char :: c :: g), (c :: g), j. split; [reflexivity|]. split; [right; reflexivity|exact E].
Qed.
Lemma dec_app_zeros s j : dec_of (s ++ repeat "0"%char j) = dec_of s * 10 ^ Z.of_nat j.
Proof.
  induction j as [|j IH]; [cbn [repeat]; rewrite app_nil_r; change (10 ^ Z.of_nat 0) with 1; lia|].
  replace (repeat "0"%char (S j)) with (repeat "0"%char j ++ ["0"%char]).
  - rewrite app_assoc, dec_app, IH. change (digit_val "0") with 0. rewrite Nat2Z.inj_succ, Z.pow_succ_r by lia. ring.
  - clear. induction j; [reflexivity|]. cbn [repeat app]. rewrite IHj. reflexivity.
Qed.
Lemma dec_lead_zeros j s : dec_of (repeat "0"%char j ++ s) = dec_of s.
Proof. unfold dec_of. rewrite fold_left_app. f_equal. induction j; [reflexivity|]. exact IHj. Qed.
Lemma two_digits_text z : 0 <= z -> two_digits z <> [] /\ Forall digit (two_digits z) /\ dec_of (two_digits z) = z.
Proof.
  intros H.
  assert (X : show_Z z <> [] /\ Forall digit (show_Z z) /\ dec_of (show_Z z) = z).
  { destruct (show_Z_text z) as (s & [S1 S2] & V & E). destruct (Z.ltb_spec z 0); [lia|]. cbn [app] in E. rewrite E. split; [exact S1|]. split; [exact S2|lia]. }
  destruct X as (X1 & X2 & X3). unfold two_digits. destruct (z <? 10); [|auto]. split; [discriminate|]. split; [constructor; [left; reflexivity|exact X2]|].
  change ("0"%char :: show_Z z) with (repeat "0"%char 1 ++ show_Z z). rewrite dec_lead_zeros. exact X3.
Qed.
(** the parts of the text: no needless leading zero, few digits, an exponent only of the scientific form *)
Lemma show_g_form p r k : 1 <= p -> 10 ^ (p - 1) <= r < 10 ^ p ->
  exists ip b fp x e, show_g p r k = ip ++ b ++ x /\ point_text b fp /\ ip <> [] /\ Forall digit ip /\ Forall digit fp /\ exponent_text x e /\
    (inject_Z (dec_of (ip ++ fp)) * t10 (e - Z.of_nat (length fp)) == inject_Z r * t10 (k - p + 1))%Q /\
    (ip = L "0" \/ hd "0"%char ip <> "0"%char) /\ dec_of (ip ++ fp) <= r /\ Z.of_nat (length ip + length fp) <= p + 4 /\ (b = [] \/ fp <> []) /\
    (x = [] /\ -4 <= k < p \/ e = k /\ x = "e"%char :: (if k <? 0 then "-"%char :: two_digits (- k) else "+"%char :: two_digits k)).
Proof.
  intros P R. pose proof (p10_pos (p - 1) ltac:(lia)) as P0. pose proof (show_Z_length p r P R) as LN. destruct (show_Z_pos r ltac:(lia)) as ([NE DG] & V & _ & HD).
  set (ds := show_Z r) in *.
  assert (G : forall ip f e, Forall digit ip -> ip <> [] -> Forall digit f -> dec_of (ip ++ f) = r -> e - Z.of_nat (length f) = k - p + 1 -> Z.of_nat (length ip + length f) <= p + 4 ->
    exists b fp, with_frac ip f = ip ++ b /\ point_text b fp /\ Forall digit fp /\ (b = [] \/ fp <> []) /\
    (inject_Z (dec_of (ip ++ fp)) * t10 (e - Z.of_nat (length fp)) == inject_Z r * t10 (k - p + 1))%Q /\ dec_of (ip ++ fp) <= r /\ Z.of_nat (length ip + length fp) <= p + 4).
  { intros ip f e D1 N1 D2 DV EV LE. destruct (with_frac_split ip f) as (b & fp & j & W & PT & F).
    assert (NB : b = [] \/ fp <> []).
    { destruct PT as [[-> _]| ->]; [left; reflexivity|]. right. intros ->. unfold with_frac in W. destruct (strip_zeros f) eqn:SZ.
      - rewrite <- (app_nil_r ip) in W at 1. apply app_inv_head in W. discriminate W.
      - apply app_inv_head in W. discriminate W. }
    exists b, fp. split; [exact W|]. split; [exact PT|].
    rewrite F in D2. apply Forall_app in D2. destruct D2 as [D2 _]. split; [exact D2|]. split; [exact NB|].
    rewrite F, app_assoc, dec_app_zeros in DV. pose proof (p10_pos (Z.of_nat j) ltac:(lia)) as PJ. destruct (dec_range (ip ++ fp)) as [DR _]; [apply Forall_app; auto|]. split.
    - rewrite <- DV, <- EV, F, app_length, repeat_length, Nat2Z.inj_add, inject_Z_mult, <- (t10_Z (Z.of_nat j)) by lia.
      rewrite <- Qmult_assoc, <- t10_add. replace (Z.of_nat j + (e - (Z.of_nat (length fp) + Z.of_nat j))) with (e - Z.of_nat (length fp)) by lia. reflexivity.
    - split; [nia|]. rewrite F, app_length in LE. lia. }
  assert (FS : forall i, Forall digit (firstn i ds) /\ Forall digit (skipn i ds) /\ dec_of (firstn i ds ++ skipn i ds) = r /\ (length (firstn i ds) + length (skipn i ds) = length ds)%nat).
  { intros i. split; [|split; [|split]].
    - rewrite <- (firstn_skipn i ds) in DG. apply Forall_app in DG. apply DG.
    - rewrite <- (firstn_skipn i ds) in DG. apply Forall_app in DG. apply DG.
    - rewrite firstn_skipn. exact V.
    - rewrite <- app_length, firstn_skipn. reflexivity. }
  unfold show_g. fold ds. destruct ((k <? -4) || (p <=? k)) eqn:C.
  - destruct (FS 1%nat) as (D1 & D2 & DV & DL).
    assert (X : exponent_text ("e"%char :: (if k <? 0 then "-"%char :: two_digits (- k) else "+"%char :: two_digits k)) k).
    { right. destruct (Z.ltb_spec k 0).
      - destruct (two_digits_text (- k) ltac:(lia)) as (T1 & T2 & T3). exists "e"%char, (L "-"), (two_digits (- k)), true, (- k). split; [reflexivity|]. split; [left; reflexivity|]. split; [right; auto|]. split; [exact T1|].
        split; [rewrite <- T3 at 2; apply digits_numeral; exact T2|]. unfold signed. lia.
      - destruct (two_digits_text k ltac:(lia)) as (T1 & T2 & T3). exists "e"%char, (L "+"), (two_digits k), false, k. split; [reflexivity|]. split; [left; reflexivity|]. split; [left; auto|]. split; [exact T1|].
        split; [rewrite <- T3 at 2; apply digits_numeral; exact T2|]. reflexivity. }
    match type of X with exponent_text ?t _ => set (tx := t) in * end.
    assert (N1 : firstn 1 ds <> []) by (destruct ds; [congruence|discriminate]).
    destruct (G (firstn 1 ds) (skipn 1 ds) k D1 N1 D2 DV) as (b & fp & W & PT & D3 & NB & Y & Y1 & Y2); [rewrite skipn_length; lia|lia|].
    exists (firstn 1 ds), b, fp, tx, k. rewrite W. rewrite <- app_assoc. split; [reflexivity|]. split; [exact PT|]. split; [exact N1|]. split; [exact D1|]. split; [exact D3|]. split; [exact X|]. split; [exact Y|].
    split; [right; destruct ds; [congruence|exact HD]|]. split; [exact Y1|]. split; [exact Y2|]. split; [exact NB|]. right. split; reflexivity.
  - apply orb_false_iff in C. destruct C as [C0 C]. apply Z.leb_gt in C. apply Z.ltb_ge in C0. destruct (Z.leb_spec 0 k).
    + destruct (FS (Z.to_nat (k + 1))) as (D1 & D2 & DV & DL). set (ip := firstn (Z.to_nat (k + 1)) ds) in *.
      assert (N1 : ip <> []) by (unfold ip; destruct ds as [|a ds']; [congruence|]; replace (Z.to_nat (k + 1)) with (S (Z.to_nat k)) by lia; discriminate).
      assert (HI : hd "0"%char ip <> "0"%char) by (unfold ip; destruct ds as [|a ds']; [congruence|]; replace (Z.to_nat (k + 1)) with (S (Z.to_nat k)) by lia; exact HD).
      destruct (G ip (skipn (Z.to_nat (k + 1)) ds) 0 D1 N1 D2 DV) as (b & fp & W & PT & D3 & NB & Y & Y1 & Y2); [rewrite skipn_length; lia|lia|].
      exists ip, b, fp, [], 0. rewrite W, app_nil_r. split; [reflexivity|]. split; [exact PT|]. split; [exact N1|]. split; [exact D1|]. split; [exact D3|]. split; [left; auto|]. split; [exact Y|].
      split; [right; exact HI|]. split; [exact Y1|]. split; [exact Y2|]. split; [exact NB|]. left. split; [reflexivity|lia].
    + assert (N1 : L "0" <> []) by discriminate. assert (D1 : Forall digit (L "0")) by (constructor; [left; reflexivity|constructor]).
      destruct (G (L "0") (repeat "0"%char (Z.to_nat (- k - 1)) ++ ds) 0 D1 N1) as (b & fp & W & PT & D3 & NB & Y & Y1 & Y2).
      * apply Forall_app. split; [|exact DG]. apply Forall_forall. intros c I. apply repeat_spec in I. subst c. left; reflexivity.
      * change (L "0") with (repeat "0"%char 1). rewrite !dec_lead_zeros. exact V.
      * rewrite app_length, repeat_length. lia.
      * rewrite app_length, repeat_length. cbn [L list_ascii_of_string length]. lia.
      * exists (L "0"), b, fp, [], 0. rewrite W, app_nil_r. split; [reflexivity|]. split; [exact PT|]. split; [exact N1|]. split; [exact D1|]. split; [exact D3|]. split; [left; auto|]. split; [exact Y|].
        split; [left; reflexivity|]. split; [exact Y1|]. split; [exact Y2|]. split; [exact NB|]. left. split; [reflexivity|lia].
Qed.
Lemma show_g_text p r k : 1 <= p -> 10 ^ (p - 1) <= r < 10 ^ p ->
  exists ip b fp x e, show_g p r k = ip ++ b ++ x /\ point_text b fp /\ ip ++ fp <> [] /\ Forall digit ip /\ Forall digit fp /\ exponent_text x e /\
    (inject_Z (dec_of (ip ++ fp)) * t10 (e - Z.of_nat (length fp)) == inject_Z r * t10 (k - p + 1))%Q.
Proof.
  intros P R. destruct (show_g_form p r k P R) as (ip & b & fp & x & e & A & B & C & D1 & D2 & E & F & _). exists ip, b, fp, x, e.
  split; [exact A|]. split; [exact B|]. split; [destruct ip; [congruence|discriminate]|]. auto.
Qed.
