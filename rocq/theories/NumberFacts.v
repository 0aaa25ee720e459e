(** Facts about element values. *)
From Coq Require Import ZArith Floats.SpecFloat.
From Verif Require Import Base DType Mem Number.
Local Open Scope Z_scope.

Lemma le_value_range : forall bs, 0 <= le_value bs < 2 ^ (8 * Z.of_nat (length bs)).
Proof.
  induction bs as [|b r IH]; [cbn; lia|]. cbn [le_value length]. pose proof (N_ascii_bounded b) as B.
  rewrite Nat2Z.inj_succ. replace (8 * Z.succ (Z.of_nat (length r))) with (8 + 8 * Z.of_nat (length r)) by lia.
  rewrite Z.pow_add_r by lia. change (2 ^ 8) with 256. lia.
Qed.
Lemma le_value_inj : forall a b, length a = length b -> le_value a = le_value b -> a = b.
Proof.
  induction a as [|x a IH]; intros [|y b] L E; try discriminate L; [reflexivity|]. cbn [length] in L. injection L as L. cbn [le_value] in E.
  pose proof (N_ascii_bounded x) as Bx. pose proof (N_ascii_bounded y) as By.
  assert (X : N_of_ascii x = N_of_ascii y /\ le_value a = le_value b) by lia. destruct X as [X1 X2].
  rewrite (IH b L X2). f_equal. rewrite <- (ascii_N_embedding x), <- (ascii_N_embedding y), X1. reflexivity.
Qed.
Lemma uvalue_range : forall mach bs, 0 <= uvalue mach bs < 2 ^ (8 * Z.of_nat (length bs)).
Proof. intros mach bs. unfold uvalue. destruct mach; try apply le_value_range. rewrite <- rev_length. apply le_value_range. Qed.
Lemma uvalue_inj : forall mach a b, length a = length b -> uvalue mach a = uvalue mach b -> a = b.
Proof.
  intros mach a b L E. unfold uvalue in E. destruct mach; try (apply le_value_inj; assumption).
  rewrite <- (rev_involutive a), <- (rev_involutive b). f_equal. apply le_value_inj; [rewrite !rev_length; exact L|exact E].
Qed.
Lemma wrap_s_range : forall w x, 0 < w -> - 2 ^ (w - 1) <= wrap_s w x < 2 ^ (w - 1).
Proof.
  intros w x W. unfold wrap_s. assert (P : 2 ^ w = 2 * 2 ^ (w - 1)) by (rewrite <- Z.pow_succ_r by lia; f_equal; lia).
  assert (0 < 2 ^ (w - 1)) by (apply Z.pow_pos_nonneg; lia). pose proof (Z.mod_pos_bound x (2 ^ w) ltac:(lia)).
  destruct (Z.ltb_spec (x mod 2 ^ w) (2 ^ (w - 1))); lia.
Qed.
Lemma wrap_s_mod : forall w x, 0 <= w -> wrap_s w x mod 2 ^ w = x mod 2 ^ w.
Proof.
  intros w x W. unfold wrap_s. assert (0 < 2 ^ w) by (apply Z.pow_pos_nonneg; lia). destruct (x mod 2 ^ w <? 2 ^ (w - 1)).
  - apply Z.mod_mod. lia.
  - rewrite <- (Z.mod_mod x (2 ^ w)) at 2 by lia. replace (x mod 2 ^ w - 2 ^ w) with (x mod 2 ^ w + (-1) * 2 ^ w) by lia. apply Z.mod_add. lia.
Qed.
Lemma wrap_s_inj : forall w x y, 0 <= w -> 0 <= x < 2 ^ w -> 0 <= y < 2 ^ w -> wrap_s w x = wrap_s w y -> x = y.
Proof.
  intros w x y W X Y E. rewrite <- (Z.mod_small x (2 ^ w) X), <- (Z.mod_small y (2 ^ w) Y), <- (wrap_s_mod w x W), <- (wrap_s_mod w y W), E. reflexivity.
Qed.
(** different bytes spell different numbers *)
Lemma ivalue_inj : forall mach t a b, length a = length b -> ivalue mach t a = ivalue mach t b -> a = b.
Proof.
  intros mach t a b L E. unfold ivalue in E. destruct (is_signed t); [|apply (uvalue_inj mach); assumption].
  unfold svalue in E. rewrite <- L in E. apply (uvalue_inj mach); [exact L|].
  apply (wrap_s_inj (8 * Z.of_nat (length a))); [lia|apply uvalue_range|rewrite L; apply uvalue_range|exact E].
Qed.

(** ** Floats *)
Lemma SFsub_self : forall p e x, SFsub p e x x = S754_zero false \/ SFsub p e x x = S754_nan.
Proof.
  intros p e [[|]|[|]| |s m x]; cbn [SFsub Bool.eqb negb]; auto.
  left. rewrite Z.sub_diag. reflexivity.
Qed.
Lemma binary_round_aux_sign : forall p e s m x l, binary_round_aux p e (negb s) m x l = SFopp (binary_round_aux p e s m x l).
Proof.
  intros p e s m x l. unfold binary_round_aux. destruct (shr_fexp p e m x l) as [r y]. destruct (shr_fexp _ _ _ _ _) as [r' y'].
  destruct (shr_m r'); cbn; try reflexivity. destruct (Zle_bool y' (e - p)); reflexivity.
Qed.
Lemma binary_round_sign : forall p e s m x, binary_round p e (negb s) m x = SFopp (binary_round p e s m x).
Proof. intros p e s m x. unfold binary_round. destruct (shl_align _ _ _) as [a b]. apply binary_round_aux_sign. Qed.
(** the verdicts of x - y and y - x agree *)
Definition sf_sim (a b : spec_float) : Prop := match a, b with S754_zero _, S754_zero _ => True | _, _ => a = b end.
Lemma sf_sim_refl : forall a, sf_sim a a.
Proof. intros []; cbn; auto. Qed.
Lemma normalize_opp : forall p e z x s s', sf_sim (binary_normalize p e (- z) x s) (SFopp (binary_normalize p e z x s')).
Proof.
  intros p e [|q|q] x s s'; cbn [Z.opp binary_normalize].
  - exact I.
  - rewrite <- (binary_round_sign p e false). apply sf_sim_refl.
  - rewrite <- (binary_round_sign p e true). apply sf_sim_refl.
Qed.
Lemma SFsub_opp : forall p e x y, sf_sim (SFsub p e y x) (SFopp (SFsub p e x y)).
Proof.
  intros p e x y. destruct x as [[|]|[|]| |s m k], y as [[|]|[|]| |s' m' k']; try exact I; try reflexivity; cbn [SFsub SFopp].
  - rewrite Bool.negb_involutive. reflexivity.
  - rewrite Bool.negb_involutive. reflexivity.
  - rewrite (Z.min_comm k' k). match goal with |- sf_sim (binary_normalize _ _ (?u - ?v) _ _) _ => replace (u - v) with (- (v - u)) by lia end. apply normalize_opp.
Qed.
Lemma SFopp_opp : forall x, SFopp (SFopp x) = x.
Proof. intros [s|s| |s m e]; cbn [SFopp]; rewrite ?Bool.negb_involutive; reflexivity. Qed.
Lemma SFcompare_opp : forall a b, SFcompare (SFopp a) (SFopp b) = SFcompare b a.
Proof.
  intros [s|s| |s m e] [s'|s'| |s' m' e']; cbn [SFopp SFcompare]; try reflexivity.
  - destruct s'; reflexivity.
  - destruct s'; reflexivity.
  - destruct s; reflexivity.
  - destruct s, s'; reflexivity.
  - destruct s; reflexivity.
  - destruct s; reflexivity.
  - destruct s'; reflexivity.
  - change (Pos.compare_cont Eq m m') with (Pos.compare m m'). change (Pos.compare_cont Eq m' m) with (Pos.compare m' m).
    destruct s, s'; cbn [negb]; try reflexivity; rewrite (Pos.compare_antisym m m');
      destruct (Z.compare_spec e e'), (Z.compare_spec e' e); try lia; try reflexivity; rewrite ?CompOpp_involutive; reflexivity.
Qed.
Lemma SFcompare_sim : forall a a' b, sf_sim a a' -> SFcompare a b = SFcompare a' b /\ SFcompare b a = SFcompare b a'.
Proof.
  intros a a' b H. destruct a; cbn [sf_sim] in H; try (subst a'; split; reflexivity).
  destruct a'; try discriminate H. split; destruct b; reflexivity.
Qed.
Lemma sim_opp : forall a b, sf_sim a b -> sf_sim (SFopp a) (SFopp b).
Proof. intros a b H. destruct a; cbn [sf_sim] in H; try (subst b; apply sf_sim_refl). destruct b; try discriminate H. exact I. Qed.
Lemma to_double_opp : forall x, sf_sim (to_double (SFopp x)) (SFopp (to_double x)).
Proof.
  intros [s|s| |s m e]; cbn [to_double SFopp]; try apply sf_sim_refl.
  replace (cond_Zopp (negb s) (Z.pos m)) with (- cond_Zopp s (Z.pos m)) by (destruct s; reflexivity). apply normalize_opp.
Qed.
Lemma to_double_sim : forall a b, sf_sim a b -> sf_sim (to_double a) (to_double b).
Proof. intros a b H. destruct a; cbn [sf_sim] in H; try (subst b; apply sf_sim_refl). destruct b; try discriminate H. exact I. Qed.
