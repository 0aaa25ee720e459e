(** Numbers in comma separated text: integers come back exactly; names that are no numbers. *)
From Coq Require Import ZArith Lia FinFun Floats.SpecFloat.
From Verif Require Import Base DType Mem Number ArrayOps Codec Json JsonSpec JsonSchema FloatText Node MatSet Csv CsvFacts.
Local Open Scope Z_scope.

(** the number [x] is the integer [z] *)
Definition is_integer (x : spec_float) (z : Z) : Prop :=
  match x with
  | S754_zero _ => z = 0
  | S754_finite s m e => z = (if s then - 1 else 1) * Z.abs z /\ Zpos m * 2 ^ (Z.max e 0) = Z.abs z * 2 ^ (Z.max (- e) 0)
  | _ => False
  end.

Lemma digits2_log2 p : Zpos (digits2_pos p) = Z.log2 (Zpos p) + 1.
Proof.
  assert (E : forall p, digits2_pos p = Pos.size p) by (induction p0; cbn; congruence).
  rewrite E. destruct p; cbn [Z.log2 Pos.size]; lia.
Qed.

Section Round.
  Variables prec emax : Z.
  Hypothesis HP : 5 < prec.
  Hypothesis HE : prec + 5 < emax.
  (** 32 p * 2^e, with [p] of exactly [prec] bits, is p * 2^(e+5) *)
  Lemma normalize_exact (s : bool) p e z : 2 ^ (prec - 1) <= Zpos p < 2 ^ prec ->
    3 - emax - prec <= e + 5 -> e + 5 <= emax - prec ->
    binary_normalize prec emax (cond_Zopp s (Zpos p~0~0~0~0~0)) e z = S754_finite s p (e + 5).
  Proof.
    intros P E1 E2.
    assert (D : Zpos (digits2_pos p) = prec).
    { rewrite digits2_log2. cut (Z.log2 (Z.pos p) = prec - 1); [lia|]. apply Z.log2_unique; [lia|].
      replace (Z.succ (prec - 1)) with prec by lia. exact P. }
    assert (B : binary_round prec emax s p~0~0~0~0~0 e = S754_finite s p (e + 5)).
    { assert (D5 : Zpos (digits2_pos p~0~0~0~0~0) = prec + 5) by (cbn [digits2_pos]; rewrite !Pos2Z.inj_succ; lia).
      assert (F5 : fexp prec emax (Zpos (digits2_pos p~0~0~0~0~0) + e) = e + 5).
      { rewrite D5. unfold fexp, SpecFloat.emin. lia. }
      unfold binary_round, shl_align. rewrite F5.
      replace (e + 5 - e) with 5 by lia. cbv iota.
      unfold binary_round_aux, shr_fexp. cbn [Zdigits2]. rewrite F5. replace (e + 5 - e) with 5 by lia.
      cbn [shr_record_of_loc shr SpecFloat.iter_pos shr_1 shr_m shr_r shr_s loc_of_shr_record round_nearest_even Z.even orb negb].
      assert (F0 : fexp prec emax (Zdigits2 (Z.pos p) + (e + 5)) = e + 5).
      { cbn [Zdigits2]. rewrite D. unfold fexp, SpecFloat.emin. lia. }
      rewrite F0. rewrite Z.sub_diag. cbn [shr shr_m].
      destruct (Z.leb_spec (e + 5) (emax - prec)); [reflexivity|lia]. }
    destruct s; cbn [cond_Zopp Z.opp binary_normalize]; exact B.
  Qed.
  Lemma nearest_exact (s : bool) n : 0 < n <= 2 ^ prec ->
    exists p e, nearest prec emax s n 1 = S754_finite s p e /\ 2 ^ (prec - 1) <= Zpos p /\
                Zpos p * 2 ^ (Z.max e 0) = n * 2 ^ (Z.max (- e) 0).
  Proof.
    intros N.
    assert (LG : 0 <= Z.log2 n <= prec).
    { split; [apply Z.log2_nonneg|]. rewrite <- (Z.log2_pow2 prec) by lia. apply Z.log2_le_mono. lia. }
    assert (LS : 2 ^ Z.log2 n <= n < 2 ^ Z.succ (Z.log2 n)) by (apply Z.log2_spec; lia).
    set (k := prec + 3 - Z.log2 n).
    assert (K : Z.max 0 (prec + 3 + Z.log2 1 - Z.log2 n) = k) by (change (Z.log2 1) with 0; unfold k; lia).
    assert (X : exists p, 2 * (n * 2 ^ k) = 32 * Zpos p /\ 2 ^ (prec - 1) <= Zpos p < 2 ^ prec).
    { destruct (Z.eq_dec n (2 ^ prec)) as [E|E].
      - assert (K3 : k = 3) by (unfold k; rewrite E, Z.log2_pow2 by lia; lia).
        assert (Q : 2 ^ prec = 2 * 2 ^ (prec - 1)) by (rewrite <- Z.pow_succ_r by lia; f_equal; lia).
        assert (0 < 2 ^ (prec - 1)) by (apply Z.pow_pos_nonneg; lia).
        exists (Z.to_pos (2 ^ (prec - 1))). rewrite Z2Pos.id by lia. rewrite K3. change (2 ^ 3) with 8. lia.
      - assert (K4 : 4 <= k).
        { assert (Z.log2 n < prec); [|unfold k; lia]. apply Z.log2_lt_pow2; lia. }
        assert (Q : 2 ^ k = 16 * 2 ^ (k - 4)) by (replace k with (4 + (k - 4)) at 1 by lia; rewrite Z.pow_add_r by lia; reflexivity).
        assert (0 < 2 ^ (k - 4)) by (apply Z.pow_pos_nonneg; lia).
        exists (Z.to_pos (n * 2 ^ (k - 4))). rewrite Z2Pos.id by nia. split; [rewrite Q; ring|].
        assert (Q1 : 2 ^ (prec - 1) = 2 ^ Z.log2 n * 2 ^ (k - 4)) by (rewrite <- Z.pow_add_r by lia; f_equal; unfold k; lia).
        assert (Q2 : 2 ^ prec = 2 ^ Z.succ (Z.log2 n) * 2 ^ (k - 4)) by (rewrite <- Z.pow_add_r by lia; f_equal; unfold k; lia).
        rewrite Q1, Q2. split; [apply Z.mul_le_mono_nonneg_r; lia|apply Z.mul_lt_mono_pos_r; lia]. }
    destruct X as (p & X & PB). exists p, (- k - 1 + 5). split; [|split; [lia|]].
    - unfold nearest. rewrite K. rewrite Z.div_1_r, Z.mod_1_r. cbn [Z.eqb]. rewrite Z.add_0_r, X.
      change (32 * Z.pos p) with (Zpos p~0~0~0~0~0).
      apply normalize_exact; [exact PB|unfold k; lia|unfold k; lia].
    - replace (- k - 1 + 5) with (4 - k) by lia.
      destruct (Z_le_gt_dec k 4) as [C|C].
      + rewrite (Z.max_l (4 - k) 0), (Z.max_r (- (4 - k)) 0) by lia. change (2 ^ 0) with 1.
        assert (k = 3 \/ k = 4) as [E|E] by (unfold k in *; lia); rewrite E in *;
        change (2 ^ 3) with 8 in *; change (2 ^ 4) with 16 in *; change (2 ^ (4 - 3)) with 2; change (2 ^ (4 - 4)) with 1; lia.
      + rewrite (Z.max_r (4 - k) 0), (Z.max_l (- (4 - k)) 0) by lia. change (2 ^ 0) with 1.
        replace (- (4 - k)) with (k - 4) by lia.
        assert (Q : 2 ^ k = 16 * 2 ^ (k - 4)) by (replace k with (4 + (k - 4)) at 1 by lia; rewrite Z.pow_add_r by lia; reflexivity).
        rewrite Q in X. lia.
  Qed.
  Lemma scaled_exact (s : bool) n : 0 <= n <= 2 ^ prec ->
    exists x, scaled prec emax s 10 n 0 = (x, false) /\ is_integer x (if s then - n else n).
  Proof.
    intros N. unfold scaled. destruct (Z.eqb_spec n 0) as [->|Z0]; [exists (S754_zero s); split; [reflexivity|destruct s; reflexivity]|].
    cbn [Z.leb Z.compare]. change (10 ^ 0) with 1. rewrite Z.mul_1_r.
    destruct (nearest_exact s n ltac:(lia)) as (p & e & E & B & V). rewrite E. eexists. split.
    - cbn [range_error]. destruct (Z.ltb_spec (Zpos p) (2 ^ (prec - 1))); [lia|]. reflexivity.
    - cbn [is_integer]. split; [destruct s; lia|]. rewrite V. f_equal. destruct s; lia.
  Qed.
End Round.

(** * Reading digits *)
Lemma digit_cases (c : ascii) (P : ascii -> Prop) :
  P "0"%char -> P "1"%char -> P "2"%char -> P "3"%char -> P "4"%char -> P "5"%char -> P "6"%char -> P "7"%char -> P "8"%char -> P "9"%char ->
  digit c -> P c.
Proof.
  intros ? ? ? ? ? ? ? ? ? ? D. unfold digit in D. cbn [L list_ascii_of_string In] in D.
  repeat (destruct D as [<-|D]; [assumption|]). destruct D.
Qed.
Lemma take_all f s : Forall (fun c => f c = true) s -> take_while f s = (s, []).
Proof. induction 1 as [|c s C _ IH]; [reflexivity|]. cbn [take_while]. rewrite C, IH. reflexivity. Qed.
Lemma dec_fold' s : Forall digit s -> forall a,
  Json.dec_value s a = Some (fold_left (fun a c => 10 * a + digit_val c) s a).
Proof.
  induction 1 as [|c s C _ IH]; intros a; [reflexivity|]. cbn [Json.dec_value fold_left].
  assert (N : num_char c = true) by (apply (digit_cases c (fun c => num_char c = true)); [reflexivity..|exact C]). rewrite N, IH. f_equal. f_equal. unfold digit_val. lia.
Qed.
Lemma begins_not w s : (forall c r, s = c :: r -> exists d w', w = d :: w' /\ lower c <> d) -> w <> [] -> begins w s = false.
Proof.
  intros H N. unfold begins. destruct (str_eqb_spec (map lower (firstn (length w) s)) w) as [E|]; [|reflexivity].
  destruct w as [|d w]; [congruence|]. destruct s as [|c r]; [discriminate|].
  cbn [length firstn map] in E. inversion E. destruct (H c r eq_refl) as (d' & w' & E' & X). congruence.
Qed.
Lemma digits_not_hex s : Forall digit s -> begins (L "0x") s = false.
Proof.
  intros D. unfold begins. destruct (str_eqb_spec (map lower (firstn (length (L "0x")) s)) (L "0x")) as [E|]; [|reflexivity].
  destruct s as [|a [|b s]]; try discriminate. cbn in E. inversion E as [[E1 E2]].
  inversion_clear D as [|? ? _ D']. inversion_clear D' as [|? ? Db _]. exfalso. revert E2.
  apply (digit_cases b (fun b => lower b <> "x"%char)); [vm_compute; discriminate..|exact Db].
Qed.
Lemma strto_digits prec emax (neg : bool) s : digits s ->
  c_strto prec emax ((if neg then L "-" else []) ++ s) =
  (let '(v, err) := scaled prec emax neg 10 (dec_of s) 0 in (v, err, Some [])).
Proof.
  intros (N & D). destruct s as [|d ds]; [congruence|]. inversion D as [|? ? D1 D2]; subst.
  assert (SP : c_space d = false /\ Ascii.eqb d "-" = false /\ Ascii.eqb d "+" = false /\ lower d <> "i"%char /\ lower d <> "n"%char)
    by (apply (digit_cases d (fun d => c_space d = false /\ Ascii.eqb d "-" = false /\ Ascii.eqb d "+" = false /\ lower d <> "i"%char /\ lower d <> "n"%char));
        [vm_compute; repeat split; discriminate..|exact D1]).
  destruct SP as (S1 & S2 & S3 & S4 & S5).
  set (s := d :: ds) in *.
  assert (U : (let t1 := snd (take_while c_space ((if neg then L "-" else []) ++ s)) in
               match t1 with
               | c :: r => if Ascii.eqb c "-" then (true, r) else if Ascii.eqb c "+" then (false, r) else (false, t1)
               | [] => (false, [])
               end) = (neg, s)).
  { destruct neg; [reflexivity|]. unfold s. cbn [app take_while]. rewrite S1. cbn [snd]. rewrite S2, S3. reflexivity. }
  unfold c_strto. cbv zeta in U. cbv zeta. rewrite U.
  assert (BS4 : begins (L "inf") s = false) by (apply begins_not; [intros c r E; unfold s in E; inversion E; subst; do 2 eexists; split; [reflexivity|exact S4]|discriminate]).
  rewrite BS4.
  assert (BS5 : begins (L "nan") s = false) by (apply begins_not; [intros c r E; unfold s in E; inversion E; subst; do 2 eexists; split; [reflexivity|exact S5]|discriminate]).
  rewrite BS5.
  rewrite digits_not_hex by exact D. cbn [app].
  assert (T : take_number num_char s = (s, [], [])).
  { unfold take_number. rewrite take_all; [reflexivity|]. eapply Forall_impl; [|exact D]. intros c C. apply (digit_cases c (fun c => num_char c = true)); [reflexivity..|exact C]. }
  rewrite T. unfold s at 1. cbn [app]. cbn [take_exp length]. rewrite app_nil_r. cbn [Z.of_nat Z.sub Z.add Z.opp].
  reflexivity.
Qed.
Lemma show_Z_text z : exists s, digits s /\ dec_of s = Z.abs z /\ show_Z z = (if z <? 0 then L "-" else []) ++ s.
Proof.
  unfold show_Z. destruct (Z.ltb_spec z 0).
  - destruct (show_N_spec (Z.to_N (- z))) as (D & _ & V). eexists. split; [exact D|]. split; [|reflexivity].
    destruct D as [_ D]. rewrite (dec_fold' _ D) in V. assert (V' := f_equal (fun o => match o with Some z => z | None => 0 end) V).
    cbv beta iota in V'. unfold dec_of. rewrite V'. rewrite Z2N.id by lia. lia.
  - destruct (show_N_spec (Z.to_N z)) as (D & _ & V). eexists. split; [exact D|]. split; [|reflexivity].
    destruct D as [_ D]. rewrite (dec_fold' _ D) in V. assert (V' := f_equal (fun o => match o with Some z => z | None => 0 end) V).
    cbv beta iota in V'. unfold dec_of. rewrite V'. rewrite Z2N.id by lia. lia.
Qed.

Definition int_cell (c : cell) (z : Z) : Prop := c = CInt z \/ c = CUns z.
Theorem integer_back t c z : t = FLOAT32 \/ t = FLOAT64 -> int_cell c z -> Z.abs z <= 2 ^ prec_of t ->
  exists x, back t c x /\ is_integer x z.
Proof.
  intros T C B.
  assert (S' : show c = show_Z z) by (destruct C as [-> | ->]; reflexivity).
  destruct (show_Z_text z) as (s & D & V & E).
  assert (X : exists x, scaled (prec_of t) (emax_of t) (z <? 0) 10 (Z.abs z) 0 = (x, false) /\
                        is_integer x (if z <? 0 then - Z.abs z else Z.abs z))
    by (destruct T as [-> | ->]; apply scaled_exact; [reflexivity|reflexivity|split; [apply Z.abs_nonneg|exact B]|reflexivity|reflexivity|split; [apply Z.abs_nonneg|exact B]]).
  destruct X as (x & X & I). exists x. split.
  - exists (length (show c) - 0)%nat. unfold stox. rewrite S', E, strto_digits by exact D. rewrite V, X. reflexivity.
  - destruct (Z.ltb_spec z 0).
    + rewrite Z.abs_neq, Z.opp_involutive in I by lia. exact I.
    + rewrite Z.abs_eq in I by lia. exact I.
Qed.
(** zero, infinity and not-a-number *)
Definition special (x : spec_float) : Prop := match x with S754_finite _ _ _ => False | _ => True end.
Theorem special_back t x : t = FLOAT32 \/ t = FLOAT64 -> special x -> back t (CF32 x) x /\ back t (CF64 x) x.
Proof. intros [-> | ->] S'; destruct x as [[]|[]| |]; try contradiction; split; eexists; vm_compute; reflexivity. Qed.

(** * Names in lists *)
Lemma list_name_parts i : exists s, digits s /\ list_name i = "["%char :: s ++ L "]" /\ dec_of s = Z.of_nat i.
Proof.
  destruct (show_Z_text (Z.of_nat i)) as (s & D & V & E). exists s. split; [exact D|]. unfold list_name. rewrite E.
  destruct (Z.ltb_spec (Z.of_nat i) 0); [lia|]. split; [reflexivity|]. rewrite V. lia.
Qed.
Lemma list_name_good i : good_name (list_name i).
Proof.
  destruct (list_name_parts i) as (s & (_ & D) & E & _). rewrite E.
  assert (X : forall c, ~ digit c -> c <> "["%char -> c <> "]"%char -> ~ In c ("["%char :: s ++ L "]")).
  { intros c C1 C2 C3 [I|I]; [congruence|]. apply in_app_or in I. destruct I as [I|[I|[]]]; [|congruence].
    apply C1. rewrite Forall_forall in D. exact (D c I). }
  repeat split; try discriminate; try (apply X; [|discriminate..]; vm_compute; intuition discriminate).
  intros c r [H|H].
  - inversion H. reflexivity.
  - change ("["%char :: s ++ L "]") with (("["%char :: s) ++ ["]"%char]) in H. apply app_inj_tail in H. destruct H as [_ <-]. reflexivity.
Qed.
Lemma list_name_inj i j : list_name i = list_name j -> i = j.
Proof.
  intros H. destruct (list_name_parts i) as (s & _ & E & V), (list_name_parts j) as (s' & _ & E' & V').
  rewrite E, E' in H. injection H as H. apply app_inv_tail in H. subst. lia.
Qed.
Lemma list_name_word i : ~ a_number (list_name i).
Proof. intros (x & H). unfold list_name in H. vm_compute in H. discriminate. Qed.
Lemma list_names_distinct {A} (l : list A) : NoDup (map fst (named (KList l))).
Proof.
  cbn [named]. replace (map fst (combine (map list_name (seq 0 (length l))) l)) with (map list_name (seq 0 (length l))).
  - apply Injective_map_NoDup; [|apply seq_NoDup]. intros i j. apply list_name_inj.
  - assert (E : length (map list_name (seq 0 (length l))) = length l) by (rewrite map_length, seq_length; reflexivity).
    revert E. generalize (map list_name (seq 0 (length l))). induction l as [|x l IH]; intros [|y n] E; try discriminate; [reflexivity|].
    cbn [combine map fst]. f_equal. apply IH. cbn in E. lia.
Qed.
Lemma list_names_good {A} (l : list A) e : In e (named (KList l)) -> good_name (fst e) /\ In (snd e) l.
Proof.
  cbn [named]. destruct e as [k x]. intros I. split; [|exact (in_combine_r _ _ _ _ I)].
  apply in_combine_l in I. apply in_map_iff in I. destruct I as (i & <- & _). apply list_name_good.
Qed.
(** a list of at least one column, all of the same length: nothing is asked of names *)
Theorem list_table_good t n l : l <> [] -> Forall (fun cs => length cs = n /\ Forall (fun c => exists x, back t c x) cs) l ->
  good_table t n (KList (map Leaf l)).
Proof.
  intros N H. split; [apply list_names_distinct|]. split.
  - apply Forall_forall. intros e I. destruct (list_names_good _ _ I) as [G I']. split; [exact G|].
    apply in_map_iff in I'. destruct I' as (cs & E & I'). rewrite <- E. rewrite Forall_forall in H. exact (H cs I').
  - destruct l as [|cs l]; [congruence|]. apply Exists_cons_hd. exact (list_name_word 0).
Qed.
