(** Reading the text of a double with rapidjson: which double comes out. *)
From Coq Require Import ZArith QArith Qabs Qpower Qround Qfield Lia Floats.SpecFloat.
From Verif Require Import Base DType Mem Number ArrayOps Codec Json JsonSpec JsonSchema FloatText CsvNum RoundFacts RoundText NumConv NumConvFacts NumConvText GText GRead FloatOps.
From Coq Require Import Lqa.
Local Open Scope Z_scope.

(** * the parser *)
Definition dec_from (a : Z) (s : str) : Z := fold_left (fun a c => 10 * a + digit_val c) s a.
Lemma dec_from_ge s : Forall digit s -> forall a, 0 <= a -> a <= dec_from a s.
Proof.
  induction 1 as [|c s C _ IH]; intros a A; cbn [dec_from fold_left]; [lia|]. destruct (digit_range c C) as [R _]. specialize (IH (10 * a + digit_val c) ltac:(lia)). unfold dec_from in IH. lia.
Qed.
Lemma dec_from_app a s t : dec_from a (s ++ t) = dec_from (dec_from a s) t.
Proof. apply fold_left_app. Qed.
Definition no_digit (t : str) : Prop := match t with c :: _ => num_char c = false | [] => True end.
Lemma int_digits_law lim s : Forall digit s -> forall i sd rest, 0 <= i -> dec_from i s <= lim -> no_digit rest ->
  exists sd', int_digits lim i sd (s ++ rest) = (dec_from i s, sd', rest).
Proof.
  induction 1 as [|c s C D IH]; intros i sd rest I LI N.
  - exists sd. cbn [app dec_from fold_left]. destruct rest as [|c r]; [reflexivity|]. cbn [int_digits]. cbn [no_digit] in N. rewrite N. reflexivity.
  - cbn [app int_digits]. destruct (digit_range c C) as [R _]. rewrite (digit_num c C). cbn [andb]. cbn [dec_from fold_left] in *. replace (i * 10 + digit_val c) with (10 * i + digit_val c) by ring.
    pose proof (dec_from_ge s D (10 * i + digit_val c) ltac:(lia)) as G. unfold dec_from in *. destruct (Z.leb_spec (10 * i + digit_val c) lim); [|lia]. apply IH; auto; lia.
Qed.
Lemma frac_digits_law s : Forall digit s -> forall i sd ef rest, 0 <= i -> dec_from i s < 10 * 2 ^ 53 -> no_digit rest ->
  exists sd', frac_digits i sd ef (s ++ rest) = (dec_from i s, sd', ef - Z.of_nat (length s), rest).
Proof.
  induction 1 as [|c s C D IH]; intros i sd ef rest I LI N.
  - exists sd. cbn [app dec_from fold_left length]. replace (ef - Z.of_nat 0) with ef by lia. destruct rest as [|c r]; [reflexivity|]. cbn [frac_digits]. cbn [no_digit] in N. rewrite N. reflexivity.
  - cbn [app frac_digits]. destruct (digit_range c C) as [R _]. rewrite (digit_num c C). cbn [andb]. cbn [dec_from fold_left] in *. replace (i * 10 + digit_val c) with (10 * i + digit_val c) by ring.
    pose proof (dec_from_ge s D (10 * i + digit_val c) ltac:(lia)) as G. unfold dec_from in *. destruct (Z.leb_spec i (2 ^ 53 - 1)); [|lia].
    destruct (IH (10 * i + digit_val c) (if 10 * i + digit_val c =? 0 then sd else sd + 1) (ef - 1) rest ltac:(lia) LI N) as (sd' & E). exists sd'. rewrite E. do 2 f_equal. cbn [length]. lia.
Qed.
Lemma more_digits_stop d sd ef rest : no_digit rest -> more_digits d sd ef rest = (d, ef, rest).
Proof. destruct rest as [|c r]; [reflexivity|]. cbn [no_digit more_digits]. intros ->. reflexivity. Qed.
Lemma exp_digits_law cap s : Forall digit s -> forall e, 0 <= e -> (match cap with Some m => dec_from e s <= m | None => dec_from e s < 214748364 end) -> exp_digits cap e s = Ok (dec_from e s).
Proof.
  induction 1 as [|c s C D IH]; intros e E M; [reflexivity|]. cbn [exp_digits]. destruct (digit_range c C) as [R _]. cbn [dec_from fold_left] in *. replace (e * 10 + digit_val c) with (10 * e + digit_val c) by ring.
  pose proof (dec_from_ge s D (10 * e + digit_val c) ltac:(lia)) as G. unfold dec_from in *. destruct cap as [m|].
  - destruct (Z.ltb_spec m (10 * e + digit_val c)); [lia|]. apply IH; [lia|exact M].
  - destruct (Z.leb_spec 214748364 (10 * e + digit_val c)); [lia|]. apply IH; [lia|exact M].
Qed.
(** an exponent as printf writes it *)
Definition e_text (x : str) (e : Z) : Prop :=
  x = [] /\ e = 0 \/ exists td, x = "e"%char :: (if e <? 0 then "-"%char :: td else "+"%char :: td) /\ Forall digit td /\ dec_of td = Z.abs e.
Lemma e_text_stop x e : e_text x e -> no_digit x.
Proof. intros [[-> _]|(td & -> & _)]; [exact I|reflexivity]. Qed.
Lemma digit_char c : digit c -> Ascii.eqb c "-" = false /\ (c <> "0"%char -> Ascii.eqb c "0" = false).
Proof.
  intros C. split; [|intros N; apply Ascii.eqb_neq, N]. apply digit_num in C. apply Ascii.eqb_neq. intros ->. discriminate C.
Qed.
Theorem rj_law (s : bool) ip b fp x e : ip <> [] -> Forall digit ip -> ip = L "0" \/ hd "0"%char ip <> "0"%char -> point_text b fp -> Forall digit fp -> e_text x e -> Z.abs e <= 308 ->
  dec_of (ip ++ fp) < 10 * 2 ^ 53 ->
  rj_double ((if s then L "-" else []) ++ ip ++ b ++ x) =
    Ok (let d := strtod_normal (dbl_of_Z (dec_of (ip ++ fp))) (e - Z.of_nat (length fp)) in if s then SFopp d else d).
Proof.
  intros NI DI ZI PT DF X XB W.
  assert (E1 : forall T (f : bool -> str -> outcome T), (let '(neg, t) := match ((if s then L "-" else []) ++ ip ++ b ++ x) with c :: r => if Ascii.eqb c "-" then (true, r) else (false, ((if s then L "-" else []) ++ ip ++ b ++ x)) | [] => (false, []) end in f neg t) = f s (ip ++ b ++ x)).
  { intros T f. destruct s; [reflexivity|]. destruct ip as [|c ip']; [congruence|]. cbn [app]. rewrite (proj1 (digit_char c (Forall_inv DI))). reflexivity. }
  unfold rj_double. rewrite (E1 _ (fun neg t => _)). clear E1. destruct ip as [|c ip]; [congruence|]. cbn [app] in W |- *.
  set (lim := if s then 2 ^ 63 else 2 ^ 64 - 1). assert (LM : 10 * 2 ^ 53 <= lim) by (unfold lim; destruct s; lia).
  pose proof (Forall_inv DI) as C. pose proof (Forall_inv_tail DI) as DI'. destruct (digit_range c C) as [CR _].
  assert (N1 : no_digit (b ++ x)) by (destruct PT as [[-> _]| ->]; [exact (e_text_stop x e X)|reflexivity]).
  assert (VI : dec_of (c :: ip ++ fp) = dec_from (dec_from (digit_val c) ip) fp) by (unfold dec_of; cbn [app fold_left]; rewrite Z.mul_0_r, Z.add_0_l; exact (dec_from_app (digit_val c) ip fp)).
  assert (I0 : 0 <= dec_from (digit_val c) ip) by (pose proof (dec_from_ge ip DI' (digit_val c) ltac:(lia)); lia).
  assert (I1 : dec_from (digit_val c) ip <= dec_of (c :: ip ++ fp)) by (rewrite VI; apply dec_from_ge; assumption).
  assert (E2 : exists sd, (if Ascii.eqb c "0" then (0, 0, ip ++ b ++ x) else int_digits lim (digit_val c) 0 (ip ++ b ++ x)) = (dec_from (digit_val c) ip, sd, b ++ x)).
  { destruct ZI as [ZI|ZI].
    - injection ZI as -> ->. exists 0. reflexivity.
    - cbn [hd] in ZI. rewrite (proj2 (digit_char c C) ZI). apply int_digits_law; [exact DI'|lia|lia|exact N1]. }
  destruct E2 as (sd & ->). set (i := dec_from (digit_val c) ip) in *.
  assert (E3 : (match b ++ x with c1 :: _ => num_char c1 | [] => false end) = false) by (destruct (b ++ x); [reflexivity|exact N1]).
  rewrite E3. cbn [obind].
  assert (E4 : (match b ++ x with
     | [] => (dbl_of_Z i, 0, [])
     | c2 :: r2 => if Ascii.eqb c2 "." then (let '(i', sd', ef', r') := frac_digits i sd 0 r2 in more_digits (dbl_of_Z i') sd' ef' r') else (dbl_of_Z i, 0, b ++ x)
     end) = (dbl_of_Z (dec_of (c :: ip ++ fp)), - Z.of_nat (length fp), x)).
  { destruct PT as [[-> ->]| ->].
    - cbn [app length]. rewrite VI. cbn [dec_from fold_left]. fold i. change (- Z.of_nat 0) with 0. destruct X as [[-> _]|(td & -> & _)]; reflexivity.
    - cbn [app]. cbn [Ascii.eqb Bool.eqb]. destruct (frac_digits_law fp DF i sd 0 x I0 ltac:(unfold dec_from in *; lia) (e_text_stop x e X)) as (sd' & ->). rewrite more_digits_stop by exact (e_text_stop x e X). rewrite VI. reflexivity. }
  etransitivity; [exact (f_equal (fun z : spec_float * Z * str => let '(d2, ef, t3) := z in _) E4)|]. cbn beta iota. clear E4. set (ef := - Z.of_nat (length fp)).
  assert (EF : ef <= 0) by (unfold ef; lia).
  destruct X as [[-> ->]|(td & -> & TD & TV)].
  - cbn [obind]. replace (0 - Z.of_nat (length fp)) with ef by (unfold ef; lia). reflexivity.
  - destruct (Z.ltb_spec e 0).
    + cbn [Ascii.eqb Bool.eqb]. rewrite (exp_digits_law None td TD 0 ltac:(lia)) by (change (dec_from 0 td) with (dec_of td); lia). cbn [obind]. change (dec_from 0 td) with (dec_of td). rewrite TV. replace (e - Z.of_nat (length fp)) with (ef - Z.abs e) by (unfold ef; lia). reflexivity.
    + cbn [Ascii.eqb Bool.eqb]. rewrite (exp_digits_law (Some (308 - ef)) td TD 0 ltac:(lia)) by (change (dec_from 0 td) with (dec_of td); lia). cbn [obind]. change (dec_from 0 td) with (dec_of td). rewrite TV. replace (e - Z.of_nat (length fp)) with (ef + Z.abs e) by (unfold ef; lia). reflexivity.
Qed.
