(** Numbers read from text: std::stringstream >> T (C59). *)
From Coq Require Import ZArith QArith Qabs Qpower Lia Floats.SpecFloat.
From Verif Require Import Base DType SpecTree Mem Node Number ArrayOps ArrayOpsFacts JsonSpec Json JsonSchema FloatText Csv CsvFacts CsvNum RoundFacts RoundText NumConv NumConvFacts.
From Coq Require Import Lqa.
Local Open Scope Z_scope.

(** ---- specification ---- *)
(** decimal digits and the number they write; no digits write 0 *)
Inductive numeral : str -> Z -> Prop :=
| num_nil : numeral [] 0
| num_snoc s z c d : numeral s z -> nth_error (L "0123456789") d = Some c -> numeral (s ++ [c]) (10 * z + Z.of_nat d).
(** white space of the "C" locale: space, \t \n \v \f \r *)
Definition white (s : str) : Prop := Forall (fun c => In (N_of_ascii c) [32; 9; 10; 11; 12; 13]%N) s.
Definition sign_text (s : str) (neg : bool) : Prop := neg = false /\ (s = [] \/ s = L "+") \/ neg = true /\ s = L "-".
Definition signed (neg : bool) (z : Z) : Z := if neg then - z else z.
Definition stops (p : ascii -> Prop) (rest : str) : Prop := match rest with c :: _ => ~ p c | [] => True end.
Definition in_digits (c : ascii) : Prop := In c (L "0123456789").
(** an integer, then anything that is not a digit *)
Definition integer_text (s : str) (neg : bool) (z : Z) : Prop :=
  exists sp sg ds rest, s = sp ++ sg ++ ds ++ rest /\ white sp /\ sign_text sg neg /\ ds <> [] /\ numeral ds z /\ stops in_digits rest.
(** an optional point with digits; an optional exponent *)
Definition point_text (b fp : str) : Prop := b = [] /\ fp = [] \/ b = "."%char :: fp.
Definition exponent_text (x : str) (e : Z) : Prop :=
  x = [] /\ e = 0 \/
  exists c sg ds neg z, x = c :: sg ++ ds /\ (c = "e"%char \/ c = "E"%char) /\ sign_text sg neg /\ ds <> [] /\ numeral ds z /\ e = signed neg z.
Definition decimal_text (s : str) (neg : bool) (q : Q) : Prop :=
  exists sp sg ip b fp x rest n e, s = sp ++ sg ++ ip ++ b ++ x ++ rest /\ white sp /\ sign_text sg neg /\ point_text b fp /\
    ip ++ fp <> [] /\ numeral (ip ++ fp) n /\ (exists f, numeral fp f) /\ (exists i, numeral ip i) /\ exponent_text x e /\
    stops (fun c => In c (L "0123456789.eE")) rest /\ q = (inject_Z (signed neg n) * Qpower (10 # 1) (e - Z.of_nat (length fp)))%Q.

(** ---- digits ---- *)
Lemma digit_val_nth d c : nth_error (L "0123456789") d = Some c -> digit_val c = Z.of_nat d /\ num_char c = true.
Proof. intros H. do 10 (destruct d as [|d]; [injection H as <-; split; reflexivity|]). destruct d; discriminate H. Qed.
Lemma numeral_dec s z : numeral s z -> dec_of s = z /\ Forall (fun c => num_char c = true) s /\ 0 <= z.
Proof.
  induction 1 as [|s z c d N (IH & F & P) H]; [split; [reflexivity|split; [constructor|lia]]|]. destruct (digit_val_nth d c H) as [V C]. unfold dec_of in *. rewrite fold_left_app. cbn [fold_left]. rewrite IH, V.
  split; [reflexivity|]. split; [apply Forall_app; auto|lia].
Qed.
Lemma num_char_in c : num_char c = true <-> in_digits c.
Proof.
  unfold num_char, between, in_digits. split.
  - intros H. assert (R : (48 <= N_of_ascii c <= 57)%N). { apply andb_prop in H. destruct H as [H1 H2]. apply N.leb_le in H1. apply N.leb_le in H2. change (N_of_ascii "0") with 48%N in H1. change (N_of_ascii "9") with 57%N in H2. lia. }
    assert (E : exists k, (k <= 9)%N /\ N_of_ascii c = (48 + k)%N) by (exists (N_of_ascii c - 48)%N; lia). destruct E as (k & K & E).
    rewrite <- (ascii_N_embedding c), E. assert (C : (k = 0 \/ k = 1 \/ k = 2 \/ k = 3 \/ k = 4 \/ k = 5 \/ k = 6 \/ k = 7 \/ k = 8 \/ k = 9)%N) by lia.
    repeat (destruct C as [-> |C]; [vm_compute; auto 12|]). subst k. vm_compute. auto 12.
  - intros H. cbn [L list_ascii_of_string In] in H. repeat (destruct H as [<-|H]; [reflexivity|]). destruct H.
Qed.
Lemma take_stop f s rest : Forall (fun c => f c = true) s -> match rest with c :: _ => f c = false | [] => True end -> take_while f (s ++ rest) = (s, rest).
Proof.
  intros F. induction F as [|c s C _ IH]; intros R; cbn [app take_while].
  - destruct rest as [|c r]; [reflexivity|]. cbn [take_while]. rewrite R. reflexivity.
  - rewrite C, (IH R). reflexivity.
Qed.
Lemma white_space s : white s -> Forall (fun c => c_space c = true) s.
Proof. intros H. eapply Forall_impl; [|exact H]. intros c I. unfold c_space. cbn [In] in I. repeat (destruct I as [<-|I]; [reflexivity|]). destruct I. Qed.
Lemma not_num c : ~ in_digits c -> num_char c = false.
Proof. intros H. destruct (num_char c) eqn:E; [|reflexivity]. elim H. apply num_char_in. exact E. Qed.
Lemma num_cases c (P : ascii -> Prop) : num_char c = true -> (forall d x, nth_error (L "0123456789") d = Some x -> P x) -> P c.
Proof. intros N H. apply num_char_in in N. apply In_nth_error in N. destruct N as (d & N). exact (H d c N). Qed.

(** the first character of a number *)
Definition opens (c : ascii) : Prop := In c (L "0123456789.").
Lemma num_opens c : num_char c = true -> opens c.
Proof. intros H. apply num_char_in in H. unfold opens, in_digits in *. cbn [L list_ascii_of_string In] in *. tauto. Qed.
Lemma opens_plain c : opens c -> c_space c = false /\ Ascii.eqb c "-" = false /\ Ascii.eqb c "+" = false /\ lower c <> "i"%char /\ lower c <> "n"%char.
Proof.
  intros H. unfold opens in H. cbn [L list_ascii_of_string In] in H.
  repeat (destruct H as [<-|H]; [split; [reflexivity|split; [reflexivity|split; [reflexivity|split; vm_compute; discriminate]]]|]). destruct H.
Qed.
Definition begun (u : str) : Prop := exists c r, u = c :: r /\ opens c.
Lemma begun_app ds u : ds <> [] -> Forall (fun c => num_char c = true) ds -> begun (ds ++ u).
Proof. intros N F. destruct ds as [|c r]; [congruence|]. inversion F; subst. exists c, (r ++ u). split; [reflexivity|]. apply num_opens. assumption. Qed.
Lemma skip_white sp sg neg u : white sp -> sign_text sg neg -> begun u -> snd (take_while c_space (sp ++ sg ++ u)) = sg ++ u.
Proof.
  intros W S (c & r & -> & O). destruct (opens_plain c O) as (C & _). rewrite (take_stop c_space sp); [reflexivity|apply white_space; exact W|].
  destruct S as [[_ [-> | ->]]|[_ ->]]; [exact C|reflexivity|reflexivity].
Qed.
Lemma sign_taken sg neg u : sign_text sg neg -> begun u -> take_sign (sg ++ u) = (sg, u) /\ minus sg = neg.
Proof.
  intros S (c & r & -> & O). destruct (opens_plain c O) as (_ & A & B & _). destruct S as [[-> [-> | ->]]|[-> ->]]; split; try reflexivity.
  cbn [app take_sign]. rewrite A, B. reflexivity.
Qed.

(** ---- integers ---- *)
Lemma int_text_law t s neg z : integer_text s neg z ->
  int_text t s = if is_signed t then if (int_min t <=? signed neg z) && (signed neg z <=? int_max t) then Some (signed neg z) else None
                 else if z <=? int_max t then Some (conv t (signed neg z)) else None.
Proof.
  intros (sp & sg & ds & rest & -> & W & S & Ne & Nu & St). destruct (numeral_dec ds z Nu) as (V & F & _).
  assert (B : begun (ds ++ rest)) by (apply begun_app; assumption). unfold int_text. rewrite (skip_white sp sg neg _ W S B).
  destruct (sign_taken sg neg _ S B) as [-> M]. unfold take_digits. rewrite (take_stop num_char ds rest F) by (destruct rest; [exact I|apply not_num; exact St]).
  destruct ds as [|c ds]; [congruence|]. rewrite M, V. unfold signed. reflexivity.
Qed.
Lemma no_int t s : (forall neg z, ~ integer_text s neg z) -> int_text t s = None.
Proof.
  intros H. unfold int_text. destruct (take_sign (snd (take_while c_space s))) as [sg u] eqn:Es. unfold take_digits.
  assert (T : forall (f : ascii -> bool) l, exists a b, take_while f l = (a, b) /\ l = a ++ b /\ Forall (fun c => f c = true) a /\ match b with c :: _ => f c = false | [] => True end).
  { intros f. induction l as [|c l (a & b & E & Ea & Fa & Fb)]; [exists [], []; auto|]. cbn [take_while]. destruct (f c) eqn:C; [|exists [], (c :: l); auto]. rewrite E. exists (c :: a), b. split; [reflexivity|]. split; [cbn; congruence|auto]. }
  destruct (T num_char u) as (ds & rest & E & Eu & F & St). rewrite E. destruct ds as [|c ds]; [reflexivity|]. exfalso.
  destruct (T c_space s) as (sp & v & E2 & Ev & F2 & _). rewrite E2 in Es. cbn [snd] in Es.
  assert (Nm : exists z, numeral (c :: ds) z).
  { clear - F. revert F. generalize (c :: ds). intros l. induction l as [|a l IH] using rev_ind; intros F; [exists 0; constructor|]. apply Forall_app in F. destruct F as [F1 F2]. destruct (IH F1) as (z & Z). inversion F2 as [|? ? Ha _]; subst.
    apply num_char_in in Ha. apply In_nth_error in Ha. destruct Ha as (d & D). eexists. econstructor; eauto. }
  destruct Nm as (z & Nz).
  assert (Sg : exists neg, sign_text sg neg /\ v = sg ++ u).
  { destruct v as [|x v]; cbn [take_sign] in Es; [injection Es as <- <-; exists false; split; [left; auto|reflexivity]|].
    destruct (Ascii.eqb_spec x "-") as [->|]; [cbn [orb] in Es; injection Es as <- <-; exists true; split; [right; auto|reflexivity]|].
    destruct (Ascii.eqb_spec x "+") as [->|]; cbn [orb] in Es; injection Es as <- <-; exists false; (split; [left; auto|reflexivity]). }
  destruct Sg as (neg & S & Evs). apply (H neg z). exists sp, sg, (c :: ds), rest. split; [congruence|]. split.
  { eapply Forall_impl; [|exact F2]. intros a Ha. cbv beta in Ha. unfold c_space in Ha. cbn [In]. rewrite Bool.orb_true_iff, Bool.andb_true_iff, N.eqb_eq, !N.leb_le in Ha. lia. }
  split; [exact S|]. split; [discriminate|]. split; [exact Nz|]. destruct rest as [|a r]; [exact I|]. intros I. apply num_char_in in I. congruence.
Qed.

(** ---- decimals ---- *)
Definition plain (c : ascii) : Prop := In c (L "0123456789.eE+-").
Lemma plain_not_x c : plain c -> lower c <> "x"%char.
Proof. intros H. unfold plain in H. cbn [L list_ascii_of_string In] in H. repeat (destruct H as [<-|H]; [vm_compute; discriminate|]). destruct H. Qed.
Lemma num_plain c : num_char c = true -> plain c.
Proof. intros H. apply num_char_in in H. unfold plain, in_digits in *. cbn [L list_ascii_of_string In] in *. tauto. Qed.
Lemma not_hex u : Forall plain u -> begins (L "0x") u = false.
Proof.
  intros F. unfold begins. destruct (str_eqb_spec (map lower (firstn (length (L "0x")) u)) (L "0x")) as [E|]; [|reflexivity].
  destruct u as [|a [|b u]]; try discriminate. cbn in E. inversion E as [[E1 E2]]. inversion F as [|? ? _ F']; subst. inversion F' as [|? ? Fb _]; subst. elim (plain_not_x b Fb E2).
Qed.
Lemma nums_plain s : Forall (fun c => num_char c = true) s -> Forall plain s.
Proof. intros F. eapply Forall_impl; [|exact F]. exact num_plain. Qed.
Lemma exponent_plain x e : exponent_text x e -> Forall plain x.
Proof.
  intros [[-> _]|(c & sg & ds & neg & z & -> & C & S & _ & N & _)]; [constructor|]. destruct (numeral_dec _ _ N) as (_ & F & _).
  constructor; [destruct C as [-> | ->]; unfold plain; cbn; tauto|]. apply Forall_app. split; [|apply nums_plain; exact F].
  destruct S as [[_ [-> | ->]]|[_ ->]]; [constructor|constructor; [|constructor]|constructor; [|constructor]]; unfold plain; cbn; tauto.
Qed.
Definition no_num (x : str) : Prop := match x with c :: _ => num_char c = false | [] => True end.
Lemma exponent_taken x e : exponent_text x e -> take_exp "e" x = (e, []) /\ no_num x /\ (forall r c, x = c :: r -> Ascii.eqb c "." = false).
Proof.
  intros [[-> ->]|(c & sg & ds & neg & z & -> & C & S & Ne & N & ->)]; [split; [reflexivity|split; [exact I|discriminate]]|].
  destruct (numeral_dec _ _ N) as (V & F & _). split; [|split; [destruct C as [-> | ->]; reflexivity|intros r c' E; injection E as <- _; destruct C as [-> | ->]; reflexivity]].
  unfold take_exp. replace (Ascii.eqb (lower c) "e") with true by (destruct C as [-> | ->]; reflexivity).
  assert (T : take_digits ds = (ds, [])) by (unfold take_digits; apply take_all; exact F).
  destruct ds as [|d ds]; [congruence|]. inversion F as [|? ? Fd _]; subst. destruct (opens_plain d (num_opens d Fd)) as (_ & A & B & _).
  destruct S as [[-> [-> | ->]]|[-> ->]]; cbn [app]; [rewrite A, B|cbn -[take_digits]|cbn -[take_digits]]; rewrite T; reflexivity.
Qed.
Lemma strto_decimal prec emax sg neg ip b fp x e : sign_text sg neg -> point_text b fp -> ip ++ fp <> [] ->
  Forall (fun c => num_char c = true) ip -> Forall (fun c => num_char c = true) fp -> exponent_text x e ->
  c_strto prec emax (sg ++ ip ++ b ++ x) =
  (let '(v, err) := scaled prec emax neg 10 (dec_of (ip ++ fp)) (e - Z.of_nat (length fp)) in (v, err, Some [])).
Proof.
  intros S P Ne Fi Ff X. destruct (exponent_taken x e X) as (TX & NX & DX). set (u := ip ++ b ++ x).
  assert (B : begun u).
  { unfold u. destruct ip as [|c ip]; [|inversion Fi; subst; exists c; eexists; split; [reflexivity|apply num_opens; assumption]].
    destruct P as [[-> ->]| ->]; [cbn in Ne; congruence|]. exists "."%char; eexists; split; [reflexivity|]. unfold opens. cbn. tauto. }
  destruct B as (c0 & r0 & Eu & O). destruct (opens_plain c0 O) as (S1 & S2 & S3 & S4 & S5).
  assert (U : (let t1 := snd (take_while c_space (sg ++ u)) in
               match t1 with
               | c :: r => if Ascii.eqb c "-" then (true, r) else if Ascii.eqb c "+" then (false, r) else (false, t1)
               | [] => (false, [])
               end) = (neg, u)).
  { destruct S as [[-> [-> | ->]]|[-> ->]]; try reflexivity. rewrite Eu. cbn [app take_while]. rewrite S1. cbn [snd]. rewrite S2, S3. reflexivity. }
  unfold c_strto. cbv zeta in U. cbv zeta. rewrite U.
  assert (B1 : begins (L "inf") u = false) by (apply begins_not; [intros c r E; rewrite Eu in E; injection E as <- _; do 2 eexists; split; [reflexivity|exact S4]|discriminate]).
  assert (B2 : begins (L "nan") u = false) by (apply begins_not; [intros c r E; rewrite Eu in E; injection E as <- _; do 2 eexists; split; [reflexivity|exact S5]|discriminate]).
  assert (B3 : begins (L "0x") u = false).
  { apply not_hex. unfold u. apply Forall_app. split; [apply nums_plain; exact Fi|]. apply Forall_app. split; [|eapply exponent_plain; eauto].
    destruct P as [[-> _]| ->]; [constructor|]. constructor; [unfold plain; cbn; tauto|apply nums_plain; exact Ff]. }
  rewrite B1, B2, B3. cbn [app].
  assert (T : take_number num_char u = (ip, fp, x)).
  { unfold take_number, u. destruct P as [[-> ->]| ->].
    - rewrite (take_stop num_char ip ([] ++ x) Fi) by exact NX. cbn [app]. destruct x as [|c x]; [reflexivity|]. rewrite (DX x c eq_refl). reflexivity.
    - rewrite (take_stop num_char ip (("."%char :: fp) ++ x) Fi) by reflexivity. cbn [app]. change (Ascii.eqb "." ".") with true. cbv iota.
      rewrite (take_stop num_char fp x Ff NX). destruct (ip ++ fp); [congruence|reflexivity]. }
  rewrite T. destruct (ip ++ fp) as [|y ys] eqn:Ey; [congruence|]. rewrite TX. reflexivity.
Qed.
Lemma collect_law s neg q : decimal_text s neg q ->
  exists sg ip b fp x n e, collect_float s = sg ++ ip ++ b ++ x /\ sign_text sg neg /\ point_text b fp /\ ip ++ fp <> [] /\
    Forall (fun c => num_char c = true) ip /\ Forall (fun c => num_char c = true) fp /\ exponent_text x e /\ dec_of (ip ++ fp) = n /\ 0 <= n /\
    q = (inject_Z (signed neg n) * Qpower (10 # 1) (e - Z.of_nat (length fp)))%Q.
Proof.
  intros (sp & sg & ip & b & fp & x & rest & n & e & -> & W & S & P & Ne & Nu & (f & Nf) & (i & Ni) & X & St & Q).
  destruct (numeral_dec _ _ Nu) as (V & _ & V0). destruct (numeral_dec _ _ Nf) as (_ & Ff & _). destruct (numeral_dec _ _ Ni) as (_ & Fi & _).
  exists sg, ip, b, fp, x, n, e. split; [|auto 12].
  assert (B : begun (ip ++ b ++ x ++ rest)).
  { destruct ip as [|c ip]; [|inversion Fi; subst; exists c; eexists; split; [reflexivity|apply num_opens; assumption]].
    destruct P as [[-> ->]| ->]; [cbn in Ne; congruence|]. exists "."%char; eexists; split; [reflexivity|]. unfold opens. cbn. tauto. }
  assert (SR : match rest with c :: _ => num_char c = false /\ Ascii.eqb c "." = false /\ Ascii.eqb c "e" = false /\ Ascii.eqb c "E" = false | [] => True end).
  { destruct rest as [|c r]; [exact I|]. cbn [stops] in St. split; [apply not_num; intros H; apply St; unfold in_digits in H; cbn [L list_ascii_of_string In] in *; tauto|].
    repeat split; destruct (Ascii.eqb_spec c "."), (Ascii.eqb_spec c "e"), (Ascii.eqb_spec c "E"); try reflexivity; exfalso; apply St; subst c; cbn; tauto. }
  destruct (exponent_taken x e X) as (TX & NX & DX).
  assert (NXR : no_num (x ++ rest)) by (destruct x; [destruct rest; [exact I|apply SR]|exact NX]).
  unfold collect_float. rewrite (skip_white sp sg neg _ W S B). destruct (sign_taken sg neg _ S B) as [-> _]. unfold take_digits.
  assert (T1 : take_while num_char (ip ++ b ++ x ++ rest) = (ip, b ++ x ++ rest)).
  { apply take_stop; [exact Fi|]. destruct P as [[-> _]| ->]; [exact NXR|reflexivity]. }
  rewrite T1.
  assert (T2 : match b ++ x ++ rest with
               | c :: r => if Ascii.eqb c "." then let '(g, v) := take_while num_char r in (c :: g, v) else ([], b ++ x ++ rest)
               | [] => ([], [])
               end = (b, x ++ rest)).
  { destruct P as [[-> _]| ->]; cbn [app].
    - destruct x as [|c x]; cbn [app]; [destruct rest as [|c r]; [reflexivity|]; destruct SR as (_ & -> & _); reflexivity|]. rewrite (DX x c eq_refl). reflexivity.
    - change (Ascii.eqb "." ".") with true. cbv iota. rewrite (take_stop num_char fp (x ++ rest) Ff NXR). reflexivity. }
  match goal with |- context [match ?M with (b0, u2) => _ end] => replace M with (b, x ++ rest) by (symmetry; exact T2) end. assert (M : existsb num_char (ip ++ b) = true).
  { apply existsb_exists. destruct ip as [|c ip]; [|inversion Fi; subst; exists c; split; [left; reflexivity|assumption]].
    cbn [app] in Ne |- *. destruct P as [[-> ->]| ->]; [congruence|]. destruct fp as [|c fp]; [congruence|]. inversion Ff; subst. exists c. split; [right; left; reflexivity|assumption]. }
  rewrite M. f_equal. f_equal. f_equal. destruct X as [[-> _]|(c & sx & ds & neg' & z & -> & C & Sx & Nd & Nz & _)]; cbn [app].
  - destruct rest as [|c r]; [reflexivity|]. destruct SR as (_ & _ & -> & ->). reflexivity.
  - replace ((Ascii.eqb c "e" || Ascii.eqb c "E") && true) with true by (destruct C as [-> | ->]; reflexivity).
    destruct (numeral_dec _ _ Nz) as (_ & Fd & _). rewrite <- app_assoc. destruct (sign_taken sx neg' (ds ++ rest) Sx (begun_app ds rest Nd Fd)) as [-> _].
    rewrite (take_stop num_char ds rest Fd) by (destruct rest; [exact I|apply SR]). reflexivity.
Qed.
Lemma pow10_pos k : 0 <= k -> 0 < 10 ^ k. Proof. intros. apply Z.pow_pos_nonneg; lia. Qed.
Lemma nearest_sign prec emax s n d : 1 < prec -> 0 < n -> 0 < d -> fsign (nearest prec emax s n d) = s.
Proof.
  intros Hp N D. unfold nearest. set (k := Z.max 0 _). set (w := 2 * (n * 2 ^ k / d) + (if n * 2 ^ k mod d =? 0 then 0 else 1)).
  assert (K : 0 < n * 2 ^ k) by (apply Z.mul_pos_pos; [exact N|]; apply Z.pow_pos_nonneg; lia). pose proof (Z.div_pos (n * 2 ^ k) d ltac:(lia) D).
  assert (W : 0 < w). { unfold w. destruct (Z.eqb_spec (n * 2 ^ k mod d) 0) as [E|]; [|lia]. pose proof (Z.div_mod (n * 2 ^ k) d ltac:(lia)). nia. }
  destruct w as [|p|p]; try lia. destruct s; cbn [cond_Zopp Z.opp binary_normalize]; apply round_sign; exact Hp.
Qed.
Lemma scaled_rounded t neg n e : is_float t = true -> 0 <= n ->
  rounded t (inject_Z (signed neg n) * Qpower (10 # 1) e)%Q neg (fst (scaled (prec_of t) (emax_of t) neg 10 n e)).
Proof.
  intros T N. destruct (float_format t T) as (F1 & F2 & _). unfold scaled. destruct (Z.eqb_spec n 0) as [->|N0]; cbn [fst].
  - apply (rounded_eq t 0); [unfold signed; destruct neg; cbn [Z.opp]; ring|]. apply rounded_zero. exact T.
  - assert (X : exists a d, (if 0 <=? e then (n * 10 ^ e, 1) else (n, 10 ^ (- e))) = (a, d) /\ 0 < a /\ 0 < d /\ (fraction neg a d == inject_Z (signed neg n) * Qpower (10 # 1) e)%Q).
    { assert (SG : (inject_Z (signed neg n) == (if neg then -1 # 1 else 1) * inject_Z n)%Q) by (unfold signed; destruct neg; [rewrite inject_Z_opp|]; ring).
      destruct (Z.leb_spec 0 e) as [E|E].
      - exists (n * 10 ^ e), 1. pose proof (pow10_pos e E). split; [reflexivity|]. split; [nia|]. split; [lia|]. unfold fraction. rewrite SG, inject_Z_mult.
        assert (PQ : (inject_Z (10 ^ e) == Qpower (10 # 1) e)%Q) by (rewrite <- (Zpower_Qpower 10 e E); reflexivity). rewrite PQ. change (inject_Z 1) with 1%Q. field.
      - exists n, (10 ^ (- e)). pose proof (pow10_pos (- e) ltac:(lia)). split; [reflexivity|]. split; [lia|]. split; [lia|]. unfold fraction. rewrite SG.
        assert (PQ : (inject_Z (10 ^ (- e)) == Qpower (10 # 1) (- e))%Q) by (rewrite <- (Zpower_Qpower 10 (- e) ltac:(lia)); reflexivity). rewrite PQ, Qpower_opp. field.
        apply Qpower_not_0. discriminate. }
    destruct X as (a & d & -> & A & D & EQ). cbn [fst]. apply (rounded_eq t (fraction neg a d) _ _ _ EQ).
    split; [apply nearest_sign; assumption|]. exact (nearest_nearest (prec_of t) (emax_of t) F1 F2 neg a d A D).
Qed.
Theorem float_text_law t s neg q : is_float t = true -> decimal_text s neg q ->
  (overflows (prec_of t) (emax_of t) q -> float_text t s = None) /\
  (~ overflows (prec_of t) (emax_of t) q -> exists y, float_text t s = Some y /\ rounded t q neg y).
Proof.
  intros T D. destruct (collect_law s neg q D) as (sg & ip & b & fp & x & n & e & C & S & P & Ne & Fi & Ff & X & V & V0 & ->).
  unfold float_text. rewrite C, (strto_decimal _ _ sg neg ip b fp x e S P Ne Fi Ff X), V. pose proof (scaled_rounded t neg n (e - Z.of_nat (length fp)) T V0) as R.
  destruct (scaled (prec_of t) (emax_of t) neg 10 n (e - Z.of_nat (length fp))) as [v err]. cbn [fst] in R. split; intros O.
  - destruct R as [_ [[_ ->]|[O' _]]]; [reflexivity|elim (O' O)].
  - exists v. destruct R as [R1 [[O' _]|[_ R2]]]; [elim (O O')|]. split; [|split; [exact R1|right; auto]]. destruct R2 as (_ & r & Fv & _). destruct v; try reflexivity; discriminate Fv.
Qed.
