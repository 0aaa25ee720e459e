(** Specification and facts about the text codecs. *)
From Coq Require Import Nnat.
From Verif Require Import Base Codec.
Local Open Scope N_scope.
Ltac Zify.zify_post_hook ::= Z.div_mod_to_equations.

(** ---- specification ---- *)
(** RFC 4648: three bytes are one 24 bit number written with four base 64
    digits; a last group of one or two bytes is padded with '='. *)
Definition digit64 (v : N) : ascii :=
  if v <? 26 then ascii_of_N (65 + v)
  else if v <? 52 then ascii_of_N (97 + (v - 26))
  else if v <? 62 then ascii_of_N (48 + (v - 52))
  else if v =? 62 then "+"%char else "/"%char.
Fixpoint b64_text (l : str) : str :=
  match l with
  | a :: b :: c :: r =>
      let x := N_of_ascii a * 65536 + N_of_ascii b * 256 + N_of_ascii c in
      digit64 (x / 262144) :: digit64 (x / 4096 mod 64) :: digit64 (x / 64 mod 64) :: digit64 (x mod 64) :: b64_text r
  | [a; b] =>
      let x := N_of_ascii a * 65536 + N_of_ascii b * 256 in
      [digit64 (x / 262144); digit64 (x / 4096 mod 64); digit64 (x / 64 mod 64); "="%char]
  | [a] =>
      let x := N_of_ascii a * 65536 in
      [digit64 (x / 262144); digit64 (x / 4096 mod 64); "="%char; "="%char]
  | [] => []
  end.

(** JSON string bodies (RFC 8259 section 7) without \u escapes: text and meaning. *)
Definition json_plain (c : ascii) : Prop := c <> dquote /\ c <> bslash /\ 32 <= N_of_ascii c.
Inductive json_escape : ascii -> ascii -> Prop :=
| je_quote : json_escape dquote dquote
| je_bslash : json_escape bslash bslash
| je_slash : json_escape "/" "/"
| je_b : json_escape "b" c_bs
| je_f : json_escape "f" c_ff
| je_n : json_escape "n" c_nl
| je_r : json_escape "r" c_cr
| je_t : json_escape "t" c_tab.
Inductive json_body : str -> str -> Prop :=
| jb_nil : json_body [] []
| jb_plain c t s : json_plain c -> json_body t s -> json_body (c :: t) (c :: s)
| jb_esc e c t s : json_escape e c -> json_body t s -> json_body (bslash :: e :: t) (c :: s).
(** Characters JSON text can hold at all without \u. *)
Definition json_able (c : ascii) : Prop :=
  32 <= N_of_ascii c \/ In c [c_nl; c_tab; c_bs; c_ff; c_cr].

(** ---- escape ---- *)
Lemma esc1_unesc c r : unescape (esc1 c ++ r) = c :: unescape r.
Proof.
  unfold esc1.
  destruct (Ascii.eqb_spec c dquote) as [->|N1]; [reflexivity|].
  destruct (Ascii.eqb_spec c bslash) as [->|N2]; [reflexivity|]. cbn [orb].
  destruct (Ascii.eqb_spec c c_nl) as [->|N3]; [reflexivity|].
  destruct (Ascii.eqb_spec c c_tab) as [->|N4]; [reflexivity|].
  destruct (Ascii.eqb_spec c c_bs) as [->|N5]; [reflexivity|].
  destruct (Ascii.eqb_spec c c_ff) as [->|N6]; [reflexivity|].
  destruct (Ascii.eqb_spec c c_cr) as [->|N7]; [reflexivity|].
  cbn [app unescape]. destruct r as [|x r]; [reflexivity|].
  destruct (Ascii.eqb_spec c bslash) as [->|_]; [congruence|reflexivity].
Qed.
Lemma unescape_escape s : unescape (escape s) = s.
Proof. induction s as [|c s IH]; [reflexivity|]. cbn [escape flat_map]. rewrite esc1_unesc. f_equal. exact IH. Qed.
Lemma escape_json s : Forall json_able s -> json_body (escape s) s.
Proof.
  induction 1 as [|c s H _ IH]; [constructor|]. cbn [escape flat_map]. unfold esc1.
  destruct (Ascii.eqb_spec c dquote) as [->|N1]; [apply jb_esc; [constructor|exact IH]|].
  destruct (Ascii.eqb_spec c bslash) as [->|N2]; [apply jb_esc; [constructor|exact IH]|]. cbn [orb].
  destruct (Ascii.eqb_spec c c_nl) as [->|N3]; [apply jb_esc; [constructor|exact IH]|].
  destruct (Ascii.eqb_spec c c_tab) as [->|N4]; [apply jb_esc; [constructor|exact IH]|].
  destruct (Ascii.eqb_spec c c_bs) as [->|N5]; [apply jb_esc; [constructor|exact IH]|].
  destruct (Ascii.eqb_spec c c_ff) as [->|N6]; [apply jb_esc; [constructor|exact IH]|].
  destruct (Ascii.eqb_spec c c_cr) as [->|N7]; [apply jb_esc; [constructor|exact IH]|].
  apply jb_plain; [|exact IH]. split; [exact N1|]. split; [exact N2|].
  destruct H as [H|H]; [exact H|]. cbn in H. intuition congruence.
Qed.
Lemma json_unescape t s : json_body t s -> unescape t = s.
Proof.
  induction 1 as [|c t s [P1 [P2 P3]] B IH|e c t s E B IH]; [reflexivity| |].
  - destruct t as [|x t]; [inversion B; reflexivity|]. cbn [unescape].
    destruct (Ascii.eqb_spec c bslash); [congruence|]. f_equal. exact IH.
  - cbn [unescape]. rewrite Ascii.eqb_refl. destruct E; cbn -[unescape]; f_equal; exact IH.
Qed.

(** ---- base64 ---- *)
Lemma all_below (k : nat) (P : N -> bool) : forallb (fun i => P (N.of_nat i)) (seq 0 k) = true ->
  forall n, n < N.of_nat k -> P n = true.
Proof.
  intros H n Hn. rewrite forallb_forall in H. rewrite <- (N2Nat.id n). apply H. apply in_seq. lia.
Qed.
Lemma byte_lt c : N_of_ascii c < 256.
Proof. apply N_ascii_bounded. Qed.
Lemma bit1 a : a < 256 -> N.shiftr (N.land a 252) 2 = a / 4 /\ N.shiftl (N.land a 3) 4 = (a mod 4) * 16 /\
  N.shiftr (N.land a 240) 4 = a / 16 /\ N.shiftl (N.land a 15) 2 = (a mod 16) * 4 /\
  N.shiftr (N.land a 192) 6 = a / 64 /\ N.land a 63 = a mod 64 /\ N.shiftl (N.land a 63) 2 = (a mod 64) * 4 /\
  N.shiftr (N.land a 48) 4 = a / 16 mod 4 /\ N.shiftl (N.land a 15) 4 = (a mod 16) * 16 /\
  N.shiftr (N.land a 60) 2 = a / 4 mod 16 /\ N.shiftl (N.land a 3) 6 = (a mod 4) * 64.
Proof.
  intros H.
  set (P := fun a => (N.shiftr (N.land a 252) 2 =? a / 4) && (N.shiftl (N.land a 3) 4 =? (a mod 4) * 16) &&
  (N.shiftr (N.land a 240) 4 =? a / 16) && (N.shiftl (N.land a 15) 2 =? (a mod 16) * 4) &&
  (N.shiftr (N.land a 192) 6 =? a / 64) && (N.land a 63 =? a mod 64) && (N.shiftl (N.land a 63) 2 =? (a mod 64) * 4) &&
  (N.shiftr (N.land a 48) 4 =? a / 16 mod 4) && (N.shiftl (N.land a 15) 4 =? (a mod 16) * 16) &&
  (N.shiftr (N.land a 60) 2 =? a / 4 mod 16) && (N.shiftl (N.land a 3) 6 =? (a mod 4) * 64)).
  assert (E : P a = true) by (apply (all_below 256 P); [vm_compute; reflexivity|exact H]).
  unfold P in E. repeat (apply andb_prop in E; destruct E as [E ?]).
  repeat match goal with X : (_ =? _) = true |- _ => apply N.eqb_eq in X end. auto 20.
Qed.
(** Bit-or of numbers that share no digit is addition. *)
Definition or_ok (m n s : N) : bool := N.lor (m * s) n =? m * s + n.
Lemma lor_add m n s bm bn : (forallb (fun i => forallb (fun j => or_ok (N.of_nat i) (N.of_nat j) s) (seq 0 bn)) (seq 0 bm) = true) ->
  m < N.of_nat bm -> n < N.of_nat bn -> N.lor (m * s) n = m * s + n.
Proof.
  intros H Hm Hn. pose proof (all_below bm (fun m => forallb (fun j => or_ok m (N.of_nat j) s) (seq 0 bn)) H m Hm) as H1. cbn beta in H1.
  apply (all_below bn (fun n => or_ok m n s)) with (n := n) in H1; [|exact Hn]. apply N.eqb_eq in H1. exact H1.
Qed.
Lemma enc_value_digit v : v < 64 -> enc_value v = digit64 v.
Proof.
  intros H. apply Ascii.eqb_eq. apply (all_below 64 (fun v => Ascii.eqb (enc_value v) (digit64 v))); [vm_compute; reflexivity|exact H].
Qed.
Lemma dec_digit v : v < 64 -> dec_value (digit64 v) = Z.of_N v.
Proof.
  intros H. apply Z.eqb_eq. apply (all_below 64 (fun v => (dec_value (digit64 v) =? Z.of_N v)%Z)); [vm_compute; reflexivity|exact H].
Qed.
Lemma digit_not_nul v : v < 64 -> digit64 v <> "000"%char.
Proof.
  intros H. intros E. pose proof (all_below 64 (fun v => negb (Ascii.eqb (digit64 v) "000"%char)) eq_refl v H) as X. cbn beta in X.
  rewrite E in X. discriminate.
Qed.

(** Buffers split at the write position. *)
Lemma wput_at pre x post c : wput (pre ++ x :: post, length pre) c = Ok (pre ++ c :: post, S (length pre)).
Proof.
  unfold wput. cbn [fst snd]. rewrite app_length. cbn [length]. replace (_ <? _)%nat with true by lia. f_equal. f_equal.
  induction pre as [|y pre IH]; [reflexivity|]. cbn [app length set_nth]. f_equal. exact IH.
Qed.
Lemma wset_at pre x post c : wset (pre ++ x :: post, length pre) c = Ok (pre ++ c :: post, length pre).
Proof.
  unfold wset. cbn [fst snd]. rewrite app_length. cbn [length]. replace (_ <? _)%nat with true by lia. f_equal. f_equal.
  induction pre as [|y pre IH]; [reflexivity|]. cbn [app length set_nth]. f_equal. exact IH.
Qed.
Lemma wor_at pre x post v : wor_next (pre ++ x :: post, length pre) v = Ok (pre ++ ascii_of_N (N.lor (N_of_ascii x) v) :: post, S (length pre)).
Proof.
  unfold wor_next. cbn [fst snd]. rewrite nth_error_app2, Nat.sub_diag by lia. cbn [nth_error deref obind]. apply wput_at.
Qed.
Lemma snoc_len {A} (pre : list A) c : S (length pre) = length (pre ++ [c]).
Proof. rewrite app_length. cbn. lia. Qed.
Lemma snoc_app {A} (pre : list A) c post : pre ++ c :: post = (pre ++ [c]) ++ post.
Proof. rewrite <- app_assoc. reflexivity. Qed.

Lemma list3_ind {A} (P : list A -> Prop) : P [] -> (forall a, P [a]) -> (forall a b, P [a; b]) ->
  (forall a b c r, P r -> P (a :: b :: c :: r)) -> forall l, P l.
Proof.
  intros H0 H1 H2 H3. fix IH 1. intros [|a [|b [|c r]]]; [exact H0|apply H1|apply H2|apply H3; apply IH].
Qed.
Lemma text_length l : Z.of_nat (length (b64_text l)) = (4 * ((Z.of_nat (length l) + 2) / 3))%Z.
Proof.
  induction l as [|a|a b|a b c r IH] using list3_ind; [reflexivity|reflexivity|reflexivity|].
  cbn [b64_text length] in *. rewrite !Nat2Z.inj_succ. lia.
Qed.
Definition enc_all (r0 : N) (l : str) (w : wbuf) : outcome wbuf :=
  do (st, res, w1) <- enc_block StepA r0 l w; enc_blockend st res w1.
Lemma take_ge {A} k (l : list A) : (S k <= length l)%nat -> exists x r, l = x :: r /\ (k <= length r)%nat.
Proof. destruct l as [|x r]; cbn; intros H; [lia|]. exists x, r. split; [reflexivity|lia]. Qed.
Ltac take1 H := let x := fresh "x" in let r := fresh "post" in let E := fresh "E" in
  apply take_ge in H; destruct H as (x & r & E & H); subst.
Lemma triple a b c : a < 256 -> b < 256 -> c < 256 ->
  let x := a * 65536 + b * 256 + c in
  x / 262144 = a / 4 /\ x / 4096 mod 64 = (a mod 4) * 16 + b / 16 /\ x / 64 mod 64 = (b mod 16) * 4 + c / 64 /\ x mod 64 = c mod 64.
Proof. intros Ha Hb Hc x. unfold x. lia. Qed.
Lemma enc_first a : a < 256 -> enc_value (N.shiftr (N.land a 252) 2) = digit64 (a / 4).
Proof. intros H. destruct (bit1 a H) as [-> _]. apply enc_value_digit. lia. Qed.
Lemma enc_second a b : a < 256 -> b < 256 ->
  enc_value (N.lor (N.shiftl (N.land a 3) 4) (N.shiftr (N.land b 240) 4)) = digit64 ((a mod 4) * 16 + b / 16).
Proof.
  intros Ha Hb. destruct (bit1 a Ha) as (_ & -> & _). destruct (bit1 b Hb) as (_ & _ & -> & _).
  rewrite (lor_add _ _ 16 4 16); [apply enc_value_digit; lia|vm_compute; reflexivity|lia|lia].
Qed.
Lemma enc_third b c : b < 256 -> c < 256 ->
  enc_value (N.lor (N.shiftl (N.land b 15) 2) (N.shiftr (N.land c 192) 6)) = digit64 ((b mod 16) * 4 + c / 64).
Proof.
  intros Ha Hb. destruct (bit1 b Ha) as (_ & _ & _ & -> & _). destruct (bit1 c Hb) as (_ & _ & _ & _ & -> & _).
  rewrite (lor_add _ _ 4 16 4); [apply enc_value_digit; lia|vm_compute; reflexivity|lia|lia].
Qed.
Lemma enc_fourth c : c < 256 -> enc_value (N.land c 63) = digit64 (c mod 64).
Proof. intros H. destruct (bit1 c H) as (_ & _ & _ & _ & _ & -> & _). apply enc_value_digit. lia. Qed.
Lemma enc_ok l : forall r0 pre post, (length (b64_text l) + 1 <= length post)%nat ->
  enc_all r0 l (pre ++ post, length pre) =
  Ok (pre ++ b64_text l ++ "010"%char :: skipn (length (b64_text l) + 1) post, (length pre + length (b64_text l) + 1)%nat).
Proof.
  induction l as [|a|a b|a b c r IH] using list3_ind; intros r0 pre post H.
  - cbn in H. take1 H. unfold enc_all. cbn [enc_block obind enc_blockend]. rewrite wput_at. cbn. do 2 f_equal. lia.
  - pose proof (byte_lt a) as Ha. destruct (triple (N_of_ascii a) 0 0 Ha) as (T1 & T2 & _ & _); [lia|lia|].
    replace (N_of_ascii a * 65536 + 0 * 256 + 0) with (N_of_ascii a * 65536) in * by lia.
    cbn [b64_text length] in *. do 5 take1 H. rewrite T1, T2.
    unfold enc_all. cbn [enc_block]. rewrite wput_at. cbn [obind]. unfold enc_blockend.
    rewrite enc_first by exact Ha. pose proof (enc_second (N_of_ascii a) 0 Ha ltac:(lia)) as E2. change (N.shiftr (N.land 0 240) 4) with 0 in E2. rewrite N.lor_0_r in E2.
    rewrite E2.
    rewrite snoc_app, (snoc_len pre (digit64 (N_of_ascii a / 4))), wput_at. cbn [obind].
    rewrite snoc_app, (snoc_len _ (digit64 (N_of_ascii a mod 4 * 16 + 0 / 16))), wput_at. cbn [obind].
    rewrite snoc_app, (snoc_len _ "="%char), wput_at. cbn [obind].
    rewrite snoc_app, (snoc_len _ "="%char), wput_at. cbn [obind].
    rewrite <- !app_assoc. cbn [app plus skipn]. rewrite !app_length. cbn [length]. do 2 f_equal. lia.
  - pose proof (byte_lt a) as Ha. pose proof (byte_lt b) as Hb. destruct (triple (N_of_ascii a) (N_of_ascii b) 0 Ha Hb) as (T1 & T2 & T3 & _); [lia|].
    replace (N_of_ascii a * 65536 + N_of_ascii b * 256 + 0) with (N_of_ascii a * 65536 + N_of_ascii b * 256) in * by lia.
    cbn [b64_text length] in *. do 5 take1 H. rewrite T1, T2, T3.
    unfold enc_all. cbn [enc_block]. rewrite wput_at. cbn [obind].
    rewrite enc_first by exact Ha. pose proof (enc_third (N_of_ascii b) 0 Hb ltac:(lia)) as E3. change (N.shiftr (N.land 0 192) 6) with 0 in E3. rewrite N.lor_0_r in E3.
    rewrite snoc_app, (snoc_len pre (digit64 (N_of_ascii a / 4))), wput_at. cbn [obind]. unfold enc_blockend.
    rewrite enc_second by assumption. rewrite E3.
    rewrite snoc_app, (snoc_len _ (digit64 (N_of_ascii a mod 4 * 16 + N_of_ascii b / 16))), wput_at. cbn [obind].
    rewrite snoc_app, (snoc_len _ (digit64 (N_of_ascii b mod 16 * 4 + 0 / 64))), wput_at. cbn [obind].
    rewrite snoc_app, (snoc_len _ "="%char), wput_at. cbn [obind].
    rewrite <- !app_assoc. cbn [app plus skipn]. rewrite !app_length. cbn [length]. do 2 f_equal. lia.
  - pose proof (byte_lt a) as Ha. pose proof (byte_lt b) as Hb. pose proof (byte_lt c) as Hc.
    destruct (triple (N_of_ascii a) (N_of_ascii b) (N_of_ascii c) Ha Hb Hc) as (T1 & T2 & T3 & T4).
    cbn [b64_text length] in *. do 4 take1 H. rewrite T1, T2, T3, T4.
    unfold enc_all in *. cbn [enc_block]. rewrite wput_at. cbn [obind]. rewrite enc_first by exact Ha.
    rewrite snoc_app, (snoc_len pre (digit64 (N_of_ascii a / 4))), wput_at. cbn [obind]. rewrite enc_second by assumption.
    rewrite snoc_app, (snoc_len _ (digit64 (N_of_ascii a mod 4 * 16 + N_of_ascii b / 16))), wput_at. cbn [obind]. rewrite enc_third, enc_fourth by assumption.
    rewrite snoc_app, (snoc_len _ (digit64 (N_of_ascii b mod 16 * 4 + N_of_ascii c / 64))), wput_at. cbn [obind].
    rewrite snoc_app, (snoc_len _ (digit64 (N_of_ascii c mod 64))).
    rewrite IH by exact H. rewrite <- !app_assoc. cbn [app plus skipn]. rewrite !app_length. cbn [length]. do 2 f_equal. lia.
Qed.

(** ---- decoding ---- *)
Lemma ascii_N_lt n : n < 256 -> N_of_ascii (ascii_of_N n) = n.
Proof. apply N_ascii_embedding. Qed.
Lemma dec_a v r pre x post : v < 64 ->
  dec_block Da (digit64 v :: r) (pre ++ x :: post, length pre) = dec_block Db r (pre ++ ascii_of_N (v * 4) :: post, length pre).
Proof.
  intros H. cbn [dec_block]. rewrite dec_digit by exact H. replace (Z.of_N v <? 0)%Z with false by lia. rewrite N2Z.id, wset_at. cbn [obind].
  destruct (bit1 v ltac:(lia)) as (_ & _ & _ & _ & _ & _ & -> & _). rewrite N.mod_small by lia. reflexivity.
Qed.
Lemma dec_b v u r pre x post : v < 64 -> u < 64 ->
  dec_block Db (digit64 v :: r) (pre ++ ascii_of_N (u * 4) :: x :: post, length pre) =
  dec_block Dc r ((pre ++ [ascii_of_N (u * 4 + v / 16)]) ++ ascii_of_N (v mod 16 * 16) :: post, length (pre ++ [ascii_of_N (u * 4 + v / 16)])).
Proof.
  intros H Hu. cbn [dec_block]. rewrite dec_digit by exact H. replace (Z.of_N v <? 0)%Z with false by lia. rewrite N2Z.id, wor_at. cbn [obind].
  destruct (bit1 v ltac:(lia)) as (_ & _ & _ & _ & _ & _ & _ & -> & -> & _). rewrite ascii_N_lt by lia.
  rewrite (lor_add u (v / 16 mod 4) 4 64 4) by (try (vm_compute; reflexivity); lia).
  replace (v / 16 mod 4) with (v / 16) by lia.
  rewrite snoc_app, (snoc_len pre (ascii_of_N (u * 4 + v / 16))), wset_at. reflexivity.
Qed.
Lemma dec_c v u r pre x post : v < 64 -> u < 16 ->
  dec_block Dc (digit64 v :: r) (pre ++ ascii_of_N (u * 16) :: x :: post, length pre) =
  dec_block Dd r ((pre ++ [ascii_of_N (u * 16 + v / 4)]) ++ ascii_of_N (v mod 4 * 64) :: post, length (pre ++ [ascii_of_N (u * 16 + v / 4)])).
Proof.
  intros H Hu. cbn [dec_block]. rewrite dec_digit by exact H. replace (Z.of_N v <? 0)%Z with false by lia. rewrite N2Z.id, wor_at. cbn [obind].
  destruct (bit1 v ltac:(lia)) as (_ & _ & _ & _ & _ & _ & _ & _ & _ & -> & ->). rewrite ascii_N_lt by lia.
  rewrite (lor_add u (v / 4 mod 16) 16 16 16) by (try (vm_compute; reflexivity); lia).
  replace (v / 4 mod 16) with (v / 4) by lia.
  rewrite snoc_app, (snoc_len pre (ascii_of_N (u * 16 + v / 4))), wset_at. reflexivity.
Qed.
Lemma dec_d v u r pre post : v < 64 -> u < 4 ->
  dec_block Dd (digit64 v :: r) (pre ++ ascii_of_N (u * 64) :: post, length pre) =
  dec_block Da r ((pre ++ [ascii_of_N (u * 64 + v)]) ++ post, length (pre ++ [ascii_of_N (u * 64 + v)])).
Proof.
  intros H Hu. cbn [dec_block]. rewrite dec_digit by exact H. replace (Z.of_N v <? 0)%Z with false by lia. rewrite N2Z.id, wor_at. cbn [obind].
  destruct (bit1 v ltac:(lia)) as (_ & _ & _ & _ & _ & -> & _). rewrite ascii_N_lt by lia.
  replace (v mod 64) with v by lia.
  rewrite (lor_add u v 64 4 64) by (try (vm_compute; reflexivity); lia).
  rewrite snoc_app, (snoc_len pre (ascii_of_N (u * 64 + v))). reflexivity.
Qed.
Lemma dec_pad st r w : dec_block st ("="%char :: r) w = dec_block st r w.
Proof. reflexivity. Qed.
(** Result: the bytes, then whatever; the tail beyond the bytes touched intact. *)
Lemma dec_ok l : forall pre post, (length l <= length post)%nat -> (length l mod 3 <> 0 -> length l + 1 <= length post)%nat ->
  exists post', dec_block Da (b64_text l) (pre ++ post, length pre) = Ok (pre ++ l ++ post', (length pre + length l)%nat) /\
    length post' = (length post - length l)%nat /\
    tl post' = tl (skipn (length l) post) /\ (length l mod 3 = 0 -> post' = skipn (length l) post)%nat.
Proof.
  induction l as [|a|a b|a b c r IH] using list3_ind; intros pre post H1 H2.
  - exists post. cbn. rewrite Nat.add_0_r, Nat.sub_0_r. auto.
  - cbn in H2. assert (H : (2 <= length post)%nat) by lia. do 2 take1 H.
    pose proof (byte_lt a) as Ha. destruct (triple (N_of_ascii a) 0 0 Ha) as (T1 & T2 & _ & _); [lia|lia|].
    replace (N_of_ascii a * 65536 + 0 * 256 + 0) with (N_of_ascii a * 65536) in * by lia.
    cbn [b64_text]. rewrite T1, T2. rewrite dec_a by lia. rewrite dec_b by lia. rewrite !dec_pad. cbn [dec_block].
    replace (N_of_ascii a / 4 * 4 + (N_of_ascii a mod 4 * 16 + 0 / 16) / 16) with (N_of_ascii a) by lia. rewrite ascii_N_embedding.
    eexists. split; [rewrite <- app_assoc; cbn [app]; rewrite app_length; reflexivity|]. cbn. split; [lia|]. split; [reflexivity|discriminate].
  - cbn in H2. assert (H : (3 <= length post)%nat) by lia. do 3 take1 H.
    pose proof (byte_lt a) as Ha. pose proof (byte_lt b) as Hb. destruct (triple (N_of_ascii a) (N_of_ascii b) 0 Ha Hb) as (T1 & T2 & T3 & _); [lia|].
    replace (N_of_ascii a * 65536 + N_of_ascii b * 256 + 0) with (N_of_ascii a * 65536 + N_of_ascii b * 256) in * by lia.
    cbn [b64_text]. rewrite T1, T2, T3. rewrite dec_a by lia. rewrite dec_b by lia. rewrite dec_c by lia. rewrite dec_pad. cbn [dec_block].
    replace (N_of_ascii a / 4 * 4 + (N_of_ascii a mod 4 * 16 + N_of_ascii b / 16) / 16) with (N_of_ascii a) by lia.
    replace ((N_of_ascii a mod 4 * 16 + N_of_ascii b / 16) mod 16 * 16 + (N_of_ascii b mod 16 * 4 + 0 / 64) / 4) with (N_of_ascii b) by lia.
    rewrite !ascii_N_embedding.
    eexists. split; [rewrite <- !app_assoc; cbn [app]; rewrite !app_length; cbn [length]; do 2 f_equal; lia|]. cbn. split; [lia|]. split; [reflexivity|discriminate].
  - pose proof (byte_lt a) as Ha. pose proof (byte_lt b) as Hb. pose proof (byte_lt c) as Hc.
    destruct (triple (N_of_ascii a) (N_of_ascii b) (N_of_ascii c) Ha Hb Hc) as (T1 & T2 & T3 & T4).
    assert (M : (length (a :: b :: c :: r) mod 3 = length r mod 3)%nat).
    { cbn [length]. replace (S (S (S (length r)))) with (length r + 1 * 3)%nat by lia. apply Nat.mod_add. lia. }
    rewrite M in *. cbn [length] in *. assert (H : (3 <= length post)%nat) by lia. do 3 take1 H.
    cbn [b64_text]. rewrite T1, T2, T3, T4. rewrite dec_a by lia. rewrite dec_b by lia. rewrite dec_c by lia. rewrite dec_d by lia.
    replace (N_of_ascii a / 4 * 4 + (N_of_ascii a mod 4 * 16 + N_of_ascii b / 16) / 16) with (N_of_ascii a) by lia.
    replace ((N_of_ascii a mod 4 * 16 + N_of_ascii b / 16) mod 16 * 16 + (N_of_ascii b mod 16 * 4 + N_of_ascii c / 64) / 4) with (N_of_ascii b) by lia.
    replace ((N_of_ascii b mod 16 * 4 + N_of_ascii c / 64) mod 4 * 64 + N_of_ascii c mod 64) with (N_of_ascii c) by lia.
    rewrite !ascii_N_embedding. cbn [length] in H1, H2.
    edestruct (IH (((pre ++ [a]) ++ [b]) ++ [c])) as (post' & E & Lp & Ts & Z0); [| |rewrite E]; [lia|lia|].
    exists post'. split; [rewrite <- !app_assoc; cbn [app]; rewrite !app_length; cbn [length]; do 2 f_equal; lia|].
    cbn [length skipn]. split; [lia|]. auto.
Qed.

(** ---- the two functions ---- *)
Lemma to_int_small n : (0 <= n < 2147483648)%Z -> to_int n = n.
Proof. intros H. unfold to_int. rewrite Z.mod_small; lia. Qed.
Lemma set_nth_split {A} (pre : list A) x post c : set_nth (pre ++ x :: post) (length pre) c = pre ++ c :: post.
Proof. induction pre as [|y pre IH]; [reflexivity|]. cbn [app length set_nth]. f_equal. exact IH. Qed.
Lemma skipn_repeat {A} (x : A) k n : skipn k (repeat x n) = repeat x (n - k).
Proof. revert n. induction k as [|k IH]; intros [|n]; try reflexivity. cbn [repeat skipn]. rewrite IH. f_equal. Qed.
Lemma encode_law src dst : (Z.of_nat (length src) < 2147483648)%Z -> (b64_enc_size (Z.of_nat (length src)) <= Z.of_nat (length dst))%Z ->
  let sz := Z.to_nat (b64_enc_size (Z.of_nat (length src))) in
  (length (b64_text src) < sz)%nat /\
  b64_encode src dst = Ok (b64_text src ++ repeat "000"%char (sz - length (b64_text src)) ++ skipn sz dst).
Proof.
  intros H Hd sz. pose proof (text_length src) as TL.
  assert (Hl : (length (b64_text src) + 1 <= sz)%nat) by (unfold sz, b64_enc_size in *; lia).
  split; [lia|]. unfold b64_encode. rewrite to_int_small by lia.
  replace (Z.of_nat (length dst) <? b64_enc_size (Z.of_nat (length src)))%Z with false by lia.
  replace (Z.of_nat (length src) <? 0)%Z with false by lia. rewrite Nat2Z.id, firstn_all. fold sz.
  pose proof (enc_ok src 0 [] (repeat "000"%char sz ++ skipn sz dst)) as E. unfold enc_all in E. cbn [app length] in E.
  rewrite app_length, repeat_length in E. specialize (E ltac:(lia)).
  destruct (enc_block StepA 0 src (repeat "000"%char sz ++ skipn sz dst, 0%nat)) as [[[st res] w]| | |]; try discriminate. cbn [obind] in E |- *.
  rewrite E. cbn [obind fst snd]. f_equal. rewrite Nat.add_0_l, Nat.add_1_r. cbn [pred]. rewrite set_nth_split. f_equal.
  rewrite skipn_app, skipn_repeat, repeat_length. replace (S (length (b64_text src)) - sz)%nat with 0%nat by lia. cbn [skipn].
  replace (sz - length (b64_text src))%nat with (S (sz - S (length (b64_text src)))) by lia. reflexivity.
Qed.
Lemma text_no_nul l : ~ In "000"%char (b64_text l).
Proof.
  assert (D : forall v, v < 64 -> digit64 v <> "000"%char) by exact digit_not_nul.
  induction l as [|a|a b|a b c r IH] using list3_ind; cbn [b64_text In].
  - tauto.
  - pose proof (byte_lt a). intros [X|[X|[X|[X|[]]]]]; try discriminate; revert X; apply D; lia.
  - pose proof (byte_lt a). pose proof (byte_lt b). intros [X|[X|[X|[X|[]]]]]; try discriminate; revert X; apply D; lia.
  - pose proof (byte_lt a). pose proof (byte_lt b). pose proof (byte_lt c). intros [X|[X|[X|[X|X]]]]; [| | | |exact (IH X)]; revert X; apply D; lia.
Qed.
Lemma tl_skipn {A} k (l : list A) : tl (skipn k l) = skipn (S k) l.
Proof. revert l. induction k as [|k IH]; intros [|x l]; try reflexivity. cbn [skipn]. apply IH. Qed.
Lemma decode_law l dst : (Z.of_nat (length (b64_text l)) < 2147483648)%Z -> (b64_dec_size (Z.of_nat (length (b64_text l))) <= Z.of_nat (length dst))%Z ->
  exists tail, b64_decode (b64_text l) dst = Ok (l ++ tail) /\ length (l ++ tail) = length dst /\
    let sz := Z.to_nat (b64_dec_size (Z.of_nat (length (b64_text l)))) in skipn sz (l ++ tail) = skipn sz dst.
Proof.
  intros H Hd. pose proof (text_length l) as TL. unfold b64_decode. rewrite to_int_small by lia. replace (_ <? 0)%Z with false by lia.
  rewrite Nat2Z.id, firstn_all. unfold b64_dec_size in *.
  assert (Hd0 : (1 <= length dst)%nat) by lia. destruct dst as [|x0 dst]; [cbn in Hd0; lia|].
  pose proof (wset_at [] x0 dst "000"%char) as W. cbn [app length] in W. unfold wbuf, str in *. rewrite W. cbn [obind].
  assert (M2 : (Z.of_nat (length l mod 3) = Z.of_nat (length l) mod 3)%Z) by (apply (Nat2Z.inj_mod (length l) 3)).
  destruct (dec_ok l [] ("000"%char :: dst)) as (post' & E & Lp & Ts & Z0); [cbn [length] in *; lia|intros N; cbn [length] in *; lia|].
  cbn [app length] in E. unfold wbuf, str in *. rewrite E. cbn [obind fst]. exists post'. split; [reflexivity|].
  cbn [length] in *. split; [rewrite app_length, Lp; lia|]. cbn zeta.
  set (k := Z.to_nat (Z.of_nat (length (b64_text l)) / 4 * 3 + 1)).
  assert (Hk : (length l < k)%nat) by (unfold k; lia).
  rewrite skipn_app. rewrite (skipn_all2 l) by lia. cbn [app].
  replace (k - length l)%nat with (S (k - length l - 1)) by lia.
  assert (Q : forall j, skipn (S j) post' = skipn j (tl post')) by (intros j; destruct post'; [destruct j; reflexivity|reflexivity]).
  rewrite Q, Ts, tl_skipn. 
  assert (Q2 : forall i j (q : str), skipn i (skipn j q) = skipn (j + i) q).
  { clear. intros i j. revert i. induction j as [|j IH]; intros i q; [reflexivity|]. destruct q; [destruct i; reflexivity|]. cbn [skipn plus]. apply IH. }
  rewrite Q2. replace (S (length l) + (k - length l - 1))%nat with k by lia. destruct k; [lia|]. reflexivity.
Qed.
