(** Printing node values as JSON and reading them back. *)
From Coq Require Import Lia NArith Nnat.
From Verif Require Import Base DType Path SpecTree Schema Codec CodecFacts Mem MemFacts Node Number NodeDiff
  NumberFacts ArrayOps ArrayOpsFacts SpecNode NodeFacts NodeSet NodeAlloc SchemaInv SchemaMore Json JsonSpec JsonFacts
  JsonRead JsonSchema NodeSerial DiffFacts DiffMore SaveFacts B64Json B64Facts ValueJson.
Local Open Scope Z_scope.

(** * Specification *)

(** A float whose text is a JSON number, of modest size, with a fraction or an
    exponent, that reads back as the same float. *)
Definition float_back (F : floats) (t : tid) (x : list byte) : Prop :=
  number (f_text F t x) /\ modest (f_text F t x) /\ Exists (fun c => In c (L ".eE")) (f_text F t x) /\
  f_read F t (f_text F t x) = x.
(** Characters of a string that is written and read back unchanged. *)
Definition text_char (c : ascii) : Prop :=
  c <> backslash /\ (In c (map ascii_of_N [8; 9; 10; 12; 13]%N) \/ (32 <= N_of_ascii c)%N).
(** Leaf values that the detailed JSON text gives back. *)
Definition value_back (F : floats) (lv : leafval) : Prop :=
  match lv with
  | None => True
  | Some (CHAR8_STR, _, es) =>
      exists s k, concat es = s ++ repeat zero_byte (S k) /\ Forall text_char s
  | Some (t, _, es) => is_float t = true -> Forall (float_back F t) es
  end.
(** Their layout: strings contiguous, no zero stride between elements, no negative
    fields. *)
Definition layout_back (d : dtype) : Prop :=
  json_leaf d /\ (dt_id d = CHAR8_STR -> dt_stride d = 1) /\ (dt_stride d = 0 -> dt_n d <= 1).

(** * Numbers *)
Lemma show_Z_num z : number (show_Z z).
Proof.
  destruct (Z.ltb_spec z 0) as [N|N]; [|apply show_Z_number, N].
  unfold show_Z. destruct (Z.ltb_spec z 0); [|lia].
  destruct (show_N_spec (Z.to_N (- z))) as (D & Z0 & _).
  exists ["-"%char], (show_N (Z.to_N (- z))), [], []. rewrite !app_nil_r. cbn [app].
  split; [reflexivity|]. split; [right; reflexivity|]. split; [exact D|]. split; [exact Z0|].
  split; left; reflexivity.
Qed.
Lemma dec_digits t : forall a z, Json.dec_value t a = Some z -> Forall (fun c => num_char c = true) t.
Proof.
  induction t as [|c t IH]; intros a z E; [constructor|]. cbn in E.
  destruct (num_char c) eqn:N; [|discriminate]. constructor; eauto.
Qed.
Lemma show_Z_int z : int_text (show_Z z) = Some z.
Proof.
  unfold show_Z. destruct (Z.ltb_spec z 0) as [N|N].
  - unfold int_text. change (Ascii.eqb "-" "-") with true. cbv iota.
    destruct (show_N_spec (Z.to_N (- z))) as ((D & _) & _ & V).
    destruct (show_N (Z.to_N (- z))) eqn:E; [congruence|]. rewrite <- E in *. rewrite V. cbn [option_map].
    rewrite Z2N.id by lia. f_equal. apply Z.opp_involutive.
  - destruct (show_N_spec (Z.to_N z)) as ((D & Fd) & _ & V).
    unfold int_text. destruct (show_N (Z.to_N z)) as [|c r] eqn:E; [congruence|]. rewrite <- E in *.
    assert (Ascii.eqb c "-" = false) as ->.
    { rewrite E in Fd. inversion_clear Fd as [|? ? Dc _]. destruct (Ascii.eqb_spec c "-") as [-> |]; [|reflexivity].
      exfalso. unfold digit in Dc. cbn in Dc. intuition discriminate. }
    rewrite V, Z2N.id by lia. reflexivity.
Qed.
Lemma in_type_64 t x : is_int t = true -> in_type t x ->
  (is_signed t = true -> - 2 ^ 63 <= x < 2 ^ 63) /\ (is_unsigned t = true -> 0 <= x < 2 ^ 64).
Proof. intros I [A B]. destruct t; try discriminate; cbn in *; split; intros; try discriminate; lia. Qed.
Lemma show_get_i64 z : - 2 ^ 63 <= z < 2 ^ 63 -> get_i64 (show_Z z) = Ok z.
Proof.
  intros H. unfold get_i64, is_int64. rewrite show_Z_int.
  replace ((- 2 ^ 63 <=? z) && (z <? 2 ^ 63)) with true by lia. reflexivity.
Qed.
Lemma show_get_u64 z : 0 <= z < 2 ^ 64 -> get_u64 (show_Z z) = Ok z.
Proof.
  intros H. unfold get_u64, is_uint64. rewrite show_Z_int.
  replace ((0 <=? z) && (z <? 2 ^ 64)) with true by lia. reflexivity.
Qed.
Lemma show_chars z : Forall (fun c => In c (L "-0123456789")) (show_Z z).
Proof.
  assert (D : forall n, Forall (fun c => In c (L "-0123456789")) (show_N n)).
  { intros n. destruct (show_N_spec n) as ((_ & Fd) & _). eapply Forall_impl; [|exact Fd].
    intros c H. right. exact H. }
  unfold show_Z. destruct (z <? 0); [constructor; [left; reflexivity|apply D]|apply D].
Qed.
Lemma dec_no_frac t a c : In c t -> num_char c = false -> Json.dec_value t a = None.
Proof.
  intros I N. destruct (Json.dec_value t a) eqn:E; [|reflexivity].
  pose proof (dec_digits t a z E) as X. rewrite Forall_forall in X. rewrite (X c I) in N. discriminate.
Qed.
Lemma frac_not_int t : Exists (fun c => In c (L ".eE")) t -> int_text t = None.
Proof.
  intros X. apply Exists_exists in X. destruct X as (c & I & K).
  assert (N : num_char c = false /\ Ascii.eqb c "-" = false)
    by (cbn in K; destruct K as [<-|[<-|[<-|[]]]]; split; reflexivity).
  destruct N as [N M].
  unfold int_text. destruct t as [|x r]; [destruct I|].
  destruct (Ascii.eqb x "-") eqn:E.
  - destruct I as [-> |I]; [congruence|]. destruct r as [|y r]; [destruct I|].
    rewrite (dec_no_frac _ 0 c I N). reflexivity.
  - apply (dec_no_frac _ 0 c I N).
Qed.
Definition num_part (c : ascii) : bool := num_char c || existsb (Ascii.eqb c) (L "-+.eE").
Lemma number_parts t : number t -> Forall (fun c => num_part c = true) t.
Proof.
  assert (Dg : forall d, digits d -> Forall (fun c => num_part c = true) d).
  { intros d [_ H]. eapply Forall_impl; [|exact H]. intros c Hc. unfold num_part. rewrite (digit_num c Hc). reflexivity. }
  intros (s & i & f & e & -> & Hs & Hi & _ & Hf & He).
  apply Forall_app; split; [destruct Hs as [-> | ->]; repeat constructor|].
  apply Forall_app; split; [apply Dg, Hi|]. apply Forall_app; split.
  - destruct Hf as [-> |(d & -> & H)]; constructor; [reflexivity|apply Dg, H].
  - destruct He as [-> |(c & g & d & -> & Hc & Hg & H)]; [constructor|].
    constructor; [cbn in Hc; destruct Hc as [<-|[<-|[]]]; reflexivity|].
    apply Forall_app; split; [cbn in Hg; destruct Hg as [<-|[<-|[<-|[]]]]; repeat constructor|apply Dg, H].
Qed.
Lemma number_no_n t : number t -> has_n t = false.
Proof.
  intros H. apply number_parts in H. unfold has_n. induction H as [|c t P _ IH]; [reflexivity|].
  cbn [existsb]. rewrite IH. destruct (Ascii.eqb_spec "n" c) as [<-|_]; [discriminate|reflexivity].
Qed.

(** * The values printed *)
Section Print.
Variable F : floats.
Variable mach : endian.

Definition jelem (t : tid) (x : list byte) : jval :=
  if is_float t then (if has_n (f_text F t x) then JStr (f_text F t x) else JNum (f_text F t x))
  else JNum (show_Z (ivalue mach t x)).
Definition jleaf (lv : leafval) : jval :=
  match lv with
  | None => JNull
  | Some (CHAR8_STR, _, es) => JStr (up_to_nul (concat es))
  | Some (t, _, [x]) => jelem t x
  | Some (t, _, es) => JArr (map (jelem t) es)
  end.

Lemma elem_ok t x : (is_float t = true -> float_back F t x) ->
  value_text false (jelem t x) (elem_text F mach t x) (elem_text F mach t x).
Proof.
  intros H. unfold jelem, elem_text. destruct (is_float t).
  - destruct (H eq_refl) as (N & _ & _). cbv zeta. rewrite (number_no_n _ N). apply vt_num, N.
  - apply vt_num, show_Z_num.
Qed.
Lemma join_items t xs : Forall (fun x => is_float t = true -> float_back F t x) xs -> xs <> [] ->
  forall w, Forall white w ->
  items_text false (map (jelem t) xs) (w ++ join (L ", ") (map (elem_text F mach t) xs))
                                      (w ++ join (L ", ") (map (elem_text F mach t) xs)).
Proof.
  induction 1 as [|x xs X H IH]; intros N w W; [congruence|].
  destruct xs as [|y xs].
  - cbn [map join]. pose proof (it_last false (jelem t x) w w _ _ [] [] (blank_of w false W) (elem_ok t x X) (or_introl (conj eq_refl eq_refl))) as Y.
    rewrite !app_nil_r in Y. exact Y.
  - pose proof (IH ltac:(discriminate) (L " ") ltac:(repeat constructor)) as R.
    pose proof (it_cons false (jelem t x) _ w w _ _ [] [] _ _ (blank_of w false W) (elem_ok t x X) (or_introl (conj eq_refl eq_refl)) R) as Y.
    exact Y.
Qed.

Lemma elems_read_value m h d es : no_repeat d -> is_data (dt_id d) = true ->
  leaf_value m (h_data h) d = Ok (Some (dt_id d, dt_endian d, es)) ->
  elems_read m h d (dt_n d) = Ok es.
Proof.
  intros R D E. unfold elems_read. apply (view_read m h d es); assumption.
Qed.
Lemma array_text_ok m h d es : no_repeat d -> is_data (dt_id d) = true -> dt_id d <> CHAR8_STR ->
  leaf_value m (h_data h) d = Ok (Some (dt_id d, dt_endian d, es)) ->
  (is_float (dt_id d) = true -> Forall (float_back F (dt_id d)) es) ->
  exists t, array_text F mach m h d = Ok t /\
    value_text false (jleaf (Some (dt_id d, dt_endian d, es))) t t.
Proof.
  intros R D NS E B. unfold array_text. rewrite (elems_read_value m h d es R D E). cbn [obind].
  eexists. split; [reflexivity|].
  assert (Fx : Forall (fun x => is_float (dt_id d) = true -> float_back F (dt_id d) x) es).
  { apply Forall_forall. intros x I X. specialize (B X). rewrite Forall_forall in B. apply B, I. }
  assert (Ln : Z.of_nat (length es) = dt_n d).
  { destruct (leaf_value_inv _ _ _ _ E) as [[X _]|(_ & N & es' & X & [Hl _])]; [rewrite X in D; discriminate|].
    injection X as <-. lia. }
  rewrite <- Ln. clear - Fx NS.
  assert (J : jleaf (Some (dt_id d, dt_endian d, es)) =
              match es with [x] => jelem (dt_id d) x | _ => JArr (map (jelem (dt_id d)) es) end)
    by (unfold jleaf; destruct (dt_id d); congruence || reflexivity).
  rewrite J. destruct es as [|x [|y es]].
  - apply (vt_arr0 false [] []). constructor.
  - cbn [length Z.of_nat map join]. inversion_clear Fx. apply elem_ok; assumption.
  - replace ((Z.of_nat (length (x :: y :: es)) =? 0) || (1 <? Z.of_nat (length (x :: y :: es)))) with true
      by (cbn [length]; lia).
    apply vt_arr. apply (join_items (dt_id d) (x :: y :: es) Fx ltac:(discriminate) [] ltac:(constructor)).
Qed.
End Print.

(** * Strings *)
Lemma string_read m h d es : dt_id d = CHAR8_STR -> dt_stride d = 1 -> 0 <= dt_n d -> holds m (h_data h) d es ->
  In zero_byte (concat es) -> nas_string m (NLeaf h d) = Ok (up_to_nul (concat es)).
Proof.
  intros T S Hn Ho Te. cbn [nas_string]. rewrite T. cbn [tid_eqb]. unfold elem0.
  assert (D : is_data (dt_id d) = true) by (rewrite T; reflexivity).
  assert (N1 : 0 < dt_n d).
  { destruct Ho as [Hl _]. destruct es; [destruct Te|]. cbn [length] in Hl. lia. }
  destruct (h_data h) as [p|] eqn:P.
  - pose proof (holds_dense m p d es D Hn ltac:(left; rewrite T; exact S) Ho) as Lo. cbn [opadd option_map].
    rewrite T in Lo. change (default_bytes CHAR8_STR) with 1 in Lo. rewrite Z.mul_1_l in Lo.
    unfold load in Lo. destruct (Z.eqb_spec (dt_n d) 0) as [Z0|_]; [lia|]. destruct (padd p (eaddr d 0)) as [b o]. cbn [fst snd cstr] in *.
    destruct (nth_error m b) as [[l|]|]; try discriminate Lo. destruct (Z.leb_spec 0 o) as [O|O]; [|discriminate Lo].
    destruct (_ && _) in Lo; [|discriminate Lo].
    injection Lo as Lo. change (tid_eqb CHAR8_STR CHAR8_STR) with true. cbv iota. destruct (Z.ltb_spec o 0); [lia|]. unfold sub_range in Lo.
    rewrite <- (firstn_skipn (Z.to_nat (dt_n d)) (skipn (Z.to_nat o) l)), Lo.
    rewrite until_app by exact Te. reflexivity.
  - destruct Ho as [_ Ho]. destruct (Ho 0 ltac:(lia)) as (bs & _ & X). unfold leaf_elem in X. rewrite T in X. discriminate X.
Qed.
Lemma text_not_nul c : text_char c -> c <> zero_byte.
Proof. intros [_ H] ->. destruct H as [H|H]; [cbn in H; intuition discriminate|cbn in H; lia]. Qed.
Lemma up_to_nul_text s r : Forall text_char s -> up_to_nul (s ++ zero_byte :: r) = s.
Proof.
  induction 1 as [|c s C _ IH]; [reflexivity|]. cbn [app up_to_nul].
  destruct (Ascii.eqb_spec c "000") as [E|_]; [exfalso; apply (text_not_nul c C E)|]. rewrite IH. reflexivity.
Qed.
Lemma up_to_nul_plain s : Forall text_char s -> up_to_nul s = s.
Proof.
  induction 1 as [|c s C _ IH]; [reflexivity|]. cbn [up_to_nul].
  destruct (Ascii.eqb_spec c "000") as [E|_]; [exfalso; apply (text_not_nul c C E)|]. rewrite IH. reflexivity.
Qed.
(** one character, written *)
Lemma esc1_literal c r s : text_char c -> literal r s -> literal (esc1 c ++ r) (c :: s) /\ last (esc1 c) " "%char <> backslash.
Proof.
  intros [B H] Lr. unfold esc1.
  destruct (Ascii.eqb_spec c dquote) as [-> |N1]; [split; [apply lit_esc; [left; reflexivity|exact Lr]|discriminate]|].
  destruct (Ascii.eqb_spec c bslash) as [-> |N2]; [exfalso; apply B; reflexivity|]. cbn [orb].
  destruct (Ascii.eqb_spec c c_nl) as [-> |N3]; [split; [apply lit_esc; [cbn; tauto|exact Lr]|discriminate]|].
  destruct (Ascii.eqb_spec c c_tab) as [-> |N4]; [split; [apply lit_esc; [cbn; tauto|exact Lr]|discriminate]|].
  destruct (Ascii.eqb_spec c c_bs) as [-> |N5]; [split; [apply lit_esc; [cbn; tauto|exact Lr]|discriminate]|].
  destruct (Ascii.eqb_spec c c_ff) as [-> |N6]; [split; [apply lit_esc; [cbn; tauto|exact Lr]|discriminate]|].
  destruct (Ascii.eqb_spec c c_cr) as [-> |N7]; [split; [apply lit_esc; [cbn; tauto|exact Lr]|discriminate]|].
  split; [|exact B]. apply lit_chr; auto.
  destruct H as [H|H]; [|exact H]. exfalso. cbn in H.
  destruct H as [H|[H|[H|[H|[H|[]]]]]]; subst; first [apply N3; reflexivity|apply N4; reflexivity|apply N5; reflexivity|apply N6; reflexivity|apply N7; reflexivity].
Qed.
Lemma esc1_nonnil c : esc1 c <> [].
Proof. unfold esc1. repeat match goal with |- context [if ?b then _ else _] => destruct b end; discriminate. Qed.
Lemma last_app_ne {A} (a b : list A) d : b <> [] -> last (a ++ b) d = last b d.
Proof.
  intros N. induction a as [|x a IH]; [reflexivity|]. cbn [app]. rewrite <- IH.
  destruct (a ++ b) eqn:E; [destruct a; [cbn in E; congruence|discriminate]|reflexivity].
Qed.
Lemma escape_denotes s : Forall text_char s -> denotes (quoted (escape s)) s.
Proof.
  intros H. exists (escape s). split; [reflexivity|].
  assert (G : literal (escape s) s /\ (s <> [] -> last (escape s) " "%char <> backslash)).
  { induction H as [|c s C H [IH1 IH2]]; [split; [constructor|congruence]|].
    cbn [escape flat_map]. destruct (esc1_literal c (escape s) s C IH1) as [X Y].
    split; [exact X|]. intros _. destruct s as [|c' s].
    - cbn [flat_map]. rewrite app_nil_r. exact Y.
    - rewrite last_app_ne; [apply IH2; discriminate|]. cbn [flat_map].
      pose proof (esc1_nonnil c'). destruct (esc1 c'); [congruence|discriminate]. }
  destruct G as [G1 G2]. split; [exact G1|]. destruct s; [discriminate|apply G2; discriminate].
Qed.

Lemma leaf_text_ok F mach m h d lv : layout_back d -> leaf_value m (h_data h) d = Ok lv -> value_back F lv ->
  exists t, leaf_text F mach m h d = Ok t /\ value_text false (jleaf F mach lv) t t.
Proof.
  intros (J & S & R) E B.
  destruct (leaf_value_inv _ _ _ _ E) as [[T ->]|(D & Hn & es & -> & Ho)].
  - unfold leaf_text. rewrite T. eexists. split; [reflexivity|constructor].
  - destruct (tid_eq_dec (dt_id d) CHAR8_STR) as [T|T].
    + unfold leaf_text. rewrite T. cbn [value_back] in B. rewrite T in B. destruct B as (s & k & C & Tc).
      rewrite (string_read m h d es T (S T) Hn Ho). 2:{ rewrite C. apply in_or_app; right; left; reflexivity. }
      cbn [obind]. eexists. split; [reflexivity|]. cbn [jleaf]. rewrite C. cbn [repeat].
      rewrite up_to_nul_text by exact Tc. apply vt_str, nm_literal, escape_denotes, Tc.
    + destruct (array_text_ok F mach m h d es R D T E) as (t & Et & V).
      { unfold value_back in B. destruct (dt_id d); try discriminate; auto. }
      exists t. split; [|exact V]. unfold leaf_text. destruct (dt_id d); congruence || discriminate || exact Et.
Qed.
