(** Property theorems C25 (escaping) and C26 (base64). *)
From Verif Require Import Base Codec CodecFacts.
Local Open Scope N_scope.

(** * C25 *)
Theorem C25_unescape_escape : forall s, unescape (escape s) = s.
Proof. exact unescape_escape. Qed.
Print Assumptions C25_unescape_escape.
(** The escaped text is a JSON string body meaning the original string, when every
    character is at least a space or one of the five handled control characters. *)
Theorem C25_escape_is_json : forall s,
  Forall (fun c => 32 <= N_of_ascii c \/ In c [c_nl; c_tab; c_bs; c_ff; c_cr]) s -> json_body (escape s) s.
Proof. exact escape_json. Qed.
Print Assumptions C25_escape_is_json.
(** Every JSON string body without \u is read back as what it means. *)
Theorem C25_unescape_reads_json : forall t s, json_body t s -> unescape t = s.
Proof. exact json_unescape. Qed.
Print Assumptions C25_unescape_reads_json.
(** No escaped text is the escaped text of two strings. *)
Theorem C25_escape_injective : forall s t, escape s = escape t -> s = t.
Proof. intros s t H. rewrite <- (unescape_escape s), <- (unescape_escape t), H. reflexivity. Qed.
Print Assumptions C25_escape_injective.
Example C25_instance : escape (L "a""b\" ++ [c_nl]) = L "a\""b\\\n" /\ unescape (L "a\""b\\\n\/") = L "a""b\" ++ [c_nl] ++ L "/".
Proof. split; vm_compute; reflexivity. Qed.
(** Other control characters are emitted raw, which JSON forbids. *)
Theorem C25_control_character_raw_refuted : exists s, forall m, ~ json_body (escape s) m.
Proof.
  exists ["001"%char]. intros m H. inversion H as [|c t s P B|]; subst. destruct P as (_ & _ & P). vm_compute in P. apply P. reflexivity.
Qed.
Print Assumptions C25_control_character_raw_refuted.
(** An unknown escape such as \u or \q loses the backslash and doubles the character. *)
Theorem C25_unknown_escape_doubled_refuted : exists s, unescape s = L "qq1" /\ s = L "\q1".
Proof. exists (L "\q1"). split; vm_compute; reflexivity. Qed.
Print Assumptions C25_unknown_escape_doubled_refuted.

(** * C26 *)
(** For fewer than 2^31 bytes and a destination of at least the advertised size the
    encoder writes the RFC 4648 text, NULs up to the advertised size, and nothing
    beyond it. *)
Theorem C26_encode : forall src dst,
  (Z.of_nat (length src) < 2147483648)%Z -> (b64_enc_size (Z.of_nat (length src)) <= Z.of_nat (length dst))%Z ->
  let sz := Z.to_nat (b64_enc_size (Z.of_nat (length src))) in
  (length (b64_text src) < sz)%nat /\
  b64_encode src dst = Ok (b64_text src ++ repeat "000"%char (sz - length (b64_text src)) ++ skipn sz dst).
Proof. exact encode_law. Qed.
Print Assumptions C26_encode.
(** The C string in the destination is exactly the text. *)
Theorem C26_text : forall src, ~ In "000"%char (b64_text src) /\
  Z.of_nat (length (b64_text src)) = (4 * ((Z.of_nat (length src) + 2) / 3))%Z.
Proof. intros src. split; [apply text_no_nul|apply text_length]. Qed.
Print Assumptions C26_text.
(** Decoding the text into a destination of at least the advertised size gives the
    bytes back and leaves everything beyond that size alone. *)
Theorem C26_round_trip : forall src dst,
  (Z.of_nat (length (b64_text src)) < 2147483648)%Z ->
  (b64_dec_size (Z.of_nat (length (b64_text src))) <= Z.of_nat (length dst))%Z ->
  exists tail, b64_decode (b64_text src) dst = Ok (src ++ tail) /\ length (src ++ tail) = length dst /\
    let sz := Z.to_nat (b64_dec_size (Z.of_nat (length (b64_text src)))) in skipn sz (src ++ tail) = skipn sz dst.
Proof. exact decode_law. Qed.
Print Assumptions C26_round_trip.
Example C26_instance :
  b64_encode (L "Man!?") (repeat "x"%char 14) = Ok (L "TWFuIT8=" ++ repeat "000"%char 3 ++ L "xxx") /\
  b64_enc_size 5 = 11%Z /\ b64_dec_size 8 = 7%Z /\
  b64_decode (L "TWFuIT8=") (L "1234567890") = Ok (L "Man!?" ++ "000"%char :: L "7890").
Proof. repeat split; vm_compute; reflexivity. Qed.
(** Text without padding (which the decoder accepts) overruns the advertised size. *)
Theorem C26_decode_overrun_refuted : exists src dst,
  Z.of_nat (length dst) = b64_dec_size (Z.of_nat (length src)) /\ b64_decode src dst = UB /\
  exists dst', length dst' = S (length dst) /\ b64_decode src dst' = Ok ["M"%char; "000"%char].
Proof.
  exists (L "TQ"), ["0"%char]. split; [reflexivity|]. split; [vm_compute; reflexivity|].
  exists ["0"%char; "0"%char]. split; vm_compute; reflexivity.
Qed.
Print Assumptions C26_decode_overrun_refuted.
(** From 2^31 bytes on the length is truncated to int: negative lengths are
    undefined, and at 2^32 nothing is encoded. *)
Theorem C26_length_truncated_refuted : to_int 2147483648 = (-2147483648)%Z /\ to_int 4294967296 = 0%Z /\
  forall src dst, Z.of_nat (length src) = 2147483648%Z -> b64_encode src dst = UB.
Proof.
  split; [reflexivity|]. split; [reflexivity|]. intros src dst H. unfold b64_encode. rewrite H.
  destruct (_ <? _)%Z; reflexivity.
Qed.
Print Assumptions C26_length_truncated_refuted.
