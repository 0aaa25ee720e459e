(** Text codecs: escape/unescape (src/libs/conduit/conduit_utils.cpp) and base64
    (the same file and src/thirdparty_builtin/libb64-1.2.1). *)
From Verif Require Import Base.
Local Open Scope N_scope.

Definition bslash : ascii := "\"%char.
Definition dquote : ascii := """"%char.
Definition c_nl : ascii := "010"%char.
Definition c_tab : ascii := "009"%char.
Definition c_bs : ascii := "008"%char.
Definition c_ff : ascii := "012"%char.
Definition c_cr : ascii := "013"%char.

(** escape_special_chars, conduit_utils.cpp 1119-1176 *)
Definition esc1 (c : ascii) : str :=
  if Ascii.eqb c dquote || Ascii.eqb c bslash then [bslash; c]
  else if Ascii.eqb c c_nl then [bslash; "n"%char]
  else if Ascii.eqb c c_tab then [bslash; "t"%char]
  else if Ascii.eqb c c_bs then [bslash; "b"%char]
  else if Ascii.eqb c c_ff then [bslash; "f"%char]
  else if Ascii.eqb c c_cr then [bslash; "r"%char]
  else [c].
Definition escape (s : str) : str := flat_map esc1 s.

(** unescape_special_chars, conduit_utils.cpp 1180-1261.  [None]: the escape is
    not known; the character after the backslash is emitted and NOT skipped. *)
Definition unesc1 (c : ascii) : option ascii :=
  if Ascii.eqb c dquote || Ascii.eqb c bslash || Ascii.eqb c "/" then Some c
  else if Ascii.eqb c "n" then Some c_nl
  else if Ascii.eqb c "t" then Some c_tab
  else if Ascii.eqb c "b" then Some c_bs
  else if Ascii.eqb c "f" then Some c_ff
  else if Ascii.eqb c "r" then Some c_cr
  else None.
Fixpoint unescape (s : str) : str :=
  match s with
  | [] => []
  | x :: r =>
      match r with
      | [] => [x]
      | c :: r' =>
          if Ascii.eqb x bslash then
            match unesc1 c with
            | Some y => y :: unescape r'
            | None => c :: unescape r
            end
          else x :: unescape r
      end
  end.

(** ---- base64 ---- *)
(** A destination buffer and a write position; writing outside is UB. *)
Definition wbuf := (list ascii * nat)%type.
Definition wput (w : wbuf) (c : ascii) : outcome wbuf :=
  if (snd w <? length (fst w))%nat then Ok (set_nth (fst w) (snd w) c, S (snd w)) else UB.
(** *plainchar = v without moving; *plainchar |= v *)
Definition wset (w : wbuf) (c : ascii) : outcome wbuf :=
  if (snd w <? length (fst w))%nat then Ok (set_nth (fst w) (snd w) c, snd w) else UB.
Definition wor_next (w : wbuf) (v : N) : outcome wbuf :=
  do c <- deref (nth_error (fst w) (snd w));
  wput w (ascii_of_N (N.lor (N_of_ascii c) v)).

Definition b64_alphabet : str := L "ABCDEFGHIJKLMNOPQRSTUVWXYZabcdefghijklmnopqrstuvwxyz0123456789+/".
(** base64_encode_value, cencode.cpp 19-24; the argument is always 0..63 there *)
Definition enc_value (v : N) : ascii := if 63 <? v then "="%char else nth (N.to_nat v) b64_alphabet "="%char.
Inductive estep := StepA | StepB | StepC.
(** base64_encode_block, cencode.cpp 26-86, from step A; [fragment] is a char,
    promoted to int and masked, so the unsigned byte value gives the same result. *)
Fixpoint enc_block (st : estep) (res : N) (l : str) (w : wbuf) : outcome (estep * N * wbuf) :=
  match l with
  | [] => Ok (st, res, w)
  | c :: r =>
      let fragment := N_of_ascii c in
      match st with
      | StepA =>
          do w1 <- wput w (enc_value (N.shiftr (N.land fragment 252) 2));
          enc_block StepB (N.shiftl (N.land fragment 3) 4) r w1
      | StepB =>
          do w1 <- wput w (enc_value (N.lor res (N.shiftr (N.land fragment 240) 4)));
          enc_block StepC (N.shiftl (N.land fragment 15) 2) r w1
      | StepC =>
          do w1 <- wput w (enc_value (N.lor res (N.shiftr (N.land fragment 192) 6)));
          do w2 <- wput w1 (enc_value (N.land fragment 63));
          enc_block StepA (N.land fragment 63) r w2
      end
  end.
(** base64_encode_blockend, cencode.cpp 88-108 *)
Definition enc_blockend (st : estep) (res : N) (w : wbuf) : outcome wbuf :=
  do w1 <- match st with
           | StepB => do a <- wput w (enc_value res); do b <- wput a "="%char; wput b "="%char
           | StepC => do a <- wput w (enc_value res); wput a "="%char
           | StepA => Ok w
           end;
  wput w1 "010"%char.
(** conduit_utils.cpp 1291-1303.  Integer division of non-negative numbers. *)
Definition b64_enc_size (n : Z) : Z := (4 * n / 3 + 4 + 1)%Z.
Definition b64_dec_size (n : Z) : Z := (n / 4 * 3 + 1)%Z.
(** (int) of an index_t, two's complement *)
Definition to_int (n : Z) : Z := ((n + 2147483648) mod 4294967296 - 2147483648)%Z.
(** base64_encode, conduit_utils.cpp 1265-1287; [dst] is the whole destination
    allocation.  With a negative int length plaintextend lies before the start
    and the loop runs away: UB. *)
Definition b64_encode (src dst : str) : outcome str :=
  let n := Z.of_nat (length src) in
  let nbytes := to_int n in
  let sz := b64_enc_size n in
  if (Z.of_nat (length dst) <? sz)%Z then UB
  else if (nbytes <? 0)%Z then UB
  else
    let dst0 := repeat "000"%char (Z.to_nat sz) ++ skipn (Z.to_nat sz) dst in
    do (st, res, w) <- enc_block StepA 0 (firstn (Z.to_nat nbytes) src) (dst0, O);
    do w2 <- enc_blockend st res w;
    Ok (set_nth (fst w2) (pred (snd w2)) "000"%char).

(** base64_decode_value, cdecode.cpp 21-28.  The subtraction of 43 wraps in a
    signed char; every byte outside the table gives -1. *)
Definition dec_table : list Z :=
  [62;-1;-1;-1;63;52;53;54;55;56;57;58;59;60;61;-1;-1;-1;-2;-1;-1;-1;0;1;2;3;4;5;6;7;8;9;10;11;12;13;14;15;16;17;18;19;20;21;22;23;24;25;-1;-1;-1;-1;-1;-1;26;27;28;29;30;31;32;33;34;35;36;37;38;39;40;41;42;43;44;45;46;47;48;49;50;51]%Z.
Definition schar (z : Z) : Z := ((z + 128) mod 256 - 128)%Z.
Definition dec_value (c : ascii) : Z :=
  let v := schar (schar (Z.of_N (N_of_ascii c)) - 43) in
  if (v <? 0)%Z || (Z.of_nat (length dec_table) <=? v)%Z then (-1)%Z else nth (Z.to_nat v) dec_table (-1)%Z.
Inductive dstep := Da | Db | Dc | Dd.
(** base64_decode_block, cdecode.cpp 36-105, one iteration per input character;
    the inner do-while loops skip characters with a negative value. *)
Fixpoint dec_block (st : dstep) (l : str) (w : wbuf) : outcome wbuf :=
  match l with
  | [] => Ok w
  | c :: r =>
      let v := dec_value c in
      if (v <? 0)%Z then dec_block st r w
      else
        let f := Z.to_N v in
        match st with
        | Da => do w1 <- wset w (ascii_of_N (N.shiftl (N.land f 63) 2)); dec_block Db r w1
        | Db => do w1 <- wor_next w (N.shiftr (N.land f 48) 4);
                do w2 <- wset w1 (ascii_of_N (N.shiftl (N.land f 15) 4)); dec_block Dc r w2
        | Dc => do w1 <- wor_next w (N.shiftr (N.land f 60) 2);
                do w2 <- wset w1 (ascii_of_N (N.shiftl (N.land f 3) 6)); dec_block Dd r w2
        | Dd => do w1 <- wor_next w (N.land f 63); dec_block Da r w1
        end
  end.
(** base64_decode, conduit_utils.cpp 1306-1319.  *plainchar is written once at
    the start even for empty input.  [src] is exactly src_nbytes long. *)
Definition b64_decode (src dst : str) : outcome str :=
  let len := to_int (Z.of_nat (length src)) in
  if (len <? 0)%Z then UB
  else
    do w <- wset (dst, O) "000"%char;
    do w2 <- dec_block Da (firstn (Z.to_nat len) src) w;
    Ok (fst w2).
