(** Floating point numbers as text: what printf("%.15g") writes, what rapidjson and
    strtod read.  Numbers are Coq's [spec_float]: sign of NaN and NaN payloads dropped.
    Rounding is to nearest, ties to even. *)
From Coq Require Import ZArith Floats.SpecFloat.
From Verif Require Import Base DType Mem Number ArrayOps Json B64Json ValueJson.
Local Open Scope Z_scope.

(** * Numbers and their bytes *)
Definition float_bits (prec emax w : Z) (x : spec_float) : Z :=
  let sign (s : bool) := if s then 2 ^ (w - 1) else 0 in
  let top := (2 ^ (w - prec) - 1) * 2 ^ (prec - 1) in
  match x with
  | S754_zero s => sign s
  | S754_infinity s => sign s + top
  | S754_nan => top + 2 ^ (prec - 2)
  | S754_finite s m e =>
      if Zpos m <? 2 ^ (prec - 1) then sign s + Zpos m
      else sign s + (e - emin prec emax + 1) * 2 ^ (prec - 1) + (Zpos m - 2 ^ (prec - 1))
  end.
Definition float_bytes (mach : endian) (t : tid) (x : spec_float) : list byte :=
  encode mach t (float_bits (prec_of t) (emax_of t) (bits t) x).
(** conversion of a double to a type: exact or rounded *)
Definition to_float (t : tid) (x : spec_float) : spec_float :=
  match x with
  | S754_finite s m e => binary_normalize (prec_of t) (emax_of t) (cond_Zopp s (Zpos m)) e s
  | _ => x
  end.
(** the number nearest to n/d, n, d > 0, with sign [s] *)
Definition nearest (prec emax : Z) (s : bool) (n d : Z) : spec_float :=
  let k := Z.max 0 (prec + 3 + Z.log2 d - Z.log2 n) in
  let q := n * 2 ^ k / d in
  let r := n * 2 ^ k mod d in
  binary_normalize prec emax (cond_Zopp s (2 * q + (if r =? 0 then 0 else 1))) (- k - 1) s.
Definition dbl_of_Z (z : Z) : spec_float := binary_normalize 53 1024 z 0 false.
Definition dmul := SFmul 53 1024.
Definition ddiv := SFdiv 53 1024.
Definition dadd := SFadd 53 1024.

(** * printf("%.<p>g") *)
(** n/d rounded to an integer, ties to even *)
Definition round_even (n d : Z) : Z :=
  let q := n / d in
  let r := n mod d in
  if (2 * r <? d) || ((2 * r =? d) && Z.even q) then q else q + 1.
(** the k with 10^k <= n/d < 10^(k+1) *)
Definition dec_exp (n d : Z) : Z :=
  if d <=? n then Z.of_nat (length (show_Z (n / d))) - 1
  else let j := Z.of_nat (length (show_Z (d / n))) in
       if n * 10 ^ (j - 1) =? d then 1 - j else - j.
(** n/d with [p] significant digits: their value and the exponent of the first *)
Definition digits_g (p n d : Z) : Z * Z :=
  let x := dec_exp n d in
  let k := p - 1 - x in
  let r := if 0 <=? k then round_even (n * 10 ^ k) d else round_even n (d * 10 ^ (- k)) in
  if r =? 10 ^ p then (10 ^ (p - 1), x + 1) else (r, x).
(** trailing zeros removed *)
Fixpoint strip_zeros (t : str) : str :=
  match t with
  | [] => []
  | c :: r => match strip_zeros r with
              | [] => if Ascii.eqb c "0" then [] else [c]
              | r' => c :: r'
              end
  end.
Definition with_frac (a f : str) : str := match strip_zeros f with [] => a | f' => a ++ "."%char :: f' end.
Definition two_digits (z : Z) : str := if z <? 10 then "0"%char :: show_Z z else show_Z z.
Definition show_g (p r x : Z) : str :=
  let ds := show_Z r in
  if (x <? -4) || (p <=? x) then
    with_frac (firstn 1 ds) (skipn 1 ds) ++
    "e"%char :: (if x <? 0 then "-"%char :: two_digits (- x) else "+"%char :: two_digits x)
  else if 0 <=? x then with_frac (firstn (Z.to_nat (x + 1)) ds) (skipn (Z.to_nat (x + 1)) ds)
  else with_frac (L "0") (repeat "0"%char (Z.to_nat (- x - 1)) ++ ds).
Definition gfmt (p : Z) (x : spec_float) : str :=
  let sign (s : bool) (t : str) := if s then "-"%char :: t else t in
  match x with
  | S754_zero s => sign s (L "0")
  | S754_infinity s => sign s (L "inf")
  | S754_nan => L "nan"
  | S754_finite s m e =>
      let '(r, k) := if 0 <=? e then digits_g p (Zpos m * 2 ^ e) 1 else digits_g p (Zpos m) (2 ^ (- e)) in
      sign s (show_g p r k)
  end.
Definition g15 : spec_float -> str := gfmt 15.
(** utils::float64_to_string, conduit_utils.cpp 1335-1355 *)
Definition float64_to_string (x : spec_float) : str :=
  let t := g15 x in
  if existsb (fun c => existsb (Ascii.eqb c) (L "n.e")) t then t else t ++ L ".0".

(** * rapidjson: GenericReader::ParseNumber, reader.h 829-1040, for a number that becomes a
      double, and internal/strtod.h 27-46, internal/pow10.h *)
Definition digit_val (c : ascii) : Z := Z.of_N (N_of_ascii c) - 48.
(** lines 841-906: the integer part, as i64 unless it exceeds [lim]; returns the number of
    significant digits counted and the digits left *)
Fixpoint int_digits (lim : Z) (i : Z) (sd : Z) (t : str) : Z * Z * str :=
  match t with
  | c :: r =>
      if num_char c && (i * 10 + digit_val c <=? lim) then int_digits lim (i * 10 + digit_val c) (sd + 1) r
      else (i, sd, t)
  | [] => (i, sd, [])
  end.
(** lines 909-915 *)
Definition too_big_next : spec_float := nearest 53 1024 false (17976931348623157 * 10 ^ 291) 1.
Fixpoint big_digits (d : spec_float) (t : str) : outcome (spec_float * str) :=
  match t with
  | c :: r =>
      if num_char c then
        if SFleb too_big_next d then Err
        else big_digits (dadd (dmul d (dbl_of_Z 10)) (dbl_of_Z (digit_val c))) r
      else Ok (d, t)
  | [] => Ok (d, [])
  end.
(** lines 933-942 *)
Fixpoint frac_digits (i sd ef : Z) (t : str) : Z * Z * Z * str :=
  match t with
  | c :: r =>
      if num_char c && (i <=? 2 ^ 53 - 1) then
        let i' := i * 10 + digit_val c in
        frac_digits i' (if i' =? 0 then sd else sd + 1) (ef - 1) r
      else (i, sd, ef, t)
  | [] => (i, sd, ef, [])
  end.
(** lines 952-961 *)
Fixpoint more_digits (d : spec_float) (sd ef : Z) (t : str) : spec_float * Z * str :=
  match t with
  | c :: r =>
      if num_char c then
        if sd <? 17 then
          let d' := dadd (dmul d (dbl_of_Z 10)) (dbl_of_Z (digit_val c)) in
          more_digits d' (if SFltb (S754_zero false) d' then sd + 1 else sd) (ef - 1) r
        else more_digits d sd ef r
      else (d, ef, t)
  | [] => (d, ef, [])
  end.
(** lines 983-1001; a negative exponent stops growing at 214748364 *)
Fixpoint exp_digits (cap : option Z) (e : Z) (t : str) : outcome Z :=
  match t with
  | c :: r =>
      let e' := e * 10 + digit_val c in
      match cap with
      | Some m => if m <? e' then Err else exp_digits cap e' r
      | None => if 214748364 <=? e' then Ok e' else exp_digits cap e' r
      end
  | [] => Ok e
  end.
Definition pow10 (n : Z) : spec_float := nearest 53 1024 false (10 ^ n) 1.
Definition fast_path (d : spec_float) (p : Z) : spec_float :=
  if p <? -308 then S754_zero false
  else if 0 <=? p then dmul d (pow10 p)
  else ddiv d (pow10 (- p)).
Definition strtod_normal (d : spec_float) (p : Z) : spec_float :=
  if p <? -308 then fast_path (fast_path d (-308)) (p + 308) else fast_path d p.
Definition rj_double (t : str) : outcome spec_float :=
  let '(neg, t) := match t with c :: r => if Ascii.eqb c "-" then (true, r) else (false, t) | [] => (false, []) end in
  match t with
  | [] => Err
  | c :: r =>
      let lim := if neg then 2 ^ 63 else 2 ^ 64 - 1 in
      let '(i, sd, t1) := if Ascii.eqb c "0" then (0, 0, r) else int_digits lim (digit_val c) 0 r in
      let big := match t1 with c1 :: _ => num_char c1 | [] => false end in
      do (d1, t2) <- (if big then big_digits (dbl_of_Z i) t1 else Ok (dbl_of_Z i, t1));
      let '(d2, ef, t3) :=
        match t2 with
        | c2 :: r2 =>
            if Ascii.eqb c2 "." then
              if big then more_digits d1 sd 0 r2
              else let '(i', sd', ef', r') := frac_digits i sd 0 r2 in more_digits (dbl_of_Z i') sd' ef' r'
            else (d1, 0, t2)
        | [] => (d1, 0, [])
        end in
      do p <- (match t3 with
               | c3 :: r3 =>
                   let '(neg3, r4) := match r3 with
                                      | c4 :: r4 => if Ascii.eqb c4 "+" then (false, r4)
                                                    else if Ascii.eqb c4 "-" then (true, r4) else (false, r3)
                                      | [] => (false, [])
                                      end in
                   do x <- exp_digits (if neg3 then None else Some (308 - ef)) 0 r4;
                   Ok (if neg3 then ef - x else ef + x)
               | [] => Ok ef
               end);
      let d := strtod_normal d2 p in
      Ok (if neg then SFopp d else d)
  end.

(** * strtod and strtof in the "C" locale: correctly rounded *)
Fixpoint take_while (f : ascii -> bool) (t : str) : str * str :=
  match t with
  | c :: r => if f c then let '(a, b) := take_while f r in (c :: a, b) else ([], t)
  | [] => ([], [])
  end.
Definition take_digits : str -> str * str := take_while num_char.
Definition dec_of (t : str) : Z := fold_left (fun a c => 10 * a + digit_val c) t 0.
(** isspace *)
Definition c_space (c : ascii) : bool :=
  let n := N_of_ascii c in N.eqb n 32 || (N.leb 9 n && N.leb n 13).
Definition lower (c : ascii) : ascii :=
  if between "A" "Z" c then ascii_of_N (N_of_ascii c + 32) else c.
(** [w], in lower case, begins [t] in any case *)
Definition begins (w t : str) : bool := str_eqb (map lower (firstn (length w) t)) w.
Definition hex_char (c : ascii) : bool := num_char c || between "a" "f" (lower c).
Definition hex_val (c : ascii) : Z := if num_char c then digit_val c else Z.of_N (N_of_ascii (lower c)) - 87.
Definition hex_of (t : str) : Z := fold_left (fun a c => 16 * a + hex_val c) t 0.
(** digits, and digits after a point *)
Definition take_number (f : ascii -> bool) (t : str) : str * str * str :=
  let '(a, u) := take_while f t in
  match u with
  | c :: r => if Ascii.eqb c "." then let '(b, v) := take_while f r in
                                      match a ++ b with [] => ([], [], t) | _ => (a, b, v) end
              else (a, [], u)
  | [] => (a, [], u)
  end.
(** an exponent after the letter [l]: 0 if there is none *)
Definition take_exp (l : ascii) (t : str) : Z * str :=
  match t with
  | c :: r =>
      if Ascii.eqb (lower c) l then
        let '(ne, r') := match r with
                         | c' :: r' => if Ascii.eqb c' "-" then (true, r')
                                       else if Ascii.eqb c' "+" then (false, r') else (false, r)
                         | [] => (false, [])
                         end in
        match take_digits r' with
        | ([], _) => (0, t)
        | (x, r2) => ((if ne then - dec_of x else dec_of x), r2)
        end
      else (0, t)
  | [] => (0, t)
  end.
(** the letters after nan: an optional (n-char-sequence) *)
Definition after_nan (t : str) : str :=
  match t with
  | c :: r => if Ascii.eqb c "(" then
                match snd (take_while (fun c => hex_char c || between "a" "z" (lower c) || Ascii.eqb c "_") r) with
                | c' :: r' => if Ascii.eqb c' ")" then r' else t
                | [] => t
                end
              else t
  | [] => t
  end.
(** errno = ERANGE: n/d > 0 became [v], which is infinite, zero, or subnormal and inexact *)
Definition range_error (prec : Z) (v : spec_float) (n d : Z) : bool :=
  match v with
  | S754_infinity _ | S754_zero _ => true
  | S754_finite _ m e => (Zpos m <? 2 ^ (prec - 1)) && negb (Zpos m * d =? n * 2 ^ (- e))
  | S754_nan => false
  end.
(** n * b^e, rounded, and whether that is out of range *)
Definition scaled (prec emax : Z) (neg : bool) (b n e : Z) : spec_float * bool :=
  if n =? 0 then (S754_zero neg, false)
  else let '(n, d) := if 0 <=? e then (n * b ^ e, 1) else (n, b ^ (- e)) in
       let v := nearest prec emax neg n d in (v, range_error prec v n d).
(** the value, whether errno is ERANGE, and the rest of the text: none if no number was found *)
Definition c_strto (prec emax : Z) (t : str) : spec_float * bool * option str :=
  let t1 := snd (take_while c_space t) in
  let '(neg, u) := match t1 with
                   | c :: r => if Ascii.eqb c "-" then (true, r) else if Ascii.eqb c "+" then (false, r) else (false, t1)
                   | [] => (false, [])
                   end in
  if begins (L "inf") u then
    (S754_infinity neg, false, Some (if begins (L "infinity") u then skipn 8 u else skipn 3 u))
  else if begins (L "nan") u then (S754_nan, false, Some (after_nan (skipn 3 u)))
  else
    let '(ha, hb, hu) := if begins (L "0x") u then take_number hex_char (skipn 2 u) else ([], [], []) in
    match ha ++ hb with
    | _ :: _ =>
        let '(e, u3) := take_exp "p" hu in
        let '(v, err) := scaled prec emax neg 2 (hex_of (ha ++ hb)) (e - 4 * Z.of_nat (length hb)) in
        (v, err, Some u3)
    | [] =>
        let '(a, b, u2) := take_number num_char u in
        match a ++ b with
        | [] => (S754_zero false, false, None)
        | _ =>
            let '(e, u3) := take_exp "e" u2 in
            let '(v, err) := scaled prec emax neg 10 (dec_of (a ++ b)) (e - Z.of_nat (length b)) in
            (v, err, Some u3)
        end
    end.
Definition c_strtod (t : str) : spec_float * str := let '(v, _, r) := c_strto 53 1024 t in (v, match r with Some u => u | None => t end).
(** string_is_empty, string_is_double, conduit_generator.cpp 380-417: [val_end] at the end *)
Definition string_is_double (t : str) : bool :=
  match t with [] => false | _ => match c_strtod t with (_, []) => true | _ => false end end.
(** (T)x truncates towards zero; a value outside the type is UB *)
Definition trunc_to (t : tid) (x : spec_float) : outcome Z :=
  match x with
  | S754_zero _ => Ok 0
  | S754_finite s m e =>
      let a := if 0 <=? e then Zpos m * 2 ^ e else Zpos m / 2 ^ (- e) in
      let z := if s then - a else a in
      if (int_min t <=? z) && (z <=? int_max t) then Ok z else UB
  | _ => UB
  end.

(** The C library and rapidjson on a machine with byte order [mach].  A number that
    rapidjson refuses as too big is not given to [f_read]. *)
Definition libc (mach : endian) : floats := {|
  f_text t x := float64_to_string (to_double (fvalue mach t x));
  f_read t s := float_bytes mach t (to_float t (match rj_double s with Ok d => d | _ => S754_nan end));
  f_strtod t s := float_bytes mach t (to_float t (fst (c_strtod s)));
  f_is_double := string_is_double;
  f_of_int t z := float_bytes mach t (binary_normalize (prec_of t) (emax_of t) z 0 false);
  f_trunc t x := trunc_to t (fvalue mach FLOAT64 x)
|}.
