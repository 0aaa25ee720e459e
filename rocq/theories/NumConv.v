(** Conversions between the numeric types.

    Node::to_int8 ... to_double (src/libs/conduit/conduit_node.cpp 8847-9790), to_int8_array
    ... to_double_array (9801-11505), to_data_type (11512-11580), and DataAccessor<T>
    (conduit_data_accessor.cpp 172-205 element, 209-275 set, 277-380 fill).  T is one of the
    ten fixed size types; int, long, double ... are names of these.  Byte order of the
    machine [mach]; NaN payloads and signs are dropped. *)
From Coq Require Import ZArith Floats.SpecFloat.
From Verif Require Import Base DType SpecTree Mem Node Number NodeDiff ArrayOps Json B64Json ValueJson FloatText.
Local Open Scope Z_scope.

Inductive number := NI (z : Z) | NF (x : spec_float).
(** DataType::is_number, conduit_data_type.cpp 717-722 *)
Definition numeric (t : tid) : bool := is_int t || is_float t.
Definition zero_of (t : tid) : number := if is_float t then NF (S754_zero false) else NI 0.
(** the C++ conversion (T)x: integers modulo 2^bits, rounding to nearest even, truncation;
    a float outside the integer type is UB; a float64 too large for float32 becomes
    infinite, as IEEE-754 has it *)
Definition cast (t : tid) (v : number) : outcome number :=
  match v with
  | NI z => Ok (if is_float t then NF (binary_normalize (prec_of t) (emax_of t) z 0 false) else NI (conv t z))
  | NF x => if is_float t then Ok (NF (to_float t x)) else do z <- trunc_to t x; Ok (NI z)
  end.

(** * Text: std::stringstream >> T, libstdc++ num_get in the "C" locale, decimal *)
Definition take_sign (s : str) : str * str :=
  match s with
  | c :: r => if Ascii.eqb c "-" || Ascii.eqb c "+" then ([c], r) else ([], s)
  | [] => ([], [])
  end.
Definition minus (s : str) : bool := str_eqb s (L "-").
(** _M_extract_int: none is failbit *)
Definition int_text (t : tid) (s : str) : option Z :=
  let '(sg, u) := take_sign (snd (take_while c_space s)) in
  match take_digits u with
  | ([], _) => None
  | (ds, _) =>
      let z := if minus sg then - dec_of ds else dec_of ds in
      if is_signed t then if (int_min t <=? z) && (z <=? int_max t) then Some z else None
      else if dec_of ds <=? int_max t then Some (conv t z) else None
  end.
(** _M_extract_float: the characters collected; inf, nan and hexadecimal are not read *)
Definition collect_float (s : str) : str :=
  let '(sg, u) := take_sign (snd (take_while c_space s)) in
  let '(a, u1) := take_digits u in
  let '(b, u2) := match u1 with
                  | c :: r => if Ascii.eqb c "." then let '(f, v) := take_digits r in (c :: f, v) else ([], u1)
                  | [] => ([], [])
                  end in
  let mantissa := existsb num_char (a ++ b) in
  let x := match u2 with
           | c :: r => if (Ascii.eqb c "e" || Ascii.eqb c "E") && mantissa then
                         let '(sx, r1) := take_sign r in c :: sx ++ fst (take_digits r1)
                       else []
           | [] => []
           end in
  sg ++ a ++ b ++ x.
(** __convert_to_v: strtof or strtod must read all of it and not overflow *)
Definition float_text (t : tid) (s : str) : option spec_float :=
  match c_strto (prec_of t) (emax_of t) (collect_float s) with
  | (S754_infinity _, _, _) => None
  | (v, _, Some []) => Some v
  | _ => None
  end.
(** the string case of to_T(): int8 and uint8 read an int16 or uint16; 0 if that fails *)
Definition string_number (t : tid) (s : str) : number :=
  if is_float t then match float_text t s with Some x => NF x | None => zero_of t end
  else
    let r := match t with
             | INT8 => int_text INT16 s
             | UINT8 => int_text UINT16 s
             | _ => int_text t s
             end in
    match r with Some z => NI (conv t z) | None => zero_of t end.

Section Conv.
Variable mach : endian.

(** *(U ptr)element_ptr and *(T ptr)element_ptr = v *)
Definition read_number (t : tid) (bs : list byte) : number :=
  if is_float t then NF (fvalue mach t bs) else NI (ivalue mach t bs).
Definition number_bytes (t : tid) (v : number) : list byte :=
  match v with NI z => encode mach t z | NF x => float_bytes mach t x end.
Definition get_number (m : mem) (h : hdr) (d : dtype) (i : Z) : outcome number :=
  do b <- elem_read m h d i; Ok (read_number (dt_id d) b).
Definition put_number (m : mem) (h : hdr) (d : dtype) (i : Z) (v : number) : outcome mem :=
  do a <- element_index d i; ostore m (opadd (h_data h) a) (number_bytes (dt_id d) v).

(** DataAccessor<T>::element(idx); no check of the index *)
Definition acc_element (m : mem) (t : tid) (h : hdr) (d : dtype) (i : Z) : outcome number :=
  if numeric (dt_id d) then do v <- get_number m h d i; cast t v else Err.
(** DataAccessor<T>::set(idx, value); [v] is a T *)
Definition acc_set (m : mem) (h : hdr) (d : dtype) (i : Z) (v : number) : outcome mem :=
  if numeric (dt_id d) then do w <- cast (dt_id d) v; put_number m h d i w else Err.
(** DataAccessor<T>::fill(value): converted once *)
Fixpoint put_all (m : mem) (h : hdr) (d : dtype) (v : number) (is : list Z) : outcome mem :=
  match is with
  | [] => Ok m
  | i :: r => do m' <- put_number m h d i v; put_all m' h d v r
  end.
Definition acc_fill (m : mem) (h : hdr) (d : dtype) (v : number) : outcome mem :=
  if numeric (dt_id d) then do w <- cast (dt_id d) v; put_all m h d w (zseq (dt_n d)) else Err.

(** DataArray<T>::set(const DataArray<V>&), conduit_data_array.cpp 1764-1890:
    element(i) = (T)values[i] over the elements of the destination *)
Fixpoint conv_elems (m : mem) (h : hdr) (d : dtype) (h' : hdr) (d' : dtype) (is : list Z) : outcome mem :=
  match is with
  | [] => Ok m
  | i :: r => do v <- get_number m h' d' i; do w <- cast (dt_id d) v;
              do m' <- put_number m h d i w; conv_elems m' h d h' d' r
  end.
(** res.set(DataType::T(number_of_elements)), then the array set; an error for a source
    that is not numeric.  The source's element count is that of its dtype. *)
Definition to_array (m : mem) (t : tid) (src dest : node) : outcome (mem * node) :=
  do (m1, dest') <- ninit m dest (dt_simple t (dt_n (n_dtype src)));
  match src, dest' with
  | NLeaf h' d', NLeaf h d =>
      if numeric (dt_id d') then do m2 <- conv_elems m1 h d h' d' (zseq (dt_n d)); Ok (m2, dest') else Err
  | _, _ => Err
  end.
(** n.to_T_array(n): the source is the node set has changed *)
Definition to_array_self (m : mem) (t : tid) (n : node) : outcome (mem * node) :=
  do (m1, n') <- ninit m n (dt_simple t (dt_n (n_dtype n)));
  match n' with
  | NLeaf h d => do m2 <- conv_elems m1 h d h d (zseq (dt_n d)); Ok (m2, n')
  | _ => Err
  end.
(** to_data_type(id, res) *)
Definition to_data_type (m : mem) (t : tid) (src dest : node) : outcome (mem * node) :=
  if numeric t then to_array m t src dest else Err.

(** to_T(): element 0 of a numeric leaf, the text of a string, else 0 *)
Definition to_scalar (m : mem) (t : tid) (n : node) : outcome number :=
  match n with
  | NLeaf h d =>
      if numeric (dt_id d) then do v <- get_number m h d 0; cast t v
      else if tid_eqb (dt_id d) CHAR8_STR then do s <- nas_string m n; Ok (string_number t s)
      else Ok (zero_of t)
  | _ => Ok (zero_of t)
  end.
End Conv.
