(** Numbers held by leaf elements: what the machine reads from an element's bytes.

    The casts ( *(int32 ptr)element_ptr(i) etc.) of src/libs/conduit/conduit_data_array.cpp
    87-104 and conduit_node.cpp 14780-14900 on a two's complement machine with IEEE-754
    floats; byte order [mach] (LITTLE_E or BIG_E).  The recorded byte order of the leaf is
    not looked at by these reads.  float32/float64 values are Coq's [spec_float] (NaN
    payloads dropped). *)
From Coq Require Import ZArith Floats.SpecFloat.
From Verif Require Import Base DType Mem.
Local Open Scope Z_scope.

(** an unsigned number from bytes, least significant first *)
Fixpoint le_value (bs : list byte) : Z :=
  match bs with
  | [] => 0
  | b :: r => Z.of_N (N_of_ascii b) + 256 * le_value r
  end.
Definition uvalue (mach : endian) (bs : list byte) : Z :=
  match mach with BIG_E => le_value (rev bs) | _ => le_value bs end.
(** reinterpretation of [x] as a [w]-bit two's complement number *)
Definition wrap_s (w x : Z) : Z :=
  let y := x mod 2 ^ w in if y <? 2 ^ (w - 1) then y else y - 2 ^ w.
Definition wrap_u (w x : Z) : Z := x mod 2 ^ w.
Definition svalue (mach : endian) (bs : list byte) : Z :=
  wrap_s (8 * Z.of_nat (length bs)) (uvalue mach bs).

(** DataType::is_signed_integer, is_unsigned_integer, is_integer, is_floating_point,
    conduit_data_type.cpp 725-757 *)
Definition is_signed (t : tid) : bool := match t with INT8 | INT16 | INT32 | INT64 => true | _ => false end.
Definition is_unsigned (t : tid) : bool := match t with UINT8 | UINT16 | UINT32 | UINT64 => true | _ => false end.
Definition is_float (t : tid) : bool := match t with FLOAT32 | FLOAT64 => true | _ => false end.
Definition bits (t : tid) : Z := 8 * default_bytes t.
Definition ivalue (mach : endian) (t : tid) (bs : list byte) : Z :=
  if is_signed t then svalue mach bs else uvalue mach bs.

(** the IEEE format with [prec] bits of precision, [emax] and [w] bits *)
Definition float_of_bits (prec emax w x : Z) : spec_float :=
  let m := x mod 2 ^ (prec - 1) in
  let e := (x / 2 ^ (prec - 1)) mod 2 ^ (w - prec) in
  let s := 2 ^ (w - 1) <=? x in
  if e =? 2 ^ (w - prec) - 1 then (if m =? 0 then S754_infinity s else S754_nan)
  else if e =? 0 then
    match m with Zpos p => S754_finite s p (emin prec emax) | _ => S754_zero s end
  else
    match m + 2 ^ (prec - 1) with Zpos p => S754_finite s p (e + emin prec emax - 1) | _ => S754_nan end.
Definition prec_of (t : tid) : Z := match t with FLOAT32 => 24 | _ => 53 end.
Definition emax_of (t : tid) : Z := match t with FLOAT32 => 128 | _ => 1024 end.
Definition fvalue (mach : endian) (t : tid) (bs : list byte) : spec_float :=
  float_of_bits (prec_of t) (emax_of t) (bits t) (uvalue mach bs).
(** float to double: exact *)
Definition to_double (x : spec_float) : spec_float :=
  match x with
  | S754_finite s m e => binary_normalize 53 1024 (cond_Zopp s (Zpos m)) e s
  | _ => x
  end.
