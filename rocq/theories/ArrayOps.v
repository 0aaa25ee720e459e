(** DataArray<T> and DataAccessor<T>: reductions and assignments.

    src/libs/conduit/conduit_data_array.cpp 449-545 (min, max, sum, count), 686-1460 (set,
    fill), 1764-2025 (set from another array or accessor) and conduit_data_accessor.cpp
    67-155, 172-205 (element), 209-275 (set), 277-380 (fill).  A view is a data pointer and
    a dtype; [t] is the type T.  For DataArray<T> T is the type of the leaf, a DataAccessor
    converts from and to the leaf's type.  Here T and the leaf are integers (conversion is
    reduction modulo 2^bits, two's complement), or both the same float type (min, max,
    count).  Not modelled: mean, sum of floats, conversions between integers and floats. *)
From Coq Require Import ZArith Floats.SpecFloat.
From Verif Require Import Base DType SpecTree Mem Node Number NodeDiff.
Local Open Scope Z_scope.

(** (T)x for an integer x *)
Definition conv (t : tid) (x : Z) : Z := if is_signed t then wrap_s (bits t) x else wrap_u (bits t) x.
(** the bytes of an integer *)
Fixpoint le_bytes (n : nat) (x : Z) : list byte :=
  match n with
  | O => []
  | S k => ascii_of_N (Z.to_N (x mod 256)) :: le_bytes k (x / 256)
  end.
Definition encode (mach : endian) (t : tid) (x : Z) : list byte :=
  let b := le_bytes (Z.to_nat (default_bytes t)) x in
  match mach with BIG_E => rev b | _ => b end.
(** std::numeric_limits<T>::max() and lowest() *)
Definition int_max (t : tid) : Z := if is_signed t then 2 ^ (bits t - 1) - 1 else 2 ^ bits t - 1.
Definition int_min (t : tid) : Z := if is_signed t then - 2 ^ (bits t - 1) else 0.
Definition is_int (t : tid) : bool := is_signed t || is_unsigned t.

Section Ops.
Variable mach : endian.

(** element(idx), conduit_data_array.cpp 87-104, conduit_data_accessor.cpp 172-205 *)
Definition int_elem (m : mem) (t : tid) (h : hdr) (d : dtype) (i : Z) : outcome Z :=
  if is_int (dt_id d) then do x <- elem_read m h d i; Ok (conv t (ivalue mach (dt_id d) x)) else Err.
Definition float_elem (m : mem) (h : hdr) (d : dtype) (i : Z) : outcome spec_float :=
  if is_float (dt_id d) then do x <- elem_read m h d i; Ok (fvalue mach (dt_id d) x) else Err.
(** for(i = 0; i < number_of_elements(); i++) res = step(res, element(i)) *)
Fixpoint reduce {A S} (elem : Z -> outcome A) (step : S -> A -> outcome S) (is : list Z) (s : S) : outcome S :=
  match is with
  | [] => Ok s
  | i :: r => do v <- elem i; do s' <- step s v; reduce elem step r s'
  end.
(** min(), 449-464; max(), 468-483 *)
Definition arr_min (m : mem) (t : tid) (h : hdr) (d : dtype) : outcome Z :=
  reduce (int_elem m t h d) (fun r v => Ok (if v <? r then v else r)) (zseq (dt_n d)) (int_max t).
Definition arr_max (m : mem) (t : tid) (h : hdr) (d : dtype) : outcome Z :=
  reduce (int_elem m t h d) (fun r v => Ok (if r <? v then v else r)) (zseq (dt_n d)) (int_min t).
(** sum(), 488-500: res += val; int8 and int16 are added as int and converted back,
    unsigned types wrap, int32 and int64 must not overflow *)
Definition add_to (t : tid) (r v : Z) : outcome Z :=
  match t with
  | INT32 | INT64 => if (int_min t <=? r + v) && (r + v <=? int_max t) then Ok (r + v) else UB
  | _ => Ok (conv t (r + v))
  end.
Definition arr_sum (m : mem) (t : tid) (h : hdr) (d : dtype) : outcome Z :=
  reduce (int_elem m t h d) (add_to t) (zseq (dt_n d)) 0.
(** count(val), 521-534 *)
Definition arr_count (m : mem) (t : tid) (h : hdr) (d : dtype) (x : Z) : outcome Z :=
  reduce (int_elem m t h d) (fun r v => Ok (if v =? x then r + 1 else r)) (zseq (dt_n d)) 0.
(** the same loops on floats *)
Definition float_min (m : mem) (h : hdr) (d : dtype) : outcome spec_float :=
  reduce (float_elem m h d) (fun r v => Ok (if SFltb v r then v else r)) (zseq (dt_n d))
         (SFmax_float (prec_of (dt_id d)) (emax_of (dt_id d))).
Definition float_max (m : mem) (h : hdr) (d : dtype) : outcome spec_float :=
  reduce (float_elem m h d) (fun r v => Ok (if SFltb r v then v else r)) (zseq (dt_n d))
         (SFopp (SFmax_float (prec_of (dt_id d)) (emax_of (dt_id d)))).

(** element(i) = (T)value: the conversion to the leaf's own type [dt_id d] *)
Definition put_elem (m : mem) (h : hdr) (d : dtype) (i x : Z) : outcome mem :=
  if is_int (dt_id d) then
    do a <- element_index d i; ostore m (opadd (h_data h) a) (encode mach (dt_id d) (conv (dt_id d) x))
  else Err.
Fixpoint put_elems (m : mem) (h : hdr) (d : dtype) (i : Z) (xs : list Z) : outcome mem :=
  match xs with
  | [] => Ok m
  | x :: r => do m' <- put_elem m h d i x; put_elems m' h d (i + 1) r
  end.
(** fill(value), 1353-1470 *)
Definition arr_fill (m : mem) (h : hdr) (d : dtype) (x : Z) : outcome mem :=
  put_elems m h d 0 (repeat x (Z.to_nat (dt_n d))).
(** set(ele_idx, value), 692-776: no check of the index *)
Definition arr_set (m : mem) (h : hdr) (d : dtype) (i x : Z) : outcome mem := put_elem m h d i x.
(** set(const V ptr values, num_elements), 780-886: no check against number_of_elements;
    [xs] are the numbers values[0..num_elements) *)
Definition arr_set_values (m : mem) (h : hdr) (d : dtype) (xs : list Z) : outcome mem := put_elems m h d 0 xs.
(** set(std::initializer_list), 894-1060: at most number_of_elements *)
Definition arr_set_list (m : mem) (h : hdr) (d : dtype) (xs : list Z) : outcome mem :=
  put_elems m h d 0 (firstn (Z.to_nat (dt_n d)) xs).
(** set(const DataArray<V>& values) 1764-1890, set(const DataAccessor<V>& values) 1902-2025:
    number_of_elements of the destination; [t] is V *)
Fixpoint copy_elems (m : mem) (h : hdr) (d : dtype) (t : tid) (h' : hdr) (d' : dtype) (is : list Z) : outcome mem :=
  match is with
  | [] => Ok m
  | i :: r => do x <- int_elem m t h' d' i; do m' <- put_elem m h d i x; copy_elems m' h d t h' d' r
  end.
Definition arr_set_array (m : mem) (h : hdr) (d : dtype) (t : tid) (h' : hdr) (d' : dtype) : outcome mem :=
  copy_elems m h d t h' d' (zseq (dt_n d)).
End Ops.
