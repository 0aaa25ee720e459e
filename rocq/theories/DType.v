(** conduit::DataType - src/libs/conduit/conduit_data_type.{hpp,cpp}. *)
From Verif Require Import Base.
Local Open Scope Z_scope.

(** DataType::TypeID, conduit_data_type.hpp 56-72.  index_t ids outside this
    enumeration are not modelled. *)
Inductive tid : Type :=
| EMPTY | OBJECT | LIST
| INT8 | INT16 | INT32 | INT64
| UINT8 | UINT16 | UINT32 | UINT64
| FLOAT32 | FLOAT64
| CHAR8_STR.

Definition tid_eq_dec (a b : tid) : {a = b} + {a <> b}.
Proof. decide equality. Defined.
Definition tid_eqb (a b : tid) : bool := if tid_eq_dec a b then true else false.
Lemma tid_eqb_eq a b : tid_eqb a b = true <-> a = b.
Proof. unfold tid_eqb; destruct (tid_eq_dec a b); split; congruence. Qed.
Lemma tid_eqb_refl a : tid_eqb a a = true.
Proof. apply tid_eqb_eq; reflexivity. Qed.

(** Endianness::EndianEnum - conduit_endianness.hpp. *)
Inductive endian : Type := DEFAULT_E | BIG_E | LITTLE_E.
Definition endian_eq_dec (a b : endian) : {a = b} + {a <> b}.
Proof. decide equality. Defined.
Definition endian_eqb (a b : endian) : bool := if endian_eq_dec a b then true else false.
Lemma endian_eqb_eq a b : endian_eqb a b = true <-> a = b.
Proof. unfold endian_eqb; destruct (endian_eq_dec a b); split; congruence. Qed.
Lemma endian_eqb_refl a : endian_eqb a a = true.
Proof. apply endian_eqb_eq; reflexivity. Qed.

(** The six data members, conduit_data_type.hpp (end of class).  index_t (int64)
    is modelled by unbounded Z: overflow of byte counts beyond 2^63 is not
    represented. *)
Record dtype : Type := mkDT {
  dt_id : tid;
  dt_n : Z;          (* m_num_ele *)
  dt_off : Z;        (* m_offset *)
  dt_stride : Z;     (* m_stride *)
  dt_ebytes : Z;     (* m_ele_bytes *)
  dt_endian : endian (* m_endianness *)
}.

(** conduit_data_type.cpp 1220-1247 *)
Definition default_bytes (t : tid) : Z :=
  match t with
  | INT8 | UINT8 => 1
  | INT16 | UINT16 => 2
  | INT32 | UINT32 => 4
  | INT64 | UINT64 => 8
  | FLOAT32 => 4
  | FLOAT64 => 8
  | CHAR8_STR => 1
  | EMPTY | OBJECT | LIST => 0
  end.

(** conduit_data_type.cpp 526-533: DataType(id, num_elements=0) *)
Definition dt_simple (t : tid) (n : Z) : dtype :=
  mkDT t n 0 (default_bytes t) (default_bytes t) DEFAULT_E.
(** conduit_data_type.cpp 61-80, and reset() 573-582 which gives the same value
    as empty(). *)
Definition dt_empty : dtype := dt_simple EMPTY 0.
Definition dt_object : dtype := dt_simple OBJECT 0.
Definition dt_list : dtype := dt_simple LIST 0.

(** conduit_data_type.cpp 641-645 *)
Definition strided_bytes (d : dtype) : Z := dt_stride d * (dt_n d - 1) + dt_ebytes d.
(** conduit_data_type.cpp 650-653 *)
Definition bytes_compact (d : dtype) : Z := default_bytes (dt_id d) * dt_n d.
(** conduit_data_type.cpp 657-660 *)
Definition spanned_bytes (d : dtype) : Z :=
  dt_off d + dt_stride d * (dt_n d - 1) + dt_ebytes d.
(** conduit_data_type.cpp 664-669 *)
Definition dt_compatible (d e : dtype) : bool :=
  tid_eqb (dt_id d) (dt_id e) && (dt_ebytes d =? dt_ebytes e) && (dt_n d >=? dt_n e).
(** conduit_data_type.cpp 673-681 *)
Definition dt_equals (d e : dtype) : bool :=
  tid_eqb (dt_id d) (dt_id e) && (dt_n d =? dt_n e) && (dt_off d =? dt_off e) &&
  (dt_stride d =? dt_stride e) && (dt_ebytes d =? dt_ebytes e) &&
  endian_eqb (dt_endian d) (dt_endian e).
(** conduit_data_type.cpp 686-692 *)
Definition dt_is_compact (d : dtype) : bool :=
  negb (tid_eqb (dt_id d) EMPTY) && negb (tid_eqb (dt_id d) OBJECT) &&
  negb (tid_eqb (dt_id d) LIST) && (spanned_bytes d =? bytes_compact d).
(** conduit_data_type.cpp 1039-1051.  The CONDUIT_WARN for (idx > 0, stride 0)
    throws under the default warning handler (conduit_utils.cpp 404-420): Err. *)
Definition element_index (d : dtype) (i : Z) : outcome Z :=
  if (0 <? i) && (dt_stride d =? 0) then Err
  else Ok (dt_off d + dt_stride d * i).
(** The address arithmetic of element_index without the warning. *)
Definition eaddr (d : dtype) (i : Z) : Z := dt_off d + dt_stride d * i.
(** conduit_data_type.cpp 1464-1473 *)
Definition dt_compact (d : dtype) : dtype :=
  mkDT (dt_id d) (dt_n d) 0 (default_bytes (dt_id d)) (default_bytes (dt_id d))
       (dt_endian d).

(** conduit_data_type.cpp 1008-1035; [m] is Endianness::machine_default(). *)
Definition dt_is_little (m : endian) (d : dtype) : bool :=
  endian_eqb (dt_endian d) LITTLE_E ||
  (endian_eqb (dt_endian d) DEFAULT_E && endian_eqb m LITTLE_E).
Definition dt_is_big (m : endian) (d : dtype) : bool :=
  endian_eqb (dt_endian d) BIG_E ||
  (endian_eqb (dt_endian d) DEFAULT_E && endian_eqb m BIG_E).
Definition endian_matches_machine (m : endian) (d : dtype) : bool :=
  endian_eqb (dt_endian d) DEFAULT_E ||
  (endian_eqb (dt_endian d) BIG_E && endian_eqb m BIG_E) ||
  (endian_eqb (dt_endian d) LITTLE_E && endian_eqb m LITTLE_E).

(** conduit_data_type.cpp 1082-1108 *)
Definition id_to_name (t : tid) : str :=
  match t with
  | EMPTY => L "empty" | OBJECT => L "object" | LIST => L "list"
  | INT8 => L "int8" | INT16 => L "int16" | INT32 => L "int32" | INT64 => L "int64"
  | UINT8 => L "uint8" | UINT16 => L "uint16" | UINT32 => L "uint32" | UINT64 => L "uint64"
  | FLOAT32 => L "float32" | FLOAT64 => L "float64" | CHAR8_STR => L "char8_str"
  end.
(** conduit_data_type.cpp 1059-1076 *)
Definition name_to_id (s : str) : tid :=
  if str_eqb s (L "empty") then EMPTY
  else if str_eqb s (L "object") then OBJECT
  else if str_eqb s (L "list") then LIST
  else if str_eqb s (L "int8") then INT8
  else if str_eqb s (L "int16") then INT16
  else if str_eqb s (L "int32") then INT32
  else if str_eqb s (L "int64") then INT64
  else if str_eqb s (L "uint8") then UINT8
  else if str_eqb s (L "uint16") then UINT16
  else if str_eqb s (L "uint32") then UINT32
  else if str_eqb s (L "uint64") then UINT64
  else if str_eqb s (L "float32") then FLOAT32
  else if str_eqb s (L "float64") then FLOAT64
  else if str_eqb s (L "char8_str") then CHAR8_STR
  else EMPTY.

(** conduit_data_type.cpp 1174-1205: char8_str falls to the default case. *)
Definition default_dtype (t : tid) : dtype :=
  match t with
  | OBJECT => dt_object
  | LIST => dt_list
  | EMPTY | CHAR8_STR => dt_empty
  | _ => dt_simple t 1
  end.

(** conduit_endianness.cpp 62-86 *)
Definition endian_name_to_id (s : str) : endian :=
  if str_eqb s (L "big") then BIG_E
  else if str_eqb s (L "little") then LITTLE_E
  else DEFAULT_E.
Definition endian_id_to_name (e : endian) : str :=
  match e with BIG_E => L "big" | LITTLE_E => L "little" | DEFAULT_E => L "default" end.

Definition is_container (t : tid) : bool :=
  match t with OBJECT | LIST => true | _ => false end.
