(** C59: conversions between numeric types. *)
From Coq Require Import ZArith Znumtheory QArith Qabs Qpower Lia Floats.SpecFloat.
From Verif Require Import Base DType SpecTree Mem MemFacts Node NodeFacts SpecNode NodeCompact NodeSet NodeEndian NodeUpdate NodeMerge NodeSetArray.
From Verif Require Import Number NumberFacts NodeDiff DiffMore ArrayOps ArrayOpsFacts Json FloatText RoundFacts NumConv NumConvFacts NumConvMem NumConvText.
Local Open Scope Z_scope.
Ltac vr := vm_compute; reflexivity.

(** (T)v is defined exactly for the convertible numbers, and gives what [converted] says:
    integers modulo 2^bits, floats rounded to nearest, fractions cut off. *)
Theorem C59_conversion : forall t v, numeric t = true ->
  (convertible t v -> exists w, cast t v = Ok w /\ converted t v w) /\ (~ convertible t v -> cast t v = UB).
Proof. intros t v T. split; [exact (cast_law t v T)|exact (cast_undefined t v)]. Qed.
(** A number that the target type has is kept, whatever the two types. *)
Theorem C59_exact : forall t v q w r, has t w -> rational v = Some q -> rational w = Some r -> (q == r)%Q ->
  exists w' q', cast t v = Ok w' /\ has t w' /\ rational w' = Some q' /\ (q' == q)%Q.
Proof. exact cast_exact. Qed.
(** There and back again: integers that the other type has come back as they were. *)
Theorem C59_there_and_back : forall t u z w r, has t (NI z) -> has u w -> rational w = Some r -> (inject_Z z == r)%Q ->
  exists w', cast u (NI z) = Ok w' /\ cast t w' = Ok (NI z).
Proof.
  intros t u z w r H W R E. destruct (cast_exact u (NI z) (inject_Z z) w r W eq_refl R E) as (w' & q' & C & H' & Q' & E'). exists w'. split; [exact C|].
  destruct (cast_exact t w' q' (NI z) (inject_Z z) H Q' eq_refl E') as (v & q2 & C2 & H2 & Q2 & E2). rewrite C2.
  destruct v as [y|y]; [|destruct H as [H _]; destruct H2 as [H2 _]; destruct t; discriminate]. cbn in Q2. injection Q2 as <-. f_equal. f_equal.
  apply inject_Z_injective. rewrite E2. exact E'.
Qed.
(** The bytes of a number read back as the number. *)
Theorem C59_bytes : forall mach t v, has t v -> read_number mach t (number_bytes mach t v) = v.
Proof. exact number_round_trip. Qed.
Theorem C59_reads_have : forall mach m h d vs, shows_n mach m h d vs -> Forall (has (dt_id d)) vs.
Proof. exact shows_n_has. Qed.
(** accessor views *)
Theorem C59_element : forall mach m t h d vs i v, numeric t = true -> no_repeat d -> shows_n mach m h d vs -> 0 <= i -> nth_error vs (Z.to_nat i) = Some v ->
  (convertible t v -> exists w, acc_element mach m t h d i = Ok w /\ converted t v w) /\ (~ convertible t v -> acc_element mach m t h d i = UB).
Proof. exact element_law. Qed.
Theorem C59_set : forall mach m h d vs i v, elems_apart (dt_n d) (default_bytes (dt_id d)) (dt_stride d) -> shows_n mach m h d vs ->
  0 <= i < Z.of_nat (length vs) -> convertible (dt_id d) v ->
  exists m' w, acc_set mach m h d i v = Ok m' /\ converted (dt_id d) v w /\ assigned_n mach m m' h d (set_nth vs (Z.to_nat i) w).
Proof. exact set_law. Qed.
Theorem C59_fill : forall mach m h d vs v, elems_apart (dt_n d) (default_bytes (dt_id d)) (dt_stride d) -> shows_n mach m h d vs -> convertible (dt_id d) v ->
  exists m' w, acc_fill mach m h d v = Ok m' /\ converted (dt_id d) v w /\ assigned_n mach m m' h d (repeat w (length vs)).
Proof. exact fill_all_law. Qed.
(** to_T_array and to_data_type: the result holds the converted numbers; the source and all
    else stay; what the result held is freed. *)
Theorem C59_array : forall mach m t hs ds dest vs v0, numeric t = true -> healthy m dest -> nvalue m dest = Ok v0 ->
  shows_n mach m hs ds vs -> no_repeat ds -> Forall (convertible t) vs -> exact_or_new dest t (dt_n ds) ->
  (forall q, touches (NLeaf hs ds) q -> ~ touches dest q /\ ~ ob dest (fst q)) ->
  exists m' h d ws, to_data_type mach m t (NLeaf hs ds) dest = Ok (m', NLeaf h d) /\ dt_id d = t /\ dt_endian d = init_endian dest t (dt_n ds) /\
    shows_n mach m' h d ws /\ Forall2 (converted t) vs ws /\ shows_n mach m' hs ds vs /\
    healthy m' (NLeaf h d) /\ step m (touches dest) (ob dest) m' (touches (NLeaf h d)) (ob (NLeaf h d)).
Proof. intros mach m t hs ds dest vs v0 T. unfold to_data_type. rewrite T. exact (to_array_law mach m t hs ds dest vs v0 T). Qed.
(** to_T *)
Theorem C59_scalar : forall mach m t h d v vs, numeric t = true -> shows_n mach m h d (v :: vs) ->
  (convertible t v -> exists w, to_scalar mach m t (NLeaf h d) = Ok w /\ converted t v w) /\ (~ convertible t v -> to_scalar mach m t (NLeaf h d) = UB).
Proof. exact to_scalar_law. Qed.
(** Of text: int8 and uint8 are read as the 16 bit type.  An integer the type read has is
    taken modulo 2^bits; one it has not, and text without an integer, give 0. *)
Definition read_as (t : tid) : tid := match t with INT8 => INT16 | UINT8 => UINT16 | _ => t end.
Definition fits (t : tid) (neg : bool) (z : Z) : Prop :=
  if is_signed t then in_type (read_as t) (signed neg z) else z <= int_max (read_as t).
Theorem C59_text_integer : forall mach m t n s neg z, is_int t = true -> nas_string m n = Ok s -> integer_text s neg z ->
  (fits t neg z -> exists y, to_scalar mach m t n = Ok (NI y) /\ converts t (signed neg z) y) /\
  (~ fits t neg z -> to_scalar mach m t n = Ok (NI 0)).
Proof.
  intros mach m t n s neg z T A X.
  assert (E : to_scalar mach m t n = Ok (string_number t s)).
  { destruct n as [h d|h es|h ks]; try discriminate A. unfold to_scalar. rewrite A. cbn [nas_string] in A. destruct (tid_eqb (dt_id d) CHAR8_STR) eqn:C; [|discriminate A]. apply tid_eqb_eq in C. rewrite C. reflexivity. }
  rewrite E. unfold string_number, fits. replace (is_float t) with false by (destruct t; try discriminate T; reflexivity).
  assert (R : match t with INT8 => int_text INT16 s | UINT8 => int_text UINT16 s | _ => int_text t s end = int_text (read_as t) s) by (destruct t; reflexivity).
  rewrite R, (int_text_law (read_as t) s neg z X). replace (is_signed (read_as t)) with (is_signed t) by (destruct t; reflexivity).
  assert (Z0 : zero_of t = NI 0) by (unfold zero_of; destruct t; try discriminate T; reflexivity).
  destruct (is_signed t) eqn:Sg; unfold in_type.
  - destruct (Z.leb_spec (int_min (read_as t)) (signed neg z)), (Z.leb_spec (signed neg z) (int_max (read_as t))); cbn [andb];
      (split; intros F; [try (exfalso; lia)|try (exfalso; lia); congruence]).
    eexists. split; [reflexivity|]. apply conv_converts. exact T.
  - destruct (Z.leb_spec z (int_max (read_as t))); (split; intros F; [try (exfalso; lia)|try (exfalso; lia); congruence]).
    eexists. split; [reflexivity|]. destruct (conv_converts t (conv (read_as t) (signed neg z)) T) as [I1 I2]. destruct (conv_converts t (signed neg z) T) as [J1 J2].
    replace (conv t (conv (read_as t) (signed neg z))) with (conv t (signed neg z)); [split; assumption|]. unfold conv. rewrite Sg.
    replace (is_signed (read_as t)) with false by (destruct t; try discriminate Sg; reflexivity). unfold wrap_u.
    apply Zmod_div_mod; [apply Z.pow_pos_nonneg; destruct t; discriminate || (vm_compute; congruence)|apply Z.pow_pos_nonneg; destruct t; discriminate || (vm_compute; congruence)|].
    destruct t; try discriminate T; try discriminate Sg; cbn [read_as]; try apply Z.divide_refl. exists (2 ^ 8). reflexivity.
Qed.
Theorem C59_text_none : forall mach m t n s, is_int t = true -> nas_string m n = Ok s -> (forall neg z, ~ integer_text s neg z) -> to_scalar mach m t n = Ok (NI 0).
Proof.
  intros mach m t n s T A X.
  assert (E : to_scalar mach m t n = Ok (string_number t s)).
  { destruct n as [h d|h es|h ks]; try discriminate A. unfold to_scalar. rewrite A. cbn [nas_string] in A. destruct (tid_eqb (dt_id d) CHAR8_STR) eqn:C; [|discriminate A]. apply tid_eqb_eq in C. rewrite C. reflexivity. }
  rewrite E. unfold string_number. replace (is_float t) with false by (destruct t; try discriminate T; reflexivity).
  rewrite !(no_int _ s X). destruct t; try discriminate T; reflexivity.
Qed.
(** Decimal text gives the nearest float; 0 when that would be infinite. *)
Theorem C59_text_decimal : forall mach m t n s neg q, is_float t = true -> nas_string m n = Ok s -> decimal_text s neg q ->
  (~ overflows (prec_of t) (emax_of t) q -> exists y, to_scalar mach m t n = Ok (NF y) /\ rounded t q neg y) /\
  (overflows (prec_of t) (emax_of t) q -> to_scalar mach m t n = Ok (NF (S754_zero false))).
Proof.
  intros mach m t n s neg q T A X.
  assert (E : to_scalar mach m t n = Ok (string_number t s)).
  { destruct n as [h d|h es|h ks]; try discriminate A. unfold to_scalar. rewrite A. cbn [nas_string] in A. destruct (tid_eqb (dt_id d) CHAR8_STR) eqn:C; [|discriminate A]. apply tid_eqb_eq in C. rewrite C. reflexivity. }
  rewrite E. unfold string_number, zero_of. rewrite T. destruct (float_text_law t s neg q T X) as [O N]. split; intros H.
  - destruct (N H) as (y & -> & R). exists y. auto.
  - rewrite (O H). reflexivity.
Qed.

(** ---- exceptions ---- *)
Definition byt (l : list N) : list byte := map ascii_of_N l.
Definition hdr0 := mkH (Some (0%nat, 0)) true.
Definition hdr1 := mkH (Some (1%nat, 0)) true.
Ltac sh := split; [reflexivity|]; eexists; split; [vm_compute; reflexivity|vm_compute; reflexivity].
(** n.to_float64_array(n) wipes the numbers: the buffer is replaced before it is read *)
Theorem C59_self_refuted : exists m m' h d h' d', healthy m (NLeaf h d) /\ shows_n LITTLE_E m h d [NI 7; NI 9] /\
  to_array_self LITTLE_E m FLOAT64 (NLeaf h d) = Ok (m', NLeaf h' d') /\ shows_n LITTLE_E m' h' d' [NF (S754_zero false); NF (S754_zero false)].
Proof.
  exists [Some (byt [7; 0; 0; 0; 9; 0; 0; 0])%N]. eexists. exists hdr0, (dt_simple INT32 2). eexists. eexists. split; [|split; [sh|split; [vr|sh]]].
  apply healthy_good. cbn [good]. split; [intros _; discriminate|]. split; [discriminate|]. split; [reflexivity|]. split; [right; vm_compute; discriminate|].
  constructor; [|constructor]. split; [reflexivity|]. eexists. reflexivity.
Qed.
(** a result that already is a longer array of the type keeps its length and the
    conversion reads past the end of the source *)
Theorem C59_longer_refuted : exists m hs ds h d, healthy m (NLeaf h d) /\ shows_n LITTLE_E m h d [NI 1; NI 2] /\ shows_n LITTLE_E m hs ds [NI 5] /\
  to_data_type LITTLE_E m INT8 (NLeaf hs ds) (NLeaf h d) = UB.
Proof.
  exists [Some (byt [1; 2])%N; Some (byt [5; 0])%N], hdr1, (dt_simple INT16 1), hdr0, (dt_simple INT8 2). split; [|split; [sh|split; [sh|vr]]].
  apply healthy_good. cbn [good]. split; [intros _; discriminate|]. split; [discriminate|]. split; [reflexivity|]. split; [right; vm_compute; discriminate|].
  constructor; [|constructor]. split; [reflexivity|]. eexists. reflexivity.
Qed.
(** NaN, infinities and floats outside the integer type have no integer: undefined *)
Theorem C59_nan_refuted : exists m h d, shows_n LITTLE_E m h d [NF S754_nan] /\ to_scalar LITTLE_E m INT32 (NLeaf h d) = UB.
Proof. exists [Some (byt [0; 0; 192; 127])%N], hdr0, (dt_simple FLOAT32 1). split; [sh|vr]. Qed.
(** the largest int64 becomes 2^63 as float64, which int64 has not *)
Theorem C59_largest_refuted : exists v w, has INT64 v /\ cast FLOAT64 v = Ok w /\ cast INT64 w = UB.
Proof. exists (NI (2 ^ 63 - 1)). eexists. split; [split; [reflexivity|split; vm_compute; discriminate]|]. split. vr. vr. Qed.
(** the byte order of the leaf is not looked at *)
Theorem C59_endian_refuted : exists m h d, dt_endian d = BIG_E /\ leaf_value m (h_data h) d = Ok (Some (INT32, BIG_E, [byt [0; 0; 0; 1]%N])) /\
  to_scalar LITTLE_E m INT32 (NLeaf h d) = Ok (NI 16777216).
Proof. exists [Some (byt [0; 0; 0; 1])%N], hdr0, (mkDT INT32 1 0 4 4 BIG_E). split; [reflexivity|]. split. vr. vr. Qed.
(** a numeric leaf without elements is read beyond its end *)
Theorem C59_no_elements_refuted : exists m h d, shows_n LITTLE_E m h d [] /\ to_scalar LITTLE_E m FLOAT64 (NLeaf h d) = UB.
Proof. exists [Some []], hdr0, (dt_simple INT32 0). split; [sh|vr]. Qed.
(** objects, lists and empty nodes are 0, without an error *)
Theorem C59_object_refuted : exists n, n_dtype n = n_dtype (NObj (mkH None false) []) /\ to_scalar LITTLE_E [] INT32 n = Ok (NI 0).
Proof. exists (NObj (mkH None false) [(L "a", nempty)]). split; reflexivity. Qed.
(** texts that numbers write and that read as something else *)
Definition reads (t : tid) (s : string) (v : number) : Prop := string_number t (L s) = v.
Theorem C59_text_inf_refuted : reads FLOAT64 "inf" (NF (S754_zero false)) /\ reads FLOAT64 "nan" (NF (S754_zero false)) /\ reads FLOAT64 "1e999" (NF (S754_zero false)).
Proof. split; [vr|]. split; vr. Qed.
Theorem C59_text_exponent_refuted : reads INT32 "1e5" (NI 1) /\ reads FLOAT64 "1e" (NF (S754_zero false)) /\ reads INT32 "2.9" (NI 2).
Proof. split; [vr|]. split; vr. Qed.
Theorem C59_text_negative_refuted : reads UINT32 "-1" (NI 4294967295).
Proof. vr. Qed.
Theorem C59_text_int8_refuted : reads INT8 "300" (NI 44) /\ reads INT8 "40000" (NI 0) /\ reads INT16 "40000" (NI 0).
Proof. split; [vr|]. split; vr. Qed.

(** ---- the hypotheses are met ---- *)
(** int16 elements -2, 300, 3 with stride 4 in the middle of a buffer; a float32 result *)
Definition ex_m : mem := [Some (byt [9; 254; 255; 9; 9; 44; 1; 9; 9; 3; 0; 9])%N; Some (byt [0; 0; 192; 63])%N].
Definition ex_d := mkDT INT16 3 1 4 2 LITTLE_E.
Definition half3 : spec_float := S754_finite false 12582912 (-23).
Example ex_shows : shows_n LITTLE_E ex_m hdr0 ex_d [NI (-2); NI 300; NI 3] /\ no_repeat ex_d /\ elems_apart (dt_n ex_d) (default_bytes (dt_id ex_d)) (dt_stride ex_d) /\
  shows_n LITTLE_E ex_m hdr1 (dt_simple FLOAT32 1) [NF half3].
Proof. split; [sh|]. split; [intros H; discriminate H|]. split; [right; vm_compute; discriminate|sh]. Qed.
Example ex_convert : acc_element LITTLE_E ex_m UINT8 hdr0 ex_d 1 = Ok (NI 44) /\ acc_element LITTLE_E ex_m UINT8 hdr0 ex_d 0 = Ok (NI 254) /\
  acc_element LITTLE_E ex_m INT32 hdr1 (dt_simple FLOAT32 1) 0 = Ok (NI 1) /\
  acc_set LITTLE_E ex_m hdr0 ex_d 2 (NF (SFopp half3)) = Ok [Some (byt [9; 254; 255; 9; 9; 44; 1; 9; 9; 255; 255; 9])%N; Some (byt [0; 0; 192; 63])%N].
Proof. split; [vr|]. split; [vr|]. split; vr. Qed.
Example ex_trunc : convertible INT32 (NF half3) /\ ~ convertible INT32 (NF S754_nan) /\ ~ convertible UINT8 (NF (S754_infinity true)).
Proof.
  split; [|split; intros C; destruct (C eq_refl) as (q & z & Q & _); discriminate Q]. intros _. exists (12582912 # 8388608), 1. split; [vr|]. split; [|split; vm_compute; discriminate].
  split; [vm_compute; discriminate|]. split; [vr|vm_compute; discriminate].
Qed.
Example ex_array : healthy ex_m (NLeaf hdr1 (dt_simple FLOAT32 1)) /\ exact_or_new (NLeaf hdr1 (dt_simple FLOAT32 1)) FLOAT32 3 /\
  (forall q, touches (NLeaf hdr0 ex_d) q -> ~ touches (NLeaf hdr1 (dt_simple FLOAT32 1)) q /\ ~ ob (NLeaf hdr1 (dt_simple FLOAT32 1)) (fst q)) /\
  exists m' h d, to_data_type LITTLE_E ex_m FLOAT32 (NLeaf hdr0 ex_d) (NLeaf hdr1 (dt_simple FLOAT32 1)) = Ok (m', NLeaf h d) /\
    shows_n LITTLE_E m' h d [NF (S754_finite true 8388608 (-22)); NF (S754_finite false 9830400 (-15)); NF (S754_finite false 12582912 (-22))].
Proof.
  split.
  { apply healthy_good. cbn [good]. split; [intros _; discriminate|]. split; [discriminate|]. split; [reflexivity|]. split; [left; vm_compute; discriminate|].
    constructor; [|constructor]. split; [reflexivity|]. eexists. reflexivity. }
  split; [intros H; discriminate H|]. split.
  - intros q T. apply touches_leaf in T. destruct T as (p & i & j & E & _ & _ & ->). cbn in E. injection E as <-. split.
    + intros T. apply touches_leaf in T. destruct T as (p' & i' & j' & E' & _ & _ & Q). cbn in E'. injection E' as <-. discriminate Q.
    + intros O. cbn in O. destruct O as [O|[]]. discriminate O.
  - eexists. eexists. eexists. split. vr. sh.
Qed.
Example ex_text : integer_text (L " -42x") true 42 /\ fits INT8 true 42 /\ decimal_text (L "1.5e2 ") false (inject_Z 15 * Qpower (10 # 1) 1) /\
  reads FLOAT32 "1.5e2 " (NF (S754_finite false 9830400 (-16))).
Proof.
  assert (N1 : numeral (L "42") 42) by (exact (num_snoc (L "4") 4 "2" 2 (num_snoc [] 0 "4" 4 num_nil eq_refl) eq_refl)).
  assert (N2 : numeral (L "15") 15) by (exact (num_snoc (L "1") 1 "5" 5 (num_snoc [] 0 "1" 1 num_nil eq_refl) eq_refl)).
  split; [|split; [vm_compute; split; discriminate|split; [|vr]]].
  - exists (L " "), (L "-"), (L "42"), (L "x"). split; [reflexivity|]. split; [constructor; [left; reflexivity|constructor]|]. split; [right; auto|]. split; [discriminate|]. split; [exact N1|].
    cbn [stops]. intros H. unfold in_digits in H. cbn [L list_ascii_of_string In] in H. repeat (destruct H as [H|H]; [discriminate H|]). destruct H.
  - exists [], [], (L "1"), (L ".5"), (L "5"), (L "e2"), (L " "), 15, 2. split; [reflexivity|]. split; [constructor|]. split; [left; auto|]. split; [right; reflexivity|]. split; [discriminate|].
    split; [exact N2|]. split; [exists 5; exact (num_snoc [] 0 "5" 5 num_nil eq_refl)|]. split; [exists 1; exact (num_snoc [] 0 "1" 1 num_nil eq_refl)|]. split.
    + right. exists "e"%char, [], (L "2"), false, 2. split; [reflexivity|]. split; [left; reflexivity|]. split; [left; auto|]. split; [discriminate|]. split; [exact (num_snoc [] 0 "2" 2 num_nil eq_refl)|reflexivity].
    + split; [|reflexivity]. cbn [stops]. intros H. cbn [L list_ascii_of_string In] in H. repeat (destruct H as [H|H]; [discriminate H|]). destruct H.
Qed.
Print Assumptions C59_conversion.
Print Assumptions C59_exact.
Print Assumptions C59_there_and_back.
Print Assumptions C59_bytes.
Print Assumptions C59_reads_have.
Print Assumptions C59_element.
Print Assumptions C59_set.
Print Assumptions C59_fill.
Print Assumptions C59_array.
Print Assumptions C59_scalar.
Print Assumptions C59_text_integer.
Print Assumptions C59_text_none.
Print Assumptions C59_text_decimal.
Print Assumptions C59_self_refuted.
Print Assumptions C59_longer_refuted.
Print Assumptions C59_nan_refuted.
Print Assumptions C59_largest_refuted.
Print Assumptions C59_endian_refuted.
Print Assumptions C59_no_elements_refuted.
Print Assumptions C59_object_refuted.
Print Assumptions C59_text_inf_refuted.
Print Assumptions C59_text_exponent_refuted.
Print Assumptions C59_text_negative_refuted.
Print Assumptions C59_text_int8_refuted.
