(** C38: reductions and assignments over array views. *)
From Coq Require Import ZArith Lia Floats.SpecFloat.
From Verif Require Import Base DType SpecTree Mem MemFacts Node NodeFacts SpecNode Number NumberFacts NodeDiff DiffMore ArrayOps ArrayOpsFacts.
Local Open Scope Z_scope.

(** Conversion to T: the only number of the type equal modulo 2^bits; nothing changes for
    a number the type already has. *)
Theorem C38_conversion : forall t x, is_int t = true -> converts t x (conv t x) /\ (forall y, converts t x y -> y = conv t x) /\ (in_type t x -> conv t x = x).
Proof.
  intros t x Ht. split; [exact (conv_converts t x Ht)|]. split; [intros y C; exact (converts_unique t x y _ Ht C (conv_converts t x Ht))|exact (conv_id t x Ht)].
Qed.
(** An array of the leaf's own type sees the stored numbers themselves. *)
Theorem C38_own_type : forall mach m h d xs, shows mach m h d xs -> map (conv (dt_id d)) xs = xs.
Proof. exact conv_shows. Qed.
Theorem C38_min : forall mach m t h d xs, is_int t = true -> no_repeat d -> shows mach m h d xs ->
  exists r, arr_min mach m t h d = Ok r /\
    (xs = [] -> r = int_max t) /\ (xs <> [] -> In r (map (conv t) xs) /\ Forall (Z.le r) (map (conv t) xs)).
Proof. exact min_law. Qed.
Theorem C38_max : forall mach m t h d xs, is_int t = true -> no_repeat d -> shows mach m h d xs ->
  exists r, arr_max mach m t h d = Ok r /\
    (xs = [] -> r = int_min t) /\ (xs <> [] -> In r (map (conv t) xs) /\ Forall (fun x => x <= r) (map (conv t) xs)).
Proof. exact max_law. Qed.
(** Sum: exact whenever every partial sum is a number of T; else modulo 2^bits for the
    types that wrap, no result for int32 and int64. *)
Theorem C38_sum : forall mach m t h d xs, is_int t = true -> no_repeat d -> shows mach m h d xs ->
  (checked t = false -> exists s, arr_sum mach m t h d = Ok s /\ converts t (total (map (conv t) xs)) s) /\
  (sums_fit t (map (conv t) xs) -> arr_sum mach m t h d = Ok (total (map (conv t) xs))) /\
  (checked t = true -> ~ sums_fit t (map (conv t) xs) -> ~ exists s, arr_sum mach m t h d = Ok s).
Proof. exact sum_law. Qed.
Theorem C38_count : forall mach m t h d xs x, no_repeat d -> shows mach m h d xs -> arr_count mach m t h d x = Ok (occurrences x (map (conv t) xs)).
Proof. exact count_law. Qed.
Theorem C38_float_min : forall mach m h d xs, no_repeat d -> shows_f mach m h d xs -> Forall not_nan xs -> Exists (fun x => x <> S754_infinity false) xs ->
  exists r, float_min mach m h d = Ok r /\ In r xs /\ Forall (fle r) xs.
Proof. exact fmin_law. Qed.
Theorem C38_float_max : forall mach m h d xs, no_repeat d -> shows_f mach m h d xs -> Forall not_nan xs -> Exists (fun x => x <> S754_infinity true) xs ->
  exists r, float_max mach m h d = Ok r /\ In r xs /\ Forall (fun x => fle x r) xs.
Proof. exact fmax_law. Qed.
Theorem C38_fill : forall mach m h d ys x, elems_apart (dt_n d) (default_bytes (dt_id d)) (dt_stride d) -> shows mach m h d ys ->
  exists m', arr_fill mach m h d x = Ok m' /\ assigned mach m m' h d (repeat (conv (dt_id d) x) (length ys)).
Proof. exact fill_law. Qed.
Theorem C38_set_element : forall mach m h d ys i x, elems_apart (dt_n d) (default_bytes (dt_id d)) (dt_stride d) -> shows mach m h d ys -> 0 <= i < Z.of_nat (length ys) ->
  exists m', arr_set mach m h d i x = Ok m' /\ assigned mach m m' h d (set_nth ys (Z.to_nat i) (conv (dt_id d) x)).
Proof. exact set_one_law. Qed.
Theorem C38_set_list : forall mach m h d ys xs, elems_apart (dt_n d) (default_bytes (dt_id d)) (dt_stride d) -> shows mach m h d ys ->
  exists m', arr_set_list mach m h d xs = Ok m' /\ assigned mach m m' h d (overwrite (map (conv (dt_id d)) (firstn (length ys) xs)) ys).
Proof. exact set_list_law. Qed.
(** set(values, n) for n within the array *)
Theorem C38_set_values : forall mach m h d ys xs, elems_apart (dt_n d) (default_bytes (dt_id d)) (dt_stride d) -> shows mach m h d ys -> Z.of_nat (length xs) <= dt_n d ->
  exists m', arr_set_values mach m h d xs = Ok m' /\ assigned mach m m' h d (overwrite (map (conv (dt_id d)) xs) ys).
Proof. exact put_law. Qed.
(** set(array) from an array at least as long, elsewhere in memory *)
Theorem C38_set_array : forall mach h d t h' d' xs ys, elems_apart (dt_n d) (default_bytes (dt_id d)) (dt_stride d) -> no_repeat d' ->
  leaves_apart (h_data h, d) (h_data h', d') -> dt_n d <= dt_n d' -> forall m, shows mach m h d ys -> shows mach m h' d' xs ->
  exists m', arr_set_array mach m h d t h' d' = Ok m' /\ assigned mach m m' h d (map (conv (dt_id d)) (map (conv t) (firstn (length ys) xs))).
Proof. exact copy_law. Qed.
(** Whatever the layout, overlapping elements included, fill and set touch only the bytes
    of the array's elements. *)
Theorem C38_frame : forall mach m h d xs m', arr_set_list mach m h d xs = Ok m' \/ (exists x, arr_fill mach m h d x = Ok m') -> 0 <= dt_n d ->
  same_shape m m' /\ (forall q, ~ leaf_touches q (h_data h, d) -> rd m' q = rd m q).
Proof.
  intros mach m h d xs m' [E|(x & E)] Hn; eapply put_elems_frame; try exact E; try lia; [rewrite firstn_length|rewrite repeat_length]; lia.
Qed.

(** ---- exceptions ---- *)
(** the minimum of {+infinity} is reported as the largest finite number, of {NaN} too *)
Definition inf_bytes : list byte := map (fun n => ascii_of_N n) [0; 0; 128; 127]%N.
Definition nan_bytes : list byte := map (fun n => ascii_of_N n) [0; 0; 192; 127]%N.
Definition one_float := dt_simple FLOAT32 1.
Definition hdr0 := mkH (Some (0%nat, 0)) false.
Theorem C38_float_min_infinity_refuted : exists m h d r, shows_f LITTLE_E m h d [S754_infinity false] /\ float_min LITTLE_E m h d = Ok r /\ r <> S754_infinity false.
Proof.
  exists [Some inf_bytes], hdr0, one_float. eexists. split; [|split; [vm_compute; reflexivity|discriminate]].
  split; [reflexivity|]. eexists. split; [vm_compute; reflexivity|vm_compute; reflexivity].
Qed.
Theorem C38_float_min_nan_refuted : exists m h d r, shows_f LITTLE_E m h d [S754_nan] /\ float_min LITTLE_E m h d = Ok r /\ float_max LITTLE_E m h d = Ok (SFopp r) /\ r = largest FLOAT32.
Proof.
  exists [Some nan_bytes], hdr0, one_float. eexists. split; [|split; [vm_compute; reflexivity|split; vm_compute; reflexivity]].
  split; [reflexivity|]. eexists. split; [vm_compute; reflexivity|vm_compute; reflexivity].
Qed.
(** the sum of two int32 may have no value *)
Definition byt (l : list N) : list byte := map ascii_of_N l.
Theorem C38_sum_overflow_refuted : exists m h d xs, shows LITTLE_E m h d xs /\ arr_sum LITTLE_E m INT32 h d = UB.
Proof.
  exists [Some (byt [255; 255; 255; 127; 1; 0; 0; 0])%N], hdr0, (dt_simple INT32 2). eexists. split; [|vm_compute; reflexivity].
  split; [reflexivity|]. eexists. split; [vm_compute; reflexivity|vm_compute; reflexivity].
Qed.
(** set(values, n) with n greater than the array's length writes past its elements: here
    into the bytes of the next leaf *)
Theorem C38_set_values_overrun_refuted : exists m m' h d xs q, shows LITTLE_E m h d [1] /\ arr_set_values LITTLE_E m h d xs = Ok m' /\
  ~ leaf_touches q (h_data h, d) /\ rd m' q <> rd m q.
Proof.
  exists [Some (byt [1; 2; 3])%N]. eexists. exists hdr0, (dt_simple UINT8 1), [7; 8], (0%nat, 1).
  split; [split; [reflexivity|]; eexists; (split; [vm_compute; reflexivity|vm_compute; reflexivity])|]. split; [vm_compute; reflexivity|]. split; [|vm_compute; discriminate].
  intros (p & i & j & E & Hi & Hj & Q). cbn in E. injection E as <-. cbn in Hi, Hj. unfold padd, eaddr in Q. cbn [fst snd dt_off dt_stride dt_simple] in Q. apply (f_equal snd) in Q. cbn [fst snd] in Q. replace i with 0 in Q by lia. replace j with 0 in Q by lia. vm_compute in Q. discriminate Q.
Qed.
(** set(array) from a shorter array reads past the end of the source *)
Theorem C38_set_shorter_array_refuted : exists m h d h' d', shows LITTLE_E m h d [1; 2] /\ shows LITTLE_E m h' d' [5] /\ arr_set_array LITTLE_E m h d UINT8 h' d' = UB.
Proof.
  exists [Some (byt [1; 2])%N; Some (byt [5])%N], hdr0, (dt_simple UINT8 2), (mkH (Some (1%nat, 0)) false), (dt_simple UINT8 1).
  split; [split; [reflexivity|]; eexists; (split; [vm_compute; reflexivity|vm_compute; reflexivity])|]. split; [split; [reflexivity|]; eexists; (split; [vm_compute; reflexivity|vm_compute; reflexivity])|]. vm_compute. reflexivity.
Qed.

(** ---- the hypotheses are met ---- *)
(** int16 elements -2, 3, 3 with stride 4 in the middle of a buffer *)
Definition ex_m : mem := [Some (byt [9; 254; 255; 9; 9; 3; 0; 9; 9; 3; 0; 9])%N; Some (byt [1; 0; 0; 0; 255; 255; 255; 255; 0; 1; 0; 0])%N].
Definition ex_d := mkDT INT16 3 1 4 2 LITTLE_E.
Example ex_shows : shows LITTLE_E ex_m hdr0 ex_d [-2; 3; 3] /\ no_repeat ex_d /\ elems_apart (dt_n ex_d) (default_bytes (dt_id ex_d)) (dt_stride ex_d).
Proof. split; [split; [reflexivity|]; eexists; (split; [vm_compute; reflexivity|vm_compute; reflexivity])|]. split; [intros H; discriminate H|]. right. vm_compute. discriminate. Qed.
Example ex_reduce : arr_min LITTLE_E ex_m INT16 hdr0 ex_d = Ok (-2) /\ arr_max LITTLE_E ex_m UINT8 hdr0 ex_d = Ok 254 /\ arr_sum LITTLE_E ex_m INT64 hdr0 ex_d = Ok 4 /\
  arr_count LITTLE_E ex_m INT16 hdr0 ex_d 3 = Ok 2.
Proof. vm_compute. auto. Qed.
Example ex_fits : sums_fit INT64 (map (conv INT64) [-2; 3; 3]).
Proof. intros [|[|[|[|k]]]]; cbn [map firstn]; rewrite ?firstn_nil; vm_compute; split; discriminate. Qed.
Example ex_fill : arr_fill LITTLE_E ex_m hdr0 ex_d 258 = Ok [Some (byt [9; 2; 1; 9; 9; 2; 1; 9; 9; 2; 1; 9])%N; Some (byt [1; 0; 0; 0; 255; 255; 255; 255; 0; 1; 0; 0])%N].
Proof. vm_compute. reflexivity. Qed.
Example ex_copy : shows LITTLE_E ex_m (mkH (Some (1%nat, 0)) false) (dt_simple INT32 3) [1; -1; 256] /\
  leaves_apart (h_data hdr0, ex_d) (Some (1%nat, 0), dt_simple INT32 3) /\
  arr_set_array LITTLE_E ex_m hdr0 ex_d INT32 (mkH (Some (1%nat, 0)) false) (dt_simple INT32 3) =
    Ok [Some (byt [9; 1; 0; 9; 9; 255; 255; 9; 9; 0; 1; 9])%N; Some (byt [1; 0; 0; 0; 255; 255; 255; 255; 0; 1; 0; 0])%N].
Proof.
  split; [split; [reflexivity|]; eexists; (split; [vm_compute; reflexivity|vm_compute; reflexivity])|]. split; [|vm_compute; reflexivity].
  intros q [(p & i & j & E & _ & _ & Q) (p' & i' & j' & E' & _ & _ & Q')]. cbn in E, E'. injection E as <-. injection E' as <-. rewrite Q in Q'. discriminate Q'.
Qed.
Definition two_m : mem := [Some (byt [0; 0; 128; 63; 0; 0; 0; 192; 0; 0; 128; 127])%N].
Example ex_float : exists a b, shows_f LITTLE_E two_m hdr0 (dt_simple FLOAT32 3) [a; b; S754_infinity false] /\ not_nan a /\ not_nan b /\
  float_min LITTLE_E two_m hdr0 (dt_simple FLOAT32 3) = Ok b /\ float_max LITTLE_E two_m hdr0 (dt_simple FLOAT32 3) = Ok (S754_infinity false).
Proof.
  eexists. eexists. split; [split; [reflexivity|]; eexists; (split; [vm_compute; reflexivity|vm_compute; reflexivity])|]. split; [discriminate|]. split; [discriminate|]. split; vm_compute; reflexivity.
Qed.

Print Assumptions C38_min.
Print Assumptions C38_sum.
Print Assumptions C38_float_max.
Print Assumptions C38_fill.
Print Assumptions C38_set_list.
Print Assumptions C38_set_array.
Print Assumptions C38_frame.

Print Assumptions C38_conversion.
Print Assumptions C38_own_type.
Print Assumptions C38_max.
Print Assumptions C38_count.
Print Assumptions C38_float_min.
Print Assumptions C38_set_element.
Print Assumptions C38_set_values.
Print Assumptions C38_float_min_infinity_refuted.
Print Assumptions C38_float_min_nan_refuted.
Print Assumptions C38_sum_overflow_refuted.
Print Assumptions C38_set_values_overrun_refuted.
Print Assumptions C38_set_shorter_array_refuted.
