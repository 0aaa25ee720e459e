(** Property theorems C20, C21 (diff and diff_compatible).  Specification: the top of
    DiffFacts.v ([alike], [within], [leaf_alike], [leaf_within], [terminated], [sane]),
    [view] of DiffTree.v (what a node holds, strings terminated) and the top of DiffMore.v
    ([no_repeat], [tame], [not_negative], [no_float]).  [mach] is the byte order of the
    machine, [eps] the tolerance; relaxint is false unless stated. *)
From Coq Require Import ZArith Floats.SpecFloat.
From Verif Require Import Base DType SpecTree Mem MemFacts Node SpecNode NodeFacts Number NumberFacts NodeDiff DiffFacts DiffTree DiffMore ArrayOps ArrayOpsFacts.
Local Open Scope Z_scope.

(** * C20 *)
(** a.diff(b) returns false exactly when both hold the same tree: the same names, lists of
    the same length, leaves of the same type and the same elements (floats up to eps). *)
Theorem C20_diff_decides : forall mach m eps a b va vb r, view m a va -> view m b vb ->
  ndiff mach m eps false a b = Ok r -> (r = false <-> alike (leaf_alike mach eps) va vb).
Proof. exact diff_law. Qed.
Print Assumptions C20_diff_decides.
(** It does return, unless a difference of signed elements overflows (or a stride is 0). *)
Theorem C20_diff_defined : forall mach m eps a b va vb, view m a va -> view m b vb -> steady a -> steady b -> tame mach va vb ->
  (exists r, ndiff mach m eps false a b = Ok r) /\ (exists r, ndiff_compatible mach m eps false a b = Ok r).
Proof. exact diff_defined_law. Qed.
Print Assumptions C20_diff_defined.
(** A node never differs from itself, whatever its elements (NaN included). *)
Theorem C20_diff_self : forall mach m eps a va, view m a va -> steady a -> names_unique va -> not_negative eps \/ Forall no_float (tleaves va) ->
  ndiff mach m eps false a a = Ok false /\ ndiff_compatible mach m eps false a a = Ok false.
Proof. exact diff_self_law. Qed.
Print Assumptions C20_diff_self.
Theorem C20_diff_symmetric : forall mach m eps a b va vb r r', view m a va -> view m b vb ->
  ndiff mach m eps false a b = Ok r -> ndiff mach m eps false b a = Ok r' -> r = r'.
Proof. exact diff_symmetric_law. Qed.
Print Assumptions C20_diff_symmetric.
(** Without floats "no difference" is an equivalence relation. *)
Theorem C20_equivalence : forall mach eps, let R := alike (leaf_alike mach eps) in
  (forall t, names_unique t -> Forall no_float (tleaves t) -> R t t) /\
  (forall t t', R t t' -> R t' t) /\
  (forall t t' t'', Forall no_float (tleaves t) -> R t t' -> R t' t'' -> R t t'').
Proof. exact alike_equivalence. Qed.
Print Assumptions C20_equivalence.

(** Two objects with the same children in a different order: a strided and a dense int32
    array, a string with and without trailing garbage, a list with a double. *)
Definition dbuf : mem :=
  [Some ([ascii_of_nat 1; zero_byte; zero_byte; zero_byte; "z"; "z"; "z"; "z"; ascii_of_nat 255; ascii_of_nat 255; ascii_of_nat 255; ascii_of_nat 255; "h"; "i"; zero_byte; "x"]%char
         ++ repeat zero_byte 6 ++ [ascii_of_nat 240; ascii_of_nat 63]);
   Some [ascii_of_nat 1; zero_byte; zero_byte; zero_byte; ascii_of_nat 255; ascii_of_nat 255; ascii_of_nat 255; ascii_of_nat 255; "h"; "i"; zero_byte]%char].
Definition lf (b : nat) (d : dtype) : node := NLeaf (mkH (Some (b, 0)) false) d.
Definition diff_a : node :=
  NObj null_hdr [(L "n", lf 0 (mkDT INT32 2 0 8 4 DEFAULT_E)); (L "s", lf 0 (mkDT CHAR8_STR 4 12 1 1 DEFAULT_E)); (L "l", NLst null_hdr [lf 0 (mkDT FLOAT64 1 16 8 8 DEFAULT_E); nempty])].
Definition diff_b : node :=
  NObj null_hdr [(L "l", NLst null_hdr [lf 0 (mkDT FLOAT64 1 16 8 8 DEFAULT_E); nempty]); (L "s", lf 1 (mkDT CHAR8_STR 3 8 1 1 DEFAULT_E)); (L "n", lf 1 (mkDT INT32 2 0 4 4 DEFAULT_E))].
Ltac each := apply Forall_forall; let l := fresh "l" in let I := fresh "I" in let E := fresh "E" in
  intros l I; vm_compute in I; repeat destruct I as [<-|I]; try contradiction; first [exact Logic.I | right; vm_compute; tauto | intros E; vm_compute in E |- *; try discriminate E; repeat split; discriminate].
Definition eps0 : spec_float := S754_zero false.
Example C20_instance : exists va vb, view dbuf diff_a va /\ view dbuf diff_b vb /\ steady diff_a /\ steady diff_b /\ tame LITTLE_E va vb /\ names_unique va /\ not_negative eps0 /\
  ndiff LITTLE_E dbuf eps0 false diff_a diff_b = Ok false.
Proof.
  eexists _, _. split; [|split; [|split; [|split; [|split; [|split; [|split]]]]]].
  - split; [vm_compute; reflexivity|]. split; each.
  - split; [vm_compute; reflexivity|]. split; each.
  - each.
  - each.
  - intros t e es e' es' x y I I' X Y [-> | ->]; cbn in I, I'; repeat (destruct I as [I|I]; try discriminate I); repeat (destruct I' as [I'|I']; try discriminate I').
    all: try contradiction. injection I as <- <-. injection I' as <- <-. cbn in X, Y. destruct X as [<-|[<-|[]]], Y as [<-|[<-|[]]]; vm_compute; split; congruence.
  - repeat constructor; cbn; intros H; repeat (destruct H as [H|H]; try discriminate H); contradiction.
  - reflexivity.
  - vm_compute. reflexivity.
Qed.
(** FINDING.  diff stores x - y for the report before comparing: for 32 or 64 bit signed
    elements this overflows, e.g. for -2^31 and 1. *)
Definition min_int : list byte := [zero_byte; zero_byte; zero_byte; ascii_of_nat 128].
Definition one_int : list byte := [ascii_of_nat 1; zero_byte; zero_byte; zero_byte].
Definition zero_int : list byte := [zero_byte; zero_byte; zero_byte; zero_byte].
Theorem C20_overflow_refuted : exists m a b va vb, view m a va /\ view m b vb /\ ndiff LITTLE_E m eps0 false a b = UB.
Proof.
  exists [Some min_int; Some one_int], (lf 0 (dt_simple INT32 1)), (lf 1 (dt_simple INT32 1)). eexists _, _. split; [|split; [|vm_compute; reflexivity]].
  - split; [vm_compute; reflexivity|]. split; each.
  - split; [vm_compute; reflexivity|]. split; each.
Qed.
Print Assumptions C20_overflow_refuted.
(** ... and one way round only: -2^31 against 0 is defined, 0 against -2^31 is not. *)
Theorem C20_one_way_refuted : exists m a b r, ndiff LITTLE_E m eps0 false a b = Ok r /\ ndiff LITTLE_E m eps0 false b a = UB.
Proof. exists [Some min_int; Some zero_int], (lf 0 (dt_simple INT32 1)), (lf 1 (dt_simple INT32 1)), true. vm_compute. auto. Qed.
Print Assumptions C20_one_way_refuted.
(** FINDING.  A NaN never differs from anything: NaN against 1.0 gives "no difference" for any eps. *)
Definition nan8 : list byte := [zero_byte; zero_byte; zero_byte; zero_byte; zero_byte; zero_byte; ascii_of_nat 248; ascii_of_nat 127].
Definition one8 : list byte := [zero_byte; zero_byte; zero_byte; zero_byte; zero_byte; zero_byte; ascii_of_nat 240; ascii_of_nat 63].
Theorem C20_nan_refuted : exists m a b, (forall eps, ndiff LITTLE_E m eps false a b = Ok false) /\ nvalue m a <> nvalue m b /\
  fvalue LITTLE_E FLOAT64 nan8 = S754_nan /\ fvalue LITTLE_E FLOAT64 one8 = S754_finite false (2 ^ 52) (-52).
Proof.
  exists [Some nan8; Some one8], (lf 0 (dt_simple FLOAT64 1)), (lf 1 (dt_simple FLOAT64 1)). split; [|split; [|split; vm_compute; reflexivity]].
  - intros [s|s| |s p e]; vm_compute; reflexivity.
  - vm_compute. discriminate.
Qed.
Print Assumptions C20_nan_refuted.
(** FINDING.  The recorded byte order is ignored: the same bytes recorded as little and as big
    endian are different numbers, but not a difference. *)
Theorem C20_byte_order_refuted : exists m a b va vb, nvalue m a = Ok (TLeaf va) /\ nvalue m b = Ok (TLeaf vb) /\
  leaf_numbers LITTLE_E va = [1%N] /\ leaf_numbers LITTLE_E vb = [16777216%N] /\ ndiff LITTLE_E m eps0 false a b = Ok false.
Proof.
  exists [Some one_int], (lf 0 (dt_simple UINT32 1)), (lf 0 (mkDT UINT32 1 0 4 4 BIG_E)). eexists _, _. repeat split; vm_compute; reflexivity.
Qed.
Print Assumptions C20_byte_order_refuted.
(** FINDING.  A string leaf without a NUL is read past its end: the same two letters differ
    because of what follows them in the buffer ... *)
Theorem C20_unterminated_refuted : exists m a b v, nvalue m a = Ok v /\ nvalue m b = Ok v /\ ndiff LITTLE_E m eps0 false a b = Ok true.
Proof.
  exists [Some ["h"; "i"; "x"; zero_byte]%char; Some ["h"; "i"; zero_byte]%char], (lf 0 (dt_simple CHAR8_STR 2)), (lf 1 (dt_simple CHAR8_STR 2)).
  eexists. repeat split; vm_compute; reflexivity.
Qed.
Print Assumptions C20_unterminated_refuted.
(** ... and comparing such a node with itself may leave the buffer. *)
Theorem C20_unterminated_self_refuted : exists m a v, nvalue m a = Ok v /\ ndiff LITTLE_E m eps0 false a a = UB.
Proof. exists [Some ["h"; "i"]%char], (lf 0 (dt_simple CHAR8_STR 2)). eexists. split; vm_compute; reflexivity. Qed.
Print Assumptions C20_unterminated_self_refuted.
(** FINDING.  relaxint looks at the first element only: int32 [1,-1] and uint8 [1,0,0,0] are the same. *)
Theorem C20_relaxint_refuted : exists m a b e es e' es', nvalue m a = Ok (TLeaf (Some (INT32, e, es))) /\ nvalue m b = Ok (TLeaf (Some (UINT8, e', es'))) /\
  map (svalue LITTLE_E) es = [1; -1] /\ map (uvalue LITTLE_E) es' = [1; 0; 0] /\ ndiff LITTLE_E m eps0 true a b = Ok false.
Proof.
  exists [Some (one_int ++ repeat (ascii_of_nat 255) 4); Some one_int], (lf 0 (dt_simple INT32 2)), (lf 1 (dt_simple UINT8 3)). eexists _, _, _, _. repeat split; vm_compute; reflexivity.
Qed.
Print Assumptions C20_relaxint_refuted.
(** With relaxint the first elements of integer leaves of different types are compared as
    numbers, if both types are unsigned or the numbers fit int64 ... *)
Theorem C20_relaxint : forall mach m eps h d h' d' x xs y ys, shows mach m h d (x :: xs) -> shows mach m h' d' (y :: ys) -> dt_id d <> dt_id d' ->
  (x < 2 ^ 63 /\ y < 2 ^ 63 \/ 0 <= x /\ 0 <= y /\ is_unsigned (dt_id d) = true /\ is_unsigned (dt_id d') = true) ->
  ndiff mach m eps true (NLeaf h d) (NLeaf h' d') = Ok (negb (x =? y)) /\ ndiff_compatible mach m eps true (NLeaf h d) (NLeaf h' d') = Ok (negb (x =? y)).
Proof. exact relaxint_law. Qed.
Print Assumptions C20_relaxint.
Definition at0 (b : nat) : hdr := mkH (Some (b, 0)) false.
Example ex_relaxint : let m := [Some one_int; Some (one_int ++ one_int)] in
  shows LITTLE_E m (at0 0) (dt_simple INT32 1) [1] /\ shows LITTLE_E m (at0 1) (dt_simple UINT8 2) [1; 0] /\
  ndiff LITTLE_E m eps0 true (NLeaf (at0 0) (dt_simple INT32 1)) (NLeaf (at0 1) (dt_simple UINT8 2)) = Ok false.
Proof. repeat split; try (eexists; split; vm_compute; reflexivity); vm_compute; reflexivity. Qed.
(** FINDING.  ... but int64 -1 and uint64 2^64 - 1 do not differ. *)
Theorem C20_relaxint_sign_refuted : exists m h d h' d', shows LITTLE_E m h d [-1] /\ shows LITTLE_E m h' d' [2 ^ 64 - 1] /\
  ndiff LITTLE_E m eps0 true (NLeaf h d) (NLeaf h' d') = Ok false.
Proof.
  exists [Some (repeat (ascii_of_nat 255) 8)], (at0 0), (dt_simple INT64 1), (at0 0), (dt_simple UINT64 1).
  repeat split; try (eexists; split; vm_compute; reflexivity); vm_compute; reflexivity.
Qed.
Print Assumptions C20_relaxint_sign_refuted.

(** * C21 *)
(** a.diff_compatible(b) returns false exactly when a is contained in b: every path of a is
    in b, with the same leading elements. *)
Theorem C21_diff_compatible_decides : forall mach m eps a b va vb r, view m a va -> view m b vb ->
  ndiff_compatible mach m eps false a b = Ok r -> (r = false <-> within (leaf_within mach eps) va vb).
Proof. exact diff_compatible_law. Qed.
Print Assumptions C21_diff_compatible_decides.
(** Containment is reflexive, composes, and follows from equality (without floats). *)
Theorem C21_order : forall mach eps, let R := within (leaf_within mach eps) in
  (forall t, names_unique t -> Forall no_float (tleaves t) -> R t t) /\
  (forall t t' t'', Forall no_float (tleaves t) -> R t t' -> R t' t'' -> R t t'') /\
  (forall t t', alike (leaf_alike mach eps) t t' -> R t t').
Proof. exact within_order. Qed.
Print Assumptions C21_order.
Definition part_a : node :=
  NObj null_hdr [(L "n", lf 0 (mkDT INT32 1 0 8 4 DEFAULT_E)); (L "l", NLst null_hdr [lf 0 (mkDT FLOAT64 1 16 8 8 DEFAULT_E)])].
Example C21_instance : exists va vb, view dbuf part_a va /\ view dbuf diff_b vb /\
  ndiff_compatible LITTLE_E dbuf eps0 false part_a diff_b = Ok false /\ ndiff_compatible LITTLE_E dbuf eps0 false diff_b part_a = Ok true.
Proof.
  eexists _, _. split; [|split; [|split; vm_compute; reflexivity]].
  - split; [vm_compute; reflexivity|]. split; each.
  - split; [vm_compute; reflexivity|]. split; each.
Qed.
(** FINDING.  With a tolerance containment does not compose: 0 in eps, eps in 2 eps, but not 0 in 2 eps. *)
Definition half8 (b : nat) : list byte := [zero_byte; zero_byte; zero_byte; zero_byte; zero_byte; zero_byte; ascii_of_nat b; ascii_of_nat 63].
Theorem C21_tolerance_refuted : exists eps m a b c, not_negative eps /\ ndiff_compatible LITTLE_E m eps false a b = Ok false /\
  ndiff_compatible LITTLE_E m eps false b c = Ok false /\ ndiff_compatible LITTLE_E m eps false a c = Ok true.
Proof.
  exists (fvalue LITTLE_E FLOAT64 (half8 224)), [Some (repeat zero_byte 8); Some (half8 224); Some (half8 240)], (lf 0 (dt_simple FLOAT64 1)), (lf 1 (dt_simple FLOAT64 1)), (lf 2 (dt_simple FLOAT64 1)).
  repeat split; vm_compute; reflexivity.
Qed.
Print Assumptions C21_tolerance_refuted.
