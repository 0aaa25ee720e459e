(** C43: node values as JSON text, protocol conduit_json. *)
From Coq Require Import QArith Qabs Floats.SpecFloat.
From Verif Require Import Base DType Path SpecTree Schema Codec CodecFacts Mem MemFacts Node Number Json JsonSpec SpecNode
  NodeSet NodeAlloc SchemaInv NodeHist JsonFacts JsonRead JsonSchema SaveFacts B64Json B64Facts ValueJson FloatText
  FloatFacts ValueFacts ValueText ValueBack RoundFacts JFloat.
Local Open Scope Z_scope.

(** For every readable node whose names can be written as JSON strings, whose
    strings are contiguous NUL terminated text without backslashes and whose floats
    survive their own text, printed with any white space: the text is strict JSON,
    and reading it into any node gives the values that were written, with the types, the
    lengths and the order, in memory the node owns; "default" byte order has
    become the machine's. *)
Theorem C43_round_trip : forall F parse mach ind pad eoe depth m src v,
  reads_json parse -> mach <> DEFAULT_E -> Forall white pad -> Forall white eoe ->
  nvalue m src = Ok v -> names_unique (nschema src) -> all_names json_name (nschema src) ->
  Forall layout_back (tleaves (nschema src)) -> Forall (value_back F) (tleaves v) ->
  exists text, node_json F mach true ind pad eoe m src depth = Ok text /\
    (exists jv, strict_json jv text) /\
    forall m2 dest, owned_ok m2 dest -> tidy dest ->
      exists m3 r, nfrom_json F mach parse true m2 dest text = Ok (m3, r) /\
        nvalue m3 r = Ok (tmap (file_order mach) v) /\
        owned_ok m3 r /\ extends m2 m3 (owned_blocks dest).
Proof.
  intros F parse mach ind pad eoe depth m src v P M Wp We E U N Lb V.
  destruct (detailed_round_trip F mach M parse ind pad eoe depth m src v P Wp We E U N Lb V) as (t & E1 & E2 & E3).
  exists t. split; [exact E1|]. split; [eexists; exact E2|exact E3].
Qed.
Print Assumptions C43_round_trip.

(** A node that meets the hypotheses: strided integers, floats of both types, a string
    with a quote and a line break, an empty leaf, an empty list. *)
Definition dbl (s : bool) (n d : Z) : list byte := float_bytes LITTLE_E FLOAT64 (nearest 53 1024 s n d).
Definition flt (s : bool) (n d : Z) : list byte := float_bytes LITTLE_E FLOAT32 (nearest 24 128 s n d).
Definition vj_mem : mem :=
  [Some (L "abcdefghijklmnop"); Some (L "h" ++ [dquote; c_nl; zero_byte; zero_byte]);
   Some (dbl false 1 10 ++ dbl true 25 100000 ++ dbl false (10 ^ 20) 1); Some (flt true 3 2)].
Definition vj_node : node :=
  NObj null_hdr
    [(L "x y", NLst null_hdr [NLeaf (mkH (Some (0%nat, 0)) false) (mkDT UINT16 3 2 4 2 DEFAULT_E);
                               NLeaf null_hdr dt_empty; NLst null_hdr []]);
     (L "f", NLeaf (mkH (Some (2%nat, 0)) false) (mkDT FLOAT64 3 0 8 8 LITTLE_E));
     (L "g", NLeaf (mkH (Some (3%nat, 0)) false) (mkDT FLOAT32 1 0 4 4 LITTLE_E));
     (L "i", NLeaf (mkH (Some (0%nat, 0)) false) (mkDT INT8 1 3 1 1 LITTLE_E));
     (L "s/t", NLeaf (mkH (Some (1%nat, 0)) true) (mkDT CHAR8_STR 5 0 1 1 BIG_E))].
Lemma L_digits t : forallb num_char t = true -> t <> [] -> digits t.
Proof.
  intros H N. split; [exact N|]. rewrite Forall_forall. intros c I. rewrite forallb_forall in H.
  apply num_char_digit, H, I.
Qed.
Ltac num_lit s i f e := apply (modest_number s i f e);
  [first [left; reflexivity|right; reflexivity]|apply L_digits; [reflexivity|discriminate]
  |first [left; reflexivity|right; discriminate]
  |first [left; reflexivity|right; eexists; split; [reflexivity|apply L_digits; [reflexivity|discriminate]]]
  |idtac|vm_compute; repeat constructor].
Example vj_floats : Forall (float_back (libc LITTLE_E) FLOAT64) [dbl false 1 10; dbl true 25 100000; dbl false (10 ^ 20) 1] /\
  float_back (libc LITTLE_E) FLOAT32 (flt true 3 2).
Proof.
  assert (K : forall t x s, f_text (libc LITTLE_E) t x = s -> number s /\ modest s ->
    existsb (fun c => existsb (Ascii.eqb c) (L ".eE")) s = true -> f_read (libc LITTLE_E) t s = x ->
    float_back (libc LITTLE_E) t x).
  { intros t x s <- [A B] C D. split; [exact A|]. split; [exact B|]. split; [|exact D].
    apply Exists_exists. apply existsb_exists in C. destruct C as (c & I & C). exists c. split; [exact I|].
    apply existsb_exists in C. destruct C as (c' & I' & C). apply Ascii.eqb_eq in C. subst. exact I'. }
  split; [constructor; [|constructor; [|constructor; [|constructor]]]|].
  - apply (K _ _ (L "0.1")); try (vm_compute; reflexivity). num_lit (L "") (L "0") (L ".1") (L ""). left. reflexivity.
  - apply (K _ _ (L "-0.00025")); try (vm_compute; reflexivity). num_lit (L "-") (L "0") (L ".00025") (L ""). left. reflexivity.
  - apply (K _ _ (L "1e+20")); try (vm_compute; reflexivity). num_lit (L "") (L "1") (L "") (L "e+20").
    right. exists "e"%char, (L "+"), (L "20"). split; [reflexivity|]. split; [left; reflexivity|]. split; [cbn; tauto|].
    split; [apply L_digits; [reflexivity|discriminate]|]. intros _. vm_compute. discriminate.
  - apply (K _ _ (L "-1.5")); try (vm_compute; reflexivity). num_lit (L "-") (L "1") (L ".5") (L ""). left. reflexivity.
Qed.
Definition vj_tree : tree leafval := TObj
  [(L "x y", TList [TLeaf (Some (UINT16, DEFAULT_E, [L "cd"; L "gh"; L "kl"])); TLeaf None; TList []]);
   (L "f", TLeaf (Some (FLOAT64, LITTLE_E, [dbl false 1 10; dbl true 25 100000; dbl false (10 ^ 20) 1])));
   (L "g", TLeaf (Some (FLOAT32, LITTLE_E, [flt true 3 2])));
   (L "i", TLeaf (Some (INT8, LITTLE_E, [L "d"])));
   (L "s/t", TLeaf (Some (CHAR8_STR, BIG_E, [L "h"; [dquote]; [c_nl]; [zero_byte]; [zero_byte]])))].
Example vj_hyps : nvalue vj_mem vj_node = Ok vj_tree /\ names_unique (nschema vj_node) /\
  all_names json_name (nschema vj_node) /\ Forall layout_back (tleaves (nschema vj_node)) /\
  Forall (value_back (libc LITTLE_E)) (tleaves vj_tree).
Proof.
  split; [vm_compute; reflexivity|]. split; [|split; [|split]].
  - constructor.
    + cbn. repeat (constructor; [cbn; intuition discriminate|]). constructor.
    + repeat constructor.
  - constructor. repeat constructor; try discriminate.
  - cbn [vj_node nschema tleaves map fst snd flat_map concat app].
    repeat (constructor; [split; [first [left; reflexivity|right; repeat split; vm_compute; congruence]|split; cbn; intros; try discriminate; reflexivity || lia]|]).
    constructor.
  - destruct vj_floats as [A B]. unfold vj_tree. cbn [tleaves map fst snd flat_map concat app].
    constructor; [intros X; discriminate X|]. constructor; [exact I|]. constructor; [intros _; exact A|].
    constructor; [intros _; constructor; [exact B|constructor]|]. constructor; [intros X; discriminate X|].
    constructor; [|constructor]. exists [ "h"%char; dquote; c_nl], 1%nat. split; [reflexivity|].
    repeat (constructor; [split; [discriminate|first [right; vm_compute; discriminate|left; cbn; tauto]]|]). constructor.
Qed.
Example vj_run :
  match node_json (libc LITTLE_E) LITTLE_E true 2 (L " ") [c_nl] vj_mem vj_node 0 with
  | Ok text =>
      match nfrom_json (libc LITTLE_E) LITTLE_E json_read true vj_mem nempty text with
      | Ok (m2, r) => nvalue m2 r = Ok (tmap (file_order LITTLE_E) vj_tree)
      | _ => False
      end
  | _ => False
  end.
Proof. vm_compute. reflexivity. Qed.

(** ** Which floats survive their text *)

(** With printf %.15g and rapidjson's reader, every finite float32, zeros and subnormal
    numbers included. *)
Theorem C43_float32 : forall mach x q,
  Z.of_nat (length x) = 4 -> float_value (fvalue mach FLOAT32 x) = Some q -> float_back (libc mach) FLOAT32 x.
Proof. exact float32_back. Qed.
Print Assumptions C43_float32.
(** Every float64 that is a whole number of at most 15 digits. *)
Theorem C43_whole_float64 : forall mach x q z,
  Z.of_nat (length x) = 8 -> float_value (fvalue mach FLOAT64 x) = Some q -> (q == inject_Z z)%Q -> Z.abs z < 10 ^ 15 ->
  float_back (libc mach) FLOAT64 x.
Proof. exact whole_back. Qed.
Print Assumptions C43_whole_float64.
(** Any other float64 between 10^-280 and 10^305 comes back within 6 parts in 10^15; what
    comes back has the same text, and survives every later trip. *)
Theorem C43_float64 : forall mach x q,
  Z.of_nat (length x) = 8 -> float_value (fvalue mach FLOAT64 x) = Some q ->
  ((10 # 1) ^ (-280) <= Qabs q)%Q -> (Qabs q <= (10 # 1) ^ 305)%Q ->
  let x' := f_read (libc mach) FLOAT64 (f_text (libc mach) FLOAT64 x) in
  f_text (libc mach) FLOAT64 x' = f_text (libc mach) FLOAT64 x /\ float_back (libc mach) FLOAT64 x' /\
  exists q', float_value (fvalue mach FLOAT64 x') = Some q' /\ (Qabs (q' - q) <= (6 # 1000000000000000) * Qabs q)%Q.
Proof. exact float64_again. Qed.
Print Assumptions C43_float64.
(** So a node whose floats are finite float32 values and whole numbers in float64 comes back
    exactly, without an assumption on the float conversions. *)
Definition exact_float (mach : endian) (t : tid) (x : list byte) : Prop :=
  exists q, float_value (fvalue mach t x) = Some q /\
    (t = FLOAT32 /\ Z.of_nat (length x) = 4 \/
     t = FLOAT64 /\ Z.of_nat (length x) = 8 /\ exists z, (q == inject_Z z)%Q /\ Z.abs z < 10 ^ 15).
Definition exact_value (mach : endian) (lv : leafval) : Prop :=
  match lv with
  | None => True
  | Some (CHAR8_STR, _, es) => exists s k, concat es = s ++ repeat zero_byte (S k) /\ Forall text_char s
  | Some (t, _, es) => is_float t = true -> Forall (exact_float mach t) es
  end.
Theorem C43_exact_floats : forall parse mach ind pad eoe depth m src v,
  reads_json parse -> mach <> DEFAULT_E -> Forall white pad -> Forall white eoe ->
  nvalue m src = Ok v -> names_unique (nschema src) -> all_names json_name (nschema src) ->
  Forall layout_back (tleaves (nschema src)) -> Forall (exact_value mach) (tleaves v) ->
  exists text, node_json (libc mach) mach true ind pad eoe m src depth = Ok text /\
    (exists jv, strict_json jv text) /\
    forall m2 dest, owned_ok m2 dest -> tidy dest ->
      exists m3 r, nfrom_json (libc mach) mach parse true m2 dest text = Ok (m3, r) /\
        nvalue m3 r = Ok (tmap (file_order mach) v) /\
        owned_ok m3 r /\ extends m2 m3 (owned_blocks dest).
Proof.
  intros parse mach ind pad eoe depth m src v P M Wp We E U N Lb V. apply C43_round_trip; try assumption.
  eapply Forall_impl; [|exact V]. intros [[[t e] es]|] X; [|exact I].
  assert (K : forall x, exact_float mach t x -> float_back (libc mach) t x).
  { intros x (q & Q & [[-> Ln]|(-> & Ln & z & Z1 & Z2)]); [exact (float32_back mach x q Ln Q)|exact (whole_back mach x q z Ln Q Z1 Z2)]. }
  destruct t; try exact X; intros T; (eapply Forall_impl; [exact K|exact (X T)]).
Qed.
Print Assumptions C43_exact_floats.

(** One tenth, the smallest float32 and the largest are exact; so are 123456789012345 and
    minus zero. *)
Example C43_exact_values :
  Forall (exact_float LITTLE_E FLOAT32) [flt false 1 10; float_bytes LITTLE_E FLOAT32 (S754_finite true 1 (-149)); float_bytes LITTLE_E FLOAT32 (S754_finite false (2 ^ 24 - 1) 104)] /\
  Forall (exact_float LITTLE_E FLOAT64) [dbl true 123456789012345 1; float_bytes LITTLE_E FLOAT64 (S754_zero true)].
Proof.
  split; (repeat (constructor; [eexists; split; [vm_compute; reflexivity|]|]); [..|constructor]); [left; split; reflexivity..| |].
  - right. split; [reflexivity|]. split; [reflexivity|]. exists (-123456789012345). split; vm_compute; reflexivity.
  - right. split; [reflexivity|]. split; [reflexivity|]. exists 0. split; vm_compute; reflexivity.
Qed.
(** One third in double precision is in the range, and comes back changed. *)
Example C43_third : let x := dbl false 1 3 in let x' := f_read (libc LITTLE_E) FLOAT64 (f_text (libc LITTLE_E) FLOAT64 x) in
  (exists q, float_value (fvalue LITTLE_E FLOAT64 x) = Some q /\ ((10 # 1) ^ (-280) <= Qabs q)%Q /\ (Qabs q <= (10 # 1) ^ 305)%Q) /\ x' <> x.
Proof.
  split; [eexists; split; [vm_compute; reflexivity|split; vm_compute; discriminate]|vm_compute; discriminate].
Qed.

(** ** Where it fails *)

Definition le_libc : floats := libc LITTLE_E.
Definition write (m : mem) (n : node) : outcome str := node_json le_libc LITTLE_E true 2 (L " ") [c_nl] m n 0.
Definition read (m : mem) (t : str) : outcome (mem * node) := nfrom_json le_libc LITTLE_E json_read true m nempty t.
Definition own0 (bs : list byte) (d : dtype) : mem * node :=
  ([Some bs], NObj null_hdr [(L "a", NLeaf (mkH (Some (0%nat, 0)) true) d)]).

(** A backslash followed by n in a string comes back as a line break. *)
Theorem C43_backslash_refuted : exists m src v text m2 r v2,
  nvalue m src = Ok v /\ write m src = Ok text /\ read m text = Ok (m2, r) /\ nvalue m2 r = Ok v2 /\
  v = TObj [(L "a", TLeaf (Some (CHAR8_STR, LITTLE_E, [[bslash]; L "n"; [zero_byte]])))] /\
  v2 = TObj [(L "a", TLeaf (Some (CHAR8_STR, LITTLE_E, [[c_nl]; [zero_byte]; [zero_byte]])))].
Proof.
  exists (fst (own0 [bslash; "n"%char; zero_byte] (mkDT CHAR8_STR 3 0 1 1 LITTLE_E))),
         (snd (own0 [bslash; "n"%char; zero_byte] (mkDT CHAR8_STR 3 0 1 1 LITTLE_E))).
  do 5 eexists. repeat (split; [vm_compute; reflexivity|]). vm_compute. reflexivity.
Qed.
Print Assumptions C43_backslash_refuted.

(** A string that ends in a backslash: the text that was written cannot be read. *)
Theorem C43_last_backslash_refuted : exists m src v text,
  nvalue m src = Ok v /\ write m src = Ok text /\ read m text = Err.
Proof.
  exists [Some [bslash; zero_byte]; Some (L "z")],
    (NObj null_hdr [(L "a", NLeaf (mkH (Some (0%nat, 0)) true) (mkDT CHAR8_STR 2 0 1 1 LITTLE_E));
                    (L "b", NLeaf (mkH (Some (1%nat, 0)) true) (mkDT UINT8 1 0 1 1 LITTLE_E))]).
  do 2 eexists. repeat (split; [vm_compute; reflexivity|]). vm_compute. reflexivity.
Qed.
Print Assumptions C43_last_backslash_refuted.

(** A single infinity or NaN is written as a string, which the reader rejects.  In an
    array of several it is accepted. *)
Definition dbls (xs : list spec_float) : mem * node :=
  own0 (flat_map (float_bytes LITTLE_E FLOAT64) xs) (mkDT FLOAT64 (Z.of_nat (length xs)) 0 8 8 LITTLE_E).
Theorem C43_infinity_refuted : exists m src v text,
  nvalue m src = Ok v /\ write m src = Ok text /\ read m text = Err.
Proof.
  exists (fst (dbls [S754_infinity false])), (snd (dbls [S754_infinity false])).
  do 2 eexists. repeat (split; [vm_compute; reflexivity|]). vm_compute. reflexivity.
Qed.
Print Assumptions C43_infinity_refuted.
Example C43_infinities_read : exists text m2 r, write (fst (dbls [S754_infinity true; S754_nan])) (snd (dbls [S754_infinity true; S754_nan])) = Ok text /\
  read (fst (dbls [S754_infinity true; S754_nan])) text = Ok (m2, r) /\
  nvalue m2 r = nvalue (fst (dbls [S754_infinity true; S754_nan])) (snd (dbls [S754_infinity true; S754_nan])).
Proof. do 3 eexists. repeat (split; [vm_compute; reflexivity|]). vm_compute. reflexivity. Qed.

(** 15 digits do not tell all numbers apart: two different doubles, one text. *)
Theorem C43_precision_refuted : exists m1 n1 m2 n2 v1 v2 text,
  nvalue m1 n1 = Ok v1 /\ nvalue m2 n2 = Ok v2 /\ v1 <> v2 /\ write m1 n1 = Ok text /\ write m2 n2 = Ok text.
Proof.
  exists (fst (dbls [nearest 53 1024 false 1 3])), (snd (dbls [nearest 53 1024 false 1 3])),
         (fst (dbls [nearest 53 1024 false (333333333333333) (10 ^ 15)])),
         (snd (dbls [nearest 53 1024 false (333333333333333) (10 ^ 15)])).
  do 3 eexists. split; [vm_compute; reflexivity|]. split; [vm_compute; reflexivity|]. split; [vm_compute; discriminate|].
  split; vm_compute; reflexivity.
Qed.
Print Assumptions C43_precision_refuted.

(** The largest finite double comes back as infinity. *)
Theorem C43_largest_refuted : exists m src v text m2 r,
  nvalue m src = Ok v /\ write m src = Ok text /\ read m text = Ok (m2, r) /\
  v = TObj [(L "a", TLeaf (Some (FLOAT64, LITTLE_E, [float_bytes LITTLE_E FLOAT64 (S754_finite false (2 ^ 53 - 1) 971)])))] /\
  nvalue m2 r =
    Ok (TObj [(L "a", TLeaf (Some (FLOAT64, LITTLE_E, [float_bytes LITTLE_E FLOAT64 (S754_infinity false)])))]).
Proof.
  exists (fst (dbls [S754_finite false (2 ^ 53 - 1) 971])), (snd (dbls [S754_finite false (2 ^ 53 - 1) 971])).
  do 4 eexists. repeat (split; [vm_compute; reflexivity|]). vm_compute. reflexivity.
Qed.
Print Assumptions C43_largest_refuted.

(** Characters after a NUL inside a string leaf are lost. *)
Theorem C43_nul_refuted : exists m src v text m2 r,
  nvalue m src = Ok v /\ write m src = Ok text /\ read m text = Ok (m2, r) /\
  v = TObj [(L "a", TLeaf (Some (CHAR8_STR, LITTLE_E, [L "x"; [zero_byte]; L "y"; [zero_byte]])))] /\
  nvalue m2 r = Ok (TObj [(L "a", TLeaf (Some (CHAR8_STR, LITTLE_E, [L "x"; [zero_byte]; [zero_byte]; [zero_byte]])))]).
Proof.
  exists (fst (own0 (L "x" ++ zero_byte :: L "y" ++ [zero_byte]) (mkDT CHAR8_STR 4 0 1 1 LITTLE_E))),
         (snd (own0 (L "x" ++ zero_byte :: L "y" ++ [zero_byte]) (mkDT CHAR8_STR 4 0 1 1 LITTLE_E))).
  do 4 eexists. repeat (split; [vm_compute; reflexivity|]). vm_compute. reflexivity.
Qed.
Print Assumptions C43_nul_refuted.

(** A strided string is printed from its first element as if contiguous. *)
Theorem C43_strided_string_refuted : exists m src v text m2 r,
  nvalue m src = Ok v /\ write m src = Ok text /\ read m text = Ok (m2, r) /\
  v = TObj [(L "a", TLeaf (Some (CHAR8_STR, LITTLE_E, [L "x"; [zero_byte]])))] /\
  nvalue m2 r = Ok (TObj [(L "a", TLeaf (Some (CHAR8_STR, DEFAULT_E, [L "x"; L "y"; [zero_byte]])))]).
Proof.
  exists (fst (own0 (L "xy" ++ [zero_byte]) (mkDT CHAR8_STR 2 0 2 1 LITTLE_E))),
         (snd (own0 (L "xy" ++ [zero_byte]) (mkDT CHAR8_STR 2 0 2 1 LITTLE_E))).
  do 4 eexists. repeat (split; [vm_compute; reflexivity|]). vm_compute. reflexivity.
Qed.
Print Assumptions C43_strided_string_refuted.

(** An array whose stride is 0, so that all elements are the same, can be read but not
    printed. *)
Theorem C43_stride_zero_refuted : exists m src v, nvalue m src = Ok v /\ write m src = Err.
Proof.
  exists (fst (own0 (L "x") (mkDT UINT8 3 0 0 1 LITTLE_E))), (snd (own0 (L "x") (mkDT UINT8 3 0 0 1 LITTLE_E))).
  eexists. split; vm_compute; reflexivity.
Qed.
Print Assumptions C43_stride_zero_refuted.

(** Names are written without escaping: one with a quote makes a text that is not JSON. *)
Theorem C43_quote_in_name_refuted : exists m src v text,
  nvalue m src = Ok v /\ write m src = Ok text /\ json_read text = Err /\ read m text = Err.
Proof.
  exists [Some (L "a")], (NObj null_hdr [([dquote], NLeaf (mkH (Some (0%nat, 0)) true) (mkDT UINT8 1 0 1 1 LITTLE_E))]).
  do 2 eexists. repeat (split; [vm_compute; reflexivity|]). vm_compute. reflexivity.
Qed.
Print Assumptions C43_quote_in_name_refuted.

(** A child called "dtype": the object comes back as a list. *)
Theorem C43_child_named_dtype_refuted : exists m src v text m2 r,
  nvalue m src = Ok v /\ write m src = Ok text /\ read m text = Ok (m2, r) /\
  v = TObj [(L "dtype", TLeaf (Some (UINT8, LITTLE_E, [L "a"])))] /\
  nvalue m2 r = Ok (TList [TLeaf (Some (UINT8, LITTLE_E, [L "a"]))]).
Proof.
  exists [Some (L "a")], (NObj null_hdr [(L "dtype", NLeaf (mkH (Some (0%nat, 0)) true) (mkDT UINT8 1 0 1 1 LITTLE_E))]).
  do 4 eexists. repeat (split; [vm_compute; reflexivity|]). vm_compute. reflexivity.
Qed.
Print Assumptions C43_child_named_dtype_refuted.

(** The short form of a schema, a type name alone, read without data: the node says it
    holds a uint32 but has no memory. *)
Theorem C43_bare_type_refuted : exists text v m r h d,
  json_read text = Ok v /\ read [] text = Ok (m, r) /\ r = NObj null_hdr [(L "a", NLeaf h d)] /\
  dt_id d = UINT32 /\ dt_n d = 1 /\ h_data h = None /\ nvalue m r = UB.
Proof.
  exists (L "{" ++ quoted (L "a") ++ L ":" ++ quoted (L "uint32") ++ L "}").
  do 5 eexists. repeat (split; [vm_compute; reflexivity|]). vm_compute. reflexivity.
Qed.
Print Assumptions C43_bare_type_refuted.
(** The long form allocates it. *)
Example C43_long_type : exists m r,
  read [] (L "{" ++ quoted (L "a") ++ L ":{" ++ quoted (L "dtype") ++ L ":" ++ quoted (L "uint32") ++ L "}}") = Ok (m, r) /\
  nvalue m r = Ok (TObj [(L "a", TLeaf (Some (UINT32, DEFAULT_E, [repeat zero_byte 4])))]).
Proof. do 2 eexists. split; vm_compute; reflexivity. Qed.
