(** C44: plain JSON, protocol json. *)
From Coq Require Import QArith Qabs Floats.SpecFloat Lia.
From Verif Require Import Base DType Path SpecTree Schema Codec CodecFacts Mem MemFacts Node Number ArrayOps ArrayOpsFacts
  Json JsonSpec SpecNode NodeSet NodeAlloc SchemaInv NodeHist JsonFacts JsonRead JsonSchema SaveFacts B64Json B64Facts
  ValueJson FloatText FloatFacts ValueFacts ValueText ValueBack PureJson PureText RoundFacts JFloat.
Local Open Scope Z_scope.

(** Reading any JSON text, with or without comments and unquoted words, whose value is an
    object or an array gives the node value that [reads] assigns to it, in memory the node
    owns. *)
Theorem C44_read : forall F mach parse jv text clean v m dest,
  sized F -> reads_json parse -> container jv -> loose_json jv text clean -> Forall modest (numbers jv) ->
  reads F mach jv v -> owned_ok m dest -> tidy dest ->
  exists m2 r, nfrom_json F mach parse false m dest text = Ok (m2, r) /\
    nvalue m2 r = Ok v /\ owned_ok m2 r /\ extends m m2 (owned_blocks dest).
Proof.
  intros F mach parse jv text clean v m dest Fs P C D M R Ow Td.
  exact (pure_read F mach Fs parse jv text clean v m dest P C D M R Ow Td).
Qed.
Print Assumptions C44_read.

(** The text of a node is strict JSON that says what the node holds. *)
Theorem C44_text : forall F mach ind pad eoe depth m src v,
  Forall white pad -> Forall white eoe ->
  nvalue m src = Ok v -> all_names (Forall json_plain) (nschema src) ->
  Forall layout_back (tleaves (nschema src)) -> Forall (writable F) (tleaves v) ->
  exists text jv, node_json F mach false ind pad eoe m src depth = Ok text /\ strict_json jv text /\ says F mach v jv.
Proof.
  intros F mach ind pad eoe depth m src v Wp We E N Lb W. pose proof (shown_all F m src v E N Lb W) as P.
  destruct (pure_text F mach ind pad eoe m Wp We src v P E depth) as (t & Et & Sp).
  exists t, (pure_val F mach v). split; [exact Et|]. split; [apply spaced_strict, Sp|apply (pure_says F mach m src v P E)].
Qed.
Print Assumptions C44_text.

(** Reading that text into any node gives the same tree with int64, float64 (uint64 for
    a single big number) and strings for the leaves. *)
Theorem C44_round_trip : forall F mach parse ind pad eoe depth m src v v',
  sized F -> reads_json parse -> Forall white pad -> Forall white eoe ->
  nvalue m src = Ok v -> (forall h d, src <> NLeaf h d) -> names_unique (nschema src) ->
  all_names (Forall json_plain) (nschema src) ->
  Forall layout_back (tleaves (nschema src)) -> Forall (writable F) (tleaves v) -> kept F mach v v' ->
  exists text, node_json F mach false ind pad eoe m src depth = Ok text /\
    forall m2 dest, owned_ok m2 dest -> tidy dest ->
      exists m3 r, nfrom_json F mach parse false m2 dest text = Ok (m3, r) /\
        nvalue m3 r = Ok v' /\ owned_ok m3 r /\ extends m2 m3 (owned_blocks dest).
Proof.
  intros F mach parse ind pad eoe depth m src v v' Fs P Wp We E NL U N Lb W K.
  exact (pure_round_trip F mach parse ind pad eoe depth m src v v' Fs P Wp We E NL U N Lb W K).
Qed.
Print Assumptions C44_round_trip.

(** With printf %.15g and rapidjson's reader, every finite float32, and every finite float64
    that is zero or between 10^-280 and 10^305, can be written; what comes back as a float64 is within 6 parts in
    10^15 of it. *)
Theorem C44_floats : forall mach t x q,
  is_float t = true -> Z.of_nat (length x) = default_bytes t -> float_value (fvalue mach t x) = Some q ->
  (q == 0)%Q \/ t = FLOAT32 \/ (((10 # 1) ^ (-280) <= Qabs q)%Q /\ (Qabs q <= (10 # 1) ^ 305)%Q) ->
  float_shown (libc mach) t x /\
  exists q', float_value (fvalue mach FLOAT64 (f_read (libc mach) FLOAT64 (f_text (libc mach) t x))) = Some q' /\
    (Qabs (q' - q) <= (6 # 1000000000000000) * Qabs q)%Q.
Proof.
  intros mach t x q T Ln Q R. destruct (float_near mach t x q T Ln Q R) as (A & B & C & D). split; [split; [exact A|split; [exact B|exact C]]|exact D].
Qed.
Print Assumptions C44_floats.
Example C44_third : float_value (fvalue BIG_E FLOAT32 (float_bytes BIG_E FLOAT32 (nearest 24 128 false 1 3))) <> None.
Proof. vm_compute. discriminate. Qed.

(** ** The hypotheses can be met *)

Lemma libc_sized mach : sized (libc mach).
Proof.
  intros t s T. cbn [libc f_read]. unfold float_bytes. rewrite encode_length. destruct t; try discriminate T; reflexivity.
Qed.
Definition le_libc : floats := libc LITTLE_E.
Definition write (m : mem) (n : node) : outcome str := node_json le_libc LITTLE_E false 2 (L " ") [c_nl] m n 0.
Definition read (m : mem) (t : str) : outcome (mem * node) := nfrom_json le_libc LITTLE_E json_read false m nempty t.
Definition dbl (s : bool) (n d : Z) : list byte := float_bytes LITTLE_E FLOAT64 (nearest 53 1024 s n d).
Definition flt (s : bool) (n d : Z) : list byte := float_bytes LITTLE_E FLOAT32 (nearest 24 128 s n d).
Definition i64 (z : Z) : list byte := encode LITTLE_E INT64 z.

Definition pj_mem : mem :=
  [Some (L "abcdefghijklmnop"); Some ([bslash; "n"%char; dquote; zero_byte; zero_byte]);
   Some (flt true 3 2 ++ flt false 1 8); Some (repeat "255"%char 8)].
Definition pj_node : node :=
  NObj null_hdr
    [(L "x y", NLst null_hdr [NLeaf (mkH (Some (0%nat, 0)) false) (mkDT UINT16 3 2 4 2 DEFAULT_E);
                               NLeaf null_hdr dt_empty; NLst null_hdr []]);
     (L "dtype", NLeaf (mkH (Some (2%nat, 0)) false) (mkDT FLOAT32 2 0 4 4 LITTLE_E));
     (L "i", NLeaf (mkH (Some (3%nat, 0)) false) (mkDT INT8 1 3 1 1 LITTLE_E));
     (L "u", NLeaf (mkH (Some (3%nat, 0)) false) (mkDT UINT64 1 0 8 8 LITTLE_E));
     (L "s/t", NLeaf (mkH (Some (1%nat, 0)) true) (mkDT CHAR8_STR 5 0 1 1 BIG_E))].
Definition pj_tree : tree leafval := TObj
  [(L "x y", TList [TLeaf (Some (UINT16, DEFAULT_E, [L "cd"; L "gh"; L "kl"])); TLeaf None; TList []]);
   (L "dtype", TLeaf (Some (FLOAT32, LITTLE_E, [flt true 3 2; flt false 1 8])));
   (L "i", TLeaf (Some (INT8, LITTLE_E, [["255"%char]])));
   (L "u", TLeaf (Some (UINT64, LITTLE_E, [repeat "255"%char 8])));
   (L "s/t", TLeaf (Some (CHAR8_STR, BIG_E, [[bslash]; L "n"; [dquote]; [zero_byte]; [zero_byte]])))].
Definition pj_back : tree leafval := TObj
  [(L "x y", TList [TLeaf (Some (INT64, DEFAULT_E, [i64 25699; i64 26727; i64 27755])); TLeaf None; TList []]);
   (L "dtype", TLeaf (Some (FLOAT64, DEFAULT_E, [dbl true 3 2; dbl false 1 8])));
   (L "i", TLeaf (Some (INT64, DEFAULT_E, [i64 (-1)])));
   (L "u", TLeaf (Some (UINT64, DEFAULT_E, [repeat "255"%char 8])));
   (L "s/t", TLeaf (Some (CHAR8_STR, DEFAULT_E, [[bslash]; L "n"; [dquote]; [zero_byte]])))].
Lemma L_digits t : forallb num_char t = true -> t <> [] -> digits t.
Proof.
  intros H N. split; [exact N|]. rewrite Forall_forall. intros c I. rewrite forallb_forall in H.
  apply num_char_digit, H, I.
Qed.
Ltac num_lit s i f e := apply (modest_number s i f e);
  [first [left; reflexivity|right; reflexivity]|apply L_digits; [reflexivity|discriminate]
  |first [left; reflexivity|right; discriminate]
  |first [left; reflexivity|right; eexists; split; [reflexivity|apply L_digits; [reflexivity|discriminate]]]
  |idtac|vm_compute; repeat constructor].
Example pj_floats : Forall (float_shown le_libc FLOAT32) [flt true 3 2; flt false 1 8].
Proof.
  assert (K : forall t x s, f_text le_libc t x = s -> number s /\ modest s ->
    existsb (fun c => existsb (Ascii.eqb c) (L ".eE")) s = true -> float_shown le_libc t x).
  { intros t x s <- [A B] C. split; [exact A|]. split; [exact B|].
    apply Exists_exists. apply existsb_exists in C. destruct C as (c & I & C). exists c. split; [exact I|].
    apply existsb_exists in C. destruct C as (c' & I' & C). apply Ascii.eqb_eq in C. subst. exact I'. }
  constructor; [|constructor; [|constructor]].
  - apply (K _ _ (L "-1.5")); try (vm_compute; reflexivity). num_lit (L "-") (L "1") (L ".5") (L ""). left. reflexivity.
  - apply (K _ _ (L "0.125")); try (vm_compute; reflexivity). num_lit (L "") (L "0") (L ".125") (L ""). left. reflexivity.
Qed.
Example pj_hyps : nvalue pj_mem pj_node = Ok pj_tree /\ names_unique (nschema pj_node) /\
  all_names (Forall json_plain) (nschema pj_node) /\ Forall layout_back (tleaves (nschema pj_node)) /\
  Forall (writable le_libc) (tleaves pj_tree) /\ kept le_libc LITTLE_E pj_tree pj_back.
Proof.
  split; [vm_compute; reflexivity|]. split; [|split; [|split; [|split]]].
  - constructor.
    + cbn. repeat (constructor; [cbn; intuition discriminate|]). constructor.
    + repeat constructor.
  - constructor. repeat constructor; try discriminate.
  - cbn [pj_node nschema tleaves map fst snd flat_map concat app].
    repeat (constructor; [split; [first [left; reflexivity|right; repeat split; vm_compute; congruence]|split; cbn; intros; try discriminate; reflexivity || lia]|]).
    constructor.
  - unfold pj_tree. cbn [tleaves map fst snd flat_map concat app].
    constructor; [intros X; discriminate X|]. constructor; [exact I|]. constructor; [intros _; exact pj_floats|].
    constructor; [intros X; discriminate X|]. constructor; [intros X; discriminate X|].
    constructor; [|constructor]. exists [bslash; "n"%char; dquote], 1%nat. split; [reflexivity|].
    split; [|discriminate]. repeat (constructor; [right; vm_compute; discriminate|]). constructor.
  - apply kp_object. repeat (constructor; [split; [reflexivity|]|]); [..|constructor]; cbn [fst snd].
    + apply kp_list; [right; apply Exists_cons_tl, Exists_cons_hd; exact (fun x => x)|].
      constructor; [apply kp_leaf, kl_ints; [reflexivity|discriminate|]|].
      * repeat (constructor; [split; [reflexivity|split; vm_compute; reflexivity]|]). constructor.
      * constructor; [apply kp_leaf; constructor|]. constructor; [apply kp_list; [left; reflexivity|constructor]|constructor].
    + apply kp_leaf. replace [dbl true 3 2; dbl false 1 8] with (map (fun x => f_read le_libc FLOAT64 (f_text le_libc FLOAT32 x)) [flt true 3 2; flt false 1 8])
        by (vm_compute; reflexivity). apply kl_floats; [reflexivity|discriminate].
    + apply kp_leaf, kl_ints; [reflexivity|discriminate|].
      constructor; [split; [reflexivity|split; vm_compute; reflexivity]|constructor].
    + apply kp_leaf, kl_big. vm_compute. discriminate.
    + apply kp_leaf. apply (kl_str le_libc LITTLE_E BIG_E _ [bslash; "n"%char; dquote] 1); [reflexivity|].
      cbn. intuition discriminate.
Qed.
Example pj_run : exists text m2 r,
  write pj_mem pj_node = Ok text /\ read pj_mem text = Ok (m2, r) /\ nvalue m2 r = Ok pj_back.
Proof. do 3 eexists. repeat (split; [vm_compute; reflexivity|]). vm_compute. reflexivity. Qed.
(** A text with a comment and unquoted words: [reads] at work. *)
Example pj_words : exists m2 r,
  read [] (L "{ a: [1, 2.5], // words" ++ [c_nl] ++ L "b: {c: d, e: null, f: []}, g: -7}") = Ok (m2, r) /\
  nvalue m2 r = Ok (TObj
    [(L "a", TLeaf (Some (FLOAT64, DEFAULT_E, [dbl false 1 1; dbl false 5 2])));
     (L "b", TObj [(L "c", TLeaf (Some (CHAR8_STR, DEFAULT_E, [L "d"; [zero_byte]]))); (L "e", TLeaf None); (L "f", TList [])]);
     (L "g", TLeaf (Some (INT64, DEFAULT_E, [i64 (-7)])))]).
Proof. do 2 eexists. split; vm_compute; reflexivity. Qed.
Example pj_reads : reads le_libc LITTLE_E
  (JObj [(L "a", JArr [JNum (L "1"); JNum (L "2.5")]); (L "b", JArr [JNull]); (L "c", JNum (L "-7"))])
  (TObj [(L "a", TLeaf (Some (FLOAT64, DEFAULT_E, [dbl false 1 1; dbl false 5 2])));
         (L "b", TList [TLeaf None]); (L "c", TLeaf (Some (INT64, DEFAULT_E, [i64 (-7)])))]).
Proof.
  apply rd_object; [cbn; repeat (constructor; [cbn; intuition discriminate|]); constructor|repeat constructor; cbn; intuition discriminate|].
  repeat (constructor; [split; [reflexivity|]|]); [..|constructor]; cbn [fst snd].
  - replace [dbl false 1 1; dbl false 5 2] with (map (f_read le_libc FLOAT64) [L "1"; L "2.5"]) by (vm_compute; reflexivity).
    apply (rd_nums le_libc LITTLE_E [L "1"; L "2.5"]). apply Exists_cons_tl, Exists_cons_hd. apply number_dot;
      [apply (modest_number (L "") (L "2") (L ".5") (L ""))|apply Exists_cons_tl, Exists_cons_hd; left; reflexivity].
    + left; reflexivity.
    + apply L_digits; [reflexivity|discriminate].
    + right; discriminate.
    + right. exists (L "5"). split; [reflexivity|]. apply L_digits; [reflexivity|discriminate].
    + left; reflexivity.
    + vm_compute; repeat constructor.
  - apply rd_list; [right; apply Exists_cons_hd; exact (fun x => x)|]. constructor; constructor.
  - apply (rd_int le_libc LITTLE_E _ (-7)).
    + exists (L "7"). split; [apply L_digits; [reflexivity|discriminate]|]. right. split; reflexivity.
    + lia.
    + split; vm_compute; reflexivity.
Qed.

(** ** Where it fails *)

(** A list of numbers comes back as one array: the list and its children are gone. *)
Theorem C44_number_list_refuted : exists m src v text m2 r,
  nvalue m src = Ok v /\ write m src = Ok text /\ read m text = Ok (m2, r) /\
  v = TList [TLeaf (Some (INT8, LITTLE_E, [L "A"])); TLeaf (Some (INT8, LITTLE_E, [L "B"]))] /\
  nvalue m2 r = Ok (TLeaf (Some (INT64, DEFAULT_E, [i64 65; i64 66]))).
Proof.
  exists [Some (L "AB")], (NLst null_hdr [NLeaf (mkH (Some (0%nat, 0)) false) (mkDT INT8 1 0 1 1 LITTLE_E);
                                          NLeaf (mkH (Some (0%nat, 0)) false) (mkDT INT8 1 1 1 1 LITTLE_E)]).
  do 4 eexists. repeat (split; [vm_compute; reflexivity|]). vm_compute. reflexivity.
Qed.
Print Assumptions C44_number_list_refuted.

(** So does a list of strings, if the strings look like numbers. *)
Theorem C44_string_list_refuted : exists m src v text m2 r,
  nvalue m src = Ok v /\ write m src = Ok text /\ read m text = Ok (m2, r) /\
  v = TList [TLeaf (Some (CHAR8_STR, LITTLE_E, [L "0"; L "7"; [zero_byte]]));
             TLeaf (Some (CHAR8_STR, LITTLE_E, [L "n"; L "a"; L "n"; [zero_byte]]))] /\
  nvalue m2 r = Ok (TLeaf (Some (FLOAT64, DEFAULT_E, [dbl false 7 1; float_bytes LITTLE_E FLOAT64 S754_nan]))).
Proof.
  exists [Some (L "07" ++ [zero_byte]); Some (L "nan" ++ [zero_byte])],
    (NLst null_hdr [NLeaf (mkH (Some (0%nat, 0)) true) (mkDT CHAR8_STR 3 0 1 1 LITTLE_E);
                    NLeaf (mkH (Some (1%nat, 0)) true) (mkDT CHAR8_STR 4 0 1 1 LITTLE_E)]).
  do 4 eexists. repeat (split; [vm_compute; reflexivity|]). vm_compute. reflexivity.
Qed.
Print Assumptions C44_string_list_refuted.

(** An array without elements comes back as a list. *)
Theorem C44_no_elements_refuted : exists m src v text m2 r,
  nvalue m src = Ok v /\ write m src = Ok text /\ read m text = Ok (m2, r) /\
  v = TObj [(L "a", TLeaf (Some (FLOAT64, LITTLE_E, [])))] /\ nvalue m2 r = Ok (TObj [(L "a", TList [])]).
Proof.
  exists [Some []], (NObj null_hdr [(L "a", NLeaf (mkH (Some (0%nat, 0)) true) (mkDT FLOAT64 0 0 8 8 LITTLE_E))]).
  do 4 eexists. repeat (split; [vm_compute; reflexivity|]). vm_compute. reflexivity.
Qed.
Print Assumptions C44_no_elements_refuted.

(** An array with a number above the int64 range, which is how an uint64 array is
    written, is read with GetInt64: undefined behaviour.  A single such number is fine,
    see [pj_run]. *)
Theorem C44_big_in_array_refuted : exists m src v text,
  nvalue m src = Ok v /\ write m src = Ok text /\ (exists jv, json_read text = Ok jv) /\ read m text = UB.
Proof.
  exists [Some (repeat "255"%char 16)],
    (NObj null_hdr [(L "a", NLeaf (mkH (Some (0%nat, 0)) true) (mkDT UINT64 2 0 8 8 LITTLE_E))]).
  do 2 eexists. split; [vm_compute; reflexivity|]. split; [vm_compute; reflexivity|].
  split; [eexists; vm_compute; reflexivity|]. vm_compute. reflexivity.
Qed.
Print Assumptions C44_big_in_array_refuted.

(** After a string that ends in a backslash the sanitizer takes strings for words and
    words for strings: the next child loses its name. *)
Theorem C44_last_backslash_refuted : exists m src v text m2 r,
  nvalue m src = Ok v /\ write m src = Ok text /\ read m text = Ok (m2, r) /\
  v = TObj [(L "a", TLeaf (Some (CHAR8_STR, LITTLE_E, [[bslash]; [zero_byte]])));
            (L "b", TLeaf (Some (UINT8, LITTLE_E, [L "z"])))] /\
  nvalue m2 r = Ok (TObj [(L "a", TLeaf (Some (CHAR8_STR, DEFAULT_E, [[bslash]; [zero_byte]])));
                          (L "", TLeaf (Some (INT64, DEFAULT_E, [i64 122])))]).
Proof.
  exists [Some [bslash; zero_byte]; Some (L "z")],
    (NObj null_hdr [(L "a", NLeaf (mkH (Some (0%nat, 0)) true) (mkDT CHAR8_STR 2 0 1 1 LITTLE_E));
                    (L "b", NLeaf (mkH (Some (1%nat, 0)) true) (mkDT UINT8 1 0 1 1 LITTLE_E))]).
  do 4 eexists. repeat (split; [vm_compute; reflexivity|]). vm_compute. reflexivity.
Qed.
Print Assumptions C44_last_backslash_refuted.

(** A node that is just a string: its text is JSON for the string, but it is read as the
    empty string. *)
Theorem C44_root_string_refuted : exists m src v text m2 r,
  nvalue m src = Ok v /\ write m src = Ok text /\ json_read text = Ok (JStr (L "ab")) /\
  read m text = Ok (m2, r) /\
  v = TLeaf (Some (CHAR8_STR, LITTLE_E, [L "a"; L "b"; [zero_byte]])) /\
  nvalue m2 r = Ok (TLeaf (Some (CHAR8_STR, DEFAULT_E, [[zero_byte]]))).
Proof.
  exists [Some (L "ab" ++ [zero_byte])], (NLeaf (mkH (Some (0%nat, 0)) true) (mkDT CHAR8_STR 3 0 1 1 LITTLE_E)).
  do 4 eexists. repeat (split; [vm_compute; reflexivity|]). vm_compute. reflexivity.
Qed.
Print Assumptions C44_root_string_refuted.

(** An infinity comes back as a string. *)
Theorem C44_infinity_refuted : exists m src v text m2 r,
  nvalue m src = Ok v /\ write m src = Ok text /\ read m text = Ok (m2, r) /\
  v = TObj [(L "a", TLeaf (Some (FLOAT64, LITTLE_E, [float_bytes LITTLE_E FLOAT64 (S754_infinity true)])))] /\
  nvalue m2 r = Ok (TObj [(L "a", TLeaf (Some (CHAR8_STR, DEFAULT_E, [L "-"; L "i"; L "n"; L "f"; [zero_byte]])))]).
Proof.
  exists [Some (float_bytes LITTLE_E FLOAT64 (S754_infinity true))],
    (NObj null_hdr [(L "a", NLeaf (mkH (Some (0%nat, 0)) true) (mkDT FLOAT64 1 0 8 8 LITTLE_E))]).
  do 4 eexists. repeat (split; [vm_compute; reflexivity|]). vm_compute. reflexivity.
Qed.
Print Assumptions C44_infinity_refuted.

(** Reading, writing and reading again is not the same as reading once: [[1]] becomes [1],
    and true becomes a number of another type. *)
Theorem C44_unstable_refuted : exists text1 m1 n1 text2 m2 n2,
  read [] text1 = Ok (m1, n1) /\ write m1 n1 = Ok text2 /\ read [] text2 = Ok (m2, n2) /\
  text1 = L "[[1]]" /\ nvalue m1 n1 = Ok (TList [TLeaf (Some (INT64, DEFAULT_E, [i64 1]))]) /\
  nvalue m2 n2 = Ok (TLeaf (Some (INT64, DEFAULT_E, [i64 1]))).
Proof. exists (L "[[1]]"). do 5 eexists. repeat (split; [vm_compute; reflexivity|]). vm_compute. reflexivity. Qed.
Print Assumptions C44_unstable_refuted.
Theorem C44_bool_refuted : exists text1 m1 n1 text2 m2 n2,
  read [] text1 = Ok (m1, n1) /\ write m1 n1 = Ok text2 /\ read [] text2 = Ok (m2, n2) /\
  text1 = L "{a: true}" /\ nvalue m1 n1 = Ok (TObj [(L "a", TLeaf (Some (UINT8, DEFAULT_E, [["001"%char]])))]) /\
  nvalue m2 n2 = Ok (TObj [(L "a", TLeaf (Some (INT64, DEFAULT_E, [i64 1])))]).
Proof. exists (L "{a: true}"). do 5 eexists. repeat (split; [vm_compute; reflexivity|]). vm_compute. reflexivity. Qed.
Print Assumptions C44_bool_refuted.
