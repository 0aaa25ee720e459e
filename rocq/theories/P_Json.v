(** C24: writing a schema as JSON and reading it back.  C30: json_sanitize. *)
From Coq Require Import Lia.
From Verif Require Import Base DType Codec SpecTree Schema SchemaInv SchemaMore SchemaLaws Json JsonSpec
  JsonFacts JsonRead JsonSchema.
Local Open Scope list_scope.

(** * C30 *)

(** Strict JSON (an object or an array) comes out as it went in. *)
Theorem C30_strict_json_unchanged : forall v t,
  container v -> strict_json v t -> json_sanitize t = t.
Proof. intros v t K D. exact (sanitize_doc false v t t K D). Qed.
Print Assumptions C30_strict_json_unchanged.

(** Loose JSON becomes the strict text of the same value: comments go, bare
    words are quoted, nothing else changes. *)
Theorem C30_loose_json_cleaned : forall v t u,
  container v -> loose_json v t u -> json_sanitize t = u /\ strict_json v u.
Proof. intros v t u K D. split; [exact (sanitize_doc true v t u K D)|exact (doc_clean true v t u D)]. Qed.
Print Assumptions C30_loose_json_cleaned.

(** Cleaning twice is cleaning once. *)
Theorem C30_idempotent : forall v t u,
  container v -> loose_json v t u -> json_sanitize (json_sanitize t) = json_sanitize t.
Proof.
  intros v t u K D. rewrite (sanitize_doc true v t u K D).
  exact (sanitize_doc false v u u K (doc_clean true v t u D)).
Qed.
Print Assumptions C30_idempotent.

(** With any JSON reader, a loose text with numbers in its range is read as its
    value. *)
Theorem C30_read : forall parse, reads_json parse -> forall v t u,
  container v -> loose_json v t u -> Forall modest (numbers v) -> parse (json_sanitize t) = Ok v.
Proof.
  intros parse P v t u K D Nv. rewrite (sanitize_doc true v t u K D). apply P; [exact (doc_clean true v t u D)|exact Nv].
Qed.
Print Assumptions C30_read.

(** There is a reader: that of Json.v. *)
Theorem C30_reader_exists : reads_json json_read.
Proof. exact json_read_reads. Qed.
Print Assumptions C30_reader_exists.

(** A loose text with a comment, bare words, a number with an exponent and an
    escaped quote. *)
Definition loose_sample : str :=
  L "{ // head" ++ newline :: L " a: [1.5e3, true, word], " ++ quote :: L "b" ++ quote ::
  L " : " ++ quote :: L "x\" ++ quote :: L "y" ++ quote :: L "}".
Definition loose_sample_value : jval :=
  JObj [(L "a", JArr [JNum (L "1.5e3"); JBool true; JStr (L "word")]);
        (L "b", JStr (L "x" ++ quote :: L "y"))].
Definition loose_sample_clean : str :=
  L "{  " ++ quote :: L "a" ++ quote :: L ": [1.5e3, true, " ++ quote :: L "word" ++ quote :: L "], " ++
  quote :: L "b" ++ quote :: L " : " ++ quote :: L "x\" ++ quote :: L "y" ++ quote :: L "}".

Lemma blank1 lo : blank_text lo (L " ") (L " ").
Proof. apply blank_of; repeat constructor. Qed.
Lemma after0 lo : blank_after lo [] [].
Proof. left; auto. Qed.
Example loose_sample_ok : loose_json loose_sample_value loose_sample loose_sample_clean.
Proof.
  exists [], [], loose_sample, loose_sample_clean, [], [].
  split; [constructor|]. split; [|split; [apply after0|auto]].
  assert (Lt : forall c, existsb (Ascii.eqb c) (L "abcdefghijklmnopqrstuvwxyzABCDEFGHIJKLMNOPQRSTUVWXYZ_") = true ->
                    letter c) by (intros c; apply in_L).
  assert (Na : name_text true (L "a") (L "a") (quote :: L "a" ++ [quote])).
  { apply nm_bare; [reflexivity|]. exists "a"%char, []. split; [reflexivity|].
    split; [apply Lt; reflexivity|]. split; [constructor|].
    cbn; intros [H|[H|[H|[]]]]; discriminate. }
  assert (Nw : name_text true (L "word") (L "word") (quote :: L "word" ++ [quote])).
  { apply nm_bare; [reflexivity|]. exists "w"%char, (L "ord"). split; [reflexivity|].
    split; [apply Lt; reflexivity|].
    split; [repeat apply Forall_cons; [.. | apply Forall_nil]; left; apply Lt; reflexivity|].
    cbn; intros [H|[H|[H|[]]]]; discriminate. }
  assert (Nb : name_text true (L "b") (quote :: L "b" ++ [quote]) (quote :: L "b" ++ [quote])).
  { apply nm_literal. apply plain_check. reflexivity. }
  assert (Nx : name_text true (L "x" ++ quote :: L "y")
                         (quote :: (L "x\" ++ quote :: L "y") ++ [quote])
                         (quote :: (L "x\" ++ quote :: L "y") ++ [quote])).
  { apply nm_literal. eexists. split; [reflexivity|]. split; [|discriminate].
    apply lit_chr; [discriminate|discriminate|vm_compute; discriminate|].
    apply (lit_esc quote quote); [left; reflexivity|].
    apply lit_chr; [discriminate|discriminate|vm_compute; discriminate|constructor]. }
  assert (V1 : value_text true (JNum (L "1.5e3")) (L "1.5e3") (L "1.5e3")).
  { apply vt_num. exists [], (L "1"), (L ".5"), (L "e3"). split; [reflexivity|].
    assert (D : forall c, existsb (Ascii.eqb c) (L "0123456789") = true -> digits [c]).
    { intros c C. split; [discriminate|]. constructor; [apply in_L, C|constructor]. }
    split; [auto|]. split; [apply D; reflexivity|]. split; [right; discriminate|].
    split; [right; exists (L "5"); split; [reflexivity|apply D; reflexivity]|].
    right. exists "e"%char, [], (L "3"). split; [reflexivity|].
    split; [left; reflexivity|]. split; [left; reflexivity|apply D; reflexivity]. }
  assert (Bh : blank_text true (L " // head" ++ newline :: L " ") (L "  ")).
  { apply (blank_chr true " "); [left; reflexivity|].
    apply (blank_comment true (L " head") (L " ") (L " ")); [reflexivity| | |apply blank1];
      cbn; intros H; repeat (destruct H as [H|H]; [discriminate|]); exact H. }
  assert (B0 : blank_text true [] []) by constructor.
  pose proof (it_last true _ (L " ") (L " ") _ _ [] [] (blank1 true) (vt_str true _ _ _ Nw) (after0 true)) as I3.
  pose proof (it_cons true _ _ (L " ") (L " ") _ _ [] [] _ _ (blank1 true) (vt_true true) (after0 true) I3) as I2.
  pose proof (it_cons true _ _ [] [] _ _ [] [] _ _ B0 V1 (after0 true) I2) as I1.
  assert (Ab : blank_after true (L " ") (L " ")).
  { right. exists " "%char, [], []. repeat split; auto. left; reflexivity. }
  pose proof (me_last true _ _ (L " ") (L " ") _ _ (L " ") (L " ") (L " ") (L " ") _ _ [] []
                (blank1 true) Nb Ab (blank1 true) (vt_str true _ _ _ Nx) (after0 true)) as M2.
  pose proof (me_cons true _ _ _ _ _ _ _ [] [] (L " ") (L " ") _ _ [] [] _ _
                Bh Na (after0 true) (blank1 true) (vt_arr true _ _ _ I1) (after0 true) M2) as M1.
  exact (vt_obj true _ _ _ M1).
Qed.
Example loose_sample_run : json_sanitize loose_sample = loose_sample_clean.
Proof. vm_compute. reflexivity. Qed.

(** A text that starts with a quote: the whole document is lost. *)
Theorem C30_leading_string_refuted : exists s t,
  strict_json (JStr s) t /\ json_sanitize t <> t.
Proof.
  exists (L "uint32"), (quoted (L "uint32")). split; [|vm_compute; discriminate].
  exists [], [], (quoted (L "uint32")), (quoted (L "uint32")), [], [].
  split; [constructor|]. split; [apply vt_str, nm_literal, plain_check; reflexivity|].
  split; [left; auto|]. rewrite app_nil_r. auto.
Qed.
Print Assumptions C30_leading_string_refuted.
Example C30_leading_string_result :
  json_sanitize (quoted (L "uint32")) = [quote; quote].
Proof. vm_compute. reflexivity. Qed.

(** A word at the very end of the text is dropped. *)
Theorem C30_final_word_refuted : exists t,
  strict_json (JBool true) t /\ json_sanitize t <> t.
Proof.
  exists (L " true"). split; [|vm_compute; discriminate].
  exists (L " "), (L " "), (L "true"), (L "true"), [], [].
  split; [apply blank1|]. split; [constructor|]. split; [left; auto|]. auto.
Qed.
Print Assumptions C30_final_word_refuted.

(** A string whose last character is an escaped backslash is taken as still
    open; a comment after it is not removed. *)
Theorem C30_final_backslash_refuted : exists t v,
  json_read t = Ok v /\ container v /\
  json_sanitize (t ++ L " // end") <> t ++ L " ".
Proof.
  exists (L "{" ++ quoted (L "a") ++ L ":" ++ quoted (L "x\\") ++ L "}"),
         (JObj [(L "a", JStr (L "x\"))]).
  split; [vm_compute; reflexivity|]. split; [exact I|vm_compute; discriminate].
Qed.
Print Assumptions C30_final_backslash_refuted.

(** A quote inside a comment opens a string: the rest of the comment and the
    closing lines leak into the result. *)
Theorem C30_quote_in_comment_refuted : exists b t,
  ~ In newline b /\ json_sanitize (L "{//" ++ b ++ newline :: t) <> json_sanitize (L "{" ++ t).
Proof.
  exists (L " a " ++ quote :: L " sign"), (L "}"). split; [|vm_compute; discriminate].
  cbn; intros H; repeat (destruct H as [H|H]; [discriminate|]); exact H.
Qed.
Print Assumptions C30_quote_in_comment_refuted.

(** A comment right behind a bare word glues the word to what follows the
    comment. *)
Theorem C30_comment_after_word_refuted :
  json_sanitize (L "[a//x" ++ newline :: L "1]") = L "[" ++ quoted (L "a1") ++ L "]".
Proof. vm_compute. reflexivity. Qed.
Print Assumptions C30_comment_after_word_refuted.

(** * C24 *)

(** Every schema with printable names and non-negative leaf fields, written as
    JSON with any white space, is read back as the same tree: same names in the
    same order, the same leaf types, counts, offsets, strides and element
    sizes; byte order "default" has become the machine's; empty leaves stay
    empty. *)
Theorem C24_round_trip : forall parse m ind pad eoe s,
  reads_json parse -> m <> DEFAULT_E -> Forall white pad -> Forall white eoe ->
  wf s -> json_able (abs s) ->
  exists s', schema_of_json parse (schema_json m ind pad eoe s 0) = Ok s' /\ wf s' /\
             same_tree (read_back m) (abs s) (abs s').
Proof. exact schema_round_trip. Qed.
Print Assumptions C24_round_trip.

(** What is written is strict JSON. *)
Theorem C24_text_is_json : forall m ind pad eoe s depth,
  Forall white pad -> Forall white eoe -> wf s -> json_able (abs s) ->
  exists v, strict_json v (schema_json m ind pad eoe s depth).
Proof. intros. eexists. apply schema_doc; assumption. Qed.
Print Assumptions C24_text_is_json.

(** With default arguments, explicit byte orders and no empty leaves: the very
    same tree, and equals() agrees. *)
Theorem C24_equal_schema : forall parse m s,
  reads_json parse -> m <> DEFAULT_E -> wf s -> json_able (abs s) -> plain_names s ->
  Forall (fun d => dt_id d <> EMPTY /\ dt_endian d <> DEFAULT_E) (tleaves (abs s)) ->
  exists s', schema_of_json parse (to_json m s) = Ok s' /\ abs s' = abs s /\
             s_equals s s' = Ok true.
Proof.
  intros parse m s P M W J N F.
  destruct (schema_round_trip parse m 2 (L " ") [c_nl] s P M) as (s' & E & W' & S); auto.
  - repeat constructor.
  - constructor; [right; left; reflexivity|constructor].
  - exists s'. split; [exact E|]. pose proof (same_tree_id m _ _ S F) as A. split; [exact A|].
    destruct (equals_characterised s s' W W' N) as (r & R & Q).
    { unfold plain_names. rewrite A. exact N. }
    rewrite R. f_equal. apply Q. rewrite A.
    destruct (equals_characterised s s W W N N) as (r' & R' & Q').
    apply Q'. rewrite (equals_refl s W N) in R'. injection R' as <-. reflexivity.
Qed.
Print Assumptions C24_equal_schema.

(** A schema that meets the hypotheses. *)
Definition js_demo : schema :=
  SObj [(L "a b", 0%Z); (L "p/q", 1%Z)] [L "a b"; L "p/q"]
       [SLst [SLeaf (mkDT FLOAT64 3 8 16 8 BIG_E); SLeaf (mkDT UINT8 0 123456789 1 1 DEFAULT_E); SLst []];
        SLeaf (mkDT CHAR8_STR 5 0 1 1 LITTLE_E)].
Example js_demo_wf : wf js_demo.
Proof.
  constructor.
  - pose proof (obj_ok_push _ _ _ (L "p/q") (obj_ok_push _ _ _ (L "a b") obj_ok_nil eq_refl) eq_refl) as X.
    exact X.
  - repeat constructor.
Qed.
Example js_demo_able : json_able (abs js_demo).
Proof.
  split.
  - assert (N : forall k, (negb (str_eqb k (L "dtype")) && forallb (fun c => negb (Ascii.eqb c quote) &&
                  negb (Ascii.eqb c backslash) && N.leb 32 (N_of_ascii c)) k)%bool = true -> json_name k).
    { intros k H. apply andb_prop in H. destruct H as [A B]. split.
      - intros ->. discriminate A.
      - apply Forall_forall. intros c I. rewrite forallb_forall in B. specialize (B c I).
        repeat rewrite Bool.andb_true_iff in B. destruct B as ((B1 & B2) & B3).
        apply Bool.negb_true_iff in B1, B2. apply Ascii.eqb_neq in B1, B2. apply N.leb_le in B3. auto. }
    cbn. constructor. constructor; [|constructor; [|constructor]].
    + split; [apply N; reflexivity|]. constructor. repeat constructor.
    + split; [apply N; reflexivity|constructor].
  - cbn. repeat (apply Forall_cons; [right; unfold int64_nat; cbn; lia|]). constructor.
Qed.
Example js_demo_run :
  (do s <- schema_of_json json_read (to_json LITTLE_E js_demo); Ok (abs s)) =
  Ok (TObj [(L "a b", TList [TLeaf (mkDT FLOAT64 3 8 16 8 BIG_E);
                             TLeaf (mkDT UINT8 0 123456789 1 1 LITTLE_E); TList []]);
            (L "p/q", TLeaf (mkDT CHAR8_STR 5 0 1 1 LITTLE_E))]).
Proof. vm_compute. reflexivity. Qed.

(** A child called "dtype": the object is read as a leaf, or not at all. *)
Theorem C24_child_named_dtype_refuted :
  exists s s', wf s /\ schema_of_json json_read (to_json LITTLE_E s) = Ok s' /\
    s_id s = OBJECT /\ s_id s' = LIST.
Proof.
  exists (SObj [(L "dtype", 0%Z)] [L "dtype"] [SObj [] [] []]). eexists.
  split; [constructor; [exact (obj_ok_push _ _ _ (L "dtype") obj_ok_nil eq_refl)|
                        constructor; [constructor; [exact obj_ok_nil|constructor]|constructor]]|].
  split; [vm_compute; reflexivity|]. split; reflexivity.
Qed.
Print Assumptions C24_child_named_dtype_refuted.

(** A name with a quote in it: the text is no longer JSON. *)
Theorem C24_quote_in_name_refuted :
  exists s, wf s /\ schema_of_json json_read (to_json LITTLE_E s) = Err.
Proof.
  exists (SObj [([quote], 0%Z)] [[quote]] [SLst []]).
  split; [constructor; [exact (obj_ok_push _ _ _ [quote] obj_ok_nil eq_refl)|repeat constructor]|].
  vm_compute. reflexivity.
Qed.
Print Assumptions C24_quote_in_name_refuted.

(** A name with an escape sequence in it comes back as another name. *)
Theorem C24_backslash_in_name_refuted :
  exists s s', wf s /\ schema_of_json json_read (to_json LITTLE_E s) = Ok s' /\
    child_names s = [L "a\t"] /\ child_names s' = [["a"; "009"]%char].
Proof.
  exists (SObj [(L "a\t", 0%Z)] [L "a\t"] [SLst []]). eexists.
  split; [constructor; [exact (obj_ok_push _ _ _ (L "a\t") obj_ok_nil eq_refl)|repeat constructor]|].
  split; [vm_compute; reflexivity|]. split; reflexivity.
Qed.
Print Assumptions C24_backslash_in_name_refuted.

(** An empty leaf comes back with one element: equals() says no. *)
Theorem C24_empty_leaf_refuted :
  exists s', schema_of_json json_read (to_json LITTLE_E s_empty) = Ok s' /\
             s_equals s_empty s' = Ok false.
Proof. eexists. split; vm_compute; reflexivity. Qed.
Print Assumptions C24_empty_leaf_refuted.

(** A negative offset or stride cannot be read back: GetUint64 is called on a
    negative number. *)
Theorem C24_negative_stride_refuted :
  exists d, is_container (dt_id d) = false /\
    schema_of_json json_read (to_json LITTLE_E (SLeaf d)) = UB.
Proof. exists (mkDT INT32 3 8 (-4) 4 LITTLE_E). split; [reflexivity|vm_compute; reflexivity]. Qed.
Print Assumptions C24_negative_stride_refuted.

(** A count, offset or stride of 2^63 or more is taken for a negative number. *)
Theorem C24_large_number_refuted : exists s, s = L "{""dtype"": ""int8"", ""number_of_elements"": 18446744073709551615}" /\
  exists d, schema_of_json json_read s = Ok (SLeaf d) /\ dt_n d = (-1)%Z.
Proof. eexists. split; [reflexivity|]. eexists. split; [vm_compute; reflexivity|reflexivity]. Qed.
Print Assumptions C24_large_number_refuted.
