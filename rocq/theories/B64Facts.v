(** The base64 JSON protocol: what is written, and reading it back. *)
From Coq Require Import NArith Nnat.
From Verif Require Import Base DType Path SpecTree Schema Codec CodecFacts Mem Node Json JsonSpec Save NodeHist B64Json
  PathFacts SchemaInv SchemaRefine SchemaMore SchemaLayout MemFacts SpecNode NodeFacts NodeCompact NodeSet
  NodeSerial NodeBridge NodeLaws NodeAlloc JsonFacts JsonSchema SaveFacts.
Local Open Scope Z_scope.

(** * The span of a compact schema is its size *)
Lemma compact_last t : forall off, 0 <= off -> counts t -> 0 < ttotal t ->
  exists d, In d (tleaves (tcompact t off)) /\ spanned_bytes d = off + ttotal t.
Proof.
  induction t as [d|es IH|ks IH] using tree_ind'; intros off Ho C P.
  - cbn [tcompact tleaves]. exists (leaf_compact d off). split; [left; reflexivity|].
    rewrite ttotal_leaf in *. unfold leaf_compact. destruct (is_empty d) eqn:E.
    + unfold is_empty in E. apply tid_eqb_eq in E. rewrite E in P. simpl in P. lia.
    + unfold spanned_bytes. cbn [dt_off dt_stride dt_n dt_ebytes]. lia.
  - rewrite tcompact_obj. rewrite ttotal_tobj in *. unfold counts in C. cbn [tleaves] in *.
    revert off Ho. induction es as [|[k c] es IHes]; intros off Ho; [simpl in P; lia|].
    inversion_clear IH as [|? ? I1 I2]. cbn [flat_map snd] in C. apply Forall_app in C. destruct C as [C1 C2].
    cbn [map fold_right snd] in *. cbn [cthread_es flat_map snd].
    assert (N1 : 0 <= ttotal c) by (apply total_of_nonneg, C1).
    destruct (Z.lt_ge_cases 0 (fold_right Z.add 0 (map (fun e => ttotal (snd e)) es))) as [H|H].
    + destruct (IHes I2 C2 H (off + ttotal c) ltac:(lia)) as (d & I & E). exists d.
      split; [apply in_or_app; right; exact I|lia].
    + assert (N2 : 0 <= fold_right Z.add 0 (map (fun e => ttotal (snd e)) es)).
      { rewrite <- ttotal_tobj. apply total_of_nonneg. exact C2. }
      destruct (I1 off Ho C1 ltac:(lia)) as (d & I & E). exists d.
      split; [apply in_or_app; left; exact I|lia].
  - rewrite tcompact_lst. rewrite ttotal_tlst in *. unfold counts in C. cbn [tleaves] in *.
    revert off Ho. induction ks as [|c es IHes]; intros off Ho; [simpl in P; lia|].
    inversion_clear IH as [|? ? I1 I2]. cbn [flat_map] in C. apply Forall_app in C. destruct C as [C1 C2].
    cbn [map fold_right] in *. cbn [cthread_ts flat_map].
    assert (N1 : 0 <= ttotal c) by (apply total_of_nonneg, C1).
    destruct (Z.lt_ge_cases 0 (fold_right Z.add 0 (map ttotal es))) as [H|H].
    + destruct (IHes I2 C2 H (off + ttotal c) ltac:(lia)) as (d & I & E). exists d.
      split; [apply in_or_app; right; exact I|lia].
    + assert (N2 : 0 <= fold_right Z.add 0 (map ttotal es)).
      { rewrite <- ttotal_tlst. apply total_of_nonneg. exact C2. }
      destruct (I1 off Ho C1 ltac:(lia)) as (d & I & E). exists d.
      split; [apply in_or_app; left; exact I|lia].
Qed.
Lemma compact_span t : counts t -> tspanned (tcompact t 0) = ttotal t.
Proof.
  intros C. pose proof (tcompact_spanned t C) as B.
  destruct (Z.lt_ge_cases 0 (ttotal t)) as [P|P]; [|lia].
  destruct (compact_last t 0 ltac:(lia) C P) as (d & I & E).
  assert (X : spanned_bytes d <= tspanned (tcompact t 0)).
  { unfold tspanned. destruct (tcompact t 0) as [d0|es|ts].
    - destruct I as [->|[]]. lia.
    - revert I. generalize (tleaves (TObj es)). intros l I. induction l as [|x l IHl]; [destruct I|].
      cbn [map fold_right]. destruct I as [->|I]; [lia|]. specialize (IHl I). lia.
    - revert I. generalize (tleaves (TList ts)). intros l I. induction l as [|x l IHl]; [destruct I|].
      cbn [map fold_right]. destruct I as [->|I]; [lia|]. specialize (IHl I). lia. }
  lia.
Qed.

Lemma b64_enc_pos n : 0 <= n -> 0 <= b64_enc_size n.
Proof. intros H. unfold b64_enc_size. lia. Qed.

(** * The text *)
Lemma b64_char_plain v : (v < 64)%N -> let c := digit64 v in
  c <> quote /\ c <> backslash /\ (32 <= N_of_ascii c)%N /\ esc1 c = [c].
Proof.
  intros H. assert (X : forallb (fun v => let c := digit64 v in
    negb (Ascii.eqb c quote) && negb (Ascii.eqb c backslash) && N.leb 32 (N_of_ascii c) && str_eqb (esc1 c) [c])%bool
    (map N.of_nat (seq 0 64)) = true) by (vm_compute; reflexivity).
  rewrite forallb_forall in X. specialize (X v). cbv zeta in X |- *.
  assert (I : In v (map N.of_nat (seq 0 64))).
  { apply in_map_iff. exists (N.to_nat v). split; [apply N2Nat.id|apply in_seq; lia]. }
  apply X in I. apply andb_prop in I. destruct I as [I I4]. apply andb_prop in I. destruct I as [I I3].
  apply andb_prop in I. destruct I as [I1 I2].
  split; [intros E; rewrite E in I1; discriminate|]. split; [intros E; rewrite E in I2; discriminate|].
  split; [apply N.leb_le; exact I3|]. destruct (str_eqb_spec (esc1 (digit64 v)) [digit64 v]); [assumption|discriminate].
Qed.
Lemma b64_plain l : Forall (fun c => (c <> quote /\ c <> backslash /\ (32 <= N_of_ascii c)%N) /\ esc1 c = [c]) (b64_text l).
Proof.
  assert (D : forall v, (v < 64)%N -> (digit64 v <> quote /\ digit64 v <> backslash /\ (32 <= N_of_ascii (digit64 v))%N) /\ esc1 (digit64 v) = [digit64 v]).
  { intros v H. pose proof (b64_char_plain v H) as X. cbv zeta in X. tauto. }
  assert (Q : ("="%char <> quote /\ "="%char <> backslash /\ (32 <= N_of_ascii "="%char)%N) /\ esc1 "="%char = ["="%char]).
  { split; [split; [discriminate|split; [discriminate|vm_compute; discriminate]]|reflexivity]. }
  induction l as [|a|a b|a b c r IH] using list3_ind; cbn [b64_text].
  - constructor.
  - pose proof (byte_lt a). repeat apply Forall_cons; try apply Forall_nil; try exact Q; apply D; lia.
  - pose proof (byte_lt a). pose proof (byte_lt b). repeat apply Forall_cons; try apply Forall_nil; try exact Q; apply D; lia.
  - pose proof (byte_lt a). pose proof (byte_lt b). pose proof (byte_lt c).
    repeat apply Forall_cons; try exact IH; apply D; lia.
Qed.
Lemma escape_code l : escape (b64_text l) = b64_text l.
Proof.
  unfold escape. induction (b64_plain l) as [|c r [_ E] F IH]; [reflexivity|].
  cbn [flat_map]. rewrite E, IH. reflexivity.
Qed.
Lemma code_denotes l : denotes (quoted (b64_text l)) (b64_text l).
Proof. apply plain_literal. eapply Forall_impl; [|apply b64_plain]. intros c [A _]. exact A. Qed.
Lemma c_string_code l k : (0 < k)%nat -> c_string (b64_text l ++ repeat "000"%char k) = Ok (b64_text l).
Proof.
  intros K. pose proof (text_no_nul l) as N. induction (b64_text l) as [|c r IH]; cbn [app].
  - destruct k; [lia|reflexivity].
  - cbn [c_string]. rewrite eqb_neq_false by (intros ->; apply N; left; reflexivity).
    rewrite IH by (intros X; apply N; right; exact X). reflexivity.
Qed.
Lemma up_to_nul_code l : up_to_nul (b64_text l) = b64_text l.
Proof.
  pose proof (text_no_nul l) as N. induction (b64_text l) as [|c r IH]; [reflexivity|].
  cbn [up_to_nul]. rewrite eqb_neq_false by (intros ->; apply N; left; reflexivity).
  rewrite IH by (intros X; apply N; right; exact X). reflexivity.
Qed.

Definition b64_value (sv : jval) (bytes : str) : jval :=
  JObj [(L "schema", sv); (L "data", JObj [(L "base64", JStr (b64_text bytes))])].
Lemma b64_doc mach ind pad eoe depth s bytes : Forall white pad -> Forall white eoe ->
  wf s -> json_able (abs s) ->
  strict_json (b64_value (schema_val mach s) bytes)
              (b64_json_text mach ind pad eoe depth s (b64_text bytes)).
Proof.
  intros Wp We W J. unfold b64_json_text. rewrite escape_code.
  destruct (schema_json_text mach ind pad eoe Wp We s W J (S depth)) as (a & x & A & -> & V).
  pose proof (white_indent ind depth pad Wp) as W0. pose proof (white_indent ind (S depth) pad Wp) as W1.
  pose proof (white_indent ind (S (S depth)) pad Wp) as W2.
  set (i0 := indent ind depth pad) in *. set (i1 := indent ind (S depth) pad) in *. set (i2 := indent ind (S (S depth)) pad) in *.
  assert (Sp : Forall white (L " ")) by (constructor; [left; reflexivity|constructor]).
  assert (Inner : value_text false (JObj [(L "base64", JStr (b64_text bytes))])
     ("{"%char :: ((eoe ++ i2) ++ quoted (L "base64") ++ [] ++ ":"%char :: L " " ++ quoted (b64_text bytes) ++ (eoe ++ i1)) ++ ["}"%char])
     ("{"%char :: ((eoe ++ i2) ++ quoted (L "base64") ++ [] ++ ":"%char :: L " " ++ quoted (b64_text bytes) ++ (eoe ++ i1)) ++ ["}"%char])).
  { apply vt_obj. apply me_last.
    - apply blank_of, Forall_app; split; assumption.
    - apply nm_literal, plain_check. reflexivity.
    - left; auto.
    - apply blank_of, Sp.
    - apply vt_str, nm_literal, code_denotes.
    - apply after_of, Forall_app; split; assumption. }
  match type of Inner with value_text _ _ ?t _ => set (inner := t) in * end.
  assert (Outer : value_text false (b64_value (schema_val mach s) bytes)
    ("{"%char :: ((eoe ++ i1) ++ quoted (L "schema") ++ [] ++ ":"%char :: (L " " ++ a) ++ x ++ [] ++ ","%char ::
       ((eoe ++ i1) ++ quoted (L "data") ++ [] ++ ":"%char :: (L " " ++ eoe ++ i1) ++ inner ++ (eoe ++ i0))) ++ ["}"%char])
    ("{"%char :: ((eoe ++ i1) ++ quoted (L "schema") ++ [] ++ ":"%char :: (L " " ++ a) ++ x ++ [] ++ ","%char ::
       ((eoe ++ i1) ++ quoted (L "data") ++ [] ++ ":"%char :: (L " " ++ eoe ++ i1) ++ inner ++ (eoe ++ i0))) ++ ["}"%char])).
  { apply vt_obj. apply me_cons.
    - apply blank_of, Forall_app; split; assumption.
    - apply nm_literal, plain_check. reflexivity.
    - left; auto.
    - apply blank_of, Forall_app; split; assumption.
    - exact V.
    - left; auto.
    - apply me_last.
      + apply blank_of, Forall_app; split; assumption.
      + apply nm_literal, plain_check. reflexivity.
      + left; auto.
      + apply blank_of. apply Forall_app; split; [exact Sp|apply Forall_app; split; assumption].
      + exact Inner.
      + apply after_of, Forall_app; split; assumption. }
  match type of Outer with value_text _ _ ?t _ => set (outer := t) in * end.
  exists (eoe ++ i0), (eoe ++ i0), outer, outer, [], [].
  split; [apply blank_of, Forall_app; split; assumption|]. split; [exact Outer|]. split; [left; auto|].
  assert (E : forall T, T = (eoe ++ i0) ++ outer ++ [] -> T = (eoe ++ i0) ++ outer ++ [] /\ T = (eoe ++ i0) ++ outer ++ []) by auto.
  apply E. unfold outer, inner. rewrite app_nil_r.
  repeat (rewrite <- !app_assoc || cbn [app]).
  change (L ": ") with (":"%char :: L " "). cbn [app L list_ascii_of_string].
  repeat (rewrite <- !app_assoc || cbn [app]). reflexivity.
Qed.

(** * Writing *)
Lemma walk_hdr t data own : n_hdr (walk t data own) = mkH data own.
Proof. destruct t; reflexivity. Qed.
Lemma nto_ok mach ind pad eoe depth m src v :
  nvalue m src = Ok v -> ttotal (nschema src) < 2147483648 ->
  exists m1, nto_base64_json mach ind pad eoe depth m src =
      Ok (m1, b64_json_text mach ind pad eoe depth (schema_of_tree (tcompact (nschema src) 0)) (b64_text (vbytes v))) /\
    extends m m1 [] /\ (forall b, live m1 b -> (b < length m)%nat).
Proof.
  intros E T. unfold nto_base64_json.
  pose proof (nvalue_leaves src m v E) as C. pose proof (nvalue_leaf_like src m v E) as K.
  assert (Ow : owned_ok m nempty) by (split; constructor).
  destruct (ncompact_ok m src nempty v Ow E) as (m1 & r & R & P); [intros q _ []|].
  destruct P as [Pv Ps Px Pl _ Pb Po _]. pose proof R as R0. rewrite R. cbn [obind].
  rewrite Ps. pose proof (vbytes_length m src v E) as Lv.
  change (counts (nschema src)) in C. rewrite (compact_span _ C).
  assert (Ld : oload m1 (h_data (n_hdr r)) (ttotal (nschema src)) = Ok (vbytes v)).
  { unfold ncompact_to in R0. change (nreset m nempty) with (@Ok (mem * node) (m, nempty)) in R0. cbn [obind] in R0.
    destruct (Z.ltb_spec 0 (ttotal (nschema src))) as [H|H].
    - unfold nalloc in R0. rewrite alloc_ok in R0 by lia. cbn [obind h_data h_own] in R0.
      destruct (nwrite _ _ _ _) as [m3| | |] eqn:Ew; cbn [obind] in R0; try discriminate.
      injection R0 as <- <-.
      pose proof (value_bytes _ _ _ _ _ _ Pv) as B. rewrite walk_hdr. exact B.
    - assert (Z0 : ttotal (nschema src) = 0) by lia. rewrite Z0 in *. destruct (vbytes v); [|simpl in Lv; lia].
      destruct (h_data (n_hdr r)) as [q|]; reflexivity. }
  rewrite Ld. cbn [obind]. rewrite <- Lv.
  pose proof (b64_enc_pos _ (Nat2Z.is_nonneg (length (vbytes v)))) as Ep.
  destruct (encode_law (vbytes v) (repeat "000"%char (Z.to_nat (b64_enc_size (Z.of_nat (length (vbytes v))))))) as [Ls En].
  { unfold byte in *. lia. }
  { rewrite repeat_length. unfold byte in *. lia. }
  cbv zeta in Ls, En. unfold byte, str in *.
  match goal with |- context [obind ?x _] => replace x with (@Ok str (b64_text (vbytes v) ++ repeat "000"%char (Z.to_nat (b64_enc_size (Z.of_nat (length (vbytes v)))) - length (b64_text (vbytes v)))%nat)) end.
  2:{ symmetry. etransitivity; [exact En|]. f_equal. f_equal. rewrite skipn_all2 by (rewrite repeat_length; lia). apply app_nil_r. }
  cbn [obind]. rewrite c_string_code by (unfold byte in *; lia). cbn [obind].
  specialize (Po ltac:(apply tidy_nempty)).
  assert (Or : owned_ok m1 r).
  { unfold owned_ok, owned_blocks. rewrite Po. destruct (Z.ltb_spec 0 (ttotal (nschema src))) as [H|H].
    - destruct (Pb H) as (l & El & _). split; [constructor; [split; [reflexivity|exists l; exact El]|constructor]|].
      constructor; [intros []|constructor].
    - split; constructor. }
  destruct (nfree_ok m1 r Or) as (m2 & E2 & [L2 F2]). rewrite E2. cbn [obind].
  exists m2. split; [reflexivity|].
  assert (Ob : owned_blocks r = if 0 <? ttotal (nschema src) then [length m] else []).
  { unfold owned_blocks. rewrite Po. destruct (0 <? ttotal (nschema src)); reflexivity. }
  split.
  - destruct Px as [X1 X2]. split; [lia|]. intros b Hb. rewrite F2, Ob.
    destruct (in_dec Nat.eq_dec b _) as [I|I].
    + destruct (0 <? ttotal (nschema src)); [destruct I as [I|[]]; lia|destruct I].
    + rewrite X2 by exact Hb. reflexivity.
  - intros b [l Lb]. pose proof (proj1 (nth_error_Some m2 b) ltac:(congruence)) as H. rewrite L2, Pl in H.
    rewrite F2, Ob in Lb. destruct (0 <? ttotal (nschema src)); [|lia].
    destruct (in_dec Nat.eq_dec b _) as [I|I]; [discriminate|].
    assert (b <> length m) by (intros ->; apply I; left; reflexivity). lia.
Qed.

(** * Reading *)
Lemma from_back parse mach ind pad eoe depth m0 src v m dest :
  reads_json parse -> mach <> DEFAULT_E -> Forall white pad -> Forall white eoe ->
  nvalue m0 src = Ok v -> names_unique (nschema src) -> all_names json_name (nschema src) ->
  ttotal (nschema src) <= 1610612733 -> owned_ok m dest ->
  let text := b64_json_text mach ind pad eoe depth (schema_of_tree (tcompact (nschema src) 0)) (b64_text (vbytes v)) in
  (exists sv, strict_json (b64_value sv (vbytes v)) text) /\
  exists m' r, nfrom_base64_json parse m dest text = Ok (m', r) /\
    nvalue m' r = Ok (tmap (file_order mach) v) /\ owned_ok m' r /\ extends m m' (owned_blocks dest).
Proof.
  intros P M Wp We E U N T Ow text.
  pose proof (nvalue_leaves src m0 v E) as C. pose proof (nvalue_leaf_like src m0 v E) as K.
  change (counts (nschema src)) in C. pose proof (tcompact_placed (nschema src) 0 C) as Pl.
  destruct (schema_of_tree_ok (tcompact (nschema src) 0)) as [W A].
  { eapply same_tree_unique; eauto. }
  { apply compact_like; assumption. }
  set (s0 := schema_of_tree (tcompact (nschema src) 0)) in *.
  assert (Ja : json_able (abs s0)).
  { rewrite A. split; [eapply same_tree_names; eauto|apply compact_json; [assumption|assumption|lia]]. }
  pose proof (b64_doc mach ind pad eoe depth s0 (vbytes v) Wp We W Ja) as D. fold text in D.
  split; [exists (schema_val mach s0); exact D|].
  unfold nfrom_base64_json, nreset. destruct (nfree_ok m dest Ow) as (m1 & E1 & Fr). rewrite E1. cbn [obind].
  rewrite (sanitize_doc false _ _ _ (I : container (b64_value (schema_val mach s0) (vbytes v))) D), (P _ _ D). cbn [obind].
  2:{ cbn [b64_value numbers flat_map snd app]. rewrite app_nil_r. apply schema_modest; assumption. }
  unfold nparse_base64, b64_value.
  change (member [(L "schema", schema_val mach s0); (L "data", JObj [(L "base64", JStr (b64_text (vbytes v)))])] (L "data"))
    with (Some (JObj [(L "base64", JStr (b64_text (vbytes v)))])).
  change (member [(L "schema", schema_val mach s0); (L "data", JObj [(L "base64", JStr (b64_text (vbytes v)))])] (L "schema"))
    with (Some (schema_val mach s0)).
  cbn [obind].
  change (member [(L "base64", JStr (b64_text (vbytes v)))] (L "base64")) with (Some (JStr (b64_text (vbytes v)))).
  cbn [obind]. rewrite up_to_nul_code.
  destruct (walk_back mach M s0 W Ja (S (jdepth (schema_val mach s0))) s_empty 0 ltac:(lia)) as (s & Es & Ws & Ss & Tt).
  rewrite Es. cbn [obind].
  assert (Em : empties_in 0 (tstrided (abs s)) (abs s)).
  { destruct Tt as [_ X]; [rewrite A; apply compact_tight; assumption|]. rewrite tstrided_abs by exact Ws. exact X. }
  rewrite A in Ss. pose proof (back_spanned (nschema src) C K mach (abs s) Ss Em) as Sp.
  pose proof (vbytes_length m0 src v E) as Lv. pose proof (text_length (vbytes v)) as TL.
  unfold byte, str in Lv, TL. set (code := b64_text (vbytes v)) in *.
  destruct (decode_law (vbytes v) (repeat "000"%char (Z.to_nat (b64_dec_size (Z.of_nat (length code)))))) as (tail & De & Lt & _).
  { fold code. lia. }
  { fold code. rewrite repeat_length. unfold b64_dec_size. lia. }
  fold code in De. rewrite De. cbn [obind]. unfold nset_data.
  change (nfree m1 (NLeaf (rel_hdr dest) dt_empty)) with (@Ok mem m1). cbn [obind].
  unfold nalloc. rewrite alloc_ok by lia. cbn [obind h_data h_own].
  rewrite app_length in Lt. unfold byte, str in *.
  match goal with |- context [?a <? tspanned (abs s)] => destruct (Z.ltb_spec a (tspanned (abs s))) as [Hlt|_] end; [rewrite app_length in Hlt; unfold byte in *; lia|].
  cbn [ostore].
  assert (Fn : firstn (Z.to_nat (tspanned (abs s))) (vbytes v ++ tail) = firstn (Z.to_nat (tspanned (abs s))) (vbytes v)).
  { rewrite firstn_app. replace (Z.to_nat (tspanned (abs s)) - length (vbytes v))%nat with 0%nat by (unfold byte in *; lia). cbn. apply app_nil_r. }
  unfold byte, str in *. rewrite Fn.
  rewrite store_fresh.
  2:{ rewrite firstn_length, repeat_length. unfold byte in *. lia. }
  cbn [obind]. eexists. eexists. split; [reflexivity|]. split; [|split].
  - apply (block_value mach m0 src v); auto. unfold mem, block, byte in *. rewrite nth_error_app2 by lia. rewrite Nat.sub_diag. reflexivity.
  - apply fresh_owned.
  - apply fresh_extends, Fr.
Qed.
