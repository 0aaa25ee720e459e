(** Printing a node as plain JSON, and reading that. *)
From Coq Require Import Lia NArith Nnat.
From Verif Require Import Base DType Path SpecTree Schema Codec CodecFacts Mem MemFacts Node Number NodeDiff
  NumberFacts ArrayOps ArrayOpsFacts SpecNode NodeFacts NodeCompact NodeSet NodeAlloc SchemaInv SchemaMore Json JsonSpec JsonFacts
  JsonRead JsonSchema NodeSerial DiffFacts DiffMore Save SaveFacts B64Json B64Facts ValueJson ValueFacts ValueText ValueBack PureJson.
Local Open Scope Z_scope.

(** * Specification: the JSON value a node value is written as *)
Section Spec.
Variable F : floats.
Variable mach : endian.

Definition num_says (t : tid) (x : list byte) (n : str) : Prop :=
  (is_int t = true /\ integer n (ivalue mach t x)) \/ (is_float t = true /\ n = f_text F t x).
Inductive says : tree leafval -> jval -> Prop :=
| sy_empty : says (TLeaf None) JNull
| sy_str e es s k : concat es = s ++ repeat zero_byte (S k) -> ~ In zero_byte s ->
    says (TLeaf (Some (CHAR8_STR, e, es))) (JStr s)
| sy_num t e x n : num_says t x n -> says (TLeaf (Some (t, e, [x]))) (JNum n)
| sy_nums t e es ns : length es <> 1%nat -> Forall2 (num_says t) es ns ->
    says (TLeaf (Some (t, e, es))) (JArr (map JNum ns))
| sy_list vs js : Forall2 says vs js -> says (TList vs) (JArr js)
| sy_object vs js : Forall2 (fun ev e => fst e = fst ev /\ says (snd ev) (snd e)) vs js -> says (TObj vs) (JObj js).

(** Characters that can be written in a JSON string. *)
Definition json_char (c : ascii) : Prop := In c (map ascii_of_N [8; 9; 10; 12; 13]%N) \/ (32 <= N_of_ascii c)%N.
(** Floats whose text is a JSON number of modest size with a fraction or exponent. *)
Definition float_shown (t : tid) (x : list byte) : Prop :=
  number (f_text F t x) /\ modest (f_text F t x) /\ Exists (fun c => In c (L ".eE")) (f_text F t x).
(** Leaf values that can be written. *)
Definition writable (lv : leafval) : Prop :=
  match lv with
  | None => True
  | Some (CHAR8_STR, _, es) =>
      exists s k, concat es = s ++ repeat zero_byte (S k) /\ Forall json_char s /\ last s " "%char <> backslash
  | Some (t, _, es) => is_float t = true -> Forall (float_shown t) es
  end.

(** What comes back: integers as int64 (uint64 if too big, but not in arrays), floats as
    float64, strings without extra NULs. *)
Inductive kept_leaf : leafval -> leafval -> Prop :=
| kl_empty : kept_leaf None None
| kl_str e es s k : concat es = s ++ repeat zero_byte (S k) -> ~ In zero_byte s ->
    kept_leaf (Some (CHAR8_STR, e, es)) (Some (CHAR8_STR, DEFAULT_E, map (fun c => [c]) (s ++ [zero_byte])))
| kl_ints t e es es' : is_int t = true -> es <> [] ->
    Forall2 (fun x x' => ivalue mach t x < 2 ^ 63 /\ int64_bytes mach INT64 (ivalue mach t x) x') es es' ->
    kept_leaf (Some (t, e, es)) (Some (INT64, DEFAULT_E, es'))
| kl_big e x : 2 ^ 63 <= ivalue mach UINT64 x ->
    kept_leaf (Some (UINT64, e, [x])) (Some (UINT64, DEFAULT_E, [x]))
| kl_floats t e es : is_float t = true -> es <> [] ->
    kept_leaf (Some (t, e, es)) (Some (FLOAT64, DEFAULT_E, map (fun x => f_read F FLOAT64 (f_text F t x)) es)).
(** a leaf with one number, or a string that reads as a number *)
Definition lone_number (v : tree leafval) : Prop :=
  match v with
  | TLeaf (Some (CHAR8_STR, _, es)) =>
      exists s k, concat es = s ++ repeat zero_byte (S k) /\ ~ In zero_byte s /\ f_is_double F s = true
  | TLeaf (Some (_, _, [_])) => True
  | _ => False
  end.
Inductive kept : tree leafval -> tree leafval -> Prop :=
| kp_leaf lv lv' : kept_leaf lv lv' -> kept (TLeaf lv) (TLeaf lv')
| kp_list vs vs' : vs = [] \/ Exists (fun v => ~ lone_number v) vs -> Forall2 kept vs vs' -> kept (TList vs) (TList vs')
| kp_object vs vs' : Forall2 (fun e e' => fst e' = fst e /\ kept (snd e) (snd e')) vs vs' -> kept (TObj vs) (TObj vs').
End Spec.

(** * Strings with backslashes *)
Lemma esc1_lit c r s : json_char c -> literal r s -> literal (esc1 c ++ r) (c :: s) /\ (c <> backslash -> last (esc1 c) " "%char <> backslash).
Proof.
  intros H Lr. destruct (ascii_dec c backslash) as [-> |N].
  - split; [|congruence]. apply lit_esc; [cbn; tauto|exact Lr].
  - destruct (esc1_literal c r s (conj N H) Lr) as [A B]. auto.
Qed.
Lemma escape_json s : Forall json_char s -> last s " "%char <> backslash -> denotes (quoted (escape s)) s.
Proof.
  intros H Ls. exists (escape s). split; [reflexivity|].
  assert (G : literal (escape s) s /\ (s <> [] -> last s " "%char <> backslash -> last (escape s) " "%char <> backslash)).
  { clear Ls. induction H as [|c s C H [IH1 IH2]]; [split; [constructor|congruence]|].
    cbn [escape flat_map]. destruct (esc1_lit c (escape s) s C IH1) as [X Y].
    split; [exact X|]. intros _. destruct s as [|c' s].
    - cbn [flat_map last]. rewrite app_nil_r. exact Y.
    - intros Ls. rewrite last_app_ne; [apply IH2; [discriminate|exact Ls]|]. cbn [flat_map].
      pose proof (esc1_nonnil c'). destruct (esc1 c'); [congruence|discriminate]. }
  destruct G as [G1 G2]. split; [exact G1|]. destruct s; [discriminate|apply G2; [discriminate|exact Ls]].
Qed.
Lemma json_char_nul c : json_char c -> c <> zero_byte.
Proof. intros H ->. destruct H as [H|H]; [cbn in H; intuition discriminate|cbn in H; lia]. Qed.
Lemma json_text_nul s : Forall json_char s -> ~ In zero_byte s.
Proof. intros H I. rewrite Forall_forall in H. apply (json_char_nul _ (H _ I)). reflexivity. Qed.
Lemma up_to_nul_app s r : ~ In zero_byte s -> up_to_nul (s ++ zero_byte :: r) = s.
Proof.
  induction s as [|c s IH]; intros N; [reflexivity|]. cbn [app up_to_nul].
  destruct (Ascii.eqb_spec c "000") as [E|_]; [exfalso; apply N; left; exact E|]. rewrite IH; [reflexivity|].
  intros I. apply N. right. exact I.
Qed.
Lemma str_value es s k : concat es = s ++ repeat zero_byte (S k) -> ~ In zero_byte s -> up_to_nul (concat es) = s.
Proof. intros E N. rewrite E. apply (up_to_nul_app s (repeat zero_byte k) N). Qed.

Section Pure.
Variable F : floats.
Variable mach : endian.

Lemma elem_text_ok t x : (is_float t = true -> float_shown F t x) ->
  value_text false (jelem F mach t x) (elem_text F mach t x) (elem_text F mach t x).
Proof.
  intros H. unfold jelem, elem_text. destruct (is_float t).
  - destruct (H eq_refl) as (N & _ & _). cbv zeta. rewrite (number_no_n _ N). apply vt_num, N.
  - apply vt_num, show_Z_num.
Qed.
Lemma join_text t xs : Forall (fun x => is_float t = true -> float_shown F t x) xs -> xs <> [] ->
  forall w, Forall white w ->
  items_text false (map (jelem F mach t) xs) (w ++ join (L ", ") (map (elem_text F mach t) xs))
                                      (w ++ join (L ", ") (map (elem_text F mach t) xs)).
Proof.
  induction 1 as [|x xs X H IH]; intros N w W; [congruence|].
  destruct xs as [|y xs].
  - cbn [map join]. pose proof (it_last false (jelem F mach t x) w w _ _ [] [] (blank_of w false W) (elem_text_ok t x X) (or_introl (conj eq_refl eq_refl))) as Y.
    rewrite !app_nil_r in Y. exact Y.
  - pose proof (IH ltac:(discriminate) (L " ") ltac:(repeat constructor)) as R.
    exact (it_cons false (jelem F mach t x) _ w w _ _ [] [] _ _ (blank_of w false W) (elem_text_ok t x X) (or_introl (conj eq_refl eq_refl)) R).
Qed.
Lemma jleaf_num t e es : t <> CHAR8_STR ->
  jleaf F mach (Some (t, e, es)) = match es with [x] => jelem F mach t x | _ => JArr (map (jelem F mach t) es) end.
Proof. intros N. unfold jleaf. destruct t; congruence || reflexivity. Qed.
Lemma array_pure m h d es : no_repeat d -> is_data (dt_id d) = true -> dt_id d <> CHAR8_STR ->
  leaf_value m (h_data h) d = Ok (Some (dt_id d, dt_endian d, es)) ->
  (is_float (dt_id d) = true -> Forall (float_shown F (dt_id d)) es) ->
  exists t, array_text F mach m h d = Ok t /\
    value_text false (jleaf F mach (Some (dt_id d, dt_endian d, es))) t t.
Proof.
  intros R D NS E B. unfold array_text. rewrite (elems_read_value m h d es R D E). cbn [obind].
  eexists. split; [reflexivity|].
  assert (Fx : Forall (fun x => is_float (dt_id d) = true -> float_shown F (dt_id d) x) es).
  { apply Forall_forall. intros x I X. specialize (B X). rewrite Forall_forall in B. apply B, I. }
  assert (Ln : Z.of_nat (length es) = dt_n d).
  { destruct (leaf_value_inv _ _ _ _ E) as [[X _]|(_ & N & es' & X & [Hl _])]; [rewrite X in D; discriminate|].
    injection X as <-. lia. }
  rewrite <- Ln. rewrite jleaf_num by exact NS. clear - Fx NS. destruct es as [|x [|y es]].
  - apply (vt_arr0 false [] []). constructor.
  - cbn [length Z.of_nat map join]. inversion_clear Fx. apply elem_text_ok; assumption.
  - replace ((Z.of_nat (length (x :: y :: es)) =? 0) || (1 <? Z.of_nat (length (x :: y :: es)))) with true
      by (cbn [length]; lia).
    apply vt_arr. apply (join_text (dt_id d) (x :: y :: es) Fx ltac:(discriminate) [] ltac:(constructor)).
Qed.
Lemma leaf_pure m h d lv : layout_back d -> leaf_value m (h_data h) d = Ok lv -> writable F lv ->
  exists t, leaf_text F mach m h d = Ok t /\ value_text false (jleaf F mach lv) t t.
Proof.
  intros (J & S & R) E B.
  destruct (leaf_value_inv _ _ _ _ E) as [[T ->]|(D & Hn & es & -> & Ho)].
  - unfold leaf_text. rewrite T. eexists. split; [reflexivity|constructor].
  - destruct (tid_eq_dec (dt_id d) CHAR8_STR) as [T|T].
    + unfold leaf_text. rewrite T. cbn [writable] in B. rewrite T in B. destruct B as (s & k & C & Tc & Ls).
      rewrite (string_read m h d es T (S T) Hn Ho). 2:{ rewrite C. apply in_or_app; right; left; reflexivity. }
      cbn [obind]. eexists. split; [reflexivity|]. cbn [jleaf]. rewrite (str_value es s k C (json_text_nul s Tc)).
      apply vt_str, nm_literal, escape_json; assumption.
    + destruct (array_pure m h d es R D T E) as (t & Et & V).
      { unfold writable in B. destruct (dt_id d); try discriminate; auto. }
      exists t. split; [|exact V]. unfold leaf_text. destruct (dt_id d); congruence || discriminate || exact Et.
Qed.

Fixpoint pure_val (v : tree leafval) : jval :=
  match v with
  | TLeaf lv => jleaf F mach lv
  | TObj vs => JObj (map (fun e => (fst e, pure_val (snd e))) vs)
  | TList vs => JArr (map pure_val vs)
  end.

(** * The text of a node *)
Fixpoint shown (m : mem) (n : node) : Prop :=
  match n with
  | NLeaf h d => layout_back d /\ exists lv, leaf_value m (h_data h) d = Ok lv /\ writable F lv
  | NObj _ es => (fix go l := match l with [] => True | e :: r => (Forall json_plain (fst e) /\ shown m (snd e)) /\ go r end) es
  | NLst _ ks => (fix go l := match l with [] => True | k :: r => shown m k /\ go r end) ks
  end.
Lemma shown_obj m h es : shown m (NObj h es) <-> Forall (fun e => Forall json_plain (fst e) /\ shown m (snd e)) es.
Proof.
  cbn [shown]. induction es as [|e es IH]; [split; constructor|].
  rewrite IH. split; [intros [A B]; constructor; assumption|intros H; inversion_clear H; auto].
Qed.
Lemma shown_lst m h ks : shown m (NLst h ks) <-> Forall (shown m) ks.
Proof.
  cbn [shown]. induction ks as [|e es IH]; [split; constructor|].
  rewrite IH. split; [intros [A B]; constructor; assumption|intros H; inversion_clear H; auto].
Qed.
Lemma shown_all m n : forall v, nvalue m n = Ok v -> all_names (Forall json_plain) (nschema n) ->
  Forall layout_back (tleaves (nschema n)) -> Forall (writable F) (tleaves v) -> shown m n.
Proof.
  induction n as [hs d|hs es IH|hs ks IH] using node_ind'; intros v E N Lb V.
  - apply nvalue_leaf in E. destruct E as (lv & -> & E). inversion_clear Lb. inversion_clear V. cbn [shown]. eauto.
  - apply nvalue_obj in E. destruct E as (vs & -> & E). apply shown_obj. cbn [nschema] in *. inversion N as [|? N'|]; subst.
    apply Forall_map in N'. cbn [tleaves] in *. rewrite flat_map_concat_map, map_map, <- flat_map_concat_map in Lb.
    apply Forall_flat in Lb. apply Forall_flat in V. clear N. induction E as [|e ev es vs [Ek Ev] E IHE]; [constructor|].
    inversion_clear IH as [|? ? I1 I2]. inversion_clear N' as [|? ? [N1 N2] N3]. inversion_clear Lb. inversion_clear V.
    constructor; [split; [exact N1|apply (I1 (snd ev)); assumption]|apply IHE; assumption].
  - apply nvalue_lst in E. destruct E as (vs & -> & E). apply shown_lst. cbn [nschema] in *. inversion N as [| |? N']; subst.
    apply Forall_map in N'. cbn [tleaves] in *. rewrite flat_map_concat_map, map_map, <- flat_map_concat_map in Lb.
    apply Forall_flat in Lb. apply Forall_flat in V. clear N. induction E as [|e ev es vs Ev E IHE]; [constructor|].
    inversion_clear IH as [|? ? I1 I2]. inversion_clear N' as [|? ? N1 N2]. inversion_clear Lb. inversion_clear V.
    constructor; [apply (I1 ev); assumption|apply IHE; assumption].
Qed.
Lemma pure_text ind pad eoe m : Forall white pad -> Forall white eoe ->
  forall n v, shown m n -> nvalue m n = Ok v -> forall depth, exists t,
  node_json F mach false ind pad eoe m n depth = Ok t /\ spaced (pure_val v) t.
Proof.
  intros Wp We.
  assert (Wt : forall k, Forall white (eoe ++ indent ind k pad))
    by (intros k; apply Forall_app; split; [exact We|apply white_indent, Wp]).
  induction n as [h d|h es IH|h ks IH] using node_ind'; intros v P E depth.
  - destruct P as (Lb & lv & E' & V). apply nvalue_leaf in E. destruct E as (lv' & -> & E). rewrite E in E'. injection E' as <-.
    cbn [node_json pure_val]. unfold leaf_json.
    destruct (leaf_pure m h d lv' Lb E V) as (t & Et & Vt). rewrite Et. cbn [obind]. exists t. split; [reflexivity|].
    exists [], t. split; [constructor|]. split; [reflexivity|exact Vt].
  - apply shown_obj in P. apply nvalue_obj in E. destruct E as (vs & -> & E). cbn [node_json pure_val].
    assert (G : exists ts, omapM (fun e => node_json F mach false ind pad eoe m (snd e) (S depth)) es = Ok ts /\
              Forall2 spaced (map (fun e => pure_val (snd e)) vs) ts /\ map fst es = map fst vs).
    { clear - P IH E. induction E as [|e ev es vs [Ek Ev] E IHE]; [exists []; repeat split; constructor|].
      inversion_clear P as [|? ? [_ P1] P2]. inversion_clear IH as [|? ? I1 I2].
      destruct (I1 (snd ev) P1 Ev (S depth)) as (t & E1 & S1).
      destruct (IHE I2 P2) as (ts & E2 & S2 & N2). exists (t :: ts). rewrite omapM_cons, E1. cbn [obind]. rewrite E2.
      split; [reflexivity|]. split; [constructor; assumption|]. cbn [map]. rewrite Ek, N2. reflexivity. }
    destruct G as (ts & Ets & Sp & Nm). rewrite Ets. cbn [obind]. eexists. split; [reflexivity|].
    exists (eoe ++ indent ind depth pad). eexists. split; [apply Wt|].
    split; [rewrite <- app_assoc; reflexivity|].
    replace (map (fun e => (fst e, pure_val (snd e))) vs)
      with (combine (map fst es) (map (fun e => pure_val (snd e)) vs))
      by (rewrite Nm; clear; induction vs as [|e es IH]; cbn; congruence).
    assert (Ln : length es = length ts).
    { apply (f_equal (@length _)) in Nm. rewrite !map_length in Nm. rewrite Nm. clear - Sp. revert ts Sp.
      induction vs as [|e es IH]; intros ts Sp; inversion_clear Sp; cbn; auto. }
    destruct es as [|e0 es].
    + destruct vs; [|discriminate]. inversion Sp; subst. cbn [map zip_names sj_items combine app]. rewrite app_assoc.
      apply vt_obj0, blank_of, Wt.
    + repeat rewrite app_assoc. rewrite <- (app_assoc eoe). apply vt_obj.
      apply members_of; auto using white_indent.
      * intros ->. discriminate.
      * rewrite map_length. exact Ln.
      * apply Forall_map. eapply Forall_impl; [|exact P]. intros e [K _]. apply plain_literal, K.
  - apply shown_lst in P. apply nvalue_lst in E. destruct E as (vs & -> & E). cbn [node_json pure_val].
    assert (G : exists ts, omapM (fun k => node_json F mach false ind pad eoe m k (S depth)) ks = Ok ts /\ Forall2 spaced (map pure_val vs) ts /\
      length ks = length ts).
    { clear - P IH E. induction E as [|e ev es vs Ev E IHE]; [exists []; repeat split; constructor|].
      inversion_clear P as [|? ? P1 P2]. inversion_clear IH as [|? ? I1 I2].
      destruct (I1 ev P1 Ev (S depth)) as (t & E1 & S1).
      destruct (IHE I2 P2) as (ts & E2 & S2 & N2). exists (t :: ts). rewrite omapM_cons, E1. cbn [obind]. rewrite E2.
      split; [reflexivity|]. split; [constructor; assumption|]. cbn [length]. rewrite N2. reflexivity. }
    destruct G as (ts & Ets & Sp & Nm). rewrite Ets. cbn [obind]. eexists. split; [reflexivity|].
    exists (eoe ++ indent ind depth pad). eexists. split; [apply Wt|].
    split; [rewrite <- app_assoc; reflexivity|].
    destruct ks as [|k0 ks].
    + destruct ts; [|discriminate]. inversion Sp; subst. cbn [map sj_items app]. rewrite app_assoc.
      apply vt_arr0, blank_of, Wt.
    + repeat rewrite app_assoc. rewrite <- (app_assoc eoe). apply vt_arr.
      apply items_of; auto using white_indent.
      * clear - Sp Wp. induction Sp; cbn [map]; constructor; auto. apply spaced_more; auto using white_indent.
      * destruct ts; discriminate.
Qed.

(** * What the text says, and what is read *)
Lemma elem_says t x : is_int t = true \/ (is_float t = true /\ number (f_text F t x)) ->
  exists n, jelem F mach t x = JNum n /\ num_says F mach t x n.
Proof.
  intros [T|[T N]]; unfold jelem.
  - rewrite (int_not_float t T). eexists. split; [reflexivity|]. left. split; [exact T|]. apply int_text_iff, show_Z_int.
  - rewrite T, (number_no_n _ N). eexists. split; [reflexivity|]. right. auto.
Qed.
Lemma elems_say t es : is_data t = true -> t <> CHAR8_STR -> (is_float t = true -> Forall (float_shown F t) es) ->
  exists ns, map (jelem F mach t) es = map JNum ns /\ Forall2 (num_says F mach t) es ns.
Proof.
  intros D NS W. assert (G : Forall (fun x => is_int t = true \/ (is_float t = true /\ number (f_text F t x))) es).
  { destruct (data_split t D NS) as [T|T]; [apply Forall_forall; auto|]. specialize (W T).
    eapply Forall_impl; [|exact W]. intros x (N & _). right. auto. }
  clear - G. induction G as [|x es X G (ns & E & H)]; [exists []; split; constructor|].
  destruct (elem_says t x X) as (n & En & Sn). exists (n :: ns). cbn [map]. rewrite En, E. split; [reflexivity|constructor; assumption].
Qed.
Lemma leaf_says m data d lv : leaf_value m data d = Ok lv -> writable F lv -> says F mach (TLeaf lv) (jleaf F mach lv).
Proof.
  intros E W. destruct (leaf_value_inv _ _ _ _ E) as [[T ->]|(D & Hn & es & -> & Ho)]; [constructor|].
  destruct (tid_eq_dec (dt_id d) CHAR8_STR) as [T|T].
  - rewrite T in *. cbn [writable] in W. destruct W as (s & k & C & Tc & _).
    cbn [jleaf]. pose proof (json_text_nul s Tc) as N. rewrite (str_value es s k C N). econstructor; eassumption.
  - rewrite jleaf_num by exact T.
    assert (Fw : is_float (dt_id d) = true -> Forall (float_shown F (dt_id d)) es)
      by (unfold writable in W; destruct (dt_id d); try discriminate; auto).
    destruct (elems_say (dt_id d) es D T Fw) as (ns & En & Sn).
    destruct es as [|x [|y es]].
    + rewrite En. apply sy_nums; [discriminate|exact Sn].
    + inversion Sn as [|? n ? ? Sx Sr]; subst. inversion Sr; subst. cbn [map] in En. injection En as En. rewrite En. apply sy_num, Sx.
    + rewrite En. apply sy_nums; [discriminate|exact Sn].
Qed.
Lemma pure_says m n : forall v, shown m n -> nvalue m n = Ok v -> says F mach v (pure_val v).
Proof.
  induction n as [h d|h es IH|h ks IH] using node_ind'; intros v P E.
  - destruct P as (Lb & lv & E' & V). apply nvalue_leaf in E. destruct E as (lv' & -> & E). rewrite E in E'. injection E' as <-.
    eapply leaf_says; eauto.
  - apply shown_obj in P. apply nvalue_obj in E. destruct E as (vs & -> & E). cbn [pure_val]. constructor.
    induction E as [|e ev es vs [Ek Ev] E IHE]; [constructor|]. inversion_clear P as [|? ? [_ P1] P2]. inversion_clear IH as [|? ? I1 I2].
    cbn [map]. constructor; [cbn [fst snd]; auto|auto].
  - apply shown_lst in P. apply nvalue_lst in E. destruct E as (vs & -> & E). cbn [pure_val]. constructor.
    induction E as [|e ev es vs Ev E IHE]; [constructor|]. inversion_clear P as [|? ? P1 P2]. inversion_clear IH as [|? ? I1 I2].
    cbn [map]. constructor; auto.
Qed.

Lemma number_dot t : number t -> Exists (fun c => In c (L ".eE")) t -> ~ whole t.
Proof.
  intros _ X (z & (d & (_ & D) & Q) & _).
  assert (G : Forall (fun c => In c (L "-0123456789")) t).
  { assert (Dd : Forall (fun c => In c (L "-0123456789")) d) by (eapply Forall_impl; [|exact D]; intros c C; right; exact C).
    destruct Q as [[-> _]|[-> _]]; [exact Dd|constructor; [left; reflexivity|exact Dd]]. }
  apply Exists_exists in X. destruct X as (c & I & C). rewrite Forall_forall in G. specialize (G c I).
  cbn in C. destruct C as [<-|[<-|[<-|[]]]]; cbn in G; intuition discriminate.
Qed.
Lemma leaf_reads m data d lv lv' : leaf_value m data d = Ok lv -> writable F lv -> kept_leaf F mach lv lv' ->
  reads F mach (jleaf F mach lv) (TLeaf lv').
Proof.
  intros E W K.
  destruct K as [|e es s k C N|t e es es' T Ne Fa|e x Bg|t e es T Ne]; [constructor| | | |].
  - cbn [jleaf]. rewrite (str_value es s k C N). constructor. exact N.
  - assert (NS : t <> CHAR8_STR) by (intros ->; discriminate). rewrite jleaf_num by exact NS.
    destruct (leaf_value_inv _ _ _ _ E) as [[_ X]|(D & Hn & es1 & X & Ho)]; [discriminate|]. injection X as Et _ ->. subst t.
    pose proof (holds_sizes _ _ _ _ D Ho) as Sz.
    assert (Fi : Forall2 (fun n x => exists z, integer n z /\ - 2 ^ 63 <= z < 2 ^ 63 /\ int64_bytes mach INT64 z x)
                   (map (fun x => show_Z (ivalue mach (dt_id d) x)) es1) es').
    { clear - Fa Sz T. induction Fa as [|x x' es es' [A B] Fa IH]; [constructor|]. inversion_clear Sz as [|? ? Sx Sz'].
      cbn [map]. constructor; [|auto]. exists (ivalue mach (dt_id d) x). split; [apply int_text_iff, show_Z_int|].
      split; [|exact B].
      assert (L' : length x = Z.to_nat (default_bytes (dt_id d))) by (unfold byte in *; lia).
      pose proof (ivalue_in_type mach (dt_id d) x T L') as R. destruct (in_type_64 _ _ T R) as [R1 R2].
      pose proof (int_signs _ T) as Sg. destruct (is_signed (dt_id d)); [apply R1; reflexivity|]. specialize (R2 Sg). lia. }
    assert (Je : forall l, map (jelem F mach (dt_id d)) l = map JNum (map (fun x => show_Z (ivalue mach (dt_id d) x)) l)).
    { intros l. rewrite map_map. apply map_ext. intros x. unfold jelem. rewrite (int_not_float _ T). reflexivity. }
    destruct es1 as [|x [|y es1]]; [congruence| |].
    + inversion Fi as [|? x' ? ? (z & I1 & I2 & I3) Fr]; subst. inversion Fr; subst.
      unfold jelem. rewrite (int_not_float _ T). eapply rd_int; eassumption.
    + rewrite Je. apply rd_ints; [discriminate|exact Fi].
  - cbn [jleaf]. unfold jelem. cbn [is_float].
    destruct (leaf_value_inv _ _ _ _ E) as [[_ X]|(D & Hn & es1 & X & Ho)]; [discriminate|]. injection X as Et _ <-.
    pose proof (holds_sizes _ _ _ _ D Ho) as Sz. rewrite <- Et in Sz. inversion_clear Sz as [|? ? Sx _].
    assert (L' : length x = 8%nat) by (change (default_bytes UINT64) with 8 in Sx; unfold byte in *; lia).
    pose proof (ivalue_in_type mach UINT64 x eq_refl L') as R. pose proof (proj2 (in_type_64 UINT64 _ eq_refl R) eq_refl) as R2.
    eapply rd_uint; [apply int_text_iff, show_Z_int|lia|split; [exact L'|reflexivity]].
  - assert (NS : t <> CHAR8_STR) by (intros ->; discriminate). rewrite jleaf_num by exact NS.
    assert (W' : Forall (float_shown F t) es) by (unfold writable in W; destruct t; try discriminate; auto).
    assert (Je : map (jelem F mach t) es = map JNum (map (f_text F t) es)).
    { clear - W' T. rewrite map_map. induction W' as [|x es (N & _) W IH]; [reflexivity|]. cbn [map]. rewrite IH. f_equal.
      unfold jelem. rewrite T, (number_no_n _ N). reflexivity. }
    assert (Mm : map (fun x => f_read F FLOAT64 (f_text F t x)) es = map (f_read F FLOAT64) (map (f_text F t) es))
      by (rewrite map_map; reflexivity).
    rewrite Mm. clear Mm. destruct es as [|x [|y es]]; [congruence| |].
    + inversion_clear W' as [|? ? (N & _ & Dt) _]. cbn [map]. unfold jelem. rewrite T, (number_no_n _ N).
      apply rd_num, number_dot; assumption.
    + rewrite Je. apply rd_nums. inversion_clear W' as [|? ? (N & _ & Dt) _]. cbn [map]. apply Exists_cons_hd. apply number_dot; assumption.
Qed.
Lemma numeric_lone m n v : shown m n -> nvalue m n = Ok v -> numeric F (pure_val v) -> lone_number F v.
Proof.
  intros P E H. destruct n as [h d|h es|h ks].
  - destruct P as (Lb & lv & E' & V). apply nvalue_leaf in E. destruct E as (lv' & -> & E). rewrite E in E'. injection E' as <-.
    cbn [pure_val lone_number] in *. destruct lv' as [[[t e] es]|]; [|exact H].
    destruct (tid_eq_dec t CHAR8_STR) as [-> |NS].
    + cbn [writable jleaf numeric] in *. destruct V as (s & k & C & Tc & _). pose proof (json_text_nul s Tc) as N.
      rewrite (str_value es s k C N) in H. eauto.
    + rewrite jleaf_num in H by exact NS. destruct es as [|x [|y es]]; [destruct H| |destruct H]. destruct t; congruence || exact I.
  - apply nvalue_obj in E. destruct E as (vs & -> & E). destruct H.
  - apply nvalue_lst in E. destruct E as (vs & -> & E). destruct H.
Qed.
Lemma plain_no_nul k : Forall json_plain k -> ~ In zero_byte k.
Proof. intros H I. rewrite Forall_forall in H. destruct (H _ I) as (_ & _ & X). cbn in X. lia. Qed.
Lemma pure_reads m n : forall v v', shown m n -> names_unique (nschema n) -> nvalue m n = Ok v -> kept F mach v v' ->
  reads F mach (pure_val v) v'.
Proof.
  induction n as [h d|h es IH|h ks IH] using node_ind'; intros v v' P U E K.
  - destruct P as (Lb & lv & E' & V). apply nvalue_leaf in E. destruct E as (lv1 & -> & E). rewrite E in E'. injection E' as <-.
    inversion K; subst. cbn [pure_val]. eapply leaf_reads; eauto.
  - apply shown_obj in P. apply nvalue_obj in E. destruct E as (vs & -> & E). cbn [pure_val]. cbn [nschema] in U.
    inversion U as [|? Nd Uk|]; subst. inversion K as [| |? vs' Fa]; subst. rewrite map_map in Nd. cbn [fst] in Nd.
    assert (Nm : map fst vs = map fst es).
    { clear - E. induction E as [|e ev es vs [Ek _] E IHE]; [reflexivity|]. cbn [map]. rewrite Ek, IHE. reflexivity. }
    constructor.
    + rewrite map_map. cbn [fst]. change (NoDup (map fst vs)). rewrite Nm. exact Nd.
    + apply Forall_map. cbn [fst]. clear - E P. induction E as [|e ev es vs [Ek _] E IHE]; [constructor|].
      inversion_clear P as [|? ? [P1 _] P2]. constructor; [rewrite Ek; apply plain_no_nul, P1|auto].
    + apply Forall_map in Uk. cbn [snd] in Uk. clear - E P IH Fa Uk. revert vs' Fa. induction E as [|e ev es vs [Ek Ev] E IHE]; intros vs' Fa.
      * inversion Fa; subst. constructor.
      * inversion Fa as [|? e' ? vs1 [Ke Kv] Fr]; subst. inversion_clear P as [|? ? [_ P1] P2]. inversion_clear IH as [|? ? I1 I2].
        inversion_clear Uk as [|? ? U1 U2]. cbn [map]. constructor; [|auto]. cbn [fst snd]. split; [exact Ke|].
        apply I1; assumption.
  - apply shown_lst in P. apply nvalue_lst in E. destruct E as (vs & -> & E). cbn [pure_val]. cbn [nschema] in U.
    inversion U as [| |? Uk]; subst. inversion K as [|? vs' Ex Fa|]; subst.
    constructor.
    + destruct Ex as [-> |Ex]; [left; reflexivity|]. right. apply Exists_exists in Ex. destruct Ex as (v0 & I & N).
      apply Exists_exists. exists (pure_val v0). split; [apply in_map, I|]. intros H. apply N.
      clear - E P I H. induction E as [|e ev es vs Ev E IHE]; [destruct I|]. inversion_clear P as [|? ? P1 P2].
      destruct I as [<-|I]; [eapply numeric_lone; eauto|auto].
    + apply Forall_map in Uk. clear - E P IH Fa Uk. revert vs' Fa. induction E as [|e ev es vs Ev E IHE]; intros vs' Fa.
      * inversion Fa; subst. constructor.
      * inversion Fa as [|? e' ? vs1 Kv Fr]; subst. inversion_clear P as [|? ? P1 P2]. inversion_clear IH as [|? ? I1 I2].
        inversion_clear Uk as [|? ? U1 U2]. cbn [map]. constructor; [|auto]. apply I1; assumption.
Qed.
Lemma pure_modest m n : forall v, shown m n -> nvalue m n = Ok v -> Forall modest (numbers (pure_val v)).
Proof.
  induction n as [h d|h es IH|h ks IH] using node_ind'; intros v P E.
  - destruct P as (Lb & lv & E' & V). apply nvalue_leaf in E. destruct E as (lv1 & -> & E). rewrite E in E'. injection E' as <-.
    cbn [pure_val]. destruct (leaf_value_inv _ _ _ _ E) as [[T ->]|(D & Hn & es & -> & Ho)]; [constructor|].
    pose proof (holds_sizes _ _ _ _ D Ho) as Sz.
    destruct (tid_eq_dec (dt_id d) CHAR8_STR) as [T|T]; [cbn [jleaf]; rewrite T; constructor|].
    assert (Fb : is_float (dt_id d) = true -> Forall (float_shown F (dt_id d)) es)
      by (unfold writable in V; destruct (dt_id d); try discriminate; auto).
    assert (G : Forall (fun x => Forall modest (numbers (jelem F mach (dt_id d) x))) es).
    { apply Forall_forall. intros x I. rewrite Forall_forall in Sz. unfold jelem. destruct (is_float (dt_id d)) eqn:Fl.
      - specialize (Fb eq_refl). rewrite Forall_forall in Fb. destruct (Fb x I) as (N & Mo & _). rewrite (number_no_n _ N).
        constructor; [exact Mo|constructor].
      - destruct (data_split _ D T) as [Ti|]; [|congruence]. constructor; [|constructor]. specialize (Sz x I).
        assert (L' : length x = Z.to_nat (default_bytes (dt_id d))) by (unfold byte in *; lia).
        pose proof (ivalue_in_type mach _ x Ti L') as R. destruct (in_type_64 _ _ Ti R) as [R1 R2].
        pose proof (int_signs _ Ti) as Sg. apply show_modest.
        destruct (is_signed (dt_id d)); [specialize (R1 eq_refl)|specialize (R2 ltac:(rewrite Sg; reflexivity))]; lia. }
    rewrite jleaf_num by exact T. destruct es as [|x [|y es]]; [constructor|inversion_clear G; assumption|].
    cbn [numbers]. apply Forall_flat, Forall_map. exact G.
  - apply shown_obj in P. apply nvalue_obj in E. destruct E as (vs & -> & E). cbn [pure_val numbers]. apply Forall_flat, Forall_map. cbn [snd].
    induction E as [|e ev es vs [Ek Ev] E IHE]; [constructor|]. inversion_clear P as [|? ? [_ P1] P2]. inversion_clear IH as [|? ? I1 I2].
    constructor; auto.
  - apply shown_lst in P. apply nvalue_lst in E. destruct E as (vs & -> & E). cbn [pure_val numbers]. apply Forall_flat, Forall_map.
    induction E as [|e ev es vs Ev E IHE]; [constructor|]. inversion_clear P as [|? ? P1 P2]. inversion_clear IH as [|? ? I1 I2].
    constructor; auto.
Qed.
Lemma spaced_strict v t : spaced v t -> strict_json v t.
Proof.
  intros (a & x & A & -> & V). exists a, a, x, x, [], []. rewrite app_nil_r. split; [apply blank_of, A|]. split; [exact V|].
  split; [left; auto|auto].
Qed.

Lemma pure_round_trip parse ind pad eoe depth m src v v' : sized F ->
  reads_json parse -> Forall white pad -> Forall white eoe ->
  nvalue m src = Ok v -> (forall h d, src <> NLeaf h d) -> names_unique (nschema src) -> all_names (Forall json_plain) (nschema src) ->
  Forall layout_back (tleaves (nschema src)) -> Forall (writable F) (tleaves v) -> kept F mach v v' ->
  exists text, node_json F mach false ind pad eoe m src depth = Ok text /\
    forall m2 dest, owned_ok m2 dest -> tidy dest ->
      exists m3 r, nfrom_json F mach parse false m2 dest text = Ok (m3, r) /\
        nvalue m3 r = Ok v' /\ owned_ok m3 r /\ extends m2 m3 (owned_blocks dest).
Proof.
  intros Fs Pa Wp We E NL U N Lb W K. pose proof (shown_all m src v E N Lb W) as P.
  destruct (pure_text ind pad eoe m Wp We src v P E depth) as (t & Et & Sp). exists t. split; [exact Et|].
  intros m2 dest Ow Td. pose proof (pure_reads m src v v' P U E K) as R.
  assert (C : container (pure_val v)).
  { destruct src as [h d|h es|h ks]; [exfalso; eapply NL; reflexivity| |];
      [apply nvalue_obj in E|apply nvalue_lst in E]; destruct E as (vs & -> & _); exact I. }
  pose proof (spaced_strict _ _ Sp) as D. unfold nfrom_json, nreset.
  destruct (nfree_ok m2 dest Ow) as (m1 & E1 & Fr). rewrite E1. cbn [obind].
  rewrite (sanitize_doc false _ _ _ C D), (Pa _ _ D (pure_modest m src v P E)). cbn [obind n_hdr].
  destruct (pure_give F mach Fs (S (jdepth (pure_val v))) (pure_val v) v' ltac:(lia) R (rel_hdr dest) (tidy_rel dest Td) m1)
    as (new & r & E2 & Vr & Or).
  rewrite E2. exists (m1 ++ map Some new), r. split; [reflexivity|]. split; [exact Vr|]. split; [apply new_blocks_ok, Or|].
  destruct Fr as [L1 F1]. split; [rewrite app_length; lia|]. intros b Hb. rewrite nth_error_app1 by lia. apply F1.
Qed.
End Pure.
