(** The detailed JSON text of a node is strict JSON for a known value. *)
From Coq Require Import Lia NArith Nnat.
From Verif Require Import Base DType Path SpecTree Schema Codec CodecFacts Mem MemFacts Node Number NodeDiff
  NumberFacts ArrayOps ArrayOpsFacts SpecNode NodeFacts NodeSet NodeAlloc SchemaInv SchemaMore Json JsonSpec JsonFacts
  JsonRead JsonSchema NodeSerial DiffFacts DiffMore SaveFacts B64Json B64Facts ValueJson ValueFacts.
Local Open Scope list_scope.

(** * Splitting at a character *)
Lemma find_chr c a b : ~ In c a -> find_sub [c] (a ++ c :: b) = Some (length a).
Proof.
  induction a as [|x a IH]; intros N; cbn [find_sub app prefixb].
  - destruct (ascii_dec c c); [reflexivity|congruence].
  - destruct (ascii_dec c x) as [-> |_]; [exfalso; apply N; left; reflexivity|].
    rewrite IH by (intros I; apply N; right; exact I). reflexivity.
Qed.
Lemma rfind_chr_none c b : ~ In c b -> rfind_sub [c] b = None.
Proof.
  induction b as [|x b IH]; intros N; [reflexivity|]. cbn [rfind_sub prefixb].
  rewrite IH by (intros I; apply N; right; exact I).
  destruct (ascii_dec c x) as [-> |_]; [exfalso; apply N; left; reflexivity|reflexivity].
Qed.
Lemma rfind_chr c a b : ~ In c b -> rfind_sub [c] (a ++ c :: b) = Some (length a).
Proof.
  intros N. induction a as [|x a IH]; cbn [app rfind_sub].
  - rewrite rfind_chr_none by exact N. cbn [prefixb]. destruct (ascii_dec c c); [reflexivity|congruence].
  - rewrite IH. reflexivity.
Qed.
Lemma split_chr c a b : ~ In c a -> fst (split_string (a ++ c :: b) [c]) = a.
Proof.
  intros N. unfold split_string. rewrite find_chr by exact N. cbn [fst].
  rewrite firstn_app, firstn_all, Nat.sub_diag. cbn. apply app_nil_r.
Qed.
Lemma rsplit_chr c a b : ~ In c b -> snd (rsplit_string (a ++ c :: b) [c]) = a.
Proof.
  intros N. unfold rsplit_string. rewrite rfind_chr by exact N. cbn [snd].
  rewrite firstn_app, firstn_all, Nat.sub_diag. cbn. apply app_nil_r.
Qed.

(** * Members, one per line *)
Definition member_text (k : str) (v : jval) (t : str) : Prop :=
  exists sp x, Forall white sp /\ t = quoted k ++ ":"%char :: sp ++ x /\ value_text false v x x /\ denotes (quoted k) k.
Lemma member_last k v t w b : member_text k v t -> Forall white w -> Forall white b ->
  members_text false [(k, v)] (w ++ t ++ b) (w ++ t ++ b).
Proof.
  intros (sp & x & S & -> & V & K) W B.
  pose proof (me_last false k v w w (quoted k) _ [] [] sp sp x x b b (blank_of w _ W) (nm_literal _ _ _ K)
     ltac:(left; auto) (blank_of sp _ S) V (after_of b _ B)) as X.
  repeat (rewrite <- app_assoc in *; cbn [app] in * ). exact X.
Qed.
Lemma member_cons k v l t w r : member_text k v t -> Forall white w -> members_text false l r r ->
  members_text false ((k, v) :: l) (w ++ t ++ ","%char :: r) (w ++ t ++ ","%char :: r).
Proof.
  intros (sp & x & S & -> & V & K) W B.
  pose proof (me_cons false k v l w w (quoted k) _ [] [] sp sp x x [] [] r r (blank_of w _ W) (nm_literal _ _ _ K)
     ltac:(left; auto) (blank_of sp _ S) V ltac:(left; auto) B) as X.
  repeat (rewrite <- app_assoc in *; cbn [app] in * ). exact X.
Qed.

Section Text.
Variable F : floats.
Variable mach : endian.

Fixpoint node_val (m : mem) (n : node) : jval :=
  match n with
  | NLeaf h d => JObj (leaf_members mach d ++
      [(L "value", match leaf_value m (h_data h) d with Ok lv => jleaf F mach lv | _ => JNull end)])
  | NObj _ es => JObj (map (fun e => (fst e, node_val m (snd e))) es)
  | NLst _ ks => JArr (map (node_val m) ks)
  end.

(** the dtype's text up to its last quote *)
Definition dt_lines (d : dtype) : list str :=
  (quoted (L "dtype") ++ L ":" ++ quoted (id_to_name (dt_id d))) ::
  (if is_container_id (dt_id d) then []
   else [quoted (L "number_of_elements") ++ L ": " ++ show_Z (dt_n d);
         quoted (L "offset") ++ L ": " ++ show_Z (dt_off d);
         quoted (L "stride") ++ L ": " ++ show_Z (dt_stride d);
         quoted (L "element_bytes") ++ L ": " ++ show_Z (dt_ebytes d);
         quoted (L "endianness") ++ L ": " ++ quoted (endian_id_to_name (dt_endian (recorded mach d)))]).
Fixpoint put_lines (line : str) (l : list str) : str :=
  match l with
  | [] => []
  | [t] => line ++ t
  | t :: r => line ++ t ++ ","%char :: put_lines line r
  end.
Lemma dt_json_lines ind depth pad eoe d :
  dt_json_at mach ind depth pad eoe d =
  eoe ++ indent ind depth pad ++ "{"%char :: put_lines (eoe ++ indent ind (S depth) pad) (dt_lines d)
   ++ eoe ++ indent ind depth pad ++ "}"%char :: eoe.
Proof.
  unfold dt_json_at, dt_lines. destruct (is_container_id (dt_id d)); cbn [put_lines app];
    repeat (rewrite <- app_assoc; cbn [app]); reflexivity.
Qed.
Lemma in_white c w : Forall white w -> ~ white c -> ~ In c w.
Proof. intros W N I. rewrite Forall_forall in W. apply N, W, I. Qed.
Lemma not_white c : existsb (Ascii.eqb c) [" "; "010"; "009"; "013"]%char = false -> ~ white c.
Proof.
  intros E I. unfold white in I. enough (X : existsb (Ascii.eqb c) [" "; "010"; "009"; "013"]%char = true) by congruence.
  apply existsb_exists. exists c. split; [exact I|apply Ascii.eqb_refl].
Qed.
Lemma no_chr c t : forallb (fun x => negb (Ascii.eqb c x)) t = true -> ~ In c t.
Proof.
  intros H I. rewrite forallb_forall in H. apply H in I. rewrite Ascii.eqb_refl in I. discriminate.
Qed.
Lemma no_brace_lines line d : Forall white line -> ~ In "}"%char (put_lines line (dt_lines d)).
Proof.
  intros W.
  assert (NW : ~ In "}"%char line) by (apply (in_white _ _ W), not_white; reflexivity).
  assert (NZ : forall z, ~ In "}"%char (show_Z z)).
  { intros z I. pose proof (show_chars z) as X. rewrite Forall_forall in X. apply X in I. revert I. apply no_chr. reflexivity. }
  assert (G : forall l, Forall (fun t => ~ In "}"%char t) l -> ~ In "}"%char (put_lines line l)).
  { induction 1 as [|t l T _ IH]; [intros []|]. cbn [put_lines]. destruct l as [|t2 l].
    - intros I. apply in_app_or in I. tauto.
    - intros I. apply in_app_or in I. destruct I as [I|I]; [tauto|]. apply in_app_or in I.
      destruct I as [I|[I|I]]; [tauto|discriminate|tauto]. }
  apply G. unfold dt_lines. constructor; [apply no_chr; destruct (dt_id d); reflexivity|].
  destruct (is_container_id (dt_id d)); [constructor|].
  assert (K : forall k z, ~ In "}"%char k -> ~ In "}"%char (k ++ L ": " ++ show_Z z)).
  { intros k z Nk I. apply in_app_or in I. destruct I as [I|I]; [tauto|]. apply in_app_or in I.
    destruct I as [I|I]; [revert I; apply no_chr; reflexivity|]. apply (NZ z I). }
  repeat constructor; try (apply K, no_chr; reflexivity).
  apply no_chr. cbn [recorded dt_endian]. destruct (dt_endian d), mach; reflexivity.
Qed.
Lemma lines_quote line d : exists A, put_lines line (dt_lines d) = A ++ [quote].
Proof.
  unfold dt_lines, quoted. destruct (is_container_id (dt_id d)); cbn [put_lines].
  - exists (line ++ (dquote :: L "dtype" ++ [dquote]) ++ L ":" ++ dquote :: id_to_name (dt_id d)).
    repeat (rewrite <- app_assoc; cbn [app]). reflexivity.
  - eexists. repeat (rewrite app_comm_cons || rewrite app_assoc). f_equal.
Qed.
Lemma leaf_json_form ind depth pad eoe m h d t : Forall white pad -> Forall white eoe ->
  leaf_text F mach m h d = Ok t ->
  let line := eoe ++ indent ind (S depth) pad in let tail := eoe ++ indent ind depth pad in
  leaf_json F mach true ind depth pad eoe m h d =
  Ok (tail ++ "{"%char :: put_lines line (dt_lines d ++ [quoted (L "value") ++ L ": " ++ t]) ++ tail ++ L "}").
Proof.
  intros Wp We E line tail. unfold leaf_json. rewrite E. cbn [obind]. rewrite dt_json_lines.
  fold line. 
  assert (Wl : Forall white line) by (apply Forall_app; split; [exact We|apply white_indent, Wp]).
  assert (Wt : Forall white tail) by (apply Forall_app; split; [exact We|apply white_indent, Wp]).
  destruct (lines_quote line d) as (A & EA). pose proof (no_brace_lines line d Wl) as NB.
  assert (X : eoe ++ indent ind depth pad ++ "{"%char :: put_lines line (dt_lines d) ++
              eoe ++ indent ind depth pad ++ "}"%char :: eoe =
              (tail ++ "{"%char :: put_lines line (dt_lines d) ++ tail) ++ "}"%char :: eoe).
  { unfold tail. repeat (rewrite <- app_assoc; cbn [app]). reflexivity. }
  rewrite X. change (L "}") with ["}"%char]. rewrite split_chr.
  2:{ assert (NT : ~ In "}"%char tail) by (apply (in_white _ _ Wt), not_white; reflexivity).
      intros I. apply in_app_or in I. destruct I as [I|[I|I]]; [tauto|discriminate|].
      apply in_app_or in I. tauto. }
  rewrite EA.
  replace (tail ++ "{"%char :: (A ++ [quote]) ++ tail) with ((tail ++ "{"%char :: A) ++ dquote :: tail)
    by (repeat (rewrite <- app_assoc; cbn [app]); reflexivity).
  rewrite rsplit_chr by (apply (in_white _ _ Wt), not_white; reflexivity).
  f_equal.
  assert (Y : forall l t', l <> [] -> put_lines line (l ++ [t']) = put_lines line l ++ ","%char :: line ++ t').
  { induction l as [|x l IH]; intros t' N; [congruence|]. destruct l as [|y l].
    - cbn [app put_lines]. rewrite <- app_assoc. reflexivity.
    - change ((x :: y :: l) ++ [t']) with (x :: (y :: l) ++ [t']).
      change (put_lines line (x :: y :: l)) with (line ++ x ++ ","%char :: put_lines line (y :: l)).
      cbn [put_lines]. destruct ((y :: l) ++ [t']) eqn:Z; [discriminate|]. rewrite <- Z.
      rewrite (IH t' ltac:(discriminate)). repeat (rewrite <- app_assoc; cbn [app]). reflexivity. }
  rewrite Y by discriminate. rewrite EA. unfold line, tail.
  repeat (rewrite <- app_assoc; cbn [app]). reflexivity.
Qed.

Lemma line_member k z : denotes (quoted k) k -> (0 <= z)%Z ->
  member_text k (JNum (show_Z z)) (quoted k ++ L ": " ++ show_Z z).
Proof.
  intros K Z0. exists (L " "), (show_Z z). split; [repeat constructor|].
  split; [reflexivity|]. split; [apply vt_num, show_Z_number, Z0|exact K].
Qed.
Lemma members_lines line tail l ts : Forall white line -> Forall white tail -> l <> [] ->
  Forall2 (fun kv t => member_text (fst kv) (snd kv) t) l ts ->
  members_text false l (put_lines line ts ++ tail) (put_lines line ts ++ tail).
Proof.
  intros Wl Wt N H. induction H as [|[k v] t l ts M H IH]; [congruence|]. cbn [fst snd] in M.
  destruct H as [|kv2 t2 l ts M2 H].
  - cbn [put_lines]. rewrite <- app_assoc. apply member_last; assumption.
  - cbn [put_lines]. repeat (rewrite <- app_assoc; cbn [app]).
    apply member_cons; auto. apply IH. discriminate.
Qed.
Lemma leaf_members_lines d : json_leaf d ->
  Forall2 (fun kv t => member_text (fst kv) (snd kv) t) (leaf_members mach d) (dt_lines d).
Proof.
  intros J. unfold leaf_members, dt_lines. constructor.
  - exists [], (quoted (id_to_name (dt_id d))). split; [constructor|]. split; [reflexivity|].
    cbn [fst snd]. split; [apply vt_str, nm_literal, plain_check; destruct (dt_id d); reflexivity|apply plain_check; reflexivity].
  - destruct (is_container_id (dt_id d)) eqn:C; [constructor|].
    destruct J as [J|(J1 & J2 & J3 & J4)]; [rewrite J in C; discriminate|].
    repeat constructor; cbn [fst snd];
      try (apply line_member; [apply plain_check; reflexivity|first [apply J1|apply J2|apply J3|apply J4]]).
    exists (L " "), (quoted (endian_id_to_name (dt_endian (recorded mach d)))).
    split; [repeat constructor|]. split; [reflexivity|].
    split; [apply vt_str, nm_literal, plain_check; cbn [recorded dt_endian]; destruct (dt_endian d), mach; reflexivity|apply plain_check; reflexivity].
Qed.

(** every leaf is printed *)
Fixpoint printable (m : mem) (n : node) : Prop :=
  match n with
  | NLeaf h d => layout_back d /\ exists lv, leaf_value m (h_data h) d = Ok lv /\ value_back F lv
  | NObj _ es => (fix go l := match l with [] => True | e :: r => (json_name (fst e) /\ printable m (snd e)) /\ go r end) es
  | NLst _ ks => (fix go l := match l with [] => True | k :: r => printable m k /\ go r end) ks
  end.
Lemma printable_obj m h es : printable m (NObj h es) <-> Forall (fun e => json_name (fst e) /\ printable m (snd e)) es.
Proof.
  cbn [printable]. induction es as [|e es IH]; [split; constructor|].
  rewrite IH. split; [intros [A B]; constructor; assumption|intros H; inversion_clear H; auto].
Qed.
Lemma printable_lst m h ks : printable m (NLst h ks) <-> Forall (printable m) ks.
Proof.
  cbn [printable]. induction ks as [|e es IH]; [split; constructor|].
  rewrite IH. split; [intros [A B]; constructor; assumption|intros H; inversion_clear H; auto].
Qed.

Lemma node_text ind pad eoe m : Forall white pad -> Forall white eoe ->
  forall n, printable m n -> forall depth, exists t,
  node_json F mach true ind pad eoe m n depth = Ok t /\ spaced (node_val m n) t.
Proof.
  intros Wp We.
  assert (Wt : forall k, Forall white (eoe ++ indent ind k pad))
    by (intros k; apply Forall_app; split; [exact We|apply white_indent, Wp]).
  induction n as [h d|h es IH|h ks IH] using node_ind'; intros P depth.
  - destruct P as (Lb & lv & E & V). cbn [node_json node_val]. rewrite E.
    destruct (leaf_text_ok F mach m h d lv Lb E V) as (t & Et & Vt).
    rewrite (leaf_json_form ind depth pad eoe m h d t Wp We Et). cbv zeta. eexists. split; [reflexivity|].
    eexists _, _. split; [apply (Wt depth)|]. split; [reflexivity|].
    rewrite app_assoc. apply vt_obj. apply members_lines; [apply Wt|apply Wt|destruct (dt_id d); discriminate|].
    apply Forall2_app; [apply leaf_members_lines, Lb|]. constructor; [|constructor].
    exists (L " "), t. split; [repeat constructor|]. split; [reflexivity|]. split; [exact Vt|apply plain_check; reflexivity].
  - apply printable_obj in P. cbn [node_json node_val].
    assert (G : exists ts, omapM (fun e => node_json F mach true ind pad eoe m (snd e) (S depth)) es = Ok ts /\ Forall2 spaced (map (fun e => node_val m (snd e)) es) ts).
    { clear - P IH. induction IH as [|e es I IH IHes]; [exists []; split; [reflexivity|constructor]|].
      inversion_clear P as [|? ? [_ P1] P2]. destruct (I P1 (S depth)) as (t & E1 & S1).
      destruct (IHes P2) as (ts & E2 & S2). exists (t :: ts). rewrite omapM_cons, E1. cbn [obind]. rewrite E2.
      split; [reflexivity|constructor; assumption]. }
    destruct G as (ts & Ets & Sp). rewrite Ets. cbn [obind]. eexists. split; [reflexivity|].
    exists (eoe ++ indent ind depth pad). eexists. split; [apply Wt|].
    split; [rewrite <- app_assoc; reflexivity|].
    replace (map (fun e => (fst e, node_val m (snd e))) es)
      with (combine (map fst es) (map (fun e => node_val m (snd e)) es))
      by (clear; induction es as [|e es IH]; cbn; congruence).
    assert (Ln : length es = length ts).
    { clear - Sp. revert ts Sp. induction es as [|e es IH]; intros ts Sp; inversion_clear Sp; cbn; auto. }
    destruct es as [|e0 es].
    + inversion Sp; subst. cbn [map zip_names sj_items combine app]. rewrite app_assoc.
      apply vt_obj0, blank_of, Wt.
    + repeat rewrite app_assoc. rewrite <- (app_assoc eoe). apply vt_obj.
      apply members_of; auto using white_indent.
      * intros ->. discriminate.
      * rewrite map_length. exact Ln.
      * apply Forall_map. eapply Forall_impl; [|exact P]. intros e [[_ K] _]. apply plain_literal, K.
  - apply printable_lst in P. cbn [node_json node_val].
    assert (G : exists ts, omapM (fun k => node_json F mach true ind pad eoe m k (S depth)) ks = Ok ts /\ Forall2 spaced (map (node_val m) ks) ts).
    { clear - P IH. induction IH as [|e es I IH IHes]; [exists []; split; [reflexivity|constructor]|].
      inversion_clear P as [|? ? P1 P2]. destruct (I P1 (S depth)) as (t & E1 & S1).
      destruct (IHes P2) as (ts & E2 & S2). exists (t :: ts). rewrite omapM_cons, E1. cbn [obind]. rewrite E2.
      split; [reflexivity|constructor; assumption]. }
    destruct G as (ts & Ets & Sp). rewrite Ets. cbn [obind]. eexists. split; [reflexivity|].
    exists (eoe ++ indent ind depth pad). eexists. split; [apply Wt|].
    split; [rewrite <- app_assoc; reflexivity|].
    destruct ks as [|k0 ks].
    + inversion Sp; subst. cbn [map sj_items app]. rewrite app_assoc.
      apply vt_arr0, blank_of, Wt.
    + repeat rewrite app_assoc. rewrite <- (app_assoc eoe). apply vt_arr.
      apply items_of; auto using white_indent.
      * clear - Sp Wp. induction Sp; cbn [map]; constructor; auto. apply spaced_more; auto using white_indent.
      * inversion Sp; subst. discriminate.
Qed.
End Text.
