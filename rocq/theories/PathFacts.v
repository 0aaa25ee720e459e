(** Facts about splitting and joining path strings. *)
From Verif Require Import Base Path SpecTree.
Local Open Scope nat_scope.

Lemma prefixb_spec p s : prefixb p s = true <-> exists r, s = p ++ r.
Proof.
  revert s; induction p as [|x p IH]; intros s; simpl.
  - split; [exists s; reflexivity|reflexivity].
  - destruct s as [|y s].
    + split; [discriminate|intros [r H]; discriminate].
    + destruct (ascii_dec x y) as [->|H].
      * rewrite IH. split; intros [r E]; exists r; congruence.
      * split; [discriminate|intros [r E]; congruence].
Qed.

Lemma find_slash_app c r :
  ~ In slash c -> find_sub [slash] (c ++ slash :: r) = Some (List.length c).
Proof.
  induction c as [|x c IH]; intros H.
  - reflexivity.
  - cbn [find_sub app]. assert (x <> slash) by (intros ->; apply H; left; reflexivity).
    cbn [prefixb]. destruct (ascii_dec slash x); [congruence|].
    rewrite IH; [reflexivity|]. intros I; apply H; right; exact I.
Qed.
Lemma find_slash_none c : ~ In slash c -> find_sub [slash] c = None.
Proof.
  induction c as [|x c IH]; intros H; [reflexivity|].
  cbn [find_sub prefixb]. assert (x <> slash) by (intros ->; apply H; left; reflexivity).
  destruct (ascii_dec slash x); [congruence|].
  rewrite IH; [reflexivity|]. intros I; apply H; right; exact I.
Qed.
Lemma slash_split (s : str) :
  {c & {r | s = c ++ slash :: r /\ ~ In slash c}} + {~ In slash s}.
Proof.
  induction s as [|x s IH].
  - right; intros [].
  - destruct (ascii_dec x slash) as [->|Hx].
    + left. exists [], s. split; [reflexivity|intros []].
    + destruct IH as [(c & r & E & H)|H].
      * left. exists (x :: c), r. split; [simpl; congruence|].
        intros [I|I]; [congruence|contradiction].
      * right. intros [I|I]; [congruence|contradiction].
Qed.
Lemma slash_rsplit (s : str) :
  {c & {r | s = c ++ slash :: r /\ ~ In slash r}} + {~ In slash s}.
Proof.
  destruct (slash_split (rev s)) as [(c & r & E & H)|H].
  - left. exists (rev r), (rev c). split.
    + rewrite <- (rev_involutive s), E, rev_app_distr. simpl. rewrite <- app_assoc. reflexivity.
    + intros I. apply H. apply in_rev. exact I.
  - right. intros I; apply H. rewrite <- in_rev. exact I.
Qed.

Lemma split_path_app c r : ~ In slash c -> split_path (c ++ slash :: r) = (c, r).
Proof.
  intros H. unfold split_path, split_string. rewrite find_slash_app by exact H.
  rewrite firstn_app, Nat.sub_diag, firstn_all, firstn_O, app_nil_r.
  f_equal. rewrite app_length; cbn [List.length].
  destruct (List.length c =? List.length c + S (List.length r) - 1) eqn:E.
  - apply Nat.eqb_eq in E. destruct r; simpl in *; [reflexivity|lia].
  - rewrite Nat.add_1_r. clear. induction c as [|x c IH]; simpl; [reflexivity|exact IH].
Qed.
Lemma split_path_none c : ~ In slash c -> split_path c = (c, []).
Proof. intros H. unfold split_path, split_string. rewrite find_slash_none by exact H. reflexivity. Qed.

(** In all cases: the first part has no slash and the parts make up the input
    (up to one slash). *)
Lemma split_path_cases s :
  (~ In slash s /\ split_path s = (s, [])) \/
  (exists c r, s = c ++ slash :: r /\ ~ In slash c /\ split_path s = (c, r)).
Proof.
  destruct (slash_split s) as [(c & r & -> & H)|H].
  - right. exists c, r. auto using split_path_app.
  - left. auto using split_path_none.
Qed.
Lemma split_path_len s c n : split_path s = (c, n) ->
  List.length n <= List.length s /\ (n <> [] -> List.length n < List.length s).
Proof.
  destruct (split_path_cases s) as [[H E]|(c' & r & Es & H & E)]; rewrite E; intros X;
    injection X as <- <-.
  - split; [simpl; lia|congruence].
  - subst s. rewrite app_length; simpl. split; [lia|intros _; lia].
Qed.
Lemma split_path_noslash s c n : split_path s = (c, n) -> ~ In slash c.
Proof.
  destruct (split_path_cases s) as [[H E]|(c' & r & Es & H & E)]; rewrite E; intros X;
    injection X as <- <-; exact H.
Qed.

Lemma rfind_slash_none c : ~ In slash c -> rfind_sub [slash] c = None.
Proof.
  induction c as [|x c IH]; intros H; [reflexivity|].
  cbn [rfind_sub prefixb]. rewrite IH by (intros I; apply H; right; exact I).
  assert (x <> slash) by (intros ->; apply H; left; reflexivity).
  destruct (ascii_dec slash x); [congruence|reflexivity].
Qed.
Lemma rfind_slash_app c r :
  ~ In slash r -> rfind_sub [slash] (c ++ slash :: r) = Some (List.length c).
Proof.
  intros H. induction c as [|x c IH]; cbn [app rfind_sub].
  - rewrite rfind_slash_none by exact H. reflexivity.
  - rewrite IH. reflexivity.
Qed.
Lemma rsplit_path_app c r : ~ In slash r -> rsplit_path (c ++ slash :: r) = (r, c).
Proof.
  intros H. unfold rsplit_path, rsplit_string. rewrite rfind_slash_app by exact H.
  rewrite firstn_app, Nat.sub_diag, firstn_all, firstn_O, app_nil_r.
  f_equal. rewrite app_length; cbn [List.length].
  destruct (List.length c =? List.length c + S (List.length r) - 1) eqn:E.
  - apply Nat.eqb_eq in E. destruct r; simpl in *; [reflexivity|lia].
  - rewrite Nat.add_1_r. clear. induction c as [|x c IH]; simpl; [reflexivity|exact IH].
Qed.
Lemma rsplit_path_none c : ~ In slash c -> rsplit_path c = (c, []).
Proof. intros H. unfold rsplit_path, rsplit_string. rewrite rfind_slash_none by exact H. reflexivity. Qed.

(** ---- joins ---- *)
Lemma last_in {A} (l : list A) d : l <> [] -> In (last l d) l.
Proof.
  induction l as [|x l IH]; intros H; [congruence|].
  destruct l as [|y l]; [left; reflexivity|].
  right. change (last (x :: y :: l) d) with (last (y :: l) d). apply IH; discriminate.
Qed.
Lemma join_path_plain c r :
  c <> [] -> r <> [] -> last c "000"%char <> slash -> join_path c r = c ++ slash :: r.
Proof.
  intros Hc Hr Hl. unfold join_path. destruct c as [|x c]; [congruence|].
  destruct (ascii_dec _ slash); [congruence|]. destruct r; [congruence|reflexivity].
Qed.
Lemma join_path_nil_r c : join_path c [] = c.
Proof. unfold join_path. destruct c; [reflexivity|]. destruct (ascii_dec _ _); [apply app_nil_r|reflexivity]. Qed.

Lemma split_join c r :
  ~ In slash c -> c <> [] -> split_path (join_path c r) = (c, r).
Proof.
  intros H Hc. destruct r as [|x r].
  - rewrite join_path_nil_r. apply split_path_none; exact H.
  - rewrite join_path_plain; auto; [apply split_path_app; exact H|discriminate|].
    intros E. apply H. rewrite <- E. apply last_in; exact Hc.
Qed.

(** Paths built from components. *)
Lemma path_of_cons c cs : cs <> [] -> path_of (c :: cs) = c ++ slash :: path_of cs.
Proof. destruct cs; [congruence|reflexivity]. Qed.
Lemma path_of_nonempty cs : Forall plain cs -> cs <> [] -> path_of cs <> [].
Proof.
  intros H Hn. destruct cs as [|c cs]; [congruence|].
  inversion H as [|? ? Hc _]; subst. destruct Hc as [Hc _].
  destruct cs; simpl; [exact Hc|]. destruct c; [congruence|discriminate].
Qed.
Lemma split_path_of c cs :
  Forall plain (c :: cs) -> split_path (path_of (c :: cs)) = (c, path_of cs).
Proof.
  intros H. inversion H as [|? ? Hc Hcs]; subst. destruct Hc as (Hc & Hs & Hd).
  destruct cs as [|d cs].
  - simpl. apply split_path_none; exact Hs.
  - rewrite path_of_cons by discriminate. apply split_path_app; exact Hs.
Qed.

(** ---- split on a character ---- *)
Fixpoint on_sep (sep : ascii) (s : str) : str :=
  match s with
  | [] => []
  | c :: r => if ascii_dec c sep then on_sep sep r else c :: on_sep sep r
  end.
Lemma on_sep_app sep a b : on_sep sep (a ++ b) = on_sep sep a ++ on_sep sep b.
Proof. induction a as [|x a IH]; simpl; [reflexivity|]. destruct (ascii_dec x sep); simpl; congruence. Qed.
Lemma split_vec_concat sep s : forall acc,
  ~ In "000"%char s -> concat (split_vec s sep acc) = rev acc ++ on_sep sep s.
Proof.
  induction s as [|c s IH]; intros acc H; simpl.
  - destruct acc as [|a acc]; [reflexivity|]. cbn [concat]. reflexivity.
  - assert (Hc : c <> "000"%char) by (intros ->; apply H; left; reflexivity).
    assert (Hs : ~ In "000"%char s) by (intros I; apply H; right; exact I).
    destruct (ascii_dec c "000"); [congruence|].
    destruct (ascii_dec c sep) as [->|Hsep].
    + destruct acc as [|a acc].
      * rewrite IH by exact Hs. reflexivity.
      * cbn [concat]. rewrite IH by exact Hs. reflexivity.
    + rewrite IH by exact Hs. simpl. rewrite <- app_assoc. reflexivity.
Qed.
Lemma split_vec_pieces sep s : forall acc,
  ~ In sep acc -> Forall (fun p => p <> [] /\ ~ In sep p) (split_vec s sep acc).
Proof.
  assert (R : forall a acc, ~ In sep (a :: acc) -> rev (a :: acc) <> [] /\ ~ In sep (rev (a :: acc))).
  { intros a acc H. split.
    - simpl. intros E. apply app_eq_nil in E. destruct E; discriminate.
    - rewrite <- in_rev. exact H. }
  induction s as [|c s IH]; intros acc H; cbn [split_vec].
  - destruct acc as [|a acc]; constructor; auto.
  - destruct (ascii_dec c "000").
    + destruct acc as [|a acc]; constructor; auto.
    + destruct (ascii_dec c sep) as [->|Hs].
      * destruct acc as [|a acc]; [apply IH; intros []|].
        constructor; auto.
      * apply IH. intros [E|I]; [congruence|contradiction].
Qed.
