(** Facts about json_sanitize and the JSON reader. *)
From Verif Require Import Base DType Codec Json JsonSpec.
Local Open Scope list_scope.

Ltac in_cases H := cbn in H; repeat (destruct H as [<- | H]); [ .. | destruct H].

Lemma in_L c l : existsb (Ascii.eqb c) l = true -> In c l.
Proof.
  intros H. apply existsb_exists in H. destruct H as (x & I & E).
  apply Ascii.eqb_eq in E. subst. exact I.
Qed.
Lemma letter_word c : letter c -> word_char c = true.
Proof. intros H; unfold letter in H; in_cases H; reflexivity. Qed.
Lemma digit_num c : digit c -> num_char c = true.
Proof. intros H; unfold digit in H; in_cases H; reflexivity. Qed.
Lemma digit_not_word c : digit c -> word_char c = false.
Proof. intros H; unfold digit in H; in_cases H; reflexivity. Qed.
Lemma white_ws c : white c -> is_ws c = true.
Proof. intros H; unfold white in H; in_cases H; reflexivity. Qed.

(** * json_sanitize *)

Definition idle (o : str) : sst := mkS false false false [] o.
Definition plain (c : ascii) : Prop :=
  word_char c = false /\ Ascii.eqb c dquote = false /\ Ascii.eqb c "/" = false.
Definition sep (c : ascii) : Prop := white c \/ In c ["{"; "["; ","; ":"]%char.
Definition endc (c : ascii) : Prop := white c \/ In c [","; "]"; "}"; ":"]%char.

Lemma white_plain c : white c -> plain c.
Proof. intros H; unfold white in H; in_cases H; repeat split. Qed.
Lemma endc_plain c : endc c -> plain c.
Proof. intros [H|H]; [apply white_plain, H|in_cases H; repeat split]. Qed.
Lemma endc_not_num c : endc c -> num_char c = false.
Proof. intros [H|H]; [unfold white in H|]; in_cases H; reflexivity. Qed.
Lemma digit_plain c : digit c -> plain c.
Proof. intros H; unfold digit in H; in_cases H; repeat split. Qed.
Lemma sep_props c : sep c -> Ascii.eqb c bslash = false /\ num_char c = false /\ Ascii.eqb c "." = false.
Proof. intros [H|H]; [unfold white in H|]; in_cases H; repeat split. Qed.

Lemma step_plain p c n o : plain c -> sstep p c n (idle o) = idle (o ++ [c]).
Proof.
  intros (A & B & C). unfold sstep, idle, toggles; cbn [in_string in_comment in_id cur_id res].
  rewrite A, B, C. reflexivity.
Qed.
Lemma run_plain p o c rest :
  plain c -> srun p (idle o) (c :: rest) = srun (Some c) (idle (o ++ [c])) rest.
Proof. intros H; cbn [srun]; rewrite step_plain by exact H; reflexivity. Qed.

Lemma last_cons {A} (c : A) r d : last (c :: r) d = last r c.
Proof.
  revert c; induction r as [|x r IH]; intros c; [reflexivity|].
  change (last (c :: x :: r) d) with (last (x :: r) d). rewrite IH.
  change (last (x :: r) c) with (match r with [] => x | _ => last r c end).
  destruct r; [reflexivity|]. specialize (IH x).
  change (last (x :: a :: r) d) with (last (a :: r) d) in IH. rewrite <- IH.
  clear. revert a; induction r as [|y r IH]; intros a; [reflexivity|].
  change (last (a :: y :: r) d) with (last (y :: r) d).
  change (last (a :: y :: r) c) with (last (y :: r) c). apply IH.
Qed.

Definition instring (o : str) : sst := mkS false true false [] o.
Lemma eqb_neq_false a b : a <> b -> Ascii.eqb a b = false.
Proof. intros H; apply Ascii.eqb_neq; exact H. Qed.
Lemma step_in_string p c n o :
  toggles p c = false -> sstep p c n (instring o) = instring (o ++ [c]).
Proof. intros H; unfold sstep, instring; rewrite H; reflexivity. Qed.

Lemma run_literal r s : literal r s -> forall pc o rest,
  last r pc <> backslash ->
  srun (Some pc) (instring o) (r ++ quote :: rest)
  = srun (Some quote) (idle (o ++ r ++ [quote])) rest.
Proof.
  induction 1 as [|c r s A B C R IH|c x r s E R IH]; intros pc o rest N.
  - cbn [app srun]. unfold sstep, toggles, quote. cbn [last] in N.
    change (Ascii.eqb """" dquote) with true.
    rewrite (eqb_neq_false pc bslash) by exact N. reflexivity.
  - cbn [app srun]. rewrite step_in_string.
    2:{ unfold toggles. rewrite (eqb_neq_false c dquote) by exact A. reflexivity. }
    rewrite IH by (rewrite <- (last_cons c r pc); exact N).
    rewrite <- app_assoc. reflexivity.
  - change (srun (Some pc) (instring o) ((backslash :: c :: r) ++ quote :: rest))
      with (srun (Some pc) (instring o) ([backslash; c] ++ (r ++ quote :: rest))).
    change ([backslash; c] ++ r ++ quote :: rest) with (backslash :: c :: (r ++ quote :: rest)).
    cbn [srun]. rewrite step_in_string by reflexivity.
    rewrite step_in_string by (unfold toggles; rewrite Bool.andb_false_r; reflexivity).
    rewrite IH by (rewrite <- (last_cons c r pc); exact N).
    repeat rewrite <- app_assoc. reflexivity.
Qed.

Lemma step_opens pc n o :
  Ascii.eqb pc bslash = false ->
  sstep (Some pc) quote n (idle o) = instring (o ++ [quote]).
Proof. intros H; unfold sstep, toggles; rewrite H; reflexivity. Qed.

Lemma run_denotes t s : denotes t s -> forall pc o rest,
  sep pc -> srun (Some pc) (idle o) (t ++ rest) = srun (Some quote) (idle (o ++ t)) rest.
Proof.
  intros (r & -> & R & N) pc o rest P.
  cbn [app srun]. rewrite step_opens by apply (sep_props _ P).
  rewrite <- app_assoc. cbn [app].
  rewrite (run_literal r s R quote (o ++ [quote]) rest).
  - repeat rewrite <- app_assoc. reflexivity.
  - destruct r as [|c r]; [discriminate|]. rewrite last_cons.
    rewrite last_cons in N. exact N.
Qed.

Lemma run_word_tail w : forall p acc o c rest,
  Forall (fun x => letter x \/ digit x) w -> endc c ->
  srun p (mkS false false true acc o) (w ++ c :: rest)
  = srun (Some c) (idle (o ++ id_text (acc ++ w) ++ [c])) rest.
Proof.
  induction w as [|x w IH]; intros p acc o c rest F E.
  - cbn [app srun]. destruct (endc_plain c E) as (A & B & C).
    unfold sstep, toggles; cbn [in_string in_comment in_id cur_id res].
    rewrite A, B, C, (endc_not_num c E). cbn. rewrite app_nil_r. reflexivity.
  - inversion_clear F as [|? ? X F']. cbn [app srun].
    assert (W : (word_char x || num_char x = true)%bool)
      by (destruct X as [X|X]; [rewrite (letter_word x X)|rewrite (digit_num x X), Bool.orb_true_r];
          reflexivity).
    assert (Q : Ascii.eqb x dquote = false /\ Ascii.eqb x "/" = false).
    { destruct X as [X|X]; [unfold letter in X|unfold digit in X]; in_cases X; split; reflexivity. }
    destruct Q as [Q1 Q2].
    unfold sstep, toggles; cbn [in_string in_comment in_id cur_id res].
    rewrite Q1, Q2, W. cbn [andb orb negb]. rewrite IH by assumption.
    rewrite <- app_assoc. reflexivity.
Qed.
Lemma run_word x w pc o c rest :
  letter x -> Forall (fun x => letter x \/ digit x) w -> sep pc -> endc c ->
  srun (Some pc) (idle o) ((x :: w) ++ c :: rest)
  = srun (Some c) (idle (o ++ id_text (x :: w) ++ [c])) rest.
Proof.
  intros X F P E. cbn [app srun].
  assert (Q : Ascii.eqb x dquote = false /\ Ascii.eqb x "/" = false)
    by (unfold letter in X; in_cases X; split; reflexivity).
  destruct Q as [Q1 Q2]. destruct (sep_props pc P) as (_ & P2 & P3).
  assert (E1 : forall n, sstep (Some pc) x n (idle o) = mkS false false true [x] o).
  { intros n. unfold sstep, toggles; cbn [in_string in_comment in_id cur_id res idle].
    rewrite Q1, Q2, (letter_word x X), P2, P3. reflexivity. }
  rewrite E1, run_word_tail by assumption. reflexivity.
Qed.

(** Numbers: a word character only after a digit. *)
Fixpoint numrun (p : ascii) (t : str) : Prop :=
  match t with
  | [] => True
  | c :: r => (plain c \/ (Ascii.eqb c dquote = false /\ Ascii.eqb c "/" = false /\
                           num_char p = true)) /\ numrun c r
  end.
Lemma run_numrun t : forall p o rest,
  numrun p t -> srun (Some p) (idle o) (t ++ rest) = srun (Some (last t p)) (idle (o ++ t)) rest.
Proof.
  induction t as [|c t IH]; intros p o rest H.
  - cbn. rewrite app_nil_r. reflexivity.
  - destruct H as [H N]. cbn [app srun].
    assert (E : sstep (Some p) c (hd_error (t ++ rest)) (idle o) = idle (o ++ [c])).
    { destruct H as [H|(A & B & C)]; [apply step_plain, H|].
      unfold sstep, toggles; cbn [in_string in_comment in_id cur_id res idle].
      rewrite A, B, C. cbn. destruct (word_char c); reflexivity. }
    rewrite E, IH by exact N. rewrite last_cons, <- app_assoc. reflexivity.
Qed.
Lemma numrun_app a b : forall p, numrun p a -> numrun (last a p) b -> numrun p (a ++ b).
Proof.
  induction a as [|c a IH]; intros p A B; [exact B|].
  destruct A as [A1 A2]. split; [exact A1|]. apply IH; [exact A2|].
  rewrite last_cons in B. exact B.
Qed.
Lemma numrun_plain t : Forall plain t -> forall p, numrun p t.
Proof. induction 1; intros p; cbn; auto. Qed.
Lemma digits_plain t : Forall digit t -> Forall plain t.
Proof. intros H; eapply Forall_impl; [|exact H]; exact digit_plain. Qed.
Lemma last_digits t p : digits t -> num_char (last t p) = true.
Proof.
  intros [N F]. destruct t as [|c t]; [congruence|]. rewrite last_cons. clear N.
  revert c F; induction t as [|x t IH]; intros c F.
  - inversion_clear F. apply digit_num; assumption.
  - inversion_clear F. rewrite last_cons. apply IH. assumption.
Qed.
Lemma number_numrun t p : number t -> numrun p t.
Proof.
  intros (s & i & f & e & -> & S & I & _ & F & E).
  apply numrun_app; [destruct S as [-> | ->]; cbn; repeat split; left; repeat split|].
  apply numrun_app; [apply numrun_plain, digits_plain, I|].
  assert (N1 : num_char (last i (last s p)) = true) by apply last_digits, I.
  apply numrun_app.
  { destruct F as [-> |(d & -> & D)]; [exact Logic.I|].
    apply numrun_plain. constructor; [repeat split|apply digits_plain, D]. }
  assert (N2 : num_char (last f (last i (last s p))) = true).
  { destruct F as [-> |(d & -> & D)]; [exact N1|]. rewrite last_cons. apply last_digits, D. }
  destruct E as [-> |(c & g & d & -> & C & G & D)]; [exact Logic.I|].
  split.
  { right. in_cases C; (split; [reflexivity|split; [reflexivity|exact N2]]). }
  apply numrun_plain. apply Forall_app; split; [|apply digits_plain, D].
  in_cases G; repeat constructor.
Qed.

(** Blanks. *)
Lemma run_comment b : forall p o rest,
  ~ In newline b -> ~ In quote b ->
  srun p (mkS true false false [] o) (b ++ newline :: rest) = srun (Some newline) (idle o) rest.
Proof.
  induction b as [|c b IH]; intros p o rest N Q; [reflexivity|].
  cbn [app srun]. unfold sstep, toggles; cbn [in_string in_comment in_id cur_id res].
  rewrite (eqb_neq_false c dquote) by (intros ->; apply Q; left; reflexivity).
  rewrite (eqb_neq_false c c_nl) by (intros ->; apply N; left; reflexivity).
  cbn [andb orb negb]. apply IH; intros X; [apply N|apply Q]; right; exact X.
Qed.
Lemma run_blank lo a a' : blank_text lo a a' -> forall p o rest,
  exists q, (q = p \/ exists c, q = Some c /\ white c) /\
    srun p (idle o) (a ++ rest) = srun q (idle (o ++ a')) rest.
Proof.
  induction 1 as [|c t u C R IH|b t u L0 N Q R IH]; intros p o rest.
  - exists p. split; [left; reflexivity|]. rewrite app_nil_r. reflexivity.
  - cbn [app]. rewrite run_plain by (apply white_plain, C).
    destruct (IH (Some c) (o ++ [c]) rest) as (q & Hq & E).
    exists q. split.
    + right. destruct Hq as [-> |Hq]; [eauto|exact Hq].
    + rewrite E, <- app_assoc. reflexivity.
  - change (L "//") with ["/"%char; "/"%char]. cbn [app].
    assert (E1 : srun p (idle o) ("/"%char :: "/"%char :: (b ++ newline :: t) ++ rest)
                 = srun (Some "/"%char) (mkS true false false [] o) (b ++ newline :: t ++ rest)).
    { rewrite <- app_assoc. cbn [app srun hd_error]. reflexivity. }
    rewrite E1, run_comment by assumption.
    destruct (IH (Some newline) o rest) as (q & Hq & E).
    exists q. split; [|exact E].
    right. destruct Hq as [-> |Hq]; [|exact Hq].
    exists newline. split; [reflexivity|]. right; left; reflexivity.
Qed.

Definition value_runs (lo : bool) (v : jval) (t u : str) : Prop :=
  (container v -> forall p o rest, exists q,
      srun p (idle o) (t ++ rest) = srun (Some q) (idle (o ++ u)) rest) /\
  (forall pc o c rest, sep pc -> endc c ->
      srun (Some pc) (idle o) (t ++ c :: rest) = srun (Some c) (idle (o ++ u ++ [c])) rest).
Definition part_runs (t u : str) : Prop :=
  forall pc o c rest, sep pc -> endc c ->
      srun (Some pc) (idle o) (t ++ c :: rest) = srun (Some c) (idle (o ++ u ++ [c])) rest.

Lemma white_sep c : white c -> sep c.
Proof. left; assumption. Qed.

Lemma blank_then lo a a' : blank_text lo a a' -> forall pc o rest, sep pc ->
  exists qc, sep qc /\ srun (Some pc) (idle o) (a ++ rest) = srun (Some qc) (idle (o ++ a')) rest.
Proof.
  intros B pc o rest P. destruct (run_blank lo a a' B (Some pc) o rest) as (q & [-> |(c & -> & W)] & E).
  - exists pc; auto.
  - exists c; split; [apply white_sep, W|exact E].
Qed.

Lemma part_after lo t u b b' :
  part_runs t u -> blank_after lo b b' -> part_runs (t ++ b) (u ++ b').
Proof.
  intros P [(-> & ->)|(w & x & y & -> & -> & W & B)] pc o c rest S E.
  - rewrite !app_nil_r. apply P; assumption.
  - rewrite <- app_assoc. cbn [app]. rewrite P; [|exact S|left; exact W].
    destruct (run_blank lo x y B (Some w) (o ++ u ++ [w]) (c :: rest)) as (q & _ & Q).
    rewrite Q, run_plain by (apply endc_plain, E).
    repeat rewrite <- app_assoc. reflexivity.
Qed.
Lemma blank_part lo a a' t u :
  blank_text lo a a' -> part_runs t u -> part_runs (a ++ t) (a' ++ u).
Proof.
  intros B P pc o c rest S E. rewrite <- app_assoc.
  destruct (blank_then lo a a' B pc o (t ++ c :: rest) S) as (q & Sq & Q).
  rewrite Q, P by assumption. repeat rewrite <- app_assoc. reflexivity.
Qed.
Lemma part_sep t u c r q :
  In c [","; ":"]%char ->
  part_runs t u -> part_runs r q -> part_runs (t ++ c :: r) (u ++ c :: q).
Proof.
  intros C P R pc o e rest S E. rewrite <- app_assoc. cbn [app].
  assert (endc c /\ sep c) as [Ec Sc].
  { in_cases C; split; right; cbn; tauto. }
  rewrite P by assumption. rewrite R by assumption.
  repeat rewrite <- app_assoc. reflexivity.
Qed.
Lemma run_name lo k t u : name_text lo k t u -> part_runs t u.
Proof.
  intros [t' D|Lo (c & r & E & A & F & K)] pc o e rest S En.
  - rewrite (run_denotes t' k D) by exact S. rewrite run_plain by (apply endc_plain, En).
    rewrite <- app_assoc. reflexivity.
  - rewrite E. rewrite run_word by assumption. unfold id_text. rewrite <- E.
    assert (H : (str_eqb k (L "true") || str_eqb k (L "false") || str_eqb k (L "null"))%bool = false).
    { apply Bool.not_true_iff_false. intros X. apply K.
      repeat rewrite Bool.orb_true_iff in X. repeat rewrite str_eqb_eq in X.
      cbn. destruct X as [[-> | ->]| ->]; tauto. }
    rewrite H. reflexivity.
Qed.
Lemma run_keyword w : In w [L "true"; L "false"; L "null"] -> part_runs w w.
Proof.
  intros H pc o c rest S E.
  assert (exists x r, w = x :: r /\ letter x /\ Forall (fun x => letter x \/ digit x) r)
    as (x & r & -> & X & F).
  { in_cases H; (eexists _, _; split; [reflexivity|]; split; [apply in_L; reflexivity|];
      repeat apply Forall_cons; [.. | apply Forall_nil]; left; apply in_L; reflexivity). }
  rewrite run_word by assumption.
  assert (E1 : id_text (x :: r) = x :: r) by (in_cases H; reflexivity).
  rewrite E1. reflexivity.
Qed.

Lemma bracket_runs (op cl : ascii) t u lo v :
  In (op, cl) [("[", "]"); ("{", "}")]%char ->
  (forall p o rest, sep p -> exists q,
      srun (Some p) (idle o) (t ++ cl :: rest) = srun (Some q) (idle (o ++ u ++ [cl])) rest) ->
  value_runs lo v (op :: t ++ [cl]) (op :: u ++ [cl]).
Proof.
  intros O H.
  assert (Po : plain op /\ sep op).
  { cbn in O; destruct O as [O|[O|[]]]; injection O as <- <-; (split; [repeat split|right; cbn; tauto]). }
  assert (A : forall p o rest, exists q,
             srun p (idle o) ((op :: t ++ [cl]) ++ rest)
             = srun (Some q) (idle (o ++ op :: u ++ [cl])) rest).
  { intros p o rest. cbn [app]. rewrite run_plain by apply Po.
    rewrite <- app_assoc. cbn [app].
    destruct (H op (o ++ [op]) rest (proj2 Po)) as (q & E). exists q. rewrite E.
    repeat rewrite <- app_assoc. reflexivity. }
  split.
  - intros _. exact A.
  - intros pc o c rest _ E. destruct (A (Some pc) o (c :: rest)) as (q & Q).
    rewrite Q, run_plain by (apply endc_plain, E). repeat rewrite <- app_assoc. reflexivity.
Qed.

Lemma sanitize_parts lo :
  (forall v t u, value_text lo v t u -> value_runs lo v t u) /\
  (forall l t u, items_text lo l t u -> part_runs t u) /\
  (forall l t u, members_text lo l t u -> part_runs t u).
Proof.
  apply json_text_ind.
  - split; [intros []|]. apply run_keyword. cbn; tauto.
  - split; [intros []|]. apply run_keyword. cbn; tauto.
  - split; [intros []|]. apply run_keyword. cbn; tauto.
  - intros t N. split; [intros []|]. intros pc o c rest S E.
    rewrite run_numrun by (apply number_numrun, N). rewrite run_plain by (apply endc_plain, E).
    rewrite <- app_assoc. reflexivity.
  - intros s t u N. split; [intros []|]. eapply run_name, N.
  - intros w w' B. apply bracket_runs; [left; reflexivity|]. intros p o rest P.
    destruct (blank_then lo w w' B p o ("]"%char :: rest) P) as (q & _ & Q).
    exists "]"%char. rewrite Q, run_plain by (repeat split). rewrite <- app_assoc. reflexivity.
  - intros l t u _ IH. apply bracket_runs; [left; reflexivity|]. intros p o rest P.
    exists "]"%char. rewrite IH; [reflexivity|exact P|right; cbn; tauto].
  - intros w w' B. apply bracket_runs; [right; left; reflexivity|]. intros p o rest P.
    destruct (blank_then lo w w' B p o ("}"%char :: rest) P) as (q & _ & Q).
    exists "}"%char. rewrite Q, run_plain by (repeat split). rewrite <- app_assoc. reflexivity.
  - intros l t u _ IH. apply bracket_runs; [right; left; reflexivity|]. intros p o rest P.
    exists "}"%char. rewrite IH; [reflexivity|exact P|right; cbn; tauto].
  - intros v a a' t u b b' A V [_ IH] B.
    eapply blank_part; [exact A|]. eapply part_after; [exact IH|exact B].
  - intros v l a a' t u b b' r q A V [_ IH] B L IHl.
    eapply blank_part; [exact A|]. rewrite !(app_assoc t), !(app_assoc u).
    apply part_sep; [cbn; tauto| |exact IHl].
    eapply part_after; [exact IH|exact B].
  - intros k v e e' n n' c c' a a' t u b b' E N C A V [_ IH] B.
    eapply blank_part; [exact E|]. rewrite !(app_assoc n), !(app_assoc n').
    apply part_sep; [cbn; tauto|eapply part_after; [eapply run_name, N|exact C]|].
    eapply blank_part; [exact A|]. eapply part_after; [exact IH|exact B].
  - intros k v l e e' n n' c c' a a' t u b b' r q E N C A V [_ IH] B L IHl.
    eapply blank_part; [exact E|]. rewrite !(app_assoc n), !(app_assoc n').
    apply part_sep; [cbn; tauto|eapply part_after; [eapply run_name, N|exact C]|].
    eapply blank_part; [exact A|]. rewrite !(app_assoc t), !(app_assoc u).
    apply part_sep; [cbn; tauto| |exact IHl].
    eapply part_after; [exact IH|exact B].
Qed.

Lemma sanitize_doc lo v t u : container v -> doc lo v t u -> json_sanitize t = u.
Proof.
  intros K (a & a' & x & y & b & b' & A & V & B & -> & ->).
  unfold json_sanitize. change s_start with (idle []).
  destruct (run_blank lo a a' A None [] (x ++ b)) as (p & _ & E1). rewrite E1. cbn [app].
  destruct (proj1 (proj1 (sanitize_parts lo) v x y V) K p a' b) as (q & E2). rewrite E2.
  destruct B as [(-> & ->)|(w & s & r & -> & -> & W & B)].
  - cbn. rewrite app_nil_r. reflexivity.
  - rewrite run_plain by (apply white_plain, W).
    destruct (run_blank lo s r B (Some w) ((a' ++ y) ++ [w]) []) as (q' & _ & E3).
    rewrite app_nil_r in E3. rewrite E3. cbn. repeat rewrite <- app_assoc. reflexivity.
Qed.

(** The cleaned form is strict. *)
Lemma blank_clean lo a a' : blank_text lo a a' -> blank_text false a' a'.
Proof. induction 1; [constructor|constructor; assumption|assumption]. Qed.
Lemma after_clean lo a a' : blank_after lo a a' -> blank_after false a' a'.
Proof.
  intros [(-> & ->)|(c & t & u & -> & -> & W & B)]; [left; auto|].
  right. exists c, u, u. repeat split; auto. eapply blank_clean, B.
Qed.
Lemma letter_range c : letter c \/ digit c ->
  c <> quote /\ c <> backslash /\ (32 <= N_of_ascii c)%N.
Proof.
  intros [X|X]; [unfold letter in X|unfold digit in X]; in_cases X;
    (split; [discriminate|]; split; [discriminate|]; vm_compute; discriminate).
Qed.
Lemma word_literal w : Forall (fun x => letter x \/ digit x) w -> literal w w.
Proof.
  induction 1 as [|c w C F IH]; [constructor|].
  destruct (letter_range c C) as (A & B & D). constructor; assumption.
Qed.
Lemma word_last w d : Forall (fun x => letter x \/ digit x) w -> d <> backslash ->
  last w d <> backslash.
Proof.
  intros F; revert d; induction F as [|c w C F IH]; intros d D; [exact D|].
  rewrite last_cons. apply IH. apply (letter_range c C).
Qed.
Lemma name_clean lo k t u : name_text lo k t u -> name_text false k u u.
Proof.
  intros [t' D|_ (c & r & -> & A & F & K)]; [constructor; exact D|].
  constructor. exists (c :: r). split; [reflexivity|].
  assert (F' : Forall (fun x => letter x \/ digit x) (c :: r)) by (constructor; auto).
  split; [apply word_literal, F'|]. apply word_last; [exact F'|discriminate].
Qed.
Lemma parts_clean lo :
  (forall v t u, value_text lo v t u -> value_text false v u u) /\
  (forall l t u, items_text lo l t u -> items_text false l u u) /\
  (forall l t u, members_text lo l t u -> members_text false l u u).
Proof.
  apply json_text_ind; intros; constructor; eauto using blank_clean, after_clean, name_clean.
Qed.
Lemma doc_clean lo v t u : doc lo v t u -> strict_json v u.
Proof.
  intros (a & a' & x & y & b & b' & A & V & B & -> & ->).
  exists a', a', y, y, b', b'. split; [eapply blank_clean, A|].
  split; [eapply (proj1 (parts_clean lo)), V|]. split; [eapply after_clean, B|]. auto.
Qed.
