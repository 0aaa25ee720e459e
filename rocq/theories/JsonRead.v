(** The reader of Json.v reads every strict JSON text. *)
From Coq Require Import Lia.
From Verif Require Import Base DType Codec Json JsonSpec JsonFacts.
Local Open Scope list_scope.

Lemma rd_while_app p t rest :
  Forall (fun c => p c = true) t -> (forall c, hd_error rest = Some c -> p c = false) ->
  rd_while p (t ++ rest) = (t, rest).
Proof.
  intros F H; induction F as [|c t C F IH]; cbn [app rd_while].
  - destruct rest as [|c r]; [reflexivity|]. cbn. rewrite (H c eq_refl). reflexivity.
  - rewrite C, IH. reflexivity.
Qed.
Lemma escaped_unesc c x : escaped c x -> unesc c = Some x.
Proof.
  unfold escaped. cbn [In]. intros H.
  repeat (destruct H as [H|H]; [injection H as <- <-; reflexivity|]). destruct H.
Qed.
Lemma rd_literal r s : literal r s -> forall rest,
  rd_string (r ++ quote :: rest) = Some (s, rest).
Proof.
  induction 1 as [|c r s A B C R IH|c x r s E R IH]; intros rest; [reflexivity| |].
  - cbn [app rd_string]. rewrite (eqb_neq_false c dquote) by exact A.
    rewrite (eqb_neq_false c bslash) by exact B. unfold is_ctl.
    replace (N.ltb (N_of_ascii c) 32) with false by (symmetry; apply N.ltb_ge, C).
    rewrite IH. reflexivity.
  - cbn [app rd_string]. change (Ascii.eqb backslash dquote) with false.
    change (Ascii.eqb backslash bslash) with true. rewrite (escaped_unesc c x E), IH. reflexivity.
Qed.

Lemma skip_blank a a' : blank_text false a a' -> forall rest, skip_ws (a ++ rest) = skip_ws rest.
Proof.
  induction 1 as [|c t u C R IH|b t u L0 N Q R IH]; intros rest; [reflexivity| |discriminate].
  cbn [app skip_ws]. rewrite (white_ws c C). apply IH.
Qed.
Lemma skip_after a a' : blank_after false a a' -> forall rest, skip_ws (a ++ rest) = skip_ws rest.
Proof.
  intros [(-> & _)|(c & t & u & -> & _ & W & B)] rest; [reflexivity|].
  cbn [app skip_ws]. rewrite (white_ws c W). eapply skip_blank, B.
Qed.

Definition head_ok (t : str) : Prop :=
  exists c r, t = c :: r /\ is_ws c = false /\
    Ascii.eqb c "]" = false /\ Ascii.eqb c "}" = false.
Lemma skip_head t rest : head_ok t -> skip_ws (t ++ rest) = t ++ rest.
Proof. intros (c & r & -> & W & _). cbn [app skip_ws]. rewrite W. reflexivity. Qed.
Lemma denotes_head t s : denotes t s -> head_ok t.
Proof. intros (r & -> & _). exists quote, (r ++ [quote]). repeat split. Qed.
Lemma digit_head i d : digits i -> exists c r, i = c :: r /\ digit c /\ i ++ d = c :: (r ++ d).
Proof.
  intros [N F]. destruct i as [|c r]; [congruence|]. inversion_clear F.
  exists c, r. repeat split; assumption.
Qed.
Lemma number_head t : number t -> exists c r, t = c :: r /\ (c = "-"%char \/ digit c).
Proof.
  intros (s & i & f & e & -> & S & I & _). destruct S as [-> | ->].
  - destruct (digit_head i (f ++ e) I) as (c & r & _ & D & E). exists c, (r ++ f ++ e). auto.
  - exists "-"%char, (i ++ f ++ e). auto.
Qed.
Lemma value_head v t u : value_text false v t u -> head_ok t.
Proof.
  destruct 1 as [| | |t N|s t u N|w w' B|l t u B|w w' B|l t u B].
  - exists "n"%char, (L "ull"); repeat split.
  - exists "t"%char, (L "rue"); repeat split.
  - exists "f"%char, (L "alse"); repeat split.
  - destruct (number_head t N) as (c & r & -> & D). exists c, r. split; [reflexivity|].
    destruct D as [-> |D]; [repeat split|]. unfold digit in D; in_cases D; repeat split.
  - destruct N as [t D|X]; [eapply denotes_head, D|discriminate].
  - exists "["%char, (w ++ ["]"%char]); repeat split.
  - exists "["%char, (t ++ ["]"%char]); repeat split.
  - exists "{"%char, (w ++ ["}"%char]); repeat split.
  - exists "{"%char, (t ++ ["}"%char]); repeat split.
Qed.

Definition stops (rest : str) : Prop := forall c, hd_error rest = Some c -> endc c.
Lemma endc_not_word c : endc c -> word_char c = false.
Proof. intros E; apply (endc_plain c E). Qed.
Lemma endc_not_numtext c : endc c -> is_numtext c = false.
Proof. intros [H|H]; [unfold white in H|]; in_cases H; reflexivity. Qed.

Lemma digit_numtext c : digit c -> is_numtext c = true.
Proof. intros H; unfold digit in H; in_cases H; reflexivity. Qed.
Lemma digits_numtext d : digits d -> Forall (fun c => is_numtext c = true) d.
Proof. intros [_ F]. eapply Forall_impl; [|exact F]. exact digit_numtext. Qed.
Lemma number_numtext t : number t -> Forall (fun c => is_numtext c = true) t.
Proof.
  intros (s & i & f & e & -> & S & I & _ & F & E).
  apply Forall_app; split; [destruct S as [-> | ->]; repeat constructor|].
  apply Forall_app; split; [apply digits_numtext, I|].
  apply Forall_app; split.
  { destruct F as [-> |(d & -> & D)]; constructor; [reflexivity|apply digits_numtext, D]. }
  destruct E as [-> |(c & g & d & -> & C & G & D)]; constructor; [in_cases C; reflexivity|].
  apply Forall_app; split; [in_cases G; repeat constructor|apply digits_numtext, D].
Qed.

Definition value_reads (v : jval) (t : str) : Prop :=
  forall f rest, List.length t <= f -> stops rest -> rd_value f (t ++ rest) = Some (v, rest).
Definition items_reads (l : list jval) (t : str) : Prop :=
  forall f rest, List.length t < f ->
    rd_items f (skip_ws (t ++ "]"%char :: rest)) = Some (l, rest) /\
    exists x q, skip_ws (t ++ "]"%char :: rest) = x :: q /\ Ascii.eqb x "]" = false.
Definition members_reads (l : list (str * jval)) (t : str) : Prop :=
  forall f rest, List.length t < f ->
    rd_members f (skip_ws (t ++ "}"%char :: rest)) = Some (l, rest) /\
    exists x q, skip_ws (t ++ "}"%char :: rest) = x :: q /\ Ascii.eqb x "}" = false.

Lemma stops_after lo b b' c rest : blank_after lo b b' -> endc c -> stops (b ++ c :: rest).
Proof.
  intros [(-> & _)|(w & t & u & -> & _ & W & _)] E x; cbn; intros [= <-]; [exact E|left; exact W].
Qed.
Lemma keyword_reads v w :
  In (w, v) [(L "true", JBool true); (L "false", JBool false); (L "null", JNull)] ->
  value_reads v w.
Proof.
  intros H f rest F S.
  destruct f as [|f]; [cbn in H; repeat (destruct H as [H|H]; [injection H as <- <-; cbn in F; lia|]); destruct H|].
  assert (W : rd_while word_char (w ++ rest) = (w, rest)).
  { apply rd_while_app; [|intros c C; apply endc_not_word, S, C].
    cbn in H; repeat (destruct H as [H|H]; [injection H as <- <-; repeat constructor|]); destruct H. }
  cbn in H; repeat (destruct H as [H|H];
    [injection H as <- <-; cbn [rd_value app] in *; 
     match goal with |- context [Ascii.eqb ?c dquote] => change (Ascii.eqb c dquote) with false end;
     cbn [Ascii.eqb Bool.eqb andb orb] in *; cbv iota;
     match goal with |- context [num_char ?c] => change (num_char c) with false end; cbv iota;
     rewrite W; reflexivity|]); destruct H.
Qed.

Lemma reader_parts :
  (forall v t u, value_text false v t u -> value_reads v t) /\
  (forall l t u, items_text false l t u -> items_reads l t) /\
  (forall l t u, members_text false l t u -> members_reads l t).
Proof.
  apply json_text_ind.
  - apply keyword_reads. cbn; tauto.
  - apply keyword_reads. cbn; tauto.
  - apply keyword_reads. cbn; tauto.
  - intros t N f rest F S.
    assert (W : rd_while is_numtext (t ++ rest) = (t, rest)).
    { apply rd_while_app; [apply number_numtext, N|intros c C; apply endc_not_numtext, S, C]. }
    destruct (number_head t N) as (c & r & -> & D).
    destruct f as [|f]; [cbn in F; lia|]. cbn [rd_value app]. cbn [app] in W. rewrite W.
    assert (Q : Ascii.eqb c dquote = false /\ Ascii.eqb c "[" = false /\ Ascii.eqb c "{" = false /\
                (Ascii.eqb c "-" || num_char c)%bool = true).
    { destruct D as [-> |D]; [repeat split|]. unfold digit in D; in_cases D; repeat split. }
    destruct Q as (-> & -> & -> & ->). reflexivity.
  - intros s t u [t' (r & -> & R & _)|X] f rest F S; [|discriminate].
    destruct f as [|f]; [cbn in F; lia|]. cbn [app rd_value].
    change (Ascii.eqb quote dquote) with true. cbv iota.
    rewrite <- app_assoc. cbn [app]. rewrite (rd_literal r s R). reflexivity.
  - intros w w' B f rest F S. destruct f as [|f]; [cbn in F; lia|]. cbn [app rd_value].
    change (Ascii.eqb "[" dquote) with false. change (Ascii.eqb "[" "[") with true. cbv iota.
    rewrite <- app_assoc. rewrite (skip_blank w w' B). reflexivity.
  - intros l t u _ IH f rest F S. destruct f as [|f]; [cbn in F; lia|]. cbn [app rd_value].
    change (Ascii.eqb "[" dquote) with false. change (Ascii.eqb "[" "[") with true. cbv iota.
    rewrite <- app_assoc. cbn [app].
    cbn [List.length] in F. rewrite app_length in F; cbn [List.length] in F.
    destruct (IH f rest ltac:(lia)) as (R & x & q & E & X).
    rewrite E in R. rewrite E, X, R. reflexivity.
  - intros w w' B f rest F S. destruct f as [|f]; [cbn in F; lia|]. cbn [app rd_value].
    change (Ascii.eqb "{" dquote) with false. change (Ascii.eqb "{" "[") with false.
    change (Ascii.eqb "{" "{") with true. cbv iota.
    rewrite <- app_assoc. rewrite (skip_blank w w' B). reflexivity.
  - intros l t u _ IH f rest F S. destruct f as [|f]; [cbn in F; lia|]. cbn [app rd_value].
    change (Ascii.eqb "{" dquote) with false. change (Ascii.eqb "{" "[") with false.
    change (Ascii.eqb "{" "{") with true. cbv iota.
    rewrite <- app_assoc. cbn [app].
    cbn [List.length] in F. rewrite app_length in F; cbn [List.length] in F.
    destruct (IH f rest ltac:(lia)) as (R & x & q & E & X).
    rewrite E in R. rewrite E, X, R. reflexivity.
  - intros v a a' t u b b' A V IH B f rest F.
    assert (E : skip_ws ((a ++ t ++ b) ++ "]"%char :: rest) = t ++ b ++ "]"%char :: rest).
    { repeat rewrite <- app_assoc. rewrite (skip_blank a a' A). apply skip_head, (value_head v t u V). }
    rewrite E. repeat rewrite app_length in F. destruct f as [|f]; [lia|]. split.
    + cbn [rd_items]. rewrite IH; [|lia|eapply stops_after; [exact B|right; cbn; tauto]].
      rewrite (skip_after b b' B). reflexivity.
    + destruct (value_head v t u V) as (c & r & -> & _ & C & _).
      eexists c, _. split; [reflexivity|exact C].
  - intros v l a a' t u b b' r q A V IH B L IHl f rest F.
    assert (E : skip_ws ((a ++ t ++ b ++ ","%char :: r) ++ "]"%char :: rest)
                = t ++ b ++ ","%char :: r ++ "]"%char :: rest).
    { repeat rewrite <- app_assoc. rewrite (skip_blank a a' A).
      cbn [app]. apply skip_head, (value_head v t u V). }
    rewrite E. repeat rewrite app_length in F. cbn [List.length] in F.
    destruct f as [|f]; [lia|]. split.
    + cbn [rd_items]. rewrite IH; [|lia|eapply stops_after; [exact B|right; cbn; tauto]].
      rewrite (skip_after b b' B). cbn [skip_ws].
      change (is_ws ",") with false. change (Ascii.eqb "," "]") with false.
      change (Ascii.eqb "," ",") with true. cbv iota.
      destruct (IHl f rest ltac:(lia)) as (R & _). rewrite R. reflexivity.
    + destruct (value_head v t u V) as (c & r' & -> & _ & C & _).
      eexists c, _. split; [reflexivity|exact C].
  - intros k v e e' n n' c c' a a' t u b b' E N C A V IH B f rest F.
    destruct N as [n D|X]; [|discriminate].
    assert (Q : skip_ws ((e ++ n ++ c ++ ":"%char :: a ++ t ++ b) ++ "}"%char :: rest)
                = n ++ c ++ ":"%char :: a ++ t ++ b ++ "}"%char :: rest).
    { repeat rewrite <- app_assoc. rewrite (skip_blank e e' E).
      cbn [app]. repeat rewrite <- app_assoc. apply skip_head, (denotes_head n k D). }
    rewrite Q. repeat (rewrite app_length in F; cbn [List.length] in F).
    destruct f as [|f]; [lia|]. destruct D as (r0 & -> & R0 & _). split.
    + cbn [app rd_members]. change (Ascii.eqb quote dquote) with true. cbv iota.
      rewrite <- app_assoc. cbn [app]. rewrite (rd_literal r0 k R0), (skip_after c c' C).
      cbn [skip_ws]. change (is_ws ":") with false. change (Ascii.eqb ":" ":") with true. cbv iota.
      rewrite (skip_blank a a' A), skip_head by apply (value_head v t u V).
      rewrite IH; [|lia|eapply stops_after; [exact B|right; cbn; tauto]].
      rewrite (skip_after b b' B). reflexivity.
    + cbn [app]. eexists quote, _. split; [reflexivity|reflexivity].
  - intros k v l e e' n n' c c' a a' t u b b' r q E N C A V IH B L IHl f rest F.
    destruct N as [n D|X]; [|discriminate].
    assert (Q : skip_ws ((e ++ n ++ c ++ ":"%char :: a ++ t ++ b ++ ","%char :: r) ++ "}"%char :: rest)
                = n ++ c ++ ":"%char :: a ++ t ++ b ++ ","%char :: r ++ "}"%char :: rest).
    { repeat rewrite <- app_assoc. rewrite (skip_blank e e' E).
      cbn [app]. repeat rewrite <- app_assoc. apply skip_head, (denotes_head n k D). }
    rewrite Q. repeat (rewrite app_length in F; cbn [List.length] in F).
    destruct f as [|f]; [lia|]. destruct D as (r0 & -> & R0 & _). split.
    + cbn [app rd_members]. change (Ascii.eqb quote dquote) with true. cbv iota.
      rewrite <- app_assoc. cbn [app]. rewrite (rd_literal r0 k R0), (skip_after c c' C).
      cbn [skip_ws]. change (is_ws ":") with false. change (Ascii.eqb ":" ":") with true. cbv iota.
      rewrite (skip_blank a a' A), skip_head by apply (value_head v t u V).
      rewrite IH; [|lia|eapply stops_after; [exact B|right; cbn; tauto]].
      rewrite (skip_after b b' B). cbn [skip_ws].
      change (is_ws ",") with false. change (Ascii.eqb "," "}") with false.
      change (Ascii.eqb "," ",") with true. cbv iota.
      destruct (IHl f rest ltac:(lia)) as (R & _). rewrite R. reflexivity.
    + cbn [app]. eexists quote, _. split; [reflexivity|reflexivity].
Qed.

Lemma json_read_reads : reads_json json_read.
Proof.
  intros v t (a & a' & x & y & b & b' & A & V & B & -> & _) _.
  unfold json_read. rewrite (skip_blank a a' A), skip_head by apply (value_head v x y V).
  rewrite (proj1 reader_parts v x y V).
  - rewrite <- (app_nil_r b), (skip_after b b' B). reflexivity.
  - repeat rewrite app_length. lia.
  - destruct B as [(-> & _)|(w & s & u & -> & _ & W & _)]; intros c; cbn;
      [discriminate|intros [= <-]; left; exact W].
Qed.
