(** Facts about floating point numbers as text. *)
From Coq Require Import ZArith Lia Floats.SpecFloat.
From Verif Require Import Base DType Mem Number ArrayOps Json JsonSpec JsonSchema B64Json ValueJson ValueFacts FloatText.
Local Open Scope Z_scope.

(** * JSON numbers of modest size *)
Lemma num_char_digit c : num_char c = true -> digit c.
Proof.
  destruct c as [[] [] [] [] [] [] [] []]; intros H; try discriminate H; unfold digit; cbn; tauto.
Qed.
Definition not_e (c : ascii) : Prop := ~ In c ["e"; "E"]%char.
Lemma digit_not_e c : digit c -> not_e c.
Proof. unfold digit. intros H X. cbn in X. destruct X as [<-|[<-|[]]]; cbn in H; intuition discriminate. Qed.
Lemma digits_not_e d : digits d -> Forall not_e d.
Proof. intros [_ D]. eapply Forall_impl; [|exact D]. intros c. apply digit_not_e. Qed.
Lemma split_e p c x : Forall not_e p -> Forall not_e x -> In c ["e"; "E"]%char ->
  forall a c' x', p ++ c :: x = a ++ c' :: x' -> In c' ["e"; "E"]%char -> p = a /\ c = c' /\ x = x'.
Proof.
  intros P X C. induction P as [|b p B P IH]; intros a c' x' E C'.
  - destruct a as [|b a]; [injection E; auto|]. cbn in E. injection E as -> E. exfalso.
    rewrite Forall_forall in X. apply (X c'); [rewrite E; apply in_or_app; right; left; reflexivity|exact C'].
  - destruct a as [|b' a]; [cbn in E; injection E as -> E; exfalso; exact (B C')|].
    cbn in E. injection E as -> E. destruct (IH a c' x' E C') as (-> & -> & ->). auto.
Qed.
Lemma modest_number s i f e :
  s = [] \/ s = ["-"%char] -> digits i -> i = L "0" \/ hd "0"%char i <> "0"%char ->
  f = [] \/ (exists d, f = "."%char :: d /\ digits d) ->
  e = [] \/ (exists c g d, e = c :: g ++ d /\ In c ["e"; "E"]%char /\ In g [[]; ["+"%char]; ["-"%char]] /\ digits d /\
                           (g <> ["-"%char] -> decimal d <= 308)) ->
  (length (s ++ i ++ f ++ e) <= 100)%nat ->
  number (s ++ i ++ f ++ e) /\ modest (s ++ i ++ f ++ e).
Proof.
  intros S I H0 Fr E Ln. split.
  - exists s, i, f, e. repeat split; auto; try apply I.
    destruct E as [-> |(c & g & d & ? & ? & ? & ? & _)]; [left; reflexivity|right; exists c, g, d; auto].
  - split; [exact Ln|]. intros a c g d T C G D.
    assert (P : Forall not_e (s ++ i ++ f)).
    { apply Forall_app; split; [destruct S as [-> | ->]; repeat constructor; intros [X|[X|[]]]; discriminate|].
      apply Forall_app; split; [apply digits_not_e, I|].
      destruct Fr as [-> |(d' & -> & D')]; [constructor|constructor; [intros [X|[X|[]]]; discriminate|apply digits_not_e, D']]. }
    rewrite !app_assoc in T. rewrite <- (app_assoc s) in T.
    destruct E as [-> |(c' & g' & d' & -> & C' & G' & D' & B)].
    + rewrite app_nil_r in T. exfalso. rewrite Forall_forall in P. apply (P c); [|exact C].
      rewrite T. apply in_or_app. right. left. reflexivity.
    + assert (X : Forall not_e (g' ++ d')).
      { apply Forall_app; split; [|apply digits_not_e, D'].
        destruct G' as [<-|[<-|[<-|[]]]]; repeat constructor; intros [X|[X|[]]]; discriminate. }
      destruct (split_e _ c' _ P X C' a c _ T C) as (_ & _ & Y).
      destruct D as [Dn Df], D' as [Dn' Df'].
      assert (Hd : forall x y, Forall digit x -> In y ["+"; "-"]%char -> hd_error x = Some y -> False).
      { intros x y Fx Iy Hx. destruct x; [discriminate|]. injection Hx as ->. inversion_clear Fx as [|? ? Dy _].
        unfold digit in Dy. destruct Iy as [<-|[<-|[]]]; cbn in Dy; intuition discriminate. }
      destruct G as [<-|[<-|[]]], G' as [<-|[<-|[<-|[]]]]; cbn [app] in Y; subst; try (apply B; discriminate);
        try (injection Y as ->; apply B; discriminate); try (injection Y as <-; apply B; discriminate); exfalso.
      * eapply (Hd _ "+"%char Df); [cbn; tauto|reflexivity].
      * eapply (Hd _ "-"%char Df); [cbn; tauto|reflexivity].
      * eapply (Hd _ "+"%char Df'); [cbn; tauto|reflexivity].
      * discriminate Y.
Qed.
