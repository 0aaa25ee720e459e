(** update. *)
From Verif Require Import Base DType SpecTree Mem MemFacts Node SpecNode NodeFacts NodeCompact NodeSet NodeEndian NodeUpdate.
Local Open Scope Z_scope.

(** ---- well-formed destinations, structurally ---- *)
Definition apart3 (a b : node) : Prop :=
  (forall q, touches a q -> ~ touches b q) /\
  (forall q, touches a q -> ~ In (fst q) (owned_blocks b)) /\
  (forall x, In x (owned_blocks a) -> ~ In x (owned_blocks b)).
Definition pair_apart (ns : list node) : Prop :=
  forall i j a b, i <> j -> nth_error ns i = Some a -> nth_error ns j = Some b -> apart3 a b.
Definition hlive (m : mem) (h : hdr) : Prop := Forall (fun p => snd p = 0 /\ live m (fst p)) (own_ptr h).
Definition hfree (h : hdr) (ns : list node) : Prop :=
  forall c b, In c ns -> In b (owned_blocks c) -> ~ In b (map fst (own_ptr h)).
Fixpoint good (m : mem) (n : node) : Prop :=
  match n with
  | NLeaf h d => hok h /\ (is_empty d = true -> h_own h = false) /\ std_leaf d /\
                 elems_apart (dt_n d) (default_bytes (dt_id d)) (dt_stride d) /\ hlive m h
  | NObj h es => hok h /\ hlive m h /\ hfree h (map snd es) /\ pair_apart (map snd es) /\
                 (fix go l := match l with [] => True | (_, c) :: r => good m c /\ go r end) es
  | NLst h ks => hok h /\ hlive m h /\ hfree h ks /\ pair_apart ks /\
                 (fix go l := match l with [] => True | c :: r => good m c /\ go r end) ks
  end.
Lemma good_obj m h es : good m (NObj h es) <->
  hok h /\ hlive m h /\ hfree h (map snd es) /\ pair_apart (map snd es) /\ Forall (good m) (map snd es).
Proof.
  cbn [good]. split; (intros (A & B & C & D & E); do 4 (split; [assumption|]); clear A B C D).
  - induction es as [|[k c] es IH]; cbn [map]; constructor; [apply E|apply IH; apply E].
  - induction es as [|[k c] es IH]; [exact I|]. inversion E; subst. split; [assumption|apply IH; assumption].
Qed.
Lemma good_lst m h ks : good m (NLst h ks) <->
  hok h /\ hlive m h /\ hfree h ks /\ pair_apart ks /\ Forall (good m) ks.
Proof.
  cbn [good]. split; (intros (A & B & C & D & E); do 4 (split; [assumption|]); clear A B C D).
  - induction ks as [|c es IH]; constructor; [apply E|apply IH; apply E].
  - induction ks as [|c es IH]; [exact I|]. inversion E; subst. split; [assumption|apply IH; assumption].
Qed.
Lemma private_obj h es : private (NObj h es) <-> kids_private (map snd es) /\ Forall private (map snd es).
Proof.
  cbn [private]. split; (intros [A B]; split; [exact A|clear A]).
  - induction es as [|[k c] es IH]; cbn [map]; constructor; [apply B|apply IH; apply B].
  - induction es as [|[k c] es IH]; [exact I|]. inversion B; subst. split; [assumption|apply IH; assumption].
Qed.
Lemma private_lst h ks : private (NLst h ks) <-> kids_private ks /\ Forall private ks.
Proof.
  cbn [private]. split; (intros [A B]; split; [exact A|clear A]).
  - induction ks as [|c es IH]; constructor; [apply B|apply IH; apply B].
  - induction ks as [|c es IH]; [exact I|]. inversion B; subst. split; [assumption|apply IH; assumption].
Qed.
Lemma FOP_nth {A} (R : A -> A -> Prop) l : (forall a b, R a b -> R b a) ->
  (ForallOrdPairs R l <-> forall i j a b, i <> j -> nth_error l i = Some a -> nth_error l j = Some b -> R a b).
Proof.
  intros Sy. split.
  - induction 1 as [|x l Hx _ IH]; intros [|i] [|j] a b N A1 B1; cbn [nth_error] in *; try discriminate; try congruence.
    + injection A1 as <-. rewrite Forall_forall in Hx. apply Hx. eapply nth_error_In; eauto.
    + injection B1 as <-. rewrite Forall_forall in Hx. apply Sy, Hx. eapply nth_error_In; eauto.
    + eapply (IH i j); eauto.
  - induction l as [|x l IH]; intros H; constructor.
    + apply Forall_forall. intros y I. apply In_nth_error in I. destruct I as [k E]. apply (H O (S k) x y); [lia|reflexivity|exact E].
    + apply IH. intros i j a b N A1 B1. apply (H (S i) (S j) a b); [lia|exact A1|exact B1].
Qed.
Lemma NoDup_app_inv {A} (a b : list A) : NoDup (a ++ b) -> NoDup a /\ NoDup b /\ forall x, In x a -> ~ In x b.
Proof.
  induction a as [|x a IH]; cbn [app]; intros H.
  - split; [constructor|]. split; [exact H|]. intros y [].
  - inversion H as [|? ? N H']; subst. destruct (IH H') as (A1 & A2 & A3). rewrite in_app_iff in N. split; [constructor; tauto|].
    split; [exact A2|]. intros y [<-|I]; [tauto|apply A3; exact I].
Qed.
Lemma NoDup_flat {A B} (f : A -> list B) l : NoDup (flat_map f l) <->
  Forall (fun a => NoDup (f a)) l /\
  (forall i j a b x, i <> j -> nth_error l i = Some a -> nth_error l j = Some b -> In x (f a) -> ~ In x (f b)).
Proof.
  induction l as [|c l IH]; cbn [flat_map].
  - split; [intros _; split; [constructor|]|constructor]. intros [|i] j a b x _ E; discriminate.
  - split.
    + intros N. apply NoDup_app_inv in N. destruct N as (N1 & N2 & N3).
      apply IH in N2. destruct N2 as [F2 D2]. split; [constructor; assumption|].
      intros [|i] [|j] a b x Ne A1 B1 Ia Ib; cbn [nth_error] in *; try congruence.
      * injection A1 as <-. apply (N3 x Ia). apply in_flat_map. exists b. split; [eapply nth_error_In; eauto|exact Ib].
      * injection B1 as <-. apply (N3 x Ib). apply in_flat_map. exists a. split; [eapply nth_error_In; eauto|exact Ia].
      * eapply (D2 i j); eauto.
    + intros [F D]. inversion F; subst. apply NoDup_app; [assumption| |].
      * apply IH. split; [assumption|]. intros i j a b x Ne A1 B1. apply (D (S i) (S j) a b x); [lia|exact A1|exact B1].
      * intros x I J. apply in_flat_map in J. destruct J as (b & Ib & Jb). apply In_nth_error in Ib. destruct Ib as [k E].
        apply (D O (S k) c b x); [lia|reflexivity|exact E|exact I|exact Jb].
Qed.

Lemma owned_kids_obj h es : owns (NObj h es) = flat_map owns (map snd es) ++ own_ptr h.
Proof. cbn [owns]. rewrite flat_map_map. reflexivity. Qed.
Lemma owned_blocks_kids ns : map fst (flat_map owns ns) = flat_map owned_blocks ns.
Proof. induction ns as [|c ns IH]; [reflexivity|]. cbn [flat_map]. etransitivity; [apply map_app|]. f_equal. exact IH. Qed.
(** The part of well-formedness that concerns siblings and their parent's header. *)
Lemma kids_good_flat m h ns :
  (Forall (fun p => snd p = 0 /\ live m (fst p)) (flat_map owns ns ++ own_ptr h) /\ NoDup (map fst (flat_map owns ns ++ own_ptr h))) /\
  kids_apart ns /\ kids_private ns <->
  hlive m h /\ hfree h ns /\ pair_apart ns /\ Forall (owned_ok m) ns.
Proof.
  assert (X : map fst (flat_map owns ns ++ own_ptr h) = flat_map owned_blocks ns ++ map fst (own_ptr h)).
  { rewrite map_app. f_equal. apply owned_blocks_kids. }
  rewrite X, Forall_app. clear X. unfold kids_apart. rewrite FOP_nth by (intros a b H q [X Y]; apply (H q); auto).
  split.
  - intros (((A1 & A2) & B) & C & D). apply NoDup_app_inv in B. destruct B as (B1 & B2 & B3).
    apply NoDup_flat in B1. destruct B1 as [B1 B1'].
    split; [exact A2|]. split.
    { intros c b I J. apply B3. apply in_flat_map. eauto. }
    split.
    { intros i j a b N X Y. split; [|split].
      - intros q T T'. apply (C i j a b N X Y q). auto.
      - intros q. apply (D i j a b q N X Y).
      - intros x. apply (B1' i j a b x N X Y). }
    apply Forall_forall. intros c I. split.
    + apply Forall_forall. intros p J. rewrite Forall_forall in A1. apply A1. apply in_flat_map. eauto.
    + rewrite Forall_forall in B1. apply B1. exact I.
  - intros (A & B & C & D). rewrite Forall_forall in D. split; [split; [split|]|split].
    + apply Forall_forall. intros p I. apply in_flat_map in I. destruct I as (c & I & J). destruct (D c I) as [X _].
      rewrite Forall_forall in X. apply X. exact J.
    + exact A.
    + apply NoDup_app.
      * apply NoDup_flat. split; [apply Forall_forall; intros c I; apply (D c I)|].
        intros i j a b x N X Y. apply (C i j a b N X Y).
      * unfold own_ptr. destruct (h_own h), (h_data h); cbn; repeat constructor. intros [].
      * intros x I. apply in_flat_map in I. destruct I as (c & I & J). apply (B c x I J).
    + intros i j a b N X Y q [T T']. destruct (C i j a b N X Y) as (U & _). exact (U q T T').
    + intros i j a b q N X Y. apply (C i j a b N X Y).
Qed.
Lemma good_flat m n : good m n <->
  owned_ok m n /\ tidy n /\ sep n /\ Forall std_leaf (tleaves (nschema n)) /\ private n.
Proof.
  induction n as [h d|h es IH|h ks IH] using node_ind'.
  - cbn [good tidy sep nschema tleaves private]. unfold owned_ok, owned_blocks. cbn [owns]. unfold hlive.
    assert (X : (is_empty d = true -> h_own h = false) -> own_ptr h = if is_empty d then [] else own_ptr h).
    { destruct (is_empty d); [|reflexivity]. intros H. apply own_ptr_false. auto. }
    split.
    + intros (A & B & C & D & E). rewrite <- (X B). split; [split; [exact E|]|].
      { unfold own_ptr. destruct (h_own h), (h_data h); cbn; repeat constructor. intros []. }
      split; [split; assumption|]. split; [exact D|]. split; [constructor; [exact C|constructor]|exact I].
    + intros ((A & B) & (C & D) & E & F & _). rewrite <- (X D) in A. inversion F; subst. auto.
  - rewrite good_obj, tidy_obj, sep_obj, std_obj, private_obj.
    unfold owned_ok at 1, owned_blocks at 1. rewrite owned_kids_obj.
    assert (Y : Forall (good m) (map snd es) <-> Forall (owned_ok m) (map snd es) /\ Forall tidy (map snd es) /\
                Forall sep (map snd es) /\ Forall (fun c => Forall std_leaf (tleaves (nschema c))) (map snd es) /\ Forall private (map snd es)).
    { clear -IH. rewrite !Forall_forall. rewrite Forall_forall in IH. split.
      - intros H. (split; [|split; [|split; [|split]]]); intros c I; apply in_map_iff in I; destruct I as (e & <- & I);
          destruct (proj1 (IH e I) (H _ (in_map snd _ _ I))) as (? & ? & ? & ? & ?); auto.
      - intros (A & B & C & D & E) c I. apply in_map_iff in I. destruct I as (e & <- & I). apply (IH e I).
        pose proof (in_map snd _ _ I). auto 12. }
    rewrite Y. assert (Z : Forall (fun e : str * node => tidy (snd e)) es <-> Forall tidy (map snd es)) by (rewrite Forall_map; reflexivity).
    rewrite Z. pose proof (kids_good_flat m h (map snd es)). tauto.
  - rewrite good_lst, tidy_lst, sep_lst, std_lst, private_lst.
    unfold owned_ok at 1, owned_blocks at 1. cbn [owns].
    assert (Y : Forall (good m) ks <-> Forall (owned_ok m) ks /\ Forall tidy ks /\
                Forall sep ks /\ Forall (fun c => Forall std_leaf (tleaves (nschema c))) ks /\ Forall private ks).
    { clear -IH. rewrite !Forall_forall. rewrite Forall_forall in IH. split.
      - intros H. (split; [|split; [|split; [|split]]]); intros c I; destruct (proj1 (IH c I) (H _ I)) as (? & ? & ? & ? & ?); auto.
      - intros (A & B & C & D & E) c I. apply (IH c I). auto 12. }
    rewrite Y. pose proof (kids_good_flat m h ks). tauto.
Qed.

(** ---- effect of an operation on memory ---- *)
Lemma step_refl m T (O : nat -> Prop) : (forall b, O b -> live m b) -> step m T O m T O.
Proof.
  intros H. constructor; auto. intros b L [X|X]; [exact X|]. apply live_lt in L. lia.
Qed.
Lemma step_trans m T O m1 T1 O1 m2 T2 O2 : step m T O m1 T1 O1 -> step m1 T1 O1 m2 T2 O2 -> step m T O m2 T2 O2.
Proof.
  intros A B. pose proof (st_len _ _ _ _ _ _ A) as La. pose proof (st_len _ _ _ _ _ _ B) as Lb. constructor.
  - lia.
  - intros q H. destruct (st_touch _ _ _ _ _ _ B q H) as [X|X]; [|right; lia]. apply (st_touch _ _ _ _ _ _ A q X).
  - intros b H. destruct (st_owned _ _ _ _ _ _ B b H) as [X|X]; [|right; lia]. apply (st_owned _ _ _ _ _ _ A b X).
  - intros q H1 H2 H3. rewrite (st_frame _ _ _ _ _ _ B); [apply (st_frame _ _ _ _ _ _ A); auto|lia| |].
    + intros X. destruct (st_owned _ _ _ _ _ _ A _ X) as [Y|Y]; [auto|lia].
    + intros X. destruct (st_touch _ _ _ _ _ _ A _ X) as [Y|Y]; [auto|lia].
  - intros b H1 H2. apply (st_live _ _ _ _ _ _ B).
    + apply (st_live _ _ _ _ _ _ A); auto.
    + intros X. apply live_lt in H1. destruct (st_owned _ _ _ _ _ _ A _ X) as [Y|Y]; [auto|lia].
  - intros b H1 H2. apply (st_dead _ _ _ _ _ _ A b H1). apply (st_dead _ _ _ _ _ _ B b); [lia|exact H2].
  - intros b H1 H2. apply (st_leak _ _ _ _ _ _ B b H1). destruct (Nat.lt_ge_cases b (length m1)) as [Lt|Ge]; [|right; exact Ge].
    left. apply (st_leak _ _ _ _ _ _ A b); [|exact H2]. apply (st_dead _ _ _ _ _ _ B b Lt H1).
Qed.
Lemma step_ext m T O m' T' O' U P U' P' : step m T O m' T' O' ->
  (forall q, U q <-> T q) -> (forall b, P b <-> O b) -> (forall q, U' q <-> T' q) -> (forall b, P' b <-> O' b) ->
  step m U P m' U' P'.
Proof.
  intros [A B C D E F G] H1 H2 H3 H4. constructor; auto.
  - intros q X. rewrite H1. apply B. apply H3. exact X.
  - intros q X. rewrite H2. apply C. apply H4. exact X.
  - intros q X Y Z. apply D; auto; [rewrite <- H2|rewrite <- H1]; assumption.
  - intros b X Y. apply E; auto. rewrite <- H2. exact Y.
  - intros b X Y. rewrite H4. apply G; auto. rewrite <- H2. exact Y.
Qed.
(** Something else is around: more bytes read, more blocks owned. *)
Lemma step_beside m T O m' T' O' (U : ptr -> Prop) (P : nat -> Prop) : step m T O m' T' O' ->
  step m (fun q => T q \/ U q) (fun b => O b \/ P b) m' (fun q => T' q \/ U q) (fun b => O' b \/ P b).
Proof.
  intros [A B C D E F G]. constructor; auto.
  - intros q [X|X]; [destruct (B q X); auto|auto].
  - intros q [X|X]; [destruct (C q X); auto|auto].
  - intros b X [[Y|Y]|Y]; auto.
Qed.

Definition TK (ns : list node) (q : ptr) : Prop := exists c, In c ns /\ touches c q.
Definition OK_ (ns : list node) (b : nat) : Prop := exists c, In c ns /\ ob c b.
Definition sibs (m : mem) (ns : list node) (vs : list (tree leafval)) : Prop :=
  Forall2 (fun n v => nvalue m n = Ok v) ns vs /\ Forall (good m) ns /\ pair_apart ns.
Definition upd (m : mem) (a : node) (v' : tree leafval) (m' : mem) (a' : node) : Prop :=
  nvalue m' a' = Ok v' /\ good m' a' /\ step m (touches a) (ob a) m' (touches a') (ob a').

Lemma good_live m n b : good m n -> ob n b -> live m b.
Proof.
  intros G I. apply good_flat in G. destruct G as ((F & _) & _). unfold ob, owned_blocks in I. apply in_map_iff in I.
  destruct I as (p & <- & I). rewrite Forall_forall in F. apply F. exact I.
Qed.
Lemma good_keep m m' n : good m n -> (forall b, ob n b -> live m b -> live m' b) -> good m' n.
Proof.
  intros G H. apply good_flat in G. apply good_flat. destruct G as ((F & N) & R). split; [|exact R]. split; [|exact N].
  apply Forall_forall. intros p I. rewrite Forall_forall in F. destruct (F p I) as [A B]. split; [exact A|].
  apply H; [|exact B]. unfold ob, owned_blocks. apply in_map. exact I.
Qed.
Lemma good_nempty m : good m nempty.
Proof.
  cbn. split; [apply hok_false; reflexivity|]. split; [reflexivity|]. split; [reflexivity|]. split; [left; lia|constructor].
Qed.
Lemma touches_nempty q : ~ touches nempty q.
Proof. intros T. apply touches_leaf in T. destruct T as (p & i & j & E & _). discriminate. Qed.
Lemma In_set_nth {A} (l : list A) i x y : In y (set_nth l i x) ->
  y = x \/ exists j, j <> i /\ nth_error l j = Some y.
Proof.
  intros I. apply In_nth_error in I. destruct I as [j E]. destruct (Nat.eq_dec i j) as [->|N].
  - rewrite nth_error_set_nth_same in E; [left; congruence|].
    assert (nth_error (set_nth l j x) j <> None) by congruence. apply nth_error_Some in H. rewrite length_set_nth in H. exact H.
  - rewrite nth_error_set_nth_other in E by exact N. right. exists j. auto.
Qed.
Lemma In_set_nth_same {A} (l : list A) i a x : nth_error l i = Some a -> In x (set_nth l i x).
Proof. intros E. apply (nth_error_In _ i). apply nth_error_set_nth_same. apply nth_error_Some. congruence. Qed.
Lemma In_set_nth_other {A} (l : list A) i x j y : j <> i -> nth_error l j = Some y -> In y (set_nth l i x).
Proof. intros N E. apply (nth_error_In _ j). rewrite nth_error_set_nth_other by congruence. exact E. Qed.
Lemma F2_set_nth {A B} (R : A -> B -> Prop) l l' i x y : R x y ->
  (forall j a b, j <> i -> nth_error l j = Some a -> nth_error l' j = Some b -> R a b) ->
  length l = length l' -> Forall2 R (set_nth l i x) (set_nth l' i y).
Proof.
  revert l' i. induction l as [|a l IH]; intros [|b l'] i Rxy H Len; try discriminate; [destruct i; constructor|].
  injection Len as Len. destruct i as [|i]; cbn [set_nth]; constructor.
  - exact Rxy.
  - clear IH. assert (forall j a b, nth_error l j = Some a -> nth_error l' j = Some b -> R a b).
    { intros j a0 b0 X Y. apply (H (S j) a0 b0); [lia|exact X|exact Y]. }
    clear H. revert l' Len H0. induction l as [|c l IHl]; intros [|c' l'] Len H; try discriminate; constructor.
    + apply (H O); reflexivity.
    + apply IHl; [injection Len as Len; exact Len|]. intros j. apply (H (S j)).
  - apply (H O a b); [lia|reflexivity|reflexivity].
  - apply IH; auto. intros j a0 b0 N X Y. apply (H (S j) a0 b0); [lia|exact X|exact Y].
Qed.
Lemma F2_len {A B} (R : A -> B -> Prop) l l' : Forall2 R l l' -> length l = length l'.
Proof. induction 1; cbn; congruence. Qed.
Lemma F2_nth {A B} (R : A -> B -> Prop) l l' i a b : Forall2 R l l' -> nth_error l i = Some a -> nth_error l' i = Some b -> R a b.
Proof.
  intros F. revert i. induction F as [|x y l l' H _ IH]; intros [|i] X Y; cbn [nth_error] in *; try discriminate; [|eapply IH; eauto].
  injection X as <-. injection Y as <-. exact H.
Qed.

Lemma sibs_set m ns vs i a v' m' a' : sibs m ns vs -> nth_error ns i = Some a -> upd m a v' m' a' ->
  sibs m' (set_nth ns i a') (set_nth vs i v') /\
  step m (TK ns) (OK_ ns) m' (TK (set_nth ns i a')) (OK_ (set_nth ns i a')).
Proof.
  intros (V & G & P) Ei (V' & G' & S).
  assert (Len : length ns = length vs) by (eapply F2_len; eauto).
  assert (Gn : forall j c, nth_error ns j = Some c -> good m c).
  { intros j c E. rewrite Forall_forall in G. apply G. eapply nth_error_In; eauto. }
  assert (Tlt : forall j c q, nth_error ns j = Some c -> touches c q -> (fst q < length m)%nat).
  { intros j c q E T. destruct (nth_error vs j) as [w|] eqn:Ew.
    - apply rd_lt. eapply nvalue_readable; [|exact T]. eapply (F2_nth _ _ _ _ _ _ V E Ew).
    - apply nth_error_None in Ew. assert (nth_error ns j <> None) by congruence. apply nth_error_Some in H. lia. }
  assert (Olt : forall j c b, nth_error ns j = Some c -> ob c b -> (b < length m)%nat).
  { intros j c b E O. apply live_lt. eapply good_live; eauto. }
  split.
  - split; [|split].
    + apply F2_set_nth; [exact V'| |exact Len]. intros j c w N E Ew.
      pose proof (F2_nth _ _ _ _ _ _ V E Ew) as Vc. cbv beta in Vc.
      apply (nvalue_frame c m m' w Vc). intros q T. destruct (P j i c a N E Ei) as (P1 & P2 & P3).
      apply (st_frame _ _ _ _ _ _ S); [eapply Tlt; eauto|apply P2; exact T|apply P1; exact T].
    + apply Forall_forall. intros c I. apply In_set_nth in I. destruct I as [->|(j & N & E)]; [exact G'|].
      apply (good_keep m m' c (Gn j c E)). intros b O L. apply (st_live _ _ _ _ _ _ S b L).
      destruct (P j i c a N E Ei) as (P1 & P2 & P3). apply P3. exact O.
    + intros j k c d N Ej Ek.
      destruct (Nat.eq_dec j i) as [->|Nj], (Nat.eq_dec k i) as [->|Nk]; try congruence.
      * rewrite nth_error_set_nth_same in Ej by (apply nth_error_Some; congruence). injection Ej as <-.
        rewrite nth_error_set_nth_other in Ek by congruence. destruct (P i k a d N Ei Ek) as (P1 & P2 & P3).
        assert (X : forall q, touches a' q -> ~ touches d q /\ ~ ob d (fst q)).
        { intros q T. destruct (st_touch _ _ _ _ _ _ S q T) as [T'|F]; [split; [apply P1; exact T'|apply P2; exact T']|].
          split; [intros T'; specialize (Tlt k d q Ek T'); lia|intros O; specialize (Olt k d _ Ek O); lia]. }
        split; [intros q T; apply X; exact T|]. split; [intros q T; apply X; exact T|].
        intros x O. destruct (st_owned _ _ _ _ _ _ S x O) as [O'|F]; [apply P3; exact O'|].
        intros O'. specialize (Olt k d _ Ek O'). lia.
      * rewrite nth_error_set_nth_same in Ek by (apply nth_error_Some; congruence). injection Ek as <-.
        rewrite nth_error_set_nth_other in Ej by congruence. destruct (P j i c a N Ej Ei) as (P1 & P2 & P3).
        split; [|split].
        -- intros q T T'. destruct (st_touch _ _ _ _ _ _ S q T') as [X|F]; [apply (P1 q T X)|]. specialize (Tlt j c q Ej T). lia.
        -- intros q T O. destruct (st_owned _ _ _ _ _ _ S _ O) as [X|F]; [apply (P2 q T X)|]. specialize (Tlt j c q Ej T). lia.
        -- intros x O' O. destruct (st_owned _ _ _ _ _ _ S _ O) as [X|F]; [apply (P3 x O' X)|]. specialize (Olt j c x Ej O'). lia.
      * rewrite nth_error_set_nth_other in Ej, Ek by congruence. exact (P j k c d N Ej Ek).
  - pose (U := fun q => exists j c, j <> i /\ nth_error ns j = Some c /\ touches c q).
    pose (Q := fun b => exists j c, j <> i /\ nth_error ns j = Some c /\ ob c b).
    apply (step_ext _ _ _ _ _ _ _ _ _ _ (step_beside _ _ _ _ _ _ U Q S)); unfold TK, OK_, U, Q.
    + intros q. split.
      * intros (c & I & T). apply In_nth_error in I. destruct I as [j E]. destruct (Nat.eq_dec j i) as [->|N]; [left; congruence|right; eauto].
      * intros [T|(j & c & N & E & T)]; [exists a; split; [eapply nth_error_In; eauto|exact T]|exists c; split; [eapply nth_error_In; eauto|exact T]].
    + intros q. split.
      * intros (c & I & T). apply In_nth_error in I. destruct I as [j E]. destruct (Nat.eq_dec j i) as [->|N]; [left; congruence|right; eauto].
      * intros [T|(j & c & N & E & T)]; [exists a; split; [eapply nth_error_In; eauto|exact T]|exists c; split; [eapply nth_error_In; eauto|exact T]].
    + intros q. split.
      * intros (c & I & T). apply In_set_nth in I. destruct I as [->|(j & N & E)]; [left; exact T|right; eauto].
      * intros [T|(j & c & N & E & T)]; [exists a'; split; [eapply In_set_nth_same; eauto|exact T]|exists c; split; [eapply In_set_nth_other; eauto|exact T]].
    + intros q. split.
      * intros (c & I & T). apply In_set_nth in I. destruct I as [->|(j & N & E)]; [left; exact T|right; eauto].
      * intros [T|(j & c & N & E & T)]; [exists a'; split; [eapply In_set_nth_same; eauto|exact T]|exists c; split; [eapply In_set_nth_other; eauto|exact T]].
Qed.
Lemma sibs_empty m ns vs : sibs m ns vs -> sibs m (ns ++ [nempty]) (vs ++ [TLeaf None]).
Proof.
  intros (V & G & P). split; [|split].
  - apply Forall2_app; [exact V|]. repeat constructor.
  - apply Forall_app. split; [exact G|]. constructor; [apply good_nempty|constructor].
  - intros i j a b N Ei Ej.
    assert (C : forall k c, nth_error (ns ++ [nempty]) k = Some c -> nth_error ns k = Some c \/ (c = nempty /\ k = length ns)).
    { intros k c E. destruct (Nat.lt_ge_cases k (length ns)) as [Lt|Ge].
      - left. rewrite nth_error_app1 in E; auto.
      - right. rewrite nth_error_app2 in E by exact Ge. destruct (k - length ns)%nat as [|r] eqn:Q; [|destruct r; discriminate].
        injection E as <-. split; [reflexivity|lia]. }
    destruct (C i a Ei) as [Xi|[-> Xi]], (C j b Ej) as [Xj|[-> Xj]].
    + apply (P i j a b N Xi Xj).
    + split; [intros q _; apply touches_nempty|]. split; [intros q _ []|intros x _ []].
    + split; [intros q T; destruct (touches_nempty q T)|]. split; [intros q T; destruct (touches_nempty q T)|intros x []].
    + congruence.
Qed.
Lemma TK_empty ns q : TK (ns ++ [nempty]) q <-> TK ns q.
Proof.
  unfold TK. split.
  - intros (c & I & T). apply in_app_iff in I. destruct I as [I|[<-|[]]]; [eauto|]. destruct (touches_nempty q T).
  - intros (c & I & T). exists c. split; [apply in_app_iff; auto|exact T].
Qed.
Lemma OK_empty ns b : OK_ (ns ++ [nempty]) b <-> OK_ ns b.
Proof.
  unfold OK_. split.
  - intros (c & I & T). apply in_app_iff in I. destruct I as [I|[<-|[]]]; [eauto|]. destruct T.
  - intros (c & I & T). exists c. split; [apply in_app_iff; auto|exact T].
Qed.
Lemma sibs_snoc m ns vs v' m' a' : sibs m ns vs -> upd m nempty v' m' a' ->
  sibs m' (ns ++ [a']) (vs ++ [v']) /\ step m (TK ns) (OK_ ns) m' (TK (ns ++ [a'])) (OK_ (ns ++ [a'])).
Proof.
  intros S U. pose proof (F2_len _ _ _ (proj1 S)) as Len.
  destruct (sibs_set m (ns ++ [nempty]) (vs ++ [TLeaf None]) (length ns) nempty v' m' a' (sibs_empty _ _ _ S)) as [A B].
  { rewrite nth_error_app2 by lia. rewrite Nat.sub_diag. reflexivity. }
  { exact U. }
  rewrite set_nth_app in A, B. rewrite Len, set_nth_app in A. split; [exact A|].
  apply (step_ext _ _ _ _ _ _ _ _ _ _ B); try reflexivity; intros; symmetry; [apply TK_empty|apply OK_empty].
Qed.

(** ---- the cases of update ---- *)
Lemma upd_same m n v : good m n -> nvalue m n = Ok v -> upd m n v m n.
Proof. intros G E. split; [exact E|]. split; [exact G|]. apply step_refl. intros b. apply good_live. exact G. Qed.
Lemma same_shape_live m m' b : same_shape m m' -> (live m b <-> live m' b).
Proof.
  intros [_ H]. specialize (H b). unfold live. split; intros [l E].
  - rewrite E in H. destruct (nth_error m' b) as [[l'|]|]; try contradiction. eauto.
  - rewrite E in H. destruct (nth_error m b) as [[l'|]|]; try contradiction. eauto.
Qed.
Lemma upd_take m dh dd sh sd dv sv : good m (NLeaf dh dd) ->
  leaf_value m (h_data dh) dd = Ok dv -> leaf_value m (h_data sh) sd = Ok sv ->
  is_empty sd = false -> takes dd sd = true ->
  (forall q, touches (NLeaf sh sd) q -> ~ touches (NLeaf dh dd) q) ->
  exists m', leaf_take m dh dd sh sd = Ok m' /\ upd m (NLeaf dh dd) (TLeaf (lv_overwrite dv sv)) m' (NLeaf dh dd).
Proof.
  intros G Ed Es Em Tk Dj. pose proof G as G0. cbn [good] in G0. destruct G0 as (A & B & C & D & E).
  destruct (leaf_take_ok m dh dd sh sd dv sv Ed Es Em Tk C D) as (m' & E' & Sh & F & V).
  { intros q T T'. apply (Dj q); apply touches_leaf; assumption. }
  exists m'. split; [exact E'|]. split; [apply nvalue_leaf; eauto|]. split.
  - apply (good_keep m m' _ G). intros b _. apply (same_shape_live m m' b Sh).
  - pose proof (proj1 Sh) as Len. constructor; auto; try lia.
    + intros q _ _ N. apply F. intros T. apply N. apply touches_leaf. exact T.
    + intros b L _. apply (same_shape_live m m' b Sh). exact L.
    + intros b _ L. apply (same_shape_live m m' b Sh). exact L.
    + intros b L [X|X]; [exact X|]. apply live_lt in L. lia.
Qed.
Lemma good_owned m n : good m n -> owned_ok m n.
Proof. intros G. apply good_flat in G. tauto. Qed.
Lemma good_tidy m n : good m n -> tidy n.
Proof. intros G. apply good_flat in G. tauto. Qed.
Lemma upd_compact m dest sh sd v : good m dest -> nvalue m (NLeaf sh sd) = Ok v -> is_empty sd = false ->
  (forall q, touches (NLeaf sh sd) q -> ~ ob dest (fst q)) ->
  exists m' dest', ncompact_to m (NLeaf sh sd) dest = Ok (m', dest') /\ upd m dest v m' dest'.
Proof.
  intros G E Em Ap.
  destruct (ncompact_ok m (NLeaf sh sd) dest v (good_owned _ _ G) E Ap) as (m' & dest' & R & C).
  exists m', dest'. split; [exact R|]. destruct C as [C1 C2 C3 C4 C5 C6 C7 C8].
  specialize (C7 (good_tidy _ _ G)). specialize (C8 (good_tidy _ _ G)).
  split; [exact C1|].
  assert (Lv : forall b, ob dest' b -> b = length m /\ live m' b).
  { intros b I. unfold ob, owned_blocks in I. rewrite C7 in I.
    destruct (Z.ltb_spec 0 (ttotal (nschema (NLeaf sh sd)))) as [Pos|]; [|destruct I]. destruct I as [<-|[]]. split; [reflexivity|].
    destruct (C6 Pos) as (l & X & _). exists l. exact X. }
  split.
  - apply good_flat. split; [|split; [exact C8|]].
    + split; unfold owned_blocks; rewrite C7; destruct (Z.ltb_spec 0 (ttotal (nschema (NLeaf sh sd)))) as [Pos|_];
        repeat constructor; [|intros []]. destruct (C6 Pos) as (l & X & _). exists l. exact X.
    + cbn [nschema tcompact] in C2. destruct dest' as [h' d'| |]; try discriminate. cbn [nschema] in C2. injection C2 as ->.
      unfold leaf_compact. rewrite Em. cbn [sep nschema tleaves private]. split; [|split; [|exact I]].
      * right. simpl. lia.
      * constructor; [reflexivity|constructor].
  - destruct C3 as [L X]. constructor.
    + exact L.
    + intros q T. right. destruct (C5 q T) as [-> _]. lia.
    + intros b O. right. destruct (Lv b O) as [-> _]. lia.
    + intros q H1 H2 _. apply (extends_rd m m' (owned_blocks dest) q (conj L X) H1 H2).
    + intros b H1 H2. apply (extends_live m m' (owned_blocks dest) b (conj L X) H1 H2).
    + intros b H1 [l H2]. rewrite X in H2 by exact H1. destruct (in_dec Nat.eq_dec b (owned_blocks dest)); [discriminate|]. exists l. exact H2.
    + intros b H1 [O|F].
      * assert (b < length m)%nat by (apply live_lt; eapply good_live; eauto).
        destruct H1 as [l H2]. rewrite X in H2 by assumption. destruct (in_dec Nat.eq_dec b (owned_blocks dest)); [discriminate|]. contradiction.
      * apply live_lt in H1. rewrite C4 in H1. unfold ob, owned_blocks. rewrite C7.
        destruct (0 <? ttotal (nschema (NLeaf sh sd))); [left; cbn [fst]; lia|lia].
Qed.

Lemma ob_obj h es b : ob (NObj h es) b <-> OK_ (map snd es) b \/ In b (map fst (own_ptr h)).
Proof.
  unfold ob, OK_. rewrite owned_obj, in_app_iff, in_flat_map. split.
  - intros [(e & I & J)|X]; [left; exists (snd e); split; [apply in_map; exact I|exact J]|auto].
  - intros [(c & I & J)|X]; [left; apply in_map_iff in I; destruct I as (e & <- & I); eauto|auto].
Qed.
Lemma ob_lst h ks b : ob (NLst h ks) b <-> OK_ ks b \/ In b (map fst (own_ptr h)).
Proof. unfold ob, OK_. rewrite owned_lst, in_app_iff, in_flat_map. reflexivity. Qed.
Lemma TK_obj h es q : touches (NObj h es) q <-> TK (map snd es) q.
Proof.
  rewrite touches_obj. unfold TK. split.
  - intros (k & c & I & T). exists c. split; [apply in_map_iff; exists (k, c); auto|exact T].
  - intros (c & I & T). apply in_map_iff in I. destruct I as ([k c'] & <- & I). eauto.
Qed.
Lemma step_wider m T O m' T' O' (U : ptr -> Prop) : step m T O m' T' O' -> (forall q, T q -> U q) -> step m U O m' T' O'.
Proof. intros [A B C D E F G] H. constructor; auto. intros q X. destruct (B q X); auto. Qed.

(** A parent whose header stays while its children change. *)
Lemma hdr_keep m h ns m' ns' : hlive m h -> hfree h ns ->
  step m (TK ns) (OK_ ns) m' (TK ns') (OK_ ns') ->
  hlive m' h /\ hfree h ns' /\
  step m (TK ns) (fun b => OK_ ns b \/ In b (map fst (own_ptr h))) m' (TK ns') (fun b => OK_ ns' b \/ In b (map fst (own_ptr h))).
Proof.
  intros L Fr S. unfold hlive in *. rewrite Forall_forall in L.
  assert (K : forall p, In p (own_ptr h) -> ~ OK_ ns (fst p)).
  { intros p I (c & Ic & J). apply (Fr c (fst p) Ic J). apply in_map. exact I. }
  split; [|split].
  - apply Forall_forall. intros p I. destruct (L p I) as [A B]. split; [exact A|]. apply (st_live _ _ _ _ _ _ S); auto.
  - intros c b Ic J X. apply in_map_iff in X. destruct X as (p & <- & I).
    destruct (st_owned _ _ _ _ _ _ S (fst p)) as [Y|Y]; [exists c; auto| |].
    + exact (K p I Y).
    + destruct (L p I) as [_ B]. apply live_lt in B. lia.
  - apply (step_ext _ _ _ _ _ _ _ _ _ _ (step_beside _ _ _ _ _ _ (fun _ => False) (fun b => In b (map fst (own_ptr h))) S)); intros; tauto.
Qed.
Lemma upd_obj m dest h (des : list (str * node)) (dvs' : list (str * tree leafval)) m' (des' : list (str * node)) :
  hok h -> hlive m h -> hfree h (map snd des) ->
  (forall q, TK (map snd des) q -> touches dest q) -> (forall b, ob dest b <-> OK_ (map snd des) b \/ In b (map fst (own_ptr h))) ->
  sibs m' (map snd des') (map snd dvs') -> map fst des' = map fst dvs' ->
  step m (TK (map snd des)) (OK_ (map snd des)) m' (TK (map snd des')) (OK_ (map snd des')) ->
  upd m dest (TObj dvs') m' (NObj h des').
Proof.
  intros Hk Hl Hf Ht Ho (V & G & P) N S.
  destruct (hdr_keep m h _ m' _ Hl Hf S) as (Hl' & Hf' & S').
  split; [|split].
  - apply nvalue_obj. exists dvs'. split; [reflexivity|]. clear -V N.
    revert dvs' V N. induction des' as [|[k c] des' IH]; intros [|[k' w] dvs'] V N; try discriminate; constructor.
    + cbn [map fst snd] in *. inversion V; subst. injection N as -> _. auto.
    + cbn [map fst snd] in *. inversion V; subst. injection N as _ N. apply IH; assumption.
  - apply good_obj. auto.
  - apply (step_wider _ (TK (map snd des))); [|exact Ht].
    apply (step_ext _ _ _ _ _ _ _ _ _ _ S'); intros; try reflexivity; [apply Ho|apply TK_obj|apply ob_obj].
Qed.
Lemma upd_lst m dest h dks dvs' m' dks' :
  hok h -> hlive m h -> hfree h dks ->
  (forall q, TK dks q -> touches dest q) -> (forall b, ob dest b <-> OK_ dks b \/ In b (map fst (own_ptr h))) ->
  sibs m' dks' dvs' ->
  step m (TK dks) (OK_ dks) m' (TK dks') (OK_ dks') ->
  upd m dest (TList dvs') m' (NLst h dks').
Proof.
  intros Hk Hl Hf Ht Ho (V & G & P) S.
  destruct (hdr_keep m h _ m' _ Hl Hf S) as (Hl' & Hf' & S').
  split; [|split].
  - apply nvalue_lst. exists dvs'. split; [reflexivity|exact V].
  - apply good_lst. auto.
  - apply (step_wider _ (TK dks)); [|exact Ht].
    apply (step_ext _ _ _ _ _ _ _ _ _ _ S'); intros; try reflexivity; [apply Ho|apply touches_lst|apply ob_lst].
Qed.

(** ---- loops ---- *)
Fixpoint nup_es (m : mem) (des l : list (str * node)) : outcome (mem * list (str * node)) :=
  match l with
  | [] => Ok (m, des)
  | (k, c) :: r => do (m', c') <- nupdate m (child_or_new des k) c; nup_es m' (mset des k c') r
  end.
Fixpoint nup_ks (m : mem) (dks l : list node) {struct l} : outcome (mem * list node) :=
  match l with
  | [] => Ok (m, dks)
  | c :: r =>
      let (d0, drest) := match dks with [] => (nempty, []) | d0 :: dr => (d0, dr) end in
      do (m', d') <- nupdate m d0 c; do (m'', r') <- nup_ks m' drest r; Ok (m'', d' :: r')
  end.
Lemma nup_obj m dest h e ses : nupdate m dest (NObj h (e :: ses)) =
  do (h, des) <- as_obj dest; do (m', des') <- nup_es m des (e :: ses); Ok (m', NObj h des').
Proof. destruct e. reflexivity. Qed.
Lemma nup_lst m dh dks h sks : nupdate m (NLst dh dks) (NLst h sks) =
  do (m', dks') <- nup_ks m dks sks; Ok (m', NLst dh dks').
Proof. reflexivity. Qed.
Lemma nup_lst_new m dest h s sks : match dest with NLst _ _ => False | _ => True end ->
  nupdate m dest (NLst h (s :: sks)) =
  do m1 <- nfree m dest; do (m', dks') <- nup_ks m1 [] (s :: sks); Ok (m', NLst (rel_hdr dest) dks').
Proof.
  intros H.
  assert (X : forall l m, (fix go m l := match l with
                    | [] => Ok (m, [])
                    | c :: r =>
                        do (m', d') <- nupdate m nempty c;
                        do (m'', r') <- go m' r;
                        Ok (m'', d' :: r')
                    end) m l = nup_ks m [] l).
  { induction l as [|c l IH]; intros m0; [reflexivity|]. cbn [nup_ks]. destruct (nupdate m0 nempty c) as [[m' d']| | |]; cbn [obind]; try reflexivity.
    rewrite IH. reflexivity. }
  destruct dest; try contradiction; cbn [nupdate]; destruct (nfree m _); cbn [obind]; try reflexivity;
    rewrite <- X; reflexivity.
Qed.
Fixpoint vup_es (des l : list (str * tree leafval)) : list (str * tree leafval) :=
  match l with
  | [] => des
  | (k, c) :: r => vup_es (mset des k (vupdate (match mget des k with Some dk => dk | None => TLeaf None end) c)) r
  end.
Fixpoint vup_ts (ds l : list (tree leafval)) {struct l} : list (tree leafval) :=
  match l with
  | [] => ds
  | c :: r => match ds with
              | d0 :: dr => vupdate d0 c :: vup_ts dr r
              | [] => vupdate (TLeaf None) c :: vup_ts [] r
              end
  end.
Lemma vup_obj d e ses : vupdate d (TObj (e :: ses)) = TObj (vup_es (tentries d) (e :: ses)).
Proof. reflexivity. Qed.
Lemma vup_lst ds ss : vupdate (TList ds) (TList ss) = TList (vup_ts ds ss).
Proof. destruct ss; reflexivity. Qed.
Lemma vup_lst_new d s ss : match d with TList _ => False | _ => True end ->
  vupdate d (TList (s :: ss)) = TList (vup_ts [] (s :: ss)).
Proof. intros H. destruct d; try contradiction; reflexivity. Qed.

Lemma mset_pos {A B} (des : list (str * A)) k : forall (dvs : list (str * B)), map fst des = map fst dvs ->
  (exists i d v, mget des k = Some d /\ mget dvs k = Some v /\ nth_error (map snd des) i = Some d /\
     nth_error (map snd dvs) i = Some v /\
     (forall x, map snd (mset des k x) = set_nth (map snd des) i x) /\ (forall y, map snd (mset dvs k y) = set_nth (map snd dvs) i y)) \/
  (mget des k = None /\ mget dvs k = None /\ (forall x, mset des k x = des ++ [(k, x)]) /\ (forall y, mset dvs k y = dvs ++ [(k, y)])).
Proof.
  induction des as [|[k0 d0] des IH]; intros [|[k1 v1] dvs] N; try discriminate; [right; auto|].
  cbn [map fst] in N. injection N as <- N. cbn [mget mset map fst snd]. destruct (str_eqb k k0) eqn:E.
  - left. exists O, d0, v1. cbn [nth_error set_nth]. auto 10.
  - destruct (IH dvs N) as [(i & d & v & A1 & A2 & A3 & A4 & A5 & A6)|(A1 & A2 & A3 & A4)].
    + left. exists (S i), d, v. cbn [nth_error set_nth]. do 4 (split; [assumption|]).
      split; intros x; cbn [map snd]; f_equal; auto.
    + right. do 2 (split; [assumption|]). split; intros x; cbn [app]; f_equal; auto.
Qed.
Lemma mset_names {A B} (des : list (str * A)) k x y : forall (dvs : list (str * B)), map fst des = map fst dvs ->
  map fst (mset des k x) = map fst (mset dvs k y).
Proof.
  induction des as [|[k0 d0] des IH]; intros [|[k1 v1] dvs] N; try discriminate; [reflexivity|].
  cbn [map fst] in N. injection N as <- N. cbn [mset]. destruct (str_eqb k k0); cbn [map fst]; f_equal; auto.
Qed.

Definition upd_ih (s : node) : Prop := forall m dest dv sv,
  good m dest -> nvalue m dest = Ok dv -> nvalue m s = Ok sv -> names_unique sv -> no_clash dv sv ->
  (forall q, touches s q -> ~ touches dest q /\ ~ ob dest (fst q)) ->
  exists m' dest', nupdate m dest s = Ok (m', dest') /\ upd m dest (vupdate dv sv) m' dest'.

(** Source nodes are unaffected by changes to the destination's children. *)
Lemma src_keep m ns m' ns' s sv : nvalue m s = Ok sv -> step m (TK ns) (OK_ ns) m' (TK ns') (OK_ ns') ->
  (forall q, touches s q -> ~ TK ns q /\ ~ OK_ ns (fst q)) ->
  nvalue m' s = Ok sv /\ (forall q, touches s q -> ~ TK ns' q /\ ~ OK_ ns' (fst q)).
Proof.
  intros E S D.
  assert (Lt : forall q, touches s q -> (fst q < length m)%nat) by (intros q T; apply rd_lt; eapply nvalue_readable; eauto).
  split.
  - apply (nvalue_frame s m m' sv E). intros q T. destruct (D q T). apply (st_frame _ _ _ _ _ _ S); auto.
  - intros q T. specialize (Lt q T). destruct (D q T) as [D1 D2]. split; intros X.
    + destruct (st_touch _ _ _ _ _ _ S q X); [contradiction|lia].
    + destruct (st_owned _ _ _ _ _ _ S _ X); [contradiction|lia].
Qed.

Lemma nup_es_ok ses : Forall (fun e => upd_ih (snd e)) ses -> forall m des dvs svs,
  map fst des = map fst dvs -> sibs m (map snd des) (map snd dvs) -> vals m ses svs ->
  NoDup (map fst svs) -> Forall (fun e => names_unique (snd e)) svs ->
  (forall k c, In (k, c) svs -> no_clash (match mget dvs k with Some dk => dk | None => TLeaf None end) c) ->
  (forall c q, In c (map snd ses) -> touches c q -> ~ TK (map snd des) q /\ ~ OK_ (map snd des) (fst q)) ->
  exists m' des', nup_es m des ses = Ok (m', des') /\ map fst des' = map fst (vup_es dvs svs) /\
    sibs m' (map snd des') (map snd (vup_es dvs svs)) /\
    step m (TK (map snd des)) (OK_ (map snd des)) m' (TK (map snd des')) (OK_ (map snd des')).
Proof.
  induction 1 as [|[k s] ses Hs _ IH]; intros m des dvs svs Nm Sb Vs Nd Nu Nc Dj; inversion Vs as [|? [k' sv] ? svs' [Ek Ev] Vr]; subst.
  { exists m, des. split; [reflexivity|]. split; [exact Nm|]. split; [exact Sb|]. apply step_refl.
    intros b (c & I & O). eapply good_live; [|exact O]. destruct Sb as (_ & G & _). rewrite Forall_forall in G. apply G. exact I. }
  cbn [fst snd map] in *. subst k'. inversion Nd as [|? ? Nk Nd']; subst. inversion Nu as [|? ? Nu1 Nu2]; subst.
  cbn [nup_es vup_es]. set (nv := vupdate (match mget dvs k with Some dk => dk | None => TLeaf None end) sv).
  assert (St : exists m1 c', nupdate m (child_or_new des k) s = Ok (m1, c') /\
     sibs m1 (map snd (mset des k c')) (map snd (mset dvs k nv)) /\
     step m (TK (map snd des)) (OK_ (map snd des)) m1 (TK (map snd (mset des k c'))) (OK_ (map snd (mset des k c')))).
  { destruct (mset_pos des k dvs Nm) as [(i & d & v & A1 & A2 & A3 & A4 & A5 & A6)|(A1 & A2 & A3 & A4)];
      unfold child_or_new; subst nv; rewrite A1, A2.
    - destruct (Hs m d v sv) as (m1 & c' & E1 & U).
      + destruct Sb as (_ & G & _). rewrite Forall_forall in G. apply G. eapply nth_error_In; eauto.
      + destruct Sb as (V & _). exact (F2_nth _ _ _ _ _ _ V A3 A4).
      + exact Ev.
      + exact Nu1.
      + specialize (Nc k sv (or_introl eq_refl)). rewrite A2 in Nc. exact Nc.
      + intros q T. destruct (Dj s q (or_introl eq_refl) T) as [D1 D2].
        assert (I : In d (map snd des)) by (eapply nth_error_In; eauto).
        split; intros X; [apply D1|apply D2]; exists d; auto.
      + exists m1, c'. split; [exact E1|]. rewrite A5, A6. eapply sibs_set; eauto.
    - destruct (Hs m nempty (TLeaf None) sv) as (m1 & c' & E1 & U).
      + apply good_nempty.
      + reflexivity.
      + exact Ev.
      + exact Nu1.
      + specialize (Nc k sv (or_introl eq_refl)). rewrite A2 in Nc. exact Nc.
      + intros q T. split; [apply touches_nempty|intros []].
      + exists m1, c'. split; [exact E1|]. rewrite A3, A4. rewrite !map_app. cbn [map snd]. eapply sibs_snoc; eauto. }
  destruct St as (m1 & c' & E1 & Sb1 & S1). rewrite E1. cbn [obind].
  destruct (IH m1 (mset des k c') (mset dvs k nv) svs') as (m2 & des2 & E2 & N2 & Sb2 & S2).
  - apply mset_names. exact Nm.
  - exact Sb1.
  - clear -Vr S1 Dj. induction Vr as [|e ev l l' [X Y] _ IHv]; constructor.
    + split; [exact X|]. eapply (src_keep m _ m1 _ (snd e)); [exact Y|exact S1|]. intros q. apply Dj. right. left. reflexivity.
    + apply IHv. intros c q [I|I]; [apply Dj; left; exact I|apply Dj; right; right; exact I].
  - exact Nd'.
  - exact Nu2.
  - intros k2 c2 I2. rewrite mget_mset_other; [apply Nc; right; exact I2|]. intros Ekk. apply Nk. apply in_map_iff. exists (k2, c2). cbn [fst]. split; [congruence|exact I2].
  - intros c q I T.
    assert (Ex : exists sv0, nvalue m c = Ok sv0).
    { clear -Vr I. induction Vr as [|e ev l l' [X Y] _ IHv]; [destruct I|]. destruct I as [<-|I]; [eauto|apply IHv; exact I]. }
    destruct Ex as [sv0 Ec]. apply (src_keep m _ m1 _ c sv0 Ec S1); [|exact T]. intros q' . apply Dj. right. exact I.
  - exists m2, des2. split; [exact E2|]. split; [exact N2|]. split; [exact Sb2|]. eapply step_trans; eauto.
Qed.

Lemma nup_ks_ok sks : Forall upd_ih sks -> forall m pre pvs dks dvs svs,
  length pre = length pvs -> sibs m (pre ++ dks) (pvs ++ dvs) -> Forall2 (fun n v => nvalue m n = Ok v) sks svs ->
  Forall names_unique svs ->
  (forall i c, nth_error svs i = Some c -> no_clash (match nth_error dvs i with Some x => x | None => TLeaf None end) c) ->
  (forall c q, In c sks -> touches c q -> ~ TK (pre ++ dks) q /\ ~ OK_ (pre ++ dks) (fst q)) ->
  exists m' dks', nup_ks m dks sks = Ok (m', dks') /\
    sibs m' (pre ++ dks') (pvs ++ vup_ts dvs svs) /\
    step m (TK (pre ++ dks)) (OK_ (pre ++ dks)) m' (TK (pre ++ dks')) (OK_ (pre ++ dks')).
Proof.
  induction 1 as [|s sks Hs _ IH]; intros m pre pvs dks dvs svs Lp Sb Vs Nu Nc Dj; inversion Vs as [|? sv ? svs' Ev Vr]; subst.
  { exists m, dks. split; [reflexivity|]. split; [exact Sb|]. apply step_refl.
    intros b (c & I & O). eapply good_live; [|exact O]. destruct Sb as (_ & G & _). rewrite Forall_forall in G. apply G. exact I. }
  inversion Nu as [|? ? Nu1 Nu2]; subst. cbn [nup_ks].
  assert (Ld : length dks = length dvs).
  { destruct Sb as (V & _). apply F2_len in V. rewrite !app_length in V. lia. }
  set (d0 := match dks with [] => nempty | d :: _ => d end). set (dr := match dks with [] => [] | _ :: r => r end).
  set (dv0 := match dvs with [] => TLeaf None | d :: _ => d end). set (dvr := match dvs with [] => [] | _ :: r => r end).
  replace (match dks with [] => (nempty, []) | d1 :: dr1 => (d1, dr1) end) with (d0, dr) by (subst d0 dr; destruct dks; reflexivity).
  replace (vup_ts dvs (sv :: svs')) with (vupdate dv0 sv :: vup_ts dvr svs') by (subst dv0 dvr; destruct dvs; reflexivity).
  assert (St : exists m1 c', nupdate m d0 s = Ok (m1, c') /\
     sibs m1 (pre ++ c' :: dr) (pvs ++ vupdate dv0 sv :: dvr) /\
     step m (TK (pre ++ dks)) (OK_ (pre ++ dks)) m1 (TK (pre ++ c' :: dr)) (OK_ (pre ++ c' :: dr))).
  { specialize (Nc O sv eq_refl). subst d0 dr dv0 dvr. destruct dks as [|d dks], dvs as [|dv dvs]; try discriminate; cbn [nth_error] in Nc.
    - destruct (Hs m nempty (TLeaf None) sv) as (m1 & c' & E1 & U).
      + apply good_nempty.
      + reflexivity.
      + exact Ev.
      + exact Nu1.
      + exact Nc.
      + intros q T. split; [apply touches_nempty|intros []].
      + exists m1, c'. split; [exact E1|]. rewrite !app_nil_r in *. eapply sibs_snoc; eauto.
    - assert (Ei : nth_error (pre ++ d :: dks) (length pre) = Some d) by (rewrite nth_error_app2, Nat.sub_diag by lia; reflexivity).
      assert (Ej : nth_error (pvs ++ dv :: dvs) (length pre) = Some dv) by (rewrite Lp, nth_error_app2, Nat.sub_diag by lia; reflexivity).
      destruct (Hs m d dv sv) as (m1 & c' & E1 & U).
      + destruct Sb as (_ & G & _). rewrite Forall_forall in G. apply G. eapply nth_error_In; eauto.
      + destruct Sb as (V & _). exact (F2_nth _ _ _ _ _ _ V Ei Ej).
      + exact Ev.
      + exact Nu1.
      + exact Nc.
      + intros q T. destruct (Dj s q (or_introl eq_refl) T) as [D1 D2].
        assert (I : In d (pre ++ d :: dks)) by (eapply nth_error_In; eauto).
        split; intros X; [apply D1|apply D2]; exists d; auto.
      + exists m1, c'. split; [exact E1|].
        destruct (sibs_set m _ _ _ _ _ _ _ Sb Ei U) as [X Y]. rewrite set_nth_app in X, Y. rewrite Lp, set_nth_app in X. auto. }
  destruct St as (m1 & c' & E1 & Sb1 & S1). rewrite E1. cbn [obind].
  assert (As : forall {A} (l : list A) x r, l ++ x :: r = (l ++ [x]) ++ r) by (intros; rewrite <- app_assoc; reflexivity).
  rewrite (As _ pre) in Sb1, S1. rewrite (As _ pvs) in Sb1.
  assert (Dj1 : forall c, In c sks -> exists sv0, nvalue m1 c = Ok sv0 /\ forall q, touches c q -> ~ TK ((pre ++ [c']) ++ dr) q /\ ~ OK_ ((pre ++ [c']) ++ dr) (fst q)).
  { intros c I. assert (Ex : exists sv0, nvalue m c = Ok sv0).
    { clear -Vr I. induction Vr as [|e ev l l' Y _ IHv]; [destruct I|]. destruct I as [<-|I]; [eauto|apply IHv; exact I]. }
    destruct Ex as [sv0 Ec]. exists sv0. apply (src_keep m _ m1 _ c sv0 Ec S1). intros q. apply Dj. right; exact I. }
  destruct (IH m1 (pre ++ [c']) (pvs ++ [vupdate dv0 sv]) dr dvr svs') as (m2 & dks2 & E2 & Sb2 & S2).
  - rewrite !app_length. cbn [length]. lia.
  - exact Sb1.
  - clear -Vr S1 Dj. induction Vr as [|e ev l l' Y _ IHv]; constructor.
    + eapply (src_keep m _ m1 _ e); [exact Y|exact S1|]. intros q. apply Dj. right. left. reflexivity.
    + apply IHv. intros c q [I|I]; [apply Dj; left; exact I|apply Dj; right; right; exact I].
  - exact Nu2.
  - intros i c E. specialize (Nc (S i) c E). subst dvr. destruct dvs as [|dv dvs]; [destruct i; exact Nc|exact Nc].
  - intros c q I T. destruct (Dj1 c I) as (sv0 & _ & H). apply H. exact T.
  - exists m2, (c' :: dks2). rewrite E2. cbn [obind]. split; [reflexivity|]. rewrite (As _ pre), (As _ pvs). split; [exact Sb2|].
    eapply step_trans; [exact S1|exact S2].
Qed.

Lemma TK_nil q : ~ TK [] q.
Proof. intros (c & [] & _). Qed.
Lemma OK_nil b : ~ OK_ [] b.
Proof. intros (c & [] & _). Qed.
Lemma sibs_nil m : sibs m [] [].
Proof. split; [constructor|]. split; [constructor|]. intros [|i] j a b _ E; discriminate. Qed.
Lemma nvalue_kind_obj m dest dv h des : nvalue m dest = Ok dv -> as_obj dest = Ok (h, des) -> good m dest ->
  exists dvs, dvs = tentries dv /\ map fst des = map fst dvs /\ sibs m (map snd des) (map snd dvs) /\
    hok h /\ hlive m h /\ hfree h (map snd des) /\ (forall q, TK (map snd des) q -> touches dest q) /\
    (forall b, ob dest b <-> OK_ (map snd des) b \/ In b (map fst (own_ptr h))).
Proof.
  intros E A G. destruct dest as [h0 d|h0 es|h0 ks]; cbn [as_obj] in A.
  - injection A as <- <-. apply nvalue_leaf in E. destruct E as (lv & -> & _). exists []. split; [reflexivity|]. split; [reflexivity|].
    split; [apply sibs_nil|]. cbn [good] in G. destruct G as (G1 & G2 & G3 & G4 & G5). split; [exact G1|]. split; [exact G5|].
    split; [intros c b []|]. split; [intros q X; destruct (TK_nil q X)|]. intros b. unfold ob, owned_blocks. cbn [owns].
    destruct (is_empty d) eqn:Em.
    + rewrite (own_ptr_false h0 (G2 eq_refl)). cbn. split; [intros []|intros [X|[]]; destruct (OK_nil b X)].
    + split; [auto|intros [X|X]; [destruct (OK_nil b X)|exact X]].
  - injection A as <- <-. apply nvalue_obj in E. destruct E as (dvs & -> & E). exists dvs. split; [reflexivity|].
    apply good_obj in G. destruct G as (G1 & G2 & G3 & G4 & G5).
    assert (N : map fst es = map fst dvs). { clear -E. induction E as [|? ? ? ? [X _] _ IH]; cbn [map]; [reflexivity|]. f_equal; auto. }
    split; [exact N|]. split.
    { split; [|split; [exact G5|exact G4]]. clear -E. induction E as [|? ? ? ? [_ X] _ IH]; cbn [map]; constructor; auto. }
    do 3 (split; [assumption|]). split; [intros q X; apply TK_obj; exact X|]. intros b. apply ob_obj.
  - destruct ks as [|k ks]; [|discriminate]. injection A as <- <-. apply nvalue_lst in E. destruct E as (dvs & -> & E).
    exists []. split; [reflexivity|]. split; [reflexivity|].
    split; [apply sibs_nil|]. apply good_lst in G. destruct G as (G1 & G2 & G3 & G4 & G5). split; [exact G1|]. split; [exact G2|].
    split; [intros c b []|]. split; [intros q X; destruct (TK_nil q X)|]. intros b. rewrite ob_lst. reflexivity.
Qed.
Lemma free_step m n m1 : good m n -> nfree m n = Ok m1 -> freed m m1 (owned_blocks n) ->
  step m (touches n) (ob n) m1 (TK []) (OK_ []).
Proof.
  intros G E Fr. pose proof (proj1 Fr) as Len. constructor.
  - lia.
  - intros q X. destruct (TK_nil q X).
  - intros b X. destruct (OK_nil b X).
  - intros q _ N _. rewrite (freed_rd _ _ _ _ Fr). destruct (in_dec Nat.eq_dec (fst q) (owned_blocks n)); [contradiction|reflexivity].
  - intros b [l X] N. exists l. destruct Fr as [_ H]. rewrite H. destruct (in_dec Nat.eq_dec b (owned_blocks n)); [contradiction|exact X].
  - intros b _ [l X]. exists l. destruct Fr as [_ H]. rewrite H in X. destruct (in_dec Nat.eq_dec b (owned_blocks n)); [discriminate|exact X].
  - intros b L [O|X].
    + destruct L as [l X]. destruct Fr as [_ H]. rewrite H in X. destruct (in_dec Nat.eq_dec b (owned_blocks n)); [discriminate|contradiction].
    + apply live_lt in L. lia.
Qed.

Lemma nupdate_ok s : upd_ih s.
Proof.
  induction s as [sh sd|sh ses IH|sh sks IH] using node_ind'; intros m dest dv sv G Ed Es Nu Nc Dj.
  - cbn [nupdate]. pose proof Es as Es0. apply nvalue_leaf in Es. destruct Es as (slv & -> & Es).
    destruct (is_empty sd) eqn:Em.
    { unfold is_empty in Em. apply tid_eqb_eq in Em. rewrite leaf_value_empty in Es by exact Em. injection Es as <-.
      exists m, dest. split; [reflexivity|]. apply upd_same; assumption. }
    assert (Ns : exists t en es, slv = Some (t, en, es)).
    { destruct (leaf_value_inv _ _ _ _ Es) as [[T _]|(_ & _ & es & -> & _)]; [|eauto].
      unfold is_empty in Em. rewrite T in Em. discriminate. }
    destruct Ns as (t & en & es & Eslv).
    assert (Cp : exists m' dest', ncompact_to m (NLeaf sh sd) dest = Ok (m', dest') /\ upd m dest (TLeaf slv) m' dest').
    { apply upd_compact; auto. intros q T. apply Dj. exact T. }
    destruct dest as [dh dd|dh des|dh dks].
    + apply nvalue_leaf in Ed. destruct Ed as (dlv & -> & Ed).
      destruct (takes dd sd) eqn:Tk.
      * destruct (upd_take m dh dd sh sd dlv slv G Ed Es Em Tk) as (m' & E' & U); [intros q T; apply Dj; exact T|].
        rewrite E'. cbn [obind]. exists m', (NLeaf dh dd). split; [reflexivity|].
        rewrite (fits_takes _ _ _ _ _ _ _ Ed Es Em) in Tk. subst slv. cbn [vupdate]. rewrite Tk. exact U.
      * destruct Cp as (m' & dest' & E' & U). exists m', dest'. split; [exact E'|].
        rewrite (fits_takes _ _ _ _ _ _ _ Ed Es Em) in Tk. subst slv. cbn [vupdate]. rewrite Tk. exact U.
    + destruct Cp as (m' & dest' & E' & U). exists m', dest'. split; [exact E'|].
      apply nvalue_obj in Ed. destruct Ed as (? & -> & _). subst slv. exact U.
    + destruct Cp as (m' & dest' & E' & U). exists m', dest'. split; [exact E'|].
      apply nvalue_lst in Ed. destruct Ed as (? & -> & _). subst slv. exact U.
  - apply nvalue_obj in Es. destruct Es as (svs & -> & Es). destruct ses as [|e ses].
    { inversion Es; subst. exists m, dest. split; [reflexivity|]. apply upd_same; assumption. }
    rewrite nup_obj.
    assert (As : exists h des, as_obj dest = Ok (h, des)).
    { destruct dest as [h0 d|h0 es|h0 [|k ks]]; cbn [as_obj]; eauto. exfalso.
      apply nvalue_lst in Ed. destruct Ed as (vs & -> & Ed). inversion Ed; subst. inversion Nc as [| |? ? X _|]; subst; [inversion Es|].
      eapply X. reflexivity. }
    destruct As as (h & des & As). rewrite As. cbn [obind].
    destruct (nvalue_kind_obj m dest dv h des Ed As G) as (dvs & Edvs & Nm & Sb & Hk & Hl & Hf & Ht & Ho).
    inversion Nu as [|? Nd Nus|]; subst.
    destruct (nup_es_ok (e :: ses) IH m des (tentries dv) svs Nm Sb Es Nd Nus) as (m' & des' & E' & N' & Sb' & S').
    { inversion Nc as [|? |? ? _ X|]; subst; [|exact X]. intros k c []. }
    { intros c q I T. apply in_map_iff in I. destruct I as ([k c'] & <- & I).
      destruct (Dj q) as [D1 D2]; [apply touches_obj; eauto|]. split; intros X; [apply D1; apply Ht; exact X|apply D2; apply Ho; auto]. }
    rewrite E'. cbn [obind]. exists m', (NObj h des'). split; [reflexivity|].
    inversion Es; subst. rewrite vup_obj. eapply upd_obj; eauto.
  - apply nvalue_lst in Es. destruct Es as (svs & -> & Es).
    inversion Nu as [| |? Nus]; subst. inversion Nc as [| | |? ? Nc']; subst.
    destruct dest as [dh dd|dh des|dh dks].
    3:{ rewrite nup_lst. apply nvalue_lst in Ed. destruct Ed as (dvs & -> & Ed). apply good_lst in G.
        destruct G as (G1 & G2 & G3 & G4 & G5).
        destruct (nup_ks_ok sks IH m [] [] dks dvs svs eq_refl (conj Ed (conj G5 G4)) Es Nus Nc') as (m' & dks' & E' & Sb' & S').
        { intros c q I T. destruct (Dj q) as [D1 D2]; [apply touches_lst; eauto|]. split; intros X; [apply D1; apply touches_lst; exact X|].
          apply D2. apply ob_lst. left; exact X. }
        rewrite E'. cbn [obind]. exists m', (NLst dh dks'). split; [reflexivity|]. rewrite vup_lst. cbn [app] in *.
        eapply upd_lst; eauto; [intros q X; apply touches_lst; exact X|intros b; apply ob_lst]. }
    all: destruct sks as [|s sks]; [inversion Es; subst; exists m; eexists; split; [reflexivity|]; apply upd_same; assumption|].
    all: rewrite nup_lst_new by exact I.
    all: destruct (nfree_ok m _ (good_owned _ _ G)) as (m1 & E1 & Fr); rewrite E1; cbn [obind].
    all: pose proof (free_step m _ m1 G E1 Fr) as S1.
    all: assert (Es1 : Forall2 (fun n v => nvalue m1 n = Ok v) (s :: sks) svs) by
      (clear -Es S1 Dj;
       assert (H : forall c, In c (s :: sks) -> forall w, nvalue m c = Ok w -> nvalue m1 c = Ok w)
         by (intros c Ic w Hc; apply (nvalue_frame c m m1 w Hc); intros q T;
             destruct (Dj q) as [D1 D2]; [apply touches_lst; eauto|];
             apply (st_frame _ _ _ _ _ _ S1); auto; apply rd_lt; eapply nvalue_readable; eauto);
       clear -Es H; induction Es; constructor; [apply H; [left; reflexivity|assumption]|apply IHEs; intros c Ic; apply H; right; exact Ic]).
    all: assert (Nc2 : forall i c, nth_error svs i = Some c ->
           no_clash (match nth_error (@nil (tree leafval)) i with Some x => x | None => TLeaf None end) c)
         by (intros i c X; specialize (Nc' i c X);
             (apply nvalue_leaf in Ed || apply nvalue_obj in Ed); destruct Ed as (? & -> & _);
             destruct i; exact Nc').
    all: destruct (nup_ks_ok (s :: sks) IH m1 [] [] [] [] svs eq_refl (sibs_nil m1) Es1 Nus Nc2) as (m' & dks' & E' & Sb' & S');
         [intros c q _ _; split; [apply TK_nil|apply OK_nil]|].
    all: rewrite E'; cbn [obind app] in *; eexists m', _; split; [reflexivity|].
    all: pose proof (tidy_rel _ (good_tidy _ _ G)) as TR.
    all: assert (Vn : vupdate dv (TList svs) = TList (vup_ts [] svs)) by
       (inversion Es; subst; apply vup_lst_new; (apply nvalue_leaf in Ed || apply nvalue_obj in Ed); destruct Ed as (? & -> & _); exact I).
    all: rewrite Vn.
    all: destruct (upd_lst m1 (NLst (rel_hdr (match dv with TLeaf _ => nempty | _ => nempty end)) []) null_hdr [] (vup_ts [] svs) m' dks') as (U1 & U2 & U3);
         [apply hok_false; reflexivity|constructor|intros c b []|intros q X; destruct (TK_nil q X)|
          intros b; rewrite ob_lst; destruct dv; reflexivity|exact Sb'|exact S'|].
    all: apply good_lst in U2; destruct U2 as (_ & _ & _ & G4 & G5).
    all: split; [apply nvalue_lst; apply nvalue_lst in U1; exact U1|].
    all: split; [apply good_lst; split; [apply hok_false; exact TR|]; unfold hlive, hfree; rewrite (own_ptr_false _ TR);
                 split; [constructor|]; split; [intros c b _ _ []|]; split; assumption|].
    all: apply (step_trans _ _ _ _ _ _ _ _ _ S1).
    all: apply (step_ext _ _ _ _ _ _ _ _ _ _ S'); try reflexivity.
    all: try (intros q; apply touches_lst).
    all: intros b; rewrite ob_lst, (own_ptr_false _ TR); cbn [map In]; tauto.
Qed.

(** ---- laws ---- *)
(** A node that can be written to without surprises. *)
Definition healthy (m : mem) (n : node) : Prop :=
  owned_ok m n /\ tidy n /\ separate n /\ Forall std_leaf (tleaves (nschema n)) /\ private n.
Lemma healthy_good m n : healthy m n <-> good m n.
Proof. rewrite good_flat. unfold healthy. rewrite separate_sep. reflexivity. Qed.
Lemma update_law m dest src dv sv :
  healthy m dest -> nvalue m dest = Ok dv -> nvalue m src = Ok sv ->
  names_unique sv -> no_clash dv sv ->
  (forall q, touches src q -> ~ touches dest q /\ ~ ob dest (fst q)) ->
  exists m' dest', nupdate m dest src = Ok (m', dest') /\
    nvalue m' dest' = Ok (vupdate dv sv) /\ nvalue m' src = Ok sv /\
    healthy m' dest' /\ step m (touches dest) (ob dest) m' (touches dest') (ob dest').
Proof.
  intros H Ed Es Nu Nc Dj. apply healthy_good in H.
  destruct (nupdate_ok src m dest dv sv H Ed Es Nu Nc Dj) as (m' & dest' & E & V & G & S).
  exists m', dest'. split; [exact E|]. split; [exact V|]. split.
  - apply (nvalue_frame src m m' sv Es). intros q T. destruct (Dj q T). apply (st_frame _ _ _ _ _ _ S); auto.
    apply rd_lt. eapply nvalue_readable; eauto.
  - split; [apply healthy_good; exact G|exact S].
Qed.
Lemma update_compatible_law m dest src dv sv :
  nvalue m dest = Ok dv -> nvalue m src = Ok sv -> separate dest -> Forall std_leaf (tleaves (nschema dest)) ->
  (forall q, touches dest q -> ~ touches src q) ->
  exists m', nupdate_compatible m dest src = Ok m' /\
    nvalue m' dest = Ok (vtake dv sv) /\ nvalue m' src = Ok sv /\
    (forall q, ~ touches dest q -> rd m' q = rd m q) /\ same_shape m m'.
Proof.
  intros Ed Es Sp Std Dj. apply separate_sep in Sp.
  destruct (nuc_ok src m dest dv sv Ed Es Sp Std Dj) as (m' & E & Sh & F & V).
  exists m'. split; [exact E|]. split; [exact V|]. split; [|split; [exact F|exact Sh]].
  apply (nvalue_frame src m m' sv Es). intros q T. apply F. intros T'. exact (Dj q T' T).
Qed.
