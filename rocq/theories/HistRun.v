(** Runs of programs over Node variables (facts behind P_Hist.v). *)
From Verif Require Import Base DType SpecTree Mem MemFacts Node SpecNode NodeFacts NodeCompact NodeSet NodeEndian NodeUpdate NodeUpdateLaws NodeMerge NodeAlloc NodeHist HistSpec HistFacts.
Local Open Scope Z_scope.

(** ---- names stay unique ---- *)
Lemma nu_tmap {A B} (f : A -> B) t : names_unique (tmap f t) <-> names_unique t.
Proof.
  induction t as [a|es IH|ts IH] using tree_ind''; cbn [tmap].
  - split; constructor.
  - assert (X : map fst (map (fun e => (fst e, tmap f (snd e))) es) = map fst es) by (rewrite map_map; reflexivity).
    split; intros H; inversion H as [|? N F|]; subst; constructor.
    + rewrite <- X. exact N.
    + rewrite Forall_map in F. rewrite Forall_forall in *. intros e I. apply (IH e I). apply (F e I).
    + rewrite X. exact N.
    + rewrite Forall_map. rewrite Forall_forall in *. intros e I. apply (IH e I). apply (F e I).
  - split; intros H; inversion H as [| |? F]; subst; constructor.
    + rewrite Forall_map in F. rewrite Forall_forall in *. intros e I. apply (IH e I). apply (F e I).
    + rewrite Forall_map. rewrite Forall_forall in *. intros e I. apply (IH e I). apply (F e I).
Qed.
Lemma nu_entries (v : value) : names_unique v -> NoDup (map fst (tentries v)) /\ Forall (fun e => names_unique (snd e)) (tentries v).
Proof. intros H. destruct v; cbn [tentries]; try (split; constructor). inversion H; auto. Qed.
Lemma Forall_set_nth {A} (P : A -> Prop) l i x : Forall P l -> P x -> Forall P (set_nth l i x).
Proof.
  intros F Px. apply Forall_forall. intros y I. apply In_set_nth in I. destruct I as [->|(j & _ & E)]; [exact Px|].
  rewrite Forall_forall in F. apply F. eapply nth_error_In; eauto.
Qed.
Lemma nu_vat R p v v' : vat R p v v' -> (forall x x', names_unique x -> R x x' -> names_unique x') -> names_unique v -> names_unique v'.
Proof.
  intros V HR. induction V as [v v' H|k p v c' H IH|p v c' H IH|i p es k c c' E H IH|i p ts c c' E H IH]; intros Nu.
  - eapply HR; eauto.
  - destruct (nu_entries v Nu) as [N F].
    assert (Nc : names_unique c').
    { apply IH. destruct (mget (tentries v) k) as [c|] eqn:G; [|constructor]. apply mget_In in G. rewrite Forall_forall in F. apply (F _ G). }
    constructor; [apply nodup_mset; exact N|]. apply Forall_forall. intros [k2 x] I.
    assert (Mg : mget (mset (tentries v) k c') k2 = Some x) by (apply mget_Some_In_nodup; [apply nodup_mset; exact N|exact I]).
    rewrite mget_mset in Mg. rewrite Forall_forall in F. destruct (str_eqb_spec k2 k) as [->|]; [injection Mg as <-; exact Nc|].
    apply mget_In in Mg. apply (F _ Mg).
  - constructor. apply Forall_app. split; [|constructor; [apply IH; constructor|constructor]].
    destruct v; cbn [vitems]; try constructor. inversion Nu; auto.
  - inversion Nu as [|? N F|]; subst.
    assert (X : map fst (set_nth es i (k, c')) = map fst es).
    { clear -E. revert i E. induction es as [|e es IH]; intros [|i] E; try discriminate; cbn in *; [injection E as ->; reflexivity|]. f_equal. auto. }
    constructor; [rewrite X; exact N|]. apply Forall_set_nth; [exact F|]. apply IH. apply nth_error_In in E. rewrite Forall_forall in F. apply (F _ E).
  - inversion Nu as [| |? F]; subst. constructor. apply Forall_set_nth; [exact F|]. apply IH. apply nth_error_In in E. rewrite Forall_forall in F. apply (F _ E).
Qed.
Lemma nodup_drop {A} (a : list A) x b : NoDup (a ++ x :: b) -> NoDup (a ++ b).
Proof. apply NoDup_remove_1. Qed.
Lemma nu_effect mach w a v v' : names_unique w -> names_unique v -> effect mach w a v v' -> names_unique v'.
Proof.
  intros W V E. destruct E; auto.
  - apply vupdate_unique; assumption.
  - apply (nu_tmap (fun _ : leafval => tt)). pose proof (vtake_shape w v) as X. unfold shape in X. 
    assert (Y : tmap (fun _ : leafval => tt) (vtake v w) = tmap (fun _ : leafval => tt) v) by exact X.
    rewrite Y. apply nu_tmap. exact V.
  - apply nu_tmap. destruct H as (_ & _ & H & _). exact H.
  - apply nu_tmap. destruct H as (_ & _ & H & _). exact H.
  - constructor.
  - apply nu_tmap. exact V.
  - inversion V as [|? N F|]; subst. rewrite map_app in N. cbn [map fst] in N. constructor; [rewrite map_app; eapply nodup_drop; exact N|].
    apply Forall_app in F. destruct F as [F1 F2]. inversion F2; subst. apply Forall_app. auto.
  - inversion V as [|? N F|]; subst. rewrite map_app in N. cbn [map fst] in N. constructor; [rewrite map_app; eapply nodup_drop; exact N|].
    apply Forall_app in F. destruct F as [F1 F2]. inversion F2; subst. apply Forall_app. auto.
  - inversion V as [| |? F]; subst. constructor. apply Forall_app in F. destruct F as [F1 F2]. inversion F2; subst. apply Forall_app. auto.
Qed.
Lemma nu_vsub v p w : vsub v p w -> names_unique v -> names_unique w.
Proof.
  induction 1 as [v|es k c p w G H IH|es i k c p w G H IH|ts i c p w G H IH]; intros N; auto; apply IH.
  - inversion N as [|? _ F|]; subst. apply mget_In in G. rewrite Forall_forall in F. apply (F _ G).
  - inversion N as [|? _ F|]; subst. apply nth_error_In in G. rewrite Forall_forall in F. apply (F _ G).
  - inversion N as [| |? F]; subst. apply nth_error_In in G. rewrite Forall_forall in F. apply (F _ G).
Qed.

(** ---- the argument ---- *)
Lemma F2_nth_value {A B} (R : A -> B -> Prop) l l' i y : Forall2 R l l' -> nth_error l' i = Some y -> exists x, nth_error l i = Some x /\ R x y.
Proof. intros F. revert i. induction F as [|a b l l' H F IH]; intros [|i] E; try discriminate; [injection E as <-; exists a; auto|apply IH; exact E]. Qed.
Lemma sub_ok v p w : vsub v p w -> forall m n, nvalue m n = Ok v ->
  exists s, nsub n p = Ok s /\ nvalue m s = Ok w /\ (forall q, touches s q -> touches n q).
Proof.
  induction 1 as [v|es k c p w G H IH|es i k c p w G H IH|ts i c p w G H IH]; intros m n E.
  - exists n. auto.
  - destruct n as [h d|h ns|h ns]; [apply nvalue_leaf in E; destruct E as (? & X & _); discriminate| |apply nvalue_lst in E; destruct E as (? & X & _); discriminate].
    apply nvalue_obj in E. destruct E as (vs & X & F). injection X as <-. cbn [nsub].
    assert (Y : exists x, mget ns k = Some x /\ In (k, x) ns /\ nvalue m x = Ok c).
    { clear -G F. induction F as [|[k1 a] [k2 b] l l' [E1 E2] F IH]; [discriminate|]. cbn [fst snd] in *. subst k2. cbn [mget] in *.
      destruct (str_eqb_spec k k1) as [->|]; [injection G as <-; exists a; repeat split; auto; left; reflexivity|].
      destruct (IH G) as (x & X1 & X2 & X3). exists x. repeat split; auto. right. exact X2. }
    destruct Y as (x & -> & I & Ex). destruct (IH m x Ex) as (s & -> & Es & T). exists s. repeat split; auto.
    intros q Tq. apply touches_obj. exists k, x. auto.
  - destruct n as [h d|h ns|h ns]; [apply nvalue_leaf in E; destruct E as (? & X & _); discriminate| |apply nvalue_lst in E; destruct E as (? & X & _); discriminate].
    apply nvalue_obj in E. destruct E as (vs & X & F). injection X as <-. cbn [nsub].
    destruct (F2_nth_value _ _ _ _ _ F G) as ([k' x] & Ei & Ek & Ex). cbn [fst snd] in *. rewrite nth_error_map. unfold str in *. rewrite Ei. cbn [option_map snd].
    destruct (IH m x Ex) as (s & -> & Es & T). exists s. repeat split; auto. intros q Tq. apply touches_obj. exists k', x. split; [eapply nth_error_In; eauto|auto].
  - destruct n as [h d|h ns|h ns]; [apply nvalue_leaf in E; destruct E as (? & X & _); discriminate|apply nvalue_obj in E; destruct E as (? & X & _); discriminate|].
    apply nvalue_lst in E. destruct E as (vs & X & F). injection X as <-. cbn [nsub].
    destruct (F2_nth_value _ _ _ _ _ F G) as (x & Ei & Ex). rewrite Ei.
    destruct (IH m x Ex) as (s & -> & Es & T). exists s. repeat split; auto. intros q Tq. apply touches_lst. exists x. split; [eapply nth_error_In; eauto|auto].
Qed.

(** ---- one call ---- *)
Definition inv (s : state) (vs : list value) : Prop :=
  sibs (s_mem s) (s_vars s) vs /\ (forall b, live (s_mem s) b -> OK_ (s_vars s) b) /\ Forall names_unique vs.
Lemma inv_start k : inv (start k) (repeat none k).
Proof.
  unfold inv, start. cbn [s_mem s_vars]. split; [|split].
  - split; [|split].
    + induction k; cbn [repeat]; constructor; auto.
    + apply Forall_forall. intros n I. apply repeat_spec in I. subst. apply good_nempty.
    + intros i j a b _ Ei Ej. apply nth_error_In, repeat_spec in Ei. apply nth_error_In, repeat_spec in Ej. subst.
      split; [intros q T; destruct (touches_nempty q T)|]. split; [intros q T; destruct (touches_nempty q T)|intros b []].
  - intros b [l X]. destruct b; discriminate.
  - apply Forall_forall. intros v I. apply repeat_spec in I. subst. constructor.
Qed.
Lemma live_step m T (O : nat -> Prop) m' T' O' : (forall b, live m b -> O b) -> step m T O m' T' O' -> forall b, live m' b -> O' b.
Proof.
  intros H S b L. apply (st_leak _ _ _ _ _ _ S b L). destruct (Nat.lt_ge_cases b (length m)) as [Lt|Ge]; [left|right; exact Ge].
  apply H. apply (st_dead _ _ _ _ _ _ S b Lt L).
Qed.
Lemma do_ok mach s vs i p a v v' w : inv s vs -> nth_error vs i = Some v -> argument vs i a w -> vat (effect mach w a) p v v' ->
  exists s', exec1 mach s (Do i p a) = Ok s' /\ inv s' (set_nth vs i v').
Proof.
  intros (Sb & Lk & Nu) Ei Ar V. pose proof Sb as (Vs & Gs & Ps). destruct s as [m vars]. cbn [s_mem s_vars] in *.
  destruct (F2_nth_value _ _ _ _ _ Vs Ei) as (n & En & Ev). cbn [exec1 s_mem s_vars]. rewrite En. cbn [deref obind].
  assert (Gn : good m n) by (rewrite Forall_forall in Gs; apply Gs; eapply nth_error_In; eauto).
  assert (Src : exists src, match arg_of a with Some (j, q) => do x <- deref (nth_error vars j); nsub x q | None => Ok nempty end = Ok src /\
    nvalue m src = Ok w /\ beside src n /\ names_unique w).
  { unfold argument in Ar. destruct (arg_of a) as [[j q]|].
    - destruct Ar as (Nj & x & Ex & Sx). destruct (F2_nth_value _ _ _ _ _ Vs Ex) as (nx & Enx & Evx). rewrite Enx. cbn [deref obind].
      destruct (sub_ok _ _ _ Sx m nx Evx) as (src & Esrc & Esv & T). exists src. split; [exact Esrc|]. split; [exact Esv|]. split.
      + intros z Tz. destruct (Ps j i nx n Nj Enx En) as (P1 & P2 & _). split; [apply P1|apply P2]; auto.
      + apply (nu_vsub _ _ _ Sx). apply nth_error_In in Ex. rewrite Forall_forall in Nu. apply Nu. exact Ex.
    - subst w. exists nempty. split; [reflexivity|]. split; [reflexivity|]. split; [intros z Tz; destruct (touches_nempty z Tz)|constructor]. }
  destruct Src as (src & -> & Es & B & Nw). cbn [obind].
  destruct (at_path_ok _ _ _ _ (act_ok mach a src w Nw) p m n v v' V Gn Ev Es B) as (m' & n' & E' & U). rewrite E'. cbn [obind].
  eexists. split; [reflexivity|]. destruct (sibs_set m vars vs i n v' m' n' Sb En U) as [S' St]. unfold inv. cbn [s_mem s_vars].
  split; [exact S'|]. split; [eapply live_step; eauto|].
  apply Forall_set_nth; [exact Nu|]. apply (nu_vat _ _ _ _ V).
  - intros x x' Nx R. exact (nu_effect mach w a x x' Nw Nx R).
  - apply nth_error_In in Ei. rewrite Forall_forall in Nu. apply Nu. exact Ei.
Qed.

(** ---- exchanging two variables ---- *)
Definition sw (i j x : nat) : nat := if Nat.eqb x i then j else if Nat.eqb x j then i else x.
Lemma sw_inj i j x y : x <> y -> sw i j x <> sw i j y.
Proof. unfold sw. destruct (Nat.eqb_spec x i), (Nat.eqb_spec x j), (Nat.eqb_spec y i), (Nat.eqb_spec y j); subst; congruence. Qed.
Lemma nth_exchange {A} (l : list A) i j a b x : nth_error l i = Some a -> nth_error l j = Some b ->
  nth_error (set_nth (set_nth l i b) j a) x = nth_error l (sw i j x).
Proof.
  intros Ei Ej. unfold sw. assert (Li : (i < length l)%nat) by (apply nth_error_Some; congruence). assert (Lj : (j < length l)%nat) by (apply nth_error_Some; congruence).
  destruct (Nat.eqb_spec x i) as [->|Ni].
  - destruct (Nat.eq_dec i j) as [->|Nij].
    + rewrite nth_error_set_nth_same by (rewrite length_set_nth; exact Lj). congruence.
    + rewrite nth_error_set_nth_other by congruence. rewrite nth_error_set_nth_same by exact Li. congruence.
  - destruct (Nat.eqb_spec x j) as [->|Nj].
    + rewrite nth_error_set_nth_same by (rewrite length_set_nth; exact Lj). congruence.
    + rewrite !nth_error_set_nth_other by congruence. reflexivity.
Qed.
Lemma F2_by_nth {A B} (R : A -> B -> Prop) l l' : length l = length l' ->
  (forall i a b, nth_error l i = Some a -> nth_error l' i = Some b -> R a b) -> Forall2 R l l'.
Proof.
  revert l'. induction l as [|a l IH]; intros [|b l'] L H; try discriminate; constructor; [apply (H O); reflexivity|].
  apply IH; [injection L; auto|]. intros i. apply (H (S i)).
Qed.
Lemma exchange_In {A} (l : list A) i j a b x : nth_error l i = Some a -> nth_error l j = Some b ->
  (In x (set_nth (set_nth l i b) j a) <-> In x l).
Proof.
  intros Ei Ej. split; intros I; apply In_nth_error in I; destruct I as [y E].
  - rewrite (nth_exchange l i j a b y Ei Ej) in E. eapply nth_error_In; eauto.
  - apply (nth_error_In _ (sw i j y)). rewrite (nth_exchange l i j a b _ Ei Ej). rewrite <- E. f_equal.
    unfold sw. destruct (Nat.eqb_spec y i) as [->|N1].
    + destruct (Nat.eqb_spec j i) as [->|]; [reflexivity|]. rewrite Nat.eqb_refl. reflexivity.
    + destruct (Nat.eqb_spec y j) as [->|N2]; [rewrite Nat.eqb_refl; reflexivity|].
      destruct (Nat.eqb_spec y i); [contradiction|]. destruct (Nat.eqb_spec y j); [contradiction|]. reflexivity.
Qed.
Lemma exchange_ok mach s vs i j v v' : inv s vs -> nth_error vs i = Some v -> nth_error vs j = Some v' ->
  exists s', exec1 mach s (Exchange i j) = Ok s' /\ inv s' (set_nth (set_nth vs i v') j v).
Proof.
  intros ((Vs & Gs & Ps) & Lk & Nu) Ei Ej. destruct s as [m vars]. cbn [s_mem s_vars] in *.
  destruct (F2_nth_value _ _ _ _ _ Vs Ei) as (n & En & Ev). destruct (F2_nth_value _ _ _ _ _ Vs Ej) as (n2 & En2 & Ev2).
  cbn [exec1 s_mem s_vars]. rewrite En, En2. cbn [deref obind]. eexists. split; [reflexivity|]. unfold inv. cbn [s_mem s_vars].
  split; [split; [|split]|split].
  - apply F2_by_nth; [rewrite !length_set_nth; eapply F2_len; eauto|]. intros x a b Ea Eb.
    rewrite (nth_exchange vars i j n n2 x En En2) in Ea. rewrite (nth_exchange vs i j v v' x Ei Ej) in Eb. exact (F2_nth _ _ _ _ _ _ Vs Ea Eb).
  - apply Forall_forall. intros x I. apply (exchange_In vars i j n n2 x En En2) in I. rewrite Forall_forall in Gs. apply Gs. exact I.
  - intros x y a b N Ea Eb. rewrite (nth_exchange vars i j n n2 x En En2) in Ea. rewrite (nth_exchange vars i j n n2 y En En2) in Eb. exact (Ps _ _ a b (sw_inj i j x y N) Ea Eb).
  - intros b L. destruct (Lk b L) as (c & I & O). exists c. split; [|exact O]. apply (exchange_In vars i j n n2 c En En2). exact I.
  - apply Forall_forall. intros x I. apply (exchange_In vs i j v v' x Ei Ej) in I. rewrite Forall_forall in Nu. apply Nu. exact I.
Qed.
Lemma set_nth_twice {A} (l : list A) i x y : set_nth (set_nth l i x) i y = set_nth l i y.
Proof. revert i. induction l as [|z l IH]; intros [|i]; cbn; [reflexivity..|]. f_equal. apply IH. Qed.
Lemma move_ok mach s vs i j v v' : inv s vs -> i <> j -> nth_error vs i = Some v -> nth_error vs j = Some v' ->
  exists s', exec1 mach s (Move i j) = Ok s' /\ inv s' (set_nth (set_nth vs i v') j none).
Proof.
  intros I N Ei Ej.
  destruct (do_ok mach s vs i [] AReset v none none I Ei eq_refl) as (s1 & E1 & I1); [constructor; constructor|].
  destruct (exchange_ok mach s1 (set_nth vs i none) i j none v' I1) as (s2 & E2 & I2).
  { apply nth_error_set_nth_same. apply nth_error_Some. congruence. }
  { rewrite nth_error_set_nth_other by exact N. exact Ej. }
  rewrite set_nth_twice in I2. exists s2. split; [|exact I2]. clear I I1 I2 Ej.
  cbn [exec1 arg_of at_path act_fun] in *. destruct (nth_error (s_vars s) i) as [a|] eqn:Ea; [|discriminate]. cbn [deref obind] in *.
  destruct (nreset (s_mem s) a) as [[m' a']| | |]; try discriminate. cbn [obind] in *. injection E1 as <-. cbn [s_vars s_mem] in *.
  rewrite nth_error_set_nth_same in E2 by (apply nth_error_Some; congruence). cbn [deref obind] in E2.
  exact E2.
Qed.

(** ---- programs ---- *)
Lemma exec_ok mach vs l vs' : meaning mach vs l vs' -> forall s, inv s vs -> exists s', exec mach s l = Ok s' /\ inv s' vs'.
Proof.
  induction 1 as [vs|vs c vs1 l vs2 M1 M IH]; intros s I; cbn [exec]; [eauto|].
  assert (X : exists s1, exec1 mach s c = Ok s1 /\ inv s1 vs1).
  { destruct M1; [eapply do_ok; eauto|eapply exchange_ok; eauto|eapply move_ok; eauto]. }
  destruct X as (s1 & -> & I1). cbn [obind]. apply IH. exact I1.
Qed.
Lemma nodup_owned m vars : Forall (good m) vars -> pair_apart vars -> NoDup (concat (map owned_blocks vars)).
Proof.
  induction vars as [|n vars IH]; intros G P; cbn [map concat]; [constructor|]. inversion_clear G as [|? ? Gn Gr].
  assert (D : forall b, In b (owned_blocks n) -> ~ In b (concat (map owned_blocks vars))).
  { intros b I J. apply in_concat in J. destruct J as (l & J & K). apply in_map_iff in J. destruct J as (c & <- & J).
    apply In_nth_error in J. destruct J as [i E]. destruct (P O (S i) n c ltac:(lia) eq_refl E) as (_ & _ & P3). exact (P3 b I K). }
  assert (N1 : NoDup (owned_blocks n)) by (apply good_owned in Gn; apply Gn).
  assert (N2 : NoDup (concat (map owned_blocks vars))).
  { apply IH; [exact Gr|]. intros i j a b N Ei Ej. apply (P (S i) (S j) a b); auto. }
  clear -D N1 N2. induction (owned_blocks n) as [|x l IHl]; cbn [app]; [exact N2|]. inversion_clear N1 as [|? ? Nx Nl]. constructor.
  - intros I. apply in_app_iff in I. destruct I as [I|I]; [contradiction|]. apply (D x); [left; reflexivity|exact I].
  - apply IHl; [|exact Nl]. intros b I. apply D. right. exact I.
Qed.
Lemma owned_all vars b : OK_ vars b <-> In b (concat (map owned_blocks vars)).
Proof.
  unfold OK_, ob. rewrite in_concat. split.
  - intros (c & I & J). exists (owned_blocks c). split; [apply in_map; exact I|exact J].
  - intros (l & I & J). apply in_map_iff in I. destruct I as (c & <- & I). exists c. auto.
Qed.
Lemma destroy_ok vars : forall m vs, sibs m vars vs -> (forall b, live m b -> OK_ vars b) ->
  exists m', destroy m vars = Ok m' /\ forall b, ~ live m' b.
Proof.
  induction vars as [|n vars IH]; intros m vs S L; cbn [destroy].
  - exists m. split; [reflexivity|]. intros b X. destruct (OK_nil b (L b X)).
  - destruct vs as [|v vs]; [destruct S as (F & _); inversion F|].
    assert (G : good m n) by (destruct S as (_ & Gs & _); inversion Gs; assumption).
    destruct (nfree_ok m n (good_owned _ _ G)) as (m1 & E & _). rewrite E. cbn [obind].
    destruct (sibs_erase m [] n vars [] v vs m1 S eq_refl E) as [S1 St]. cbn [app] in S1, St.
    apply (IH m1 vs S1). eapply live_step; eauto.
Qed.
Lemma programs_ok mach k l vs : meaning mach (repeat none k) l vs ->
  exists s, exec mach (start k) l = Ok s /\ Forall2 (fun n v => nvalue (s_mem s) n = Ok v) (s_vars s) vs /\
    NoDup (concat (map owned_blocks (s_vars s))) /\
    (forall b, live (s_mem s) b <-> In b (concat (map owned_blocks (s_vars s)))) /\
    exists m', destroy (s_mem s) (s_vars s) = Ok m' /\ forall b, ~ live m' b.
Proof.
  intros M. destruct (exec_ok mach _ _ _ M (start k) (inv_start k)) as (s & E & (Sb & L & _)). exists s. split; [exact E|].
  pose proof Sb as (V & G & P). split; [exact V|]. split; [eapply nodup_owned; eauto|]. split; [|eapply destroy_ok; eauto].
  intros b. rewrite <- owned_all. split; [apply L|]. intros (c & I & O). eapply good_live; [|exact O]. rewrite Forall_forall in G. apply G. exact I.
Qed.
