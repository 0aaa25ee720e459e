(** Facts behind P_Hist.v. *)
From Verif Require Import Base DType SpecTree Mem MemFacts Node SpecNode NodeFacts NodeCompact NodeSet NodeEndian NodeUpdate NodeMerge NodeAlloc NodeSerial SchemaLayout SchemaMore SaveFacts NodeHist HistSpec.
Local Open Scope Z_scope.

Lemma upd_trans m a v1 m1 a1 v2 m2 a2 : upd m a v1 m1 a1 -> upd m1 a1 v2 m2 a2 -> upd m a v2 m2 a2.
Proof. intros (_ & _ & S1) (V & G & S2). split; [exact V|]. split; [exact G|]. eapply step_trans; eauto. Qed.
(** A source that shares nothing with a node stays apart from what the node becomes. *)
Definition beside (s n : node) : Prop := forall q, touches s q -> ~ touches n q /\ ~ ob n (fst q).
Lemma beside_keep m n m' n' v' s sv : nvalue m s = Ok sv -> beside s n -> upd m n v' m' n' ->
  nvalue m' s = Ok sv /\ beside s n'.
Proof.
  intros E B (_ & _ & S).
  assert (Lt : forall q, touches s q -> (fst q < length m)%nat) by (intros q T; apply rd_lt; eapply nvalue_readable; eauto).
  split.
  - apply (nvalue_frame s m m' sv E). intros q T. destruct (B q T). apply (st_frame _ _ _ _ _ _ S); auto.
  - intros q T. specialize (Lt q T). destruct (B q T) as [D1 D2]. split; intros X.
    + destruct (st_touch _ _ _ _ _ _ S q X); [contradiction|lia].
    + destruct (st_owned _ _ _ _ _ _ S _ X); [contradiction|lia].
Qed.

(** ---- reset, init ---- *)
Definition bare (n : node) : Prop :=
  match n with NLeaf h d => h_own h = false /\ d = dt_empty | NObj h es => h_own h = false /\ es = [] | NLst h ks => h_own h = false /\ ks = [] end.
Definition bare_value (n : node) : value := match n with NLeaf _ _ => none | NObj _ _ => TObj [] | NLst _ _ => TList [] end.
Lemma bare_facts m n : bare n -> nvalue m n = Ok (bare_value n) /\ good m n /\ (forall q, ~ touches n q) /\ (forall b, ~ ob n b).
Proof.
  destruct n as [h d|h es|h ks]; intros [H ->]; (split; [reflexivity|]); (split; [|split]).
  - cbn [good]. split; [apply hok_false; exact H|]. split; [auto|]. split; [reflexivity|]. split; [left; cbn; lia|].
    unfold hlive. rewrite (own_ptr_false h H). constructor.
  - intros q T. apply touches_leaf in T. destruct T as (p & i & j & _ & X & _). cbn in X. lia.
  - intros b. unfold ob, owned_blocks. cbn. tauto.
  - apply good_obj. split; [apply hok_false; exact H|]. unfold hlive, hfree. rewrite (own_ptr_false h H).
    split; [constructor|]. split; [intros c b []|]. split; [intros [|i] j a b _ X; discriminate|constructor].
  - intros q T. inversion T.
  - intros b. unfold ob, owned_blocks. cbn [owns flat_map]. rewrite (own_ptr_false h H). cbn. tauto.
  - apply good_lst. split; [apply hok_false; exact H|]. unfold hlive, hfree. rewrite (own_ptr_false h H).
    split; [constructor|]. split; [intros c b []|]. split; [intros [|i] j a b _ X; discriminate|constructor].
  - intros q T. inversion T.
  - intros b. unfold ob, owned_blocks. cbn [owns flat_map]. rewrite (own_ptr_false h H). cbn. tauto.
Qed.
Lemma upd_freed m n n' : good m n -> bare n' ->
  exists m', nfree m n = Ok m' /\ upd m n (bare_value n') m' n'.
Proof.
  intros G B. destruct (nfree_ok m n (good_owned _ _ G)) as (m' & E & Fr). exists m'. split; [exact E|].
  destruct (bare_facts m' n' B) as (V & G' & T & O). split; [exact V|]. split; [exact G'|].
  apply (step_ext _ _ _ _ _ _ _ _ _ _ (free_step m n m' G E Fr)); try reflexivity; intros x; split; intros X.
  - destruct (T x X). - destruct (TK_nil x X). - destruct (O x X). - destruct (OK_nil x X).
Qed.
Lemma own_rel m n : good m n -> h_own (rel_hdr n) = false.
Proof. intros G. apply tidy_rel, (good_tidy _ _ G). Qed.
Lemma reset_ok m n : good m n -> exists m' n', nreset m n = Ok (m', n') /\ upd m n none m' n'.
Proof.
  intros G. destruct (upd_freed m n (NLeaf (rel_hdr n) dt_empty) G) as (m' & E & U).
  { split; [eapply own_rel; eauto|reflexivity]. }
  unfold nreset. rewrite E. cbn [obind]. eauto.
Qed.
Lemma init_obj_ok m n v : good m n -> nvalue m n = Ok v ->
  exists m' h es, ninit m n dt_object = Ok (m', NObj h es) /\ upd m n (TObj (tentries v)) m' (NObj h es).
Proof.
  intros G E. unfold ninit. destruct (dt_compatible (n_dtype n) dt_object) eqn:C.
  - assert (X : exists h es, n = NObj h es).
    { destruct n as [h d|h es|h ks]; [|eauto|discriminate]. exfalso. apply nvalue_leaf in E. destruct E as (lv & _ & E).
      cbn [n_dtype] in C. unfold leaf_value in E. unfold dt_compatible in C. destruct (dt_id d); try discriminate C; discriminate E. }
    destruct X as (h & es & ->). exists m, h, es. split; [reflexivity|]. apply upd_same; [exact G|].
    pose proof E as E0. apply nvalue_obj in E0. destruct E0 as (vs & -> & _). exact E.
  - assert (X : tentries v = []).
    { destruct n as [h d|h es|h ks]; [| |].
      - apply nvalue_leaf in E. destruct E as (lv & -> & _). reflexivity.
      - discriminate C.
      - apply nvalue_lst in E. destruct E as (lv & -> & _). reflexivity. }
    rewrite X. cbn [dt_id dt_object]. destruct (upd_freed m n (NObj (rel_hdr n) []) G) as (m' & E' & U).
    { split; [eapply own_rel; eauto|reflexivity]. }
    rewrite E'. cbn [obind]. exists m', (rel_hdr n), []. split; [reflexivity|exact U].
Qed.
Lemma init_lst_ok m n v : good m n -> nvalue m n = Ok v ->
  exists m' h ks, ninit m n dt_list = Ok (m', NLst h ks) /\ upd m n (TList (vitems v)) m' (NLst h ks).
Proof.
  intros G E. unfold ninit. destruct (dt_compatible (n_dtype n) dt_list) eqn:C.
  - assert (X : exists h es, n = NLst h es).
    { destruct n as [h d|h es|h ks]; [|discriminate|eauto]. exfalso. apply nvalue_leaf in E. destruct E as (lv & _ & E).
      cbn [n_dtype] in C. unfold leaf_value in E. unfold dt_compatible in C. destruct (dt_id d); try discriminate C; discriminate E. }
    destruct X as (h & es & ->). exists m, h, es. split; [reflexivity|]. apply upd_same; [exact G|].
    pose proof E as E0. apply nvalue_lst in E0. destruct E0 as (vs & -> & _). exact E.
  - assert (X : vitems v = []).
    { destruct n as [h d|h es|h ks]; [| |].
      - apply nvalue_leaf in E. destruct E as (lv & -> & _). reflexivity.
      - apply nvalue_obj in E. destruct E as (lv & -> & _). reflexivity.
      - discriminate C. }
    rewrite X. cbn [dt_id dt_list]. destruct (upd_freed m n (NLst (rel_hdr n) []) G) as (m' & E' & U).
    { split; [eapply own_rel; eauto|reflexivity]. }
    rewrite E'. cbn [obind]. exists m', (rel_hdr n), []. split; [reflexivity|exact U].
Qed.

(** ---- a child changes ---- *)
Lemma obj_parts m h es vs : good m (NObj h es) -> nvalue m (NObj h es) = Ok (TObj vs) ->
  hok h /\ hlive m h /\ hfree h (map snd es) /\ map fst es = map fst vs /\ sibs m (map snd es) (map snd vs).
Proof.
  intros G E. destruct (nvalue_kind_obj m _ _ h es E eq_refl G) as (dvs & -> & N & S & A & B & C & _). cbn [tentries] in *. auto.
Qed.
Lemma lst_parts m h ks vs : good m (NLst h ks) -> nvalue m (NLst h ks) = Ok (TList vs) -> sibs m ks vs.
Proof.
  intros G E. apply nvalue_lst in E. destruct E as (vs' & X & E). injection X as <-. apply good_lst in G.
  destruct G as (_ & _ & _ & P & G). split; [exact E|]. split; assumption.
Qed.
Lemma upd_obj_kids m h (es : list (str * node)) (vs' : list (str * value)) m' (es' : list (str * node)) :
  good m (NObj h es) -> sibs m' (map snd es') (map snd vs') -> map fst es' = map fst vs' ->
  step m (TK (map snd es)) (OK_ (map snd es)) m' (TK (map snd es')) (OK_ (map snd es')) ->
  upd m (NObj h es) (TObj vs') m' (NObj h es').
Proof.
  intros G S N St. apply good_obj in G. destruct G as (A & B & C & _).
  apply (upd_obj m (NObj h es) h es vs' m' es' A B C); auto; [intros q; apply TK_obj|intros b; apply ob_obj].
Qed.
Lemma upd_lst_kids m h ks vs' m' ks' :
  good m (NLst h ks) -> sibs m' ks' vs' -> step m (TK ks) (OK_ ks) m' (TK ks') (OK_ ks') ->
  upd m (NLst h ks) (TList vs') m' (NLst h ks').
Proof.
  intros G S St. apply good_lst in G. destruct G as (A & B & C & _).
  apply (upd_lst m (NLst h ks) h ks vs' m' ks' A B C); auto; [intros q; apply touches_lst|intros b; apply ob_lst].
Qed.
Lemma set_nth_map {A B} (f : A -> B) l i x : map f (set_nth l i x) = set_nth (map f l) i (f x).
Proof. revert i. induction l as [|y l IH]; intros [|i]; cbn; [reflexivity..|]. f_equal. apply IH. Qed.
Lemma mset_new {A} (l : list (str * A)) k x : mget l k = None -> mset l k x = l ++ [(k, x)].
Proof.
  induction l as [|[k' y] l IH]; cbn; [reflexivity|]. destruct (str_eqb k k'); [discriminate|]. intros H. f_equal. auto.
Qed.

(** ---- calls at a path ---- *)
Definition acts (f : mem -> node -> outcome (mem * node)) (src : node) (sv : value) (R : value -> value -> Prop) : Prop :=
  forall m n v v', R v v' -> good m n -> nvalue m n = Ok v -> nvalue m src = Ok sv -> beside src n ->
    exists m' n', f m n = Ok (m', n') /\ upd m n v' m' n'.
Lemma beside_kid src h es c : beside src (NObj h es) -> In c (map snd es) -> beside src c.
Proof.
  intros B I q T. destruct (B q T) as [B1 B2]. split; intros X.
  - apply B1. apply TK_obj. exists c. auto.
  - apply B2. apply ob_obj. left. exists c. auto.
Qed.
Lemma beside_kid_lst src h ks c : beside src (NLst h ks) -> In c ks -> beside src c.
Proof.
  intros B I q T. destruct (B q T) as [B1 B2]. split; intros X.
  - apply B1. apply touches_lst. exists c. auto.
  - apply B2. apply ob_lst. left. exists c. auto.
Qed.
Lemma beside_nempty src : beside src nempty.
Proof. intros q T. split; [apply touches_nempty|intros []]. Qed.
Lemma good_kid m h es c : good m (NObj h es) -> In c (map snd es) -> good m c.
Proof. intros G I. apply good_obj in G. destruct G as (_ & _ & _ & _ & G). rewrite Forall_forall in G. auto. Qed.
Lemma good_kid_lst m h ks c : good m (NLst h ks) -> In c ks -> good m c.
Proof. intros G I. apply good_lst in G. destruct G as (_ & _ & _ & _ & G). rewrite Forall_forall in G. auto. Qed.
Lemma at_path_ok f src sv R : acts f src sv R -> forall p, acts (fun m n => at_path f m n p) src sv (vat R p).
Proof.
  intros F p. induction p as [|s p IH]; intros m n v v' X G E Es B; inversion X; subst; cbn [at_path].
  - eapply F; eauto.
  - match goal with H : vat R p _ _ |- _ => rename H into Hc end. destruct (init_obj_ok m n v G E) as (m1 & h & es & E1 & U1). rewrite E1. cbn [obind].
    destruct (beside_keep _ _ _ _ _ _ _ Es B U1) as [Es1 B1]. pose proof U1 as (V1 & G1 & _).
    destruct (obj_parts m1 h es (tentries v) G1 V1) as (_ & _ & _ & N & Sb).
    destruct (mset_pos es k (tentries v) N) as [(i & d & w & A1 & A2 & A3 & A4 & A5 & A6)|(A1 & A2 & A3 & A4)];
      unfold child_or_new; rewrite A1; rewrite A2 in Hc.
    + pose proof (nth_error_In _ _ A3) as I3.
      destruct (IH m1 d w c' Hc) as (m2 & c2 & E2 & U2).
      { eapply good_kid; eauto. } { destruct Sb as (V & _). exact (F2_nth _ _ _ _ _ _ V A3 A4). } { exact Es1. } { eapply beside_kid; eauto. }
      rewrite E2. cbn [obind]. eexists _, _. split; [reflexivity|]. eapply upd_trans; [exact U1|].
      destruct (sibs_set _ _ _ i _ _ _ _ Sb A3 U2) as [Sb2 S2]. apply upd_obj_kids; auto.
      * rewrite A5, A6. exact Sb2.
      * apply mset_names. exact N.
      * rewrite A5. exact S2.
    + destruct (IH m1 nempty none c' Hc) as (m2 & c2 & E2 & U2).
      { apply good_nempty. } { reflexivity. } { exact Es1. } { apply beside_nempty. }
      rewrite E2. cbn [obind]. eexists _, _. split; [reflexivity|]. eapply upd_trans; [exact U1|].
      destruct (sibs_snoc _ _ _ _ _ _ Sb U2) as [Sb2 S2]. apply upd_obj_kids; auto.
      * rewrite A3, A4, !map_app. exact Sb2.
      * apply mset_names. exact N.
      * rewrite A3, map_app. exact S2.
  - match goal with H : vat R p _ _ |- _ => rename H into Hc end. destruct (init_lst_ok m n v G E) as (m1 & h & ks & E1 & U1). rewrite E1. cbn [obind].
    destruct (beside_keep _ _ _ _ _ _ _ Es B U1) as [Es1 B1]. pose proof U1 as (V1 & G1 & _).
    pose proof (lst_parts m1 h ks _ G1 V1) as Sb.
    destruct (IH m1 nempty none c' Hc) as (m2 & c2 & E2 & U2).
    { apply good_nempty. } { reflexivity. } { exact Es1. } { apply beside_nempty. }
    rewrite E2. cbn [obind]. eexists _, _. split; [reflexivity|]. eapply upd_trans; [exact U1|].
    destruct (sibs_snoc _ _ _ _ _ _ Sb U2) as [Sb2 S2]. apply upd_lst_kids; auto.
  - match goal with H : vat R p _ _ |- _ => rename H into Hc end. match goal with H : nth_error _ i = Some _ |- _ => rename H into Hi end. destruct n as [h d|h ks|h ks].
    { apply nvalue_leaf in E. destruct E as (lv & Y & _). discriminate. }
    2:{ apply nvalue_lst in E. destruct E as (lv & Y & _). discriminate. }
    destruct (obj_parts m h ks es G E) as (_ & _ & _ & N & Sb).
    assert (Y : exists c0, nth_error ks i = Some (k, c0)).
    { assert (L : nth_error (map fst ks) i = Some k) by (rewrite N; rewrite nth_error_map, Hi; reflexivity).
      rewrite nth_error_map in L. destruct (nth_error ks i) as [[k0 c0]|]; [|discriminate]. injection L as ->. eauto. }
    destruct Y as (c0 & Y). rewrite Y.
    assert (Y1 : nth_error (map snd ks) i = Some c0) by (rewrite nth_error_map, Y; reflexivity).
    assert (Y2 : nth_error (map snd es) i = Some c) by (rewrite nth_error_map, Hi; reflexivity).
    pose proof (nth_error_In _ _ Y1) as I1.
    destruct (IH m c0 c c' Hc) as (m2 & c2 & E2 & U2).
    { eapply good_kid; eauto. } { destruct Sb as (V & _). exact (F2_nth _ _ _ _ _ _ V Y1 Y2). } { exact Es. } { eapply beside_kid; eauto. }
    rewrite E2. cbn [obind]. eexists _, _. split; [reflexivity|].
    destruct (sibs_set _ _ _ i _ _ _ _ Sb Y1 U2) as [Sb2 S2]. apply upd_obj_kids; auto.
    + rewrite !set_nth_map. exact Sb2.
    + rewrite !set_nth_map. cbn [fst]. rewrite N. reflexivity.
    + rewrite set_nth_map. exact S2.
  - match goal with H : vat R p _ _ |- _ => rename H into Hc end. match goal with H : nth_error _ i = Some _ |- _ => rename H into Hi end. destruct n as [h d|h ks|h ks].
    { apply nvalue_leaf in E. destruct E as (lv & Y & _). discriminate. }
    { apply nvalue_obj in E. destruct E as (lv & Y & _). discriminate. }
    pose proof (lst_parts m h ks ts G E) as Sb.
    assert (Y : exists c0, nth_error ks i = Some c0).
    { destruct (nth_error ks i) eqn:Q; [eauto|]. apply nth_error_None in Q. destruct Sb as (V & _). apply F2_len in V.
      assert (i < length ts)%nat by (apply nth_error_Some; congruence). lia. }
    destruct Y as (c0 & Y). rewrite Y. pose proof (nth_error_In _ _ Y) as I1.
    destruct (IH m c0 c c' Hc) as (m2 & c2 & E2 & U2).
    { eapply good_kid_lst; eauto. } { destruct Sb as (V & _). exact (F2_nth _ _ _ _ _ _ V Y Hi). } { exact Es. } { eapply beside_kid_lst; eauto. }
    rewrite E2. cbn [obind]. eexists _, _. split; [reflexivity|].
    destruct (sibs_set _ _ _ i _ _ _ _ Sb Y U2) as [Sb2 S2]. apply upd_lst_kids; auto.
Qed.

(** ---- set ---- *)
Lemma nset_ks_ok sks : Forall (fun s => forall m dest sv, good m dest -> nvalue m s = Ok sv -> (forall q, touches s q -> ~ ob dest (fst q)) ->
    exists m' dest', nset m dest s = Ok (m', dest') /\ upd m dest sv m' dest') sks ->
  forall m pre pvs svs, sibs m pre pvs -> Forall2 (fun n v => nvalue m n = Ok v) sks svs ->
  (forall c q, In c sks -> touches c q -> ~ TK pre q /\ ~ OK_ pre (fst q)) ->
  exists m' ks', nset_ks m sks = Ok (m', ks') /\ sibs m' (pre ++ ks') (pvs ++ svs) /\
    step m (TK pre) (OK_ pre) m' (TK (pre ++ ks')) (OK_ (pre ++ ks')).
Proof.
  induction 1 as [|s sks Hs _ IH]; intros m pre pvs svs Sb Vs Dj; inversion Vs as [|? sv ? svs' Ev Vr]; subst; cbn [nset_ks].
  { exists m, []. rewrite !app_nil_r. split; [reflexivity|]. split; [exact Sb|]. apply step_refl.
    intros b (c & I & O). eapply good_live; [|exact O]. destruct Sb as (_ & G & _). rewrite Forall_forall in G. apply G. exact I. }
  destruct (Hs m nempty sv (good_nempty m) Ev) as (m1 & c' & E1 & U); [intros q _ []|].
  rewrite E1. cbn [obind]. destruct (sibs_snoc _ _ _ _ _ _ Sb U) as [Sb1 S1].
  destruct (IH m1 (pre ++ [c']) (pvs ++ [sv]) svs' Sb1) as (m2 & ks' & E2 & Sb2 & S2).
  - clear -Vr S1 Dj. induction Vr as [|x y l l' H _ IHv]; constructor.
    + eapply (src_keep m _ m1 _ x); [exact H|exact S1|]. intros q. apply Dj. right. left. reflexivity.
    + apply IHv. intros c q [I|I]; [apply Dj; left; exact I|apply Dj; right; right; exact I].
  - intros c q I T.
    assert (Ex : exists sv0, nvalue m c = Ok sv0).
    { clear -Vr I. induction Vr as [|x y l l' H _ IHv]; [destruct I|]. destruct I as [<-|I]; [eauto|apply IHv; exact I]. }
    destruct Ex as [sv0 Ec]. apply (src_keep m _ m1 _ c sv0 Ec S1); [|exact T]. intros q'. apply Dj. right. exact I.
  - rewrite E2. cbn [obind]. eexists _, _. split; [reflexivity|]. rewrite <- !app_assoc in Sb2. cbn [app] in Sb2.
    rewrite <- !app_assoc in S2. cbn [app] in S2. split; [exact Sb2|]. eapply step_trans; eauto.
Qed.
Lemma nset_es_ks m es : nset_es m es = do (m', ks) <- nset_ks m (map snd es); Ok (m', combine (map fst es) ks).
Proof.
  revert m. induction es as [|[k c] es IH]; intros m; cbn [nset_es nset_ks map fst snd]; [reflexivity|].
  destruct (nset m nempty c) as [[m1 c1]| | |]; cbn [obind]; try reflexivity. rewrite IH.
  destruct (nset_ks m1 (map snd es)) as [[m2 ks]| | |]; reflexivity.
Qed.
Lemma map_fst_combine {A B} (a : list A) (b : list B) : length a = length b -> map fst (combine a b) = a.
Proof. revert b. induction a as [|x a IH]; intros [|y b] L; try discriminate; [reflexivity|]. cbn. f_equal. apply IH. injection L; auto. Qed.
Lemma map_snd_combine {A B} (a : list A) (b : list B) : length a = length b -> map snd (combine a b) = b.
Proof. revert b. induction a as [|x a IH]; intros [|y b] L; try discriminate; [reflexivity|]. cbn. f_equal. apply IH. injection L; auto. Qed.
Lemma nset_upd src : forall m dest sv, good m dest -> nvalue m src = Ok sv -> (forall q, touches src q -> ~ ob dest (fst q)) ->
  exists m' dest', nset m dest src = Ok (m', dest') /\ upd m dest sv m' dest'.
Proof.
  induction src as [h d|h es IH|h ks IH] using node_ind'; intros m dest sv G E Ap.
  - cbn [nset]. destruct (is_empty d) eqn:Em.
    + apply nvalue_leaf in E. destruct E as (lv & -> & E). unfold is_empty in Em. apply tid_eqb_eq in Em.
      rewrite leaf_value_empty in E by exact Em. injection E as <-. apply reset_ok. exact G.
    + apply upd_compact; auto.
  - rewrite nset_obj. destruct (reset_ok m dest G) as (m1 & n1 & E1 & U1). rewrite E1. cbn [obind]. rewrite nset_es_ks.
    apply nvalue_obj in E. destruct E as (vs & -> & E).
    assert (Es : Forall2 (fun n v => nvalue m1 n = Ok v) (map snd es) (map snd vs)).
    { assert (K : forall c w, In c (map snd es) -> nvalue m c = Ok w -> nvalue m1 c = Ok w).
      { intros c w I Ec. apply (nvalue_frame c m m1 w Ec). intros q T. destruct U1 as (_ & _ & S1).
        assert (Tn : touches (NObj h es) q) by (apply TK_obj; exists c; auto).
        assert (Lt : (fst q < length m)%nat) by (apply rd_lt; eapply nvalue_readable; eauto).
        unfold nreset in E1. destruct (nfree_ok m dest (good_owned _ _ G)) as (m1' & E1' & Fr). rewrite E1' in E1. cbn [obind] in E1.
        injection E1 as -> _. rewrite (freed_rd _ _ _ _ Fr). destruct (in_dec Nat.eq_dec (fst q) (owned_blocks dest)) as [J|J]; [|reflexivity].
        destruct (Ap q Tn J). }
      clear -E K. induction E as [|e ev l l' [_ X] _ IHl]; cbn [map]; constructor.
      - apply K; [left; reflexivity|exact X]. - apply IHl. intros c w I. apply K. right. exact I. }
    assert (N : map fst es = map fst vs). { clear -E. induction E as [|? ? ? ? [X _] _ IH]; cbn [map]; [reflexivity|]. f_equal; auto. }
    assert (IH' : Forall (fun s => forall m dest sv, good m dest -> nvalue m s = Ok sv -> (forall q, touches s q -> ~ ob dest (fst q)) ->
      exists m' dest', nset m dest s = Ok (m', dest') /\ upd m dest sv m' dest') (map snd es)) by (rewrite Forall_map; exact IH).
    destruct (nset_ks_ok _ IH' m1 [] [] (map snd vs) (sibs_nil m1) Es) as (m2 & ks' & E2 & Sb2 & S2).
    { intros c q _ _. split; [apply TK_nil|apply OK_nil]. }
    rewrite E2. cbn [obind]. eexists _, _. split; [reflexivity|].
    assert (Fn : n1 = NLeaf (rel_hdr dest) dt_empty).
    { unfold nreset in E1. destruct (nfree m dest); try discriminate. cbn [obind] in E1. injection E1 as _ <-. reflexivity. }
    subst n1. cbn [n_hdr app] in *. pose proof (own_rel m dest G) as Ow.
    assert (L : length (map fst es) = length ks').
    { destruct Sb2 as (V & _). apply F2_len in V. rewrite V, !map_length. rewrite <- (map_length fst es), N, map_length. reflexivity. }
    assert (B1 : bare (NObj (rel_hdr dest) [])) by (split; [exact Ow|reflexivity]).
    destruct (upd_freed m dest (NObj (rel_hdr dest) []) G B1) as (m1' & E1' & U1').
    assert (m1' = m1) as ->. { unfold nreset in E1. rewrite E1' in E1. cbn [obind] in E1. injection E1 as ->. reflexivity. }
    eapply upd_trans; [exact U1'|]. apply upd_obj_kids.
    + apply U1'.
    + rewrite map_snd_combine by exact L. exact Sb2.
    + rewrite map_fst_combine by exact L. exact N.
    + rewrite map_snd_combine by exact L. exact S2.
  - rewrite nset_lst. destruct (reset_ok m dest G) as (m1 & n1 & E1 & U1). rewrite E1. cbn [obind].
    apply nvalue_lst in E. destruct E as (vs & -> & E).
    assert (Es : Forall2 (fun n v => nvalue m1 n = Ok v) ks vs).
    { assert (K : forall c w, In c ks -> nvalue m c = Ok w -> nvalue m1 c = Ok w).
      { intros c w I Ec. apply (nvalue_frame c m m1 w Ec). intros q T. destruct U1 as (_ & _ & S1).
        assert (Tn : touches (NLst h ks) q) by (apply touches_lst; exists c; auto).
        unfold nreset in E1. destruct (nfree_ok m dest (good_owned _ _ G)) as (m1' & E1' & Fr). rewrite E1' in E1. cbn [obind] in E1.
        injection E1 as -> _. rewrite (freed_rd _ _ _ _ Fr). destruct (in_dec Nat.eq_dec (fst q) (owned_blocks dest)) as [J|J]; [|reflexivity].
        destruct (Ap q Tn J). }
      clear -E K. induction E as [|e ev l l' X _ IHl]; cbn [map]; constructor.
      - apply K; [left; reflexivity|exact X]. - apply IHl. intros c w I. apply K. right. exact I. }
    destruct (nset_ks_ok _ IH m1 [] [] vs (sibs_nil m1) Es) as (m2 & ks' & E2 & Sb2 & S2).
    { intros c q _ _. split; [apply TK_nil|apply OK_nil]. }
    rewrite E2. cbn [obind]. eexists _, _. split; [reflexivity|].
    assert (Fn : n1 = NLeaf (rel_hdr dest) dt_empty).
    { unfold nreset in E1. destruct (nfree m dest); try discriminate. cbn [obind] in E1. injection E1 as _ <-. reflexivity. }
    subst n1. cbn [n_hdr app] in *. pose proof (own_rel m dest G) as Ow.
    assert (B1 : bare (NLst (rel_hdr dest) [])) by (split; [exact Ow|reflexivity]).
    destruct (upd_freed m dest (NLst (rel_hdr dest) []) G B1) as (m1' & E1' & U1').
    assert (m1' = m1) as ->. { unfold nreset in E1. rewrite E1' in E1. cbn [obind] in E1. injection E1 as ->. reflexivity. }
    eapply upd_trans; [exact U1'|]. apply upd_lst_kids; [apply U1'|exact Sb2|exact S2].
Qed.

(** ---- update, endian ---- *)
Lemma upd_in_place m n m' n' v' : good m n -> same_shape m m' -> (forall q, ~ touches n q -> rd m' q = rd m q) ->
  good m' n' -> (forall q, touches n' q <-> touches n q) -> (forall b, ob n' b <-> ob n b) -> nvalue m' n' = Ok v' ->
  upd m n v' m' n'.
Proof.
  intros G Sh F G' T O V. split; [exact V|]. split; [exact G'|]. pose proof (proj1 Sh) as Len. constructor.
  - lia.
  - intros q X. left. apply T. exact X.
  - intros b X. left. apply O. exact X.
  - intros q _ _ N. apply F. exact N.
  - intros b L _. apply (same_shape_live m m' b Sh). exact L.
  - intros b _ L. apply (same_shape_live m m' b Sh). exact L.
  - intros b L [X|X]; [apply O; exact X|]. apply live_lt in L. lia.
Qed.
Lemma take_upd m n src v sv : good m n -> nvalue m n = Ok v -> nvalue m src = Ok sv -> beside src n ->
  exists m', nupdate_compatible m n src = Ok m' /\ upd m n (vtake v sv) m' n.
Proof.
  intros G E Es B. pose proof (proj2 (healthy_good m n) G) as (_ & _ & Sp & Std & _).
  destruct (update_compatible_law m n src v sv E Es Sp Std) as (m' & E' & V & _ & F & Sh).
  { intros q T T'. destruct (B q T'). contradiction. }
  exists m'. split; [exact E'|]. apply upd_in_place; auto; try reflexivity.
  apply (good_keep m m' n G). intros b _. apply (same_shape_live m m' b Sh).
Qed.

(** ---- compact_to of a whole tree ---- *)
Definition inb lo hi d := forall i b, occupies d i b -> lo <= b < hi.
Definition tiled (l : list dtype) (lo hi : Z) : Prop :=
  Forall laid_out l /\
  ForallOrdPairs (fun d e => forall i j b, occupies d i b -> ~ occupies e j b) l /\
  Forall (fun d => forall i j b, occupies d i b -> occupies d j b -> i = j) l /\
  Forall (inb lo hi) l.
Lemma tiled_nil lo hi : tiled [] lo hi.
Proof. repeat split; constructor. Qed.
Lemma tiled_app l1 l2 lo mid hi : lo <= mid -> mid <= hi -> tiled l1 lo mid -> tiled l2 mid hi -> tiled (l1 ++ l2) lo hi.
Proof.
  intros L1 L2 (A1 & B1 & C1 & D1) (A2 & B2 & C2 & D2). split; [apply Forall_app; auto|]. split; [|split].
  - apply FOP_app. split; [exact B1|]. split; [exact B2|]. intros x y Ix Iy i j b Ox Oy. rewrite Forall_forall in D1, D2.
    pose proof (D1 x Ix i b Ox). pose proof (D2 y Iy j b Oy). lia.
  - apply Forall_app; auto.
  - apply Forall_app. split; [eapply Forall_impl; [|exact D1]|eapply Forall_impl; [|exact D2]]; intros d H i b O; specialize (H i b O); lia.
Qed.
Lemma tcompact_tiled t : counts t -> Forall leaf_like (tleaves t) -> forall off, 0 <= off ->
  tiled (tleaves (tcompact t off)) off (off + ttotal t).
Proof.
  induction t as [d|es IH|ks IH] using tree_ind'; intros C K off O.
  - cbn [tcompact tleaves]. rewrite ttotal_leaf. unfold leaf_compact. inversion_clear C as [|? ? C1 _]. inversion_clear K as [|? ? K1 _].
    destruct (is_empty d) eqn:E.
    + assert (Z : forall i b, ~ occupies dt_empty i b) by (intros i b [H _]; cbn in H; lia).
      split; [repeat constructor|]. split; [repeat constructor|]. split; (constructor; [|constructor]); [intros i j b X; destruct (Z _ _ X)|intros i b X; destruct (Z _ _ X)].
    + assert (Ne : dt_id d <> EMPTY) by (intros X; unfold is_empty in E; rewrite X in E; discriminate).
      destruct C1 as [C1|C1]; [|contradiction]. pose proof (default_bytes_pos d Ne K1) as P. unfold tiled, inb, occupies, laid_out, std_leaf. cbn [dt_id dt_n dt_off dt_stride dt_ebytes].
      split; [|split; [|split]].
      * constructor; [|constructor]. right. cbn [dt_id dt_n dt_off dt_stride dt_ebytes]. unfold leaf_like in K1.
        split; [exact Ne|]. split; [intros X; rewrite X in K1; discriminate|]. split; [intros X; rewrite X in K1; discriminate|]. repeat split; lia.
      * repeat constructor.
      * constructor; [|constructor]. cbn [dt_id dt_n dt_off dt_stride dt_ebytes]. intros i j b H1 H2. nia.
      * constructor; [|constructor]. cbn [dt_id dt_n dt_off dt_stride dt_ebytes]. intros i b H. nia.
  - rewrite tcompact_obj, ttotal_tobj. cbn [tleaves]. unfold counts in C. cbn [tleaves] in C, K. revert off O.
    induction es as [|[k c] es IHes]; intros off O; [apply tiled_nil|]. inversion_clear IH as [|? ? I1 I2]. cbn [flat_map snd] in C, K.
    apply Forall_app in C, K. destruct C as [C1 C2], K as [K1 K2]. cbn [cthread_es flat_map map fold_right snd] in *.
    pose proof (ttotal_counts c C1) as N1.
    assert (N2 : 0 <= fold_right Z.add 0 (map (fun e => ttotal (snd e)) es)) by (rewrite <- ttotal_tobj; apply ttotal_counts; exact C2).
    apply (tiled_app _ _ _ (off + ttotal c)); [lia|lia|apply I1; auto|]. rewrite Z.add_assoc. apply IHes; auto. lia.
  - rewrite tcompact_lst, ttotal_tlst. cbn [tleaves]. unfold counts in C. cbn [tleaves] in C, K. revert off O.
    induction ks as [|c ks IHes]; intros off O; [apply tiled_nil|]. inversion_clear IH as [|? ? I1 I2]. cbn [flat_map] in C, K.
    apply Forall_app in C, K. destruct C as [C1 C2], K as [K1 K2]. cbn [cthread_ts flat_map map fold_right] in *.
    pose proof (ttotal_counts c C1) as N1.
    assert (N2 : 0 <= fold_right Z.add 0 (map ttotal ks)) by (rewrite <- ttotal_tlst; apply ttotal_counts; exact C2).
    apply (tiled_app _ _ _ (off + ttotal c)); [lia|lia|apply I1; auto|]. rewrite Z.add_assoc. apply IHes; auto. lia.
Qed.
Lemma separate_walk_any t data own : Forall laid_out (tleaves t) -> disjoint_leaves t -> separate (walk t data own).
Proof.
  intros L D. destruct data as [p|]; [apply separate_walk; assumption|]. pose proof (separate_walk t (O, 0) own L D) as [_ B].
  unfold separate in *. rewrite nleaves_walk in *. split.
  - clear B D L. induction (tleaves t) as [|d l IH]; cbn [map]; constructor; [|exact IH]. apply Forall_forall.
    intros x I q [(p & i & j & X & _) _]. discriminate.
  - rewrite Forall_map in *. exact B.
Qed.
Lemma compact_upd m dest src v : good m dest -> nvalue m src = Ok v -> (forall q, touches src q -> ~ ob dest (fst q)) ->
  exists m' dest', ncompact_to m src dest = Ok (m', dest') /\ upd m dest v m' dest'.
Proof.
  intros G E Ap.
  destruct (ncompact_ok m src dest v (good_owned _ _ G) E Ap) as (m' & dest' & R & C).
  exists m', dest'. split; [exact R|]. destruct C as [C1 C2 C3 C4 C5 C6 C7 C8].
  assert (W : exists data own, dest' = walk (tcompact (nschema src) 0) data own).
  { unfold ncompact_to in R. destruct (nreset m dest) as [[m1 d1]| | |]; try discriminate. cbn [obind] in R.
    match type of R with obind ?x _ = _ => destruct x as [[m2 h]| | |] end; try discriminate. cbn [obind] in R.
    match type of R with obind ?x _ = _ => destruct x as [m3| | |] end; try discriminate. cbn [obind] in R. injection R as _ <-. eauto. }
  specialize (C7 (good_tidy _ _ G)). specialize (C8 (good_tidy _ _ G)).
  split; [exact C1|].
  assert (Lv : forall b, ob dest' b -> b = length m /\ live m' b).
  { intros b I. unfold ob, owned_blocks in I. rewrite C7 in I.
    destruct (Z.ltb_spec 0 (ttotal (nschema src))) as [Pos|]; [|destruct I]. destruct I as [<-|[]]. split; [reflexivity|].
    destruct (C6 Pos) as (l & X & _). exists l. exact X. }
  pose proof (nvalue_leaves src m v E) as Ct. pose proof (nvalue_leaf_like src m v E) as Kk.
  destruct (tcompact_tiled (nschema src) Ct Kk 0 ltac:(lia)) as (T1 & T2 & T3 & _).
  split.
  - apply healthy_good. split; [|split; [exact C8|]].
    + split; unfold owned_blocks; rewrite C7; destruct (Z.ltb_spec 0 (ttotal (nschema src))) as [Pos|_];
        repeat constructor; [|intros []]. destruct (C6 Pos) as (l & X & _). exists l. exact X.
    + destruct W as (data & own & ->). split; [apply separate_walk_any; [exact T1|split; assumption]|].
      split; [rewrite nschema_walk; apply compact_std; assumption|apply private_walk].
  - destruct C3 as [L X]. constructor.
    + exact L.
    + intros q T. right. destruct (C5 q T) as [-> _]. lia.
    + intros b O. right. destruct (Lv b O) as [-> _]. lia.
    + intros q H1 H2 _. apply (extends_rd m m' (owned_blocks dest) q (conj L X) H1 H2).
    + intros b H1 H2. apply (extends_live m m' (owned_blocks dest) b (conj L X) H1 H2).
    + intros b H1 [l H2]. rewrite X in H2 by exact H1. destruct (in_dec Nat.eq_dec b (owned_blocks dest)); [discriminate|]. exists l. exact H2.
    + intros b H1 [O|F].
      * assert (b < length m)%nat by (apply live_lt; eapply good_live; eauto).
        destruct H1 as [l H2]. rewrite X in H2 by assumption. destruct (in_dec Nat.eq_dec b (owned_blocks dest)); [discriminate|]. contradiction.
      * apply live_lt in H1. rewrite C4 in H1. unfold ob, owned_blocks. rewrite C7.
        destruct (0 <? ttotal (nschema src)); [left; cbn [fst]; lia|lia].
Qed.

(** ---- set(schema) and set(schema, ptr) ---- *)
Lemma schema_upd m dest t : good m dest -> usable t ->
  exists m' dest', nset_schema m dest t = Ok (m', dest') /\ upd m dest (tmap leaf_zero t) m' dest'.
Proof.
  intros G (L & D & _ & S & R). apply healthy_good in G.
  destruct (set_schema_law m dest t G L S R) as (m' & dest' & E & _ & V & _ & St & H).
  exists m', dest'. split; [exact E|]. split; [exact V|]. split; [apply healthy_good, H, D|].
  eapply step_wider; [exact St|]. intros q [].
Qed.
Lemma leaf_view_data bytes d : is_data (dt_id d) = true ->
  leaf_view bytes d = Some (dt_id d, dt_endian d,
    map (fun i => firstn (Z.to_nat (default_bytes (dt_id d))) (skipn (Z.to_nat (eaddr d i)) bytes)) (zseq (dt_n d))).
Proof. unfold leaf_view. destruct (dt_id d); reflexivity || discriminate. Qed.
Lemma sub_firstn {A} (l : list A) n a k : (a + k <= n)%nat -> firstn k (skipn a (firstn n l)) = firstn k (skipn a l).
Proof. intros H. rewrite skipn_firstn_comm, firstn_firstn. f_equal. lia. Qed.
Lemma value_view m b bytes t : forall own, nth_error m b = Some (Some (firstn (Z.to_nat (tspanned t)) bytes)) ->
  tspanned t <= Z.of_nat (length bytes) ->
  Forall laid_out (tleaves t) -> nvalue m (walk t (Some (b, 0)) own) = Ok (tmap (leaf_view bytes) t).
Proof.
  intros own E Len L. set (tot := tspanned t) in *.
  assert (X : forall d, In d (tleaves t) -> laid_out d /\ (forall i j, 0 <= i < dt_n d -> 0 <= j < default_bytes (dt_id d) -> 0 <= eaddr d i + j < tot)).
  { intros d I. rewrite Forall_forall in L. split; [apply L; exact I|]. intros i j. apply occ_in_bounds; auto. }
  clearbody tot. clear L. revert own. induction t as [d|es IH|ts IH] using tree_ind''; intros own; cbn [walk tmap].
  - apply nvalue_leaf. eexists. split; [reflexivity|]. cbn [h_data]. destruct (X d ltac:(left; reflexivity)) as [L B].
    destruct (laid_out_spec d L) as [Em|(Da & P & Q & R & S)].
    { unfold leaf_view. rewrite Em. apply leaf_value_empty; exact Em. }
    pose proof (is_data_pos _ Da) as Pos. rewrite (leaf_view_data bytes d Da).
    apply leaf_value_data; [exact Da|exact P|]. split; [rewrite map_length; unfold zseq; rewrite map_length, seq_length; lia|].
    intros i Hi. eexists. split.
    { rewrite nth_error_map. unfold zseq. rewrite nth_error_map. rewrite nth_error_seq by lia. cbn [option_map]. reflexivity. }
    unfold leaf_elem. cbn [opadd option_map oload].
    pose proof (B i 0 Hi ltac:(lia)). pose proof (B i (default_bytes (dt_id d) - 1) Hi ltac:(lia)).
    unfold load. destruct (Z.eqb_spec (default_bytes (dt_id d)) 0) as [Z0|_]; [lia|]. cbn [padd fst snd]. unfold mem, block in *. rewrite E.
    rewrite firstn_length_le by lia.
    replace ((0 <=? 0 + eaddr d i) && (0 <=? default_bytes (dt_id d)) && (0 + eaddr d i + default_bytes (dt_id d) <=? Z.of_nat (Z.to_nat tot))) with true by lia.
    f_equal. unfold sub_range. rewrite sub_firstn by lia. rewrite Nat.add_0_l, Z2Nat.id by lia. f_equal. 
  - apply nvalue_obj. eexists. split; [reflexivity|]. rewrite Forall_forall in IH. 
    assert (Y : forall e, In e es -> forall own, nvalue m (walk (snd e) (Some (b, 0)) own) = Ok (tmap (leaf_view bytes) (snd e))).
    { intros e I. apply IH; [exact I|]. intros d J. apply X. cbn [tleaves]. apply in_flat_map. exists e. split; assumption. }
    clear IH X. induction es as [|e es IHe]; cbn [map]; constructor.
    + split; [reflexivity|]. apply Y. left; reflexivity.
    + apply IHe. intros x I. apply Y. right; exact I.
  - apply nvalue_lst. eexists. split; [reflexivity|]. rewrite Forall_forall in IH.
    assert (Y : forall e, In e ts -> forall own, nvalue m (walk e (Some (b, 0)) own) = Ok (tmap (leaf_view bytes) e)).
    { intros e I. apply IH; [exact I|]. intros d J. apply X. cbn [tleaves]. apply in_flat_map. exists e. split; assumption. }
    clear IH X. induction ts as [|e es IHe]; cbn [map]; constructor.
    + apply Y. left; reflexivity.
    + apply IHe. intros x I. apply Y. right; exact I.
Qed.
(** Writing into memory that only the node sees. *)
Lemma upd_write m n v m1 n1 m2 v2 : upd m n v m1 n1 -> same_shape m1 m2 ->
  (forall q, (fst q < length m)%nat -> rd m2 q = rd m1 q) -> nvalue m2 n1 = Ok v2 -> upd m n v2 m2 n1.
Proof.
  intros (_ & G & [A B C D E F H]) Sh Fr V. pose proof (proj1 Sh) as Len. split; [exact V|]. split.
  - apply (good_keep m1 m2 n1 G). intros b _. apply (same_shape_live m1 m2 b Sh).
  - constructor; auto; try lia.
    + intros q H1 H2 H3. rewrite Fr by exact H1. apply D; assumption.
    + intros b H1 H2. apply (same_shape_live m1 m2 b Sh). auto.
    + intros b H1 H2. apply (same_shape_live m1 m2 b Sh) in H2. auto.
    + intros b H1 H2. apply (same_shape_live m1 m2 b Sh) in H1. auto.
Qed.
Lemma data_upd m dest t bytes : good m dest -> usable t -> tspanned t <= Z.of_nat (length bytes) ->
  exists m' dest', nset_data m dest t bytes = Ok (m', dest') /\ upd m dest (tmap (leaf_view bytes) t) m' dest'.
Proof.
  intros G U Len. pose proof (schema_upd m dest t G U) as (m2 & d2 & E2 & U2). destruct U as (L & D & _ & S & R).
  unfold nset_data. unfold nset_schema in E2. destruct (nfree_ok m dest (good_owned _ _ G)) as (m1 & E1 & Fr). rewrite E1 in *. cbn [obind] in *.
  unfold nalloc in *. rewrite alloc_ok in * by exact S. cbn [obind h_data h_own] in *. injection E2 as <- <-.
  replace (Z.of_nat (length bytes) <? tspanned t) with false by lia. cbn [ostore].
  set (blk := firstn (Z.to_nat (tspanned t)) bytes).
  assert (Lb : length blk = Z.to_nat (tspanned t)) by (unfold blk; rewrite firstn_length_le; lia).
  assert (St := store_fresh m1 (repeat zero_byte (Z.to_nat (tspanned t))) blk ltac:(rewrite repeat_length; exact Lb)).
  match goal with |- context [obind ?x _] => replace x with (@Ok mem (m1 ++ [Some blk])) by (symmetry; exact St) end.
  cbn [obind]. eexists _, _. split; [reflexivity|]. eapply upd_write; [exact U2| | |].
  - eapply store_same_shape. exact St.
  - intros q H. destruct Fr as [Ln _]. unfold rd. rewrite !nth_error_app1 by lia. reflexivity.
  - apply value_view; [|exact Len|exact L]. rewrite nth_error_app2 by lia. rewrite Nat.sub_diag. reflexivity.
Qed.

(** ---- endian_swap ---- *)
Lemma nset_endian_owns n e : owns (nset_endian n e) = owns n.
Proof.
  induction n as [h d|h es IH|h ks IH] using node_ind'; cbn [nset_endian owns]; [reflexivity| |]; f_equal;
    rewrite !flat_map_concat_map, map_map; f_equal; apply map_ext_in; intros c I; rewrite Forall_forall in IH; apply (IH c I).
Qed.
Lemma ob_set_endian n e b : ob (nset_endian n e) b <-> ob n b.
Proof. unfold ob, owned_blocks. rewrite nset_endian_owns. reflexivity. Qed.
Lemma pair_apart_map f ns : (forall c, In c ns -> (forall q, touches (f c) q <-> touches c q) /\ (forall b, ob (f c) b <-> ob c b)) ->
  pair_apart ns -> pair_apart (map f ns).
Proof.
  intros H P i j a b N Ei Ej. rewrite nth_error_map in Ei, Ej.
  destruct (nth_error ns i) as [a0|] eqn:Ea; [|discriminate]. destruct (nth_error ns j) as [b0|] eqn:Eb; [|discriminate].
  injection Ei as <-. injection Ej as <-. destruct (P i j a0 b0 N Ea Eb) as (P1 & P2 & P3).
  destruct (H a0 (nth_error_In _ _ Ea)) as [Ha Oa]. destruct (H b0 (nth_error_In _ _ Eb)) as [Hb Ob].
  split; [intros q T T'; apply (P1 q); [apply Ha|apply Hb]; assumption|].
  split; [intros q T T'; apply (P2 q); [apply Ha|apply Ob]; assumption|].
  intros x T T'; apply (P3 x); [apply Oa|apply Ob]; assumption.
Qed.
Lemma good_set_endian m n e : good m n -> good m (nset_endian n e).
Proof.
  induction n as [h d|h es IH|h ks IH] using node_ind'; intros G; cbn [nset_endian].
  - exact G.
  - apply good_obj in G. destruct G as (A & B & C & D & F). apply good_obj. rewrite map_map. cbn [snd].
    rewrite <- (map_map snd (fun c => nset_endian c e)). split; [exact A|]. split; [exact B|]. split; [|split].
    + intros c b I O. apply in_map_iff in I. destruct I as (c0 & <- & I). apply ob_set_endian in O. apply (C c0 b I O).
    + apply pair_apart_map; [|exact D]. intros c _. split; intros; [apply touches_set_endian|apply ob_set_endian].
    + rewrite Forall_map in *. rewrite Forall_map. rewrite Forall_forall in *. intros x I. apply (IH x I). apply F. exact I.
  - apply good_lst in G. destruct G as (A & B & C & D & F). apply good_lst.
    split; [exact A|]. split; [exact B|]. split; [|split].
    + intros c b I O. apply in_map_iff in I. destruct I as (c0 & <- & I). apply ob_set_endian in O. apply (C c0 b I O).
    + apply pair_apart_map; [|exact D]. intros c _. split; intros; [apply touches_set_endian|apply ob_set_endian].
    + rewrite Forall_map. rewrite Forall_forall in *. intros x I. apply (IH x I). apply F. exact I.
Qed.
Lemma endian_upd mach e m n v : good m n -> nvalue m n = Ok v ->
  exists m' n', nendian_swap mach m n e = Ok (m', n') /\ upd m n (tmap (swap_leafval mach e) v) m' n'.
Proof.
  intros G E. pose proof (proj1 (good_flat m n) G) as (_ & _ & Sp & _).
  destruct (nendian_ok mach e n m v E Sp) as (m' & n' & E' & -> & Sh & F & V).
  eexists _, _. split; [exact E'|]. apply upd_in_place; auto.
  - apply good_set_endian. apply (good_keep m m' n G). intros b _. apply (same_shape_live m m' b Sh).
  - intros q. apply touches_set_endian.
  - intros b. apply ob_set_endian.
Qed.

(** ---- removing a child ---- *)
Lemma set_nth_mid {A} (a : list A) x b y : set_nth (a ++ x :: b) (length a) y = a ++ y :: b.
Proof. induction a as [|z a IH]; cbn; [reflexivity|]. f_equal. exact IH. Qed.
Lemma erase_nth_mid {A} (a : list A) x b : erase_nth (a ++ x :: b) (length a) = a ++ b.
Proof. induction a as [|z a IH]; cbn; [reflexivity|]. f_equal. exact IH. Qed.
Lemma nth_error_mid {A} (a : list A) x b : nth_error (a ++ x :: b) (length a) = Some x.
Proof. rewrite nth_error_app2, Nat.sub_diag by lia. reflexivity. Qed.
Definition skip_at (n i : nat) : nat := if Nat.ltb i n then i else S i.
Lemma nth_error_drop {A} (a : list A) x b i : nth_error (a ++ b) i = nth_error (a ++ x :: b) (skip_at (length a) i).
Proof.
  unfold skip_at. destruct (Nat.ltb_spec i (length a)) as [H|H].
  - rewrite !nth_error_app1 by exact H. reflexivity.
  - rewrite !nth_error_app2 by lia. replace (S i - length a)%nat with (S (i - length a)) by lia. reflexivity.
Qed.
Lemma F2_app_len {A B} (R : A -> B -> Prop) a b va vb : Forall2 R (a ++ b) (va ++ vb) -> length a = length va ->
  Forall2 R a va /\ Forall2 R b vb.
Proof.
  revert va. induction a as [|x a IH]; intros [|y va] F L; try discriminate; [split; [constructor|exact F]|].
  cbn [app] in F. inversion F; subst. destruct (IH va) as [P Q]; auto.
Qed.
(** A child that is freed and forgotten. *)
Lemma sibs_erase m a c b va vc vb m1 : sibs m (a ++ c :: b) (va ++ vc :: vb) -> length a = length va -> nfree m c = Ok m1 ->
  sibs m1 (a ++ b) (va ++ vb) /\ step m (TK (a ++ c :: b)) (OK_ (a ++ c :: b)) m1 (TK (a ++ b)) (OK_ (a ++ b)).
Proof.
  intros S Len E.
  assert (G : good m c). { destruct S as (_ & G & _). rewrite Forall_forall in G. apply G. apply in_elt. }
  destruct (upd_freed m c nempty G ltac:(split; reflexivity)) as (m1' & E' & U). rewrite E in E'. injection E' as <-.
  destruct (sibs_set m _ _ (length a) c none m1 nempty S (nth_error_mid _ _ _) U) as [S1 St].
  rewrite set_nth_mid in S1, St. rewrite Len, set_nth_mid in S1. destruct S1 as (V1 & G1 & P1). split; [split; [|split]|].
  - apply F2_app_len in V1; [|exact Len]. destruct V1 as [F1 F2]. inversion F2; subst. apply Forall2_app; assumption.
  - apply Forall_app in G1. destruct G1 as [Ga Gb]. inversion Gb; subst. apply Forall_app. auto.
  - intros i j x y N Ei Ej. rewrite (nth_error_drop a nempty b) in Ei, Ej. refine (P1 _ _ x y _ Ei Ej).
    unfold skip_at. destruct (Nat.ltb_spec i (length a)), (Nat.ltb_spec j (length a)); lia.
  - apply (step_ext _ _ _ _ _ _ _ _ _ _ St); try reflexivity; intros x; unfold TK, OK_; split; intros (y & I & T); exists y; (split; [|exact T]);
      apply in_app_iff in I; apply in_app_iff; destruct I as [I|I]; auto.
    + right; right; exact I.
    + destruct I as [<-|I]; [destruct (touches_nempty _ T)|auto].
    + right; right; exact I.
    + destruct I as [<-|I]; [destruct T|auto].
Qed.
Lemma remove_obj_upd m h a k c b va kv vc vb : good m (NObj h (a ++ (k, c) :: b)) ->
  nvalue m (NObj h (a ++ (k, c) :: b)) = Ok (TObj (va ++ (kv, vc) :: vb)) -> length a = length va ->
  exists m1, nfree m c = Ok m1 /\ upd m (NObj h (a ++ (k, c) :: b)) (TObj (va ++ vb)) m1 (NObj h (a ++ b)).
Proof.
  intros G E Len. destruct (obj_parts m h _ _ G E) as (_ & _ & _ & N & S). rewrite !map_app in S, N. cbn [map snd fst] in S, N.
  assert (Gc : good m c). { destruct S as (_ & Gs & _). rewrite Forall_forall in Gs. apply Gs. apply in_elt. }
  destruct (nfree_ok m c (good_owned _ _ Gc)) as (m1 & E1 & _). exists m1. split; [exact E1|].
  destruct (sibs_erase m _ c _ _ vc _ m1 S) as [S1 St]; [rewrite !map_length; exact Len|exact E1|].
  apply upd_obj_kids.
  - exact G.
  - rewrite !map_app. exact S1.
  - rewrite !map_app. assert (X : map fst a = map fst va /\ map fst ((k, c) :: b) = map fst ((kv, vc) :: vb)).
    { cbn [map fst]. clear -N Len. revert va N Len. induction a as [|[x y] a IH]; intros [|[x' y'] va] N Len; try discriminate; [split; [reflexivity|exact N]|].
      cbn in N. injection N as -> N. destruct (IH va N) as [P Q]; [injection Len; auto|]. split; [cbn; f_equal; exact P|exact Q]. }
    destruct X as [-> X]. cbn [map fst] in X. injection X as _ ->. reflexivity.
  - rewrite !map_app. cbn [map snd]. exact St.
Qed.
Lemma remove_lst_upd m h a c b va vc vb : good m (NLst h (a ++ c :: b)) ->
  nvalue m (NLst h (a ++ c :: b)) = Ok (TList (va ++ vc :: vb)) -> length a = length va ->
  exists m1, nfree m c = Ok m1 /\ upd m (NLst h (a ++ c :: b)) (TList (va ++ vb)) m1 (NLst h (a ++ b)).
Proof.
  intros G E Len. pose proof (lst_parts m h _ _ G E) as S.
  assert (Gc : good m c). { destruct S as (_ & Gs & _). rewrite Forall_forall in Gs. apply Gs. apply in_elt. }
  destruct (nfree_ok m c (good_owned _ _ Gc)) as (m1 & E1 & _). exists m1. split; [exact E1|].
  destruct (sibs_erase m _ c _ _ vc _ m1 S Len E1) as [S1 St]. apply upd_lst_kids; auto.
Qed.
Lemma position_app k a b : ~ In k a -> position k (a ++ k :: b) = Some (length a).
Proof.
  induction a as [|x a IH]; intros N; cbn [position app length].
  - rewrite str_eqb_refl. reflexivity.
  - destruct (str_eqb x k) eqn:E; [apply str_eqb_eq in E; subst; destruct N; left; reflexivity|]. rewrite IH; [reflexivity|]. intros I. apply N. right. exact I.
Qed.
Lemma cut_at {A B} (R : A -> B -> Prop) l va vc vb : Forall2 R l (va ++ vc :: vb) ->
  exists a c b, l = a ++ c :: b /\ length a = length va /\ R c vc /\ Forall2 R a va /\ Forall2 R b vb.
Proof.
  revert l. induction va as [|x va IH]; intros l F; cbn [app] in F; inversion F as [|y ? l' ? H F']; subst.
  - exists [], y, l'. repeat split; auto.
  - destruct (IH l' F') as (a & c & b & -> & L & H1 & H2 & H3). exists (y :: a), c, b. cbn. repeat split; auto.
Qed.
Lemma remove_at_upd m n v v' i : good m n -> nvalue m n = Ok v ->
  (exists va e vb, v = TObj (va ++ e :: vb) /\ v' = TObj (va ++ vb) /\ i = length va) \/
  (exists va e vb, v = TList (va ++ e :: vb) /\ v' = TList (va ++ vb) /\ i = length va) ->
  exists m' n', nremove_at m n i = Ok (m', n') /\ upd m n v' m' n'.
Proof.
  intros G E [(va & [kv vc] & vb & -> & -> & ->)|(va & vc & vb & -> & -> & ->)].
  - destruct n as [h d|h es|h ks].
    + apply nvalue_leaf in E. destruct E as (? & X & _). discriminate.
    + pose proof E as E0. apply nvalue_obj in E. destruct E as (vs & X & F). injection X as <-.
      destruct (cut_at _ _ _ _ _ F) as (a & [k c] & b & -> & Len & _). cbn [nremove_at]. rewrite <- Len, nth_error_mid.
      destruct (remove_obj_upd m h a k c b va kv vc vb G E0 Len) as (m1 & E1 & U). rewrite E1. cbn [obind]. rewrite erase_nth_mid. eauto.
    + apply nvalue_lst in E. destruct E as (? & X & _). discriminate.
  - destruct n as [h d|h es|h ks].
    + apply nvalue_leaf in E. destruct E as (? & X & _). discriminate.
    + apply nvalue_obj in E. destruct E as (? & X & _). discriminate.
    + pose proof E as E0. apply nvalue_lst in E. destruct E as (vs & X & F). injection X as <-.
      destruct (cut_at _ _ _ _ _ F) as (a & c & b & -> & Len & _). cbn [nremove_at]. rewrite <- Len, nth_error_mid.
      destruct (remove_lst_upd m h a c b va vc vb G E0 Len) as (m1 & E1 & U). rewrite E1. cbn [obind]. rewrite erase_nth_mid. eauto.
Qed.

(** ---- every call ---- *)
Lemma act_ok mach a src sv : names_unique sv -> acts (act_fun mach a src) src sv (effect mach sv a).
Proof.
  intros Nu m n v v' R G E Es B. destruct R; cbn [act_fun].
  - apply nset_upd; auto. intros x T. apply B. exact T.
  - apply compact_upd; auto. intros x T. apply B. exact T.
  - apply (nupdate_ok src); auto.
  - destruct (take_upd m n src v sv G E Es B) as (m' & E' & U). rewrite E'. cbn [obind]. eauto.
  - apply data_upd; auto.
  - apply schema_upd; auto.
  - apply reset_ok; auto.
  - apply endian_upd; auto.
  - destruct n as [h d|h es|h ks].
    + apply nvalue_leaf in E. destruct E as (? & X & _). discriminate.
    + pose proof E as E0. apply nvalue_obj in E. destruct E as (vs & X & F). injection X as <-.
      assert (N : map fst es = map fst a ++ k :: map fst b).
      { destruct (obj_parts m h _ _ G E0) as (_ & _ & _ & N & _). rewrite N, map_app. reflexivity. }
      unfold nremove_child. rewrite N, position_app by assumption. rewrite map_length.
      apply (remove_at_upd m (NObj h es) _ _ _ G E0). left. exists a, (k, c), b. auto.
    + apply nvalue_lst in E. destruct E as (? & X & _). discriminate.
  - apply (remove_at_upd m n _ _ _ G E). left. exists a, e, b. auto.
  - apply (remove_at_upd m n _ _ _ G E). right. exists a, c, b. auto.
Qed.
