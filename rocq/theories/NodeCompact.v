(** compact_to, set, set_external and serialization of nodes. *)
From Verif Require Import Base DType SpecTree Mem MemFacts Node SpecNode NodeFacts.
Local Open Scope Z_scope.

Lemma total_of_app' a b : total_of (a ++ b) = total_of a + total_of b.
Proof. induction a as [|d a IH]; simpl; [reflexivity|]. rewrite IH. lia. Qed.

Lemma rd_off m p a b : a = b -> rd m (padd p a) <> None -> rd m (padd p b) <> None.
Proof. intros ->; exact (fun x => x). Qed.

(** Unfolded loops. *)
Fixpoint cthread_es (es : list (str * tree dtype)) (off : Z) : list (str * tree dtype) :=
  match es with [] => [] | (k, c) :: r => (k, tcompact c off) :: cthread_es r (off + ttotal c) end.
Fixpoint cthread_ts (ts : list (tree dtype)) (off : Z) : list (tree dtype) :=
  match ts with [] => [] | c :: r => tcompact c off :: cthread_ts r (off + ttotal c) end.
Lemma tcompact_obj es off : tcompact (TObj es) off = TObj (cthread_es es off).
Proof. reflexivity. Qed.
Lemma tcompact_lst ts off : tcompact (TList ts) off = TList (cthread_ts ts off).
Proof. reflexivity. Qed.
Fixpoint nwrite_es (m : mem) (es : list (str * node)) (data : option ptr) (off : Z) : outcome mem :=
  match es with
  | [] => Ok m
  | (_, c) :: r => do m' <- nwrite m c data off; nwrite_es m' r data (off + ttotal (nschema c))
  end.
Fixpoint nwrite_ks (m : mem) (ks : list node) (data : option ptr) (off : Z) : outcome mem :=
  match ks with
  | [] => Ok m
  | c :: r => do m' <- nwrite m c data off; nwrite_ks m' r data (off + ttotal (nschema c))
  end.
Lemma nwrite_obj m h es data off : nwrite m (NObj h es) data off = nwrite_es m es data off.
Proof.
  cbn [nwrite]. revert m off. induction es as [|[k c] es IH]; intros m off; [reflexivity|].
  cbn [nwrite_es]. destruct (nwrite m c data off); cbn [obind]; try reflexivity. apply IH.
Qed.
Lemma nwrite_lst m h ks data off : nwrite m (NLst h ks) data off = nwrite_ks m ks data off.
Proof.
  cbn [nwrite]. revert m off. induction ks as [|c ks IH]; intros m off; [reflexivity|].
  cbn [nwrite_ks]. destruct (nwrite m c data off); cbn [obind]; try reflexivity. apply IH.
Qed.

Definition ttotal_es (es : list (str * node)) : Z := total_of (flat_map (fun e => tleaves (nschema (snd e))) es).
Definition ttotal_ks (ks : list node) : Z := total_of (flat_map (fun c => tleaves (nschema c)) ks).
Lemma ttotal_obj h es : ttotal (nschema (NObj h es)) = ttotal_es es.
Proof.
  unfold ttotal, ttotal_es. cbn [nschema tleaves]. f_equal.
  induction es as [|[k c] es IH]; [reflexivity|]. cbn [map flat_map fst snd]. f_equal. exact IH.
Qed.
Lemma ttotal_lst h ks : ttotal (nschema (NLst h ks)) = ttotal_ks ks.
Proof.
  unfold ttotal, ttotal_ks. cbn [nschema tleaves]. f_equal.
  induction ks as [|c ks IH]; [reflexivity|]. cbn [map flat_map]. f_equal. exact IH.
Qed.
Lemma ttotal_es_cons k c r : ttotal_es ((k, c) :: r) = ttotal (nschema c) + ttotal_es r.
Proof. unfold ttotal_es. cbn [flat_map snd]. apply total_of_app'. Qed.
Lemma ttotal_ks_cons c r : ttotal_ks (c :: r) = ttotal (nschema c) + ttotal_ks r.
Proof. unfold ttotal_ks. cbn [flat_map]. apply total_of_app'. Qed.

(** ---- value of containers, element by element ---- *)
Lemma nvalue_obj m h es v : nvalue m (NObj h es) = Ok v <->
  exists vs, v = TObj vs /\ Forall2 (fun e ev => fst ev = fst e /\ nvalue m (snd e) = Ok (snd ev)) es vs.
Proof.
  cbn [nvalue]. split.
  - destruct (omapM (fun e => do v <- nvalue m (snd e); Ok (fst e, v)) es) as [vs| | |] eqn:Q; try discriminate.
    cbn [obind]. intros E. injection E as <-. exists vs. split; [reflexivity|].
    apply omapM_Ok in Q. induction Q as [|[k c] y l ys H Hr IH]; constructor; [|exact IH].
    simpl in *. destruct (nvalue m c); try discriminate. cbn [obind] in H. injection H as <-. auto.
  - intros (vs & -> & H).
    assert (Q : omapM (fun e => do v <- nvalue m (snd e); Ok (fst e, v)) es = Ok vs).
    { apply omapM_Ok. induction H as [|[k c] [k' y] l ys [A B] Hr IH]; constructor; [|exact IH].
      simpl in *. rewrite B. simpl. congruence. }
    rewrite Q. reflexivity.
Qed.
Lemma nvalue_lst m h ks v : nvalue m (NLst h ks) = Ok v <->
  exists vs, v = TList vs /\ Forall2 (fun c cv => nvalue m c = Ok cv) ks vs.
Proof.
  cbn [nvalue]. split.
  - destruct (omapM (nvalue m) ks) as [vs| | |] eqn:Q; try discriminate.
    cbn [obind]. intros E. injection E as <-. exists vs. split; [reflexivity|]. apply omapM_Ok. exact Q.
  - intros (vs & -> & H). apply omapM_Ok in H. rewrite H. reflexivity.
Qed.
Lemma nvalue_leaf m h d v : nvalue m (NLeaf h d) = Ok v <->
  exists lv, v = TLeaf lv /\ leaf_value m (h_data h) d = Ok lv.
Proof.
  cbn [nvalue]. split.
  - destruct (leaf_value m (h_data h) d); try discriminate. cbn [obind]. intros E; injection E as <-. eauto.
  - intros (lv & -> & ->). reflexivity.
Qed.

Lemma ttotal_nonneg n : forall m v, nvalue m n = Ok v -> 0 <= ttotal (nschema n).
Proof.
  induction n as [h d|h es IH|h ks IH] using node_ind'; intros m v E.
  - apply nvalue_leaf in E. destruct E as (lv & -> & E). unfold ttotal. cbn [nschema tleaves total_of].
    destruct (leaf_value_inv _ _ _ _ E) as [[T _]|(D & Hn & _)].
    + rewrite T. simpl. lia.
    + pose proof (is_data_pos _ D). nia.
  - rewrite ttotal_obj. apply nvalue_obj in E. destruct E as (vs & -> & E).
    clear -IH E. induction E as [|[k c] y l ys [A B] Hr IHe].
    + unfold ttotal_es; simpl; lia.
    + inversion IH as [|? ? Hc Hr']; subst. rewrite ttotal_es_cons.
      pose proof (Hc m (snd y) B). simpl in *. specialize (IHe Hr'). lia.
  - rewrite ttotal_lst. apply nvalue_lst in E. destruct E as (vs & -> & E).
    clear -IH E. induction E as [|c y l ys B Hr IHe].
    + unfold ttotal_ks; simpl; lia.
    + inversion IH as [|? ? Hc Hr']; subst. rewrite ttotal_ks_cons.
      pose proof (Hc m y B). simpl in *. specialize (IHe Hr'). lia.
Qed.

(** ---- private compact_to ---- *)
(** [tot] bytes from [data + off]. *)
Definition region (data : option ptr) (off tot : Z) (q : ptr) : Prop :=
  exists p j, data = Some p /\ off <= j < off + tot /\ q = padd p j.
Lemma region_in data off tot off' tot' q :
  off <= off' -> off' + tot' <= off + tot -> region data off' tot' q -> region data off tot q.
Proof. intros A B (p & j & E & H & ->). exists p, j. split; [exact E|]. split; [lia|reflexivity]. Qed.
Lemma region_disj data off1 tot1 off2 tot2 q :
  off1 + tot1 <= off2 -> region data off1 tot1 q -> ~ region data off2 tot2 q.
Proof.
  intros A (p & j & E & H & ->) (p' & j' & E' & H' & X). rewrite E in E'. injection E' as <-.
  apply padd_inj in X. lia.
Qed.
Definition writable (m : mem) (data : option ptr) (off tot : Z) : Prop :=
  forall j, off <= j < off + tot -> exists p, data = Some p /\ rd m (padd p j) <> None.
Lemma writable_shape m m' data off tot : same_shape m m' -> writable m data off tot -> writable m' data off tot.
Proof.
  intros S W j Hj. destruct (W j Hj) as (p & E & R). exists p. split; [exact E|].
  apply (same_shape_rd m m' _ S). exact R.
Qed.

(** What nwrite achieves at one node. *)
Definition nwrite_post (m : mem) (n : node) (v : tree leafval) (data : option ptr) (off : Z) (m' : mem) : Prop :=
  same_shape m m' /\
  (forall q, ~ region data off (ttotal (nschema n)) q -> rd m' q = rd m q) /\
  (forall m'' own, (forall q, region data off (ttotal (nschema n)) q -> rd m'' q = rd m' q) ->
     nvalue m'' (walk (tcompact (nschema n) off) data own) = Ok v).

Lemma leaf_write_ok m h d lv data off :
  leaf_value m (h_data h) d = Ok lv ->
  writable m data off (ttotal (TLeaf d)) ->
  (forall q, touches (NLeaf h d) q -> ~ region data off (ttotal (TLeaf d)) q) ->
  exists m', leaf_write m h d (opadd data off) = Ok m' /\ nwrite_post m (NLeaf h d) (TLeaf lv) data off m'.
Proof.
  intros E W Dj. unfold nwrite_post. cbn [nschema tcompact walk].
  assert (TT : ttotal (TLeaf d) = default_bytes (dt_id d) * dt_n d) by (unfold ttotal; simpl; lia).
  destruct (leaf_value_inv _ _ _ _ E) as [[T ->]|(D & Hn & es & -> & H)].
  - exists m. unfold leaf_write. rewrite T. split; [reflexivity|].
    split; [apply same_shape_refl|]. split; [reflexivity|].
    intros m'' own _. unfold leaf_compact, is_empty. rewrite T. cbn [tid_eqb]. reflexivity.
  - assert (LW : leaf_write m h d (opadd data off) =
            memcpy_strided m (opadd data off) (dt_n d) (default_bytes (dt_id d)) (default_bytes (dt_id d)) (elem0 h d) (dt_stride d))
      by (unfold leaf_write; destruct (dt_id d); try discriminate; reflexivity).
    rewrite LW. clear LW.
    pose proof (is_data_pos _ D) as Pos.
    set (db := default_bytes (dt_id d)) in *.
    assert (LC : leaf_compact d off = mkDT (dt_id d) (dt_n d) off db db (dt_endian d))
      by (unfold leaf_compact; rewrite (is_data_empty _ D); reflexivity).
    rewrite LC. clear LC.
    set (dc := mkDT (dt_id d) (dt_n d) off db db (dt_endian d)) in *.
    destruct (Z.eq_dec (dt_n d) 0) as [Z0|NZ].
    + rewrite Z0. rewrite memcpy_strided_zero. exists m. split; [reflexivity|].
      split; [apply same_shape_refl|]. split; [reflexivity|].
      intros m'' own _. apply nvalue_leaf. eexists. split; [reflexivity|].
      apply (leaf_value_data m'' data dc es D Hn).
      destruct H as [Hl _]. split; [exact Hl|]. cbn [dt_n dc]. intros i Hi; lia.
    + destruct (holds_rd m (h_data h) d es 0 0 D H ltac:(lia) ltac:(lia)) as (s & bs0 & Es & _).
      assert (Hr : 0 < db * dt_n d) by nia.
      destruct (W off ltac:(rewrite TT; lia)) as (p & Ep & _).
      rewrite Ep in *. unfold elem0. rewrite Es. cbn [opadd option_map].
      destruct (memcpy_strided_ok m (padd p off) (dt_n d) db db (padd s (eaddr d 0)) (dt_stride d))
        as (m' & Em & Sh & V & F).
      * exact Hn.
      * lia.
      * intros i Hi j Hj. rewrite !padd_padd.
        destruct (holds_rd m (h_data h) d es i j D H Hi Hj) as (s' & bs & Es' & _ & _ & _ & R).
        rewrite Es in Es'. injection Es' as <-. unfold eaddr in *.
        eapply rd_off; [|exact R]. lia.
      * intros i Hi j Hj. rewrite !padd_padd.
        destruct (W (off + db * i + j) ltac:(rewrite TT; nia)) as (p' & Ep' & R). injection Ep' as <-.
        eapply rd_off; [|exact R]. lia.
      * right. lia.
      * intros q (i & Hi & j & Hj & Eq) (i' & Hi' & j' & Hj' & Eq').
        apply (Dj q).
        -- apply touches_leaf. exists s, i', j'. simpl. split; [exact Es|]. split; [exact Hi'|]. split; [exact Hj'|].
           rewrite Eq'. rewrite !padd_padd. f_equal. unfold eaddr. lia.
        -- exists p, (off + db * i + j). split; [reflexivity|]. split; [rewrite TT; nia|].
           rewrite Eq. rewrite !padd_padd. f_equal. lia.
      * exists m'. split; [exact Em|]. split; [exact Sh|]. split.
        -- intros q Hq. apply F. intros X. apply Hq.
           apply in_elems_dense in X; [|lia|lia]. destruct X as (j & Hj & ->).
           exists p, (off + j). split; [reflexivity|]. split; [rewrite TT; lia|]. apply padd_padd.
        -- intros m'' own Fr. apply nvalue_leaf. eexists. split; [reflexivity|].
           apply (leaf_value_data m'' (Some p) dc es D Hn).
           apply (holds_move m m'' (h_data h) (Some p) d dc es eq_refl D eq_refl H).
           intros s' i j Es' Hi Hj. rewrite Es in Es'. injection Es' as <-. exists p. split; [reflexivity|].
           cbn [eaddr dt_off dt_stride dc]. unfold eaddr; cbn [dt_off dt_stride dc].
           rewrite Fr.
           ++ specialize (V i j Hi Hj). rewrite !padd_padd in V.
              replace (off + db * i + j) with (off + (db * i + j)) by lia. rewrite V. f_equal. f_equal.
              unfold eaddr. lia.
           ++ exists p, (off + db * i + j). split; [reflexivity|]. split; [rewrite TT; fold db; nia|reflexivity].
Qed.

Lemma nwrite_ok n : forall m v data off,
  nvalue m n = Ok v ->
  writable m data off (ttotal (nschema n)) ->
  (forall q, touches n q -> ~ region data off (ttotal (nschema n)) q) ->
  exists m', nwrite m n data off = Ok m' /\ nwrite_post m n v data off m'.
Proof.
  induction n as [h d|h es IH|h ks IH] using node_ind'; intros m v data off E W Dj.
  - apply nvalue_leaf in E. destruct E as (lv & -> & E). apply (leaf_write_ok m h d lv data off E W Dj).
  - rewrite nwrite_obj. unfold nwrite_post. rewrite ttotal_obj in *.
    apply nvalue_obj in E. destruct E as (vs & -> & E).
    assert (Dj' : forall k c q, In (k, c) es -> touches c q -> ~ region data off (ttotal_es es) q).
    { intros k c q I T. apply Dj. apply touches_obj. eauto. }
    clear Dj. cbn [nschema]. rewrite tcompact_obj.
    cut (exists m', nwrite_es m es data off = Ok m' /\ same_shape m m' /\
           (forall q, ~ region data off (ttotal_es es) q -> rd m' q = rd m q) /\
           (forall m'', (forall q, region data off (ttotal_es es) q -> rd m'' q = rd m' q) ->
              Forall2 (fun e ev => fst ev = fst e /\ nvalue m'' (snd e) = Ok (snd ev))
                (map (fun e => (fst e, walk (snd e) data false))
                     (cthread_es (map (fun e => (fst e, nschema (snd e))) es) off)) vs)).
    { intros (m' & A & B & C & D). exists m'. split; [exact A|]. split; [exact B|]. split; [exact C|].
      intros m'' own Fr. cbn [walk]. apply nvalue_obj. exists vs. split; [reflexivity|]. apply D. exact Fr. }
    revert m vs off E W Dj'. induction es as [|[k c] es IHes]; intros m vs off E W Dj'.
    + inversion E; subst. exists m. split; [reflexivity|]. split; [apply same_shape_refl|].
      split; [reflexivity|]. intros m'' _. constructor.
    + inversion E as [|? [kv v] ? vs' [Ek Ev] Er]; subst. inversion IH as [|? ? Hc Hr]; subst.
      cbn [fst snd] in *. rewrite ttotal_es_cons in *.
      assert (N1 : 0 <= ttotal (nschema c)) by (eapply ttotal_nonneg; eauto).
      assert (N2 : 0 <= ttotal_es es).
      { rewrite <- (ttotal_obj null_hdr). eapply (ttotal_nonneg (NObj null_hdr es) m (TObj vs')).
        apply nvalue_obj. eauto. }
      destruct (Hc m v data off Ev) as (m1 & E1 & Sh1 & F1 & V1).
      { intros j Hj. apply W. lia. }
      { intros q T R. apply (Dj' k c q (or_introl eq_refl) T). apply (region_in data off _ off (ttotal (nschema c))); auto; lia. }
      destruct (IHes Hr m1 vs' (off + ttotal (nschema c))) as (m2 & E2 & Sh2 & F2 & V2).
      { clear - Er F1 Dj' N2.
        induction Er as [|[k2 c2] [kv2 v2] l l' [Ek2 Ev2] Hr IHr]; constructor.
        - cbn [fst snd] in *. split; [exact Ek2|]. apply (nvalue_frame c2 m m1 v2 Ev2).
          intros q T. apply F1. intros R. apply (Dj' k2 c2 q (or_intror (or_introl eq_refl)) T).
          apply (region_in data off _ off (ttotal (nschema c))); auto; lia.
        - assert (N3 : 0 <= ttotal_es l).
          { rewrite <- (ttotal_obj null_hdr). eapply (ttotal_nonneg (NObj null_hdr l) m (TObj l')).
            apply nvalue_obj. eauto. }
          assert (N4 : 0 <= ttotal (nschema c2)) by (eapply ttotal_nonneg; eauto).
          apply IHr; [|exact N3]. intros k3 c3 q I T R. rewrite ttotal_es_cons in Dj'.
          apply (Dj' k3 c3 q ltac:(destruct I as [I|I]; [left; exact I|right; right; exact I]) T).
          apply (region_in data off _ off (ttotal (nschema c) + ttotal_es l)); auto; lia. }
      { intros j Hj. apply (writable_shape m m1 data off _ Sh1 W). lia. }
      { intros k2 c2 q I T R. apply (Dj' k2 c2 q (or_intror I) T).
        apply (region_in data off _ (off + ttotal (nschema c)) (ttotal_es es)); auto; lia. }
      exists m2. cbn [nwrite_es]. rewrite E1. cbn [obind]. split; [exact E2|].
      split; [eapply same_shape_trans; eauto|]. split.
      * intros q Hq. rewrite F2, F1; [reflexivity|..]; intros R; apply Hq; revert R; apply region_in; lia.
      * intros m'' Fr. cbn [map fst snd cthread_es]. constructor.
        -- cbn [fst snd]. split; [exact Ek|]. apply V1. intros q R. rewrite Fr.
           ++ apply F2. eapply region_disj; [|exact R]. lia.
           ++ revert R. apply region_in; lia.
        -- apply V2. intros q R. apply Fr. revert R. apply region_in; lia.
  - rewrite nwrite_lst. unfold nwrite_post. rewrite ttotal_lst in *.
    apply nvalue_lst in E. destruct E as (vs & -> & E).
    assert (Dj' : forall c q, In c ks -> touches c q -> ~ region data off (ttotal_ks ks) q).
    { intros c q I T. apply Dj. apply touches_lst. eauto. }
    clear Dj. cbn [nschema]. rewrite tcompact_lst.
    cut (exists m', nwrite_ks m ks data off = Ok m' /\ same_shape m m' /\
           (forall q, ~ region data off (ttotal_ks ks) q -> rd m' q = rd m q) /\
           (forall m'', (forall q, region data off (ttotal_ks ks) q -> rd m'' q = rd m' q) ->
              Forall2 (fun c cv => nvalue m'' c = Ok cv)
                (map (fun c => walk c data false) (cthread_ts (map nschema ks) off)) vs)).
    { intros (m' & A & B & C & D). exists m'. split; [exact A|]. split; [exact B|]. split; [exact C|].
      intros m'' own Fr. cbn [walk]. apply nvalue_lst. exists vs. split; [reflexivity|]. apply D. exact Fr. }
    revert m vs off E W Dj'. induction ks as [|c ks IHks]; intros m vs off E W Dj'.
    + inversion E; subst. exists m. split; [reflexivity|]. split; [apply same_shape_refl|].
      split; [reflexivity|]. intros m'' _. constructor.
    + inversion E as [|? v ? vs' Ev Er]; subst. inversion IH as [|? ? Hc Hr]; subst.
      rewrite ttotal_ks_cons in *.
      assert (N1 : 0 <= ttotal (nschema c)) by (eapply ttotal_nonneg; eauto).
      assert (N2 : 0 <= ttotal_ks ks).
      { rewrite <- (ttotal_lst null_hdr). eapply (ttotal_nonneg (NLst null_hdr ks) m (TList vs')).
        apply nvalue_lst. eauto. }
      destruct (Hc m v data off Ev) as (m1 & E1 & Sh1 & F1 & V1).
      { intros j Hj. apply W. lia. }
      { intros q T R. apply (Dj' c q (or_introl eq_refl) T). apply (region_in data off _ off (ttotal (nschema c))); auto; lia. }
      destruct (IHks Hr m1 vs' (off + ttotal (nschema c))) as (m2 & E2 & Sh2 & F2 & V2).
      { clear - Er F1 Dj' N2.
        induction Er as [|c2 v2 l l' Ev2 Hr IHr]; constructor.
        - apply (nvalue_frame c2 m m1 v2 Ev2).
          intros q T. apply F1. intros R. apply (Dj' c2 q (or_intror (or_introl eq_refl)) T).
          apply (region_in data off _ off (ttotal (nschema c))); auto; lia.
        - assert (N3 : 0 <= ttotal_ks l).
          { rewrite <- (ttotal_lst null_hdr). eapply (ttotal_nonneg (NLst null_hdr l) m (TList l')).
            apply nvalue_lst. eauto. }
          assert (N4 : 0 <= ttotal (nschema c2)) by (eapply ttotal_nonneg; eauto).
          apply IHr; [|exact N3]. intros c3 q I T R. rewrite ttotal_ks_cons in Dj'.
          apply (Dj' c3 q ltac:(destruct I as [I|I]; [left; exact I|right; right; exact I]) T).
          apply (region_in data off _ off (ttotal (nschema c) + ttotal_ks l)); auto; lia. }
      { intros j Hj. apply (writable_shape m m1 data off _ Sh1 W). lia. }
      { intros c2 q I T R. apply (Dj' c2 q (or_intror I) T).
        apply (region_in data off _ (off + ttotal (nschema c)) (ttotal_ks ks)); auto; lia. }
      exists m2. cbn [nwrite_ks]. rewrite E1. cbn [obind]. split; [exact E2|].
      split; [eapply same_shape_trans; eauto|]. split.
      * intros q Hq. rewrite F2, F1; [reflexivity|..]; intros R; apply Hq; revert R; apply region_in; lia.
      * intros m'' Fr. cbn [map cthread_ts]. constructor.
        -- apply V1. intros q R. rewrite Fr.
           ++ apply F2. eapply region_disj; [|exact R]. lia.
           ++ revert R. apply region_in; lia.
        -- apply V2. intros q R. apply Fr. revert R. apply region_in; lia.
Qed.
