(** compact_to(Node), set, set_external. *)
From Verif Require Import Base DType SpecTree Mem MemFacts Node SpecNode NodeFacts NodeCompact.
Local Open Scope Z_scope.

(** [extends m m' fr]: the blocks of [m] listed in [fr] are freed in [m'], the
    others are bit for bit the same; [m'] may have further blocks. *)
Definition extends (m m' : mem) (fr : list nat) : Prop :=
  (length m <= length m')%nat /\
  forall b, (b < length m)%nat ->
    nth_error m' b = if in_dec Nat.eq_dec b fr then Some None else nth_error m b.
Lemma extends_refl m : extends m m [].
Proof. split; [lia|]. intros b _. reflexivity. Qed.
Lemma extends_freed m m' bs : freed m m' bs -> extends m m' bs.
Proof. intros [L H]. split; [lia|]. intros b _. apply H. Qed.
Lemma extends_trans m m1 m2 fr :
  extends m m1 fr -> extends m1 m2 [] -> extends m m2 fr.
Proof.
  intros [L1 H1] [L2 H2]. split; [lia|]. intros b Hb. rewrite H2 by lia.
  destruct (in_dec Nat.eq_dec b []) as [[]|_]. apply H1. exact Hb.
Qed.
Lemma extends_rd m m' fr q : extends m m' fr -> (fst q < length m)%nat -> ~ In (fst q) fr -> rd m' q = rd m q.
Proof.
  intros [_ H] L N. unfold rd. rewrite (H _ L). destruct (in_dec Nat.eq_dec (fst q) fr); [contradiction|reflexivity].
Qed.
Lemma rd_lt m q : rd m q <> None -> (fst q < length m)%nat.
Proof. intros H. apply rd_some in H. destruct H as (l & E & _). apply nth_error_Some. congruence. Qed.
Lemma extends_value n m m' fr v : extends m m' fr -> nvalue m n = Ok v ->
  (forall q, touches n q -> ~ In (fst q) fr) -> nvalue m' n = Ok v.
Proof.
  intros X E N. apply (nvalue_frame n m m' v E). intros q T.
  apply (extends_rd m m' fr q X); [|apply N; exact T].
  apply rd_lt. eapply nvalue_readable; eauto.
Qed.
Lemma extends_live m m' fr b : extends m m' fr -> live m b -> ~ In b fr -> live m' b.
Proof.
  intros [_ H] [l E] N. exists l. rewrite H by (apply nth_error_Some; congruence).
  destruct (in_dec Nat.eq_dec b fr); [contradiction|exact E].
Qed.

(** A shape-preserving change that leaves the bytes of a block alone leaves the block alone. *)
Lemma same_block m m' b : same_shape m m' -> (forall q, fst q = b -> rd m' q = rd m q) ->
  nth_error m' b = nth_error m b.
Proof.
  intros [_ H] R. specialize (H b).
  destruct (nth_error m b) as [[l|]|] eqn:E1, (nth_error m' b) as [[l'|]|] eqn:E2; try tauto.
  do 2 f_equal. apply list_ext; [congruence|]. intros i Hi.
  specialize (R (b, Z.of_nat i) eq_refl). unfold rd in R; simpl in R. rewrite E1, E2 in R.
  replace (Z.of_nat i <? 0) with false in R by lia. rewrite Nat2Z.id in R. exact R.
Qed.

(** The ownership flag is only set on a node that has a buffer and a type: an
    EMPTY node with the flag set would never be freed by release(). *)
Definition hok (h : hdr) : Prop := h_own h = true -> h_data h <> None.
Fixpoint tidy (n : node) : Prop :=
  match n with
  | NLeaf h d => hok h /\ (is_empty d = true -> h_own h = false)
  | NObj h es => hok h /\ (fix go l := match l with [] => True | (_, c) :: r => tidy c /\ go r end) es
  | NLst h ks => hok h /\ (fix go l := match l with [] => True | c :: r => tidy c /\ go r end) ks
  end.
Lemma tidy_obj h es : tidy (NObj h es) <-> hok h /\ Forall (fun e => tidy (snd e)) es.
Proof.
  cbn [tidy]. split; intros [A B]; split; auto.
  - induction es as [|[k c] es IH]; constructor; [apply B|apply IH; apply B].
  - induction B as [|[k c] es X Y IH]; [exact I|split; assumption].
Qed.
Lemma tidy_lst h ks : tidy (NLst h ks) <-> hok h /\ Forall tidy ks.
Proof.
  cbn [tidy]. split; intros [A B]; split; auto.
  - induction ks as [|c ks IH]; constructor; [apply B|apply IH; apply B].
  - induction B as [|c ks X Y IH]; [exact I|split; assumption].
Qed.
Lemma hok_false h : h_own h = false -> hok h.
Proof. intros H E. congruence. Qed.
Lemma own_ptr_false h : h_own h = false -> own_ptr h = [].
Proof. unfold own_ptr. intros ->. reflexivity. Qed.
Lemma tidy_rel n : tidy n -> h_own (rel_hdr n) = false.
Proof.
  intros T.
  assert (X : forall h, hok h -> h_own (freed_h h) = false).
  { intros [[p|] [|]] H; try reflexivity. exfalso. apply (H eq_refl eq_refl). }
  destruct n as [h d| |]; cbn [rel_hdr]; try (apply X; apply T).
  destruct (is_empty d) eqn:E; [apply T; exact E|apply X; apply T].
Qed.

Lemma tcompact_empty t off : (exists d, tcompact t off = TLeaf d /\ is_empty d = true) ->
  exists d, t = TLeaf d /\ is_empty d = true.
Proof.
  intros (d & E & H). destruct t as [d0|es|ts].
  - exists d0. split; [reflexivity|]. cbn [tcompact] in E. injection E as <-. revert H.
    unfold leaf_compact. destruct (is_empty d0) eqn:X; [reflexivity|]. unfold is_empty in *. simpl. congruence.
  - rewrite tcompact_obj in E. discriminate.
  - rewrite tcompact_lst in E. discriminate.
Qed.
Lemma tcompact_not_empty t off : 0 < ttotal t ->
  match tcompact t off with TLeaf d => is_empty d = false | _ => True end.
Proof.
  intros H. destruct (tcompact t off) as [d| |] eqn:E; auto. destruct (is_empty d) eqn:X; [|reflexivity].
  destruct (tcompact_empty t off) as (d0 & -> & Y); [eauto|]. unfold ttotal in H. simpl in H.
  unfold is_empty in Y. apply tid_eqb_eq in Y. rewrite Y in H. simpl in H. lia.
Qed.

(** Leaves of a compacted tree lie in [off, off + total). *)
Lemma tcompact_leaf_range t : forall off d i j, In d (tleaves (tcompact t off)) ->
  Forall (fun d => 0 <= dt_n d \/ dt_id d = EMPTY) (tleaves t) ->
  0 <= i < dt_n d -> 0 <= j < default_bytes (dt_id d) ->
  off <= eaddr d i + j < off + ttotal t.
Proof.
  assert (NN : forall ds, Forall (fun d => 0 <= dt_n d \/ dt_id d = EMPTY) ds -> 0 <= total_of ds).
  { induction ds as [|d ds IH]; intros F; simpl; [lia|]. inversion F as [|? ? A B]; subst.
    specialize (IH B). destruct A as [A|A]; [|rewrite A; simpl; lia].
    assert (0 <= default_bytes (dt_id d)) by (destruct (dt_id d); simpl; lia). nia. }
  induction t as [d0|es IH|ts IH] using tree_ind''; intros off d i j I F Hi Hj.
  - cbn [tcompact tleaves] in I. destruct I as [<-|[]]. unfold leaf_compact in *.
    destruct (is_empty d0); [simpl in Hj; lia|]. unfold ttotal, eaddr. cbn [dt_n dt_id dt_off dt_stride tleaves total_of] in *. nia.
  - rewrite tcompact_obj in I. cbn [tleaves] in *. unfold ttotal. cbn [tleaves].
    revert off I. induction es as [|[k c] es IHes]; intros off I; [destruct I|].
    inversion IH as [|? ? Hc Hr]; subst. cbn [cthread_es flat_map snd] in *.
    apply Forall_app in F. destruct F as [F1 F2].
    rewrite total_of_app'. pose proof (NN _ F1). pose proof (NN _ F2).
    apply in_app_iff in I. destruct I as [I|I].
    + specialize (Hc off d i j I F1 Hi Hj). cbn [snd] in Hc. unfold ttotal in Hc. lia.
    + specialize (IHes Hr F2 _ I). unfold ttotal in *. lia.
  - rewrite tcompact_lst in I. cbn [tleaves] in *. unfold ttotal. cbn [tleaves].
    revert off I. induction ts as [|c ts IHts]; intros off I; [destruct I|].
    inversion IH as [|? ? Hc Hr]; subst. cbn [cthread_ts flat_map] in *.
    apply Forall_app in F. destruct F as [F1 F2].
    rewrite total_of_app'. pose proof (NN _ F1). pose proof (NN _ F2).
    apply in_app_iff in I. destruct I as [I|I].
    + specialize (Hc off d i j I F1 Hi Hj). unfold ttotal in Hc. lia.
    + specialize (IHts Hr F2 _ I). unfold ttotal in *. lia.
Qed.
Lemma nvalue_leaves n : forall m v, nvalue m n = Ok v ->
  Forall (fun d => 0 <= dt_n d \/ dt_id d = EMPTY) (tleaves (nschema n)).
Proof.
  induction n as [h d|h es IH|h ks IH] using node_ind'; intros m v E; cbn [nschema tleaves].
  - apply nvalue_leaf in E. destruct E as (lv & -> & E).
    constructor; [|constructor]. destruct (leaf_value_inv _ _ _ _ E) as [[T _]|(D & Hn & _)]; auto.
  - apply nvalue_obj in E. destruct E as (vs & -> & E).
    induction E as [|[k c] y l ys [A B] Hr IHe]; [constructor|].
    inversion IH as [|? ? Hc Hr']; subst. cbn [map flat_map fst snd]. apply Forall_app.
    split; [apply (Hc m (snd y) B)|apply IHe; exact Hr'].
  - apply nvalue_lst in E. destruct E as (vs & -> & E).
    induction E as [|c y l ys B Hr IHe]; [constructor|].
    inversion IH as [|? ? Hc Hr']; subst. cbn [map flat_map]. apply Forall_app.
    split; [apply (Hc m y B)|apply IHe; exact Hr'].
Qed.
Lemma touches_walk t data own q : touches (walk t data own) q <->
  exists p d i j, data = Some p /\ In d (tleaves t) /\ 0 <= i < dt_n d /\ 0 <= j < default_bytes (dt_id d) /\
                  q = padd p (eaddr d i + j).
Proof.
  unfold touches. rewrite nleaves_walk, Exists_exists. split.
  - intros (x & I & p & i & j & A & B & C & D). apply in_map_iff in I. destruct I as (d & <- & I). simpl in *.
    exists p, d, i, j. auto.
  - intros (p & d & i & j & A & I & B & C & D). exists (data, d). split; [apply in_map; exact I|].
    exists p, i, j. auto.
Qed.

Record compact_post (m : mem) (src dest : node) (v : tree leafval) (m' : mem) (dest' : node) : Prop := {
  cp_value : nvalue m' dest' = Ok v;
  cp_schema : nschema dest' = tcompact (nschema src) 0;
  cp_ext : extends m m' (owned_blocks dest);
  cp_len : length m' = (length m + if (0 <? ttotal (nschema src))%Z then 1 else 0)%nat;
  cp_touch : forall q, touches dest' q -> fst q = length m /\ 0 <= snd q < ttotal (nschema src);
  cp_block : 0 < ttotal (nschema src) ->
    exists l, nth_error m' (length m) = Some (Some l) /\ Z.of_nat (length l) = ttotal (nschema src);
  cp_owns : tidy dest -> owns dest' = if 0 <? ttotal (nschema src) then [(length m, 0)] else [];
  cp_tidy : tidy dest -> tidy dest'
}.

Lemma tidy_walk_false t : forall data, tidy (walk t data false).
Proof.
  induction t as [d|es IH|ts IH] using tree_ind''; intros data.
  - cbn. split; [apply hok_false; reflexivity|reflexivity].
  - cbn [walk]. apply tidy_obj. split; [apply hok_false; reflexivity|].
    induction es as [|e es IHes]; [constructor|].
    inversion IH; subst. constructor; [cbn [snd]; auto|apply IHes; assumption].
  - cbn [walk]. apply tidy_lst. split; [apply hok_false; reflexivity|].
    induction ts as [|e ts IHts]; [constructor|].
    inversion IH; subst. constructor; auto.
Qed.
Lemma tidy_walk t p own : match t with TLeaf d => is_empty d = false | _ => True end -> tidy (walk t (Some p) own).
Proof.
  assert (H : hok (mkH (Some p) own)) by (intros _; discriminate).
  destruct t as [d|es|ts]; cbn [walk]; intros E.
  - cbn [tidy]. split; [exact H|congruence].
  - apply tidy_obj. split; [exact H|]. apply Forall_forall. intros e I. apply in_map_iff in I. destruct I as (x & <- & _).
    apply tidy_walk_false.
  - apply tidy_lst. split; [exact H|]. apply Forall_forall. intros e I. apply in_map_iff in I. destruct I as (x & <- & _).
    apply tidy_walk_false.
Qed.

Lemma ncompact_ok m src dest v :
  owned_ok m dest -> nvalue m src = Ok v ->
  (forall q, touches src q -> ~ In (fst q) (owned_blocks dest)) ->
  exists m' dest', ncompact_to m src dest = Ok (m', dest') /\ compact_post m src dest v m' dest'.
Proof.
  intros Ow E Ap. unfold ncompact_to, nreset.
  destruct (nfree_ok m dest Ow) as (m1 & E1 & Fr1). rewrite E1. cbn [obind n_hdr].
  pose proof (ttotal_nonneg src m v E) as NN.
  assert (V1 : nvalue m1 src = Ok v) by (apply (extends_value src m m1 _ v (extends_freed _ _ _ Fr1) E Ap)).
  destruct (Z.ltb_spec 0 (ttotal (nschema src))) as [Pos|Zero].
  - unfold nalloc. rewrite alloc_ok by lia. cbn [obind h_data h_own].
    set (tot := ttotal (nschema src)) in *.
    set (m2 := m1 ++ [Some (repeat zero_byte (Z.to_nat tot))]).
    assert (L1 : length m1 = length m) by (destruct Fr1; assumption).
    assert (A2 : alloc m1 tot = Ok (m2, (length m1, 0))) by (apply alloc_ok; lia).
    assert (R2 : forall q, rd m2 q = if Nat.eqb (fst q) (length m1)
                                     then if (0 <=? snd q) && (snd q <? tot) then Some zero_byte else None
                                     else rd m1 q) by (intros q; eapply rd_alloc; eauto).
    assert (Tlt : forall q, touches src q -> (fst q < length m1)%nat).
    { intros q T. apply rd_lt. eapply nvalue_readable; eauto. }
    assert (V2 : nvalue m2 src = Ok v).
    { apply (nvalue_frame src m1 m2 v V1). intros q T. rewrite R2. specialize (Tlt q T).
      destruct (Nat.eqb_spec (fst q) (length m1)); [lia|reflexivity]. }
    destruct (nwrite_ok src m2 v (Some (length m1, 0)) 0 V2) as (m3 & E3 & Sh & F & V).
    { fold tot. intros j Hj. eexists. split; [reflexivity|]. rewrite R2. cbn [padd fst snd].
      rewrite Nat.eqb_refl. replace ((0 <=? 0 + j) && (0 + j <? tot)) with true by lia. discriminate. }
    { intros q T (p & j & Ep & Hj & ->). injection Ep as <-. specialize (Tlt _ T). cbn [padd fst] in Tlt. lia. }
    match goal with |- context [obind ?x _] => replace x with (@Ok mem m3) by (symmetry; exact E3) end.
    cbn [obind]. eexists _, _. split; [reflexivity|].
    assert (Ext : extends m m3 (owned_blocks dest)).
    { split.
      - destruct Sh as [L _]. rewrite L. unfold m2. rewrite app_length. simpl. lia.
      - intros b Hb. rewrite (same_block m2 m3 b Sh).
        + unfold m2. rewrite nth_error_app1 by lia. destruct Fr1 as [_ H]. apply H.
        + intros q Hq. apply F. intros (p & j & Ep & Hj & X). injection Ep as <-. subst q. cbn [padd fst] in Hq. lia. }
    constructor.
    + apply V. reflexivity.
    + apply nschema_walk.
    + exact Ext.
    + destruct Sh as [L _]. rewrite L. unfold m2. rewrite app_length. fold tot.
      replace (0 <? tot) with true by lia. simpl. lia.
    + intros q T. apply touches_walk in T. destruct T as (p & d & i & j & Ep & I & Hi & Hj & ->).
      injection Ep as <-. cbn [padd fst snd]. split; [congruence|].
      pose proof (tcompact_leaf_range _ 0 d i j I (nvalue_leaves src m v E) Hi Hj). fold tot in H. lia.
    + intros _. destruct Sh as [_ H]. specialize (H (length m)). unfold m2 in H.
      rewrite nth_error_app2 in H by lia. replace (length m - length m1)%nat with 0%nat in H by lia. simpl in H.
      destruct (nth_error m3 (length m)) as [[l|]|]; try tauto. exists l. split; [reflexivity|].
      rewrite repeat_length in H. fold tot. lia.
    + intros _. fold tot. replace (0 <? tot) with true by lia. rewrite owns_walk. rewrite L1.
      pose proof (tcompact_not_empty (nschema src) 0 Pos) as X.
      destruct (tcompact (nschema src) 0); [rewrite X|..]; reflexivity.
    + intros _. apply tidy_walk. apply tcompact_not_empty. exact Pos.
  - assert (Z0 : ttotal (nschema src) = 0) by lia. cbn [obind].
    destruct (nwrite_ok src m1 v (h_data (rel_hdr dest)) 0 V1) as (m3 & E3 & Sh & F & V).
    { rewrite Z0. intros j Hj. lia. }
    { intros q T (p & j & Ep & Hj & ->). lia. }
    assert (Em : m3 = m1).
    { symmetry. apply mem_ext; [exact Sh|]. intros q. symmetry. apply F. intros (p & j & Ep & Hj & _). lia. }
    subst m3. rewrite E3. cbn [obind]. eexists _, _. split; [reflexivity|]. constructor.
    + apply V. reflexivity.
    + apply nschema_walk.
    + apply extends_freed. exact Fr1.
    + rewrite Z0. destruct Fr1 as [L _]. simpl. lia.
    + intros q T. apply touches_walk in T. destruct T as (p & d & i & j & Ep & I & Hi & Hj & ->).
      pose proof (tcompact_leaf_range _ 0 d i j I (nvalue_leaves src m v E) Hi Hj). lia.
    + lia.
    + intros Td. rewrite Z0, (tidy_rel dest Td). simpl. apply owns_walk_false.
    + intros Td. rewrite (tidy_rel dest Td). apply tidy_walk_false.
Qed.

(** ---- set ---- *)
Record set_post (m : mem) (src dest : node) (v : tree leafval) (m' : mem) (dest' : node) : Prop := {
  sp_value : nvalue m' dest' = Ok v;
  sp_schema : nschema dest' = tmap (fun d => leaf_compact d 0) (nschema src);
  sp_ext : extends m m' (owned_blocks dest);
  sp_touch : forall q, touches dest' q -> (length m <= fst q)%nat;
  sp_owned : owned_ok m' dest';
  sp_fresh : Forall (fun b => (length m <= b < length m')%nat) (owned_blocks dest');
  sp_tidy : tidy dest'
}.

Fixpoint nset_es (m : mem) (es : list (str * node)) : outcome (mem * list (str * node)) :=
  match es with
  | [] => Ok (m, [])
  | (k, c) :: r =>
      do (m', c') <- nset m nempty c; do (m'', r') <- nset_es m' r; Ok (m'', (k, c') :: r')
  end.
Fixpoint nset_ks (m : mem) (ks : list node) : outcome (mem * list node) :=
  match ks with
  | [] => Ok (m, [])
  | c :: r => do (m', c') <- nset m nempty c; do (m'', r') <- nset_ks m' r; Ok (m'', c' :: r')
  end.
Lemma nset_obj m dest h es : nset m dest (NObj h es) =
  do (m1, d1) <- nreset m dest; do (m2, kids) <- nset_es m1 es; Ok (m2, NObj (n_hdr d1) kids).
Proof. reflexivity. Qed.
Lemma nset_lst m dest h ks : nset m dest (NLst h ks) =
  do (m1, d1) <- nreset m dest; do (m2, kids) <- nset_ks m1 ks; Ok (m2, NLst (n_hdr d1) kids).
Proof. reflexivity. Qed.

Lemma owned_ok_nempty m : owned_ok m nempty.
Proof. split; [constructor|constructor]. Qed.
Lemma tidy_nempty : tidy nempty.
Proof. split; [apply hok_false; reflexivity|reflexivity]. Qed.
Lemma owned_obj h es : owned_blocks (NObj h es) =
  flat_map (fun e => owned_blocks (snd e)) es ++ map fst (own_ptr h).
Proof.
  unfold owned_blocks. cbn [owns]. rewrite map_app. f_equal.
  induction es as [|e es IH]; [reflexivity|]. cbn [flat_map]. rewrite map_app. f_equal. exact IH.
Qed.
Lemma owned_lst h ks : owned_blocks (NLst h ks) = flat_map owned_blocks ks ++ map fst (own_ptr h).
Proof.
  unfold owned_blocks. cbn [owns]. rewrite map_app. f_equal.
  induction ks as [|e ks IH]; [reflexivity|]. cbn [flat_map]. rewrite map_app. f_equal. exact IH.
Qed.

(** A bundle of fresh nodes produced one after the other. *)
Record kids_post (m m' : mem) (ns : list node) (vs : list (tree leafval)) : Prop := {
  kp_value : Forall2 (fun c cv => nvalue m' c = Ok cv) ns vs;
  kp_ext : extends m m' [];
  kp_touch : forall c q, In c ns -> touches c q -> (length m <= fst q)%nat;
  kp_owned : Forall (fun p => snd p = 0 /\ live m' (fst p)) (flat_map owns ns);
  kp_nodup : NoDup (flat_map owned_blocks ns);
  kp_fresh : Forall (fun b => (length m <= b < length m')%nat) (flat_map owned_blocks ns);
  kp_tidy : Forall tidy ns
}.
Lemma kids_post_nil m : kids_post m m [] [].
Proof. constructor; try constructor; simpl; try tauto; try lia. Qed.
Lemma NoDup_app {A} (a b : list A) : NoDup a -> NoDup b -> (forall x, In x a -> ~ In x b) -> NoDup (a ++ b).
Proof.
  induction a as [|x a IH]; intros Ha Hb D; [exact Hb|]. inversion Ha as [|? ? N Ha']; subst. simpl. constructor.
  - rewrite in_app_iff. intros [I|I]; [contradiction|]. apply (D x (or_introl eq_refl) I).
  - apply IH; auto. intros y I. apply D. right; exact I.
Qed.
Lemma kids_post_cons m m1 m2 src v c ns vs :
  set_post m src nempty v m1 c -> kids_post m1 m2 ns vs -> kids_post m m2 (c :: ns) (v :: vs).
Proof.
  intros S K. destruct S as [S1 S2 S3 S4 S5 S6 S7]. destruct K as [K1 K2 K3 K4 K5 K6 K7].
  assert (Len : (length m <= length m1)%nat) by (destruct S3; assumption).
  assert (Len2 : (length m1 <= length m2)%nat) by (destruct K2; assumption).
  constructor.
  - constructor; [|exact K1]. apply (extends_value c m1 m2 [] v K2 S1). intros q _ [].
  - eapply extends_trans; eauto.
  - intros c' q [<-|I] T; [apply S4; exact T|]. specialize (K3 c' q I T). lia.
  - cbn [flat_map]. apply Forall_app. split; [|exact K4].
    destruct S5 as [S5 _]. eapply Forall_impl; [|exact S5]. intros p [A B]. split; [exact A|].
    eapply extends_live; eauto.
  - cbn [flat_map]. apply NoDup_app; [destruct S5; assumption|exact K5|].
    intros x I J. rewrite Forall_forall in S6, K6. specialize (S6 x I). specialize (K6 x J). lia.
  - cbn [flat_map]. apply Forall_app. split.
    + eapply Forall_impl; [|exact S6]. intros b; simpl; lia.
    + eapply Forall_impl; [|exact K6]. intros b; simpl; lia.
  - constructor; assumption.
Qed.

Lemma nset_ok src : forall m dest v,
  owned_ok m dest -> tidy dest -> nvalue m src = Ok v ->
  (forall q, touches src q -> ~ In (fst q) (owned_blocks dest)) ->
  exists m' dest', nset m dest src = Ok (m', dest') /\ set_post m src dest v m' dest'.
Proof.
  induction src as [h d|h es IH|h ks IH] using node_ind'; intros m dest v Ow Td E Ap.
  - cbn [nset]. destruct (is_empty d) eqn:Em.
    + unfold nreset. destruct (nfree_ok m dest Ow) as (m1 & E1 & Fr). rewrite E1. cbn [obind].
      eexists _, _. split; [reflexivity|].
      apply nvalue_leaf in E. destruct E as (lv & -> & E).
      assert (T : dt_id d = EMPTY) by (apply tid_eqb_eq; exact Em).
      rewrite (leaf_value_empty _ _ _ T) in E. injection E as <-. constructor.
      * reflexivity.
      * cbn [nschema tmap]. unfold leaf_compact. rewrite Em. reflexivity.
      * apply extends_freed; exact Fr.
      * intros q X. apply touches_leaf in X. destruct X as (p & i & j & _ & _ & Hj & _). simpl in Hj. lia.
      * split; constructor.
      * constructor.
      * pose proof (tidy_rel dest Td) as TR. split; [apply hok_false; exact TR|intros _; exact TR].
    + destruct (ncompact_ok m (NLeaf h d) dest v Ow E Ap) as (m' & dest' & E' & C).
      exists m', dest'. split; [exact E'|]. destruct C as [C1 C2 C3 C4 C5 C6 C7 C8]. specialize (C7 Td). specialize (C8 Td).
      constructor; auto.
      * intros q T. destruct (C5 q T) as [A _]. lia.
      * split; unfold owned_blocks; rewrite C7; destruct (Z.ltb_spec 0 (ttotal (nschema (NLeaf h d)))) as [Pos|_];
          repeat constructor; [|intros []].
        destruct (C6 Pos) as (l & X & _). exists l. exact X.
      * unfold owned_blocks; rewrite C7. rewrite C4.
        destruct (0 <? ttotal (nschema (NLeaf h d))); repeat constructor; simpl; lia.
  - rewrite nset_obj. unfold nreset. destruct (nfree_ok m dest Ow) as (m1 & E1 & Fr). rewrite E1. cbn [obind n_hdr].
    assert (V1 : nvalue m1 (NObj h es) = Ok v) by (apply (extends_value _ m m1 _ v (extends_freed _ _ _ Fr) E Ap)).
    apply nvalue_obj in V1. destruct V1 as (vs & -> & V1).
    assert (K : exists m2 kids, nset_es m1 es = Ok (m2, kids) /\ map fst kids = map fst es /\
                  map (fun e => nschema (snd e)) kids = map (fun e => tmap (fun d => leaf_compact d 0) (nschema (snd e))) es /\
                  kids_post m1 m2 (map snd kids) (map snd vs)).
    { clear - IH V1. revert m1 vs V1. induction es as [|[k c] es IHes]; intros m1 vs V1.
      - inversion V1; subst. exists m1, []. do 3 (split; [reflexivity|]). apply kids_post_nil.
      - inversion V1 as [|? [kv v] ? vs' [Ek Ev] Hr]; subst. inversion IH as [|? ? Hc Hr']; subst. cbn [fst snd] in *.
        destruct (Hc m1 nempty v (owned_ok_nempty m1) tidy_nempty Ev) as (m2 & c' & E2 & S); [intros q _ []|].
        destruct (IHes Hr' m2 vs') as (m3 & kids & E3 & N & Sc & K).
        { clear - Hr S. destruct S as [_ _ X _ _ _ _]. unfold owned_blocks in X. simpl in X.
          induction Hr as [|e ev l l' [A B] Hr IHr]; constructor; [|exact IHr].
          split; [exact A|]. apply (extends_value _ m1 m2 [] _ X B). intros q _ []. }
        exists m3, ((k, c') :: kids). cbn [nset_es]. rewrite E2. cbn [obind]. rewrite E3. cbn [obind].
        split; [reflexivity|]. cbn [map fst snd]. split; [f_equal; exact N|]. split; [f_equal; [apply (sp_schema _ _ _ _ _ _ S)|exact Sc]|].
        eapply kids_post_cons; eauto. }
    destruct K as (m2 & kids & E2 & N & Sc & K). rewrite E2. cbn [obind].
    eexists _, _. split; [reflexivity|]. destruct K as [K1 K2 K3 K4 K5 K6 K7].
    assert (L1 : length m1 = length m) by (destruct Fr; assumption).
    pose proof (tidy_rel dest Td) as TRO. pose proof (own_ptr_false _ TRO) as TR.
    assert (FM : forall f : node -> list nat, flat_map (fun e : str * node => f (snd e)) kids = flat_map f (map snd kids)).
    { intros f. clear. induction kids as [|e kids IH]; [reflexivity|]. cbn. f_equal. exact IH. }
    assert (OB : owned_blocks (NObj (rel_hdr dest) kids) = flat_map owned_blocks (map snd kids)).
    { rewrite owned_obj, TR. cbn [map]. rewrite app_nil_r. apply FM. }
    constructor.
    + apply nvalue_obj. exists vs. split; [reflexivity|]. clear - N K1 V1.
      revert vs es N K1 V1. induction kids as [|[k c] kids IH]; intros vs es N K1 V1; destruct es as [|e es]; try discriminate;
        inversion V1 as [|? ? ? ? [A B] ?]; subst; [constructor|].
      cbn [map] in *. inversion K1; subst. injection N as N1 N2. constructor; [|eapply IH; eauto].
      cbn [fst snd]. split; [congruence|assumption].
    + cbn [nschema tmap]. f_equal. clear - N Sc. rewrite map_map. cbn [fst snd].
      revert es N Sc. induction kids as [|[k c] kids IH]; intros [|[k' c'] es] N Sc; try discriminate; [reflexivity|].
      cbn [map fst snd] in *. injection N as -> N. injection Sc as Sc1 Sc. rewrite Sc1. f_equal. apply IH; assumption.
    + eapply extends_trans; [apply extends_freed; exact Fr|exact K2].
    + intros q T. apply touches_obj in T. destruct T as (k & c & I & T). rewrite <- L1.
      apply (K3 c q); [|exact T]. apply (in_map snd) in I. exact I.
    + split; [|rewrite OB; exact K5]. cbn [owns]. rewrite TR, app_nil_r.
      replace (flat_map (fun e => owns (snd e)) kids) with (flat_map owns (map snd kids)); [exact K4|].
      clear. induction kids as [|e kids IH]; [reflexivity|]. cbn. f_equal. exact IH.
    + rewrite OB. rewrite <- L1. exact K6.
    + apply tidy_obj. split; [apply hok_false; exact TRO|]. clear - K7. induction kids as [|e kids IH]; [constructor|]. inversion K7; subst. constructor; auto.
  - rewrite nset_lst. unfold nreset. destruct (nfree_ok m dest Ow) as (m1 & E1 & Fr). rewrite E1. cbn [obind n_hdr].
    assert (V1 : nvalue m1 (NLst h ks) = Ok v) by (apply (extends_value _ m m1 _ v (extends_freed _ _ _ Fr) E Ap)).
    apply nvalue_lst in V1. destruct V1 as (vs & -> & V1).
    assert (K : exists m2 kids, nset_ks m1 ks = Ok (m2, kids) /\
                  map nschema kids = map (fun c => tmap (fun d => leaf_compact d 0) (nschema c)) ks /\
                  kids_post m1 m2 kids vs).
    { clear - IH V1. revert m1 vs V1. induction ks as [|c ks IHks]; intros m1 vs V1.
      - inversion V1; subst. exists m1, []. do 2 (split; [reflexivity|]). apply kids_post_nil.
      - inversion V1 as [|? v ? vs' Ev Hr]; subst. inversion IH as [|? ? Hc Hr']; subst.
        destruct (Hc m1 nempty v (owned_ok_nempty m1) tidy_nempty Ev) as (m2 & c' & E2 & S); [intros q _ []|].
        destruct (IHks Hr' m2 vs') as (m3 & kids & E3 & Sc & K).
        { clear - Hr S. destruct S as [_ _ X _ _ _ _]. unfold owned_blocks in X. simpl in X.
          induction Hr as [|e ev l l' B Hr IHr]; constructor; [|exact IHr].
          apply (extends_value _ m1 m2 [] _ X B). intros q _ []. }
        exists m3, (c' :: kids). cbn [nset_ks]. rewrite E2. cbn [obind]. rewrite E3. cbn [obind].
        split; [reflexivity|]. cbn [map]. split; [f_equal; [apply (sp_schema _ _ _ _ _ _ S)|exact Sc]|].
        eapply kids_post_cons; eauto. }
    destruct K as (m2 & kids & E2 & Sc & K). rewrite E2. cbn [obind].
    eexists _, _. split; [reflexivity|]. destruct K as [K1 K2 K3 K4 K5 K6 K7].
    assert (L1 : length m1 = length m) by (destruct Fr; assumption).
    pose proof (tidy_rel dest Td) as TRO. pose proof (own_ptr_false _ TRO) as TR.
    assert (OB : owned_blocks (NLst (rel_hdr dest) kids) = flat_map owned_blocks kids).
    { rewrite owned_lst, TR. cbn [map]. rewrite app_nil_r. reflexivity. }
    constructor.
    + apply nvalue_lst. eauto.
    + cbn [nschema tmap]. f_equal. rewrite map_map. exact Sc.
    + eapply extends_trans; [apply extends_freed; exact Fr|exact K2].
    + intros q T. apply touches_lst in T. destruct T as (c & I & T). rewrite <- L1. apply (K3 c q I T).
    + split; [|rewrite OB; exact K5]. cbn [owns]. rewrite TR, app_nil_r. exact K4.
    + rewrite OB. rewrite <- L1. exact K6.
    + apply tidy_lst. split; [apply hok_false; exact TRO|exact K7].
Qed.

(** ---- set_external ---- *)
Lemma mirror_value n : forall own m, nvalue m (mirror n own) = nvalue m n.
Proof.
  induction n as [h d|h es IH|h ks IH] using node_ind'; intros own m; cbn [mirror nvalue]; [reflexivity|..].
  - assert (X : omapM (fun e => do v <- nvalue m (snd e); Ok (fst e, v)) (map (fun e => (fst e, mirror (snd e) false)) es)
               = omapM (fun e => do v <- nvalue m (snd e); Ok (fst e, v)) es).
    { induction es as [|[k c] es IHes]; [reflexivity|]. inversion IH as [|? ? Hc Hr]; subst.
      cbn [map]. rewrite !omapM_cons. cbn [fst snd] in *. rewrite Hc, IHes by assumption. reflexivity. }
    rewrite X. reflexivity.
  - assert (X : omapM (nvalue m) (map (fun c => mirror c false) ks) = omapM (nvalue m) ks).
    { induction ks as [|c ks IHks]; [reflexivity|]. inversion IH as [|? ? Hc Hr]; subst.
      cbn [map]. rewrite !omapM_cons. rewrite Hc, IHks by assumption. reflexivity. }
    rewrite X. reflexivity.
Qed.
Lemma mirror_schema n : forall own, nschema (mirror n own) = nschema n.
Proof.
  induction n as [h d|h es IH|h ks IH] using node_ind'; intros own; cbn [mirror nschema]; [reflexivity|..].
  - f_equal. rewrite map_map. cbn [fst snd]. induction IH as [|[k c] es Hc Hr IHes]; [reflexivity|].
    cbn [map fst snd] in *. rewrite Hc, IHes. reflexivity.
  - f_equal. rewrite map_map. induction IH as [|c ks Hc Hr IHks]; [reflexivity|].
    cbn [map] in *. rewrite Hc, IHks. reflexivity.
Qed.
Lemma mirror_leaves n : forall own, nleaves (mirror n own) = nleaves n.
Proof.
  induction n as [h d|h es IH|h ks IH] using node_ind'; intros own; cbn [mirror nleaves]; [reflexivity|..].
  - induction IH as [|[k c] es Hc Hr IHes]; [reflexivity|]. cbn [map flat_map fst snd] in *. rewrite Hc, IHes. reflexivity.
  - induction IH as [|c ks Hc Hr IHks]; [reflexivity|]. cbn [map flat_map] in *. rewrite Hc, IHks. reflexivity.
Qed.
Lemma mirror_owns n : owns (mirror n false) = [].
Proof.
  induction n as [h d|h es IH|h ks IH] using node_ind'; cbn [mirror owns]; [destruct (is_empty d); reflexivity|..].
  - rewrite app_nil_r. induction IH as [|[k c] es Hc Hr IHes]; [reflexivity|]. cbn [map flat_map fst snd] in *. rewrite Hc, IHes. reflexivity.
  - rewrite app_nil_r. induction IH as [|c ks Hc Hr IHks]; [reflexivity|]. cbn [map flat_map] in *. rewrite Hc, IHks. reflexivity.
Qed.
