(** serialize and reading back. *)
From Verif Require Import Base DType SpecTree Mem MemFacts Node SpecNode NodeFacts NodeCompact NodeSet.
Local Open Scope Z_scope.

Lemma load_concat m p a b x y :
  load m p a = Ok x -> load m (padd p a) b = Ok y -> load m p (a + b) = Ok (x ++ y).
Proof.
  intros Ex Ey. destruct (load_inv _ _ _ _ Ex) as (Ha & Lx & Rx & Vx).
  destruct (load_inv _ _ _ _ Ey) as (Hb & Ly & Ry & Vy).
  destruct (load_ok m p (a + b)) as (z & Ez & Lz & Vz); [lia|..].
  - intros j Hj. destruct (Z.lt_ge_cases j a) as [H|H]; [apply Rx; lia|].
    specialize (Ry (j - a) ltac:(lia)). rewrite padd_padd in Ry. replace (a + (j - a)) with j in Ry by lia. exact Ry.
  - rewrite Ez. f_equal. apply list_ext; [rewrite app_length; lia|]. intros i Hi.
    replace i with (Z.to_nat (Z.of_nat i)) at 1 by lia. rewrite Vz by lia.
    destruct (Nat.lt_ge_cases i (length x)) as [H|H].
    + rewrite nth_error_app1 by lia. rewrite <- Vx by lia. f_equal. lia.
    + rewrite nth_error_app2 by lia. replace (i - length x)%nat with (Z.to_nat (Z.of_nat i - a)) by lia.
      rewrite Vy by lia. rewrite padd_padd. f_equal. f_equal. lia.
Qed.
Lemma load_elems m db es : 0 <= db -> forall p,
  (forall i e, nth_error es i = Some e -> load m (padd p (db * Z.of_nat i)) db = Ok e) ->
  load m p (db * Z.of_nat (length es)) = Ok (concat es).
Proof.
  intros Hdb. induction es as [|e es IH]; intros p H.
  - simpl. rewrite Z.mul_0_r. reflexivity.
  - cbn [length concat]. replace (db * Z.of_nat (S (length es))) with (db + db * Z.of_nat (length es)) by lia.
    apply load_concat.
    + specialize (H 0%nat e eq_refl). rewrite Z.mul_0_r, padd_0 in H. exact H.
    + apply IH. intros i e' E. specialize (H (S i) e' E). rewrite padd_padd.
      replace (db + db * Z.of_nat i) with (db * Z.of_nat (S i)) by lia. exact H.
Qed.
Lemma holds_dense m p d es : is_data (dt_id d) = true -> 0 <= dt_n d ->
  (dt_stride d = default_bytes (dt_id d) \/ dt_n d = 1) -> holds m (Some p) d es ->
  load m (padd p (eaddr d 0)) (default_bytes (dt_id d) * dt_n d) = Ok (concat es).
Proof.
  intros D Hn St [Hl H]. pose proof (is_data_pos _ D).
  replace (dt_n d) with (Z.of_nat (length es)) by lia. apply load_elems; [lia|].
  intros i e E. assert (Hi : (i < length es)%nat) by (apply nth_error_Some; congruence).
  destruct (H (Z.of_nat i) ltac:(lia)) as (bs & Eb & Lb). rewrite Nat2Z.id in Eb. rewrite E in Eb. injection Eb as <-.
  unfold leaf_elem in Lb. cbn [opadd option_map oload] in Lb. rewrite padd_padd.
  replace (eaddr d 0 + default_bytes (dt_id d) * Z.of_nat i) with (eaddr d (Z.of_nat i)); [exact Lb|].
  unfold eaddr. destruct St as [St|St]; [rewrite St; lia|]. assert (i = 0%nat) by lia. subst i. simpl. lia.
Qed.

Lemma vbytes_obj vs : vbytes (TObj vs) = flat_map (fun e => vbytes (snd e)) vs.
Proof.
  unfold vbytes. cbn [tleaves]. induction vs as [|e vs IH]; [reflexivity|].
  cbn [flat_map]. rewrite flat_map_app. f_equal. exact IH.
Qed.
Lemma vbytes_lst vs : vbytes (TList vs) = flat_map vbytes vs.
Proof.
  unfold vbytes. cbn [tleaves]. induction vs as [|e vs IH]; [reflexivity|].
  cbn [flat_map]. rewrite flat_map_app. f_equal. exact IH.
Qed.
Lemma vbytes_leaf lv : vbytes (TLeaf lv) = leaf_bytes lv.
Proof. unfold vbytes. cbn. apply app_nil_r. Qed.

Lemma ttotal_tobj es : ttotal (TObj es) = fold_right Z.add 0 (map (fun e => ttotal (snd e)) es).
Proof.
  unfold ttotal. cbn [tleaves]. induction es as [|e es IH]; [reflexivity|]. cbn [flat_map map fold_right].
  rewrite total_of_app', IH. reflexivity.
Qed.
Lemma ttotal_tlst ts : ttotal (TList ts) = fold_right Z.add 0 (map ttotal ts).
Proof.
  unfold ttotal. cbn [tleaves]. induction ts as [|e ts IH]; [reflexivity|]. cbn [flat_map map fold_right].
  rewrite total_of_app', IH. reflexivity.
Qed.

Lemma ttotal_leaf d : ttotal (TLeaf d) = default_bytes (dt_id d) * dt_n d.
Proof. unfold ttotal. simpl. lia. Qed.
(** The image of a compact tree. *)
Lemma value_bytes t : forall m p off own v,
  nvalue m (walk (tcompact t off) (Some p) own) = Ok v -> load m (padd p off) (ttotal t) = Ok (vbytes v).
Proof.
  induction t as [d|es IH|ts IH] using tree_ind''; intros m p off own v E.
  - cbn [tcompact walk] in E. apply nvalue_leaf in E. destruct E as (lv & -> & E). cbn [h_data] in E.
    rewrite vbytes_leaf, ttotal_leaf. unfold leaf_compact in E. destruct (is_empty d) eqn:Em.
    + rewrite leaf_value_empty in E by reflexivity. injection E as <-. unfold is_empty in Em. apply tid_eqb_eq in Em.
      rewrite Em. reflexivity.
    + destruct (leaf_value_inv _ _ _ _ E) as [[T ->]|(D & Hn & es & -> & H)].
      * unfold is_empty in Em. simpl in T. rewrite T in Em. discriminate.
      * cbn [dt_id dt_n dt_endian] in *. cbn [leaf_bytes].
        pose proof (holds_dense _ _ (mkDT (dt_id d) (dt_n d) off (default_bytes (dt_id d)) (default_bytes (dt_id d)) (dt_endian d))
                                _ D Hn (or_introl eq_refl) H) as X.
        cbn [dt_id dt_n eaddr dt_off dt_stride] in X. unfold eaddr in X. cbn [dt_off dt_stride] in X.
        rewrite Z.mul_0_r, Z.add_0_r in X. exact X.
  - rewrite tcompact_obj in E. cbn [walk] in E. apply nvalue_obj in E. destruct E as (vs & -> & E).
    rewrite vbytes_obj, ttotal_tobj.
    revert off vs E. induction es as [|[k c] es IHes]; intros off vs E.
    + cbn [cthread_es map] in E. inversion E; subst. reflexivity.
    + cbn [cthread_es map fst snd] in E. inversion E as [|? [k' v'] ? vs' [Ek Ev] Er]; subst.
      inversion IH as [|? ? Hc Hr]; subst. cbn [fst snd] in *. cbn [flat_map map fold_right snd].
      apply load_concat; [eapply Hc; eauto|]. rewrite padd_padd. apply IHes; assumption.
  - rewrite tcompact_lst in E. cbn [walk] in E. apply nvalue_lst in E. destruct E as (vs & -> & E).
    rewrite vbytes_lst, ttotal_tlst.
    revert off vs E. induction ts as [|c ts IHts]; intros off vs E.
    + cbn [cthread_ts map] in E. inversion E; subst. reflexivity.
    + cbn [cthread_ts map] in E. inversion E as [|? v' ? vs' Ev Er]; subst.
      inversion IH as [|? ? Hc Hr]; subst. cbn [flat_map map fold_right].
      apply load_concat; [eapply Hc; eauto|]. rewrite padd_padd. apply IHts; assumption.
Qed.

(** Relocating a tree that lives behind one pointer. *)
Lemma walk_move t : forall m m' p p' own own' v,
  nvalue m (walk t (Some p) own) = Ok v ->
  (forall d i j, In d (tleaves t) -> 0 <= i < dt_n d -> 0 <= j < default_bytes (dt_id d) ->
     rd m' (padd p' (eaddr d i + j)) = rd m (padd p (eaddr d i + j))) ->
  nvalue m' (walk t (Some p') own') = Ok v.
Proof.
  induction t as [d|es IH|ts IH] using tree_ind''; intros m m' p p' own own' v E F; cbn [walk] in *.
  - apply nvalue_leaf in E. destruct E as (lv & -> & E). apply nvalue_leaf. exists lv. split; [reflexivity|].
    cbn [h_data] in *. destruct (leaf_value_inv _ _ _ _ E) as [[T ->]|(D & Hn & es & -> & H)].
    + apply leaf_value_empty; exact T.
    + apply leaf_value_data; auto. apply (holds_move m m' (Some p) (Some p') d d es eq_refl D eq_refl H).
      intros q i j Eq Hi Hj. injection Eq as <-. exists p'. split; [reflexivity|]. apply F; auto. left; reflexivity.
  - apply nvalue_obj in E. destruct E as (vs & -> & E). apply nvalue_obj. exists vs. split; [reflexivity|].
    revert vs E. induction es as [|[k c] es IHes]; intros vs E; cbn [map fst snd] in *; inversion E as [|? [k' v'] ? vs' [Ek Ev] Er]; subst; constructor.
    + inversion IH as [|? ? Hc Hr]; subst. cbn [fst snd] in *. split; [exact Ek|].
      apply (Hc m m' p p' false false v' Ev). intros d i j I. apply F. cbn [tleaves flat_map snd]. apply in_app_iff. left; exact I.
    + inversion IH as [|? ? Hc Hr]; subst. apply IHes; auto. intros d i j I. apply F. cbn [tleaves flat_map snd]. apply in_app_iff. right; exact I.
  - apply nvalue_lst in E. destruct E as (vs & -> & E). apply nvalue_lst. exists vs. split; [reflexivity|].
    revert vs E. induction ts as [|c ts IHts]; intros vs E; cbn [map] in *; inversion E as [|? v' ? vs' Ev Er]; subst; constructor.
    + inversion IH as [|? ? Hc Hr]; subst.
      apply (Hc m m' p p' false false v' Ev). intros d i j I. apply F. cbn [tleaves flat_map]. apply in_app_iff. left; exact I.
    + inversion IH as [|? ? Hc Hr]; subst. apply IHts; auto. intros d i j I. apply F. cbn [tleaves flat_map]. apply in_app_iff. right; exact I.
Qed.

(** Writing into a fresh buffer. *)
Lemma fresh_write m src v : nvalue m src = Ok v ->
  exists m1 m2, alloc m (ttotal (nschema src)) = Ok (m1, (length m, 0)) /\
    nwrite m1 src (Some (length m, 0)) 0 = Ok m2 /\
    extends m m2 [] /\ length m2 = S (length m) /\
    (forall own, nvalue m2 (walk (tcompact (nschema src) 0) (Some (length m, 0)) own) = Ok v) /\
    (exists l, nth_error m2 (length m) = Some (Some l) /\ Z.of_nat (length l) = ttotal (nschema src)).
Proof.
  intros E. pose proof (ttotal_nonneg src m v E) as NN. set (tot := ttotal (nschema src)) in *.
  destruct (alloc m tot) as [[m1 p]| | |] eqn:A; try (rewrite alloc_ok in A by lia; discriminate).
  assert (A' := A). rewrite alloc_ok in A' by lia. injection A' as Em <-. exists m1.
  assert (R : forall q, rd m1 q = if Nat.eqb (fst q) (length m)
                                  then if (0 <=? snd q) && (snd q <? tot) then Some zero_byte else None
                                  else rd m q) by (intros q; eapply rd_alloc; eauto).
  assert (Tlt : forall q, touches src q -> (fst q < length m)%nat).
  { intros q T. apply rd_lt. eapply nvalue_readable; eauto. }
  assert (V1 : nvalue m1 src = Ok v).
  { apply (nvalue_frame src m m1 v E). intros q T. rewrite R. specialize (Tlt q T).
    destruct (Nat.eqb_spec (fst q) (length m)); [lia|reflexivity]. }
  destruct (nwrite_ok src m1 v (Some (length m, 0)) 0 V1) as (m2 & E2 & Sh & F & V).
  { fold tot. intros j Hj. eexists. split; [reflexivity|]. rewrite R. cbn [padd fst snd].
    rewrite Nat.eqb_refl. replace ((0 <=? 0 + j) && (0 + j <? tot)) with true by lia. discriminate. }
  { intros q T (p & j & Ep & Hj & ->). injection Ep as <-. specialize (Tlt _ T). cbn [padd fst] in Tlt. lia. }
  exists m2. split; [reflexivity|]. split; [exact E2|].
  assert (L2 : length m2 = S (length m)).
  { destruct Sh as [L _]. rewrite L, <- Em, app_length. simpl. lia. }
  split; [|split; [exact L2|split]].
  - split; [lia|]. intros b Hb. rewrite (same_block m1 m2 b Sh).
    + rewrite <- Em. apply nth_error_app1. exact Hb.
    + intros q Hq. apply F. intros (p & j & Ep & Hj & X). injection Ep as <-. subst q. cbn [padd fst] in Hq. lia.
  - intros own. apply V. reflexivity.
  - destruct Sh as [_ H]. specialize (H (length m)). rewrite <- Em in H. rewrite nth_error_app2 in H by lia.
    rewrite Nat.sub_diag in H. simpl in H. destruct (nth_error m2 (length m)) as [[l|]|]; try tauto.
    exists l. split; [reflexivity|]. rewrite repeat_length in H. lia.
Qed.

(** Reading a buffer that holds the image gives the values back. *)
Lemma bytes_value m0 src v m p own :
  nvalue m0 src = Ok v -> load m p (ttotal (nschema src)) = Ok (vbytes v) ->
  nvalue m (walk (tcompact (nschema src) 0) (Some p) own) = Ok v.
Proof.
  intros E Ld. destruct (fresh_write m0 src v E) as (m1 & m2 & _ & _ & _ & _ & V & _).
  specialize (V false).
  pose proof (value_bytes (nschema src) m2 (length m0, 0) 0 false v V) as B. rewrite padd_0 in B.
  apply (walk_move _ m2 m (length m0, 0) p false own v V).
  intros d i j I Hi Hj.
  pose proof (tcompact_leaf_range _ 0 d i j I (nvalue_leaves src m0 v E) Hi Hj) as R.
  destruct (load_inv _ _ _ _ Ld) as (_ & _ & _ & V1). destruct (load_inv _ _ _ _ B) as (_ & _ & _ & V2).
  rewrite <- V1, <- V2 by lia. reflexivity.
Qed.

(** ---- serialize(vector) ---- *)
Definition dense_leaf (d : dtype) : Prop := std_leaf d /\ leaf_strided d = default_bytes (dt_id d) * dt_n d.
Lemma leaf_serialize_write m h d dst : (is_data (dt_id d) = true /\ 0 <= dt_n d) \/ dt_id d = EMPTY ->
  std_leaf d -> leaf_serialize m h d dst = leaf_write m h d dst.
Proof.
  intros K S. unfold leaf_serialize. destruct (tis_compact (TLeaf d)) eqn:C; [|reflexivity].
  unfold tis_compact in C. rewrite ttotal_leaf in *. cbn [tstrided tleaves map fold_right] in C.
  unfold tstrided, leaf_strided in C. cbn [tleaves map fold_right] in C. unfold leaf_strided in C.
  destruct K as [[D Hn]|T].
  - rewrite (is_data_empty _ D) in C. unfold strided_bytes in C. rewrite S in C.
    unfold leaf_write. pose proof (is_data_pos _ D) as P.
    assert (X : memcpy m dst (elem0 h d) (default_bytes (dt_id d) * dt_n d) =
                memcpy_strided m dst (dt_n d) (default_bytes (dt_id d)) (default_bytes (dt_id d)) (elem0 h d) (dt_stride d)).
    { unfold memcpy_strided. replace (dt_n d <? 0) with false by lia. rewrite Z.eqb_refl. cbn [andb].
      destruct (Z.eqb_spec (dt_stride d) (default_bytes (dt_id d))) as [E|N]; [reflexivity|].
      assert (dt_n d = 1) as N1 by nia. rewrite N1. change (Z.to_nat 1) with 1%nat. cbn [copy_loop]. rewrite Z.mul_1_r.
      destruct (memcpy m dst (elem0 h d) (default_bytes (dt_id d))); reflexivity. }
    rewrite X. destruct (dt_id d); try discriminate; reflexivity.
  - rewrite T. simpl default_bytes. rewrite Z.mul_0_l. rewrite memcpy_zero. unfold leaf_write. rewrite T. reflexivity.
Qed.
Lemma tstrided_dense t : Forall dense_leaf (tleaves t) -> tstrided t = ttotal t.
Proof.
  unfold tstrided, ttotal. induction (tleaves t) as [|d ds IH]; intros F; [reflexivity|].
  inversion F as [|? ? [_ A] B]; subst. cbn [map fold_right total_of]. rewrite A, IH by assumption. reflexivity.
Qed.
Lemma nserialize_at_write n : forall m m0 v data off,
  nvalue m0 n = Ok v -> Forall dense_leaf (tleaves (nschema n)) ->
  nserialize_at m n data off = nwrite m n data off.
Proof.
  induction n as [h d|h es IH|h ks IH] using node_ind'; intros m m0 v data off E F.
  - cbn [nserialize_at nwrite]. apply nvalue_leaf in E. destruct E as (lv & _ & E).
    inversion F as [|? ? [A _] _]; subst. apply leaf_serialize_write; [|exact A].
    destruct (leaf_value_inv _ _ _ _ E) as [[T _]|(D & Hn & _)]; auto.
  - cbn [nserialize_at nwrite]. apply nvalue_obj in E. destruct E as (vs & _ & E). cbn [nschema tleaves] in F.
    revert m off vs E. induction es as [|[k c] es IHes]; intros m off vs E; [reflexivity|].
    inversion E as [|? y ? ys [_ Ev] Er]; subst. inversion IH as [|? ? Hc Hr]; subst. cbn [map flat_map fst snd] in *.
    apply Forall_app in F. destruct F as [F1 F2]. rewrite (Hc m m0 _ data off Ev F1).
    rewrite (tstrided_dense _ F1). destruct (nwrite m c data off); cbn [obind]; try reflexivity.
    eapply IHes; eauto.
  - cbn [nserialize_at nwrite]. apply nvalue_lst in E. destruct E as (vs & _ & E). cbn [nschema tleaves] in F.
    revert m off vs E. induction ks as [|c ks IHks]; intros m off vs E; [reflexivity|].
    inversion E as [|? y ? ys Ev Er]; subst. inversion IH as [|? ? Hc Hr]; subst. cbn [map flat_map] in *.
    apply Forall_app in F. destruct F as [F1 F2]. rewrite (Hc m m0 _ data off Ev F1).
    rewrite (tstrided_dense _ F1). destruct (nwrite m c data off); cbn [obind]; try reflexivity.
    eapply IHks; eauto.
Qed.
(** serialize(vector): either every leaf is dense, or the node is itself a leaf. *)
Lemma nserialize_ok m src v : nvalue m src = Ok v ->
  Forall dense_leaf (tleaves (nschema src)) \/ (exists h d, src = NLeaf h d /\ std_leaf d) ->
  exists m', nserialize m src = Ok (m', (length m, 0)) /\ extends m m' [] /\
    load m' (length m, 0) (ttotal (nschema src)) = Ok (vbytes v) /\
    (exists l, nth_error m' (length m) = Some (Some l) /\ Z.of_nat (length l) = ttotal (nschema src)).
Proof.
  intros E K. destruct (fresh_write m src v E) as (m1 & m2 & A & W & X & L & V & B).
  assert (S : nserialize_at m1 src (Some (length m, 0)) 0 = Ok m2).
  { destruct K as [K|(h & d & -> & K)].
    - rewrite (nserialize_at_write src m1 m v _ _ E K). exact W.
    - cbn [nserialize_at nwrite] in *. rewrite leaf_serialize_write; [exact W| |exact K].
      apply nvalue_leaf in E. destruct E as (lv & _ & E).
      destruct (leaf_value_inv _ _ _ _ E) as [[T _]|(D & Hn & _)]; auto. }
  exists m2. unfold nserialize. rewrite A. cbn [obind].
  match goal with |- context [nserialize_at ?a ?b ?c ?d] =>
    replace (nserialize_at a b c d) with (@Ok mem m2) by (symmetry; exact S) end. cbn [obind].
  split; [reflexivity|]. split; [exact X|]. split; [|exact B].
  pose proof (value_bytes (nschema src) m2 (length m, 0) 0 false v (V false)) as Y. rewrite padd_0 in Y. exact Y.
Qed.

(** ---- serialize(ofstream) ---- *)
Lemma leaf_stream_ok m h d lv : leaf_value m (h_data h) d = Ok lv -> is_empty d = false -> std_leaf d ->
  leaf_stream m h d = Ok (leaf_bytes lv).
Proof.
  intros E Em S. destruct (leaf_value_inv _ _ _ _ E) as [[T _]|(D & Hn & es & -> & H)].
  { unfold is_empty in Em. rewrite T in Em. discriminate. }
  pose proof (is_data_pos _ D) as P. cbn [leaf_bytes]. unfold leaf_stream.
  destruct (tis_compact (TLeaf d)) eqn:C.
  - unfold tis_compact in C. rewrite ttotal_leaf in C. unfold tstrided in C. cbn [tleaves map fold_right] in C.
    unfold leaf_strided in C. rewrite Em in C.
    assert (SB : strided_bytes d = default_bytes (dt_id d) * dt_n d) by lia. rewrite SB.
    destruct (Z.eq_dec (dt_n d) 0) as [Z0|NZ].
    + rewrite Z0, Z.mul_0_r. destruct H as [Hl _]. rewrite Z0 in Hl. destruct es; [|discriminate].
      unfold elem0. destruct (h_data h); reflexivity.
    + destruct (holds_rd m (h_data h) d es 0 0 D H ltac:(lia) ltac:(lia)) as (s & bs0 & Es & _).
      unfold elem0. rewrite Es in *. cbn [opadd option_map oload]. apply holds_dense; auto.
      unfold strided_bytes in SB. rewrite S in SB.
      destruct (Z.eq_dec (dt_n d) 1); [right; assumption|left; nia].
  - assert (NV : nvalue m (NLeaf h d) = Ok (TLeaf (Some (dt_id d, dt_endian d, es)))).
    { apply nvalue_leaf. eexists. split; [reflexivity|exact E]. }
    destruct (fresh_write m (NLeaf h d) _ NV) as (m1 & m2 & A & W & X & L & V & B).
    cbn [nschema] in *. rewrite ttotal_leaf in *. unfold bytes_compact. rewrite A. cbn [obind].
    cbn [nwrite] in W. cbn [opadd option_map] in W. rewrite padd_0 in W. rewrite W. cbn [obind].
    pose proof (value_bytes (TLeaf d) m2 (length m, 0) 0 false _ (V false)) as Y. rewrite padd_0, vbytes_leaf, ttotal_leaf in Y. exact Y.
Qed.
Lemma nstream_ok n : forall m v, nvalue m n = Ok v -> Forall std_leaf (tleaves (nschema n)) ->
  nstream m n = Ok (vbytes v).
Proof.
  induction n as [h d|h es IH|h ks IH] using node_ind'; intros m v E F; cbn [nstream].
  - apply nvalue_leaf in E. destruct E as (lv & -> & E). rewrite vbytes_leaf.
    inversion F; subst. destruct (is_empty d) eqn:Em.
    + unfold is_empty in Em. apply tid_eqb_eq in Em. rewrite leaf_value_empty in E by exact Em. injection E as <-. reflexivity.
    + apply leaf_stream_ok; assumption.
  - apply nvalue_obj in E. destruct E as (vs & -> & E). rewrite vbytes_obj. cbn [nschema tleaves] in F.
    cut (omapM (fun e => nstream m (snd e)) es = Ok (map (fun e => vbytes (snd e)) vs)).
    { intros ->. cbn [obind]. rewrite flat_map_concat_map. reflexivity. }
    revert vs E. induction es as [|[k c] es IHes]; intros vs E; inversion E as [|? y ? ys [_ Ev] Er]; subst; [reflexivity|].
    inversion IH as [|? ? Hc Hr]; subst. cbn [map flat_map fst snd] in *. apply Forall_app in F. destruct F as [F1 F2].
    rewrite omapM_cons. cbn [snd]. rewrite (Hc m _ Ev F1). cbn [obind]. rewrite (IHes Hr F2 _ Er). reflexivity.
  - apply nvalue_lst in E. destruct E as (vs & -> & E). rewrite vbytes_lst. cbn [nschema tleaves] in F.
    cut (omapM (nstream m) ks = Ok (map vbytes vs)).
    { intros ->. cbn [obind]. rewrite flat_map_concat_map. reflexivity. }
    revert vs E. induction ks as [|c ks IHks]; intros vs E; inversion E as [|? y ? ys Ev Er]; subst; [reflexivity|].
    inversion IH as [|? ? Hc Hr]; subst. cbn [map flat_map] in *. apply Forall_app in F. destruct F as [F1 F2].
    rewrite omapM_cons. rewrite (Hc m _ Ev F1). cbn [obind]. rewrite (IHks Hr F2 _ Er). reflexivity.
Qed.

(** ---- set(schema, data) ---- *)
Lemma zmaxf_ge l x : In x l -> x <= fold_right Z.max 0 l.
Proof. induction l as [|y l IH]; intros []; simpl; [lia|]. specialize (IH H). lia. Qed.
Lemma zmaxf_nonneg l : 0 <= fold_right Z.max 0 l.
Proof. induction l; simpl; lia. Qed.
Lemma zmaxf_le l b : 0 <= b -> (forall x, In x l -> x <= b) -> fold_right Z.max 0 l <= b.
Proof. intros Hb. induction l as [|y l IH]; intros H; simpl; [exact Hb|]. specialize (IH (fun x I => H x (or_intror I))). specialize (H y (or_introl eq_refl)). lia. Qed.
Lemma tspanned_leaf t d : In d (tleaves t) -> spanned_bytes d <= tspanned t.
Proof.
  destruct t as [d0|es|ts]; intros I.
  - destruct I as [->|[]]. simpl. lia.
  - unfold tspanned. apply zmaxf_ge. apply in_map. exact I.
  - unfold tspanned. apply zmaxf_ge. apply in_map. exact I.
Qed.
Lemma tcompact_spanned_leaf t : forall off d, In d (tleaves (tcompact t off)) -> 0 <= off ->
  Forall (fun d => 0 <= dt_n d \/ dt_id d = EMPTY) (tleaves t) ->
  0 <= spanned_bytes d <= off + ttotal t.
Proof.
  assert (NN : forall ds, Forall (fun d => 0 <= dt_n d \/ dt_id d = EMPTY) ds -> 0 <= total_of ds).
  { induction ds as [|d ds IH]; intros F; simpl; [lia|]. inversion F as [|? ? A B]; subst.
    specialize (IH B). destruct A as [A|A]; [|rewrite A; simpl; lia].
    assert (0 <= default_bytes (dt_id d)) by (destruct (dt_id d); simpl; lia). nia. }
  induction t as [d0|es IH|ts IH] using tree_ind''; intros off d I Ho F.
  - cbn [tcompact tleaves] in I. destruct I as [<-|[]]. pose proof (NN _ F) as N. unfold leaf_compact in *. rewrite ttotal_leaf.
    cbn [tleaves total_of] in N.
    destruct (is_empty d0) eqn:Em; unfold spanned_bytes; cbn [dt_n dt_id dt_off dt_stride dt_ebytes dt_empty dt_simple default_bytes].
    + lia.
    + inversion F as [|? ? A _]; subst. destruct A as [A|A]; [nia|]. unfold is_empty in Em. rewrite A in Em. discriminate.
  - rewrite tcompact_obj in I. cbn [tleaves] in *. unfold ttotal. cbn [tleaves].
    revert off I Ho. induction es as [|[k c] es IHes]; intros off I Ho; [destruct I|].
    inversion IH as [|? ? Hc Hr]; subst. cbn [cthread_es flat_map snd] in *.
    apply Forall_app in F. destruct F as [F1 F2].
    rewrite total_of_app'. pose proof (NN _ F1). pose proof (NN _ F2).
    apply in_app_iff in I. destruct I as [I|I].
    + specialize (Hc off d I Ho F1). unfold ttotal in Hc. lia.
    + specialize (IHes Hr F2 _ I). unfold ttotal in *. lia.
  - rewrite tcompact_lst in I. cbn [tleaves] in *. unfold ttotal. cbn [tleaves].
    revert off I Ho. induction ts as [|c ts IHts]; intros off I Ho; [destruct I|].
    inversion IH as [|? ? Hc Hr]; subst. cbn [cthread_ts flat_map] in *.
    apply Forall_app in F. destruct F as [F1 F2].
    rewrite total_of_app'. pose proof (NN _ F1). pose proof (NN _ F2).
    apply in_app_iff in I. destruct I as [I|I].
    + specialize (Hc off d I Ho F1). unfold ttotal in Hc. lia.
    + specialize (IHts Hr F2 _ I). unfold ttotal in *. lia.
Qed.
Lemma total_of_nonneg ds : Forall (fun d => 0 <= dt_n d \/ dt_id d = EMPTY) ds -> 0 <= total_of ds.
Proof.
  induction 1 as [|d ds A B IH]; simpl; [lia|].
  destruct A as [A|A]; [|rewrite A; simpl; lia].
  assert (0 <= default_bytes (dt_id d)) by (destruct (dt_id d); simpl; lia). nia.
Qed.
Lemma tcompact_spanned t : Forall (fun d => 0 <= dt_n d \/ dt_id d = EMPTY) (tleaves t) ->
  0 <= tspanned (tcompact t 0) <= ttotal t.
Proof.
  intros F.
  assert (B : forall d, In d (tleaves (tcompact t 0)) -> 0 <= spanned_bytes d <= ttotal t).
  { intros d I. pose proof (tcompact_spanned_leaf t 0 d I ltac:(lia) F). lia. }
  pose proof (total_of_nonneg _ F) as N. fold (ttotal t) in N.
  assert (G : 0 <= fold_right Z.max 0 (map spanned_bytes (tleaves (tcompact t 0))) <= ttotal t).
  { split; [apply zmaxf_nonneg|]. apply zmaxf_le; [exact N|]. intros x I. apply in_map_iff in I.
    destruct I as (d & <- & I). apply B. exact I. }
  unfold tspanned. destruct (tcompact t 0) as [d|es|ts]; [apply B; left; reflexivity|exact G|exact G].
Qed.

(** Every element of [d] lies at a non-negative offset, within the dtype's span. *)
Definition fits_leaf (d : dtype) : Prop :=
  dt_id d = EMPTY \/ (0 <= dt_off d /\ 0 <= dt_stride d /\ default_bytes (dt_id d) <= dt_ebytes d).
Lemma fits_range t d i j : In d (tleaves t) -> fits_leaf d -> 0 <= i < dt_n d ->
  0 <= j < default_bytes (dt_id d) -> 0 <= eaddr d i + j < tspanned t.
Proof.
  intros I F Hi Hj. pose proof (tspanned_leaf t d I) as S. destruct F as [F|(A & B & C)].
  - rewrite F in Hj. simpl in Hj. lia.
  - unfold spanned_bytes, eaddr in *. nia.
Qed.
Lemma tspanned_nonneg t : match t with TLeaf d => 0 <= spanned_bytes d | _ => True end -> 0 <= tspanned t.
Proof. destruct t; cbn [tspanned]; intros H; [exact H|apply zmaxf_nonneg..]. Qed.
Lemma nset_schema_data_ok m dest t p v :
  owned_ok m dest -> 0 <= tspanned t -> Forall fits_leaf (tleaves t) ->
  (forall j, 0 <= j < tspanned t -> rd m (padd p j) <> None) ->
  ~ In (fst p) (owned_blocks dest) ->
  nvalue m (walk t (Some p) false) = Ok v ->
  exists m' , nset_schema_data m dest t (Some p) = Ok (m', walk t (Some (length m, 0)) true) /\
    extends m m' (owned_blocks dest) /\ length m' = S (length m) /\
    nvalue m' (walk t (Some (length m, 0)) true) = Ok v.
Proof.
  intros Ow NN F R Np V. unfold nset_schema_data.
  destruct (nfree_ok m dest Ow) as (m1 & E1 & Fr). rewrite E1. cbn [obind].
  assert (L1 : length m1 = length m) by (destruct Fr as [L _]; exact L).
  set (sp := tspanned t) in *.
  unfold nalloc.
  destruct (alloc m1 sp) as [[m2 q]| | |] eqn:A; try (rewrite alloc_ok in A by lia; discriminate).
  assert (A' := A). rewrite alloc_ok in A' by lia. injection A' as Em Eq. rewrite L1 in Eq.
  assert (R2 : forall z, rd m2 z = if Nat.eqb (fst z) (length m)
                                  then if (0 <=? snd z) && (snd z <? sp) then Some zero_byte else None
                                  else rd m1 z) by (intros z; rewrite <- L1; eapply rd_alloc; eauto).
  subst q. cbn [obind h_data].
  assert (Rp : forall j, 0 <= j < sp -> rd m2 (padd p j) = rd m (padd p j)).
  { intros j Hj. specialize (R j Hj). rewrite R2. pose proof (rd_lt _ _ R) as X. cbn [padd fst] in X |- *.
    destruct (Nat.eqb_spec (fst p) (length m)); [lia|]. apply (extends_rd m m1 _ _ (extends_freed _ _ _ Fr)).
    - cbn [padd fst]. lia.
    - cbn [padd fst]. exact Np. }
  assert (C : exists m3, memcpy m2 (Some (length m, 0)) (Some p) sp = Ok m3 /\ same_shape m2 m3 /\
     (forall z, fst z <> length m -> rd m3 z = rd m2 z) /\
     (forall j, 0 <= j < sp -> rd m3 (length m, j) = rd m2 (padd p j))).
  { destruct (Z.eq_dec sp 0) as [Z0|NZ].
    - rewrite Z0, memcpy_zero. exists m2. split; [reflexivity|]. split; [apply same_shape_refl|]. split; [reflexivity|]. intros; lia.
    - assert (Hp : (fst p < length m)%nat).
      { specialize (R 0 ltac:(lia)). apply rd_lt in R. exact R. }
      destruct (memcpy_ok m2 (length m, 0) p sp) as (m3 & E3 & Sh & V3 & Fr3); try lia.
      + intros j Hj. rewrite Rp by lia. apply R. lia.
      + intros j Hj. rewrite R2. cbn [padd fst snd]. rewrite Nat.eqb_refl.
        replace ((0 <=? 0 + j) && (0 + j <? sp)) with true by lia. discriminate.
      + intros a Ha Hb. apply in_range_of_b in Ha, Hb. cbn [fst] in *. lia.
      + exists m3. split; [exact E3|]. split; [exact Sh|]. split.
        * intros z Hz. apply Fr3. intros Ha. apply in_range_of_b in Ha. cbn [fst] in Ha. tauto.
        * intros j Hj. rewrite <- V3 by lia. reflexivity. }
  destruct C as (m3 & E3 & Sh & Fr3 & V3).
  match goal with |- context [memcpy ?a ?b ?c ?d] =>
    replace (memcpy a b c d) with (@Ok mem m3) by (symmetry; exact E3) end. cbn [obind].
  exists m3. split; [reflexivity|].
  assert (L3 : length m3 = S (length m)).
  { destruct Sh as [L _]. rewrite L, <- Em, app_length, L1. simpl. lia. }
  split; [|split; [exact L3|]].
  - split; [lia|]. intros b Hb. rewrite (same_block m2 m3 b Sh).
    + rewrite <- Em. rewrite nth_error_app1 by lia. destruct Fr as [_ Fr]. apply Fr.
    + intros z Hz. apply Fr3. lia.
  - apply (walk_move t m m3 p (length m, 0) false true v V).
    intros d i j I Hi Hj. rewrite Forall_forall in F.
    pose proof (fits_range t d i j I (F d I) Hi Hj) as X. fold sp in X.
    unfold padd at 1. cbn [fst snd]. rewrite Z.add_0_l, V3 by exact X. apply Rp. exact X.
Qed.

(** serialize(vector), then set(schema, data) on another node. *)
Lemma tcompact_fits t : forall off, 0 <= off ->
  Forall (fun d => 0 <= dt_n d \/ dt_id d = EMPTY) (tleaves t) -> Forall fits_leaf (tleaves (tcompact t off)).
Proof.
  induction t as [d0|es IH|ts IH] using tree_ind''; intros off Ho F.
  - cbn [tcompact tleaves]. constructor; [|constructor]. unfold leaf_compact, fits_leaf.
    destruct (is_empty d0); [left; reflexivity|]. right. cbn [dt_off dt_stride dt_id dt_ebytes].
    assert (0 <= default_bytes (dt_id d0)) by (destruct (dt_id d0); simpl; lia). lia.
  - rewrite tcompact_obj. cbn [tleaves] in *. revert off Ho.
    induction es as [|[k c] es IHes]; intros off Ho; [constructor|].
    inversion IH as [|? ? Hc Hr]; subst. cbn [cthread_es flat_map snd] in *.
    apply Forall_app in F. destruct F as [F1 F2]. apply Forall_app. split; [apply Hc; assumption|].
    apply IHes; auto. pose proof (total_of_nonneg _ F1). unfold ttotal. lia.
  - rewrite tcompact_lst. cbn [tleaves] in *. revert off Ho.
    induction ts as [|c ts IHts]; intros off Ho; [constructor|].
    inversion IH as [|? ? Hc Hr]; subst. cbn [cthread_ts flat_map] in *.
    apply Forall_app in F. destruct F as [F1 F2]. apply Forall_app. split; [apply Hc; assumption|].
    apply IHts; auto. pose proof (total_of_nonneg _ F1). unfold ttotal. lia.
Qed.
(** Any buffer holding the image of a value, read with the compact schema. *)
Lemma image_read m0 src v m p dest :
  nvalue m0 src = Ok v -> load m p (ttotal (nschema src)) = Ok (vbytes v) ->
  owned_ok m dest -> ~ In (fst p) (owned_blocks dest) ->
  exists m' r, nset_schema_data m dest (tcompact (nschema src) 0) (Some p) = Ok (m', r) /\
    extends m m' (owned_blocks dest) /\ nvalue m' r = Ok v.
Proof.
  intros E Ld Ow Np. pose proof (nvalue_leaves src m0 v E) as Fl.
  pose proof (tcompact_spanned _ Fl) as Sp.
  destruct (load_inv _ _ _ _ Ld) as (_ & _ & Rd & _).
  destruct (nset_schema_data_ok m dest (tcompact (nschema src) 0) p v Ow) as (m' & A & B & C & D); auto; try lia.
  - apply tcompact_fits; [lia|exact Fl].
  - intros j Hj. apply Rd. lia.
  - eapply bytes_value; eauto.
  - exists m', (walk (tcompact (nschema src) 0) (Some (length m, 0)) true). auto.
Qed.
