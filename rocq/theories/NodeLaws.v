(** Node-level laws assembled from the operation lemmas. *)
From Verif Require Import Base DType SpecTree Mem MemFacts Node SpecNode NodeFacts NodeCompact NodeSet NodeSerial.
Local Open Scope Z_scope.

(** memcpy_strided: fast path = element loop. *)
Lemma fast_path_is_loop m d n eb s :
  0 <= n -> 0 <= eb -> strided_readable m s n eb eb -> strided_readable m d n eb eb ->
  (forall q, in_elems d n eb eb q -> ~ in_elems s n eb eb q) ->
  memcpy_strided m (Some d) n eb eb (Some s) eb = copy_loop (Z.to_nat n) m (Some d) eb eb (Some s) eb.
Proof.
  intros Hn He Rs Rd Dj.
  assert (Ap : elems_apart n eb eb) by (right; lia).
  destruct (memcpy_strided_ok m d n eb eb s eb Hn He Rs Rd Ap Dj) as (m1 & E1 & S1 & V1 & F1).
  destruct (copy_loop_ok (Z.to_nat n) m d eb eb s eb He) as (m2 & E2 & S2 & V2 & F2);
    rewrite ?Z2Nat.id by lia; auto.
  rewrite Z2Nat.id in * by lia. rewrite E1, E2. f_equal. apply mem_ext.
  - split; [destruct S1, S2; congruence|]. intros b. destruct S1 as [_ H1], S2 as [_ H2].
    specialize (H1 b). specialize (H2 b).
    destruct (nth_error m b) as [[l|]|], (nth_error m1 b) as [[l1|]|], (nth_error m2 b) as [[l2|]|]; try tauto; congruence.
  - intros q. assert (X : in_elems d n eb eb q \/ ~ in_elems d n eb eb q).
    { destruct (Nat.eq_dec (fst q) (fst d)) as [Ef|Nf].
      - destruct (Z_lt_dec (snd q) (snd d)); [right; intros H; apply in_elems_dense in H; auto; apply in_range_of_b in H; lia|].
        destruct (Z_lt_dec (snd q) (snd d + eb * n)).
        + left. apply in_elems_dense; auto. apply in_range_of_b. lia.
        + right. intros H. apply in_elems_dense in H; auto. apply in_range_of_b in H. lia.
      - right. intros H. apply in_elems_dense in H; auto. apply in_range_of_b in H. tauto. }
    destruct X as [(i & Hi & j & Hj & ->)|X].
    + rewrite padd_padd, V1, V2 by auto. reflexivity.
    + rewrite F1, F2 by exact X. reflexivity.
Qed.

(** compact_to *)
Lemma compact_law m src dest v :
  owned_ok m dest -> nvalue m src = Ok v ->
  (forall q, touches src q -> ~ In (fst q) (owned_blocks dest)) ->
  exists m' dest', ncompact_to m src dest = Ok (m', dest') /\
    nvalue m' dest' = Ok v /\
    nschema dest' = tcompact (nschema src) 0 /\
    nvalue m' src = Ok v /\
    (forall q, touches dest' q -> fst q = length m /\ 0 <= snd q < ttotal (nschema src)) /\
    (0 < ttotal (nschema src) -> exists l, nth_error m' (length m) = Some (Some l) /\
                                           Z.of_nat (length l) = ttotal (nschema src)) /\
    (forall b, (b < length m)%nat -> ~ In b (owned_blocks dest) -> nth_error m' b = nth_error m b) /\
    length m' = (length m + if (0 <? ttotal (nschema src))%Z then 1 else 0)%nat.
Proof.
  intros Ow E Ap. destruct (ncompact_ok m src dest v Ow E Ap) as (m' & d' & R & P). destruct P.
  exists m', d'. split; [exact R|]. split; [assumption|]. split; [assumption|].
  split; [eapply extends_value; eauto|]. split; [assumption|]. split; [|split; [|assumption]].
  - intros H. destruct (cp_block H) as (l & A & B). exists l. auto.
  - intros b Hb N. destruct cp_ext as [_ X]. rewrite X by exact Hb.
    destruct (in_dec Nat.eq_dec b (owned_blocks dest)); [contradiction|reflexivity].
Qed.

(** set *)
Definition agree_off (P : ptr -> Prop) (m m' : mem) : Prop := forall q, ~ P q -> rd m' q = rd m q.
Lemma set_law m src dest v :
  owned_ok m dest -> tidy dest -> nvalue m src = Ok v ->
  (forall q, touches src q -> ~ In (fst q) (owned_blocks dest)) ->
  exists m' dest', nset m dest src = Ok (m', dest') /\
    nvalue m' dest' = Ok v /\
    nvalue m' src = Ok v /\
    nschema dest' = tmap (fun d => leaf_compact d 0) (nschema src) /\
    (forall q, touches dest' q -> ~ touches src q) /\
    (forall m'', agree_off (touches src) m' m'' -> nvalue m'' dest' = Ok v) /\
    (forall m'', agree_off (touches dest') m' m'' -> nvalue m'' src = Ok v) /\
    owned_ok m' dest' /\ tidy dest' /\
    (forall b, (b < length m)%nat -> ~ In b (owned_blocks dest) -> nth_error m' b = nth_error m b).
Proof.
  intros Ow Td E Ap. destruct (nset_ok src m dest v Ow Td E Ap) as (m' & d' & R & P). destruct P.
  exists m', d'. split; [exact R|]. split; [assumption|].
  assert (Vs : nvalue m' src = Ok v) by (eapply extends_value; eauto).
  split; [exact Vs|]. split; [assumption|].
  assert (Sep : forall q, touches d' q -> ~ touches src q).
  { intros q T1 T2. apply sp_touch in T1. pose proof (rd_lt _ _ (nvalue_readable src m v q E T2)). lia. }
  split; [exact Sep|]. split; [|split; [|split; [assumption|split; [assumption|]]]].
  - intros m'' A. apply (nvalue_frame d' m' m'' v sp_value). intros q T. apply A. apply Sep. exact T.
  - intros m'' A. apply (nvalue_frame src m' m'' v Vs). intros q T. apply A. intros T'. exact (Sep q T' T).
  - intros b Hb N. destruct sp_ext as [_ X]. rewrite X by exact Hb.
    destruct (in_dec Nat.eq_dec b (owned_blocks dest)); [contradiction|reflexivity].
Qed.

(** set_external *)
Lemma set_external_law m src dest :
  owned_ok m dest -> tidy dest ->
  exists m' dest', nset_external m dest src = Ok (m', dest') /\
    nschema dest' = nschema src /\
    nleaves dest' = nleaves src /\
    (forall m'', nvalue m'' dest' = nvalue m'' src) /\
    owns dest' = [] /\ tidy dest' /\
    length m' = length m /\
    (forall b, nth_error m' b = if in_dec Nat.eq_dec b (owned_blocks dest) then Some None else nth_error m b).
Proof.
  intros Ow Td. unfold nset_external, nreset.
  destruct (nfree_ok m dest Ow) as (m1 & E1 & Fr). rewrite E1. cbn [obind n_hdr].
  rewrite (tidy_rel dest Td). exists m1, (mirror src false).
  do 1 (split; [reflexivity|]). split; [apply mirror_schema|]. split; [apply mirror_leaves|].
  split; [intros; apply mirror_value|]. split; [apply mirror_owns|]. destruct Fr as [L H].
  split; [|split; [exact L|exact H]].
  clear. induction src as [h d|h es IH|h ks IH] using node_ind'; cbn [mirror].
  - split; [apply hok_false; reflexivity|reflexivity].
  - apply tidy_obj. split; [apply hok_false; reflexivity|]. induction IH; cbn [map]; constructor; auto.
  - apply tidy_lst. split; [apply hok_false; reflexivity|]. induction IH; cbn [map]; constructor; auto.
Qed.
Lemma set_external_schema_law m t dest data :
  owned_ok m dest -> tidy dest ->
  exists m', nset_external_schema m dest t data = Ok (m', walk t data false) /\
    length m' = length m /\
    (forall b, nth_error m' b = if in_dec Nat.eq_dec b (owned_blocks dest) then Some None else nth_error m b).
Proof.
  intros Ow Td. unfold nset_external_schema, nreset.
  destruct (nfree_ok m dest Ow) as (m1 & E1 & Fr). rewrite E1. cbn [obind n_hdr].
  rewrite (tidy_rel dest Td). exists m1. destruct Fr as [L H]. auto.
Qed.

(** serialize *)
Lemma serialize_law m src v dest :
  nvalue m src = Ok v ->
  Forall dense_leaf (tleaves (nschema src)) \/ (exists h d, src = NLeaf h d /\ std_leaf d) ->
  owned_ok m dest ->
  exists m' p, nserialize m src = Ok (m', p) /\
    (exists l, nth_error m' (fst p) = Some (Some l) /\ snd p = 0 /\ l = vbytes v /\
               Z.of_nat (length l) = ttotal (nschema src)) /\
    (forall b, (b < length m)%nat -> nth_error m' b = nth_error m b) /\
    exists m'' r, nset_schema_data m' dest (tcompact (nschema src) 0) (Some p) = Ok (m'', r) /\
      nvalue m'' r = Ok v.
Proof.
  intros E K Ow. destruct (nserialize_ok m src v E K) as (m' & S & X & Ld & (l & Nl & Ll)).
  exists m', (length m, 0). split; [exact S|]. split; [|split].
  - exists l. split; [exact Nl|]. split; [reflexivity|]. split; [|exact Ll].
    unfold load in Ld. cbn [fst snd] in Ld. rewrite Nl in Ld.
    destruct (Z.eqb_spec (ttotal (nschema src)) 0) as [Z0|Z0].
    + injection Ld as <-. destruct l; [reflexivity|]. simpl in Ll. lia.
    + destruct (_ && _); [|discriminate]. injection Ld as <-.
      unfold sub_range. change (skipn (Z.to_nat 0) l) with l. symmetry. apply firstn_all2. unfold byte in *. lia.
  - intros b Hb. destruct X as [_ X]. rewrite X by exact Hb. reflexivity.
  - assert (Ow' : owned_ok m' dest).
    { destruct Ow as [A B]. split; [|exact B]. eapply Forall_impl; [|exact A]. intros q [Q1 Q2]. split; [exact Q1|].
      eapply extends_live; eauto. }
    destruct (image_read m src v m' (length m, 0) dest E Ld Ow') as (m2 & r & A & _ & B).
    + cbn [fst]. intros I. unfold owned_blocks in I. apply in_map_iff in I. destruct I as (q & Eq & Iq).
      destruct Ow as [A _]. rewrite Forall_forall in A. destruct (A q Iq) as [_ [l' Hl']].
      rewrite Eq in Hl'. assert (length m < length m)%nat by (apply nth_error_Some; congruence). lia.
    + exists m2, r. auto.
Qed.
Lemma stream_law m src v :
  nvalue m src = Ok v -> Forall std_leaf (tleaves (nschema src)) ->
  exists bs, nstream m src = Ok bs /\ Z.of_nat (length bs) = ttotal (nschema src) /\
    forall m1 p dest, load m1 p (ttotal (nschema src)) = Ok bs -> owned_ok m1 dest ->
      ~ In (fst p) (owned_blocks dest) ->
      exists m2 r, nset_schema_data m1 dest (tcompact (nschema src) 0) (Some p) = Ok (m2, r) /\
        nvalue m2 r = Ok v.
Proof.
  intros E F. exists (vbytes v). split; [apply nstream_ok; assumption|]. split.
  - destruct (fresh_write m src v E) as (m1 & m2 & _ & _ & _ & _ & V & _).
    pose proof (value_bytes _ m2 (length m, 0) 0 false v (V false)) as B.
    destruct (load_inv _ _ _ _ B) as (NN & L & _). rewrite L. apply Z2Nat.id. exact NN.
  - intros m1 p dest Ld Ow Np. destruct (image_read m src v m1 p dest E Ld Ow Np) as (m2 & r & A & _ & B).
    exists m2, r. auto.
Qed.

(** strided copy, in terms of addresses only *)
Lemma strided_copy_law m d n eb ds s ss :
  0 <= n -> 0 <= eb ->
  (forall i j, 0 <= i < n -> 0 <= j < eb -> rd m (padd s (ss * i + j)) <> None) ->
  (forall i j, 0 <= i < n -> 0 <= j < eb -> rd m (padd d (ds * i + j)) <> None) ->
  (n <= 1 \/ eb <= Z.abs ds) ->
  (forall i j i' j', 0 <= i < n -> 0 <= j < eb -> 0 <= i' < n -> 0 <= j' < eb ->
     padd d (ds * i + j) <> padd s (ss * i' + j')) ->
  exists m', memcpy_strided m (Some d) n eb ds (Some s) ss = Ok m' /\
    (forall i j, 0 <= i < n -> 0 <= j < eb ->
       rd m' (padd d (ds * i + j)) = rd m (padd s (ss * i + j))) /\
    (forall q, (forall i j, 0 <= i < n -> 0 <= j < eb -> q <> padd d (ds * i + j)) -> rd m' q = rd m q) /\
    same_shape m m'.
Proof.
  intros Hn He Rs Rd Ap Dj.
  destruct (memcpy_strided_ok m d n eb ds s ss Hn He) as (m' & E & Sh & V & F); auto.
  - intros i Hi j Hj. rewrite padd_padd. auto.
  - intros i Hi j Hj. rewrite padd_padd. auto.
  - intros q (i & Hi & j & Hj & ->) (i' & Hi' & j' & Hj' & E). rewrite !padd_padd in E. exact (Dj i j i' j' Hi Hj Hi' Hj' E).
  - exists m'. split; [exact E|]. split; [exact V|]. split; [|exact Sh].
    intros q H. apply F. intros (i & Hi & j & Hj & ->). apply (H i j Hi Hj). apply padd_padd.
Qed.
