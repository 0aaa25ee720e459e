(** set from arrays, vectors, scalars and strings. *)
From Verif Require Import Base DType SpecTree Mem MemFacts Node SpecNode NodeFacts NodeCompact NodeSet NodeEndian NodeUpdate NodeMerge.
Local Open Scope Z_scope.

Lemma leaf_readable m p d : is_data (dt_id d) = true -> 0 <= dt_n d ->
  (forall i j, 0 <= i < dt_n d -> 0 <= j < default_bytes (dt_id d) -> rd m (padd p (eaddr d i + j)) <> None) ->
  exists es, leaf_value m (Some p) d = Ok (Some (dt_id d, dt_endian d, es)).
Proof.
  intros D Hn R. pose proof (is_data_pos _ D) as P.
  assert (X : forall k, (k <= Z.to_nat (dt_n d))%nat -> exists es, length es = k /\
     forall i, 0 <= i < Z.of_nat k -> exists bs, nth_error es (Z.to_nat i) = Some bs /\ leaf_elem m (Some p) d i = Ok bs).
  { induction k as [|k IH]; intros Hk; [exists []; split; [reflexivity|lia]|].
    destruct (IH ltac:(lia)) as (es & Le & He). unfold leaf_elem. cbn [opadd option_map oload].
    destruct (load_ok m (padd p (eaddr d (Z.of_nat k))) (default_bytes (dt_id d)) ltac:(lia)) as (bs & Eb & _ & _).
    { intros j Hj. rewrite padd_padd. apply R; lia. }
    exists (es ++ [bs]). split; [rewrite app_length; cbn; lia|]. intros i Hi.
    destruct (Z.eq_dec i (Z.of_nat k)) as [->|N].
    - exists bs. rewrite Nat2Z.id, nth_error_app2, Le, Nat.sub_diag by lia. auto.
    - destruct (He i ltac:(lia)) as (b & E1 & E2). exists b. rewrite nth_error_app1 by lia. auto. }
  destruct (X (Z.to_nat (dt_n d)) (Nat.le_refl _)) as (es & Le & He). exists es.
  apply leaf_value_data; auto. split; [lia|]. intros i Hi. apply He. lia.
Qed.

(** init of a leaf type when the present one is not compatible. *)
Lemma ninit_fresh m dest t n : good m dest -> is_data t = true -> 0 <= n ->
  dt_compatible (n_dtype dest) (dt_simple t n) = false ->
  exists m1 es, let d := dt_simple t n in let l := NLeaf (mkH (Some (length m, 0)) true) d in
    ninit m dest d = Ok (m1, l) /\ good m1 l /\ leaf_value m1 (Some (length m, 0)) d = Ok (Some (t, DEFAULT_E, es)) /\
    step m (touches dest) (ob dest) m1 (touches l) (ob l) /\ extends m m1 (owned_blocks dest).
Proof.
  intros G D Hn C. pose proof (is_data_pos _ D) as P. cbv zeta.
  unfold ninit. rewrite C. destruct (nfree_ok m dest (good_owned _ _ G)) as (m0 & E0 & Fr). rewrite E0. cbn [obind].
  pose proof (free_step m dest m0 G E0 Fr) as S0. pose proof (proj1 Fr) as L0.
  assert (Sb : spanned_bytes (dt_simple t n) = default_bytes t * n) by (unfold spanned_bytes; simpl; lia).
  rewrite Sb. unfold nalloc. rewrite alloc_ok by nia. cbn [obind]. rewrite L0.
  set (m1 := m0 ++ [Some (repeat zero_byte (Z.to_nat (default_bytes t * n)))]).
  assert (A : alloc m0 (default_bytes t * n) = Ok (m1, (length m0, 0))) by (apply alloc_ok; nia).
  assert (R : forall q, rd m1 q = if Nat.eqb (fst q) (length m0)
                                  then if (0 <=? snd q) && (snd q <? default_bytes t * n) then Some zero_byte else None
                                  else rd m0 q) by (intros q; eapply rd_alloc; eauto).
  assert (Lm : length m1 = S (length m)) by (unfold m1; rewrite app_length; cbn; lia).
  assert (Lv : live m1 (length m)) by (exists (repeat zero_byte (Z.to_nat (default_bytes t * n))); unfold m1; rewrite nth_error_app2, L0, Nat.sub_diag by lia; reflexivity).
  destruct (leaf_readable m1 (length m, 0) (dt_simple t n)) as (es & Ev); try assumption.
  { intros i j Hi Hj. rewrite R. unfold padd. cbn [fst snd]. rewrite L0, Nat.eqb_refl.
    unfold eaddr. simpl dt_off. simpl dt_stride. simpl in Hi, Hj.
    replace ((0 <=? 0 + (0 + default_bytes t * i + j)) && (0 + (0 + default_bytes t * i + j) <? default_bytes t * n)) with true by nia. discriminate. }
  exists m1, es.
  split; [destruct t; try discriminate; reflexivity|]. split; [|split; [exact Ev|split]].
  - cbn [good]. split; [intros _; discriminate|]. split; [unfold is_empty; simpl; destruct t; try discriminate|].
    split; [reflexivity|]. split; [right; simpl; lia|]. constructor; [|constructor]. split; [reflexivity|exact Lv].
  - apply (step_trans _ _ _ _ _ _ _ _ _ S0). constructor.
    + lia.
    + intros q T. right. apply touches_leaf in T. destruct T as (p & i & j & Ep & _ & _ & ->). injection Ep as <-. cbn. lia.
    + intros b O. right. unfold ob, owned_blocks in O. cbn [owns] in O. unfold is_empty in O. simpl in O.
      destruct (tid_eqb t EMPTY); [destruct O|]. destruct O as [<-|[]]. cbn. lia.
    + intros q H _ _. rewrite R. rewrite (proj2 (Nat.eqb_neq _ _)) by lia. reflexivity.
    + intros b [l H] _. exists l. unfold m1. rewrite nth_error_app1; [exact H|]. apply nth_error_Some. congruence.
    + intros b H [l X]. exists l. unfold m1 in X. rewrite nth_error_app1 in X by exact H. exact X.
    + intros b L [X|X]; [destruct (OK_nil b X)|]. apply live_lt in L. assert (b = length m) by lia. subst b.
      unfold ob, owned_blocks. cbn [owns]. unfold is_empty. simpl. destruct t; try discriminate; left; reflexivity.
  - destruct Fr as [_ H]. split; [lia|]. intros b Hb. unfold m1. rewrite nth_error_app1 by lia. apply H.
Qed.

Definition ext_leaf (src : option ptr) (sd : dtype) : node := NLeaf (mkH src false) sd.
Lemma upd_trans m a m1 b v m2 c : step m (touches a) (ob a) m1 (touches b) (ob b) -> upd m1 b v m2 c -> upd m a v m2 c.
Proof. intros S (V & G & S2). split; [exact V|]. split; [exact G|]. eapply step_trans; eauto. Qed.
(** Leaves that fit: the length check of init. *)
Definition exact_or_new (dest : node) (t : tid) (n : Z) : Prop :=
  dt_compatible (n_dtype dest) (dt_simple t n) = true -> dt_n (n_dtype dest) = n.
Definition init_endian (dest : node) (t : tid) (n : Z) : endian :=
  if dt_compatible (n_dtype dest) (dt_simple t n) then dt_endian (n_dtype dest) else DEFAULT_E.
Lemma compat_leaf dest t n : is_data t = true -> dt_compatible (n_dtype dest) (dt_simple t n) = true ->
  exists h d, dest = NLeaf h d /\ dt_id d = t /\ dt_ebytes d = default_bytes t /\ n <= dt_n d.
Proof.
  intros D C. unfold dt_compatible in C. rewrite !andb_true_iff in C. destruct C as [[C1 C2] C3]. apply tid_eqb_eq in C1. simpl in C1, C2, C3.
  destruct dest as [h d|h es|h ks]; simpl in *; try (subst t; discriminate).
  exists h, d. split; [reflexivity|]. split; [exact C1|]. split; lia.
Qed.
Lemma lv_overwrite_exact t en es t' en' es' : length es' = length es ->
  lv_overwrite (Some (t, en, es)) (Some (t', en', es')) = Some (t, en, es').
Proof. intros L. cbn. rewrite L, skipn_all, app_nil_r. reflexivity. Qed.

(** Everything the set functions do, in terms of a leaf standing for the source. *)
Lemma set_leaf_core m dest src sd es v0 : good m dest -> nvalue m dest = Ok v0 ->
  leaf_value m src sd = Ok (Some (dt_id sd, dt_endian sd, es)) ->
  (forall q, touches (ext_leaf src sd) q -> ~ touches dest q /\ ~ ob dest (fst q)) ->
  exists m1 h d es0, ninit m dest (dt_simple (dt_id sd) (dt_n sd)) = Ok (m1, NLeaf h d) /\
    (dt_compatible (n_dtype dest) (dt_simple (dt_id sd) (dt_n sd)) = false -> dt_n d = dt_n sd /\ d = dt_simple (dt_id sd) (dt_n sd)) /\
    (dt_compatible (n_dtype dest) (dt_simple (dt_id sd) (dt_n sd)) = true -> dest = NLeaf h d /\ v0 = TLeaf (Some (dt_id sd, dt_endian d, es0))) /\
    dt_ebytes d = default_bytes (dt_id sd) /\ dt_id d = dt_id sd /\ dt_n sd <= dt_n d /\ length es0 = Z.to_nat (dt_n d) /\
    dt_endian d = init_endian dest (dt_id sd) (dt_n sd) /\
    exists m2, leaf_take m1 h d (mkH src false) sd = Ok m2 /\
      upd m dest (TLeaf (lv_overwrite (Some (dt_id sd, dt_endian d, es0)) (Some (dt_id sd, dt_endian sd, es)))) m2 (NLeaf h d).
Proof.
  intros G Ed Es Dj. destruct (leaf_value_inv _ _ _ _ Es) as [[T Ev]|(D & Hn & es1 & Ev & Hh)]; [discriminate|].
  assert (Em : is_empty sd = false) by (unfold is_empty; destruct (dt_id sd); try discriminate; reflexivity).
  unfold init_endian. destruct (dt_compatible (n_dtype dest) (dt_simple (dt_id sd) (dt_n sd))) eqn:C.
  - destruct (compat_leaf dest _ _ D C) as (h & d & -> & Ht & Hb & Hle). apply nvalue_leaf in Ed. destruct Ed as (lv & -> & Ed).
    destruct (leaf_value_inv _ _ _ _ Ed) as [[T' _]|(D' & Hn' & es0 & -> & Hh')].
    { rewrite Ht in T'. rewrite T' in D. discriminate. }
    exists m, h, d, es0. unfold ninit. rewrite C. split; [reflexivity|]. split; [discriminate|]. split; [intros _; rewrite Ht; auto|].
    do 3 (split; [auto|]). split; [destruct Hh'; lia|]. split; [reflexivity|].
    destruct (upd_take m h d (mkH src false) sd _ _ G Ed Es Em) as (m2 & E2 & U).
    + unfold takes. rewrite Ht, tid_eqb_refl. cbn [andb]. lia.
    + intros q T. apply (Dj q T).
    + exists m2. split; [exact E2|]. rewrite Ht in U. exact U.
  - destruct (ninit_fresh m dest (dt_id sd) (dt_n sd) G D Hn C) as (m1 & es0 & E1 & G1 & V1 & S1 & X1).
    exists m1, (mkH (Some (length m, 0)) true), (dt_simple (dt_id sd) (dt_n sd)), es0. cbv zeta in *.
    split; [exact E1|]. split; [auto|]. split; [discriminate|]. do 3 (split; [simpl; auto; lia|]).
    assert (Le0 : length es0 = Z.to_nat (dt_n sd)).
    { destruct (leaf_value_inv _ _ _ _ V1) as [[_ X]|(_ & _ & es' & X & [L _])]; [discriminate|]. injection X as <-. simpl in L. lia. }
    split; [exact Le0|]. split; [reflexivity|].
    assert (Es1 : leaf_value m1 src sd = Ok (Some (dt_id sd, dt_endian sd, es))).
    { assert (N : nvalue m (ext_leaf src sd) = Ok (TLeaf (Some (dt_id sd, dt_endian sd, es)))) by (apply nvalue_leaf; eauto).
      apply (extends_value (ext_leaf src sd) m m1 _ _ X1) in N; [|intros q T; apply (Dj q T)].
      apply nvalue_leaf in N. destruct N as (lv & E & N). injection E as <-. exact N. }
    destruct (upd_take m1 (mkH (Some (length m, 0)) true) (dt_simple (dt_id sd) (dt_n sd)) (mkH src false) sd _ _ G1 V1 Es1 Em) as (m2 & E2 & U).
    + unfold takes. simpl. rewrite tid_eqb_refl. cbn [andb]. lia.
    + intros q T T'. apply touches_leaf in T'. destruct T' as (p & i & j & Ep & _ & _ & ->). injection Ep as <-.
      assert (H : rd m (padd (length m, 0) (eaddr (dt_simple (dt_id sd) (dt_n sd)) i + j)) <> None).
      { apply (nvalue_readable (NLeaf (mkH src false) sd) m (TLeaf (Some (dt_id sd, dt_endian sd, es)))); [|exact T].
        apply nvalue_leaf. eauto. }
      apply rd_lt in H. cbn in H. lia.
    + exists m2. split; [exact E2|]. eapply upd_trans; eauto.
Qed.

Definition set_result (m : mem) (dest : node) (t : tid) (n : Z) (es : list (list byte)) (r : outcome (mem * node)) : Prop :=
  exists m' dest', r = Ok (m', dest') /\
    nvalue m' dest' = Ok (TLeaf (Some (t, init_endian dest t n, es))) /\
    healthy m' dest' /\ step m (touches dest) (ob dest) m' (touches dest') (ob dest').
Lemma len_es m src sd t en es : leaf_value m src sd = Ok (Some (t, en, es)) -> length es = Z.to_nat (dt_n sd).
Proof. intros E. destruct (leaf_value_inv _ _ _ _ E) as [[_ X]|(_ & _ & es' & X & [L _])]; [discriminate|]. injection X as _ _ <-. lia. Qed.
Lemma set_array_law m dest src sd es v0 : healthy m dest -> nvalue m dest = Ok v0 ->
  leaf_value m src sd = Ok (Some (dt_id sd, dt_endian sd, es)) ->
  exact_or_new dest (dt_id sd) (dt_n sd) ->
  (forall q, touches (ext_leaf src sd) q -> ~ touches dest q /\ ~ ob dest (fst q)) ->
  set_result m dest (dt_id sd) (dt_n sd) es (nset_array m dest src sd).
Proof.
  intros H Ed Es Ex Dj. apply healthy_good in H.
  destruct (set_leaf_core m dest src sd es v0 H Ed Es Dj) as (m1 & h & d & es0 & E1 & A & B & Hb & Ht & Hle & Le & En & m2 & E2 & V & G2 & S2).
  assert (Hn : dt_n d = dt_n sd).
  { destruct (dt_compatible (n_dtype dest) (dt_simple (dt_id sd) (dt_n sd))) eqn:C; [|apply A; reflexivity].
    destruct (B eq_refl) as [-> _]. apply (Ex C). }
  unfold nset_array, set_result. rewrite E1. cbn [obind]. unfold leaf_take in E2. rewrite Hn.
  replace (opadd src (eaddr sd 0)) with (elem0 (mkH src false) sd) by reflexivity. rewrite E2. cbn [obind].
  exists m2, (NLeaf h d). split; [reflexivity|]. rewrite lv_overwrite_exact in V by (rewrite Le, Hn; eapply len_es; eauto).
  rewrite En in V. split; [exact V|]. split; [apply healthy_good; exact G2|exact S2].
Qed.
(** set(vector) and, for n = 1, set(scalar). *)
Definition dense_or_new (dest : node) (t : tid) (n : Z) : Prop :=
  dt_compatible (n_dtype dest) (dt_simple t n) = true -> dt_stride (n_dtype dest) = default_bytes t \/ n = 1.
Lemma memcpy_strided_one m dst eb ds src ss : memcpy_strided m dst 1 eb ds src ss = memcpy m dst src eb.
Proof.
  unfold memcpy_strided. cbn [Z.ltb Z.compare]. destruct ((ds =? eb) && (ss =? eb)); [f_equal; lia|].
  change (Z.to_nat 1) with 1%nat. cbn [copy_loop]. destruct (memcpy m dst src eb); reflexivity.
Qed.
Lemma set_vector_law m dest t src n es v0 : healthy m dest -> nvalue m dest = Ok v0 ->
  leaf_value m src (dt_simple t n) = Ok (Some (t, DEFAULT_E, es)) ->
  exact_or_new dest t n -> dense_or_new dest t n ->
  (forall q, touches (ext_leaf src (dt_simple t n)) q -> ~ touches dest q /\ ~ ob dest (fst q)) ->
  set_result m dest t n es (nset_vector m dest t src n).
Proof.
  intros H Ed Es Ex Dn Dj. apply healthy_good in H.
  destruct (set_leaf_core m dest src (dt_simple t n) es v0 H Ed Es Dj) as (m1 & h & d & es0 & E1 & A & B & Hb & Ht & Hle & Le & En & m2 & E2 & V & G2 & S2).
  simpl dt_id in *. simpl dt_n in *.
  assert (Hn : dt_n d = n).
  { destruct (dt_compatible (n_dtype dest) (dt_simple t n)) eqn:C; [|apply A; reflexivity].
    destruct (B eq_refl) as [-> _]. apply (Ex C). }
  assert (Hs : dt_stride d = default_bytes t \/ n = 1).
  { destruct (dt_compatible (n_dtype dest) (dt_simple t n)) eqn:C.
    - destruct (B eq_refl) as [-> _]. apply (Dn C).
    - left. destruct (A eq_refl) as [_ ->]. reflexivity. }
  assert (Hn0 : 0 <= n).
  { destruct (leaf_value_inv _ _ _ _ Es) as [[_ X]|(_ & X & _)]; [discriminate|exact X]. }
  unfold nset_vector, set_result. rewrite E1. cbn [obind].
  assert (E3 : memcpy m1 (elem0 h d) src (default_bytes t * n) = Ok m2).
  { rewrite <- E2. unfold leaf_take. simpl dt_n. rewrite Hb.
    replace (elem0 (mkH src false) (dt_simple t n)) with src.
    2:{ unfold elem0. destruct src as [p|]; [|reflexivity]. cbn. f_equal. unfold padd. destruct p; cbn. f_equal. lia. }
    destruct Hs as [Hs| ->].
    - unfold memcpy_strided. replace (n <? 0) with false by lia. rewrite Hs. simpl dt_stride. rewrite Z.eqb_refl. reflexivity.
    - rewrite memcpy_strided_one. f_equal. lia. }
  rewrite E3. cbn [obind]. exists m2, (NLeaf h d). split; [reflexivity|].
  rewrite lv_overwrite_exact in V by (rewrite Le, Hn; eapply len_es in Es; exact Es).
  rewrite En in V. split; [exact V|]. split; [apply healthy_good; exact G2|exact S2].
Qed.

(** ---- strings ---- *)
Lemma until_nul_prefix s : ~ In zero_byte s -> forall l,
  (forall i, (i <= length s)%nat -> nth_error l i = nth_error (s ++ [zero_byte]) i) -> until_nul l = Ok s.
Proof.
  induction s as [|b s IH]; intros N l H.
  - specialize (H O (Nat.le_refl _)). destruct l as [|x l]; [discriminate|]. injection H as ->. reflexivity.
  - pose proof (H O ltac:(lia)) as H0. destruct l as [|x l]; [discriminate|]. injection H0 as ->. cbn [until_nul].
    destruct (Ascii.eqb_spec b zero_byte) as [E|_]; [exfalso; apply N; left; exact E|].
    rewrite (IH (fun I => N (or_intror I)) l); [reflexivity|]. intros i Hi. apply (H (S i)). cbn [length]. lia.
Qed.
Lemma bytes_leaf m p bs n : load m p n = Ok bs ->
  leaf_value m (Some p) (dt_simple CHAR8_STR n) = Ok (Some (CHAR8_STR, DEFAULT_E, map (fun b => [b]) bs)).
Proof.
  intros E. destruct (load_inv _ _ _ _ E) as (Hn & Le & R & V).
  apply (leaf_value_data m (Some p) (dt_simple CHAR8_STR n)); [reflexivity|exact Hn|]. split; [rewrite map_length; simpl; lia|].
  intros i Hi. simpl in Hi.
  assert (X : exists b, nth_error bs (Z.to_nat i) = Some b).
  { destruct (nth_error bs (Z.to_nat i)) eqn:Q; [eauto|]. apply nth_error_None in Q. lia. }
  destruct X as [b Eb]. exists [b]. split; [erewrite map_nth_error; eauto|].
  unfold leaf_elem. cbn [opadd option_map oload]. change (default_bytes (dt_id (dt_simple CHAR8_STR n))) with 1.
  assert (Ea : eaddr (dt_simple CHAR8_STR n) i = i) by (change (0 + 1 * i = i); lia). rewrite Ea.
  destruct (load_ok m (padd p i) 1 ltac:(lia)) as (bs' & E' & L' & V').
  { intros j Hj. rewrite padd_padd. apply R. lia. }
  rewrite E'. f_equal. destruct bs' as [|b' [|? ?]]; try discriminate. f_equal.
  specialize (V' 0 ltac:(lia)). rewrite padd_padd in V'. cbn in V'. specialize (V i Hi). rewrite Z.add_0_r in V'. congruence.
Qed.
Lemma set_string_law m dest p s v0 : healthy m dest -> nvalue m dest = Ok v0 -> ~ In zero_byte s ->
  let n := Z.of_nat (length s) + 1 in
  load m p n = Ok (s ++ [zero_byte]) ->
  (dt_compatible (n_dtype dest) (dt_simple CHAR8_STR n) = true -> dt_stride (n_dtype dest) = 1) ->
  (forall q, touches (ext_leaf (Some p) (dt_simple CHAR8_STR n)) q -> ~ touches dest q /\ ~ ob dest (fst q)) ->
  exists m' dest', nset_string m dest (Some p) n = Ok (m', dest') /\
    nas_string m' dest' = Ok s /\
    healthy m' dest' /\ step m (touches dest) (ob dest) m' (touches dest') (ob dest').
Proof.
  intros H Ed Nz n El St Dj. apply healthy_good in H. pose proof (bytes_leaf m p _ n El) as Es.
  set (es := map (fun b : byte => [b]) (s ++ [zero_byte])) in *.
  destruct (set_leaf_core m dest (Some p) (dt_simple CHAR8_STR n) es v0 H Ed Es Dj) as (m1 & h & d & es0 & E1 & A & B & Hb & Ht & Hle & Le & En & m2 & E2 & V & G2 & S2).
  simpl dt_id in *. simpl dt_n in *. unfold nset_string. rewrite E1. cbn [obind].
  assert (Hs : dt_stride d = 1).
  { destruct (dt_compatible (n_dtype dest) (dt_simple CHAR8_STR n)) eqn:C.
    - destruct (B eq_refl) as [-> _]. apply St; reflexivity.
    - destruct (A eq_refl) as [_ ->]. reflexivity. }
  assert (E3 : memcpy_strided m1 (elem0 h d) n (dt_ebytes d) (dt_stride d) (Some p) (dt_ebytes d) = Ok m2).
  { rewrite <- E2. unfold leaf_take. simpl dt_n. rewrite Hb. simpl dt_stride. simpl default_bytes.
    replace (elem0 (mkH (Some p) false) (dt_simple CHAR8_STR n)) with (Some p); [reflexivity|].
    unfold elem0. cbn. f_equal. unfold padd. destruct p; cbn. f_equal. lia. }
  rewrite E3. cbn [obind]. exists m2, (NLeaf h d). split; [reflexivity|]. split; [|split; [apply healthy_good; exact G2|exact S2]].
  cbn [nas_string]. rewrite Ht. simpl tid_eqb.
  apply nvalue_leaf in V. destruct V as (lv & Ev & V). injection Ev as <-. cbn [lv_overwrite] in V.
  destruct (leaf_value_inv _ _ _ _ V) as [[_ X]|(D & Hn & es1 & X & Hh)]; [discriminate|]. injection X as _ <-.
  assert (R : exists pd, h_data h = Some pd /\ forall i, (i <= length s)%nat -> rd m2 (padd pd (eaddr d 0 + Z.of_nat i)) = nth_error (s ++ [zero_byte]) i).
  { destruct (holds_rd m2 _ d _ 0 0 D Hh ltac:(lia)) as (pd & b0 & Ep & _); [rewrite Ht; simpl; lia|].
    exists pd. split; [exact Ep|]. intros i Hi.
    destruct (holds_rd m2 _ d _ (Z.of_nat i) 0 D Hh ltac:(lia)) as (pd' & bs & Ep' & Eb & Lb & Vb & _); [rewrite Ht; simpl; lia|].
    rewrite Ep in Ep'. injection Ep' as <-.
    rewrite Nat2Z.id in Eb. unfold es in Eb.
    rewrite nth_error_app1 in Eb by (rewrite map_length, app_length; cbn; lia).
    rewrite nth_error_map in Eb. destruct (nth_error (s ++ [zero_byte]) i) as [b|] eqn:Q; [|discriminate].
    injection Eb as <-. cbn in Vb. rewrite Vb. f_equal. unfold padd. f_equal. unfold eaddr. rewrite Hs. lia. }
  destruct R as (pd & Ep & R). unfold elem0. rewrite Ep. cbn [opadd option_map].
  destruct (padd pd (eaddr d 0)) as [b o] eqn:Eq. cbn [cstr].
  assert (R' : forall i, (i <= length s)%nat -> rd m2 (b, o + Z.of_nat i) = nth_error (s ++ [zero_byte]) i).
  { intros i Hi. rewrite <- (R i Hi). rewrite <- padd_padd, Eq. reflexivity. }
  pose proof (R' O ltac:(lia)) as R0. unfold rd in R0. cbn [fst snd] in R0.
  destruct (nth_error m2 b) as [[l|]|] eqn:Em; try (destruct s; discriminate).
  rewrite Z.add_0_r in R0. destruct (o <? 0) eqn:Eo; [destruct s; discriminate|].
  apply until_nul_prefix; [exact Nz|]. intros i Hi. specialize (R' i Hi). unfold rd in R'. cbn [fst snd] in R'. rewrite Em in R'.
  rewrite nth_error_skipn'. replace (o + Z.of_nat i <? 0) with false in R' by lia.
  replace (Z.to_nat (o + Z.of_nat i)) with (Z.to_nat o + i)%nat in R' by lia. exact R'.
Qed.
