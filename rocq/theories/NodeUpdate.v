(** update_compatible. *)
From Verif Require Import Base DType SpecTree Mem MemFacts Node SpecNode NodeFacts NodeCompact NodeSet NodeEndian.
Local Open Scope Z_scope.

Lemma nth_error_skipn' {A} (l : list A) k j : nth_error (skipn k l) j = nth_error l (k + j).
Proof. revert l. induction k as [|k IH]; intros [|x l]; cbn [skipn plus]; try reflexivity; [destruct j; reflexivity|apply IH]. Qed.
Lemma leaf_take_ok m dh dd sh sd dv sv :
  leaf_value m (h_data dh) dd = Ok dv -> leaf_value m (h_data sh) sd = Ok sv ->
  is_empty sd = false -> takes dd sd = true -> std_leaf dd ->
  elems_apart (dt_n dd) (default_bytes (dt_id dd)) (dt_stride dd) ->
  (forall q, leaf_touches q (h_data dh, dd) -> ~ leaf_touches q (h_data sh, sd)) ->
  exists m', leaf_take m dh dd sh sd = Ok m' /\ same_shape m m' /\
    (forall q, ~ leaf_touches q (h_data dh, dd) -> rd m' q = rd m q) /\
    leaf_value m' (h_data dh) dd = Ok (lv_overwrite dv sv).
Proof.
  intros Ed Es Em Tk Std Ap Dj. unfold takes in Tk. apply andb_true_iff in Tk. destruct Tk as [Tt Tn].
  apply tid_eqb_eq in Tt. assert (Hle : dt_n sd <= dt_n dd) by lia. clear Tn.
  destruct (leaf_value_inv _ _ _ _ Es) as [[T _]|(Ds & Hs & es' & -> & Hhs)].
  { unfold is_empty in Em. rewrite T in Em. discriminate. }
  destruct (leaf_value_inv _ _ _ _ Ed) as [[T _]|(Dd & Hd & es & -> & Hhd)].
  { rewrite Tt in T. rewrite T in Ds. discriminate. }
  cbn [lv_overwrite]. unfold leaf_take. rewrite Std.
  pose proof (is_data_pos _ Dd) as P. set (nb := default_bytes (dt_id dd)) in *.
  assert (Enb : default_bytes (dt_id sd) = nb) by (subst nb; rewrite Tt; reflexivity).
  destruct (Z.eq_dec (dt_n sd) 0) as [Z0|NZ].
  { rewrite Z0, memcpy_strided_zero. exists m. split; [reflexivity|]. split; [apply same_shape_refl|]. split; [reflexivity|].
    rewrite Ed. destruct Hhs as [L _]. rewrite Z0 in L. destruct es'; [reflexivity|discriminate]. }
  destruct (holds_rd m _ sd es' 0 0 Ds Hhs ltac:(lia) ltac:(lia)) as (sp & ? & Esp & _).
  destruct (holds_rd m _ dd es 0 0 Dd Hhd ltac:(lia) ltac:(fold nb; lia)) as (dp & ? & Edp & _).
  unfold elem0. rewrite Esp, Edp in *. cbn [opadd option_map].
  destruct (memcpy_strided_ok m (padd dp (eaddr dd 0)) (dt_n sd) nb (dt_stride dd) (padd sp (eaddr sd 0)) (dt_stride sd))
    as (m' & E' & Sh & V & F); try lia.
  { intros i Hi j Hj. rewrite !padd_padd. destruct (holds_rd m _ sd es' i j Ds Hhs Hi ltac:(lia)) as (p & bs & Ep & _ & _ & _ & R).
    injection Ep as <-. unfold eaddr in *. rewrite Z.mul_0_r, Z.add_0_r. rewrite Z.add_assoc. exact R. }
  { intros i Hi j Hj. rewrite !padd_padd. destruct (holds_rd m _ dd es i j Dd Hhd ltac:(lia) Hj) as (p & bs & Ep & _ & _ & _ & R).
    injection Ep as <-. unfold eaddr in *. rewrite Z.mul_0_r, Z.add_0_r. rewrite Z.add_assoc. exact R. }
  { destruct Ap as [A|A]; [left; lia|right; exact A]. }
  { intros q (i & Hi & j & Hj & E1) (i' & Hi' & j' & Hj' & E2). apply (Dj q).
    - exists dp, i, j. cbn [fst snd]. fold nb. split; [reflexivity|]. split; [lia|]. split; [exact Hj|].
      rewrite E1, !padd_padd. f_equal. unfold eaddr. lia.
    - exists sp, i', j'. cbn [fst snd]. rewrite Enb. split; [reflexivity|]. split; [lia|]. split; [exact Hj'|].
      rewrite E2, !padd_padd. f_equal. unfold eaddr. lia. }
  exists m'. split; [exact E'|]. split; [exact Sh|].
  assert (Fr : forall q, ~ leaf_touches q (Some dp, dd) -> rd m' q = rd m q).
  { intros q Nq. apply F. intros (i & Hi & j & Hj & E1). apply Nq. exists dp, i, j. cbn [fst snd]. fold nb.
    split; [reflexivity|]. split; [lia|]. split; [exact Hj|]. rewrite E1, !padd_padd. f_equal. unfold eaddr. lia. }
  split; [exact Fr|].
  destruct Hhs as [Ls Hs'], Hhd as [Ld Hd'].
  apply leaf_value_data; [exact Dd|exact Hd|]. split.
  { rewrite app_length, skipn_length. lia. }
  intros i Hi. unfold leaf_elem. cbn [opadd option_map oload].
  destruct (Z.lt_ge_cases i (dt_n sd)) as [Lt|Ge].
  - destruct (Hs' i ltac:(lia)) as (bs & Eb & Lb). exists bs. split.
    { rewrite nth_error_app1 by lia. exact Eb. }
    unfold leaf_elem in Lb. cbn [opadd option_map oload] in Lb. rewrite Enb in Lb. fold nb.
    apply (load_move m m' (padd sp (eaddr sd i)) (padd dp (eaddr dd i)) nb bs Lb).
    intros j Hj. rewrite !padd_padd. specialize (V i j ltac:(lia) Hj). rewrite !padd_padd in V.
    unfold eaddr in *. rewrite !Z.mul_0_r, !Z.add_0_r, !Z.add_assoc in V. exact V.
  - destruct (Hd' i Hi) as (bs & Eb & Lb). exists bs. split.
    { rewrite nth_error_app2 by lia. rewrite nth_error_skipn'. replace (length es' + (Z.to_nat i - length es'))%nat with (Z.to_nat i) by lia. exact Eb. }
    unfold leaf_elem in Lb. cbn [opadd option_map oload] in Lb. fold nb in Lb |- *.
    apply (load_move m m' (padd dp (eaddr dd i)) (padd dp (eaddr dd i)) nb bs Lb).
    intros j Hj. rewrite !padd_padd. apply F. intros (i' & Hi' & j' & Hj' & E1). rewrite !padd_padd in E1.
    assert (i = i'); [|lia]. unfold eaddr in *.
    apply (elems_apart_disjoint (padd dp (dt_off dd)) (dt_n dd) nb (dt_stride dd) i i' (padd dp (dt_off dd + dt_stride dd * i + j)) Ap); try lia.
    + exists j. split; [exact Hj|]. rewrite !padd_padd. f_equal. lia.
    + exists j'. split; [exact Hj'|]. rewrite !padd_padd. rewrite E1. f_equal. lia.
Qed.

(** ---- named children and their values ---- *)
Definition vals (m : mem) (des : list (str * node)) (dvs : list (str * tree leafval)) : Prop :=
  Forall2 (fun e ev => fst ev = fst e /\ nvalue m (snd e) = Ok (snd ev)) des dvs.
Lemma vals_mget m des dvs k : vals m des dvs ->
  match mget des k, mget dvs k with
  | Some d, Some v => nvalue m d = Ok v
  | None, None => True
  | _, _ => False
  end.
Proof.
  induction 1 as [|[k0 d0] [k1 v1] des dvs [Ek Ev] _ IH]; cbn [mget fst snd] in *; [exact I|]. subst k1.
  destruct (str_eqb k k0); [exact Ev|exact IH].
Qed.
Lemma vals_frame m m' des dvs : vals m des dvs ->
  (forall c q, In c (map snd des) -> touches c q -> rd m' q = rd m q) -> vals m' des dvs.
Proof.
  induction 1 as [|[k0 d0] [k1 v1] des dvs [Ek Ev] _ IH]; intros F; constructor.
  - split; [exact Ek|]. cbn [snd] in *. apply (nvalue_frame d0 m m' v1 Ev). intros q T. eapply F; [left; reflexivity|exact T].
  - apply IH. intros c q I. apply F. right; exact I.
Qed.
Lemma vals_mset m m1 des k dk v' : forall dvs, vals m des dvs -> kids_apart (map snd des) -> mget des k = Some dk ->
  nvalue m1 dk = Ok v' -> (forall q, ~ touches dk q -> rd m1 q = rd m q) -> vals m1 des (mset dvs k v').
Proof.
  intros dvs V. induction V as [|[k0 d0] [k1 v1] des dvs [Ek Ev] Vr IH]; intros Ap G E F; [discriminate|].
  cbn [mget mset fst snd map] in *. subst k1. inversion Ap as [|? ? A1 A2]; subst. rewrite Forall_forall in A1.
  destruct (str_eqb_spec k k0) as [->|N].
  - injection G as ->. constructor; [split; [reflexivity|exact E]|].
    apply (vals_frame m m1 des dvs Vr). intros c q I T. apply F. intros T'. exact (A1 c I q (conj T' T)).
  - constructor.
    + split; [reflexivity|]. cbn [snd]. apply (nvalue_frame d0 m m1 v1 Ev). intros q T. apply F. intros T'.
      apply mget_In in G. apply (in_map snd) in G. exact (A1 dk G q (conj T T')).
    + apply IH; auto.
Qed.

(** ---- the loops ---- *)
Fixpoint nuc_es (des : list (str * node)) (m : mem) (l : list (str * node)) : outcome mem :=
  match l with
  | [] => Ok m
  | (k, c) :: r =>
      do m' <- match mget des k with Some d => nupdate_compatible m d c | None => Ok m end;
      nuc_es des m' r
  end.
Fixpoint nuc_ks (m : mem) (dks l : list node) {struct l} : outcome mem :=
  match l, dks with
  | c :: r, d :: dr => do m' <- nupdate_compatible m d c; nuc_ks m' dr r
  | _, _ => Ok m
  end.
Lemma nuc_obj m h des h' ses : nupdate_compatible m (NObj h des) (NObj h' ses) = nuc_es des m ses.
Proof.
  cbn [nupdate_compatible]. revert m. induction ses as [|[k c] ses IH]; intros m; [reflexivity|]. cbn [nuc_es].
  destruct (mget des k) as [d|]; [|apply IH]. destruct (nupdate_compatible m d c); cbn [obind]; [apply IH|reflexivity..].
Qed.
Lemma nuc_lst m h dks h' sks : nupdate_compatible m (NLst h dks) (NLst h' sks) = nuc_ks m dks sks.
Proof. reflexivity. Qed.
Fixpoint vtake_es (des l : list (str * tree leafval)) : list (str * tree leafval) :=
  match l with
  | [] => des
  | (k, c) :: r => vtake_es (match mget des k with Some dk => mset des k (vtake dk c) | None => des end) r
  end.
Fixpoint vtake_ts (ds l : list (tree leafval)) {struct l} : list (tree leafval) :=
  match l, ds with
  | c :: r, d0 :: dr => vtake d0 c :: vtake_ts dr r
  | _, _ => ds
  end.
Lemma vtake_obj des ses : vtake (TObj des) (TObj ses) = TObj (vtake_es des ses).
Proof. reflexivity. Qed.
Lemma vtake_lst ds ss : vtake (TList ds) (TList ss) = TList (vtake_ts ds ss).
Proof. reflexivity. Qed.
Lemma fits_takes m dh dd sh sd dv sv : leaf_value m dh dd = Ok dv -> leaf_value m sh sd = Ok sv ->
  is_empty sd = false -> takes dd sd = fits_into dv sv.
Proof.
  intros Ed Es Em.
  destruct (leaf_value_inv _ _ _ _ Es) as [[T _]|(Ds & Hs & es' & -> & [Ls _])].
  { unfold is_empty in Em. rewrite T in Em. discriminate. }
  destruct (leaf_value_inv _ _ _ _ Ed) as [[T ->]|(Dd & Hd & es & -> & [Ld _])]; cbn [fits_into]; unfold takes.
  - rewrite T. destruct (dt_id sd); try discriminate; reflexivity.
  - destruct (tid_eqb (dt_id dd) (dt_id sd)); cbn [andb]; [|reflexivity].
    destruct (Nat.leb_spec (length es') (length es)); [|]; lia.
Qed.

Definition take_post m dest dv sv m' : Prop :=
  same_shape m m' /\ (forall q, ~ touches dest q -> rd m' q = rd m q) /\ nvalue m' dest = Ok (vtake dv sv).
Lemma std_obj h es : Forall std_leaf (tleaves (nschema (NObj h es))) <->
  Forall (fun c => Forall std_leaf (tleaves (nschema c))) (map snd es).
Proof.
  cbn [nschema tleaves]. rewrite Forall_flat_map'. rewrite !Forall_map. reflexivity.
Qed.
Lemma std_lst h ks : Forall std_leaf (tleaves (nschema (NLst h ks))) <->
  Forall (fun c => Forall std_leaf (tleaves (nschema c))) ks.
Proof.
  cbn [nschema tleaves]. rewrite Forall_flat_map'. rewrite !Forall_map. reflexivity.
Qed.
Lemma nuc_ok src : forall m dest dv sv,
  nvalue m dest = Ok dv -> nvalue m src = Ok sv -> sep dest -> Forall std_leaf (tleaves (nschema dest)) ->
  (forall q, touches dest q -> ~ touches src q) ->
  exists m', nupdate_compatible m dest src = Ok m' /\ take_post m dest dv sv m'.
Proof.
  unfold take_post.
  induction src as [sh sd|sh ses IH|sh sks IH] using node_ind'; intros m dest dv sv Ed Es Sp Std Dj.
  - apply nvalue_leaf in Es. destruct Es as (slv & -> & Es). cbn [nupdate_compatible].
    assert (Triv : forall P : Prop, (vtake dv (TLeaf slv) = dv) ->
       exists m', Ok m = Ok m' /\ same_shape m m' /\ (forall q, ~ touches dest q -> rd m' q = rd m q) /\ nvalue m' dest = Ok (vtake dv (TLeaf slv))).
    { intros _ X. exists m. split; [reflexivity|]. split; [apply same_shape_refl|]. split; [reflexivity|]. rewrite X. exact Ed. }
    destruct (is_empty sd) eqn:Em.
    { apply (Triv True). unfold is_empty in Em. apply tid_eqb_eq in Em. rewrite leaf_value_empty in Es by exact Em. injection Es as <-.
      cbn [vtake]. destruct dv as [dv0| |]; try reflexivity. destruct dv0 as [[[t en] es]|]; reflexivity. }
    destruct dest as [dh dd|dh des|dh dks].
    + apply nvalue_leaf in Ed. destruct Ed as (dlv & -> & Ed). cbn [vtake].
      rewrite (fits_takes _ _ _ _ _ _ _ Ed Es Em). destruct (fits_into dlv slv) eqn:Fi.
      * inversion Std; subst.
        destruct (leaf_take_ok m dh dd sh sd dlv slv Ed Es Em) as (m' & E' & Sh & F & V); auto.
        { rewrite (fits_takes _ _ _ _ _ _ _ Ed Es Em). exact Fi. }
        { intros q T1 T2. apply (Dj q); apply touches_leaf; assumption. }
        exists m'. split; [exact E'|]. split; [exact Sh|]. split.
        { intros q Nq. apply F. intros T. apply Nq. apply touches_leaf. exact T. }
        apply nvalue_leaf. eexists. split; [reflexivity|exact V].
      * exists m. split; [reflexivity|]. split; [apply same_shape_refl|]. split; [reflexivity|].
        apply nvalue_leaf. eexists. split; [reflexivity|exact Ed].
    + apply (Triv True). apply nvalue_obj in Ed. destruct Ed as (vs & -> & _). reflexivity.
    + apply (Triv True). apply nvalue_lst in Ed. destruct Ed as (vs & -> & _). reflexivity.
  - apply nvalue_obj in Es. destruct Es as (svs & -> & Es).
    assert (Triv : (vtake dv (TObj svs) = dv) ->
       exists m', Ok m = Ok m' /\ same_shape m m' /\ (forall q, ~ touches dest q -> rd m' q = rd m q) /\ nvalue m' dest = Ok (vtake dv (TObj svs))).
    { intros X. exists m. split; [reflexivity|]. split; [apply same_shape_refl|]. split; [reflexivity|]. rewrite X. exact Ed. }
    destruct dest as [dh dd|dh des|dh dks].
    { apply Triv. apply nvalue_leaf in Ed. destruct Ed as (vs & -> & _). reflexivity. }
    2: { apply Triv. apply nvalue_lst in Ed. destruct Ed as (vs & -> & _). reflexivity. }
    clear Triv. rewrite nuc_obj. apply nvalue_obj in Ed. destruct Ed as (dvs & -> & Ed). rewrite vtake_obj.
    apply sep_obj in Sp. destruct Sp as [Ap Sp]. apply std_obj in Std.
    assert (Dj' : forall c s q, In c (map snd des) -> In s (map snd ses) -> touches c q -> ~ touches s q).
    { intros c s q I J T1 T2. apply in_map_iff in I, J. destruct I as ([k1 c1] & <- & I), J as ([k2 s2] & <- & J).
      apply (Dj q); apply touches_obj; eauto. }
    cut (exists m', nuc_es des m ses = Ok m' /\ same_shape m m' /\
           (forall q, ~ Exists (fun c => touches c q) (map snd des) -> rd m' q = rd m q) /\ vals m' des (vtake_es dvs svs)).
    { intros (m' & A & B & C & D). exists m'. split; [exact A|]. split; [exact B|]. split.
      - intros q Nq. apply C. intros X. apply Nq. apply touches_obj. apply Exists_exists in X. destruct X as (c & Ic & T).
        apply in_map_iff in Ic. destruct Ic as ([k c'] & <- & I). exists k, c'. auto.
      - apply nvalue_obj. eexists. split; [reflexivity|exact D]. }
    clear Dj. revert m dvs svs Ed Es Dj'. induction ses as [|[k s] ses IHes]; intros m dvs svs Ed Es Dj'.
    { inversion Es; subst. exists m. split; [reflexivity|]. split; [apply same_shape_refl|]. split; [reflexivity|exact Ed]. }
    inversion Es as [|? [k' sv] ? svs' [Ek Esv] Er]; subst. inversion IH as [|? ? Hs Hr]; subst. cbn [fst snd map] in *. subst k'.
    cbn [nuc_es vtake_es]. pose proof (vals_mget m des dvs k Ed) as G.
    destruct (mget des k) as [dk|] eqn:Gd, (mget dvs k) as [dvk|] eqn:Gv; try contradiction.
    + assert (Ik : In dk (map snd des)) by (apply mget_In in Gd; apply (in_map snd) in Gd; exact Gd).
      rewrite Forall_forall in Sp, Std.
      destruct (Hs m dk dvk sv G Esv (Sp dk Ik) (Std dk Ik)) as (m1 & E1 & Sh1 & F1 & V1).
      { intros q. apply Dj'; [exact Ik|left; reflexivity]. }
      rewrite E1. cbn [obind].
      destruct (IHes Hr m1 (mset dvs k (vtake dvk sv)) svs') as (m2 & E2 & Sh2 & F2 & V2).
      { eapply vals_mset; eauto. }
      { apply (vals_frame m m1 ses svs' Er). intros c q I T. apply F1. intros T'.
        exact (Dj' dk c q Ik (or_intror I) T' T). }
      { intros c s' q I J. apply Dj'; [exact I|right; exact J]. }
      exists m2. split; [exact E2|]. split; [eapply same_shape_trans; eauto|]. split; [|exact V2].
      intros q Nq. rewrite F2 by exact Nq. apply F1. intros T. apply Nq. apply Exists_exists. eauto.
    + cbn [obind]. apply IHes; auto. intros c s' q I J. apply Dj'; [exact I|right; exact J].
  - apply nvalue_lst in Es. destruct Es as (svs & -> & Es).
    assert (Triv : (vtake dv (TList svs) = dv) ->
       exists m', Ok m = Ok m' /\ same_shape m m' /\ (forall q, ~ touches dest q -> rd m' q = rd m q) /\ nvalue m' dest = Ok (vtake dv (TList svs))).
    { intros X. exists m. split; [reflexivity|]. split; [apply same_shape_refl|]. split; [reflexivity|]. rewrite X. exact Ed. }
    destruct dest as [dh dd|dh des|dh dks].
    { apply Triv. apply nvalue_leaf in Ed. destruct Ed as (vs & -> & _). reflexivity. }
    { apply Triv. apply nvalue_obj in Ed. destruct Ed as (vs & -> & _). reflexivity. }
    clear Triv. rewrite nuc_lst. apply nvalue_lst in Ed. destruct Ed as (dvs & -> & Ed). rewrite vtake_lst.
    apply sep_lst in Sp. destruct Sp as [Ap Sp]. apply std_lst in Std.
    assert (Dj' : forall c s q, In c dks -> In s sks -> touches c q -> ~ touches s q).
    { intros c s q I J T1 T2. apply (Dj q); apply touches_lst; eauto. }
    cut (exists m', nuc_ks m dks sks = Ok m' /\ same_shape m m' /\
           (forall q, ~ Exists (fun c => touches c q) dks -> rd m' q = rd m q) /\
           Forall2 (fun n v => nvalue m' n = Ok v) dks (vtake_ts dvs svs)).
    { intros (m' & A & B & C & D). exists m'. split; [exact A|]. split; [exact B|]. split.
      - intros q Nq. apply C. intros X. apply Nq. apply touches_lst. apply Exists_exists in X. exact X.
      - apply nvalue_lst. eexists. split; [reflexivity|exact D]. }
    clear Dj. revert m dks dvs svs Ed Es Dj' Ap Sp Std. induction sks as [|s sks IHks]; intros m dks dvs svs Ed Es Dj' Ap Sp Std.
    { inversion Es; subst. exists m. split; [reflexivity|]. split; [apply same_shape_refl|]. split; [reflexivity|].
      exact Ed. }
    inversion Es as [|? sv ? svs' Esv Er]; subst. inversion IH as [|? ? Hs Hr]; subst.
    cbn [nuc_ks vtake_ts]. inversion Ed as [|d dv0 dks' dvs' Ed0 Edr]; subst.
    { exists m. split; [reflexivity|]. split; [apply same_shape_refl|]. split; [reflexivity|constructor]. }
    inversion Ap as [|? ? A1 A2]; subst. inversion Sp as [|? ? S1 S2]; subst. inversion Std as [|? ? D1 D2]; subst.
    destruct (Hs m d dv0 sv Ed0 Esv S1 D1) as (m1 & E1 & Sh1 & F1 & V1).
    { intros q. apply Dj'; left; reflexivity. }
    rewrite E1. cbn [obind]. rewrite Forall_forall in A1.
    assert (Fa : forall ns vs, (forall c q, In c ns -> touches c q -> ~ touches d q) ->
        Forall2 (fun n v => nvalue m n = Ok v) ns vs -> Forall2 (fun n v => nvalue m1 n = Ok v) ns vs).
    { intros ns vs H F. induction F as [|c w ns ws Hc _ IHf]; constructor.
      - apply (nvalue_frame c m m1 w Hc). intros q T. apply F1. exact (H c q (or_introl eq_refl) T).
      - apply IHf. intros x q I. apply H. right; exact I. }
    destruct (IHks Hr m1 dks' dvs' svs') as (m2 & E2 & Sh2 & F2 & V2); auto.
    { apply Fa; [|exact Edr]. intros c q I T T'. exact (A1 c I q (conj T' T)). }
    { apply Fa; [|exact Er]. intros c q I T T'. exact (Dj' d c q (or_introl eq_refl) (or_intror I) T' T). }
    { intros c s' q I J. apply Dj'; right; assumption. }
    exists m2. split; [exact E2|]. split; [eapply same_shape_trans; eauto|]. split.
    + intros q Nq. rewrite F2, F1; auto.
    + constructor; [|exact V2]. apply (nvalue_frame d m1 m2 _ V1). intros q T. apply F2. intros X.
      apply Exists_exists in X. destruct X as (c & Ic & T'). exact (A1 c Ic q (conj T T')).
Qed.
