(** What the update specifications say about paths, and the laws of update and
    update_compatible in terms of values. *)
From Verif Require Import Base DType SpecTree PathFacts SchemaInv Mem MemFacts Node SpecNode NodeFacts NodeCompact NodeSet NodeEndian NodeUpdate NodeMerge.
Local Open Scope Z_scope.

Lemma mlist_ext {V} (l1 l2 : list (str * V)) : map fst l1 = map fst l2 -> NoDup (map fst l1) ->
  (forall k, mget l1 k = mget l2 k) -> l1 = l2.
Proof.
  revert l2. induction l1 as [|[k v] l1 IH]; intros [|[k' v'] l2] N Nd H; try discriminate; [reflexivity|].
  cbn [map fst] in *. injection N as <- N. inversion Nd as [|? ? Nk Nd']; subst.
  pose proof (H k) as Hk. cbn [mget] in Hk. rewrite str_eqb_refl in Hk. injection Hk as <-. f_equal.
  apply IH; auto. intros x. specialize (H x). cbn [mget] in H. destruct (str_eqb_spec x k) as [Ex|Nx]; [|exact H].
  rewrite Ex. rewrite (proj2 (mget_None_notin l1 k)) by exact Nk. symmetry. apply mget_None_notin. rewrite <- N. exact Nk.
Qed.
Lemma mset_names_in {V} (l : list (str * V)) k v : map fst (mset l k v) =
  match mget l k with Some _ => map fst l | None => map fst l ++ [k] end.
Proof.
  induction l as [|[k0 v0] l IH]; [reflexivity|]. cbn [mset mget map fst]. destruct (str_eqb_spec k k0) as [->|N]; [reflexivity|].
  cbn [map fst app]. rewrite IH. destruct (mget l k); reflexivity.
Qed.
Definition entry (l : list (str * tree leafval)) (k : str) : tree leafval :=
  match mget l k with Some x => x | None => TLeaf None end.
Lemma vup_es_get ses : forall des k, NoDup (map fst ses) ->
  mget (vup_es des ses) k = match mget ses k with Some c => Some (vupdate (entry des k) c) | None => mget des k end.
Proof.
  induction ses as [|[k0 c] ses IH]; intros des k Nd; [reflexivity|]. cbn [map fst] in Nd. inversion Nd as [|? ? Nk Nd']; subst.
  cbn [vup_es mget]. rewrite IH by exact Nd'. destruct (str_eqb_spec k k0) as [->|N].
  - rewrite (proj2 (mget_None_notin ses k0)) by exact Nk. rewrite mget_mset_same. reflexivity.
  - unfold entry. rewrite mget_mset_other by exact N. reflexivity.
Qed.
Definition fresh_name (des : list (str * tree leafval)) (k : str) : bool := match mget des k with None => true | Some _ => false end.
Lemma vup_es_names ses : forall des, NoDup (map fst ses) ->
  map fst (vup_es des ses) = map fst des ++ filter (fresh_name des) (map fst ses).
Proof.
  induction ses as [|[k0 c] ses IH]; intros des Nd; [cbn; rewrite app_nil_r; reflexivity|].
  cbn [map fst] in Nd. inversion Nd as [|? ? Nk Nd']; subst.
  cbn [vup_es map fst filter]. rewrite IH by exact Nd'. rewrite mset_names_in. unfold fresh_name at 2.
  assert (X : filter (fresh_name (mset des k0 (vupdate (entry des k0) c))) (map fst ses) = filter (fresh_name des) (map fst ses)).
  { clear -Nk. induction (map fst ses) as [|x l IHl]; [reflexivity|]. cbn [filter].
    assert (x <> k0) by (intros ->; apply Nk; left; reflexivity).
    assert (Y : fresh_name (mset des k0 (vupdate (entry des k0) c)) x = fresh_name des x)
      by (unfold fresh_name; rewrite mget_mset_other by assumption; reflexivity). rewrite Y.
    rewrite IHl by (intros I; apply Nk; right; exact I). reflexivity. }
  unfold entry in X. rewrite X. destruct (mget des k0); [reflexivity|]. rewrite <- app_assoc. reflexivity.
Qed.
Lemma vtake_es_get ses : forall des k, NoDup (map fst ses) ->
  mget (vtake_es des ses) k = match mget des k, mget ses k with Some d, Some c => Some (vtake d c) | x, _ => x end.
Proof.
  induction ses as [|[k0 c] ses IH]; intros des k Nd; [cbn; destruct (mget des k); reflexivity|].
  cbn [map fst] in Nd. inversion Nd as [|? ? Nk Nd']; subst. cbn [vtake_es mget]. rewrite IH by exact Nd'.
  destruct (str_eqb_spec k k0) as [->|N].
  - rewrite (proj2 (mget_None_notin ses k0)) by exact Nk. destruct (mget des k0) as [d|] eqn:E; [rewrite mget_mset_same|rewrite E]; reflexivity.
  - destruct (mget des k0) as [d|]; [rewrite mget_mset_other by exact N|]; reflexivity.
Qed.
Lemma vtake_es_names ses : forall des, map fst (vtake_es des ses) = map fst des.
Proof.
  induction ses as [|[k0 c] ses IH]; intros des; [reflexivity|]. cbn [vtake_es]. rewrite IH.
  destruct (mget des k0) as [d|] eqn:E; [|reflexivity]. rewrite mset_names_in, E. reflexivity.
Qed.
Lemma vup_ts_nth ss : forall ds i, nth_error (vup_ts ds ss) i =
  match nth_error ss i with
  | Some c => Some (vupdate (match nth_error ds i with Some x => x | None => TLeaf None end) c)
  | None => nth_error ds i
  end.
Proof.
  induction ss as [|c ss IH]; intros ds i; [destruct i; reflexivity|]. cbn [vup_ts].
  destruct ds as [|d ds], i as [|i]; cbn [nth_error]; try reflexivity; rewrite IH; destruct i; reflexivity.
Qed.
Lemma vtake_ts_nth ss : forall ds i, nth_error (vtake_ts ds ss) i =
  match nth_error ds i, nth_error ss i with
  | Some d, Some c => Some (vtake d c)
  | x, _ => x
  end.
Proof.
  induction ss as [|c ss IH]; intros ds i; [destruct ds, i; cbn; try reflexivity; destruct (nth_error ds i); reflexivity|].
  destruct ds as [|d ds], i as [|i]; cbn [nth_error vtake_ts]; try reflexivity. apply IH.
Qed.
Lemma vtake_ts_length ss : forall ds, length (vtake_ts ds ss) = length ds.
Proof. induction ss as [|c ss IH]; intros [|d ds]; cbn [vtake_ts length]; try reflexivity. rewrite IH. reflexivity. Qed.

(** ---- update: what is found under a path afterwards ---- *)
(** A leaf of the source is found at the same path, as the first elements there. *)
Lemma vupdate_brings s : forall d p t en es, names_unique s ->
  tlookup s p = Some (TLeaf (Some (t, en, es))) ->
  exists en' es', tlookup (vupdate d s) p = Some (TLeaf (Some (t, en', es'))) /\ firstn (length es) es' = es /\
    (forall dt den des, tlookup d p = Some (TLeaf (Some (dt, den, des))) -> dt = t -> (length es <= length des)%nat ->
       en' = den /\ skipn (length es) es' = skipn (length es) des).
Proof.
  induction s as [lv|ses IH|ss _] using tree_ind''; intros d p t en es Nu E.
  - destruct p as [|k p]; [|discriminate]. cbn [tlookup] in E. injection E as ->. cbn [vupdate].
    assert (X : exists en' es', Some (TLeaf (Some (t, en, es))) = Some (TLeaf (Some (t, en', es'))) /\ firstn (length es) es' = es) by
      (exists en, es; split; [reflexivity|apply firstn_all]).
    assert (Fn : firstn (length es) es = es) by apply firstn_all.
    destruct d as [dlv| |]; try (exists en, es; split; [reflexivity|split; [exact Fn|discriminate]]).
    destruct dlv as [[[t' en'] es']|]; cbn [fits_into]; [|exists en, es; split; [reflexivity|split; [exact Fn|discriminate]]].
    destruct (tid_eqb t' t) eqn:Et; cbn [andb].
    2:{ exists en, es. split; [reflexivity|]. split; [exact Fn|]. intros dt den des H. injection H as -> -> ->. intros ->.
        rewrite tid_eqb_refl in Et. discriminate. }
    apply tid_eqb_eq in Et. subst t'. destruct (Nat.leb_spec (length es) (length es')) as [Le|Gt].
    + cbn [lv_overwrite tlookup]. exists en', (es ++ skipn (length es) es'). split; [reflexivity|]. split.
      * rewrite firstn_app, Nat.sub_diag, firstn_all. cbn. apply app_nil_r.
      * intros dt den des H _ _. injection H as <- <- <-. split; [reflexivity|]. rewrite skipn_app, skipn_all, Nat.sub_diag. reflexivity.
    + exists en, es. split; [reflexivity|]. split; [exact Fn|]. intros dt den des H _ L. injection H as -> -> ->. lia.
  - destruct p as [|k p]; [discriminate|]. destruct ses as [|e ses]; [discriminate|]. inversion Nu as [|? Nd Nus|]; subst.
    rewrite vup_obj. cbn [tlookup] in E |- *. rewrite (vup_es_get (e :: ses)) by exact Nd.
    destruct (mget (e :: ses) k) as [c|] eqn:G; [|discriminate]. setoid_rewrite G.
    apply mget_In in G. rewrite Forall_forall in IH, Nus. specialize (IH _ G). specialize (Nus _ G). cbn [snd] in *.
    destruct (IH (entry (tentries d) k) p t en es Nus E) as (en' & es' & A & B & C). exists en', es'. split; [exact A|]. split; [exact B|].
    intros dt den des H. apply C. unfold entry. destruct d as [|des0|]; cbn [tlookup tentries] in *; try discriminate.
    destruct (mget des0 k); [exact H|discriminate].
  - destruct p; discriminate.
Qed.
(** Whatever the source says nothing about stays. *)
Lemma vupdate_keeps s : forall d p k r ses x, names_unique s ->
  tlookup s p = Some (TObj ses) -> mget ses k = None -> tlookup d (p ++ k :: r) = Some x ->
  tlookup (vupdate d s) (p ++ k :: r) = Some x.
Proof.
  induction s as [lv|ses IH|ss _] using tree_ind''; intros d p k r ses0 x Nu E N H.
  - destruct p; discriminate.
  - destruct ses as [|e ses]; [exact H|]. rewrite vup_obj. inversion Nu as [|? Nd Nus|]; subst.
    assert (Dd : exists des, d = TObj des) by (destruct d, p; try discriminate; eauto). destruct Dd as [des ->]. cbn [tentries].
    destruct p as [|k0 p]; cbn [app tlookup] in *.
    + injection E as <-. rewrite (vup_es_get (e :: ses)) by exact Nd. rewrite N. exact H.
    + rewrite (vup_es_get (e :: ses)) by exact Nd. destruct (mget (e :: ses) k0) as [c|] eqn:G; [|discriminate].
      destruct (mget des k0) as [dk|] eqn:Gd; [|discriminate]. unfold entry. rewrite Gd.
      apply mget_In in G. rewrite Forall_forall in IH, Nus. apply (IH _ G dk p k r ses0 x (Nus _ G) E N H).
  - destruct p; discriminate.
Qed.
(** Names: those of the destination in their order, then the new ones in the source's order. *)
Lemma vupdate_names des ses : names_unique (TObj ses) -> ses <> [] ->
  exists es, vupdate (TObj des) (TObj ses) = TObj es /\
    map fst es = map fst des ++ filter (fun k => match mget des k with None => true | Some _ => false end) (map fst ses).
Proof.
  intros Nu Ne. inversion Nu as [|? Nd _|]; subst. destruct ses as [|e ses]; [congruence|]. rewrite vup_obj. eexists. split; [reflexivity|].
  apply (vup_es_names (e :: ses)). exact Nd.
Qed.
(** Updating again from the same source changes nothing. *)
Lemma lv_fix dv sv : fits_into dv sv = true -> fits_into (lv_overwrite dv sv) sv = true /\ lv_overwrite (lv_overwrite dv sv) sv = lv_overwrite dv sv.
Proof.
  destruct dv as [[[t en] es]|], sv as [[[t' en'] es']|]; cbn [fits_into lv_overwrite]; try discriminate.
  intros H. apply andb_true_iff in H. destruct H as [H1 H2]. apply Nat.leb_le in H2. split.
  - rewrite H1. cbn [andb]. apply Nat.leb_le. rewrite app_length. lia.
  - rewrite skipn_app, skipn_all, Nat.sub_diag. reflexivity.
Qed.
Lemma vupdate_unique s : forall d, names_unique d -> names_unique s -> names_unique (vupdate d s).
Proof.
  assert (En : names_unique (@TLeaf leafval None)) by constructor.
  induction s as [lv|ses IH|ss IH] using tree_ind''; intros d Hd Hs.
  - cbn [vupdate]. destruct lv as [sv|]; [|exact Hd]. destruct d; constructor.
  - destruct ses as [|e ses]; [exact Hd|]. rewrite vup_obj. inversion Hs as [|? Nd Nus|]; subst.
    assert (Hde : NoDup (map fst (tentries d)) /\ Forall (fun x => names_unique (snd x)) (tentries d)).
    { destruct d; cbn [tentries]; try (split; constructor). inversion Hd; subst. auto. }
    destruct Hde as [D1 D2]. clear Hd Hs Nd. revert D1 D2. generalize (tentries d). generalize dependent (e :: ses). clear.
    intros l IH Nus. induction l as [|[k c] l IHl]; intros des D1 D2; cbn [vup_es]; [constructor; assumption|].
    inversion IH as [|? ? Hc Hr]; subst. inversion Nus as [|? ? N1 N2]; subst. cbn [snd] in *.
    apply IHl; auto.
    + apply nodup_mset. exact D1.
    + apply Forall_forall. intros [k2 x] I.
      assert (Mg : mget (mset des k (vupdate (match mget des k with Some dk => dk | None => TLeaf None end) c)) k2 = Some x)
        by (apply mget_Some_In_nodup; [apply nodup_mset; exact D1|exact I]).
      rewrite mget_mset in Mg. rewrite Forall_forall in D2. destruct (str_eqb_spec k2 k) as [->|].
      * injection Mg as <-. cbn [snd]. apply Hc; [|exact N1]. destruct (mget des k) as [dk|] eqn:Gd; [|constructor].
        apply mget_In in Gd. apply (D2 _ Gd).
      * apply mget_In in Mg. apply (D2 _ Mg).
  - inversion Hs as [| |? Nus]; subst. destruct ss as [|s ss]; [exact Hd|].
    assert (X : exists ds, vupdate d (TList (s :: ss)) = TList (vup_ts ds (s :: ss)) /\ Forall names_unique ds).
    { destruct d; [exists []; auto|exists []; auto|exists ts; inversion Hd; subst; auto]. }
    destruct X as (ds & -> & D). constructor. clear Hs Hd. generalize dependent (s :: ss). intros l IH Nus. revert ds D.
    induction l as [|c l IHl]; intros ds D; cbn [vup_ts]; [exact D|].
    inversion IH as [|? ? Hc Hr]; subst. inversion Nus as [|? ? N1 N2]; subst.
    destruct ds as [|d0 ds]; [constructor; auto|]. inversion D; subst. constructor; auto.
Qed.
Lemma filter_none {A} (f : A -> bool) l : (forall x, In x l -> f x = false) -> filter f l = [].
Proof.
  induction l as [|x l IH]; intros H; [reflexivity|]. cbn [filter]. rewrite (H x (or_introl eq_refl)). apply IH.
  intros y I. apply H. right; exact I.
Qed.
Lemma vupdate_idempotent s : forall d, names_unique d -> names_unique s -> vupdate (vupdate d s) s = vupdate d s.
Proof.
  induction s as [lv|ses IH|ss IH] using tree_ind''; intros d Hd Hs.
  - cbn [vupdate]. destruct lv as [sv|]; [|reflexivity].
    assert (Sf : fits_into (Some sv) (Some sv) = true /\ lv_overwrite (Some sv) (Some sv) = Some sv).
    { destruct sv as [[t en] es]. cbn. rewrite tid_eqb_refl, Nat.leb_refl, skipn_all, app_nil_r. auto. }
    destruct Sf as [S1 S2]. destruct d as [dv| |]; try (rewrite S1, S2; reflexivity).
    destruct (fits_into dv (Some sv)) eqn:F; [|rewrite S1, S2; reflexivity].
    destruct (lv_fix _ _ F) as [L1 L2]. rewrite L1, L2. reflexivity.
  - destruct ses as [|e ses]; [reflexivity|]. pose proof (vupdate_unique (TObj (e :: ses)) d Hd Hs) as U.
    pose proof (vupdate_unique (TObj (e :: ses)) _ U Hs) as UU.
    rewrite !vup_obj in *. cbn [tentries] in *. f_equal. inversion Hs as [|? Nd Nus|]; subst. inversion U as [|? Nd1 _|]; subst. inversion UU as [|? Nd2 _|]; subst.
    apply mlist_ext; [|exact Nd2|].
    + rewrite (vup_es_names (e :: ses) (vup_es (tentries d) (e :: ses))) by exact Nd.
      replace (filter _ _) with (@nil str); [apply app_nil_r|]. symmetry.
      assert (forall k, In k (map fst (e :: ses)) -> fresh_name (vup_es (tentries d) (e :: ses)) k = false).
      { intros k I. unfold fresh_name. rewrite (vup_es_get (e :: ses)) by exact Nd. destruct (mget (e :: ses) k) eqn:G; [reflexivity|].
        exfalso. apply mget_None_notin in G. contradiction. }
      apply filter_none. exact H.
    + intros k. rewrite !(vup_es_get (e :: ses)) by exact Nd. destruct (mget (e :: ses) k) as [c|] eqn:G; [|reflexivity].
      f_equal. unfold entry at 1. rewrite (vup_es_get (e :: ses)) by exact Nd. rewrite G.
      apply mget_In in G. rewrite Forall_forall in IH, Nus. apply (IH _ G); [|apply (Nus _ G)].
      unfold entry. destruct (mget (tentries d) k) as [x|] eqn:Gd; [|constructor]. apply mget_In in Gd.
      destruct d as [|es|]; cbn [tentries] in Gd; try contradiction. inversion Hd as [|? ? F|]; subst; rewrite Forall_forall in F.
      apply (F (k, x)). exact Gd.
  - inversion Hs as [| |? Nus]; subst. destruct ss as [|s ss]; [reflexivity|].
    assert (X : exists ds, vupdate d (TList (s :: ss)) = TList (vup_ts ds (s :: ss)) /\ Forall names_unique ds).
    { destruct d; [exists []; auto|exists []; auto|exists ts; inversion Hd; subst; auto]. }
    destruct X as (ds & -> & D). rewrite vup_lst. f_equal. clear Hs Hd. generalize dependent (s :: ss). intros l IH Nus. revert ds D.
    induction l as [|c l IHl]; intros ds D; [reflexivity|].
    inversion IH as [|? ? Hc Hr]; subst. inversion Nus as [|? ? N1 N2]; subst.
    destruct ds as [|d0 ds]; cbn [vup_ts].
    + rewrite Hc by (assumption || constructor). f_equal. apply IHl; auto.
    + inversion D; subst. rewrite Hc by assumption. f_equal. apply IHl; auto.
Qed.

(** ---- update_compatible ---- *)
(** Same names, positions and kinds everywhere. *)
Definition shape {A} (t : tree A) : tree unit := tmap (fun _ => tt) t.
Lemma shape_es_eq {A B} (e1 : list (str * tree A)) (e2 : list (str * tree B)) :
  Forall2 (fun a b => fst a = fst b /\ shape (snd a) = shape (snd b)) e1 e2 -> shape (TObj e1) = shape (TObj e2).
Proof.
  intros H. cbn [shape tmap]. unfold shape. cbn [tmap]. f_equal. induction H as [|a b l l' [X Y] _ IH]; cbn [map]; [reflexivity|].
  rewrite X. unfold shape in Y. rewrite Y. f_equal. exact IH.
Qed.
Lemma mset_shape (l : list (str * tree leafval)) k v v0 : mget l k = Some v0 -> shape v = shape v0 ->
  Forall2 (fun a b => fst a = fst b /\ shape (snd a) = shape (snd b)) (mset l k v) l.
Proof.
  induction l as [|[k0 x] l IH]; intros G E; [discriminate|]. cbn [mget mset] in *.
  assert (R : forall l : list (str * tree leafval), Forall2 (fun a b => fst a = fst b /\ shape (snd a) = shape (snd b)) l l)
    by (intros l0; induction l0; constructor; auto).
  destruct (str_eqb_spec k k0) as [->|N].
  - injection G as ->. constructor; [auto|apply R].
  - constructor; [auto|apply IH; assumption].
Qed.
Lemma F2_shape_trans {A B C} (l1 : list (str * tree A)) (l2 : list (str * tree B)) (l3 : list (str * tree C)) :
  Forall2 (fun a b => fst a = fst b /\ shape (snd a) = shape (snd b)) l1 l2 ->
  Forall2 (fun a b => fst a = fst b /\ shape (snd a) = shape (snd b)) l2 l3 ->
  Forall2 (fun a b => fst a = fst b /\ shape (snd a) = shape (snd b)) l1 l3.
Proof.
  intros H. revert l3. induction H as [|a b l l' [X Y] _ IH]; intros l3 K; inversion K as [|? ? ? ? [X' Y'] ?]; subst; constructor; auto.
  split; congruence.
Qed.
Lemma vtake_shape s : forall d, shape (vtake d s) = shape d.
Proof.
  induction s as [lv|ses IH|ss IH] using tree_ind''; intros d.
  - destruct d; reflexivity.
  - destruct d as [|des|]; try reflexivity. rewrite vtake_obj. apply shape_es_eq.
    assert (R : forall l : list (str * tree leafval), Forall2 (fun a b => fst a = fst b /\ shape (snd a) = shape (snd b)) l l)
      by (intros l0; induction l0; constructor; auto).
    revert des. induction ses as [|[k c] ses IHs]; intros des; cbn [vtake_es]; [apply R|].
    inversion IH as [|? ? Hc Hr]; subst. cbn [snd] in Hc.
    eapply F2_shape_trans; [apply IHs; exact Hr|]. destruct (mget des k) as [dk|] eqn:G; [|apply R].
    eapply mset_shape; eauto.
  - destruct d as [| |ds]; try reflexivity. rewrite vtake_lst. unfold shape. cbn [tmap]. f_equal.
    revert ds. induction ss as [|c ss IHs]; intros [|d0 ds]; cbn [vtake_ts map]; try reflexivity.
    inversion IH as [|? ? Hc Hr]; subst. f_equal; [apply Hc|apply IHs; exact Hr].
Qed.
(** The value found at each leaf afterwards. *)
Lemma vtake_leaf s : forall d p dv, names_unique s -> tlookup d p = Some (TLeaf dv) ->
  tlookup (vtake d s) p = Some (TLeaf (match tlookup s p with
                                       | Some (TLeaf sv) => if fits_into dv sv then lv_overwrite dv sv else dv
                                       | _ => dv
                                       end)).
Proof.
  induction s as [lv|ses IH|ss _] using tree_ind''; intros d p dv Nu E.
  - destruct p as [|k p]; cbn [tlookup] in *.
    + injection E as ->. reflexivity.
    + destruct d as [|des|]; try discriminate. cbn [vtake tlookup]. exact E.
  - destruct p as [|k p]; cbn [tlookup] in *.
    + injection E as ->. reflexivity.
    + destruct d as [|des|]; try discriminate. rewrite vtake_obj. cbn [tlookup].
      inversion Nu as [|? Nd Nus|]; subst. rewrite vtake_es_get by exact Nd.
      destruct (mget des k) as [dk|] eqn:Gd; [|discriminate]. destruct (mget ses k) as [c|] eqn:Gs; [|exact E].
      apply mget_In in Gs. rewrite Forall_forall in IH, Nus. apply (IH _ Gs); [apply (Nus _ Gs)|exact E].
  - destruct p as [|k p]; cbn [tlookup] in *; [injection E as ->; reflexivity|].
    destruct d as [|des|]; try discriminate. exact E.
Qed.
