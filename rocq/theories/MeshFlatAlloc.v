(** Lemmas for C65: the fields chosen and the columns made for them. *)
From Coq Require Import ZArith Floats.SpecFloat Lia List.
From Verif Require Import Base DType SpecTree Mem Node Number ArrayOps Json B64Json ValueJson NumConv FloatText MeshConv MeshFlat MeshFlatSpec MeshFlatFacts MeshFlatSingle MeshFlatRun.
Import ListNotations.

(** * The fields chosen *)
Lemma supported_on report tn f b : supported report tn f = Ok b -> b = on tn f.
Proof.
  unfold supported, on. destruct (f_topo f) as [t|].
  - intros [= <-]. destruct (f_assoc f); [apply Bool.andb_true_r|apply Bool.andb_false_r].
  - destruct (f_matset f); [congruence|]. destruct report; congruence.
Qed.
Lemma find_named_ok tn n : forall ds b, find_named tn ds n = Ok b ->
  b = existsb (fun d => match field_of d n with Some f => on tn f | None => false end) ds.
Proof.
  induction ds as [|d ds IH]; intros b H; cbn [find_named existsb] in *; [congruence|].
  unfold field_of, fields_of. unfold fields_list in H. destruct (mget _ n) as [f|]; [|exact (IH _ H)].
  ob H b0 E. apply supported_on in E. rewrite <- E. destruct b0; [injection H as <-; reflexivity|exact (IH _ H)].
Qed.
Definition first_step (acc : list str) (n : str) : list str := if existsb (str_eqb n) acc then acc else acc ++ [n].
Lemma fields_chosen o tn ds names : fields_to_flatten o tn ds = Ok names -> names = chosen o tn ds.
Proof.
  unfold fields_to_flatten, chosen. destruct (o_names o) as [|n0 ns].
  - unfold firsts. change (fun acc n => if existsb (str_eqb n) acc then acc else acc ++ [n]) with first_step.
    assert (G : forall ds acc r,
      for_ ds (fun d acc =>
        do fs <- need (d_fields d);
        for_ fs (fun nf acc =>
          if existsb (str_eqb (fst nf)) acc then Ok acc
          else do b <- supported true tn (snd nf); Ok (if b then acc ++ [fst nf] else acc)) acc) acc = Ok r ->
      r = fold_left first_step (concat (map (fun d => map fst (filter (fun nf => on tn (snd nf)) (fields_of d))) ds)) acc).
    { clear. induction ds as [|d ds IH]; intros acc r H; [cbn in H |- *; congruence|]. rewrite for_cons in H. ob H acc1 E. ob E fs Ef. apply need_ok in Ef.
      cbn [map concat]. rewrite fold_left_app. rewrite (IH _ _ H). f_equal. clear IH H. unfold fields_of. rewrite Ef. clear Ef.
      revert acc acc1 E. induction fs as [|[n f] fs IH]; intros acc acc1 H; [cbn in H |- *; congruence|]. rewrite for_cons in H. cbn [fst snd] in H.
      ob H a E. rewrite (IH _ _ H). cbn [filter snd]. clear IH H. destruct (existsb (str_eqb n) acc) eqn:X.
      - injection E as <-. destruct (on tn f); [|reflexivity]. cbn [map fst fold_left]. unfold first_step at 3. rewrite X. reflexivity.
      - ob E b Eb. apply supported_on in Eb. injection E as <-. rewrite <- Eb. destruct b; [|reflexivity].
        cbn [map fst fold_left]. unfold first_step at 3. rewrite X. reflexivity. }
    apply G.
  - intros H. set (l := n0 :: ns) in *. clearbody l. revert H.
    assert (G : forall l acc r, for_ l (fun n acc => do b <- find_named tn ds n; Ok (if b then acc ++ [n] else acc)) acc = Ok r ->
      r = acc ++ filter (fun n => existsb (fun d => match field_of d n with Some f => on tn f | None => false end) ds) l).
    { clear. induction l as [|n l IH]; intros acc r H; [injection H as <-; symmetry; apply app_nil_r|]. rewrite for_cons in H. ob H acc1 E. ob E b Eb.
      apply find_named_ok in Eb. injection E as <-. rewrite (IH _ _ H). cbn [filter]. rewrite <- Eb. destruct b; [|reflexivity].
      rewrite <- app_assoc. reflexivity. }
    apply G.
Qed.
Lemma nodup_one {A} (l : list A) c : NoDup l -> ~ In c l -> NoDup (l ++ [c]).
Proof.
  induction 1 as [|x l Hx ND IH]; intros H; cbn; [constructor; [intros []|constructor]|]. cbn in H.
  constructor; [|apply IH; tauto]. rewrite in_app_iff. cbn. intuition congruence.
Qed.
Lemma existsb_in n l : existsb (str_eqb n) l = true <-> In n l.
Proof.
  rewrite existsb_exists. split.
  - intros (x & Hx & E). apply str_eqb_eq in E. subst. exact Hx.
  - intros H. exists n. split; [exact H|apply str_eqb_refl].
Qed.
Lemma firsts_nodup l : NoDup (firsts l).
Proof.
  unfold firsts. change (fun acc n => if existsb (str_eqb n) acc then acc else acc ++ [n]) with first_step.
  assert (G : forall l acc, NoDup acc -> NoDup (fold_left first_step l acc)).
  { clear. induction l as [|n l IH]; intros acc H; [exact H|]. cbn [fold_left]. apply IH. unfold first_step.
    destruct (existsb (str_eqb n) acc) eqn:E; [exact H|]. assert (X : ~ In n acc) by (rewrite <- existsb_in; congruence).
    apply nodup_one; assumption. }
  apply G. constructor.
Qed.
Lemma chosen_nodup o tn ds : NoDup (o_names o) -> NoDup (chosen o tn ds).
Proof.
  intros H. unfold chosen. destruct (o_names o) as [|n ns]; [apply firsts_nodup|]. apply nodup_filter. exact H.
Qed.
Lemma first_field_in ds n f : first_field ds n = Some f -> exists d, In d ds /\ field_of d n = Some f.
Proof.
  induction ds as [|d ds IH]; cbn; [discriminate|]. destruct (field_of d n) as [g|] eqn:E.
  - intros [= ->]. exists d. auto.
  - intros H. destruct (IH H) as (d' & I & X). exists d'. auto.
Qed.
Lemma reference_first tn n : forall ds r, (forall d f, In d ds -> field_of d n = Some f -> on tn f = true) ->
  reference tn ds n = Ok r -> r = first_field ds n.
Proof.
  induction ds as [|d ds IH]; intros r F H; cbn [reference first_field] in *; [congruence|].
  ob H fs Ef. apply need_ok in Ef. pose proof (F d) as Fd. unfold field_of, fields_of in Fd |- *. rewrite Ef in Fd |- *.
  destruct (mget fs n) as [f|].
  - ob H b Eb. apply supported_on in Eb. rewrite (Fd f (or_introl eq_refl) eq_refl) in Eb. subst b. congruence.
  - apply IH; [|exact H]. intros d' f' I. apply F. right. exact I.
Qed.

(** * Columns *)
Lemma mget_none_notin {V} (m : list (str * V)) k : mget m k = None <-> ~ In k (map fst m).
Proof.
  split.
  - intros E I. destruct (key_mget _ _ I) as [v Hv]. congruence.
  - intros H. destruct (mget m k) as [v|] eqn:E; [|reflexivity]. exfalso. apply H. exact (mget_key _ _ _ E).
Qed.
Lemma mset_mset {V} (m : list (str * V)) k u v : mset (mset m k u) k v = mset m k v.
Proof.
  induction m as [|[k' v'] m IH]; cbn [mset]; [rewrite str_eqb_refl; reflexivity|].
  destruct (str_eqb k k') eqn:E; cbn [mset]; rewrite E; [reflexivity|]. f_equal. exact IH.
Qed.
Lemma comps_touch tb n : comps (touch tb n) n = comps tb n.
Proof. unfold comps, touch. destruct (mget tb n) as [v|] eqn:E; [rewrite E; reflexivity|]. rewrite mget_mset_same. reflexivity. Qed.
Lemma alloc_comp_touch o n N ty a tb : alloc_comp o n N ty a (touch tb n) = alloc_comp o n N ty a tb.
Proof.
  unfold alloc_comp. rewrite comps_touch. destruct (fresh o ty N); cbn [obind]; try reflexivity. f_equal. unfold touch.
  destruct (mget tb n); [reflexivity|]. apply mset_mset.
Qed.
Lemma fresh_ok o t n c : fresh o t n = Ok c -> exists v, fill o t = Ok v /\ c = Col t (repeat v n).
Proof. unfold fresh. intros H. ob H v E. injection H as <-. eauto. Qed.
Definition made (o : opts) (t : tid) (N : nat) (c : option col) : Prop :=
  exists v, fill o t = Ok v /\ c = Some (Col t (repeat v N)).
Lemma alloc_comps_ok o n N ty : forall l tb old tb', mget tb n = Some (VMc old) ->
  for_ l (alloc_comp o n N ty) tb = Ok tb' ->
  only n tb tb' /\ exists out, mget tb' n = Some (VMc out) /\
    (forall a, In a l -> made o ty N (mget out a)) /\ (forall a, ~ In a l -> mget out a = mget old a) /\
    (NoDup l -> (forall a, In a l -> ~ In a (map fst old)) -> map fst out = map fst old ++ l).
Proof.
  induction l as [|a l IH]; intros tb old tb' Ho H.
  - injection H as <-. split; [split; reflexivity|]. exists old. split; [exact Ho|]. split; [intros a []|]. split; [reflexivity|].
    intros _ _. symmetry. apply app_nil_r.
  - rewrite for_cons in H. ob H tb1 E. unfold alloc_comp in E. ob E c Ec. injection E as <-. destruct (fresh_ok _ _ _ _ Ec) as (v & Hv & ->).
    unfold comps in H. rewrite Ho in H. destruct (IH _ _ _ (mget_mset_same _ _ _) H) as ([K O] & out & H1 & H2 & H3 & H4).
    split; [split|].
    + rewrite K. apply mset_keys. exact (mget_key _ _ _ Ho).
    + intros k Hk. rewrite O by exact Hk. apply mget_mset_other. exact Hk.
    + exists out. split; [exact H1|]. split; [|split].
      * intros a' [<-|I]; [|exact (H2 _ I)]. destruct (in_dec (list_eq_dec ascii_dec) a l) as [I|I]; [exact (H2 _ I)|].
        rewrite (H3 _ I), mget_mset_same. exists v. auto.
      * intros a' Na. cbn in Na. rewrite H3 by tauto. apply mget_mset_other. intuition congruence.
      * intros ND Dis. inversion_clear ND as [|? ? Ha ND']. rewrite H4.
        -- rewrite mset_new by (apply Dis; left; reflexivity). rewrite <- app_assoc. reflexivity.
        -- exact ND'.
        -- intros b Hb. rewrite mset_new by (apply Dis; left; reflexivity). rewrite in_app_iff. cbn. intros [X|[X|[]]]; [|congruence].
           exact (Dis b (or_intror Hb) X).
Qed.
Lemma touch_new tb n : ~ In n (map fst tb) -> map fst (touch tb n) = map fst tb ++ [n] /\
  (forall k, k <> n -> mget (touch tb n) k = mget tb k) /\ mget (touch tb n) n = Some (VMc []).
Proof.
  intros H. unfold touch. rewrite (proj2 (mget_none_notin _ _) H). split; [exact (mset_new _ _ _ H)|]. split; [|apply mget_mset_same].
  intros k Hk. apply mget_mset_other. exact Hk.
Qed.
Lemma new_comps_ok o n N ty l tb tb' : ~ In n (map fst tb) ->
  for_ l (alloc_comp o n N ty) (touch tb n) = Ok tb' ->
  map fst tb' = map fst tb ++ [n] /\ (forall k, k <> n -> mget tb' k = mget tb k) /\
  exists out, mget tb' n = Some (VMc out) /\ (forall a, In a l -> made o ty N (mget out a)) /\ (NoDup l -> map fst out = l).
Proof.
  intros Hn H. destruct (touch_new _ _ Hn) as (T1 & T2 & T3).
  destruct (alloc_comps_ok _ _ _ _ _ _ _ _ T3 H) as ([K O] & out & H1 & H2 & _ & H4).
  split; [congruence|]. split; [intros k Hk; rewrite O by exact Hk; exact (T2 k Hk)|].
  exists out. split; [exact H1|]. split; [exact H2|]. intros ND. apply H4; [exact ND|]. intros a _ [].
Qed.
Lemma alloc_as_ok o tb n N ty ref tb' : ~ In n (map fst tb) -> alloc_as o tb n N ty ref = Ok tb' ->
  map fst tb' = map fst tb ++ [n] /\ (forall k, k <> n -> mget tb' k = mget tb k) /\
  forall a c, part ref a = Some c -> made o ty N (column tb' n a).
Proof.
  intros Hn H. destruct ref as [c0|l]; cbn [alloc_as] in H.
  - unfold alloc in H. ob H c Ec. injection H as <-. destruct (fresh_ok _ _ _ _ Ec) as (v & Hv & ->).
    split; [exact (mset_new _ _ _ Hn)|]. split; [intros k Hk; apply mget_mset_other; exact Hk|].
    intros [a|] c Hc; [discriminate|]. exists v. split; [exact Hv|]. unfold column. rewrite mget_mset_same. reflexivity.
  - destruct (new_comps_ok _ _ _ _ _ _ _ Hn H) as (K & O & out & H1 & H2 & _). split; [exact K|]. split; [exact O|].
    intros [a|] c Hc; [|discriminate]. cbn [part] in Hc. unfold column. rewrite H1. cbn [part]. apply H2. exact (mget_key _ _ _ Hc).
Qed.

Lemma in_one (b : bool) (m n : str) : In m (if b then [n] else []) -> m <> n -> False.
Proof. destruct b; cbn; intuition congruence. Qed.
Lemma allocate_ok o tn ds nv ne : forall names s s',
  (forall n d f, In n names -> In d ds -> field_of d n = Some f -> on tn f = true) ->
  NoDup names -> (forall n, In n names -> ~ In n (map fst (fst s)) /\ ~ In n (map fst (snd s))) ->
  allocate o tn ds names nv ne s = Ok s' ->
  map fst (fst s') = map fst (fst s) ++ filter (of_assoc ds vx) names /\
  map fst (snd s') = map fst (snd s) ++ filter (of_assoc ds el) names /\
  (forall k, ~ In k names -> mget (fst s') k = mget (fst s) k /\ mget (snd s') k = mget (snd s) k) /\
  (forall n f, In n names -> first_field ds n = Some f ->
     let ty := elem_type (leaves_of (f_vals f)) in
     (f_assoc f = Some vx -> forall a c, part (f_vals f) a = Some c -> made o ty nv (column (fst s') n a)) /\
     (f_assoc f = Some el -> forall a c, part (f_vals f) a = Some c -> made o ty ne (column (snd s') n a))).
Proof.
  unfold allocate. induction names as [|n names IH]; intros s s' F ND Dis H.
  - injection H as <-. cbn [filter]. rewrite !app_nil_r. split; [reflexivity|]. split; [reflexivity|]. split; [auto|]. intros n f [].
  - rewrite for_cons in H. ob H s1 E. ob E r Er. apply reference_first in Er; [|intros d f; apply F; left; reflexivity].
    ob E f Ef. apply need_ok in Ef. subst r. ob E a Ea. apply need_ok in Ea. cbv zeta in E.
    inversion_clear ND as [|? ? Hn ND']. destruct (Dis n (or_introl eq_refl)) as [DV DE].
    assert (Q : map fst (fst s1) = map fst (fst s) ++ (if of_assoc ds vx n then [n] else []) /\
                map fst (snd s1) = map fst (snd s) ++ (if of_assoc ds el n then [n] else []) /\
                (forall k, k <> n -> mget (fst s1) k = mget (fst s) k /\ mget (snd s1) k = mget (snd s) k) /\
                (f_assoc f = Some vx -> forall a c, part (f_vals f) a = Some c -> made o (elem_type (leaves_of (f_vals f))) nv (column (fst s1) n a)) /\
                (f_assoc f = Some el -> forall a c, part (f_vals f) a = Some c -> made o (elem_type (leaves_of (f_vals f))) ne (column (snd s1) n a))).
    { unfold of_assoc. rewrite Ef, Ea. destruct (str_eqb a (L "vertex")) eqn:A1; [|destruct (str_eqb a (L "element")) eqn:A2; [|discriminate E]].
      - apply str_eqb_eq in A1. subst a. ob E vt Ev. injection E as <-. cbn [fst snd]. destruct (alloc_as_ok _ _ _ _ _ _ _ DV Ev) as (K & O & M).
        split; [exact K|]. split; [symmetry; apply app_nil_r|]. split; [intros k Hk; split; [exact (O k Hk)|reflexivity]|].
        split; [intros _; exact M|discriminate].
      - apply str_eqb_eq in A2. subst a. ob E et Ev. injection E as <-. cbn [fst snd]. destruct (alloc_as_ok _ _ _ _ _ _ _ DE Ev) as (K & O & M).
        split; [symmetry; apply app_nil_r|]. split; [exact K|]. split; [intros k Hk; split; [reflexivity|exact (O k Hk)]|].
        split; [discriminate|intros _; exact M]. }
    destruct Q as (Q1 & Q2 & Q3 & Q4).
    assert (Dis' : forall m, In m names -> ~ In m (map fst (fst s1)) /\ ~ In m (map fst (snd s1))).
    { intros m Hm. destruct (Dis m (or_intror Hm)) as [X Y]. rewrite Q1, Q2, !in_app_iff.
      assert (m <> n) by (intros ->; tauto). split; intros [Z|Z]; [tauto| |tauto|]; exact (in_one _ _ _ Z H0). }
    destruct (IH _ _ (fun m d g Hm => F m d g (or_intror Hm)) ND' Dis' H) as (R1 & R2 & R3 & R4).
    split; [|split; [|split]].
    + rewrite R1, Q1, <- app_assoc. cbn [filter]. destruct (of_assoc ds vx n); reflexivity.
    + rewrite R2, Q2, <- app_assoc. cbn [filter]. destruct (of_assoc ds el n); reflexivity.
    + intros k Hk. cbn in Hk. destruct (R3 k ltac:(tauto)) as [-> ->]. apply Q3. intros ->. tauto.
    + intros m g [<-|Hm] Hg.
      * rewrite Ef in Hg. injection Hg as <-. unfold column in *. destruct (R3 n Hn) as [-> ->]. exact Q4.
      * exact (R4 m g Hm Hg).
Qed.

(** * Ids *)
Lemma add_ids_ok o tb ids N tb' : ids <> L "domain_id" -> ~ In ids (map fst tb) -> ~ In (L "domain_id") (map fst tb) ->
  add_ids o tb ids N = Ok tb' ->
  map fst tb' = id_columns o (map fst tb) ids /\ (forall k, k <> ids -> k <> L "domain_id" -> mget tb' k = mget tb k) /\
  (In ids (map fst tb') -> made o INT64 N (column tb' (L "domain_id") None) /\ made o INT64 N (column tb' ids None)).
Proof.
  intros Ne N1 N2 H. unfold add_ids, id_columns in *. destruct (o_info o).
  - rewrite Bool.andb_true_r in H. destruct tb as [|p tb0]; [cbn in H; injection H as <-; split; [reflexivity|split; [reflexivity|intros []]]|].
    remember (p :: tb0) as tb eqn:Et. assert (Z : negb (Nat.eqb (length tb) 0) = true) by (subst; reflexivity). rewrite Z in H.
    ob H tb1 E. unfold alloc in E, H. ob E c Ec. apply ok_inj in E. ob H c2 Ec2. apply ok_inj in H.
    destruct (fresh_ok _ _ _ _ Ec) as (v & Hv & Hc). apply ok_inj in Ec2. subst c2 c.
    assert (K1 : map fst tb1 = map fst tb ++ [L "domain_id"]) by (rewrite <- E; exact (mset_new _ _ _ N2)).
    assert (N3 : ~ In ids (map fst tb1)) by (rewrite K1, in_app_iff; intros [X|[X|[]]]; [exact (N1 X)|apply Ne; symmetry; exact X]).
    split; [|split].
    + rewrite <- H, (mset_new _ _ _ N3), K1, <- app_assoc. subst tb. reflexivity.
    + intros k Hk Hd. rewrite <- H, mget_mset_other by exact Hk. rewrite <- E. apply mget_mset_other. exact Hd.
    + intros _. split.
      * exists v. split; [exact Hv|]. unfold column. rewrite <- H, mget_mset_other by congruence. rewrite <- E, mget_mset_same. reflexivity.
      * exists v. split; [exact Hv|]. unfold column. rewrite <- H, mget_mset_same. reflexivity.
  - rewrite Bool.andb_false_r in H. injection H as <-. split; [reflexivity|]. split; [reflexivity|]. intros I. contradiction.
Qed.

(** * The sizes, axes and ids of all domains *)
Lemma collect_ok o axes ds i : axes <> [] -> axes_of axes = axes -> Forall (regular o axes) ds -> collect o ds = Ok i ->
  i_verts i = map (verts o) ds /\ i_elems i = map (elems o) ds /\ i_axes i = axes /\ length (i_ids i) = length ds /\
  (forall k, k < length ds -> nth_error (i_ids i) k = id_of ds k) /\
  exists d0 c, hd_error ds = Some d0 /\ cset_of o d0 = Some (i_cset i, c) /\
    i_type i = elem_type (match cs_leaves c with Some l => l | None => map (fun v => c_ty (snd v)) (cs_values c) end).
Proof.
  intros Ax1 Ax2 Rg H. unfold collect in H. ob H ss Es. destruct ds as [|d0 ds']; [discriminate|]. remember (d0 :: ds') as ds eqn:Ed.
  ob H c Ec. apply ok_inj in H. subst i. cbn [i_verts i_elems i_axes i_ids i_cset i_type].
  assert (Sz : ss = map (fun d => (verts o d, elems o d)) ds).
  { clear Ed. apply omapM_f2 in Es. induction Es as [|d p ds ss E Es IH]; [reflexivity|]. inversion_clear Rg as [|? ? R1 R2].
    cbn [map]. f_equal; [|exact (IH R2)]. exact (sizes_of _ _ _ _ Ax1 Ax2 R1 E). }
  subst ss. rewrite !map_map. cbn [fst snd]. apply get_cset_of in Ec.
  split; [reflexivity|]. split; [reflexivity|]. split.
  { assert (R0 : regular o axes d0) by (subst ds; inversion Rg; assumption). destruct R0 as [K _]. unfold coords in K. rewrite Ec in K.
    unfold cs_axes. destruct c as [cn c]. cbn [snd]. rewrite K. exact Ax2. }
  assert (G : forall ds, length (concat (map has_id ds)) <= length ds /\
     if forallb (fun d => match d_id d with Some _ => true | None => false end) ds
     then length (concat (map has_id ds)) = length ds /\ forall k, k < length ds -> nth_error (concat (map has_id ds)) k = match nth_error ds k with Some d => d_id d | None => None end
     else length (concat (map has_id ds)) < length ds).
  { clear. induction ds as [|d ds [IH1 IH2]]; [cbn; split; [lia|split; [reflexivity|intros k Hk; lia]]|]. cbn [map concat forallb length].
    assert (Hh : length (has_id d) = match d_id d with Some _ => 1 | None => 0 end) by (unfold has_id; destruct (d_id d); reflexivity).
    rewrite app_length, Hh. destruct (d_id d) as [id|] eqn:Ei; cbn [andb].
    - split; [lia|]. destruct (forallb _ ds).
      + destruct IH2 as [IH2 IH3]. split; [lia|]. intros [|k] Hk; unfold has_id at 1; rewrite Ei; cbn; [congruence|]. apply IH3. lia.
      + lia.
    - split; lia. }
  destruct (G ds) as [_ Gd]. clear G. split; [|split].
  - destruct (Nat.eqb _ _) eqn:E; [apply Nat.eqb_eq in E; exact E|]. rewrite map_length, seq_length. reflexivity.
  - intros k Hk. unfold id_of. destruct (forallb _ ds).
    + destruct Gd as [G1 G2]. rewrite G1, Nat.eqb_refl. exact (G2 k Hk).
    + destruct (Nat.eqb _ _) eqn:E; [apply Nat.eqb_eq in E; lia|]. rewrite nth_error_map.
      replace (nth_error (seq 0 (length ds)) k) with (Some k); [reflexivity|]. symmetry.
      rewrite (nth_error_nth' _ 0) by (rewrite seq_length; exact Hk). rewrite seq_nth by exact Hk. reflexivity.
  - exists d0, (snd c). subst ds. destruct c as [cn c]. cbn [fst snd]. split; [reflexivity|]. split; [exact Ec|reflexivity].
Qed.
