(** Multi-component arrays: specification and facts. *)
From Verif Require Import Base DType Path SpecTree Schema PathFacts SchemaInv SchemaRefine SchemaLaws Mem MemFacts Node SpecNode
  NodeFacts NodeCompact NodeSet NodeEndian NodeUpdate NodeMerge NodeUpdateLaws NodeAlloc McArray.
Local Open Scope Z_scope.

(** ---- specification ---- *)
(** A multi-component array: an object whose entries are leaves of a data type
    with standard element size, named by plain names. *)
Definition component (n : node) : Prop :=
  match n with
  | NLeaf _ d => dt_id d <> EMPTY /\ dt_id d <> OBJECT /\ dt_id d <> LIST /\ std_leaf d /\ 0 <= dt_n d
  | _ => False
  end.
Definition mcarray (n : node) : Prop :=
  match n with
  | NObj _ es => es <> [] /\ NoDup (map fst es) /\ Forall (fun e => plain (fst e) /\ component (snd e)) es
  | _ => False
  end.
(** Element [i] of component number [c] starts at byte [i * (sum of all element
    sizes) + (sum of the sizes of the components before c)]. *)
Fixpoint tuple_bytes (ds : list dtype) : Z :=
  match ds with [] => 0 | d :: r => default_bytes (dt_id d) + tuple_bytes r end.
Definition interleaved (ds : list dtype) : Prop :=
  forall c d i, nth_error ds c = Some d ->
    dt_off d + dt_stride d * i = tuple_bytes ds * i + tuple_bytes (firstn c ds) /\
    dt_ebytes d = default_bytes (dt_id d).

(** ---- update into a node with room everywhere moves no node ---- *)
Inductive room : node -> node -> Prop :=
| rm_empty d h sd : dt_id sd = EMPTY -> room d (NLeaf h sd)
| rm_leaf dh dd sh sd : dt_id dd = dt_id sd -> dt_n sd <= dt_n dd -> room (NLeaf dh dd) (NLeaf sh sd)
| rm_obj dh des sh ses :
    (forall k c, In (k, c) ses -> exists d, mget des k = Some d /\ room d c) ->
    room (NObj dh des) (NObj sh ses)
| rm_lst dh dks sh sks :
    (forall i c, nth_error sks i = Some c -> exists d, nth_error dks i = Some d /\ room d c) ->
    room (NLst dh dks) (NLst sh sks).
Lemma mset_same {V} (m : list (str * V)) k v : mget m k = Some v -> mset m k v = m.
Proof.
  induction m as [|[k' v'] m IH]; cbn [mget mset]; [discriminate|]. destruct (str_eqb k k').
  - intros E. injection E as ->. reflexivity.
  - intros E. rewrite IH by exact E. reflexivity.
Qed.
Lemma nupdate_room src : forall m dest m' dest', room dest src -> nupdate m dest src = Ok (m', dest') -> dest' = dest.
Proof.
  induction src as [sh sd|sh ses IH|sh sks IH] using node_ind'; intros m dest m' dest' R E.
  - cbn [nupdate] in E. destruct (is_empty sd) eqn:Em; [injection E as _ <-; reflexivity|].
    inversion R as [? ? ? X|? ? ? ? X Y| |]; subst.
    + unfold is_empty in Em. rewrite X in Em. discriminate.
    + unfold takes in E. rewrite X, tid_eqb_refl in E. replace (dt_n dd >=? dt_n sd) with true in E by lia. cbn [andb] in E.
      destruct (leaf_take _ _ _ _ _); cbn [obind] in E; try discriminate. injection E as _ <-. reflexivity.
  - inversion R as [| |dh des sh' ses' X|]; subst. destruct ses as [|e ses]; [cbn in E; injection E as _ <-; reflexivity|].
    rewrite nup_obj in E. cbn [as_obj obind] in E.
    assert (Y : forall l m m' des', (forall k c, In (k, c) l -> exists d, mget des k = Some d /\ room d c) ->
      Forall (fun e => forall m dest m' dest', room dest (snd e) -> nupdate m dest (snd e) = Ok (m', dest') -> dest' = dest) l ->
      nup_es m des l = Ok (m', des') -> des' = des).
    { clear. induction l as [|[k c] l IHl]; intros m m' des' H1 H2 E; cbn [nup_es] in E; [injection E as _ <-; reflexivity|].
      inversion H2; subst. destruct (H1 k c ltac:(left; reflexivity)) as (d & G & Rm). unfold child_or_new in E. rewrite G in E.
      destruct (nupdate m d c) as [[m1 d1]| | |] eqn:U; cbn [obind] in E; try discriminate.
      cbn [snd] in *. assert (d1 = d) by eauto. subst d1. rewrite mset_same in E by exact G. eapply IHl; eauto. intros ? ? I. apply H1. right; exact I. }
    destruct (nup_es m des (e :: ses)) as [[m1 d1]| | |] eqn:U; cbn [obind] in E; try discriminate. injection E as _ <-.
    f_equal. eapply Y; eauto.
  - inversion R as [| | |dh dks sh' sks' X]; subst. rewrite nup_lst in E.
    assert (Y : forall l dks m m' dks', (forall i c, nth_error l i = Some c -> exists d, nth_error dks i = Some d /\ room d c) ->
      Forall (fun e => forall m dest m' dest', room dest e -> nupdate m dest e = Ok (m', dest') -> dest' = dest) l ->
      nup_ks m dks l = Ok (m', dks') -> dks' = dks).
    { clear. induction l as [|c l IHl]; intros dks m m' dks' H1 H2 E; cbn [nup_ks] in E; [injection E as _ <-; reflexivity|].
      inversion H2; subst. destruct (H1 0%nat c eq_refl) as (d & G & Rm). destruct dks as [|d0 dr]; [discriminate|]. injection G as ->.
      destruct (nupdate m d c) as [[m1 d1]| | |] eqn:U; cbn [obind] in E; try discriminate.
      assert (d1 = d) by eauto. subst d1.
      destruct (nup_ks m1 dr l) as [[m2 d2]| | |] eqn:V; cbn [obind] in E; try discriminate. injection E as _ <-. f_equal.
      eapply IHl; eauto. intros i x I. exact (H1 (S i) x I). }
    destruct (nup_ks m dks sks) as [[m1 d1]| | |] eqn:U; cbn [obind] in E; try discriminate. injection E as _ <-.
    f_equal. eapply Y; eauto.
Qed.

(** ---- the schemas built ---- *)
Lemma set_nth_mset {V} (es : list (str * V)) i k u x : NoDup (map fst es) -> nth_error es i = Some (k, u) ->
  set_nth es i (k, x) = mset es k x.
Proof.
  revert i. induction es as [|[k' v'] es IH]; intros [|i] N E; cbn [nth_error set_nth mset] in *; try discriminate.
  - injection E as -> ->. rewrite str_eqb_refl. reflexivity.
  - inversion N; subst. destruct (str_eqb_spec k k') as [->|D].
    + exfalso. apply H1. apply nth_error_In in E. apply (in_map fst) in E. exact E.
    + f_equal. apply IH; assumption.
Qed.
Lemma mset_mset {V} (es : list (str * V)) k x y : mset (mset es k x) k y = mset es k y.
Proof.
  induction es as [|[k' v'] es IH]; cbn [mset]; [rewrite str_eqb_refl; reflexivity|].
  destruct (str_eqb k k') eqn:E; cbn [mset]; rewrite E; [reflexivity|]. f_equal. exact IH.
Qed.
Lemma s_assign_ok s k d : wf s -> plain k -> exists s', s_assign s k d = Ok s' /\ wf s' /\
  abs s' = TObj (mset (tentries (abs s)) k (match dt_id d with OBJECT => TObj [] | LIST => TList [] | _ => TLeaf d end)).
Proof.
  intros W P. unfold s_assign.
  destruct (fetch_plain_f [k] (2 + length (path_of [k])) s [] s W eq_refl ltac:(constructor; [exact P|constructor]) ltac:(discriminate) ltac:(lia))
    as (root' & t' & q & c & F & W' & Pt & A & Gq & Tl & Tn).
  cbn [path_of] in F. cbn [app] in F. unfold fetch. cbn [put_at] in Pt. injection Pt as ->.
  rewrite F. cbn [obind].
  destruct (put_at_some q root' c (s_set_dtype d) Gq) as (s' & Es'). rewrite Es'. cbn [deref].
  exists s'. split; [reflexivity|]. split; [apply (wf_put_at q root' _ s' Es' W'); apply wf_set_dtype|].
  pose proof (put_at_abs q root' (s_set_dtype d) W') as X. rewrite Es' in X. cbn [option_map] in X.
  pose proof (names_unique_abs root' W') as Nu.
  cbn [tensure] in A. rewrite A in X, Tn, Nu. rewrite <- abs_set_dtype.
  set (es := tentries (abs s)) in *. set (u := match mget es k with Some u => u | None => TLeaf dt_empty end) in *.
  destruct q as [|i q]; [discriminate|]. cbn [tnames tput] in *.
  destruct (nth_error (mset es k u) i) as [[k1 u1]|] eqn:N; [|discriminate].
  destruct (tnames u1 q) as [l|] eqn:Tq; [|discriminate]. cbn [option_map] in Tn. injection Tn as -> ->.
  destruct q as [|j q].
  2:{ cbn [tnames] in Tq. destruct u1; try discriminate. destruct (nth_error es0 j) as [[? ?]|]; [|discriminate]. destruct (tnames t q); discriminate. }
  cbn [tput] in X. injection X as <-. f_equal. inversion Nu as [|? Nd _|]; subst.
  rewrite (set_nth_mset _ _ _ _ _ Nd N). apply mset_mset.
Qed.

Definition leaf_entries (l : list (str * dtype)) : list (str * tree dtype) := map (fun e => (fst e, TLeaf (snd e))) l.
Fixpoint puts (s : schema) (l : list (str * dtype)) : outcome schema :=
  match l with [] => Ok s | (k, d) :: r => do s' <- s_assign s k d; puts s' r end.
Fixpoint contig (l : list (str * dtype)) (off : Z) : list (str * dtype) :=
  match l with
  | [] => []
  | (k, d) :: r => (k, dt_place d off (dt_ebytes d)) :: contig r (off + dt_ebytes d * dt_n d)
  end.
Fixpoint interl (l : list (str * dtype)) (stride off : Z) : list (str * dtype) :=
  match l with
  | [] => []
  | (k, d) :: r => (k, dt_place d off stride) :: interl r stride (off + default_bytes (dt_id d))
  end.
Lemma mc_contiguous_puts l : forall s off, mc_contiguous s l off = puts s (contig l off).
Proof.
  induction l as [|[k d] l IH]; intros s off; [reflexivity|]. cbn [mc_contiguous contig puts].
  destruct (s_assign s k _); cbn [obind]; try reflexivity. apply IH.
Qed.
Lemma mc_interleaved_puts l stride : forall s off, mc_interleaved s l stride off = puts s (interl l stride off).
Proof.
  induction l as [|[k d] l IH]; intros s off; [reflexivity|]. cbn [mc_interleaved interl puts].
  destruct (s_assign s k _); cbn [obind]; try reflexivity. apply IH.
Qed.
Lemma puts_ok l : forall s, wf s -> Forall (fun e => plain (fst e) /\ dt_id (snd e) <> OBJECT /\ dt_id (snd e) <> LIST) l ->
  NoDup (map fst (tentries (abs s)) ++ map fst l) ->
  exists s', puts s l = Ok s' /\ wf s' /\
    (l <> [] -> abs s' = TObj (tentries (abs s) ++ leaf_entries l)) /\ (l = [] -> s' = s).
Proof.
  induction l as [|[k d] l IH]; intros s W F N.
  - exists s. cbn. repeat split; auto. congruence.
  - inversion F as [|? ? (P & O & Li) F']; subst. cbn [fst snd] in *. cbn [puts].
    destruct (s_assign_ok s k d W P) as (s1 & E1 & W1 & A1). rewrite E1. cbn [obind].
    assert (Kn : mget (tentries (abs s)) k = None).
    { apply mget_None_notin. intros I. cbn [map fst] in N. apply NoDup_remove_2 in N. apply N. apply in_or_app. left; exact I. }
    rewrite mset_notin in A1 by exact Kn.
    assert (A2 : abs s1 = TObj (tentries (abs s) ++ [(k, TLeaf d)])) by (rewrite A1; destruct (dt_id d); congruence).
    destruct (IH s1 W1 F') as (s2 & E2 & W2 & A3 & A4).
    { rewrite A2. cbn [tentries]. rewrite map_app, <- app_assoc. exact N. }
    exists s2. split; [exact E2|]. split; [exact W2|]. split; [|discriminate]. intros _.
    destruct l as [|e l].
    + rewrite (A4 eq_refl), A2. reflexivity.
    + rewrite A3 by discriminate. rewrite A2. cbn [tentries]. rewrite <- app_assoc. reflexivity.
Qed.

(** ---- filling ---- *)
Definition same_kind (d e : dtype) : Prop :=
  dt_id e = dt_id d /\ dt_n e = dt_n d /\ dt_ebytes e = dt_ebytes d /\ dt_endian e = dt_endian d.
Definition placed (es : list (str * node)) (pl : list (str * dtype)) : Prop :=
  Forall2 (fun e x => fst x = fst e /\ same_kind (n_dtype (snd e)) (snd x)) es pl.
Lemma placed_names es pl : placed es pl -> map fst pl = map fst es.
Proof. induction 1 as [|e x es pl [A _] _ IH]; cbn [map]; congruence. Qed.
Lemma leaf_entries_leaves pl : tleaves (TObj (leaf_entries pl)) = map snd pl.
Proof. cbn [tleaves]. unfold leaf_entries. induction pl as [|[k d] pl IH]; [reflexivity|]. cbn [map flat_map snd app tleaves]. f_equal. exact IH. Qed.
Lemma room_placed b own h es : NoDup (map fst es) -> Forall (fun e => component (snd e)) es -> forall pl, placed es pl ->
  room (walk (TObj (leaf_entries pl)) (Some (b, 0)) own) (NObj h es).
Proof.
  intros N C pl P. cbn [walk]. apply rm_obj. intros k c I.
  assert (X : exists x, In (k, x) pl /\ same_kind (n_dtype c) x).
  { clear N C. induction P as [|e x es pl [A B] _ IH]; [destruct I|]. destruct I as [->|I].
    - exists (snd x). cbn [fst snd] in *. split; [left; rewrite <- A; destruct x; reflexivity|exact B].
    - destruct (IH I) as (y & ? & ?). exists y. split; [right|]; assumption. }
  destruct X as (x & Ix & K). exists (NLeaf (mkH (Some (b, 0)) false) x). split.
  - apply mget_Some_In_nodup.
    + rewrite map_map. cbn [fst]. unfold leaf_entries. rewrite map_map. cbn [fst]. rewrite <- (placed_names es pl P) in N. exact N.
    + apply in_map_iff. exists (k, TLeaf x). split; [reflexivity|]. unfold leaf_entries. apply in_map_iff. exists (k, x). split; [reflexivity|exact Ix].
  - rewrite Forall_forall in C. specialize (C _ I). cbn [snd] in C. destruct c as [hc dc| |]; try contradiction.
    destruct K as (K1 & K2 & _). cbn [n_dtype] in *. apply rm_leaf; [exact K1|lia].
Qed.
Lemma zeros_overwritten m es pl svs : placed es pl -> Forall (fun e => component (snd e)) es -> vals m es svs ->
  Forall2 (fun x s => fst s = fst x /\ vupdate (TLeaf (leaf_zero (snd x))) (snd s) = snd s) pl svs.
Proof.
  intros P. revert svs. induction P as [|e x es pl [A B] _ IH]; intros svs C V; inversion V as [|? s ? svs' [Vn Vv] V']; subst; constructor.
  - split; [congruence|]. inversion C as [|? ? Ce _]; subst. destruct (snd e) as [h d| |]; try contradiction. cbn [n_dtype] in B.
    apply nvalue_leaf in Vv. destruct Vv as (lv & -> & Lv). destruct B as (B1 & B2 & B3 & B4). destruct Ce as (Em & _).
    destruct (leaf_value_inv _ _ _ _ Lv) as [[T _]|(Da & Hn & vs & -> & Hl)]; [contradiction|].
    assert (Dx : is_data (dt_id (snd x)) = true) by (rewrite B1; exact Da). rewrite (leaf_zero_data _ Dx).
    cbn [vupdate fits_into]. rewrite B1, tid_eqb_refl, B2. destruct Hl as [Ln _]. rewrite repeat_length.
    replace (length vs <=? Z.to_nat (dt_n d))%nat with true by (symmetry; apply Nat.leb_le; lia). cbn [andb lv_overwrite].
    rewrite B4, skipn_all2 by (rewrite repeat_length; lia). rewrite app_nil_r. reflexivity.
  - apply IH; [|exact V']. inversion C; assumption.
Qed.
Lemma vupdate_all pl svs : svs <> [] -> NoDup (map fst pl) ->
  Forall2 (fun (x : str * dtype) s => fst s = fst x /\ vupdate (TLeaf (leaf_zero (snd x))) (snd s) = snd s) pl svs ->
  vupdate (tmap leaf_zero (TObj (leaf_entries pl))) (TObj svs) = TObj svs.
Proof.
  intros Ne Nd F. destruct svs as [|s0 svs0]; [congruence|]. rewrite vup_obj. f_equal. remember (s0 :: svs0) as svs. clear Heqsvs Ne s0 svs0.
  cbn [tmap tentries]. set (des := map _ (leaf_entries pl)).
  assert (Ed : des = map (fun x => (fst x, TLeaf (leaf_zero (snd x)))) pl) by (unfold des, leaf_entries; rewrite map_map; reflexivity).
  assert (Nm : map fst svs = map fst pl) by (clear -F; induction F as [|x s pl svs [A _] _ IH]; cbn [map]; congruence).
  assert (Nm' : map fst des = map fst pl) by (rewrite Ed, map_map; reflexivity).
  assert (Ns : NoDup (map fst svs)) by (rewrite Nm; exact Nd).
  assert (Nv : map fst (vup_es des svs) = map fst svs).
  { rewrite vup_es_names by exact Ns. rewrite filter_none, app_nil_r; [congruence|].
    intros k I. unfold fresh_name. destruct (mget des k) eqn:X; [reflexivity|]. apply mget_None_notin in X. rewrite Nm', <- Nm in X. contradiction. }
  apply mlist_ext; [exact Nv|rewrite Nv; exact Ns|]. intros k. rewrite vup_es_get by exact Ns.
  destruct (mget svs k) as [c|] eqn:G; [|].
  - f_equal. assert (X : exists x, In (k, x) pl /\ vupdate (TLeaf (leaf_zero x)) c = c).
    { apply mget_In in G. clear -F G. induction F as [|x s pl svs [A B] _ IH]; [destruct G|]. destruct G as [->|G].
      - exists (snd x). cbn [fst snd] in *. subst k. split; [left; destruct x; reflexivity|exact B].
      - destruct (IH G) as (y & ? & ?). exists y. split; [right|]; assumption. }
    destruct X as (x & Ix & E). unfold entry. rewrite (mget_Some_In_nodup des k (TLeaf (leaf_zero x))); [exact E|rewrite Nm'; exact Nd|].
    rewrite Ed. apply in_map_iff. exists (k, x). split; [reflexivity|exact Ix].
  - apply mget_None_notin. rewrite Nm', <- Nm. apply mget_None_notin. exact G.
Qed.

Lemma tspanned_obj_nonneg es : 0 <= tspanned (TObj es).
Proof. unfold tspanned. apply max_nonneg. Qed.
Lemma fill_law m s h es dest sv pl :
  mcarray (NObj h es) -> healthy m dest -> nvalue m (NObj h es) = Ok sv ->
  (forall q, touches (NObj h es) q -> ~ ob dest (fst q)) ->
  placed es pl -> abs s = TObj (leaf_entries pl) ->
  Forall laid_out (map snd pl) -> disjoint_leaves (TObj (leaf_entries pl)) ->
  exists m' b, let d' := walk (TObj (leaf_entries pl)) (Some (b, 0)) true in
    mc_fill m s (NObj h es) dest = Ok (m', d') /\ nvalue m' d' = Ok sv /\ nvalue m' (NObj h es) = Ok sv /\
    healthy m' d' /\ step m (fun _ => False) (ob dest) m' (touches d') (ob d') /\
    (exists l, nth_error m' b = Some (Some l)).
Proof.
  intros (Ne & Nd & C) H V Ap P A L D. set (t := TObj (leaf_entries pl)) in *.
  assert (Cc : Forall (fun e => component (snd e)) es) by (revert C; apply Forall_impl; intros e [_ X]; exact X).
  unfold mc_fill. rewrite A. 
  destruct (set_schema_law m dest t H) as (m1 & d1 & E1 & Sc & V1 & (b & Eb & Lb & _) & St & Hh).
  { unfold t. rewrite leaf_entries_leaves. exact L. }
  { apply tspanned_obj_nonneg. }
  { discriminate. }
  rewrite E1. cbn [obind]. specialize (Hh D).
  assert (Vs : nvalue m1 (NObj h es) = Ok sv).
  { apply (nvalue_frame _ m m1 sv V). intros q T. apply (st_frame _ _ _ _ _ _ St); auto. apply rd_lt. eapply nvalue_readable; eauto. }
  pose proof Vs as Vs0. apply nvalue_obj in Vs0. destruct Vs0 as (svs & -> & Vl).
  assert (Nm : map fst svs = map fst es) by (clear -Vl; induction Vl as [|e s es svs [X _] _ IH]; cbn [map]; congruence).
  assert (Nu : names_unique (TObj svs)).
  { constructor; [rewrite Nm; exact Nd|]. clear -Vl Cc. induction Vl as [|e s es svs [_ X] _ IH]; constructor.
    - inversion Cc as [|? ? Ce _]; subst. destruct (snd e); try contradiction. apply nvalue_leaf in X. destruct X as (lv & -> & _). constructor.
    - apply IH. inversion Cc; assumption. }
  assert (Nz : svs <> []) by (intros ->; destruct es; [congruence|discriminate]).
  assert (Nc : no_clash (tmap leaf_zero t) (TObj svs)).
  { apply nc_obj; [discriminate|]. intros k c I. clear -I Vl Cc. induction Vl as [|e s es svs [_ X] _ IH]; [destruct I|].
    inversion Cc as [|? ? Ce Cr]; subst. destruct I as [->|I]; [|apply IH; assumption].
    destruct (snd e); try contradiction. apply nvalue_leaf in X. cbn [snd] in X. destruct X as (lv & -> & _). constructor. }
  destruct (update_law m1 d1 (NObj h es) _ _ Hh V1 Vs Nu Nc) as (m2 & d2 & E2 & V2 & V3 & H2 & S2).
  { intros q T. assert (Q : (fst q < length m)%nat) by (apply rd_lt; eapply nvalue_readable; eauto). split.
    - intros T'. rewrite Eb in T'. apply touches_walk in T'. destruct T' as (p & d & i & j & Ep & _ & _ & _ & ->). injection Ep as <-. cbn [padd fst] in Q. lia.
    - intros O. destruct (st_owned _ _ _ _ _ _ St _ O) as [X|X]; [exact (Ap q T X)|lia]. }
  assert (d2 = d1). { apply (nupdate_room (NObj h es) m1 d1 m2 d2); [|exact E2]. rewrite Eb. apply room_placed; assumption. }
  subst d2. exists m2, b. subst d1. cbn zeta.
  assert (Vv : vupdate (tmap leaf_zero t) (TObj svs) = TObj svs).
  { apply vupdate_all; [exact Nz|rewrite (placed_names es pl P); exact Nd|]. apply (zeros_overwritten m1 es pl svs); assumption. }
  rewrite Vv in V2. do 4 (split; [assumption|]). split.
  - apply (step_trans _ _ _ _ _ _ _ _ _ St S2).
  - assert (Ob : ob (walk t (Some (b, 0)) true) b).
    { unfold ob, owned_blocks. rewrite owns_walk. left. reflexivity. }
    apply healthy_good in H2. exact (good_live _ _ _ H2 Ob).
Qed.

(** ---- layouts ---- *)
Definition items (es : list (str * node)) : list (str * dtype) := map (fun e => (fst e, n_dtype (snd e))) es.
Lemma comp_dtype (e : str * node) : component (snd e) -> let d := n_dtype (snd e) in
  dt_id d <> EMPTY /\ dt_id d <> OBJECT /\ dt_id d <> LIST /\ std_leaf d /\ 0 <= dt_n d /\ 1 <= default_bytes (dt_id d).
Proof.
  destruct (snd e) as [h d| |]; try contradiction. cbn [component n_dtype]. intros (A & B & C & D & E). repeat split; auto.
  apply is_data_pos. destruct (dt_id d); reflexivity || congruence.
Qed.
Lemma contig_placed es : forall off, placed es (contig (items es) off).
Proof.
  induction es as [|e es IH]; intros off; cbn [items map contig]; constructor; [|apply IH].
  cbn [fst snd]. unfold same_kind, dt_place. cbn. repeat split.
Qed.
Lemma interl_placed es stride : forall off, placed es (interl (items es) stride off).
Proof.
  induction es as [|e es IH]; intros off; cbn [items map interl]; constructor; [|apply IH].
  cbn [fst snd]. unfold same_kind, dt_place. cbn. repeat split.
Qed.
Lemma contig_laid es : Forall (fun e => component (snd e)) es -> forall off, 0 <= off ->
  Forall laid_out (map snd (contig (items es) off)) /\
  Forall (fun d => forall i b, occupies d i b -> off <= b) (map snd (contig (items es) off)) /\
  back_to_back off (map snd (contig (items es) off)).
Proof.
  induction 1 as [|e es C Cs IH]; intros off O; cbn [items map contig]; [repeat constructor|].
  destruct (comp_dtype e C) as (C1 & C2 & C3 & C4 & C5 & C6). set (d := n_dtype (snd e)) in *. unfold std_leaf in C4.
  destruct (IH (off + dt_ebytes d * dt_n d) ltac:(nia)) as (I1 & I2 & I3). cbn [snd map back_to_back]. split; [|split].
  - constructor; [|exact I1]. right. unfold dt_place, std_leaf. cbn. repeat split; auto; lia.
  - constructor; [|revert I2; apply Forall_impl; intros x X i b Y; specialize (X i b Y); nia].
    intros i b (Hi & Hb). unfold dt_place in *. cbn in *. nia.
  - split; [intros _; unfold dt_place; cbn; auto|]. unfold dt_place at 1 2. cbn [dt_id dt_n]. rewrite C4 in I3 |- *. exact I3.
Qed.
Lemma contig_disjoint es : Forall (fun e => component (snd e)) es -> forall off, 0 <= off ->
  disjoint_leaves (TObj (leaf_entries (contig (items es) off))).
Proof.
  intros Cs off O. unfold disjoint_leaves. rewrite leaf_entries_leaves. revert off O.
  induction Cs as [|e es C Cs IH]; intros off O; cbn [items map contig]; [split; constructor|].
  destruct (comp_dtype e C) as (C1 & C2 & C3 & C4 & C5 & C6). set (d := n_dtype (snd e)) in *. unfold std_leaf in C4.
  destruct (IH (off + dt_ebytes d * dt_n d) ltac:(nia)) as (I1 & I2).
  destruct (contig_laid es Cs (off + dt_ebytes d * dt_n d) ltac:(nia)) as (_ & I3 & _). cbn [snd map]. split; constructor; try assumption.
  - revert I3. apply Forall_impl. intros x X i j b (Hi & Hb) Y. specialize (X j b Y). unfold dt_place in *. cbn in *. nia.
  - intros i j b (Hi & Hb) (Hj & Hb'). unfold dt_place in *. cbn in *. nia.
Qed.
Lemma interl_laid es stride : Forall (fun e => component (snd e)) es -> forall off, 0 <= off -> off + mc_tuple (items es) <= stride ->
  Forall laid_out (map snd (interl (items es) stride off)) /\
  Forall (fun d => dt_stride d = stride /\ off <= dt_off d /\ dt_off d + dt_ebytes d <= stride) (map snd (interl (items es) stride off)).
Proof.
  induction 1 as [|e es C Cs IH]; intros off O S; cbn [items map interl]; [repeat constructor|].
  destruct (comp_dtype e C) as (C1 & C2 & C3 & C4 & C5 & C6). cbn [items map mc_tuple fold_right snd] in S.
  set (d := n_dtype (snd e)) in *. unfold std_leaf in C4. fold (items es) in S. fold (mc_tuple (items es)) in S.
  assert (T : 0 <= mc_tuple (items es)).
  { clear. unfold mc_tuple, items. induction es as [|e es IH]; cbn [map fold_right snd]; [lia|]. destruct (dt_id (n_dtype (snd e))); cbn [default_bytes]; lia. }
  destruct (IH (off + default_bytes (dt_id d)) ltac:(lia) ltac:(lia)) as (I1 & I2). cbn [snd map]. split.
  - constructor; [|exact I1]. right. unfold dt_place, std_leaf. cbn. repeat split; auto; lia.
  - constructor; [unfold dt_place; cbn; lia|]. revert I2. apply Forall_impl. intros x X. lia.
Qed.
Lemma stride_mod S i j o o' x x' b : 0 <= o -> o + x <= S -> 0 <= o' -> o' + x' <= S ->
  o + S * i <= b < o + S * i + x -> o' + S * j <= b < o' + S * j + x' -> i = j.
Proof. intros. assert (S * i <= b < S * i + S) by lia. assert (S * j <= b < S * j + S) by lia. nia. Qed.
Lemma interl_disjoint es stride : Forall (fun e => component (snd e)) es -> forall off, 0 <= off -> off + mc_tuple (items es) <= stride ->
  disjoint_leaves (TObj (leaf_entries (interl (items es) stride off))).
Proof.
  intros Cs off O S. unfold disjoint_leaves. rewrite leaf_entries_leaves. revert off O S.
  induction Cs as [|e es C Cs IH]; intros off O S; cbn [items map interl]; [split; constructor|].
  pose proof (interl_laid (e :: es) stride ltac:(constructor; assumption) off O S) as (_ & L0).
  destruct (comp_dtype e C) as (C1 & C2 & C3 & C4 & C5 & C6). cbn [items map mc_tuple fold_right snd] in S.
  fold (items es) in S. fold (mc_tuple (items es)) in S. cbn [items map interl] in L0. inversion L0 as [|? ? L1 L2]; subst. clear L0.
  set (d := n_dtype (snd e)) in *. unfold std_leaf in C4.
  destruct (IH (off + default_bytes (dt_id d)) ltac:(lia) ltac:(lia)) as (I1 & I2).
  destruct (interl_laid es stride Cs (off + default_bytes (dt_id d)) ltac:(lia) ltac:(lia)) as (_ & I3). cbn [snd map] in *.
  unfold dt_place in *. cbn in L1. split; constructor; try assumption.
  - revert I3. apply Forall_impl. intros x (X1 & X2 & X3) i j b (Hi & Hb) (Hj & Hb'). cbn in *. rewrite X1 in Hb'.
    assert (i = j) by (eapply (stride_mod stride i j off (dt_off x) (dt_ebytes d) (dt_ebytes x) b); lia). subst j. lia.
  - intros i j b (Hi & Hb) (Hj & Hb'). cbn in *. eapply (stride_mod stride i j off off (dt_ebytes d) (dt_ebytes d) b); lia.
Qed.

Lemma items_plain h es : mcarray (NObj h es) ->
  Forall (fun e => plain (fst e) /\ dt_id (snd e) <> OBJECT /\ dt_id (snd e) <> LIST) (items es) /\ NoDup (map fst (items es)).
Proof.
  intros (_ & N & C). split.
  - unfold items. apply Forall_map. revert C. apply Forall_impl. intros e [P C]. cbn [fst snd]. destruct (comp_dtype e C) as (_ & A & B & _). auto.
  - unfold items. rewrite map_map. cbn [fst]. exact N.
Qed.
Lemma puts_placed h es pl : mcarray (NObj h es) -> placed es pl -> exists s, puts s_empty pl = Ok s /\ abs s = TObj (leaf_entries pl).
Proof.
  intros M P. destruct (items_plain h es M) as [A B]. pose proof M as (Ne & _ & C).
  destruct (puts_ok pl s_empty) as (s & E & _ & X & _).
  - apply wf_empty.
  - clear -C P. induction P as [|e x es pl [N K] _ IH]; constructor.
    + inversion C as [|? ? [Pl Ce] _]; subst. destruct (comp_dtype e Ce) as (_ & U & V & _). destruct K as (K & _). rewrite N, K. auto.
    + apply IH. inversion C; assumption.
  - cbn [tentries abs s_empty map app]. rewrite (placed_names es pl P). apply M.
  - exists s. split; [exact E|]. rewrite X; [reflexivity|]. intros ->. inversion P; subst. congruence.
Qed.
Lemma placed_kinds h es pl : mcarray (NObj h es) -> placed es pl ->
  tmap leaf_kind (TObj (leaf_entries pl)) = tmap leaf_kind (nschema (NObj h es)).
Proof.
  intros (_ & _ & C) P. cbn [tmap nschema]. f_equal. unfold leaf_entries. rewrite !map_map. cbn [fst snd tmap].
  induction P as [|e x es pl [N (K1 & K2 & K3 & K4)] _ IH]; [reflexivity|]. inversion C as [|? ? [_ Ce] Cr]; subst. cbn [map]. f_equal; [|apply IH; exact Cr].
  rewrite N. f_equal. destruct (snd e) as [hh d| |]; try contradiction. cbn [nschema tmap n_dtype] in *. f_equal. unfold leaf_kind. rewrite K1, K2, K4. reflexivity.
Qed.

Lemma to_contiguous_law m src dest sv :
  mcarray src -> healthy m dest -> nvalue m src = Ok sv -> (forall q, touches src q -> ~ ob dest (fst q)) ->
  exists m' d' b t, mc_to_contiguous m src dest = Ok (m', d') /\
    nvalue m' d' = Ok sv /\ nvalue m' src = Ok sv /\ healthy m' d' /\
    step m (fun _ => False) (ob dest) m' (touches d') (ob d') /\
    d' = walk t (Some (b, 0)) true /\ back_to_back 0 (tleaves t) /\ tmap leaf_kind t = tmap leaf_kind (nschema src).
Proof.
  intros M H V Ap. destruct src as [|h es|]; try contradiction. unfold mc_to_contiguous, mc_items. fold (items es).
  rewrite mc_contiguous_puts. pose proof (contig_placed es 0) as P. set (pl := contig (items es) 0) in *.
  destruct (puts_placed h es pl M P) as (s & Es & As). rewrite Es. cbn [obind].
  assert (Cc : Forall (fun e => component (snd e)) es) by (destruct M as (_ & _ & C); revert C; apply Forall_impl; intros e [_ X]; exact X).
  destruct (contig_laid es Cc 0 ltac:(lia)) as (L1 & _ & L3).
  destruct (fill_law m s h es dest sv pl M H V Ap P As L1 (contig_disjoint es Cc 0 ltac:(lia))) as (m' & b & F1 & F2 & F3 & F4 & F5 & _).
  eexists m', _, b, (TObj (leaf_entries pl)). split; [exact F1|]. do 4 (split; [assumption|]). split; [reflexivity|].
  split; [rewrite leaf_entries_leaves; exact L3|]. apply placed_kinds with (h := h); assumption.
Qed.

Lemma interl_nth es stride : forall off c d, Forall (fun e => component (snd e)) es ->
  nth_error (map snd (interl (items es) stride off)) c = Some d ->
  dt_stride d = stride /\ dt_off d = off + tuple_bytes (firstn c (map snd (interl (items es) stride off))) /\
  dt_ebytes d = default_bytes (dt_id d).
Proof.
  induction es as [|e es IH]; intros off [|c] d C E; cbn [items map interl nth_error snd firstn tuple_bytes] in *; try discriminate.
  - injection E as <-. inversion C as [|? ? Ce _]; subst. destruct (comp_dtype e Ce) as (_ & _ & _ & S & _). unfold dt_place. cbn. repeat split; [lia|exact S].
  - inversion C; subst. destruct (IH _ c d ltac:(assumption) E) as (A & B & D). unfold dt_place at 1. cbn [dt_id]. fold (items es) in *. repeat split; auto. lia.
Qed.
Lemma interl_tuple es stride : forall off, tuple_bytes (map snd (interl (items es) stride off)) = mc_tuple (items es).
Proof.
  induction es as [|e es IH]; intros off; [reflexivity|]. cbn [items map interl tuple_bytes mc_tuple fold_right snd]. unfold dt_place at 1. cbn [dt_id].
  fold (items es). fold (mc_tuple (items es)). rewrite IH. reflexivity.
Qed.
Lemma scan_interl b o0 stride es : Forall (fun e => component (snd e)) es -> forall off,
  mc_scan (Some ((b, o0), stride)) (off - o0)
    (map (fun d => NLeaf (mkH (Some (b, 0)) false) d) (map snd (interl (items es) stride off))) = true.
Proof.
  induction 1 as [|e es C Cs IH]; intros off; [reflexivity|]. cbn [items map interl snd mc_scan n_hdr n_dtype].
  unfold elem0. cbn [h_data opadd option_map padd fst snd pdiff]. rewrite Nat.eqb_refl.
  unfold eaddr, dt_place at 1 2 3. cbn [dt_off dt_stride dt_ebytes].
  replace ((off - o0 =? 0 + (off + stride * 0) - o0) && (stride =? stride)) with true by lia.
  unfold dt_place at 1. cbn [dt_ebytes]. destruct (comp_dtype e C) as (_ & _ & _ & S & _). unfold std_leaf in S. rewrite S.
  fold (items es). replace (off - o0 + default_bytes (dt_id (n_dtype (snd e)))) with (off + default_bytes (dt_id (n_dtype (snd e))) - o0) by lia.
  apply IH.
Qed.
Lemma walk_kids pl b own : n_kids (walk (TObj (leaf_entries pl)) (Some (b, 0)) own) = map (fun d => NLeaf (mkH (Some (b, 0)) false) d) (map snd pl).
Proof. cbn [walk n_kids]. unfold leaf_entries. rewrite !map_map. reflexivity. Qed.
Lemma is_interl b stride es own : Forall (fun e => component (snd e)) es ->
  mc_is_interleaved (walk (TObj (leaf_entries (interl (items es) stride 0))) (Some (b, 0)) own) = true.
Proof.
  intros C. unfold mc_is_interleaved. rewrite walk_kids. destruct C as [|e es C Cs]; [reflexivity|].
  cbn [items map interl snd mc_scan n_hdr n_dtype]. unfold elem0. cbn [h_data opadd option_map padd fst snd pdiff]. rewrite Nat.eqb_refl.
  unfold eaddr, dt_place at 1 2 3 4 5 6 7 8. cbn [dt_off dt_stride dt_ebytes].
  replace ((0 =? 0 + (0 + stride * 0) - (0 + (0 + stride * 0))) && (stride =? stride)) with true by lia.
  destruct (comp_dtype e C) as (_ & _ & _ & S & _). unfold std_leaf in S. unfold dt_place, padd. cbn [dt_stride dt_ebytes fst snd]. rewrite S. fold (items es).
  pose proof (scan_interl b 0 stride es Cs (0 + default_bytes (dt_id (n_dtype (snd e))))) as X.
  replace (0 + (0 + stride * 0)) with 0 by lia. rewrite Z.sub_0_r in X. exact X.
Qed.
Lemma to_interleaved_law m src dest sv :
  mcarray src -> healthy m dest -> nvalue m src = Ok sv -> (forall q, touches src q -> ~ ob dest (fst q)) ->
  exists m' d' b t, mc_to_interleaved m src dest = Ok (m', d') /\
    nvalue m' d' = Ok sv /\ nvalue m' src = Ok sv /\ healthy m' d' /\
    step m (fun _ => False) (ob dest) m' (touches d') (ob d') /\
    d' = walk t (Some (b, 0)) true /\ interleaved (tleaves t) /\ tmap leaf_kind t = tmap leaf_kind (nschema src) /\
    mc_is_interleaved d' = true.
Proof.
  intros M H V Ap. destruct src as [|h es|]; try contradiction. unfold mc_to_interleaved, mc_items. fold (items es).
  rewrite mc_interleaved_puts. set (S := mc_tuple (items es)). pose proof (interl_placed es S 0) as P. set (pl := interl (items es) S 0) in *.
  destruct (puts_placed h es pl M P) as (s & Es & As). rewrite Es. cbn [obind].
  assert (Cc : Forall (fun e => component (snd e)) es) by (destruct M as (_ & _ & C); revert C; apply Forall_impl; intros e [_ X]; exact X).
  destruct (interl_laid es S Cc 0 ltac:(lia) ltac:(fold S; lia)) as (L1 & _).
  destruct (fill_law m s h es dest sv pl M H V Ap P As L1 (interl_disjoint es S Cc 0 ltac:(lia) ltac:(fold S; lia))) as (m' & b & F1 & F2 & F3 & F4 & F5 & _).
  eexists m', _, b, (TObj (leaf_entries pl)). split; [exact F1|]. do 4 (split; [assumption|]). split; [reflexivity|].
  split; [|split; [apply placed_kinds with (h := h); assumption|apply is_interl; exact Cc]].
  rewrite leaf_entries_leaves. intros c d i N. pose proof (interl_tuple es S 0) as T. fold pl in T. rewrite T. fold S.
  destruct (interl_nth es S 0 c d Cc N) as (A & B & D). fold pl in B. split; [|exact D]. rewrite A, B. lia.
Qed.

(** is_interleaved: same strides, consecutive starting addresses. *)
Lemma scan_sound ks : forall b o st tot, Forall (fun c => exists p, h_data (n_hdr c) = Some p) ks ->
  mc_scan (Some ((b, o), st)) tot ks = true ->
  forall i c, nth_error ks i = Some c ->
    dt_stride (n_dtype c) = st /\
    elem0 (n_hdr c) (n_dtype c) = Some (b, o + tot + fold_right Z.add 0 (map (fun c => dt_ebytes (n_dtype c)) (firstn i ks))).
Proof.
  induction ks as [|k ks IH]; intros b o st tot F E [|i] c N; cbn [nth_error] in N; try discriminate;
    cbn [mc_scan fst snd] in E; inversion F as [|? ? (p & Hp) F']; subst.
  all: unfold elem0 in E; rewrite Hp in E; cbn [opadd option_map padd pdiff fst snd] in E.
  all: destruct (Nat.eqb_spec (fst p) b) as [Eb|]; [|discriminate].
  all: destruct ((tot =? snd p + eaddr (n_dtype k) 0 - o) && (st =? dt_stride (n_dtype k))) eqn:X; [|discriminate].
  all: apply andb_true_iff in X; destruct X as [X1 X2].
  - injection N as ->. split; [lia|]. unfold elem0. rewrite Hp. cbn [opadd option_map firstn map fold_right]. unfold padd. rewrite Eb. f_equal. f_equal. lia.
  - destruct (IH _ _ _ _ F' E i c N) as (A & B). split; [exact A|]. rewrite B. cbn [firstn map fold_right]. f_equal. f_equal. lia.
Qed.
Lemma is_interleaved_sound n : Forall (fun c => exists p, h_data (n_hdr c) = Some p) (n_kids n) ->
  mc_is_interleaved n = true -> exists b o st, forall i c, nth_error (n_kids n) i = Some c ->
    dt_stride (n_dtype c) = st /\
    elem0 (n_hdr c) (n_dtype c) = Some (b, o + fold_right Z.add 0 (map (fun c => dt_ebytes (n_dtype c)) (firstn i (n_kids n)))).
Proof.
  unfold mc_is_interleaved. destruct (n_kids n) as [|k ks]; intros F E.
  - exists 0%nat, 0, 0. intros [|i] c N; discriminate.
  - inversion F as [|? ? (p & Hp) F']; subst. exists (fst p), (snd p + eaddr (n_dtype k) 0), (dt_stride (n_dtype k)).
    assert (Y : mc_scan (Some ((fst p, snd p + eaddr (n_dtype k) 0), dt_stride (n_dtype k))) 0 (k :: ks) = true).
    { rewrite <- E. cbn [mc_scan fst snd]. unfold elem0. rewrite Hp. cbn [opadd option_map padd]. reflexivity. }
    intros i c N. destruct (scan_sound (k :: ks) _ _ _ _ F Y i c N) as (A & B). rewrite Z.add_0_r in B. auto.
Qed.

(** verify *)
Lemma verify_loop_sound ks : forall num, mc_verify_loop num ks false = false.
Proof. induction ks as [|k ks IH]; intros num; [reflexivity|]. cbn [mc_verify_loop]. destruct (is_number _); [|apply IH]. match goal with |- context [if ?b then false else false] => destruct b end; apply IH. Qed.
Lemma verify_loop_iff ks : forall num, 0 < num -> mc_verify_loop num ks true = true <->
  Forall (fun c => is_number (n_dtype c) = true /\ dt_n (n_dtype c) = num) ks.
Proof.
  induction ks as [|k ks IH]; intros num P; cbn [mc_verify_loop]; [split; [constructor|reflexivity]|].
  replace (num =? 0) with false by lia. destruct (is_number (n_dtype k)) eqn:X.
  - destruct (Z.eqb_spec (dt_n (n_dtype k)) num) as [Y|Y].
    + rewrite IH by exact P. split; [intros H; constructor; auto|]. intros H. inversion H; assumption.
    + rewrite verify_loop_sound. split; [discriminate|]. intros H. inversion H as [|? ? [_ Z] _]; subst. congruence.
  - rewrite verify_loop_sound. split; [discriminate|]. intros H. inversion H as [|? ? [Z _] _]; subst. congruence.
Qed.
Lemma verify_law n : (forall c, In c (n_kids n) -> 0 < dt_n (n_dtype c)) ->
  mc_verify n = true <->
  (match n with NLeaf _ _ => False | _ => True end) /\
  (forall c, In c (n_kids n) -> is_number (n_dtype c) = true) /\
  (forall c c', In c (n_kids n) -> In c' (n_kids n) -> dt_n (n_dtype c) = dt_n (n_dtype c')).
Proof.
  intros P. unfold mc_verify.
  assert (X : forall ks, (forall c, In c ks -> 0 < dt_n (n_dtype c)) -> mc_verify_loop 0 ks true = true <->
    (forall c, In c ks -> is_number (n_dtype c) = true) /\ (forall c c', In c ks -> In c' ks -> dt_n (n_dtype c) = dt_n (n_dtype c'))).
  { clear. intros [|k ks] P; [split; [intros _; split; [intros ? []|intros ? ? []]|reflexivity]|]. cbn [mc_verify_loop]. change (0 =? 0) with true. cbn match.
    destruct (is_number (n_dtype k)) eqn:X.
    - rewrite Z.eqb_refl, verify_loop_iff by (apply P; left; reflexivity). rewrite Forall_forall. split.
      + intros H. assert (Y : forall c, In c (k :: ks) -> is_number (n_dtype c) = true /\ dt_n (n_dtype c) = dt_n (n_dtype k)) by (intros c [->|I]; auto).
        split; [intros c I; apply (Y c I)|]. intros c c' I I'. destruct (Y c I), (Y c' I'). congruence.
      + intros [A B] c I. split; [apply A; right; exact I|]. apply B; [right; exact I|left; reflexivity].
    - rewrite verify_loop_sound. split; [discriminate|]. intros [A _]. specialize (A k ltac:(left; reflexivity)). congruence. }
  destruct n as [h d|h es|h ks]; [rewrite verify_loop_sound; split; [discriminate|tauto]|..]; rewrite X by exact P; tauto.
Qed.
