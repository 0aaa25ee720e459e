(** Saving and loading. *)
From Verif Require Import Base DType Path SpecTree Schema Codec Mem Node Json JsonSpec Save
  PathFacts SchemaInv SchemaRefine SchemaMore SchemaLayout MemFacts SpecNode NodeFacts NodeCompact NodeSet
  NodeSerial NodeBridge NodeLaws NodeAlloc JsonFacts JsonSchema.
Local Open Scope Z_scope.

(** * Specification *)

(** The value read from a file: the same bytes; the byte order the machine used
    when "default" was written is now spelled out. *)
Definition file_order (mach : endian) (lv : leafval) : leafval :=
  match lv with
  | None => None
  | Some (t, e, es) => Some (t, match e with DEFAULT_E => mach | _ => e end, es)
  end.

(** * Trees of the same shape *)
Lemma same_tree_names {A} (R : A -> A -> Prop) P t : forall t',
  same_tree R t t' -> all_names P t -> all_names P t'.
Proof.
  induction t as [d|es IH|ks IH] using tree_ind'; intros t' S N; inversion S as [? ? r|? es' r|? ks' r]; subst.
  - constructor.
  - inversion N as [|? F|]; subst. constructor. clear S N. induction r as [|[k x] [k' x'] es es' [E1 E2] r IHr]; [constructor|].
    inversion_clear IH as [|? ? I1 I2]. inversion_clear F as [|? ? [F1 F2] F3]. cbn [fst snd] in *. subst k'.
    constructor; [split; [exact F1|apply I1; assumption]|apply IHr; assumption].
  - inversion N as [| |? F]; subst. constructor. clear S N. induction r as [|x x' es es' E r IHr]; [constructor|].
    inversion_clear IH as [|? ? I1 I2]. inversion_clear F as [|? ? F1 F2]. constructor; [apply I1; assumption|apply IHr; assumption].
Qed.
Lemma same_tree_unique {A} (R : A -> A -> Prop) t : forall t',
  same_tree R t t' -> names_unique t -> names_unique t'.
Proof.
  induction t as [d|es IH|ks IH] using tree_ind'; intros t' S N; inversion S as [? ? r|? es' r|? ks' r]; subst.
  - constructor.
  - inversion N as [|? Nd F|]; subst. constructor.
    + replace (map fst es') with (map fst es); [exact Nd|]. clear - r. induction r as [|a b l l' [E _] r IHr]; [reflexivity|].
      cbn [map]. rewrite E, IHr. reflexivity.
    + clear S N Nd. induction r as [|[k x] [k' x'] es es' [E1 E2] r IHr]; [constructor|].
      inversion_clear IH as [|? ? I1 I2]. inversion_clear F as [|? ? F1 F2]. cbn [fst snd] in *.
      constructor; [apply I1; assumption|apply IHr; assumption].
  - inversion N as [| |? F]; subst. constructor. clear S N. induction r as [|x x' es es' E r IHr]; [constructor|].
    inversion_clear IH as [|? ? I1 I2]. inversion_clear F as [|? ? F1 F2]. constructor; [apply I1; assumption|apply IHr; assumption].
Qed.
Lemma same_tree_leaves {A} (R : A -> A -> Prop) t : forall t',
  same_tree R t t' -> Forall2 R (tleaves t) (tleaves t').
Proof.
  induction t as [d|es IH|ks IH] using tree_ind'; intros t' S; inversion S as [? ? r|? es' r|? ks' r]; subst; cbn [tleaves].
  - repeat constructor; assumption.
  - clear S. induction r as [|[k x] [k' x'] es es' [E1 E2] r IHr]; [constructor|].
    inversion_clear IH as [|? ? I1 I2]. cbn [flat_map]. apply Forall2_app; [apply I1; assumption|apply IHr; assumption].
  - clear S. induction r as [|x x' es es' E r IHr]; [constructor|].
    inversion_clear IH as [|? ? I1 I2]. cbn [flat_map]. apply Forall2_app; [apply I1; assumption|apply IHr; assumption].
Qed.
Lemma Forall2_in_r {A B} (R : A -> B -> Prop) l l' y : Forall2 R l l' -> In y l' -> exists x, In x l /\ R x y.
Proof.
  induction 1 as [|a b l l' r F IH]; intros I; [destruct I|].
  destruct I as [<- |I]; [exists a; split; [left; reflexivity|exact r]|].
  destruct (IH I) as (x & X & Y). exists x; split; [right; exact X|exact Y].
Qed.

(** Where the compact tree puts its leaves. *)
Definition placed (lo hi : Z) (d d' : dtype) : Prop :=
  exists o, d' = leaf_compact d o /\ lo <= o /\ o + default_bytes (dt_id d) * dt_n d <= hi.
Lemma same_tree_impl {A} (R R' : A -> A -> Prop) t : (forall a b, R a b -> R' a b) -> forall t',
  same_tree R t t' -> same_tree R' t t'.
Proof.
  intros Q. induction t as [d|es IH|ks IH] using tree_ind'; intros t' S; inversion S as [? ? r|? es' r|? ks' r]; subst.
  - constructor; auto.
  - constructor. clear S. induction r as [|[k x] [k' x'] es es' [E1 E2] r IHr]; [constructor|].
    inversion_clear IH as [|? ? I1 I2]. constructor; [split; [exact E1|apply I1; exact E2]|apply IHr; assumption].
  - constructor. clear S. induction r as [|x x' es es' E r IHr]; [constructor|].
    inversion_clear IH as [|? ? I1 I2]. constructor; [apply I1; exact E|apply IHr; assumption].
Qed.
Definition counts (t : tree dtype) := Forall (fun d => 0 <= dt_n d \/ dt_id d = EMPTY) (tleaves t).
Lemma ttotal_counts t : counts t -> 0 <= ttotal t.
Proof. apply total_of_nonneg. Qed.
Lemma tcompact_placed t : forall off, counts t ->
  same_tree (placed off (off + ttotal t)) t (tcompact t off).
Proof.
  induction t as [d|es IH|ks IH] using tree_ind'; intros off C.
  - cbn [tcompact]. constructor. exists off. rewrite ttotal_leaf. repeat split; lia.
  - rewrite tcompact_obj. constructor. rewrite ttotal_tobj. unfold counts in C. cbn [tleaves] in C.
    revert off. induction es as [|[k c] es IHes]; intros off; [constructor|].
    inversion_clear IH as [|? ? I1 I2]. cbn [flat_map snd] in C. apply Forall_app in C. destruct C as [C1 C2].
    pose proof (ttotal_counts c C1) as N1.
    assert (N2 : 0 <= fold_right Z.add 0 (map (fun e => ttotal (snd e)) es)).
    { rewrite <- ttotal_tobj. apply ttotal_counts. exact C2. }
    cbn [cthread_es map fold_right snd] in *. constructor.
    + split; [reflexivity|]. eapply same_tree_impl; [|apply I1; exact C1].
      intros a b (o & -> & H1 & H2). exists o. repeat split; lia.
    + specialize (IHes I2 C2 (off + ttotal c)). 
      assert (G : forall l l' : list (str * tree dtype), Forall2 (fun e e' => fst e = fst e' /\ same_tree (placed (off + ttotal c)
                   (off + ttotal c + fold_right Z.add 0 (map (fun e => ttotal (snd e)) es))) (snd e) (snd e')) l l' ->
                 Forall2 (fun e e' => fst e = fst e' /\ same_tree (placed off
                   (off + (ttotal c + fold_right Z.add 0 (map (fun e => ttotal (snd e)) es)))) (snd e) (snd e')) l l').
      { induction 1 as [|a b l l' [E1 E2] F G]; constructor; auto. split; [exact E1|].
        eapply same_tree_impl; [|exact E2]. intros x y (o & -> & H1 & H2). exists o. repeat split; lia. }
      apply G, IHes.
  - rewrite tcompact_lst. constructor. rewrite ttotal_tlst. unfold counts in C. cbn [tleaves] in C.
    revert off. induction ks as [|c ks IHes]; intros off; [constructor|].
    inversion_clear IH as [|? ? I1 I2]. cbn [flat_map] in C. apply Forall_app in C. destruct C as [C1 C2].
    pose proof (ttotal_counts c C1) as N1.
    assert (N2 : 0 <= fold_right Z.add 0 (map ttotal ks)).
    { rewrite <- ttotal_tlst. apply ttotal_counts. exact C2. }
    cbn [cthread_ts map fold_right] in *. constructor.
    + eapply same_tree_impl; [|apply I1; exact C1].
      intros a b (o & -> & H1 & H2). exists o. repeat split; lia.
    + specialize (IHes I2 C2 (off + ttotal c)).
      assert (G : forall l l', Forall2 (same_tree (placed (off + ttotal c)
                   (off + ttotal c + fold_right Z.add 0 (map ttotal ks)))) l l' ->
                 Forall2 (same_tree (placed off (off + (ttotal c + fold_right Z.add 0 (map ttotal ks))))) l l').
      { induction 1 as [|a b l l' E2 F G]; constructor; auto.
        eapply same_tree_impl; [|exact E2]. intros x y (o & -> & H1 & H2). exists o. repeat split; lia. }
      apply G, IHes.
Qed.

(** * The Schema object of a tree *)
Lemma name_map_ok names : forall mp o, obj_ok mp o (length o) -> NoDup (o ++ names) ->
  obj_ok (name_map mp (Z.of_nat (length o)) names) (o ++ names) (length (o ++ names)).
Proof.
  induction names as [|k names IH]; intros mp o O N; cbn [name_map].
  - rewrite app_nil_r. exact O.
  - assert (Nn : mget mp k = None).
    { pose proof (obj_ok_index mp o _ k O) as X. destruct (mget mp k); [|reflexivity].
      destruct X as [X _]. apply NoDup_remove_2 in N. exfalso. apply N, in_or_app; left; exact X. }
    pose proof (obj_ok_push mp o _ k O Nn) as O'.
    assert (El : length (o ++ [k]) = S (length o)) by (rewrite app_length; simpl; lia).
    replace (Z.of_nat (length o) + 1) with (Z.of_nat (length (o ++ [k]))) by lia.
    replace (o ++ k :: names) with ((o ++ [k]) ++ names) in * by (rewrite <- app_assoc; reflexivity).
    apply IH; [rewrite El; exact O'|exact N].
Qed.
Definition leaf_like (d : dtype) : Prop := is_container (dt_id d) = false.
Lemma combine_split {A B} (l : list (A * B)) : combine (map fst l) (map snd l) = l.
Proof. induction l as [|[a b] l IH]; [reflexivity|]. cbn. rewrite IH. reflexivity. Qed.
Lemma schema_of_tree_ok t : names_unique t -> Forall leaf_like (tleaves t) ->
  wf (schema_of_tree t) /\ abs (schema_of_tree t) = t.
Proof.
  induction t as [d|es IH|ks IH] using tree_ind'; intros N F; cbn [schema_of_tree].
  - inversion_clear F. split; [constructor; assumption|reflexivity].
  - inversion N as [|? Nd Nk|]; subst. cbn [tleaves] in F. rewrite Forall_flat in F.
    assert (K : forall e, In e es -> wf (schema_of_tree (snd e)) /\ abs (schema_of_tree (snd e)) = snd e).
    { intros e I. rewrite Forall_forall in *. apply (IH e I); [apply Nk; exact I|apply F; exact I]. }
    split.
    + constructor.
      * pose proof (name_map_ok (map fst es) [] [] obj_ok_nil Nd) as O. cbn [app length] in O.
        rewrite map_length in *. exact O.
      * apply Forall_forall. intros s I. apply in_map_iff in I. destruct I as (e & <- & I). apply K, I.
    + cbn [abs]. f_equal. rewrite map_map. rewrite <- (combine_split es) at 3. f_equal.
      apply map_ext_in. intros e I. apply K, I.
  - inversion N as [| |? Nk]; subst. cbn [tleaves] in F. rewrite Forall_flat in F.
    assert (K : forall e, In e ks -> wf (schema_of_tree e) /\ abs (schema_of_tree e) = e).
    { intros e I. rewrite Forall_forall in *. apply (IH e I); [apply Nk; exact I|apply F; exact I]. }
    split.
    + constructor. apply Forall_forall. intros s I. apply in_map_iff in I. destruct I as (e & <- & I). apply K, I.
    + cbn [abs]. f_equal. rewrite map_map. rewrite <- (map_id ks) at 2. apply map_ext_in. intros e I. apply K, I.
Qed.

(** * Leaves of a compact tree *)
Lemma default_bytes_pos d : dt_id d <> EMPTY -> leaf_like d -> 1 <= default_bytes (dt_id d) <= 8.
Proof. unfold leaf_like. destruct (dt_id d); intros N C; try discriminate; try congruence; cbn; lia. Qed.
Lemma nvalue_leaf_like n : forall m v, nvalue m n = Ok v -> Forall leaf_like (tleaves (nschema n)).
Proof.
  induction n as [h d|h es IH|h ks IH] using node_ind'; intros m v E; cbn [nschema tleaves].
  - apply nvalue_leaf in E. destruct E as (lv & _ & E). constructor; [|constructor].
    unfold leaf_like. unfold leaf_value in E. destruct (dt_id d); try discriminate; reflexivity.
  - apply nvalue_obj in E. destruct E as (vs & -> & E). revert vs E. induction es as [|[k c] es IHes]; intros vs E; [constructor|].
    cbn [map] in E. inversion E as [|? [k' v'] ? vs' [Ek Ev] Er]; subst. inversion_clear IH as [|? ? I1 I2].
    cbn [map flat_map fst snd]. apply Forall_app. split; [eapply I1; exact Ev|eapply IHes; eauto].
  - apply nvalue_lst in E. destruct E as (vs & -> & E). revert vs E. induction ks as [|c ks IHks]; intros vs E; [constructor|].
    inversion E as [|? v' ? vs' Ev Er]; subst. inversion_clear IH as [|? ? I1 I2].
    cbn [map flat_map]. apply Forall_app. split; [eapply I1; exact Ev|eapply IHks; eauto].
Qed.

Section Compact.
  Variable t : tree dtype.
  Hypothesis C : counts t.
  Hypothesis K : Forall leaf_like (tleaves t).
  Let t0 := tcompact t 0.
  Lemma compact_in d' : In d' (tleaves t0) -> exists d o, In d (tleaves t) /\ d' = leaf_compact d o /\
    leaf_like d /\ (0 <= dt_n d \/ dt_id d = EMPTY) /\ 0 <= o /\ o + default_bytes (dt_id d) * dt_n d <= ttotal t.
  Proof.
    intros I. pose proof (same_tree_leaves _ _ _ (tcompact_placed t 0 C)) as F.
    destruct (Forall2_in_r _ _ _ _ F I) as (d & J & o & E & H1 & H2). exists d, o.
    unfold counts in C. rewrite Forall_forall in C, K. split; [exact J|]. split; [exact E|]. auto.
  Qed.
  Lemma compact_like : Forall leaf_like (tleaves t0).
  Proof.
    apply Forall_forall. intros d' I. destruct (compact_in d' I) as (d & o & _ & -> & A & _).
    unfold leaf_like, leaf_compact in *. destruct (is_empty d); [reflexivity|exact A].
  Qed.
  Lemma compact_dense : Forall dense_leaf (tleaves t0).
  Proof.
    apply Forall_forall. intros d' I. destruct (compact_in d' I) as (d & o & _ & -> & A & B & _).
    unfold dense_leaf, std_leaf, leaf_strided, leaf_compact. destruct (is_empty d) eqn:E; [split; reflexivity|].
    cbn [dt_id dt_n dt_ebytes]. split; [reflexivity|]. unfold is_empty in *. cbn [dt_id]. rewrite E. unfold strided_bytes. cbn [dt_stride dt_n dt_ebytes].
    destruct B as [B|B]; [|rewrite B in E; discriminate]. lia.
  Qed.
  Lemma compact_std : Forall std_leaf (tleaves t0).
  Proof. eapply Forall_impl; [|exact compact_dense]. intros d [A _]. exact A. Qed.
  Lemma compact_json : ttotal t < 2 ^ 63 -> Forall json_leaf (tleaves t0).
  Proof.
    intros T. apply Forall_forall. intros d' I. destruct (compact_in d' I) as (d & o & _ & -> & A & B & O1 & O2).
    unfold json_leaf, leaf_compact. destruct (is_empty d) eqn:E; [left; reflexivity|]. right.
    assert (Ne : dt_id d <> EMPTY) by (intros X; unfold is_empty in E; rewrite X in E; discriminate).
    destruct B as [B|B]; [|contradiction]. pose proof (default_bytes_pos d Ne A) as P.
    unfold int64_nat. cbn [dt_n dt_off dt_stride dt_ebytes]. nia.
  Qed.
  Lemma compact_tight : tight t0.
  Proof.
    apply Forall_forall. intros d' I. destruct (compact_in d' I) as (d & o & _ & -> & A & B & O1 & O2).
    unfold leaf_compact. destruct (is_empty d) eqn:E; [left; reflexivity|]. right.
    assert (Ne : dt_id d <> EMPTY) by (intros X; unfold is_empty in E; rewrite X in E; discriminate).
    destruct B as [B|B]; [|contradiction]. pose proof (default_bytes_pos d Ne A) as P.
    unfold strided_bytes. cbn [dt_n dt_off dt_stride dt_ebytes]. nia.
  Qed.
  Lemma tcompact_total : ttotal t0 = ttotal t.
  Proof.
    pose proof (same_tree_leaves _ _ _ (tcompact_placed t 0 C)) as F. fold t0 in F. unfold ttotal.
    revert F. generalize (0 + ttotal t) as hi. generalize (tleaves t), (tleaves t0). intros l l' hi F.
    induction F as [|d d' l l' (o & -> & _) F IH]; [reflexivity|]. cbn [total_of fold_right map]. rewrite IH. f_equal.
    unfold leaf_compact. destruct (is_empty d) eqn:E; [|reflexivity]. unfold is_empty in E. apply tid_eqb_eq in E.
    rewrite E. reflexivity.
  Qed.

  (** A tree read back from the text of the compact one. *)
  Variables (mach : endian) (t1 : tree dtype).
  Hypothesis S : same_tree (read_back mach) t0 t1.
  Hypothesis Em : empties_in 0 (tstrided t1) t1.
  Lemma back_in d' : In d' (tleaves t1) -> dt_id d' = EMPTY \/
    exists d, In d (tleaves t0) /\ d' = JsonSchema.recorded mach d.
  Proof.
    intros I. destruct (Forall2_in_r _ _ _ _ (same_tree_leaves _ _ _ S) I) as (d & J & R).
    unfold read_back in R. destruct (tid_eqb (dt_id d) EMPTY); [left; exact R|right; eauto].
  Qed.
  Lemma back_strided : tstrided t1 = ttotal t.
  Proof.
    rewrite <- tcompact_total, <- (tstrided_dense t0 compact_dense). unfold tstrided.
    pose proof (same_tree_leaves _ _ _ S) as F. revert F. generalize (tleaves t0), (tleaves t1). intros l l' F.
    induction F as [|d d' l l' R F IH]; [reflexivity|]. cbn [map fold_right]. rewrite IH. f_equal.
    unfold read_back in R. unfold leaf_strided, is_empty. destruct (tid_eqb (dt_id d) EMPTY) eqn:E.
    - rewrite R. reflexivity.
    - subst d'. cbn [JsonSchema.recorded dt_id]. rewrite E. reflexivity.
  Qed.
  Lemma back_fits : Forall fits_leaf (tleaves t1).
  Proof.
    apply Forall_forall. intros d' I. destruct (back_in d' I) as [E|(d & J & ->)]; [left; exact E|].
    pose proof (tcompact_fits t 0 ltac:(lia) C) as F. rewrite Forall_forall in F. apply F in J.
    destruct J as [J|J]; [left; exact J|right; exact J].
  Qed.
  Lemma back_span d' : In d' (tleaves t1) -> 0 <= spanned_bytes d' <= ttotal t.
  Proof.
    intros I. destruct (tid_eqb (dt_id d') EMPTY) eqn:E.
    - apply tid_eqb_eq in E. unfold empties_in in Em. rewrite Forall_forall in Em. specialize (Em d' I E).
      rewrite back_strided in Em. exact Em.
    - destruct (back_in d' I) as [X|(d & J & ->)]; [rewrite X in E; discriminate|].
      pose proof (tcompact_spanned_leaf t 0 d J ltac:(lia) C). unfold spanned_bytes in *. cbn. lia.
  Qed.
  Lemma back_spanned : 0 <= tspanned t1 <= ttotal t.
  Proof.
    pose proof (ttotal_counts t C) as N. pose proof back_span as B. clear S Em.
    assert (G : 0 <= fold_right Z.max 0 (map spanned_bytes (tleaves t1)) <= ttotal t).
    { split; [apply zmaxf_nonneg|]. apply zmaxf_le; [exact N|]. intros x I. apply in_map_iff in I.
      destruct I as (d & <- & I). apply B, I. }
    destruct t1 as [d|es|ts]; [|exact G..]. apply B. left; reflexivity.
  Qed.
End Compact.

(** * Values behind one pointer *)
Lemma leaf_recorded mach m data d lv : dt_id d <> EMPTY -> leaf_value m data d = Ok lv ->
  leaf_value m data (JsonSchema.recorded mach d) = Ok (file_order mach lv).
Proof.
  intros N E. destruct (leaf_value_inv _ _ _ _ E) as [[T _]|(D & Hn & es & -> & H)]; [contradiction|].
  rewrite (leaf_value_data m data (JsonSchema.recorded mach d) es); auto.
  cbn [JsonSchema.recorded dt_id dt_endian file_order]. destruct (dt_endian d); reflexivity.
Qed.
Lemma loaded_value mach m data t0 : forall t1 own own' v,
  same_tree (read_back mach) t0 t1 -> nvalue m (walk t0 data own) = Ok v ->
  nvalue m (walk t1 data own') = Ok (tmap (file_order mach) v).
Proof.
  induction t0 as [d|es IH|ks IH] using tree_ind'; intros t1 own own' v S E; inversion S as [? d' r|? es' r|? ks' r]; subst; cbn [walk] in *.
  - apply nvalue_leaf in E. destruct E as (lv & -> & E). apply nvalue_leaf. exists (file_order mach lv). split; [reflexivity|].
    cbn [h_data] in *. unfold read_back in r. destruct (tid_eqb (dt_id d) EMPTY) eqn:T.
    + apply tid_eqb_eq in T. rewrite leaf_value_empty in E by exact T. injection E as <-. apply leaf_value_empty, r.
    + subst d'. apply leaf_recorded; [|exact E]. intros X. rewrite X in T. discriminate.
  - apply nvalue_obj in E. destruct E as (vs & -> & E). apply nvalue_obj. cbn [tmap]. eexists. split; [reflexivity|].
    clear S. revert vs E. induction r as [|[k x] [k' x'] es es' [E1 E2] r IHr]; intros vs E; cbn [map] in *;
      inversion E as [|? [kv v'] ? vs' [Ek Ev] Er]; subst; cbn [map]; constructor.
    + inversion_clear IH as [|? ? I1 I2]. cbn [fst snd] in *. subst k'. split; [exact Ek|].
      eapply I1; [exact E2|exact Ev].
    + inversion_clear IH as [|? ? I1 I2]. apply IHr; assumption.
  - apply nvalue_lst in E. destruct E as (vs & -> & E). apply nvalue_lst. cbn [tmap]. eexists. split; [reflexivity|].
    clear S. revert vs E. induction r as [|x x' es es' E2 r IHr]; intros vs E; cbn [map] in *;
      inversion E as [|? v' ? vs' Ev Er]; subst; cbn [map]; constructor.
    + inversion_clear IH as [|? ? I1 I2]. eapply I1; [exact E2|exact Ev].
    + inversion_clear IH as [|? ? I1 I2]. apply IHr; assumption.
Qed.

Lemma vbytes_length m src v : nvalue m src = Ok v -> Z.of_nat (length (vbytes v)) = ttotal (nschema src).
Proof.
  intros E. destruct (fresh_write m src v E) as (m1 & m2 & _ & _ & _ & _ & V & _).
  pose proof (value_bytes (nschema src) m2 (length m, 0) 0 false v (V false)) as B.
  destruct (load_inv _ _ _ _ B) as (Nn & L & _). lia.
Qed.
Lemma load_all bs rest : load (Some bs :: rest) (0%nat, 0) (Z.of_nat (length bs)) = Ok bs.
Proof.
  unfold load. destruct (Z.eqb_spec (Z.of_nat (length bs)) 0) as [E|E].
  - destruct bs; [reflexivity|simpl in E; lia].
  - cbn [nth_error fst snd]. replace ((0 <=? 0) && (0 <=? Z.of_nat (length bs)) && (0 + Z.of_nat (length bs) <=? Z.of_nat (length bs))) with true by lia.
    unfold sub_range. cbn [skipn Z.to_nat]. rewrite Nat2Z.id, firstn_all. reflexivity.
Qed.

(** The file's first bytes in a block, seen through a tree read back. *)
Lemma block_value mach m0 src v t1 m b own :
  nvalue m0 src = Ok v ->
  same_tree (read_back mach) (tcompact (nschema src) 0) t1 ->
  empties_in 0 (tstrided t1) t1 ->
  nth_error m b = Some (Some (firstn (Z.to_nat (tspanned t1)) (vbytes v))) ->
  nvalue m (walk t1 (Some (b, 0)) own) = Ok (tmap (file_order mach) v).
Proof.
  intros E S Em B. pose proof (nvalue_leaves src m0 v E) as C. pose proof (nvalue_leaf_like src m0 v E) as K.
  assert (Ld : load [Some (vbytes v)] (0%nat, 0) (ttotal (nschema src)) = Ok (vbytes v)).
  { rewrite <- (vbytes_length m0 src v E). apply load_all. }
  pose proof (bytes_value m0 src v [Some (vbytes v)] (0%nat, 0) false E Ld) as V0.
  pose proof (loaded_value mach _ _ _ t1 false false v S V0) as V1.
  apply (walk_move t1 [Some (vbytes v)] m (0%nat, 0) (b, 0) false own _ V1).
  intros d i j I Hi Hj.
  pose proof (back_fits (nschema src) C mach t1 S) as F. rewrite Forall_forall in F.
  pose proof (fits_range t1 d i j I (F d I) Hi Hj) as R.
  unfold rd, padd. cbn [fst snd]. unfold block. rewrite B. cbn [nth_error].
  replace (0 + (eaddr d i + j) <? 0) with false by lia.
  assert (X : forall n k (l : list byte), (k < n)%nat -> nth_error (firstn n l) k = nth_error l k).
  { induction n as [|n IH]; intros k l H; [lia|]. destruct l as [|x l]; [reflexivity|]. destruct k; [reflexivity|].
    cbn. apply IH. lia. }
  apply X. lia.
Qed.

(** * Saving *)
Definition two_files (fs : files) (base : str) (schema_text bytes : list byte) : Prop :=
  mget fs (schema_file base) = Some schema_text /\ mget fs base = Some bytes.
Lemma schema_file_ne base : schema_file base <> base.
Proof. unfold schema_file. intros E. apply (f_equal (@length ascii)) in E. rewrite app_length in E. simpl in E. lia. Qed.
Lemma nsave_ok mach m fs src base v :
  nvalue m src = Ok v ->
  exists m1 fs1, nsave mach m fs src base = Ok (m1, fs1) /\ extends m m1 [] /\
    (forall b, live m1 b -> (b < length m)%nat) /\
    (forall name, name <> base -> name <> schema_file base -> mget fs1 name = mget fs name) /\
    two_files fs1 base (to_json mach (schema_of_tree (tcompact (nschema src) 0))) (vbytes v).
Proof.
  intros E. unfold nsave.
  pose proof (nvalue_leaves src m v E) as C. pose proof (nvalue_leaf_like src m v E) as K.
  assert (Ow : owned_ok m nempty) by (split; constructor).
  destruct (ncompact_ok m src nempty v Ow E) as (m1 & r & R & P); [intros q _ []|].
  destruct P as [Pv Ps Px Pl _ Pb Po _].
  rewrite R. cbn [obind].
  rewrite (nstream_ok r m1 v Pv) by (rewrite Ps; apply compact_std; assumption).
  cbn [obind]. rewrite Ps.
  specialize (Po ltac:(apply tidy_nempty)).
  assert (Or : owned_ok m1 r).
  { unfold owned_ok, owned_blocks. rewrite Po. destruct (Z.ltb_spec 0 (ttotal (nschema src))) as [H|H].
    - destruct (Pb H) as (l & El & _). split; [constructor; [split; [reflexivity|exists l; exact El]|constructor]|].
      constructor; [intros []|constructor].
    - split; constructor. }
  destruct (nfree_ok m1 r Or) as (m2 & E2 & [L2 F2]). rewrite E2. cbn [obind].
  exists m2. eexists. split; [reflexivity|].
  assert (Ob : owned_blocks r = if 0 <? ttotal (nschema src) then [length m] else []).
  { unfold owned_blocks. rewrite Po. destruct (0 <? ttotal (nschema src)); reflexivity. }
  split; [|split; [|split]].
  - destruct Px as [X1 X2]. split; [lia|]. intros b Hb. rewrite F2, Ob.
    destruct (in_dec Nat.eq_dec b _) as [I|I].
    + destruct (0 <? ttotal (nschema src)); [destruct I as [I|[]]; lia|destruct I].
    + rewrite X2 by exact Hb. reflexivity.
  - intros b [l Lb]. pose proof (proj1 (nth_error_Some m2 b) ltac:(congruence)) as H. rewrite L2, Pl in H.
    rewrite F2, Ob in Lb. destruct (0 <? ttotal (nschema src)); [|lia].
    destruct (in_dec Nat.eq_dec b _) as [I|I]; [discriminate|].
    assert (b <> length m) by (intros ->; apply I; left; reflexivity). lia.
  - intros name N1 N2. rewrite !mget_mset.
    destruct (str_eqb_spec name base); [contradiction|]. destruct (str_eqb_spec name (schema_file base)); [contradiction|]. reflexivity.
  - split; rewrite !mget_mset.
    + destruct (str_eqb_spec (schema_file base) base) as [X|X]; [destruct (schema_file_ne _ X)|].
      rewrite str_eqb_refl. reflexivity.
    + rewrite str_eqb_refl. reflexivity.
Qed.

(** * Reading the schema file *)
Lemma schema_back parse mach t : reads_json parse -> mach <> DEFAULT_E ->
  counts t -> Forall leaf_like (tleaves t) -> names_unique t -> all_names json_name t -> ttotal t < 2 ^ 63 ->
  exists s, schema_of_json parse (to_json mach (schema_of_tree (tcompact t 0))) = Ok s /\
    same_tree (read_back mach) (tcompact t 0) (abs s) /\ empties_in 0 (tstrided (abs s)) (abs s).
Proof.
  intros P M C K U N T. pose proof (tcompact_placed t 0 C) as Pl.
  destruct (schema_of_tree_ok (tcompact t 0)) as [W A].
  { eapply same_tree_unique; eauto. }
  { apply compact_like; assumption. }
  destruct (schema_round_trip_at parse mach 2 (L " ") [c_nl] (schema_of_tree (tcompact t 0)) P M) as (s & E & Ws & S & Tt).
  - repeat constructor.
  - constructor; [right; left; reflexivity|constructor].
  - exact W.
  - rewrite A. split; [eapply same_tree_names; eauto|apply compact_json; assumption].
  - exists s. split; [exact E|]. rewrite A in *. split; [exact S|].
    destruct (Tt (compact_tight t C K)) as [_ X]. rewrite tstrided_abs by exact Ws. exact X.
Qed.

Lemma put_range_all (l bs : list byte) : length bs = length l -> put_range l 0 bs = bs.
Proof.
  intros E. unfold put_range. cbn [firstn app Nat.add]. rewrite skipn_all2 by lia. apply app_nil_r.
Qed.
Lemma set_nth_end {A} (l : list A) x y : set_nth (l ++ [x]) (length l) y = l ++ [y].
Proof. induction l as [|a l IH]; cbn; [reflexivity|]. f_equal. exact IH. Qed.
Lemma store_fresh m l bs : length bs = length l -> store (m ++ [Some l]) (length m, 0) bs = Ok (m ++ [Some bs]).
Proof.
  intros E. unfold store. destruct bs as [|c bs].
  - destruct l; [reflexivity|discriminate].
  - cbn [fst snd]. rewrite nth_error_app2, Nat.sub_diag by lia. cbn [nth_error].
    replace ((0 <=? 0) && (0 + Z.of_nat (length (c :: bs)) <=? Z.of_nat (length l))) with true by lia.
    cbn [Z.to_nat]. rewrite put_range_all by exact E. rewrite set_nth_end. reflexivity.
Qed.
Lemma fresh_owned m l t : owned_ok (m ++ [Some l]) (walk t (Some (length m, 0)) true).
Proof.
  assert (A : Forall (fun p : ptr => snd p = 0 /\ live (m ++ [Some l]) (fst p)) [(length m, 0)]).
  { constructor; [|constructor]. split; [reflexivity|]. exists l. cbn [fst]. rewrite nth_error_app2, Nat.sub_diag by lia. reflexivity. }
  unfold owned_ok, owned_blocks. rewrite owns_walk.
  destruct t as [d|es|ts]; [destruct (is_empty d)|..]; cbn [map fst];
    (split; [first [exact A|constructor]|first [constructor; [intros []|constructor]|constructor]]).
Qed.
Lemma fresh_extends m m1 fr l : freed m m1 fr -> extends m (m1 ++ [Some l]) fr.
Proof.
  intros [L F]. split; [rewrite app_length; simpl; lia|]. intros b Hb. rewrite nth_error_app1 by lia. apply F.
Qed.

Section Back.
  Variables (parse : str -> outcome jval) (mach : endian).
  Hypothesis P : reads_json parse.
  Hypothesis M : mach <> DEFAULT_E.
  Variables (m0 : mem) (src : node) (v : tree leafval).
  Hypothesis E : nvalue m0 src = Ok v.
  Hypothesis U : names_unique (nschema src).
  Hypothesis N : all_names json_name (nschema src).
  Hypothesis T : ttotal (nschema src) < 2 ^ 63.
  Variables (fs : files) (base : str).
  Hypothesis F : two_files fs base (to_json mach (schema_of_tree (tcompact (nschema src) 0))) (vbytes v).
  Lemma load_back m dest : owned_ok m dest ->
    exists m' r, nload parse m fs dest base = Ok (m', r) /\
      nvalue m' r = Ok (tmap (file_order mach) v) /\ owned_ok m' r /\ extends m m' (owned_blocks dest).
  Proof.
    intros Ow. destruct F as [F1 F2].
    pose proof (nvalue_leaves src m0 v E) as C. pose proof (nvalue_leaf_like src m0 v E) as K.
    destruct (schema_back parse mach (nschema src) P M C K U N T) as (s & Es & S & Em).
    unfold nload, schema_load. rewrite F1, Es. cbn [obind]. unfold nload_schema, nreset.
    destruct (nfree_ok m dest Ow) as (m1 & E1 & Fr). rewrite E1. cbn [obind].
    pose proof (back_spanned (nschema src) C K mach (abs s) S Em) as Sp.
    unfold nalloc. rewrite alloc_ok by lia. cbn [obind h_data h_own]. rewrite F2. cbn [ostore].
    rewrite store_fresh.
    2:{ rewrite firstn_length, repeat_length. pose proof (vbytes_length m0 src v E). lia. }
    cbn [obind]. eexists. eexists. split; [reflexivity|]. split; [|split].
    - apply (block_value mach m0 src v); auto. rewrite nth_error_app2, Nat.sub_diag by auto. reflexivity.
    - apply fresh_owned.
    - apply fresh_extends, Fr.
  Qed.
  (** The mapped range is the span of the schema read back; a leaf with at least
      one byte makes it non-empty. *)
  Lemma spanned_pos t1 : same_tree (read_back mach) (tcompact (nschema src) 0) t1 -> 0 < ttotal (nschema src) -> 0 < tspanned t1.
  Proof.
    intros S Pos. pose proof (nvalue_leaves src m0 v E) as C. pose proof (nvalue_leaf_like src m0 v E) as K.
    assert (exists d, In d (tleaves (tcompact (nschema src) 0)) /\ dt_id d <> EMPTY /\ 0 < spanned_bytes d) as (d & I & Ne & Hd).
    { pose proof (tcompact_total (nschema src) C) as Tt.
      assert (G : forall l, Forall (fun d => 0 <= dt_n d \/ dt_id d = EMPTY) l -> 0 < total_of l -> exists d, In d l /\ 0 < default_bytes (dt_id d) * dt_n d).
      { induction l as [|d l IH]; intros Fl H; cbn in H; [lia|]. inversion_clear Fl as [|? ? A B].
        destruct (Z.lt_ge_cases 0 (default_bytes (dt_id d) * dt_n d)); [exists d; split; [left; reflexivity|assumption]|].
        destruct (IH B ltac:(lia)) as (x & X & Y). exists x; split; [right; exact X|exact Y]. }
      destruct (G (tleaves (tcompact (nschema src) 0))) as (d & I & H).
      - apply Forall_forall. intros d I.
        destruct (compact_in (nschema src) C K d I) as (d0 & o & _ & -> & _ & B & _).
        unfold leaf_compact. destruct (is_empty d0) eqn:Ed; [right; reflexivity|left].
        destruct B as [B|B]; [exact B|]. unfold is_empty in Ed. rewrite B in Ed. discriminate.
      - fold (ttotal (tcompact (nschema src) 0)). lia.
      - exists d. split; [exact I|]. split; [intros X; rewrite X in H; simpl in H; lia|].
        destruct (compact_in (nschema src) C K d I) as (d0 & o & _ & -> & A & B & O1 & O2).
        unfold leaf_compact in *. destruct (is_empty d0) eqn:Ed; [simpl in H; lia|].
        unfold spanned_bytes. cbn [dt_id dt_n dt_off dt_stride dt_ebytes] in *. nia. }
    pose proof (same_tree_leaves _ _ _ S) as Fl.
    assert (exists d', In d' (tleaves t1) /\ 0 < spanned_bytes d') as (d' & I' & H').
    { revert I. induction Fl as [|a b l l' R Fl IH]; intros I; [destruct I|]. destruct I as [-> |I].
      - exists b. split; [left; reflexivity|]. unfold read_back in R.
        destruct (tid_eqb (dt_id d) EMPTY) eqn:X; [apply tid_eqb_eq in X; contradiction|]. subst b. exact Hd.
      - destruct (IH I) as (x & X & Y). exists x; split; [right; exact X|exact Y]. }
    pose proof (tspanned_leaf t1 d' I'). lia.
  Qed.
  Lemma mmap_back m dest : owned_ok m dest -> 0 < ttotal (nschema src) < 2 ^ 31 ->
    exists m' fs' r, nmmap parse m fs dest base = Ok (m', fs', r) /\
      nvalue m' r = Ok (tmap (file_order mach) v) /\ owned_ok m' r /\ extends m m' (owned_blocks dest) /\
      forall name, mget fs' name = mget fs name.
  Proof.
    intros Ow Sz. destruct F as [F1 F2].
    pose proof (nvalue_leaves src m0 v E) as C. pose proof (nvalue_leaf_like src m0 v E) as K.
    destruct (schema_back parse mach (nschema src) P M C K U N T) as (s & Es & S & Em).
    unfold nmmap, schema_load. rewrite F1, Es. cbn [obind]. unfold nmmap_schema, nreset.
    destruct (nfree_ok m dest Ow) as (m1 & E1 & Fr). rewrite E1. cbn [obind].
    pose proof (back_spanned (nschema src) C K mach (abs s) S Em) as Sp.
    pose proof (spanned_pos (abs s) S ltac:(lia)) as Ps.
    replace (tspanned (abs s) =? 0) with false by lia.
    replace ((tspanned (abs s) <? 0) || (2 ^ 31 <=? tspanned (abs s))) with false by lia.
    rewrite F2. do 3 eexists. split; [reflexivity|]. split; [|split; [|split]].
    - apply (block_value mach m0 src v); auto. rewrite nth_error_app2, Nat.sub_diag by auto. reflexivity.
    - apply fresh_owned.
    - apply fresh_extends, Fr.
    - intros name. rewrite mget_mset. destruct (str_eqb_spec name base); [subst; auto|reflexivity].
  Qed.
End Back.

(** A mapping of 2^31 bytes or more. *)
Lemma mmap_large parse mach K : reads_json parse -> mach <> DEFAULT_E -> 2 ^ 31 <= K < 2 ^ 63 ->
  let src := NLeaf (mkH (Some (0%nat, 0)) true) (dt_simple UINT8 K) in
  let m := [Some (repeat zero_byte (Z.to_nat K))] in
  exists v m1 fs1, nvalue m src = Ok v /\ nsave mach m [] src (L "out") = Ok (m1, fs1) /\
    nmmap parse m1 fs1 nempty (L "out") = UB.
Proof.
  intros P M B src m.
  assert (S0 : tspanned (nschema src) = K) by (unfold src; cbn [nschema tspanned]; unfold spanned_bytes; cbn [dt_simple leaf_compact JsonSchema.recorded dt_id dt_n dt_off dt_stride dt_ebytes default_bytes]; lia).
  assert (E : nvalue m src = Ok (tmap leaf_zero (nschema src))).
  { apply (value_zero m 0 (nschema src) true).
    - rewrite S0. reflexivity.
    - constructor; [|constructor]. unfold laid_out, std_leaf. right. cbn. repeat split; try discriminate; lia. }
  destruct (nsave_ok mach m [] src (L "out") _ E) as (m1 & fs1 & S & X & Lk & Fr & F1 & F2).
  do 3 eexists. split; [exact E|]. split; [exact S|].
  pose proof (nvalue_leaves src m _ E) as C. pose proof (nvalue_leaf_like src m _ E) as Kl.
  assert (T : ttotal (nschema src) = K) by (unfold src, ttotal; cbn [nschema tleaves total_of map fold_right]; cbn [dt_simple dt_id dt_n default_bytes]; lia).
  destruct (schema_back parse mach (nschema src) P M C Kl ltac:(constructor) ltac:(constructor) ltac:(lia)) as (s & Es & Ss & Em).
  unfold nmmap, schema_load. rewrite F1, Es. cbn [obind]. unfold nmmap_schema, nreset. cbn [nfree nempty is_empty obind].
  replace (is_empty dt_empty) with true by reflexivity. cbn [obind].
  assert (Sp : tspanned (abs s) = K).
  { unfold src in Ss. cbn [nschema tcompact] in Ss. inversion Ss as [? ? R Q1 Q2| |]. unfold read_back in R. cbn in R.
    subst b. cbn [tspanned]. unfold spanned_bytes. cbn [dt_simple leaf_compact JsonSchema.recorded dt_id dt_n dt_off dt_stride dt_ebytes default_bytes]. lia. }
  rewrite Sp. replace (K =? 0) with false by lia. replace ((K <? 0) || (2 ^ 31 <=? K)) with true by lia. reflexivity.
Qed.
