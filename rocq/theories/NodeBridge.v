(** The schema functions Node.v uses on abstract schemas are those of the schema
    model (Schema.v): same totals, same spans, same compaction. *)
From Verif Require Import Base DType Path SpecTree Schema PathFacts SchemaInv SchemaRefine SchemaMore SchemaLayout
  Mem Node MemFacts SpecNode NodeFacts NodeCompact NodeSerial.
Local Open Scope Z_scope.

Lemma ttotal_abs s : wf s -> ttotal (abs s) = total_bytes_compact s.
Proof. intros W. unfold ttotal. rewrite tleaves_abs by exact W. symmetry. apply total_bytes_compact_sum. Qed.
Lemma tstrided_abs s : wf s -> tstrided (abs s) = total_strided_bytes s.
Proof.
  intros W. unfold tstrided. rewrite tleaves_abs by exact W. clear W.
  assert (X : forall ks, Forall (fun s => fold_right Z.add 0 (map leaf_strided (sleaves s)) = total_strided_bytes s) ks ->
     fold_right Z.add 0 (map leaf_strided (flat_map sleaves ks)) = zsum (map total_strided_bytes ks)).
  { induction 1 as [|k ks Hk _ IH]; [reflexivity|]. cbn [flat_map map zsum]. rewrite map_app.
    assert (A : forall a b, fold_right Z.add 0 (a ++ b) = fold_right Z.add 0 a + fold_right Z.add 0 b).
    { induction a as [|x a IHa]; intros b; cbn [app fold_right]; [lia|]. rewrite IHa. lia. }
    rewrite A, Hk, IH. reflexivity. }
  induction s as [d|m o ks IH|ks IH] using schema_ind'; cbn [sleaves total_strided_bytes]; [|apply X; exact IH..].
  cbn [map fold_right]. unfold leaf_strided, is_empty. lia.
Qed.
Lemma tspanned_abs s : wf s -> tspanned (abs s) = s_spanned_bytes s.
Proof.
  intros W.
  assert (A : forall a b, fold_right Z.max 0 (a ++ b) = Z.max (fold_right Z.max 0 a) (fold_right Z.max 0 b)).
  { induction a as [|x a IHa]; intros b; cbn [app fold_right].
    - pose proof (zmaxf_nonneg b). lia.
    - rewrite IHa. lia. }
  assert (Y : forall s, fold_right Z.max 0 (map spanned_bytes (sleaves s)) = Z.max 0 (s_spanned_bytes s)).
  { clear s W.
    assert (X : forall ks, Forall (fun s => fold_right Z.max 0 (map spanned_bytes (sleaves s)) = Z.max 0 (s_spanned_bytes s)) ks ->
       fold_right Z.max 0 (map spanned_bytes (flat_map sleaves ks)) = Z.max 0 (zmax0 (map s_spanned_bytes ks))).
    { induction 1 as [|k ks Hk _ IH]; [reflexivity|]. cbn [flat_map map zmax0]. rewrite map_app, A, Hk, IH. lia. }
    intros s. induction s as [d|m o ks IH|ks IH] using schema_ind'; cbn [sleaves s_spanned_bytes]; [|apply X; exact IH..].
    cbn [map fold_right]. lia. }
  assert (Z0 : forall l, 0 <= zmax0 l) by (induction l as [|x l IHl]; simpl; lia).
  pose proof (tleaves_abs s W) as L. specialize (Y s). unfold tspanned.
  destruct s as [d|m o ks|ks]; cbn [abs] in *; [reflexivity|..]; rewrite L, Y; cbn [s_spanned_bytes];
    specialize (Z0 (map s_spanned_bytes ks)); lia.
Qed.
Lemma tcompact_abs s : wf s -> forall off, abs (compact_at s off) = tcompact (abs s) off.
Proof.
  induction s as [d|m o ks IH|ks IH] using schema_ind'; intros W off.
  - cbn [compact_at abs tcompact]. unfold leaf_compact, is_empty.
    destruct (tid_eqb (dt_id d) EMPTY); reflexivity.
  - inversion W as [|? ? ? Ho Hf|]; subst. rewrite (compact_at_obj m) by exact Ho. cbn [abs]. rewrite tcompact_obj.
    f_equal. destruct Ho as (_ & Hl & _). clear W m. revert o Hl off.
    induction ks as [|k ks IHk]; intros [|x o] Hl off; try discriminate; [reflexivity|].
    inversion IH; subst. inversion Hf; subst. cbn [thread map combine cthread_es].
    rewrite total_compact_at by assumption. rewrite (ttotal_abs k) by assumption. f_equal; [f_equal; auto|].
    apply IHk; auto.
  - inversion W; subst. rewrite compact_at_lst. cbn [abs]. rewrite tcompact_lst. f_equal. clear W. revert off.
    induction ks as [|k ks IHk]; intros off; [reflexivity|].
    inversion IH; subst. inversion H0; subst. cbn [thread map cthread_ts].
    rewrite total_compact_at by assumption. rewrite (ttotal_abs k) by assumption. f_equal; auto.
Qed.
