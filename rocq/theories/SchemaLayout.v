(** Layout facts: spanned bytes, compaction, is_compact. *)
From Verif Require Import Base DType Path SpecTree Schema PathFacts SchemaInv SchemaRefine SchemaMore.
Local Open Scope Z_scope.

Fixpoint sleaves (s : schema) : list dtype :=
  match s with
  | SLeaf d => [d]
  | SObj _ _ ks => flat_map sleaves ks
  | SLst ks => flat_map sleaves ks
  end.
Lemma tleaves_abs s : wf s -> tleaves (abs s) = sleaves s.
Proof.
  induction s as [d|m o ks IH|ks IH] using schema_ind'; intros W; [reflexivity| |].
  - inversion W as [|? ? ? Ho Hf|]; subst. cbn [abs tleaves sleaves].
    destruct Ho as (_ & Hl & _). clear W m.
    revert o Hl. induction ks as [|k ks IHk]; intros [|x o] Hl; try discriminate; [reflexivity|].
    inversion IH; subst. inversion Hf; subst. simpl. f_equal; auto.
  - inversion W; subst. cbn [abs tleaves sleaves]. clear W.
    induction ks as [|k ks IHk]; [reflexivity|].
    inversion IH; subst. inversion H0; subst. simpl. f_equal; auto.
Qed.

Lemma bytes_compact_empty d : (if tid_eqb (dt_id d) EMPTY then 0 else bytes_compact d) = default_bytes (dt_id d) * dt_n d.
Proof.
  unfold bytes_compact. destruct (tid_eqb (dt_id d) EMPTY) eqn:E; [|reflexivity].
  apply tid_eqb_eq in E. rewrite E. reflexivity.
Qed.
Lemma total_of_app a b : total_of (a ++ b) = total_of a + total_of b.
Proof. induction a as [|x a IH]; simpl; lia. Qed.
Lemma total_of_flat (ks : list schema) :
  Forall (fun s => total_bytes_compact s = total_of (sleaves s)) ks ->
  zsum (map total_bytes_compact ks) = total_of (flat_map sleaves ks).
Proof.
  induction 1 as [|k ks Hk Hks IH]; simpl; [reflexivity|]. rewrite total_of_app. lia.
Qed.
Lemma total_bytes_compact_sum s : total_bytes_compact s = total_of (sleaves s).
Proof.
  induction s as [d|m o ks IH|ks IH] using schema_ind'.
  - cbn [total_bytes_compact sleaves total_of]. rewrite bytes_compact_empty. lia.
  - cbn [total_bytes_compact sleaves]. apply total_of_flat; exact IH.
  - cbn [total_bytes_compact sleaves]. apply total_of_flat; exact IH.
Qed.

(** ---- spanned bytes ---- *)
Lemma zmax0_ge l x : In x l -> x <= zmax0 l.
Proof. induction l as [|y l IH]; intros []; simpl; [lia|]. specialize (IH H). lia. Qed.
Lemma zmax0_nonneg l : 0 <= zmax0 l.
Proof. induction l; simpl; lia. Qed.
Lemma zmax0_attained l : zmax0 l = 0 \/ In (zmax0 l) l.
Proof.
  induction l as [|y l IH]; simpl; [left; reflexivity|].
  destruct (Z.max_spec y (zmax0 l)) as [[H E]|[H E]]; rewrite E.
  - destruct IH as [Z|I]; [left; exact Z|right; right; exact I].
  - right; left; reflexivity.
Qed.

Lemma spanned_ge_leaf s d : In d (sleaves s) -> spanned_bytes d <= s_spanned_bytes s.
Proof.
  assert (X : forall ks, Forall (fun s => In d (sleaves s) -> spanned_bytes d <= s_spanned_bytes s) ks ->
     In d (flat_map sleaves ks) -> spanned_bytes d <= zmax0 (map s_spanned_bytes ks)).
  { intros ks F I. apply in_flat_map in I. destruct I as (k & Ik & Id).
    rewrite Forall_forall in F. specialize (F k Ik Id).
    pose proof (zmax0_ge (map s_spanned_bytes ks) (s_spanned_bytes k) (in_map _ _ _ Ik)). lia. }
  induction s as [e|m o ks IH|ks IH] using schema_ind'; cbn [sleaves s_spanned_bytes].
  - intros [->|[]]. lia.
  - apply X; exact IH.
  - apply X; exact IH.
Qed.
Lemma spanned_attained s :
  s_spanned_bytes s = 0 \/ exists d, In d (sleaves s) /\ spanned_bytes d = s_spanned_bytes s.
Proof.
  assert (X : forall ks, Forall (fun s => s_spanned_bytes s = 0 \/
       exists d, In d (sleaves s) /\ spanned_bytes d = s_spanned_bytes s) ks ->
     zmax0 (map s_spanned_bytes ks) = 0 \/
     exists d, In d (flat_map sleaves ks) /\ spanned_bytes d = zmax0 (map s_spanned_bytes ks)).
  { intros ks F. destruct (zmax0_attained (map s_spanned_bytes ks)) as [Z|I]; [left; exact Z|].
    apply in_map_iff in I. destruct I as (k & Ek & Ik). rewrite Forall_forall in F.
    destruct (F k Ik) as [Z|(d & Id & Ed)].
    - left; congruence.
    - right. exists d. split; [apply in_flat_map; eauto|congruence]. }
  induction s as [e|m o ks IH|ks IH] using schema_ind'; cbn [sleaves s_spanned_bytes].
  - right. exists e. split; [left; reflexivity|reflexivity].
  - apply X; exact IH.
  - apply X; exact IH.
Qed.

Lemma leaf_in_span d i b :
  0 <= dt_off d -> 0 <= dt_stride d -> occupies d i b -> 0 <= b < spanned_bytes d.
Proof. unfold occupies, spanned_bytes. intros. nia. Qed.
Lemma leaf_last_byte d :
  0 <= dt_off d -> 0 <= dt_stride d -> 1 <= dt_n d -> 1 <= dt_ebytes d ->
  occupies d (dt_n d - 1) (spanned_bytes d - 1).
Proof. unfold occupies, spanned_bytes. intros. nia. Qed.

(** ---- compaction ---- *)
Definition thread (compact : schema -> Z -> schema) :=
  fix go (ks : list schema) (off : Z) : list schema :=
    match ks with
    | [] => []
    | k :: r => let c := compact k off in c :: go r (off + total_bytes_compact c)
    end.
(** The map of an object built by adding [names] in order after [n] others. *)
Definition number_from (names : list str) (n : nat) : list (str * Z) :=
  combine names (map Z.of_nat (seq n (length names))).

Lemma length_thread c ks : forall off, length (thread c ks off) = length ks.
Proof. induction ks as [|k ks IH]; intros off; simpl; [reflexivity|]. f_equal. apply IH. Qed.

Lemma compact_kids_list c ks : forall ds names off,
  compact_kids c (SLst ds) names ks off = SLst (ds ++ thread c ks off).
Proof.
  induction ks as [|k ks IH]; intros ds names off; cbn [compact_kids thread].
  - rewrite app_nil_r. reflexivity.
  - rewrite IH, <- app_assoc. reflexivity.
Qed.

Lemma compact_kids_obj c ks : forall m0 o0 k0 names off,
  obj_ok m0 o0 (length k0) -> NoDup (o0 ++ names) -> length names = length ks ->
  compact_kids c (SObj m0 o0 k0) names ks off =
  SObj (m0 ++ number_from names (length k0)) (o0 ++ names) (k0 ++ thread c ks off).
Proof.
  induction ks as [|k ks IH]; intros m0 o0 k0 names off Ho ND HL.
  - destruct names; [|discriminate]. simpl. rewrite !app_nil_r. reflexivity.
  - destruct names as [|x names]; [discriminate|].
    assert (Hx : mget m0 x = None).
    { pose proof (obj_ok_index m0 o0 _ x Ho) as X.
      destruct (mget m0 x); [|reflexivity]. exfalso. destruct X as [I _].
      apply NoDup_remove_2 in ND. apply ND. apply in_app_iff; left; exact I. }
    pose proof (obj_ok_push m0 o0 _ x Ho Hx) as Ho'.
    change (compact_kids c (SObj m0 o0 k0) (x :: names) (k :: ks) off) with
      (let cc := c k off in
       compact_kids c
         (let d1 := add_child (SObj m0 o0 k0) x in
          match child_index d1 x with
          | Ok i => set_kids d1 (set_nth (s_kids d1) (Z.to_nat i) cc)
          | _ => d1
          end) names ks (off + total_bytes_compact cc)).
    cbv zeta. unfold add_child. cbn [has_child]. rewrite Hx. cbn [init_object push_named].
    unfold push_named. cbn [child_index]. rewrite mget_mset_same. cbn [s_kids set_kids].
    rewrite Nat2Z.id. rewrite set_nth_app.
    rewrite IH.
    + rewrite !app_length. cbn [length]. rewrite mset_notin by exact Hx.
      rewrite <- !app_assoc. cbn [app]. f_equal. unfold number_from.
      rewrite Nat.add_1_r. reflexivity.
    + rewrite app_length. cbn [length]. rewrite Nat.add_1_r. exact Ho'.
    + rewrite <- app_assoc. exact ND.
    + simpl in HL. lia.
Qed.

Lemma compact_at_obj m o ks off :
  obj_ok m o (length ks) ->
  compact_at (SObj m o ks) off = SObj (number_from o 0) o (thread compact_at ks off).
Proof.
  intros H. cbn [compact_at]. rewrite compact_kids_obj; auto using obj_ok_nil.
  - apply H.
  - apply H.
Qed.
Lemma compact_at_lst ks off : compact_at (SLst ks) off = SLst (thread compact_at ks off).
Proof. cbn [compact_at]. apply compact_kids_list. Qed.

Lemma nth_error_seq n len i : (i < len)%nat -> nth_error (seq n len) i = Some (n + i)%nat.
Proof.
  revert n i; induction len as [|len IH]; intros n i H; [lia|].
  destruct i as [|i]; simpl; [f_equal; lia|]. rewrite IH by lia. f_equal; lia.
Qed.
Lemma map_fst_combine {A B} (a : list A) : forall (b : list B),
  length a = length b -> map fst (combine a b) = a.
Proof. induction a as [|x a IH]; intros [|y b] H; simpl in *; try discriminate; auto. f_equal; auto. Qed.
Lemma obj_ok_number o : NoDup o -> obj_ok (number_from o 0) o (length o).
Proof.
  intros ND.
  assert (HL : length o = length (map Z.of_nat (seq 0 (length o))))
    by (rewrite map_length, seq_length; reflexivity).
  assert (Keys : map fst (number_from o 0) = o) by (apply map_fst_combine; exact HL).
  split; [rewrite Keys; exact ND|]. split; [reflexivity|]. split; [exact ND|].
  intros k i. split.
  - intros H.
    assert (I : In k o).
    { rewrite <- Keys. apply mget_In in H. apply (in_map fst) in H. exact H. }
    apply In_nth_error in I. destruct I as [j J].
    unfold number_from in H. rewrite (mget_combine_nth o _ k j) in H by auto.
    assert (j < length o)%nat by (apply nth_error_Some; congruence).
    rewrite nth_error_map, nth_error_seq in H by auto. injection H as <-.
    split; [lia|]. rewrite Nat2Z.id. exact J.
  - intros [H0 J]. unfold number_from. rewrite (mget_combine_nth o _ k _ ND HL J).
    assert (Z.to_nat i < length o)%nat by (apply nth_error_Some; congruence).
    rewrite nth_error_map, nth_error_seq by auto. simpl. f_equal. lia.
Qed.

(** thread preserves predicates that hold for each compacted child. *)
Lemma thread_Forall (P : schema -> Prop) ks :
  Forall (fun s => forall off, P (compact_at s off)) ks ->
  forall off, Forall P (thread compact_at ks off).
Proof. induction 1 as [|k ks Hk Hks IH]; intros off; simpl; constructor; auto. Qed.

Lemma wf_compact_at s : wf s -> forall off, wf (compact_at s off).
Proof.
  induction s as [d|m o ks IH|ks IH] using schema_ind'; intros W off.
  - cbn [compact_at]. destruct (tid_eqb (dt_id d) EMPTY); [apply wf_empty|].
    constructor. inversion W; auto.
  - inversion W as [|? ? ? Ho Hf|]; subst. rewrite (compact_at_obj m) by exact Ho. constructor.
    + rewrite length_thread. destruct Ho as (_ & Hl & ND & _). rewrite <- Hl. apply obj_ok_number; exact ND.
    + apply thread_Forall. apply Forall_forall. intros k Ik o'. rewrite Forall_forall in IH, Hf. auto.
  - inversion W; subst. rewrite compact_at_lst. constructor. apply thread_Forall.
    apply Forall_forall. intros k Ik o'. rewrite Forall_forall in IH. rewrite Forall_forall in *. auto.
Qed.

Lemma total_compact_at s : wf s -> forall off, total_bytes_compact (compact_at s off) = total_bytes_compact s.
Proof.
  assert (X : forall ks, Forall (fun s => wf s -> forall off, total_bytes_compact (compact_at s off) = total_bytes_compact s) ks ->
      Forall wf ks -> forall off, zsum (map total_bytes_compact (thread compact_at ks off)) = zsum (map total_bytes_compact ks)).
  { induction 1 as [|k ks Hk Hks IH]; intros F off; simpl; [reflexivity|].
    inversion F; subst. rewrite Hk, IH by auto. reflexivity. }
  induction s as [d|m o ks IH|ks IH] using schema_ind'; intros W off.
  - cbn [compact_at]. destruct (tid_eqb (dt_id d) EMPTY) eqn:E; cbn [total_bytes_compact].
    + rewrite E. reflexivity.
    + unfold bytes_compact. cbn. rewrite E. reflexivity.
  - inversion W as [|? ? ? Ho Hf|]; subst. rewrite (compact_at_obj m) by exact Ho. cbn [total_bytes_compact]. auto.
  - inversion W; subst. rewrite compact_at_lst. cbn [total_bytes_compact]. auto.
Qed.

Lemma back_to_back_app a b : forall off,
  back_to_back off (a ++ b) <-> back_to_back off a /\ back_to_back (off + total_of a) b.
Proof.
  induction a as [|d a IH]; intros off; simpl.
  - rewrite Z.add_0_r. tauto.
  - rewrite IH. rewrite Z.add_assoc. tauto.
Qed.
Lemma compact_back_to_back s : wf s -> forall off, back_to_back off (sleaves (compact_at s off)).
Proof.
  assert (X : forall ks, Forall (fun s => wf s -> forall off, back_to_back off (sleaves (compact_at s off))) ks ->
      Forall wf ks -> forall off, back_to_back off (flat_map sleaves (thread compact_at ks off))).
  { induction 1 as [|k ks Hk Hks IH]; intros F off; simpl; [exact I|].
    inversion F; subst. apply back_to_back_app. split; auto.
    rewrite <- total_bytes_compact_sum. auto. }
  induction s as [d|m o ks IH|ks IH] using schema_ind'; intros W off.
  - cbn [compact_at]. destruct (tid_eqb (dt_id d) EMPTY) eqn:E; cbn [sleaves back_to_back].
    + simpl. split; [intros C; exfalso; apply C; reflexivity|exact I].
    + simpl. auto.
  - inversion W as [|? ? ? Ho Hf|]; subst. rewrite (compact_at_obj m) by exact Ho. cbn [sleaves]. auto.
  - inversion W; subst. rewrite compact_at_lst. cbn [sleaves]. auto.
Qed.

Lemma map_combine_snd {A B} (g : A -> B) (o : list str) : forall (ts : list A),
  map (fun e => (fst e, g (snd e))) (combine o ts) = combine o (map g ts).
Proof. induction o as [|x o IH]; intros [|t ts]; simpl; auto. f_equal. apply IH. Qed.
Lemma compact_shape s : wf s -> forall off,
  tmap leaf_kind (abs (compact_at s off)) = tmap leaf_kind (abs s).
Proof.
  assert (X : forall ks, Forall (fun s => wf s -> forall off, tmap leaf_kind (abs (compact_at s off)) = tmap leaf_kind (abs s)) ks ->
      Forall wf ks -> forall off, map (tmap leaf_kind) (map abs (thread compact_at ks off)) = map (tmap leaf_kind) (map abs ks)).
  { induction 1 as [|k ks Hk Hks IH]; intros F off; simpl; [reflexivity|].
    inversion F; subst. f_equal; auto. }
  induction s as [d|m o ks IH|ks IH] using schema_ind'; intros W off.
  - cbn [compact_at]. destruct (tid_eqb (dt_id d) EMPTY) eqn:E; cbn [abs tmap].
    + apply tid_eqb_eq in E. unfold leaf_kind. rewrite E. reflexivity.
    + reflexivity.
  - inversion W as [|? ? ? Ho Hf|]; subst. rewrite (compact_at_obj m) by exact Ho. cbn [abs tmap].
    rewrite !map_combine_snd. rewrite X; auto.
  - inversion W; subst. rewrite compact_at_lst. cbn [abs tmap]. f_equal. auto.
Qed.

Lemma strided_back_to_back s : forall off,
  wf s -> back_to_back off (sleaves s) -> total_strided_bytes s = total_bytes_compact s.
Proof.
  assert (X : forall ks, Forall (fun s => forall off, wf s -> back_to_back off (sleaves s) ->
              total_strided_bytes s = total_bytes_compact s) ks ->
      Forall wf ks -> forall off, back_to_back off (flat_map sleaves ks) ->
      zsum (map total_strided_bytes ks) = zsum (map total_bytes_compact ks)).
  { induction 1 as [|k ks Hk Hks IH]; intros F off B; simpl; [reflexivity|].
    inversion F; subst. simpl in B. apply back_to_back_app in B. destruct B as [B1 B2].
    rewrite (Hk off), (IH ltac:(auto) _ B2); auto. }
  induction s as [d|m o ks IH|ks IH] using schema_ind'; intros off W B.
  - cbn [total_strided_bytes total_bytes_compact]. destruct (tid_eqb (dt_id d) EMPTY) eqn:E; [reflexivity|].
    simpl in B. destruct B as [B _].
    assert (dt_id d <> EMPTY) by (intros C; rewrite C in E; discriminate).
    destruct (B H) as (_ & B1 & B2). unfold strided_bytes, bytes_compact. rewrite B1, B2. ring.
  - inversion W; subst. cbn [total_strided_bytes total_bytes_compact]. eauto.
  - inversion W; subst. cbn [total_strided_bytes total_bytes_compact]. eauto.
Qed.

Lemma compact_is_compact s : wf s -> s_is_compact (s_compact_to s) = true.
Proof.
  intros W. unfold s_is_compact, s_compact_to. apply Z.eqb_eq. symmetry.
  apply (strided_back_to_back _ 0); [apply wf_compact_at; exact W|apply compact_back_to_back; exact W].
Qed.

Lemma compact_idem s : wf s -> forall off, compact_at (compact_at s off) off = compact_at s off.
Proof.
  assert (X : forall ks, Forall (fun s => wf s -> forall off, compact_at (compact_at s off) off = compact_at s off) ks ->
      Forall wf ks -> forall off, thread compact_at (thread compact_at ks off) off = thread compact_at ks off).
  { induction 1 as [|k ks Hk Hks IH]; intros F off; simpl; [reflexivity|].
    inversion F; subst. rewrite Hk by auto. f_equal. apply IH; auto. }
  induction s as [d|m o ks IH|ks IH] using schema_ind'; intros W off.
  - cbn [compact_at]. destruct (tid_eqb (dt_id d) EMPTY) eqn:E; [reflexivity|].
    cbn [compact_at]. cbn. rewrite E. reflexivity.
  - inversion W as [|? ? ? Ho Hf|]; subst. rewrite (compact_at_obj m) by exact Ho.
    rewrite (compact_at_obj (number_from o 0)).
    + rewrite X; auto.
    + rewrite length_thread. destruct Ho as (_ & Hl & ND & _). rewrite <- Hl. apply obj_ok_number; exact ND.
  - inversion W; subst. rewrite !compact_at_lst. rewrite X; auto.
Qed.

(** Back-to-back leaves cover their byte range exactly once. *)
Lemma default_bytes_pos t : is_container t = false -> t <> EMPTY -> 1 <= default_bytes t.
Proof. destruct t; simpl; intros; try discriminate; try lia; congruence. Qed.
Lemma default_bytes_nonneg t : 0 <= default_bytes t.
Proof. destruct t; simpl; lia. Qed.

Lemma total_of_nonneg ds : Forall (fun d => 0 <= dt_n d) ds -> 0 <= total_of ds.
Proof.
  induction 1 as [|d ds Hd Hds IH]; simpl; [lia|].
  pose proof (default_bytes_nonneg (dt_id d)). nia.
Qed.

(** bytes of leaves all lie in [off, off+total) *)
Lemma btb_range ds : forall off j d i b,
  back_to_back off ds -> Forall (fun d => 0 <= dt_n d) ds ->
  (forall d, In d ds -> dt_id d = EMPTY -> dt_n d = 0) ->
  nth_error ds j = Some d -> occupies d i b ->
  off + total_of (firstn j ds) <= b < off + total_of (firstn j ds) + default_bytes (dt_id d) * dt_n d.
Proof.
  induction ds as [|e ds IH]; intros off j d i b B N E J O; [destruct j; discriminate|].
  simpl in B. destruct B as [B1 B2]. inversion N; subst.
  destruct j as [|j]; simpl in *.
  - injection J as ->. destruct (tid_eq_dec (dt_id d) EMPTY) as [Em|Em].
    + destruct O as [O _]. rewrite (E d) in O; [lia|left; reflexivity|exact Em].
    + destruct (B1 Em) as (Q1 & Q2 & Q3). destruct O as [O1 O2]. rewrite Q1, Q2, Q3 in O2.
      pose proof (default_bytes_nonneg (dt_id d)). nia.
  - specialize (IH _ j d i b B2 H2 (fun d' I => E d' (or_intror I)) J O). lia.
Qed.

Lemma firstn_total ds : forall j d,
  Forall (fun d => 0 <= dt_n d) ds -> nth_error ds j = Some d ->
  0 <= total_of (firstn j ds) /\
  total_of (firstn j ds) + default_bytes (dt_id d) * dt_n d = total_of (firstn (S j) ds) /\
  total_of (firstn (S j) ds) <= total_of ds.
Proof.
  induction ds as [|e ds IH]; intros j d N J; [destruct j; discriminate|].
  inversion N; subst. pose proof (default_bytes_nonneg (dt_id e)).
  pose proof (total_of_nonneg ds H2).
  destruct j as [|j]; cbn [nth_error firstn total_of] in *.
  - injection J as ->. nia.
  - destruct (IH j d H2 J) as (A & B & C). cbn [firstn total_of] in *. nia.
Qed.
Lemma firstn_total_mono ds : forall i j,
  Forall (fun d => 0 <= dt_n d) ds -> (i <= j)%nat -> total_of (firstn i ds) <= total_of (firstn j ds).
Proof.
  induction ds as [|e ds IH]; intros i j N H; [destruct i, j; simpl; lia|].
  inversion N; subst. pose proof (default_bytes_nonneg (dt_id e)).
  destruct i as [|i]; destruct j as [|j]; cbn [firstn total_of]; try lia.
  - assert (0 <= total_of (firstn j ds)).
    { apply total_of_nonneg. apply Forall_forall. intros x Ix. rewrite Forall_forall in H3.
      apply H3. rewrite <- (firstn_skipn j ds). apply in_app_iff; left; exact Ix. }
    nia.
  - specialize (IH i j H3 ltac:(lia)). lia.
Qed.

Lemma btb_unique ds off j d i j' d' i' b :
  back_to_back off ds -> Forall (fun d => 0 <= dt_n d) ds ->
  (forall d, In d ds -> dt_id d = EMPTY -> dt_n d = 0) ->
  nth_error ds j = Some d -> occupies d i b ->
  nth_error ds j' = Some d' -> occupies d' i' b -> j = j' /\ i = i'.
Proof.
  intros B N E J O J' O'.
  pose proof (btb_range ds off j d i b B N E J O) as R.
  pose proof (btb_range ds off j' d' i' b B N E J' O') as R'.
  destruct (firstn_total ds j d N J) as (A1 & A2 & A3).
  destruct (firstn_total ds j' d' N J') as (A1' & A2' & A3').
  assert (j = j').
  { destruct (Nat.lt_trichotomy j j') as [C|[C|C]]; [exfalso|exact C|exfalso].
    - pose proof (firstn_total_mono ds (S j) j' N C). lia.
    - pose proof (firstn_total_mono ds (S j') j N C). lia. }
  split; [exact H|]. subst j'. assert (d' = d) by congruence. subst d'.
  destruct O as [O1 O2], O' as [O1' O2'].
  assert (S : dt_stride d = dt_ebytes d).
  { destruct (tid_eq_dec (dt_id d) EMPTY) as [Em|Em].
    - exfalso. rewrite (E d) in O1; [lia|eapply nth_error_In; eauto|exact Em].
    - clear - B J Em. revert off j B J. induction ds as [|e ds IH]; intros off j B J; [destruct j; discriminate|].
      simpl in B. destruct B as [B1 B2]. destruct j as [|j]; simpl in J.
      + injection J as ->. destruct (B1 Em) as (_ & Q2 & Q3). congruence.
      + eapply IH; eauto. }
  nia.
Qed.

Lemma btb_cover ds : forall off b,
  back_to_back off ds -> Forall (fun d => 0 <= dt_n d) ds ->
  (forall d, In d ds -> is_container (dt_id d) = false) ->
  off <= b < off + total_of ds ->
  exists j d i, nth_error ds j = Some d /\ occupies d i b.
Proof.
  induction ds as [|e ds IH]; intros off b B N C H; simpl in *; [lia|].
  destruct B as [B1 B2]. inversion N; subst.
  pose proof (default_bytes_nonneg (dt_id e)).
  destruct (Z.lt_ge_cases b (off + default_bytes (dt_id e) * dt_n e)) as [Hl|Hg].
  - assert (Em : dt_id e <> EMPTY).
    { intros Q. rewrite Q in Hl. simpl in Hl. lia. }
    destruct (B1 Em) as (Q1 & Q2 & Q3).
    pose proof (default_bytes_pos (dt_id e) (C e (or_introl eq_refl)) Em) as P.
    exists 0%nat, e, ((b - off) / default_bytes (dt_id e)). split; [reflexivity|].
    unfold occupies. rewrite Q1, Q2, Q3.
    pose proof (Z.div_mod (b - off) (default_bytes (dt_id e)) ltac:(lia)).
    pose proof (Z.mod_pos_bound (b - off) (default_bytes (dt_id e)) ltac:(lia)).
    nia.
  - destruct (IH _ b B2 H3 (fun d I => C d (or_intror I)) ltac:(lia)) as (j & d & i & J & O).
    exists (S j), d, i. auto.
Qed.

Lemma wf_leaves s : wf s -> forall d, In d (sleaves s) -> is_container (dt_id d) = false.
Proof.
  induction s as [e|m o ks IH|ks IH] using schema_ind'; intros W d I.
  - simpl in I. destruct I as [<-|[]]. inversion W; auto.
  - inversion W as [|? ? ? Ho Hf|]; subst. simpl in I. apply in_flat_map in I. destruct I as (k & Ik & Id).
    rewrite Forall_forall in IH, Hf. eauto.
  - inversion W as [| |? Hf]; subst. simpl in I. apply in_flat_map in I. destruct I as (k & Ik & Id).
    rewrite Forall_forall in IH, Hf. eauto.
Qed.
Lemma compact_empty_leaf s : forall off d, wf s -> In d (sleaves (compact_at s off)) ->
  dt_id d = EMPTY -> dt_n d = 0.
Proof.
  assert (X : forall ks, Forall (fun s => forall off d, wf s -> In d (sleaves (compact_at s off)) ->
       dt_id d = EMPTY -> dt_n d = 0) ks -> Forall wf ks ->
     forall off d, In d (flat_map sleaves (thread compact_at ks off)) -> dt_id d = EMPTY -> dt_n d = 0).
  { induction 1 as [|k ks Hk Hks IH]; intros F off d I; simpl in I; [destruct I|].
    inversion F; subst. apply in_app_iff in I. destruct I as [I|I]; eauto. }
  induction s as [e|m o ks IH|ks IH] using schema_ind'; intros off d W I E.
  - cbn [compact_at] in I. destruct (tid_eqb (dt_id e) EMPTY) eqn:Q; simpl in I; destruct I as [<-|[]].
    + reflexivity.
    + simpl in E. rewrite E in Q. discriminate.
  - inversion W as [|? ? ? Ho Hf|]; subst. rewrite (compact_at_obj m) in I by exact Ho. cbn [sleaves] in I. eauto.
  - inversion W; subst. rewrite compact_at_lst in I. cbn [sleaves] in I. eauto.
Qed.
Lemma compact_leaf_n s : forall off, Forall (fun d => 0 <= dt_n d) (sleaves s) -> wf s ->
  Forall (fun d => 0 <= dt_n d) (sleaves (compact_at s off)).
Proof.
  assert (X : forall ks, Forall (fun s => forall off, Forall (fun d => 0 <= dt_n d) (sleaves s) -> wf s ->
       Forall (fun d => 0 <= dt_n d) (sleaves (compact_at s off))) ks -> Forall wf ks ->
     forall off, Forall (fun d => 0 <= dt_n d) (flat_map sleaves ks) ->
     Forall (fun d => 0 <= dt_n d) (flat_map sleaves (thread compact_at ks off))).
  { induction 1 as [|k ks Hk Hks IH]; intros F off I; simpl; [constructor|].
    inversion F; subst. simpl in I. apply Forall_app in I. destruct I. apply Forall_app; split; eauto. }
  induction s as [e|m o ks IH|ks IH] using schema_ind'; intros off N W.
  - cbn [compact_at]. destruct (tid_eqb (dt_id e) EMPTY) eqn:Q; simpl; constructor; auto; simpl; [lia|].
    inversion N; auto.
  - inversion W as [|? ? ? Ho Hf|]; subst. rewrite (compact_at_obj m) by exact Ho. cbn [sleaves]. auto.
  - inversion W; subst. rewrite compact_at_lst. cbn [sleaves]. auto.
Qed.

(** ---- is_compact ---- *)
Lemma is_compact_sum ds :
  Forall (fun d => dt_ebytes d = default_bytes (dt_id d) /\ 1 <= dt_n d /\
                   default_bytes (dt_id d) <= dt_stride d) ds ->
  total_of ds <= zsum (map strided_bytes ds) /\
  (total_of ds = zsum (map strided_bytes ds) ->
   forall d, In d ds -> dt_stride d = default_bytes (dt_id d) \/ dt_n d = 1).
Proof.
  induction 1 as [|d ds (H1 & H2 & H3) Hds [IH1 IH2]]; simpl.
  - split; [lia|intros _ d []].
  - unfold strided_bytes at 1 3. rewrite H1.
    assert (default_bytes (dt_id d) * dt_n d <= dt_stride d * (dt_n d - 1) + default_bytes (dt_id d)) by nia.
    split; [lia|]. intros E e [<-|I].
    + assert (Q : default_bytes (dt_id d) * dt_n d = dt_stride d * (dt_n d - 1) + default_bytes (dt_id d)) by lia.
      destruct (Z.eq_dec (dt_n d) 1); [right; auto|left; nia].
    + apply IH2; [lia|exact I].
Qed.
Lemma total_strided_sum s :
  (forall d, In d (sleaves s) -> dt_id d <> EMPTY) ->
  total_strided_bytes s = zsum (map strided_bytes (sleaves s)).
Proof.
  assert (ZA : forall a b, zsum (a ++ b) = zsum a + zsum b)
    by (induction a as [|x a IHa]; intros b; simpl; [lia|rewrite IHa; lia]).
  assert (X : forall ks, Forall (fun s => (forall d, In d (sleaves s) -> dt_id d <> EMPTY) ->
       total_strided_bytes s = zsum (map strided_bytes (sleaves s))) ks ->
     (forall d, In d (flat_map sleaves ks) -> dt_id d <> EMPTY) ->
     zsum (map total_strided_bytes ks) = zsum (map strided_bytes (flat_map sleaves ks))).
  { induction 1 as [|k ks Hk Hks IH]; intros E; simpl; [reflexivity|].
    rewrite map_app, ZA, Hk, IH; auto; intros d I; apply E; simpl; apply in_app_iff; auto. }
  induction s as [e|m o ks IH|ks IH] using schema_ind'; intros E; cbn [total_strided_bytes sleaves]; auto.
  destruct (tid_eqb (dt_id e) EMPTY) eqn:Q.
  - exfalso. apply (E e); [left; reflexivity|apply tid_eqb_eq; exact Q].
  - simpl. lia.
Qed.
