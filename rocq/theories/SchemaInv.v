(** Well-formedness of schemas and its preservation by every mutating operation,
    with the abstract effect of each operation. *)
From Verif Require Import Base DType Path SpecTree Schema.
Local Open Scope Z_scope.

Definition str_in_dec (k : str) (l : list str) : {In k l} + {~ In k l} :=
  in_dec (list_eq_dec ascii_dec) k l.

Section SchemaInd.
  Variable P : schema -> Prop.
  Hypothesis HL : forall d, P (SLeaf d).
  Hypothesis HO : forall m o ks, Forall P ks -> P (SObj m o ks).
  Hypothesis HS : forall ks, Forall P ks -> P (SLst ks).
  Fixpoint schema_ind' (s : schema) : P s :=
    match s with
    | SLeaf d => HL d
    | SObj m o ks =>
        HO m o ks ((fix go (l : list schema) : Forall P l :=
                      match l with
                      | [] => Forall_nil P
                      | x :: r => Forall_cons x (schema_ind' x) (go r)
                      end) ks)
    | SLst ks =>
        HS ks ((fix go (l : list schema) : Forall P l :=
                  match l with
                  | [] => Forall_nil P
                  | x :: r => Forall_cons x (schema_ind' x) (go r)
                  end) ks)
    end.
End SchemaInd.

(** The three containers of an object agree: the map is exactly the inverse of
    the order vector, names are distinct, and there is one child per name. *)
Definition obj_ok (m : list (str * Z)) (o : list str) (n : nat) : Prop :=
  NoDup (map fst m) /\ List.length o = n /\ NoDup o /\
  forall k i, mget m k = Some i <-> 0 <= i /\ nth_error o (Z.to_nat i) = Some k.

Inductive wf : schema -> Prop :=
| wf_leaf d : is_container (dt_id d) = false -> wf (SLeaf d)
| wf_obj m o ks : obj_ok m o (List.length ks) -> Forall wf ks -> wf (SObj m o ks)
| wf_lst ks : Forall wf ks -> wf (SLst ks).

Lemma wf_empty : wf s_empty.
Proof. constructor; reflexivity. Qed.

Lemma obj_ok_nil : obj_ok [] [] 0.
Proof.
  repeat split; try constructor; simpl in *; try discriminate.
  - intros [_ H]. destruct (Z.to_nat i); discriminate.
Qed.

Lemma wf_init_object s : wf s -> wf (init_object s).
Proof.
  intros H; destruct s; simpl; auto; constructor; auto using obj_ok_nil.
Qed.
Lemma wf_init_list s : wf s -> wf (init_list s).
Proof. intros H; destruct s; simpl; auto; constructor; auto. Qed.

Lemma wf_set_dtype d : wf (s_set_dtype d).
Proof.
  unfold s_set_dtype; destruct (dt_id d) eqn:E; constructor; auto using obj_ok_nil;
    rewrite E; reflexivity.
Qed.

Lemma wf_kids s : wf s -> Forall wf (s_kids s).
Proof. intros H; destruct H; simpl; auto. Qed.

Lemma wf_set_kids s ks :
  wf s -> List.length ks = List.length (s_kids s) -> Forall wf ks -> wf (set_kids s ks).
Proof.
  intros H Hl Hf; destruct H; simpl in *.
  - constructor; auto.
  - constructor; [rewrite Hl|]; auto.
  - constructor; auto.
Qed.

(** ---- lookups on well-formed objects ---- *)

Lemma obj_ok_index m o n k :
  obj_ok m o n ->
  match mget m k with
  | Some i => In k o /\ 0 <= i < Z.of_nat n /\ nth_error o (Z.to_nat i) = Some k
  | None => ~ In k o
  end.
Proof.
  intros (Hm & Hl & Hn & Hi).
  destruct (mget m k) as [i|] eqn:E.
  - apply Hi in E. destruct E as [H0 E].
    split; [eapply nth_error_In; eauto|].
    split; [|exact E].
    assert (Z.to_nat i < List.length o)%nat by (apply nth_error_Some; congruence).
    lia.
  - intros I. apply In_nth_error in I. destruct I as [j J].
    assert (mget m k = Some (Z.of_nat j)).
    { apply Hi. split; [lia|]. rewrite Nat2Z.id; exact J. }
    congruence.
Qed.

Lemma mget_combine_nth {V} (o : list str) (vs : list V) k j :
  NoDup o -> List.length o = List.length vs -> nth_error o j = Some k ->
  mget (combine o vs) k = nth_error vs j.
Proof.
  revert vs j; induction o as [|x o IH]; intros vs j ND HL HJ.
  - destruct j; discriminate.
  - destruct vs as [|v vs]; [discriminate|].
    inversion ND as [|? ? Hnin ND']; subst. simpl.
    destruct j as [|j]; simpl in *.
    + injection HJ as ->. rewrite str_eqb_refl. reflexivity.
    + destruct (str_eqb_spec k x) as [->|Hne].
      * exfalso; apply Hnin. eapply nth_error_In; eauto.
      * apply IH; auto.
Qed.
Lemma mget_combine_none {V} (o : list str) (vs : list V) k :
  ~ In k o -> mget (combine o vs) k = None.
Proof.
  revert vs; induction o as [|x o IH]; intros vs H; simpl; [reflexivity|].
  destruct vs as [|v vs]; [reflexivity|]. simpl.
  destruct (str_eqb_spec k x) as [->|Hne].
  - exfalso; apply H; left; reflexivity.
  - apply IH. intros I; apply H; right; exact I.
Qed.

(** Lookup by name through the map is lookup in the abstract dictionary. *)
Lemma obj_lookup {V} m o n (vs : list V) k :
  obj_ok m o n -> List.length vs = n ->
  mget (combine o vs) k =
  match mget m k with Some i => znth vs i | None => None end.
Proof.
  intros H Hl. pose proof (obj_ok_index m o n k H) as X.
  destruct H as (Hm & Hlo & Hn & Hi).
  destruct (mget m k) as [i|].
  - destruct X as (_ & Hr & Hj).
    rewrite (mget_combine_nth o vs k (Z.to_nat i)); auto; [|congruence].
    unfold znth. destruct (i <? 0) eqn:E; [lia|reflexivity].
  - apply mget_combine_none; exact X.
Qed.

Lemma znth_some {A} (l : list A) i :
  0 <= i < Z.of_nat (List.length l) -> exists x, znth l i = Some x.
Proof.
  intros H. unfold znth. destruct (i <? 0) eqn:E; [lia|].
  destruct (nth_error l (Z.to_nat i)) eqn:N; [eauto|].
  apply nth_error_None in N; lia.
Qed.
Lemma znth_range {A} (l : list A) i x :
  znth l i = Some x -> 0 <= i < Z.of_nat (List.length l) /\ nth_error l (Z.to_nat i) = Some x.
Proof.
  unfold znth. destruct (i <? 0) eqn:E; [discriminate|]. intro H. split; [|exact H].
  assert (Z.to_nat i < List.length l)%nat by (apply nth_error_Some; congruence). lia.
Qed.
Lemma znth_map {A B} (f : A -> B) (l : list A) i : znth (map f l) i = option_map f (znth l i).
Proof.
  unfold znth. destruct (i <? 0); [reflexivity|]. apply nth_error_map.
Qed.
Lemma znth_of_nat {A} (l : list A) i : znth l (Z.of_nat i) = nth_error l i.
Proof. unfold znth. destruct (_ <? 0) eqn:E; [lia|]. rewrite Nat2Z.id; reflexivity. Qed.

(** ---- add ---- *)

Lemma obj_ok_push m o n k :
  obj_ok m o n -> mget m k = None -> obj_ok (mset m k (Z.of_nat n)) (o ++ [k]) (S n).
Proof.
  intros H Hk. pose proof (obj_ok_index m o n k H) as X. rewrite Hk in X.
  destruct H as (Hm & Hl & Hn & Hi).
  repeat split.
  - apply nodup_mset; exact Hm.
  - rewrite app_length; simpl; lia.
  - clear - Hn X. induction o as [|x o IH]; simpl.
    + constructor; [intros []|constructor].
    + inversion Hn; subst. constructor.
      * rewrite in_app_iff. intros [I|[E|[]]]; [contradiction|].
        apply X; left; congruence.
      * apply IH; auto. intros I; apply X; right; exact I.
  - rewrite mget_mset in H. destruct (str_eqb_spec k0 k).
    + injection H as <-. lia.
    + apply Hi in H; lia.
  - rewrite mget_mset in H. destruct (str_eqb_spec k0 k) as [->|Hne].
    + injection H as <-. rewrite Nat2Z.id.
      rewrite nth_error_app2 by lia. rewrite Hl, Nat.sub_diag. reflexivity.
    + apply Hi in H. destruct H as [H0 H].
      rewrite nth_error_app1; [exact H|]. apply nth_error_Some; congruence.
  - intros [H0 H]. rewrite mget_mset.
    destruct (Nat.lt_ge_cases (Z.to_nat i) (List.length o)) as [Hlt|Hge].
    + rewrite nth_error_app1 in H by exact Hlt.
      destruct (str_eqb_spec k0 k) as [->|Hne].
      * exfalso; apply X. eapply nth_error_In; eauto.
      * apply Hi; auto.
    + rewrite nth_error_app2 in H by exact Hge.
      destruct (Z.to_nat i - List.length o)%nat as [|q] eqn:Q; simpl in H.
      * injection H as ->. rewrite str_eqb_refl. f_equal; lia.
      * destruct q; discriminate.
Qed.

Lemma wf_push m o ks k :
  wf (SObj m o ks) -> mget m k = None -> wf (push_named m o ks k).
Proof.
  intros H Hk; inversion H; subst. unfold push_named. constructor.
  - rewrite app_length, Nat.add_comm. apply obj_ok_push; auto.
  - apply Forall_app; split; auto using wf_empty.
Qed.

Lemma wf_add_child s k : wf s -> wf (add_child s k).
Proof.
  intros H. unfold add_child. destruct (has_child s k) eqn:E; [exact H|].
  pose proof (wf_init_object s H) as W.
  destruct s as [d|m o ks|ks]; simpl in *.
  - apply wf_push; auto.
  - destruct (mget m k) eqn:M; [discriminate|]. apply wf_push; auto.
  - apply wf_push; auto.
Qed.

(** ---- remove ---- *)

Lemma mget_mdec m k k2 :
  mget (mdec m k) k2 =
  if str_eqb k2 k then Some (match mget m k with Some v => v - 1 | None => -1 end)
  else mget m k2.
Proof. unfold mdec. apply mget_mset. Qed.

Lemma mget_shift_down names : forall m k,
  NoDup names ->
  mget (shift_down m names) k =
  if str_in_dec k names
  then Some (match mget m k with Some v => v - 1 | None => -1 end)
  else mget m k.
Proof.
  unfold shift_down.
  induction names as [|x r IH]; intros m k ND; [reflexivity|].
  simpl fold_left. inversion ND as [|? ? Hn ND']; subst.
  rewrite IH by exact ND'. rewrite mget_mdec.
  destruct (str_in_dec k r) as [I|I];
    destruct (str_in_dec k (x :: r)) as [J|J];
    destruct (str_eqb_spec k x) as [->|Hne]; try reflexivity; try contradiction.
  - exfalso; apply J; right; exact I.
  - exfalso; destruct J; [congruence|contradiction].
  - exfalso; apply J; left; reflexivity.
Qed.
Lemma nodup_shift_down names : forall m,
  NoDup (map fst m) -> NoDup (map fst (shift_down m names)).
Proof.
  unfold shift_down. induction names as [|x r IH]; intros m H; simpl; [exact H|].
  apply IH. unfold mdec. apply nodup_mset; exact H.
Qed.

Lemma nodup_skipn {A} (l : list A) n : NoDup l -> NoDup (skipn n l).
Proof.
  revert n; induction l as [|x l IH]; intros [|n] H; simpl; auto.
  inversion H; subst; auto.
Qed.
Lemma nth_error_skipn {A} (l : list A) n j : nth_error (skipn n l) j = nth_error l (n + j).
Proof.
  revert l; induction n as [|n IH]; intros l; simpl; [reflexivity|].
  destruct l as [|x l]; [destruct j; reflexivity|apply IH].
Qed.
Lemma nodup_nth_inj {A} (l : list A) i j x :
  NoDup l -> nth_error l i = Some x -> nth_error l j = Some x -> i = j.
Proof.
  intros ND Hi Hj. apply (proj1 (NoDup_nth_error l) ND).
  - apply nth_error_Some; congruence.
  - congruence.
Qed.
Lemma in_skipn_iff {A} (l : list A) n j x :
  NoDup l -> nth_error l j = Some x -> (In x (skipn n l) <-> (n <= j)%nat).
Proof.
  intros ND Hj. split.
  - intros I. apply In_nth_error in I. destruct I as [q Q].
    rewrite nth_error_skipn in Q.
    rewrite (nodup_nth_inj l j (n + q) x ND Hj Q). lia.
  - intros H. apply nth_error_In with (n := (j - n)%nat).
    rewrite nth_error_skipn. replace (n + (j - n))%nat with j by lia. exact Hj.
Qed.
Lemma nodup_erase_nth {A} (l : list A) i : NoDup l -> NoDup (erase_nth l i).
Proof.
  revert i; induction l as [|x l IH]; intros [|i] H; simpl; auto.
  - inversion H; auto.
  - inversion H as [|? ? Hn ND]; subst. constructor; [|apply IH; exact ND].
    intros I. apply Hn. clear - I. revert i I.
    induction l as [|y l IH]; intros [|i] I; simpl in *; auto.
    destruct I as [->|I]; auto. right; eapply IH; eauto.
Qed.

Lemma obj_ok_erase m o n i k :
  obj_ok m o n -> nth_error o i = Some k ->
  obj_ok (mdel (shift_down m (skipn i o)) k) (erase_nth o i) (n - 1).
Proof.
  intros (Hm & Hl & Hn & Hi) Hk.
  assert (Hlt : (i < List.length o)%nat) by (apply nth_error_Some; congruence).
  assert (Hsk : NoDup (skipn i o)) by (apply nodup_skipn; exact Hn).
  repeat split.
  - apply nodup_mdel, nodup_shift_down; exact Hm.
  - rewrite length_erase_nth by exact Hlt. lia.
  - apply nodup_erase_nth; exact Hn.
  - revert H. rewrite mget_mdel. destruct (str_eqb_spec k0 k) as [->|Hne]; [discriminate|].
    rewrite mget_shift_down by exact Hsk.
    destruct (str_in_dec k0 (skipn i o)) as [I|I]; intros E.
    + apply In_nth_error in I. destruct I as [j J]. rewrite nth_error_skipn in J.
      assert (M : mget m k0 = Some (Z.of_nat (i + j))).
      { apply Hi. rewrite Nat2Z.id. split; [lia|exact J]. }
      rewrite M in E. injection E as <-.
      destruct j as [|j]; [rewrite Nat.add_0_r in J; congruence|lia].
    + apply Hi in E; lia.
  - revert H. rewrite mget_mdel. destruct (str_eqb_spec k0 k) as [->|Hne]; [discriminate|].
    rewrite mget_shift_down by exact Hsk. rewrite nth_error_erase_nth.
    destruct (str_in_dec k0 (skipn i o)) as [I|I]; intros E.
    + apply In_nth_error in I. destruct I as [j J]. rewrite nth_error_skipn in J.
      assert (M : mget m k0 = Some (Z.of_nat (i + j))).
      { apply Hi. rewrite Nat2Z.id. split; [lia|exact J]. }
      rewrite M in E. injection E as <-.
      destruct j as [|j]; [rewrite Nat.add_0_r in J; congruence|].
      replace (Z.to_nat (Z.of_nat (i + S j) - 1)) with (i + j)%nat by lia.
      destruct (i + j <? i)%nat eqn:C; [lia|].
      replace (S (i + j)) with (i + S j)%nat by lia. exact J.
    + apply Hi in E. destruct E as [E0 E].
      assert (Hj : (Z.to_nat i0 < i)%nat).
      { destruct (Nat.lt_ge_cases (Z.to_nat i0) i) as [X|X]; [exact X|exfalso].
        apply I. apply (in_skipn_iff o i (Z.to_nat i0) k0 Hn E). exact X. }
      destruct (Z.to_nat i0 <? i)%nat eqn:C; [exact E|lia].
  - intros [H0 H]. rewrite nth_error_erase_nth in H.
    rewrite mget_mdel, mget_shift_down by exact Hsk.
    destruct (Z.to_nat i0 <? i)%nat eqn:C.
    + assert (Hne : k0 <> k).
      { intros ->. pose proof (nodup_nth_inj o _ _ _ Hn H Hk). lia. }
      destruct (str_eqb_spec k0 k); [contradiction|].
      destruct (str_in_dec k0 (skipn i o)) as [I|I].
      * apply (in_skipn_iff o i (Z.to_nat i0) k0 Hn H) in I. lia.
      * apply Hi; auto.
    + assert (Hne : k0 <> k).
      { intros ->. pose proof (nodup_nth_inj o _ _ _ Hn H Hk). lia. }
      destruct (str_eqb_spec k0 k); [contradiction|].
      destruct (str_in_dec k0 (skipn i o)) as [I|I].
      * assert (M : mget m k0 = Some (Z.of_nat (S (Z.to_nat i0)))).
        { apply Hi. rewrite Nat2Z.id. split; [lia|exact H]. }
        rewrite M. f_equal. lia.
      * exfalso. apply I. apply (in_skipn_iff o i _ k0 Hn H). lia.
Qed.

Lemma Forall_erase_nth {A} (P : A -> Prop) l i : Forall P l -> Forall P (erase_nth l i).
Proof.
  intros H; revert i; induction H as [|x l Hx Hl IH]; intros [|i]; simpl; auto.
Qed.
Lemma Forall_set_nth {A} (P : A -> Prop) l i x :
  Forall P l -> P x -> Forall P (set_nth l i x).
Proof.
  intros H Hx; revert i; induction H as [|y l Hy Hl IH]; intros [|i]; simpl; auto.
Qed.

Lemma wf_obj_erase m o ks i k :
  wf (SObj m o ks) -> nth_error o i = Some k -> wf (obj_erase m o ks i k).
Proof.
  intros H Hk; inversion H as [|? ? ? Ho Hf|]; subst. unfold obj_erase.
  assert (Hl : List.length o = List.length ks) by apply Ho.
  assert (Hlt : (i < List.length o)%nat) by (apply nth_error_Some; congruence).
  constructor.
  - rewrite length_erase_nth by lia. apply obj_ok_erase; auto.
  - apply Forall_erase_nth; exact Hf.
Qed.

Lemma wf_remove_at s i s' : wf s -> remove_at s i = Ok s' -> wf s'.
Proof.
  intros H. destruct s as [d|m o ks|ks]; simpl; [discriminate| |].
  - destruct ((i <? 0) || (Z.of_nat (List.length ks) <=? i)); [discriminate|].
    destruct (znth o i) as [k|] eqn:E; [|discriminate].
    intros X; injection X as <-. apply znth_range in E.
    apply wf_obj_erase; [exact H|apply E].
  - destruct ((i <? 0) || (Z.of_nat (List.length ks) <=? i)); [discriminate|].
    intros X; injection X as <-. inversion H; subst. constructor.
    apply Forall_erase_nth; auto.
Qed.
Lemma wf_remove_child s k s' : wf s -> remove_child s k = Ok s' -> wf s'.
Proof.
  intros H. destruct s as [d|m o ks|ks]; simpl; try discriminate.
  destruct (mget m k) as [i|] eqn:M; simpl; [|discriminate].
  inversion H as [|? ? ? Ho Hf|]; subst.
  pose proof (obj_ok_index m o _ k Ho) as X. rewrite M in X.
  destruct X as (_ & _ & X).
  destruct (znth ks i); [|discriminate]. destruct (znth o i); [|discriminate].
  intros Y; injection Y as <-. apply wf_obj_erase; auto.
Qed.

(** ---- rename ---- *)

Lemma obj_ok_rename m o n a b i :
  obj_ok m o n -> mget m a = Some i -> mget m b = None ->
  obj_ok (mset (mdel m a) b i) (set_nth o (Z.to_nat i) b) n.
Proof.
  intros H Ha Hb.
  pose proof (obj_ok_index m o n a H) as Xa. rewrite Ha in Xa.
  pose proof (obj_ok_index m o n b H) as Xb. rewrite Hb in Xb.
  destruct H as (Hm & Hl & Hn & Hi). destruct Xa as (Ia & Ra & Na).
  assert (Hab : a <> b) by congruence.
  assert (Hlt : (Z.to_nat i < List.length o)%nat) by (apply nth_error_Some; congruence).
  repeat split.
  - apply nodup_mset, nodup_mdel; exact Hm.
  - rewrite length_set_nth; exact Hl.
  - apply NoDup_nth_error. intros x y Hx E.
    rewrite length_set_nth in Hx.
    destruct (Nat.eq_dec x (Z.to_nat i)) as [->|Nx];
      destruct (Nat.eq_dec y (Z.to_nat i)) as [->|Ny]; auto.
    + rewrite nth_error_set_nth_same in E by exact Hlt.
      rewrite nth_error_set_nth_other in E by auto.
      exfalso; apply Xb. symmetry in E. eapply nth_error_In; eauto.
    + rewrite nth_error_set_nth_same with (i := Z.to_nat i) in E by exact Hlt.
      rewrite nth_error_set_nth_other in E by auto.
      exfalso; apply Xb. eapply nth_error_In; eauto.
    + rewrite !nth_error_set_nth_other in E by auto.
      apply (proj1 (NoDup_nth_error o) Hn); auto.
  - rewrite mget_mset in H. destruct (str_eqb_spec k b); [injection H as <-; lia|].
    rewrite mget_mdel in H. destruct (str_eqb_spec k a); [discriminate|].
    apply Hi in H; lia.
  - rewrite mget_mset in H. destruct (str_eqb_spec k b) as [->|Hkb].
    + injection H as <-. apply nth_error_set_nth_same; exact Hlt.
    + rewrite mget_mdel in H. destruct (str_eqb_spec k a) as [->|Hka]; [discriminate|].
      apply Hi in H. destruct H as [H0 H].
      rewrite nth_error_set_nth_other; [exact H|].
      intros E. rewrite <- E in H. congruence.
  - intros [H0 H]. rewrite mget_mset, mget_mdel.
    destruct (Nat.eq_dec (Z.to_nat i) (Z.to_nat i0)) as [E|E].
    + rewrite <- E in H. rewrite nth_error_set_nth_same in H by exact Hlt.
      injection H as ->. rewrite str_eqb_refl. f_equal; lia.
    + rewrite nth_error_set_nth_other in H by exact E.
      destruct (str_eqb_spec k b) as [->|Hkb].
      * exfalso; apply Xb; eapply nth_error_In; eauto.
      * destruct (str_eqb_spec k a) as [->|Hka].
        -- exfalso; apply E. exact (nodup_nth_inj o _ _ _ Hn Na H).
        -- apply Hi; auto.
Qed.

Lemma wf_rename_child s a b s' : wf s -> rename_child s a b = Ok s' -> wf s'.
Proof.
  intros H. destruct s as [d|m o ks|ks]; simpl; try discriminate.
  destruct (mget m a) as [i|] eqn:Ma; simpl; [|discriminate].
  destruct (mget m b) as [j|] eqn:Mb; simpl; [discriminate|].
  destruct (znth o i) eqn:E; [|discriminate].
  intros X; injection X as <-. inversion H as [|? ? ? Ho Hf|]; subst.
  constructor; [|exact Hf]. apply obj_ok_rename; auto.
Qed.

Lemma wf_append s : wf s -> wf (s_append s).
Proof.
  intros H. unfold s_append. pose proof (wf_init_list s H) as W.
  destruct (init_list s) as [d|m o ks|ks] eqn:E; auto.
  inversion W; subst. constructor. apply Forall_app; split; auto using wf_empty.
Qed.

(** ---- positions ---- *)

Lemma wf_get_at p : forall s x, wf s -> get_at s p = Some x -> wf x.
Proof.
  induction p as [|i p IH]; intros s x H E; simpl in E.
  - injection E as <-; exact H.
  - destruct (nth_error (s_kids s) i) as [k|] eqn:N; [|discriminate].
    apply (IH k x); [|exact E]. apply nth_error_In in N.
    apply wf_kids in H. rewrite Forall_forall in H. auto.
Qed.
Lemma wf_put_at p : forall s x s', put_at s p x = Some s' -> wf s -> wf x -> wf s'.
Proof.
  induction p as [|i p IH]; intros s x s' E H Hx; simpl in E.
  - injection E as <-; exact Hx.
  - destruct (nth_error (s_kids s) i) as [k|] eqn:N; [|discriminate].
    destruct (put_at k p x) as [k'|] eqn:P; [|discriminate]. injection E as <-.
    pose proof (wf_kids s H) as Hk.
    apply wf_set_kids; auto.
    + apply length_set_nth.
    + apply Forall_set_nth; auto. apply (IH k x k'); auto.
      apply nth_error_In in N. rewrite Forall_forall in Hk. auto.
Qed.
Lemma s_kids_set_kids s ks : s_kids s <> [] -> s_kids (set_kids s ks) = ks.
Proof. destruct s; simpl; auto; intros H; exfalso; apply H; reflexivity. Qed.
Lemma put_at_some p : forall s x y, get_at s p = Some x -> exists s', put_at s p y = Some s'.
Proof.
  induction p as [|i p IH]; intros s x y E; simpl in *; [eauto|].
  destruct (nth_error (s_kids s) i) as [k|] eqn:N; [|discriminate].
  destruct (IH k x y E) as [k' ->]. eauto.
Qed.
Lemma get_put_same p : forall s x s', put_at s p x = Some s' -> get_at s' p = Some x.
Proof.
  induction p as [|i p IH]; intros s x s' E; simpl in *; [congruence|].
  destruct (nth_error (s_kids s) i) as [k|] eqn:N; [|discriminate].
  destruct (put_at k p x) as [k'|] eqn:P; [|discriminate]. injection E as <-.
  assert (s_kids s <> []) by (intros Z; rewrite Z in N; destruct i; discriminate).
  rewrite s_kids_set_kids by assumption.
  rewrite nth_error_set_nth_same by (apply nth_error_Some; congruence).
  eapply IH; eauto.
Qed.
Lemma get_at_app p : forall s q,
  get_at s (p ++ q) = match get_at s p with Some x => get_at x q | None => None end.
Proof.
  induction p as [|i p IH]; intros s q; simpl; [reflexivity|].
  destruct (nth_error (s_kids s) i); auto.
Qed.
