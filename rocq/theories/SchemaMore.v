(** Equality, compatibility, layout and path-name facts about schemas. *)
From Verif Require Import Base DType Path SpecTree Schema NodePath PathFacts SchemaInv SchemaRefine.
Local Open Scope Z_scope.

Section TreeInd.
  Context {A : Type}.
  Variable P : tree A -> Prop.
  Hypothesis HL : forall a, P (TLeaf a).
  Hypothesis HO : forall es, Forall (fun e => P (snd e)) es -> P (TObj es).
  Hypothesis HS : forall ts, Forall P ts -> P (TList ts).
  Fixpoint tree_ind' (t : tree A) : P t :=
    match t with
    | TLeaf a => HL a
    | TObj es =>
        HO es ((fix go (l : list (str * tree A)) : Forall (fun e => P (snd e)) l :=
                  match l with
                  | [] => Forall_nil _
                  | x :: r => Forall_cons x (tree_ind' (snd x)) (go r)
                  end) es)
    | TList ts =>
        HS ts ((fix go (l : list (tree A)) : Forall P l :=
                  match l with
                  | [] => Forall_nil _
                  | x :: r => Forall_cons x (tree_ind' x) (go r)
                  end) ts)
    end.
End TreeInd.

(** ---- teq is an equivalence ---- *)
Lemma mget_Forall {V} (Q : str * V -> Prop) (d : list (str * V)) k v :
  Forall Q d -> mget d k = Some v -> Q (k, v).
Proof.
  intros H E. apply mget_In in E. rewrite Forall_forall in H. apply H; exact E.
Qed.

Lemma teq_refl {A} (t : tree A) : teq t t.
Proof.
  induction t as [a|es IH|ts IH] using tree_ind'; constructor.
  - intros k; reflexivity.
  - intros k a b Ha Hb. assert (a = b) by congruence. subst b.
    exact (mget_Forall _ _ _ _ IH Ha).
  - induction IH; constructor; auto.
Qed.
Lemma teq_sym {A} (t : tree A) : forall u, teq t u -> teq u t.
Proof.
  induction t as [a|es IH|ts IH] using tree_ind'; intros u H; inversion H; subst; constructor.
  - intros k. symmetry. auto.
  - intros k a b Ha Hb. pose proof (mget_Forall _ _ _ _ IH Hb) as X; simpl in X. eauto.
  - match goal with X : Forall2 teq _ _ |- _ => rename X into F end.
    clear H. revert IH. induction F as [|x y l1 l2 Hxy F IHF]; intros IH; constructor.
    + inversion IH; subst; auto.
    + inversion IH; subst; auto.
Qed.
Lemma teq_trans {A} (t : tree A) : forall u v, teq t u -> teq u v -> teq t v.
Proof.
  induction t as [a|es IH|ts IH] using tree_ind'; intros u v H1 H2.
  - inversion H1; subst. exact H2.
  - inversion H1 as [| |? e2 N1 S1]; subst. inversion H2 as [| |? e3 N2 S2]; subst.
    constructor.
    + intros k. rewrite N1. apply N2.
    + intros k a c Ha Hc. destruct (mget e2 k) as [b|] eqn:Hb.
      * pose proof (mget_Forall _ _ _ _ IH Ha) as X; simpl in X. eauto.
      * apply N1 in Hb. congruence.
  - inversion H1 as [|? l2 F1|]; subst. inversion H2 as [|? l3 F2|]; subst. constructor.
    clear H1 H2. revert l2 l3 F1 F2. induction IH as [|x l Hx Hl IHl]; intros l2 l3 F1 F2.
    + inversion F1; subst. inversion F2; subst. constructor.
    + inversion F1; subst. inversion F2; subst. constructor; eauto.
Qed.

(** ---- names without '/' ---- *)
Inductive noslash : schema -> Prop :=
| ns_leaf d : noslash (SLeaf d)
| ns_obj m o ks : Forall (fun k => ~ In slash k) o -> Forall noslash ks -> noslash (SObj m o ks)
| ns_lst ks : Forall noslash ks -> noslash (SLst ks).
Lemma noslash_kids s : noslash s -> Forall noslash (s_kids s).
Proof. intros H; destruct H; simpl; auto. Qed.

Lemma depth_kid s k : In k (s_kids s) -> (depth k < depth s)%nat.
Proof.
  assert (X : forall ks, In k ks -> (depth k <= fold_right Nat.max 0 (map depth ks))%nat).
  { induction ks as [|x ks IH]; intros I; [destruct I|]. simpl.
    destruct I as [->|I]; [lia|]. specialize (IH I). lia. }
  destruct s as [d|m o ks|ks]; simpl; intros I; [destruct I|apply X in I; lia|apply X in I; lia].
Qed.

Lemma dt_equals_eq d e : dt_equals d e = true <-> d = e.
Proof.
  unfold dt_equals. rewrite !andb_true_iff, tid_eqb_eq, endian_eqb_eq, !Z.eqb_eq.
  destruct d, e; simpl. split.
  - intros (((((-> & ->) & ->) & ->) & ->) & ->). reflexivity.
  - intros E; injection E; intros; subst; auto 10.
Qed.

(** Facts about a pair (k,i) of an object's map. *)
Lemma map_entry m o (ks : list schema) k i :
  obj_ok m o (length ks) -> In (k, i) m ->
  exists x, mget m k = Some i /\ znth ks i = Some x /\ In x ks /\ In k o.
Proof.
  intros Ho I. assert (M : mget m k = Some i) by (apply mget_Some_In_nodup; auto; apply Ho).
  destruct (obj_ok_znth m o ks k i Ho M) as (x & A & B & _ & D).
  exists x. repeat split; auto; eapply nth_error_In; eauto.
Qed.

Section EqLoop.
  Variable eqf : schema -> schema -> outcome bool.
  Variables (md : list (str * Z)) (od : list str) (kd : list schema).
  Hypothesis Wd : wf (SObj md od kd).
  Variable ksrc : list schema.
  Lemma eq_loop_spec zs :
    (forall k i, In (k, i) zs -> ~ In slash k /\ exists x, znth ksrc i = Some x /\
        forall j y, mget md k = Some j -> znth kd j = Some y -> exists r, eqf x y = Ok r) ->
    exists r, eq_loop eqf (SObj md od kd) ksrc zs = Ok r /\
      (r = true <-> forall k i, In (k, i) zs ->
         exists x j y, znth ksrc i = Some x /\ mget md k = Some j /\ znth kd j = Some y /\
                       eqf x y = Ok true).
  Proof.
    inversion Wd as [|? ? ? Ho Hf|]; subst.
    induction zs as [|[k i] zs IH]; intros H.
    - exists true. split; [reflexivity|]. split; [intros _ k i []|reflexivity].
    - destruct (H k i (or_introl eq_refl)) as (Hs & x & Hx & He).
      cbn [eq_loop]. rewrite has_path_component by auto. cbn [obind has_child].
      destruct (mget md k) as [j|] eqn:M.
      + destruct (obj_ok_znth md od kd k j Ho M) as (y & Hy & _).
        rewrite Hx. cbn [deref obind child_named child_index]. rewrite M. cbn [obind].
        rewrite Hy. cbn [deref obind].
        destruct (He j y eq_refl Hy) as [r Hr]. rewrite Hr. cbn [obind].
        destruct r.
        * destruct IH as (r & Er & Hiff); [intros k' i' I; apply H; right; exact I|].
          exists r. split; [exact Er|]. rewrite Hiff. split.
          -- intros A k' i' [E|I]; [|auto]. injection E as <- <-.
             exists x, j, y. auto.
          -- intros A k' i' I. apply A. right; exact I.
        * exists false. split; [reflexivity|]. split; [discriminate|].
          intros A. destruct (A k i (or_introl eq_refl)) as (x' & j' & y' & B1 & B2 & B3 & B4).
          rewrite Hx in B1. injection B1 as <-. rewrite M in B2. injection B2 as <-.
          rewrite Hy in B3. injection B3 as <-. rewrite Hr in B4. discriminate.
      + exists false. split; [reflexivity|]. split; [discriminate|].
        intros A. destruct (A k i (or_introl eq_refl)) as (x' & j' & y' & B1 & B2 & _).
        rewrite M in B2. discriminate.
  Qed.
End EqLoop.

Lemma eq_list_spec eqf xs : forall ys,
  length xs = length ys ->
  (forall x y, In x xs -> In y ys -> exists r, eqf x y = Ok r) ->
  exists r, eq_list eqf xs ys = Ok r /\
            (r = true <-> Forall2 (fun x y => eqf x y = Ok true) xs ys).
Proof.
  induction xs as [|x xs IH]; intros [|y ys] HL H; try discriminate; cbn [eq_list].
  - exists true. split; [reflexivity|]. split; [constructor|reflexivity].
  - destruct (H x y (or_introl eq_refl) (or_introl eq_refl)) as [r Hr]. rewrite Hr. cbn [obind].
    destruct r.
    + destruct (IH ys) as (r & Er & Hiff);
        [simpl in HL; lia|intros; apply H; right; assumption|].
      exists r. split; [exact Er|]. rewrite Hiff. split.
      * intros F; constructor; auto.
      * intros F; inversion F; auto.
    + exists false. split; [reflexivity|]. split; [discriminate|].
      intros F; inversion F; subst. congruence.
Qed.

Lemma equals_f_spec f : forall a b,
  wf a -> wf b -> noslash a -> noslash b -> (Nat.min (depth a) (depth b) < f)%nat ->
  exists r, equals_f f a b = Ok r /\ (r = true <-> teq (abs a) (abs b)).
Proof.
  induction f as [|f IH]; intros a b Wa Wb Na Nb Hf; [lia|].
  cbn [equals_f].
  destruct (tid_eqb (s_id a) (s_id b)) eqn:Eid; cbn [negb].
  2:{ exists false. split; [reflexivity|]. split; [discriminate|].
      intros T. exfalso. unfold s_id in Eid.
      destruct a, b; simpl in *; inversion T; subst;
        rewrite tid_eqb_refl in Eid; discriminate. }
  destruct a as [da|ma oa ka|ka], b as [db|mb ob kb|kb].
  - exists (dt_equals da db). split; [reflexivity|]. rewrite dt_equals_eq. simpl.
    split; [intros ->; constructor|intros T; inversion T; reflexivity].
  - exfalso. apply tid_eqb_eq in Eid. inversion Wa as [? C| |]; subst. unfold s_id in Eid; simpl in Eid.
    rewrite Eid in C. discriminate.
  - exfalso. apply tid_eqb_eq in Eid. inversion Wa as [? C| |]; subst. unfold s_id in Eid; simpl in Eid.
    rewrite Eid in C. discriminate.
  - exfalso. apply tid_eqb_eq in Eid. inversion Wb as [? C| |]; subst. unfold s_id in Eid; simpl in Eid.
    rewrite <- Eid in C. discriminate.
  - inversion Wa as [|? ? ? Hoa Hfa|]; subst. inversion Wb as [|? ? ? Hob Hfb|]; subst.
    inversion Na as [|? ? ? Sa Nka|]; subst. inversion Nb as [|? ? ? Sb Nkb|]; subst.
    rewrite Forall_forall in Hfa, Hfb, Sa, Sb, Nka, Nkb.
    assert (Step : forall x y, In x ka -> In y kb ->
       exists r, equals_f f x y = Ok r /\ (r = true <-> teq (abs x) (abs y))).
    { intros x y Ix Iy. apply IH; auto.
      pose proof (depth_kid (SObj ma oa ka) x Ix). pose proof (depth_kid (SObj mb ob kb) y Iy). lia. }
    assert (Step2 : forall x y, In x kb -> In y ka ->
       exists r, equals_f f x y = Ok r /\ (r = true <-> teq (abs x) (abs y))).
    { intros x y Ix Iy. apply IH; auto.
      pose proof (depth_kid (SObj ma oa ka) y Iy). pose proof (depth_kid (SObj mb ob kb) x Ix). lia. }
    assert (ZIn : forall (l : list schema) i y, znth l i = Some y -> In y l).
    { intros l i y Z. apply znth_range in Z. eapply nth_error_In; apply Z. }
    destruct (eq_loop_spec (equals_f f) ma oa ka Wa kb mb) as (r1 & E1 & H1).
    { intros k i I. destruct (map_entry mb ob kb k i Hob I) as (x & M & Zx & Ix & Io).
      split; [auto|]. exists x. split; [exact Zx|]. intros j y Mj Zy.
      destruct (Step2 x y Ix (ZIn _ _ _ Zy)) as (r & Er & _). eauto. }
    destruct (eq_loop_spec (equals_f f) mb ob kb Wb ka ma) as (r2 & E2 & H2).
    { intros k i I. destruct (map_entry ma oa ka k i Hoa I) as (x & M & Zx & Ix & Io).
      split; [auto|]. exists x. split; [exact Zx|]. intros j y Mj Zy.
      destruct (Step x y Ix (ZIn _ _ _ Zy)) as (r & Er & _). eauto. }
    rewrite E1. cbn [obind].
    exists (r1 && r2)%bool. split; [destruct r1; [exact E2|reflexivity]|].
    rewrite andb_true_iff, H1, H2. clear E1 E2 H1 H2 r1 r2. cbn [abs].
    split.
    + intros [A B]. constructor.
      * intros k. rewrite !(abs_entries_lookup _ _ _ k Hoa), !(abs_entries_lookup _ _ _ k Hob).
        destruct (mget ma k) as [i|] eqn:Ma; destruct (mget mb k) as [j|] eqn:Mb.
        -- destruct (obj_ok_znth _ _ _ _ _ Hoa Ma) as (x & Zx & _).
           destruct (obj_ok_znth _ _ _ _ _ Hob Mb) as (y & Zy & _).
           rewrite Zx, Zy. simpl. split; discriminate.
        -- exfalso. destruct (B k i (mget_In _ _ _ Ma)) as (? & ? & ? & _ & Q & _). congruence.
        -- exfalso. destruct (A k j (mget_In _ _ _ Mb)) as (? & ? & ? & _ & Q & _). congruence.
        -- tauto.
      * intros k u v. rewrite !(abs_entries_lookup _ _ _ k Hoa), !(abs_entries_lookup _ _ _ k Hob).
        destruct (mget ma k) as [i|] eqn:Ma; [|discriminate].
        destruct (mget mb k) as [j|] eqn:Mb; [|discriminate].
        destruct (B k i (mget_In _ _ _ Ma)) as (x & j' & y & Zx & Mj & Zy & Q).
        rewrite Mb in Mj. injection Mj as <-.
        rewrite Zx, Zy. simpl. intros U V. injection U as <-. injection V as <-.
        destruct (Step x y) as (r & Er & Hr); eauto.
        apply Hr. congruence.
    + intros T. inversion T as [| |? ? N S]; subst. split.
      * intros k j I. destruct (map_entry mb ob kb k j Hob I) as (y & Mb & Zy & Iy & Io).
        specialize (N k). rewrite !(abs_entries_lookup _ _ _ k Hoa), !(abs_entries_lookup _ _ _ k Hob) in N.
        rewrite Mb, Zy in N.
        destruct (mget ma k) as [i|] eqn:Ma; [|exfalso; destruct N as [N _]; specialize (N eq_refl); discriminate].
        destruct (obj_ok_znth _ _ _ _ _ Hoa Ma) as (x & Zx & _).
        exists y, i, x. repeat split; auto.
        destruct (Step2 y x) as (r & Er & Hr); eauto. rewrite Er. f_equal. apply Hr.
        apply teq_sym. apply (S k).
        -- rewrite (abs_entries_lookup _ _ _ k Hoa), Ma, Zx. reflexivity.
        -- rewrite (abs_entries_lookup _ _ _ k Hob), Mb, Zy. reflexivity.
      * intros k i I. destruct (map_entry ma oa ka k i Hoa I) as (x & Ma & Zx & Ix & Io).
        specialize (N k). rewrite !(abs_entries_lookup _ _ _ k Hoa), !(abs_entries_lookup _ _ _ k Hob) in N.
        rewrite Ma, Zx in N.
        destruct (mget mb k) as [j|] eqn:Mb; [|exfalso; destruct N as [_ N]; specialize (N eq_refl); discriminate].
        destruct (obj_ok_znth _ _ _ _ _ Hob Mb) as (y & Zy & _).
        exists x, j, y. repeat split; auto.
        destruct (Step x y) as (r & Er & Hr); eauto. rewrite Er. f_equal. apply Hr.
        apply (S k).
        -- rewrite (abs_entries_lookup _ _ _ k Hoa), Ma, Zx. reflexivity.
        -- rewrite (abs_entries_lookup _ _ _ k Hob), Mb, Zy. reflexivity.
  - discriminate Eid.
  - exfalso. apply tid_eqb_eq in Eid. inversion Wb as [? C| |]; subst. unfold s_id in Eid; simpl in Eid.
    rewrite <- Eid in C. discriminate.
  - discriminate Eid.
  - inversion Wa as [| |? Hfa]; subst. inversion Wb as [| |? Hfb]; subst.
    inversion Na as [| |? Nka]; subst. inversion Nb as [| |? Nkb]; subst.
    rewrite Forall_forall in Hfa, Hfb, Nka, Nkb.
    assert (Step : forall x y, In x ka -> In y kb ->
       exists r, equals_f f x y = Ok r /\ (r = true <-> teq (abs x) (abs y))).
    { intros x y Ix Iy. apply IH; auto.
      pose proof (depth_kid (SLst ka) x Ix). pose proof (depth_kid (SLst kb) y Iy). lia. }
    destruct (length ka =? length kb)%nat eqn:EL.
    + apply Nat.eqb_eq in EL.
      destruct (eq_list_spec (equals_f f) ka kb EL) as (r & Er & Hr).
      { intros x y Ix Iy. destruct (Step x y Ix Iy) as (r & E & _). eauto. }
      exists r. split; [exact Er|]. rewrite Hr. cbn [abs]. clear Er Hr.
      transitivity (Forall2 teq (map abs ka) (map abs kb)).
      * clear - Step EL. revert kb EL Step. induction ka as [|x ka IHk]; intros [|y kb] EL Step;
          try discriminate; simpl; [split; constructor|].
        destruct (Step x y (or_introl eq_refl) (or_introl eq_refl)) as (r & E & Hr).
        assert (R : Forall2 (fun x y => equals_f f x y = Ok true) ka kb <->
                    Forall2 teq (map abs ka) (map abs kb)).
        { apply IHk; [simpl in EL; lia|]. intros; apply Step; right; assumption. }
        split; intros F; inversion F as [|? ? ? ? F1 F2]; subst; constructor; try (apply R; exact F2).
        -- apply Hr. congruence.
        -- rewrite E. f_equal. apply Hr. exact F1.
      * split; intros F; [constructor; exact F|inversion F; assumption].
    + exists false. split; [reflexivity|]. split; [discriminate|].
      intros T. inversion T as [|? ? F|]; subst. apply Forall2_len in F.
      rewrite !map_length in F. apply Nat.eqb_neq in EL. contradiction.
Qed.

(** ---- compatible ---- *)
Lemma tcompat_refl t : tcompat t t.
Proof.
  induction t as [a|es IH|ts IH] using tree_ind'; constructor; auto; try lia.
  - intros k a b Ha Hb. assert (a = b) by congruence. subst.
    exact (mget_Forall _ _ _ _ IH Ha).
  - intros i a b Ha Hb. assert (a = b) by congruence. subst.
    rewrite Forall_forall in IH. apply IH. eapply nth_error_In; eauto.
Qed.

Lemma dt_compatible_iff d e :
  dt_compatible d e = true <-> dt_id d = dt_id e /\ dt_ebytes d = dt_ebytes e /\ dt_n e <= dt_n d.
Proof. unfold dt_compatible. rewrite !andb_true_iff, tid_eqb_eq, Z.eqb_eq, Z.geb_le. tauto. Qed.

Section CompatLoop.
  Variable cf : schema -> schema -> outcome bool.
  Variables (ma : list (str * Z)) (oa : list str) (ka : list schema).
  Hypothesis Wa : wf (SObj ma oa ka).
  Variable kb : list schema.
  Definition cgo := fix go (zs : list (str * Z)) : outcome bool :=
                  match zs with
                  | [] => Ok true
                  | (k, i) :: r =>
                      do h <- has_path (SObj ma oa ka) k;
                      if h then
                        do cb <- deref (znth kb i);
                        do ca <- child_named (SObj ma oa ka) k;
                        do x <- cf ca cb;
                        if x then go r else Ok false
                      else go r
                  end.
  Lemma cgo_spec zs :
    (forall k i, In (k, i) zs -> ~ In slash k /\ exists y, znth kb i = Some y /\
        forall j x, mget ma k = Some j -> znth ka j = Some x -> exists r, cf x y = Ok r) ->
    exists r, cgo zs = Ok r /\
      (r = true <-> forall k i, In (k, i) zs -> forall j x y,
         mget ma k = Some j -> znth ka j = Some x -> znth kb i = Some y -> cf x y = Ok true).
  Proof.
    inversion Wa as [|? ? ? Ho Hf|]; subst.
    induction zs as [|[k i] zs IH]; intros H.
    - exists true. split; [reflexivity|]. split; [intros _ k i []|reflexivity].
    - destruct (H k i (or_introl eq_refl)) as (Hs & y & Hy & He).
      destruct IH as (r & Er & Hiff); [intros k' i' I; apply H; right; exact I|].
      cbn [cgo]. rewrite has_path_component by auto. cbn [obind has_child].
      destruct (mget ma k) as [j|] eqn:M.
      + destruct (obj_ok_znth ma oa ka k j Ho M) as (x & Hx & _).
        rewrite Hy. cbn [deref obind child_named child_index]. rewrite M. cbn [obind].
        rewrite Hx. cbn [deref obind].
        destruct (He j x eq_refl Hx) as [q Hq]. rewrite Hq. cbn [obind].
        destruct q.
        * exists r. split; [exact Er|]. rewrite Hiff. split.
          -- intros A k' i' [E|I]; [|exact (A k' i' I)]. injection E as <- <-.
             intros j' x' y' B1 B2 B3. rewrite M in B1. injection B1 as <-.
             rewrite Hx in B2. injection B2 as <-. rewrite Hy in B3. injection B3 as <-. exact Hq.
          -- intros A k' i' I. apply A. right; exact I.
        * exists false. split; [reflexivity|]. split; [discriminate|].
          intros A. pose proof (A k i (or_introl eq_refl) j x y M Hx Hy) as B. congruence.
      + exists r. split; [exact Er|]. rewrite Hiff. split.
        * intros A k' i' [E|I]; [|exact (A k' i' I)]. injection E as <- <-.
          intros j' x' y' B1. congruence.
        * intros A k' i' I. apply A. right; exact I.
  Qed.
End CompatLoop.

Definition lgo (cf : schema -> schema -> outcome bool) :=
  fix go (xs ys : list schema) : outcome bool :=
    match xs, ys with
    | x :: xs', y :: ys' =>
        do c <- cf x y;
        if c then go xs' ys' else Ok false
    | _, _ => Ok true
    end.
Lemma lgo_spec cf xs : forall ys,
  (forall x y, In x xs -> In y ys -> exists r, cf x y = Ok r) ->
  exists r, lgo cf xs ys = Ok r /\
    (r = true <-> forall i x y, nth_error xs i = Some x -> nth_error ys i = Some y ->
                                cf x y = Ok true).
Proof.
  induction xs as [|x xs IH]; intros ys H.
  - exists true. split; [destruct ys; reflexivity|]. split; [|reflexivity].
    intros _ [|i] x y E; discriminate.
  - destruct ys as [|y ys].
    + exists true. split; [reflexivity|]. split; [|reflexivity].
      intros _ [|i] x' y' _ E; discriminate.
    + cbn [lgo]. destruct (H x y (or_introl eq_refl) (or_introl eq_refl)) as [q Hq].
      rewrite Hq. cbn [obind].
      destruct (IH ys) as (r & Er & Hiff); [intros; apply H; right; assumption|].
      destruct q.
      * exists r. split; [exact Er|]. rewrite Hiff. split.
        -- intros A [|i] x' y' Ex Ey; simpl in *; [congruence|eauto].
        -- intros A i x' y' Ex Ey. exact (A (S i) x' y' Ex Ey).
      * exists false. split; [reflexivity|]. split; [discriminate|].
        intros A. pose proof (A 0%nat x y eq_refl eq_refl). congruence.
Qed.

Lemma compatible_f_spec f : forall a b,
  wf a -> wf b -> noslash a -> noslash b -> (Nat.min (depth a) (depth b) < f)%nat ->
  exists r, compatible_f f a b = Ok r /\ (r = true <-> tcompat (abs a) (abs b)).
Proof.
  induction f as [|f IH]; intros a b Wa Wb Na Nb Hf; [lia|].
  cbn [compatible_f].
  destruct (tid_eqb (s_id a) (s_id b)) eqn:Eid; cbn [negb].
  2:{ exists false. split; [reflexivity|]. split; [discriminate|].
      intros T. exfalso.
      assert (X : s_id a = s_id b)
        by (unfold s_id; destruct a, b; simpl in *; inversion T; subst; auto).
      rewrite X, tid_eqb_refl in Eid. discriminate. }
  destruct a as [da|ma oa ka|ka], b as [db|mb ob kb|kb].
  - exists (dt_compatible da db). split; [reflexivity|]. rewrite dt_compatible_iff. simpl.
    split; [intros (A & B & C); constructor; auto|intros T; inversion T; auto].
  - exfalso. apply tid_eqb_eq in Eid. inversion Wa as [? C| |]; subst. unfold s_id in Eid; simpl in Eid.
    rewrite Eid in C. discriminate.
  - exfalso. apply tid_eqb_eq in Eid. inversion Wa as [? C| |]; subst. unfold s_id in Eid; simpl in Eid.
    rewrite Eid in C. discriminate.
  - exfalso. apply tid_eqb_eq in Eid. inversion Wb as [? C| |]; subst. unfold s_id in Eid; simpl in Eid.
    rewrite <- Eid in C. discriminate.
  - inversion Wa as [|? ? ? Hoa Hfa|]; subst. inversion Wb as [|? ? ? Hob Hfb|]; subst.
    inversion Na as [|? ? ? Sa Nka|]; subst. inversion Nb as [|? ? ? Sb Nkb|]; subst.
    rewrite Forall_forall in Hfa, Hfb, Sa, Sb, Nka, Nkb.
    assert (Step : forall x y, In x ka -> In y kb ->
       exists r, compatible_f f x y = Ok r /\ (r = true <-> tcompat (abs x) (abs y))).
    { intros x y Ix Iy. apply IH; auto.
      pose proof (depth_kid (SObj ma oa ka) x Ix). pose proof (depth_kid (SObj mb ob kb) y Iy). lia. }
    assert (ZIn : forall (l : list schema) i y, znth l i = Some y -> In y l).
    { intros l i y Z. apply znth_range in Z. eapply nth_error_In; apply Z. }
    destruct (cgo_spec (compatible_f f) ma oa ka Wa kb mb) as (r & Er & Hr).
    { intros k i I. destruct (map_entry mb ob kb k i Hob I) as (y & M & Zy & Iy & Io).
      split; [auto|]. exists y. split; [exact Zy|]. intros j x Mj Zx.
      destruct (Step x y (ZIn _ _ _ Zx) Iy) as (r & Er & _). eauto. }
    exists r. split; [exact Er|]. rewrite Hr. clear Er Hr r. cbn [abs]. split.
    + intros A. constructor. intros k u v.
      rewrite (abs_entries_lookup _ _ _ k Hoa), (abs_entries_lookup _ _ _ k Hob).
      destruct (mget ma k) as [i|] eqn:Ma; [|discriminate].
      destruct (mget mb k) as [j|] eqn:Mb; [|discriminate].
      destruct (obj_ok_znth _ _ _ _ _ Hoa Ma) as (x & Zx & _).
      destruct (obj_ok_znth _ _ _ _ _ Hob Mb) as (y & Zy & _).
      rewrite Zx, Zy. simpl. intros U V. injection U as <-. injection V as <-.
      pose proof (A k j (mget_In _ _ _ Mb) i x y Ma Zx Zy) as Q.
      destruct (Step x y) as (r & Er & Hr); eauto. apply Hr. congruence.
    + intros T k j I i x y Ma Zx Zy. inversion T as [|? ? S|]; subst.
      destruct (map_entry mb ob kb k j Hob I) as (y' & Mb & _).
      destruct (Step x y) as (r & Er & Hr); eauto. rewrite Er. f_equal. apply Hr. apply (S k).
      * rewrite (abs_entries_lookup _ _ _ k Hoa), Ma, Zx. reflexivity.
      * rewrite (abs_entries_lookup _ _ _ k Hob), Mb, Zy. reflexivity.
  - discriminate Eid.
  - exfalso. apply tid_eqb_eq in Eid. inversion Wb as [? C| |]; subst. unfold s_id in Eid; simpl in Eid.
    rewrite <- Eid in C. discriminate.
  - discriminate Eid.
  - inversion Wa as [| |? Hfa]; subst. inversion Wb as [| |? Hfb]; subst.
    inversion Na as [| |? Nka]; subst. inversion Nb as [| |? Nkb]; subst.
    rewrite Forall_forall in Hfa, Hfb, Nka, Nkb.
    assert (Step : forall x y, In x ka -> In y kb ->
       exists r, compatible_f f x y = Ok r /\ (r = true <-> tcompat (abs x) (abs y))).
    { intros x y Ix Iy. apply IH; auto.
      pose proof (depth_kid (SLst ka) x Ix). pose proof (depth_kid (SLst kb) y Iy). lia. }
    cbn [abs].
    destruct (length ka <? length kb)%nat eqn:EL.
    + exists false. split; [reflexivity|]. split; [discriminate|].
      intros T. inversion T as [| |? ? L _]; subst. rewrite !map_length in L. lia.
    + destruct (lgo_spec (compatible_f f) ka kb) as (r & Er & Hr).
      { intros x y Ix Iy. destruct (Step x y Ix Iy) as (r & E & _). eauto. }
      exists r. split; [exact Er|]. rewrite Hr. clear Er Hr r. split.
      * intros A. constructor; [rewrite !map_length; lia|].
        intros i u v. rewrite !nth_error_map.
        destruct (nth_error ka i) as [x|] eqn:Ex; [|discriminate].
        destruct (nth_error kb i) as [y|] eqn:Ey; [|discriminate].
        simpl. intros U V. injection U as <-. injection V as <-.
        destruct (Step x y) as (r & Er & Hr); try (eapply nth_error_In; eassumption).
        apply Hr. pose proof (A i x y Ex Ey). congruence.
      * intros T i x y Ex Ey. inversion T as [| |? ? L S]; subst.
        destruct (Step x y) as (r & Er & Hr); try (eapply nth_error_In; eassumption).
        rewrite Er. f_equal. apply Hr. apply (S i).
        -- rewrite nth_error_map, Ex. reflexivity.
        -- rewrite nth_error_map, Ey. reflexivity.
Qed.
