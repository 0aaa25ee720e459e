(** Node::diff and diff_compatible: when they are defined, self comparison, and the order
    properties of the relations they decide. *)
From Coq Require Import ZArith Floats.SpecFloat.
From Verif Require Import Base DType SpecTree Mem MemFacts Node SpecNode NodeFacts NodeCompact NodeSet NodeSerial Number NumberFacts NodeDiff DiffFacts DiffTree.
Local Open Scope Z_scope.

(** ** Specification *)
(** no stride-0 repetition (element access warns, and the warning throws) *)
Definition no_repeat (d : dtype) : Prop := dt_stride d = 0 -> dt_n d <= 1.
(** differences of 32 and 64 bit signed elements that can meet fit their type *)
Definition tame (mach : endian) (va vb : tree leafval) : Prop :=
  forall t e es e' es' x y, In (Some (t, e, es)) (tleaves va) -> In (Some (t, e', es')) (tleaves vb) -> In x es -> In y es' ->
    t = INT32 \/ t = INT64 -> - 2 ^ (bits t - 1) <= svalue mach x - svalue mach y < 2 ^ (bits t - 1).
Definition not_negative (eps : spec_float) : Prop := SFltb eps (S754_zero false) = false.
Definition no_float (u : leafval) : Prop := match u with Some (t, _, _) => is_float t = false | None => True end.

(** ** Order properties *)
Lemma In_mget : forall {V} (l : list (str * V)) k v, NoDup (map fst l) -> In (k, v) l -> mget l k = Some v.
Proof.
  intros V l k v N I. induction l as [|[a w] r IH]; [contradiction|]. cbn [mget]. cbn [map fst] in N. inversion N as [|? ? N1 N2]; subst.
  destruct I as [I|I].
  - injection I as -> ->. rewrite str_eqb_refl. reflexivity.
  - destruct (str_eqb_spec k a) as [->|D]; [|apply IH; assumption]. exfalso. apply N1. apply in_map_iff. exists (a, v). split; [reflexivity|exact I].
Qed.
Lemma leaves_child : forall {A} (es : list (str * tree A)) k a u, In (k, a) es -> In u (tleaves a) -> In u (tleaves (TObj es)).
Proof. intros A es k a u I H. cbn [tleaves]. apply in_flat_map. exists (k, a). split; assumption. Qed.
Lemma leaves_item : forall {A} (ks : list (tree A)) a u, In a ks -> In u (tleaves a) -> In u (tleaves (TList ks)).
Proof. intros A ks a u I H. cbn [tleaves]. apply in_flat_map. exists a. split; assumption. Qed.

Lemma alike_refl : forall {A} (R : A -> A -> Prop) t, names_unique t -> (forall u, In u (tleaves t) -> R u u) -> alike R t t.
Proof.
  intros A R. induction t as [u|es IH|ks IH] using tree_ind''; intros N H.
  - constructor. apply H. left. reflexivity.
  - inversion N as [|? N1 N2|]; subst. rewrite Forall_forall in IH, N2.
    assert (X : forall k a, In (k, a) es -> exists b, mget es k = Some b /\ alike R a b /\ alike R b a).
    { intros k a I. exists a. split; [apply In_mget; assumption|]. pose proof (IH _ I (N2 _ I)) as Q. cbn [snd] in Q. split; apply Q; intros u Hu; apply H; apply (leaves_child es k a u I Hu). }
    constructor; intros k a I; destruct (X k a I) as (b & B1 & B2 & B3); eauto.
  - inversion N as [| |? N1]; subst. constructor. rewrite Forall_forall in IH, N1.
    assert (X : forall a, In a ks -> alike R a a) by (intros a I; apply IH; [exact I|exact (N1 a I)|intros u Hu; apply H; apply (leaves_item ks a u I Hu)]).
    clear -X. induction ks as [|a r IHr]; [constructor|]. constructor; [apply X; left; reflexivity|]. apply IHr. intros b I. apply X. right. exact I.
Qed.
Lemma alike_sym : forall {A} (R : A -> A -> Prop), (forall u v, R u v -> R v u) -> forall t t', alike R t t' -> alike R t' t.
Proof.
  intros A R S. induction t as [u|es IH|ks IH] using tree_ind''; intros t' H; inversion H as [? ? Q|? ? Q1 Q2|? ? Q]; subst.
  - constructor. auto.
  - rewrite Forall_forall in IH. constructor.
    + intros k a I. destruct (Q2 k a I) as (b & B1 & B2). exists b. split; [exact B1|]. apply mget_In in B1. exact (IH _ B1 _ B2).
    + intros k a I. destruct (Q1 k a I) as (b & B1 & B2). exists b. split; [exact B1|]. exact (IH _ I _ B2).
  - constructor. rewrite Forall_forall in IH. clear H. induction Q as [|a b r r' Qa Q IHQ]; [constructor|]. constructor.
    + apply IH; [left; reflexivity|exact Qa].
    + apply IHQ. intros x I. apply IH. right. exact I.
Qed.
Lemma alike_trans : forall {A} (R : A -> A -> Prop) (P : A -> Prop), (forall u v w, P u -> R u v -> R v w -> R u w) ->
  forall t t' t'', (forall u, In u (tleaves t) -> P u) -> alike R t t' -> alike R t' t'' -> alike R t t''.
Proof.
  intros A R P S. induction t as [u|es IH|ks IH] using tree_ind''; intros t' t'' HP H H'; inversion H as [? ? Q|? ? Q1 Q2|? ? Q]; subst; inversion H' as [? ? X|? ? X1 X2|? ? X]; subst.
  - constructor. apply (S u v); auto. apply HP. left. reflexivity.
  - rewrite Forall_forall in IH. constructor.
    + intros k a I. destruct (Q1 k a I) as (b & B1 & B2). destruct (X1 k b (mget_In _ _ _ B1)) as (c & C1 & C2). exists c. split; [exact C1|].
      apply (IH _ I b c); [intros u Hu; apply HP; apply (leaves_child es k a u I Hu)|exact B2|exact C2].
    + intros k c I. destruct (X2 k c I) as (b & B1 & B2). destruct (Q2 k b (mget_In _ _ _ B1)) as (a & A1 & A2). exists a. split; [exact A1|].
      apply mget_In in A1. apply (IH _ A1 b c); [intros u Hu; apply HP; apply (leaves_child es k a u A1 Hu)|exact A2|exact B2].
  - constructor. rewrite Forall_forall in IH. clear H H'.
    assert (HP' : forall a, In a ks -> forall u, In u (tleaves a) -> P u) by (intros a I u Hu; apply HP; apply (leaves_item ks a u I Hu)). clear HP.
    revert ks'0 X. induction Q as [|a b r r' Qa Q IHQ]; intros l X; inversion X as [|? c ? l' Xa Xr]; subst; [constructor|]. constructor.
    + apply (IH a (or_introl eq_refl) b c); [apply HP'; left; reflexivity|exact Qa|exact Xa].
    + apply IHQ; [intros x I; apply IH; right; exact I|intros x I; apply HP'; right; exact I|exact Xr].
Qed.
Lemma within_refl : forall {A} (R : A -> A -> Prop) t, names_unique t -> (forall u, In u (tleaves t) -> R u u) -> within R t t.
Proof.
  intros A R. induction t as [u|es IH|ks IH] using tree_ind''; intros N H.
  - constructor. apply H. left. reflexivity.
  - inversion N as [|? N1 N2|]; subst. rewrite Forall_forall in IH, N2. constructor.
    intros k a I. exists a. split; [apply In_mget; assumption|]. pose proof (IH _ I (N2 _ I)) as Q. cbn [snd] in Q. apply Q; intros u Hu; apply H; apply (leaves_child es k a u I Hu).
  - inversion N as [| |? N1]; subst. rewrite <- (app_nil_r ks) at 2. constructor. rewrite Forall_forall in IH, N1.
    assert (X : forall a, In a ks -> within R a a) by (intros a I; apply IH; [exact I|exact (N1 a I)|intros u Hu; apply H; apply (leaves_item ks a u I Hu)]).
    clear -X. induction ks as [|a r IHr]; [constructor|]. constructor; [apply X; left; reflexivity|]. apply IHr. intros b I. apply X. right. exact I.
Qed.
Lemma within_trans : forall {A} (R : A -> A -> Prop) (P : A -> Prop), (forall u v w, P u -> R u v -> R v w -> R u w) ->
  forall t t' t'', (forall u, In u (tleaves t) -> P u) -> within R t t' -> within R t' t'' -> within R t t''.
Proof.
  intros A R P S. induction t as [u|es IH|ks IH] using tree_ind''; intros t' t'' HP H H'; inversion H as [? ? Q|? ? Q1|? ys zs Q]; subst; inversion H' as [? ? X|? ? X1|? ys' zs' X]; subst.
  - constructor. apply (S u v); auto. apply HP. left. reflexivity.
  - rewrite Forall_forall in IH. constructor.
    intros k a I. destruct (Q1 k a I) as (b & B1 & B2). destruct (X1 k b (mget_In _ _ _ B1)) as (c & C1 & C2). exists c. split; [exact C1|].
    apply (IH _ I b c); [intros u Hu; apply HP; apply (leaves_child es k a u I Hu)|exact B2|exact C2].
  - apply Forall2_app_inv_l in X. destruct X as (y1 & y2 & X & _ & ->). rewrite <- app_assoc. constructor. rewrite Forall_forall in IH. clear H H'.
    assert (HP' : forall a, In a ks -> forall u, In u (tleaves a) -> P u) by (intros a I u Hu; apply HP; apply (leaves_item ks a u I Hu)). clear HP.
    revert y1 X. induction Q as [|a b r r' Qa Q IHQ]; intros l X; inversion X as [|? c ? l' Xa Xr]; subst; [constructor|]. constructor.
    + apply (IH a (or_introl eq_refl) b c); [apply HP'; left; reflexivity|exact Qa|exact Xa].
    + apply IHQ; [intros x I; apply IH; right; exact I|intros x I; apply HP'; right; exact I|exact Xr].
Qed.
Lemma alike_within : forall {A} (R S : A -> A -> Prop), (forall u v, R u v -> S u v) -> forall t t', alike R t t' -> within S t t'.
Proof.
  intros A R S RS. induction t as [u|es IH|ks IH] using tree_ind''; intros t' H; inversion H as [? ? Q|? ? Q1 Q2|? ? Q]; subst.
  - constructor. auto.
  - rewrite Forall_forall in IH. constructor. intros k a I. destruct (Q1 k a I) as (b & B1 & B2). exists b. split; [exact B1|]. exact (IH _ I _ B2).
  - rewrite <- (app_nil_r ks'). constructor. rewrite Forall_forall in IH. clear H. induction Q as [|a b r r' Qa Q IHQ]; [constructor|]. constructor.
    + apply IH; [left; reflexivity|exact Qa].
    + apply IHQ. intros x I. apply IH. right. exact I.
Qed.

Section Leaf.
Variable mach : endian.
Variable eps : spec_float.
Notation la := (leaf_alike mach eps).
Notation lw := (leaf_within mach eps).
Lemma zero_near : not_negative eps -> SFltb (S754_zero false) (SFopp eps) = false.
Proof.
  intros H. unfold not_negative, SFltb in *. change (S754_zero false) with (SFopp (S754_zero true)) at 1. rewrite SFcompare_opp.
  destruct eps as [[|]|[|]| |[|] p e]; cbn [SFcompare] in *; exact H.
Qed.
Lemma elem_alike_refl : forall t x, is_float t = false \/ not_negative eps -> elem_alike mach eps t x x.
Proof.
  intros t x [F|N]; unfold elem_alike; [rewrite F; reflexivity|]. destruct (is_float t) eqn:F; [|reflexivity]. pose proof (zero_near N) as Z.
  assert (D : fdelta mach t x x = S754_zero false \/ fdelta mach t x x = S754_nan).
  { unfold fdelta. destruct (SFsub_self (prec_of t) (emax_of t) (fvalue mach t x)) as [-> | ->]; destruct t; auto. }
  destruct D as [-> | ->]; [split; assumption|]. split; unfold SFltb; [destruct eps; reflexivity|reflexivity].
Qed.
Lemma fdelta_opp : forall t x y, sf_sim (fdelta mach t y x) (SFopp (fdelta mach t x y)).
Proof.
  intros t x y. unfold fdelta. pose proof (SFsub_opp (prec_of t) (emax_of t) (fvalue mach t x) (fvalue mach t y)) as H.
  destruct t; try exact H. pose proof (to_double_sim _ _ H) as H1. pose proof (to_double_opp (SFsub (prec_of FLOAT32) (emax_of FLOAT32) (fvalue mach FLOAT32 x) (fvalue mach FLOAT32 y))) as H2.
  revert H1 H2. generalize (to_double (SFsub (prec_of FLOAT32) (emax_of FLOAT32) (fvalue mach FLOAT32 y) (fvalue mach FLOAT32 x))).
  intros a. generalize (to_double (SFopp (SFsub (prec_of FLOAT32) (emax_of FLOAT32) (fvalue mach FLOAT32 x) (fvalue mach FLOAT32 y)))). intros b.
  generalize (SFopp (to_double (SFsub (prec_of FLOAT32) (emax_of FLOAT32) (fvalue mach FLOAT32 x) (fvalue mach FLOAT32 y)))). intros c.
  destruct a, b, c; cbn [sf_sim]; intros; try exact I; try congruence.
Qed.
Lemma elem_alike_sym : forall t x y, elem_alike mach eps t x y -> elem_alike mach eps t y x.
Proof.
  intros t x y. unfold elem_alike. destruct (is_float t); [|congruence]. pose proof (fdelta_opp t x y) as S. intros [H1 H2]. unfold SFltb in *.
  destruct (SFcompare_sim _ _ eps S) as [_ C1]. destruct (SFcompare_sim _ _ (SFopp eps) S) as [C2 _]. rewrite C1, C2. rewrite SFcompare_opp. split; [|exact H1].
  rewrite <- (SFopp_opp eps) at 1. rewrite SFcompare_opp. exact H2.
Qed.
Lemma F2_refl : forall {A} (R : A -> A -> Prop), (forall x, R x x) -> forall l, Forall2 R l l.
Proof. intros A R H l. induction l; constructor; auto. Qed.
Lemma F2_sym : forall {A} (R : A -> A -> Prop), (forall x y, R x y -> R y x) -> forall l l', Forall2 R l l' -> Forall2 R l' l.
Proof. intros A R H l l' F. induction F; constructor; auto. Qed.
Lemma leaf_alike_refl : forall u, no_float u \/ not_negative eps -> la u u.
Proof.
  intros [[[t e] es]|] H; [|exact I]. cbn [no_float] in H. destruct (str_dec t) as [Q|Q].
  - apply (leaf_alike_str mach eps t e es e es Q). tauto.
  - apply (leaf_alike_other mach eps t e es e es Q). apply F2_refl. intros x. apply elem_alike_refl. exact H.
Qed.
Lemma leaf_alike_sym : forall u v, la u v -> la v u.
Proof.
  intros [[[t e] es]|] [[[t' e'] es']|] H; try exact H. cbn [leaf_alike] in H. destruct H as [<- H]. fold (la (Some (t, e', es')) (Some (t, e, es))). destruct (str_dec t) as [Q|Q].
  - apply (leaf_alike_str mach eps t e' es' e es Q). rewrite Q in H. destruct H as [H1 H2]. split; [tauto|congruence].
  - apply (leaf_alike_other mach eps t e' es' e es Q). apply F2_sym; [apply elem_alike_sym|]. destruct t; try discriminate Q; exact H.
Qed.
Lemma F2_eq : forall {A} (l l' : list A), Forall2 eq l l' <-> l = l'.
Proof. intros A l l'. split; [intros F; induction F; congruence|intros ->; apply F2_refl; reflexivity]. Qed.
Lemma exact_elems : forall t xs ys, is_float t = false -> Forall2 (elem_alike mach eps t) xs ys <-> xs = ys.
Proof. intros t xs ys F. rewrite <- F2_eq. unfold elem_alike. rewrite F. reflexivity. Qed.
(** without floats: the same type and the same bytes, or text *)
Lemma leaf_alike_trans : forall u v w, no_float u -> la u v -> la v w -> la u w.
Proof.
  intros [[[t e] es]|] [[[t' e'] es']|] [[[t2 e2] es2]|] N H H'; cbn [leaf_alike] in H, H'; try contradiction; try exact I.
  destruct H as [<- H], H' as [<- H']. cbn [no_float] in N. destruct (str_dec t) as [Q|Q].
  - apply (leaf_alike_str mach eps t e es e2 es2 Q). rewrite Q in H, H'. destruct H as [H1 H2], H' as [H3 H4]. split; [tauto|congruence].
  - apply (leaf_alike_other mach eps t e es e2 es2 Q). apply exact_elems; [exact N|].
    assert (X : es = es') by (apply (exact_elems t es es' N); destruct t; try discriminate Q; exact H).
    assert (Y : es' = es2) by (apply (exact_elems t es' es2 N); destruct t; try discriminate Q; exact H'). congruence.
Qed.
Lemma leaf_within_refl : forall u, no_float u \/ not_negative eps -> lw u u.
Proof.
  intros [[[t e] es]|] H; [|exact I]. cbn [no_float] in H. destruct (str_dec t) as [Q|Q].
  - apply (leaf_within_str mach eps t e es e es Q). split; [tauto|]. exists []. rewrite app_nil_r. reflexivity.
  - apply (leaf_within_other mach eps t e es e es Q). exists es, []. rewrite app_nil_r. split; [reflexivity|]. apply F2_refl. intros x. apply elem_alike_refl. exact H.
Qed.
Lemma leaf_within_trans : forall u v w, no_float u -> lw u v -> lw v w -> lw u w.
Proof.
  intros [[[t e] es]|] [[[t' e'] es']|] [[[t2 e2] es2]|] N H H'; cbn [leaf_within] in H, H'; try contradiction; try exact I.
  destruct H as [<- H], H' as [<- H']. cbn [no_float] in N. destruct (str_dec t) as [Q|Q].
  - apply (leaf_within_str mach eps t e es e2 es2 Q). rewrite Q in H, H'. destruct H as [H1 (r & H2)], H' as [H3 (r' & H4)]. split; [tauto|]. exists (r ++ r'). rewrite H4, H2. apply app_assoc_reverse.
  - apply (leaf_within_other mach eps t e es e2 es2 Q).
    assert (X : exists ys zs, es' = ys ++ zs /\ Forall2 (elem_alike mach eps t) es ys) by (destruct t; try discriminate Q; exact H).
    assert (Y : exists ys zs, es2 = ys ++ zs /\ Forall2 (elem_alike mach eps t) es' ys) by (destruct t; try discriminate Q; exact H').
    destruct X as (y & z & -> & F). destruct Y as (y' & z' & -> & F'). apply (exact_elems t _ _ N) in F'. subst y'. exists y, (z ++ z'). split; [apply app_assoc_reverse|exact F].
Qed.
Lemma leaf_alike_within : forall u v, la u v -> lw u v.
Proof.
  intros [[[t e] es]|] [[[t' e'] es']|] H; cbn [leaf_alike] in H; try contradiction; try exact I. destruct H as [<- H]. destruct (str_dec t) as [Q|Q].
  - apply (leaf_within_str mach eps t e es e' es' Q). rewrite Q in H. destruct H as [H1 H2]. split; [exact H1|]. exists []. rewrite app_nil_r. congruence.
  - apply (leaf_within_other mach eps t e es e' es' Q). exists es', []. rewrite app_nil_r. split; [reflexivity|]. destruct t; try discriminate Q; exact H.
Qed.
End Leaf.

(** ** When the comparison is defined *)
Section Defined.
Variable mach : endian.
Variable m : mem.
Variable eps : spec_float.
Notation diff := (ndiff mach m eps false).
Notation diffc := (ndiff_compatible mach m eps false).
Definition sub_ok (t : tid) (xs ys : list (list byte)) : Prop :=
  forall i x y, nth_error xs i = Some x -> nth_error ys i = Some y -> sub_defined mach t x y = true.
Lemma elems_diff_def : forall t xs ys, sub_ok t xs ys -> exists r, elems_diff mach eps t xs ys = Ok r.
Proof.
  intros t. induction xs as [|x xs IH]; intros [|y ys] H; cbn [elems_diff]; try (eexists; reflexivity).
  destruct (IH ys) as (r & ->); [intros i a b A B; apply (H (S i) a b A B)|]. unfold elem_diff. rewrite (H O x y eq_refl eq_refl). destruct (is_float t); cbn [obind]; eexists; reflexivity.
Qed.
Lemma elems_read_def : forall h d n es, no_repeat d -> 0 <= n <= dt_n d -> omapM (leaf_elem m (h_data h) d) (zseq n) = Ok es -> elems_read m h d n = Ok es.
Proof.
  intros h d n es N Hn E. unfold elems_read. apply (omapM_ext _ _ _ _ E). intros i y I H. unfold elem_read, element_index. unfold leaf_elem in H.
  assert (Hi : 0 <= i < n) by (unfold zseq in I; apply in_map_iff in I; destruct I as (k & <- & I); apply in_seq in I; lia).
  destruct (Z.ltb_spec 0 i) as [L|L]; cbn [andb]; [|exact H]. destruct (Z.eqb_spec (dt_stride d) 0) as [S|S]; [|exact H]. specialize (N S). lia.
Qed.
(** leaves whose elements may be subtracted *)
Definition leaf_sub_ok (u v : leafval) : Prop :=
  match u, v with Some (t, _, es), Some (t', _, es') => t = t' -> sub_ok t es es' | _, _ => True end.
Definition leaf_defined (f : hdr -> dtype -> hdr -> dtype -> outcome bool) : Prop :=
  forall h d h' d' u v, sane d -> sane d' -> no_repeat d -> no_repeat d' -> leaf_value m (h_data h) d = Ok u -> leaf_value m (h_data h') d' = Ok v ->
    terminated u -> terminated v -> leaf_sub_ok u v -> exists r, leaf_case mach m false f h d h' d' = Ok r.
Lemma leaf_diff_def : leaf_defined (leaf_diff mach m eps).
Proof.
  intros h d h' d' u v S S' N N' U V Tu Tv A. unfold leaf_case. destruct (tid_eqb (dt_id d) (dt_id d')) eqn:TT; cbn [negb]; [|eexists; reflexivity].
  apply tid_eqb_true in TT. destruct (leaf_value_inv _ _ _ _ U) as [[T ->]|(T & Hn & es & -> & Ho)].
  { unfold is_empty. rewrite T. eexists. reflexivity. }
  destruct (leaf_value_inv _ _ _ _ V) as [[T' ->]|(T' & Hn' & es' & -> & Ho')]; [rewrite TT, T' in T; discriminate T|].
  rewrite (is_data_empty _ T). replace (is_leaf_type (dt_id d)) with true by (destruct (dt_id d); try discriminate T; reflexivity).
  unfold leaf_diff. destruct (Z.ltb_spec (dt_n d) 0); [lia|]. destruct (Z.ltb_spec (dt_n d') 0); [lia|]. cbn [orb]. cbn [leaf_sub_ok] in A. specialize (A TT).
  destruct (str_dec (dt_id d)) as [Q|Q].
  - rewrite Q. cbn [tid_eqb]. cbn [terminated] in Tu, Tv. rewrite <- TT in Tv. rewrite Q in Tu, Tv.
    rewrite (text_of_law m h d es Q S Hn Ho Tu), (text_of_law m h' d' es' ltac:(congruence) S' Hn' Ho' Tv). cbn [obind]. eexists. reflexivity.
  - rewrite Q. destruct (Z.eqb_spec (dt_n d) (dt_n d')) as [E|E]; cbn [negb]; [|eexists; reflexivity].
    apply omapM_elems in Ho; [|lia]. apply omapM_elems in Ho'; [|lia]. rewrite (elems_read_def h d (dt_n d) es N ltac:(lia) Ho). rewrite E. rewrite (elems_read_def h' d' (dt_n d') es' N' ltac:(lia) Ho'). cbn [obind].
    apply elems_diff_def. exact A.
Qed.
Lemma sub_ok_prefix : forall t xs ys zs, sub_ok t xs (ys ++ zs) -> sub_ok t xs ys.
Proof. intros t xs ys zs H i x y X Y. apply (H i x y X). rewrite nth_error_app1; [exact Y|]. apply nth_error_Some. congruence. Qed.
Lemma leaf_diff_compatible_def : leaf_defined (leaf_diff_compatible mach m eps).
Proof.
  intros h d h' d' u v S S' N N' U V Tu Tv A. unfold leaf_case. destruct (tid_eqb (dt_id d) (dt_id d')) eqn:TT; cbn [negb]; [|eexists; reflexivity].
  apply tid_eqb_true in TT. destruct (leaf_value_inv _ _ _ _ U) as [[T ->]|(T & Hn & es & -> & Ho)].
  { unfold is_empty. rewrite T. eexists. reflexivity. }
  destruct (leaf_value_inv _ _ _ _ V) as [[T' ->]|(T' & Hn' & es' & -> & Ho')]; [rewrite TT, T' in T; discriminate T|].
  rewrite (is_data_empty _ T). replace (is_leaf_type (dt_id d)) with true by (destruct (dt_id d); try discriminate T; reflexivity).
  unfold leaf_diff_compatible. destruct (Z.ltb_spec (dt_n d) 0); [lia|]. destruct (Z.ltb_spec (dt_n d') 0); [lia|]. cbn [orb]. cbn [leaf_sub_ok] in A. specialize (A TT).
  destruct (str_dec (dt_id d)) as [Q|Q].
  - rewrite Q. cbn [tid_eqb]. cbn [terminated] in Tu, Tv. rewrite <- TT in Tv. rewrite Q in Tu, Tv.
    rewrite (text_of_law m h d es Q S Hn Ho Tu), (text_of_law m h' d' es' ltac:(congruence) S' Hn' Ho' Tv). cbn [obind]. eexists. reflexivity.
  - rewrite Q. destruct (Z.ltb_spec (dt_n d') (dt_n d)) as [E|E]; [eexists; reflexivity|].
    destruct (read_prefix m (h_data h') d' (dt_n d) es' ltac:(lia) Ho') as (us & vs & -> & Y & _).
    apply omapM_elems in Ho; [|lia]. rewrite (elems_read_def h d (dt_n d) es N ltac:(lia) Ho), (elems_read_def h' d' (dt_n d) us N' ltac:(lia) Y). cbn [obind].
    apply elems_diff_def. apply (sub_ok_prefix _ _ us vs). exact A.
Qed.

Definition steady (n : node) : Prop := Forall (fun l => no_repeat (snd l)) (nleaves n).
Lemma steady_child : forall h es k c, steady (NObj h es) -> In (k, c) es -> steady c.
Proof. intros h es k c S I. unfold steady in *. cbn [nleaves] in S. rewrite Forall_forall in *. intros l Hl. apply S. apply in_flat_map. exists (k, c). split; assumption. Qed.
Lemma steady_item : forall h ks c, steady (NLst h ks) -> In c ks -> steady c.
Proof. intros h es c S I. unfold steady in *. cbn [nleaves] in S. rewrite Forall_forall in *. intros l Hl. apply S. apply in_flat_map. exists c. split; assumption. Qed.
Definition all_sub_ok (va vb : tree leafval) : Prop := forall u v, In u (tleaves va) -> In v (tleaves vb) -> leaf_sub_ok u v.
Lemma tame_sub_ok : forall va vb, tame mach va vb -> all_sub_ok va vb.
Proof.
  intros va vb T u v Iu Iv. destruct u as [[[t e] es]|], v as [[[t' e'] es']|]; try exact I. cbn [leaf_sub_ok]. intros <- i x y X Y.
  specialize (T t e es e' es' x y Iu Iv (nth_error_In _ _ X) (nth_error_In _ _ Y)). unfold sub_defined, ivalue. destruct t; try reflexivity; cbn [is_signed]; specialize (T ltac:(auto)); lia.
Qed.
Lemma F2_In_l : forall {A B} {R : A -> B -> Prop} {l l'} x, Forall2 R l l' -> In x l -> exists y, In y l' /\ R x y.
Proof. intros A B R l l' x F I. induction F as [|a b r r' H F IH]; [contradiction|]. destruct I as [<-|I]; [exists b; split; [left; reflexivity|exact H]|]. destruct (IH I) as (y & Y1 & Y2). exists y. split; [right; exact Y1|exact Y2]. Qed.
Lemma extra_def : forall f es' es, (forall k c c', In (k, c) es -> mget es' k = Some c' -> exists r, f c c' = Ok r) -> exists r, extra_loop f es' es = Ok r.
Proof.
  intros f es' es. induction es as [|[k c] r IH]; intros H; [eexists; reflexivity|]. cbn [extra_loop]. fold (extra_loop f es').
  destruct IH as (y & ->); [intros k0 c0 c' I; apply H; right; exact I|]. destruct (mget es' k) as [c'|] eqn:M.
  - destruct (H k c c' (or_introl eq_refl) M) as (x & ->). eexists. reflexivity.
  - eexists. reflexivity.
Qed.
Lemma missing_def : forall f es es', (forall k c c', In (k, c') es' -> mget es k = Some c -> exists r, f c c' = Ok r) -> exists r, missing_loop f es es' = Ok r.
Proof.
  intros f es es'. induction es' as [|[k c'] r IH]; intros H; [eexists; reflexivity|]. cbn [missing_loop]. fold (missing_loop f es).
  destruct IH as (y & ->); [intros k0 c0 c2 I; apply H; right; exact I|]. destruct (mget es k) as [c|] eqn:M.
  - destruct (H k c c' (or_introl eq_refl) M) as (x & ->). eexists. reflexivity.
  - eexists. reflexivity.
Qed.
Lemma sub_ok_obj : forall vs vs' k a k' b, all_sub_ok (TObj vs) (TObj vs') -> In (k, a) vs -> In (k', b) vs' -> all_sub_ok a b.
Proof. intros vs vs' k a k' b H I I' u v U V. apply H; eapply leaves_child; eassumption. Qed.
Lemma sub_ok_list : forall vs vs' a b, all_sub_ok (TList vs) (TList vs') -> In a vs -> In b vs' -> all_sub_ok a b.
Proof. intros vs vs' a b H I I' u v U V. apply H; eapply leaves_item; eassumption. Qed.
Ltac kinds := repeat match goal with H : view _ (NLeaf _ _) _ |- _ => apply view_leaf in H; destruct H as (? & -> & ? & ? & ?) | H : view _ (NObj _ _) _ |- _ => apply view_obj in H; destruct H as (? & -> & ?) | H : view _ (NLst _ _) _ |- _ => apply view_list in H; destruct H as (? & -> & ?) end.
Lemma diff_def : forall a b va vb, view m a va -> view m b vb -> steady a -> steady b -> all_sub_ok va vb -> exists r, diff a b = Ok r.
Proof.
  induction a as [h d|h es IH|h ks IH] using node_ind'; intros b va vb Va Vb Sa Sb A; destruct b as [h' d'|h' es'|h' ks']; try (eexists; reflexivity).
  - apply view_leaf in Va. destruct Va as (u & -> & Sd & Tu & Lu). apply view_leaf in Vb. destruct Vb as (v & -> & Sd' & Tv & Lv). cbn [ndiff].
    apply (leaf_diff_def h d h' d' u v Sd Sd' (Forall_inv Sa) (Forall_inv Sb) Lu Lv Tu Tv). apply A; left; reflexivity.
  - apply view_obj in Va. destruct Va as (vs & -> & F). apply view_obj in Vb. destruct Vb as (vs' & -> & F'). rewrite diff_obj. rewrite Forall_forall in IH.
    assert (X : forall k c c', In (k, c) es -> In (k, c') es' -> exists r, diff c c' = Ok r).
    { intros k c c' I I'. destruct (F2_In_l _ F I) as ([k1 v] & V1 & V2 & V3). destruct (F2_In_l _ F' I') as ([k2 v'] & W1 & W2 & W3). cbn [fst snd] in *. subst k1 k2.
      apply (IH _ I c' v v'); [exact V3|exact W3|exact (steady_child _ _ _ _ Sa I)|exact (steady_child _ _ _ _ Sb I')|exact (sub_ok_obj _ _ _ _ _ _ A V1 W1)]. }
    destruct (extra_def diff es' es) as (r1 & ->); [intros k c c' I M; apply (X k c c' I (mget_In _ _ _ M))|]. cbn [obind].
    destruct (missing_def diff es es') as (r2 & ->); [intros k c c' I M; apply (X k c c' (mget_In _ _ _ M) I)|]. eexists. reflexivity.
  - apply view_list in Va. destruct Va as (vs & -> & F). apply view_list in Vb. destruct Vb as (vs' & -> & F'). rewrite Forall_forall in IH.
    assert (X : forall c c', In c ks -> In c' ks' -> exists r, diff c c' = Ok r).
    { intros c c' I I'. destruct (F2_In_l _ F I) as (v & V1 & V3). destruct (F2_In_l _ F' I') as (v' & W1 & W3).
      apply (IH _ I c' v v'); [exact V3|exact W3|exact (steady_item _ _ _ Sa I)|exact (steady_item _ _ _ Sb I')|exact (sub_ok_list _ _ _ _ A V1 W1)]. }
    clear -X. cbn [ndiff]. revert ks' X. induction ks as [|c r IHr]; intros [|c' r'] X; try (eexists; reflexivity).
    destruct (X c c' (or_introl eq_refl) (or_introl eq_refl)) as (x & ->). cbn [obind]. destruct (IHr r') as (y & ->); [intros a b I I'; apply X; right; assumption|]. eexists. reflexivity.
Qed.
Lemma diff_compatible_def : forall a b va vb, view m a va -> view m b vb -> steady a -> steady b -> all_sub_ok va vb -> exists r, diffc a b = Ok r.
Proof.
  induction a as [h d|h es IH|h ks IH] using node_ind'; intros b va vb Va Vb Sa Sb A; destruct b as [h' d'|h' es'|h' ks']; try (eexists; reflexivity).
  - apply view_leaf in Va. destruct Va as (u & -> & Sd & Tu & Lu). apply view_leaf in Vb. destruct Vb as (v & -> & Sd' & Tv & Lv). cbn [ndiff_compatible].
    apply (leaf_diff_compatible_def h d h' d' u v Sd Sd' (Forall_inv Sa) (Forall_inv Sb) Lu Lv Tu Tv). apply A; left; reflexivity.
  - apply view_obj in Va. destruct Va as (vs & -> & F). apply view_obj in Vb. destruct Vb as (vs' & -> & F'). cbn [ndiff_compatible]. fold (extra_loop diffc es'). rewrite Forall_forall in IH.
    apply extra_def. intros k c c' I M. apply mget_In in M. destruct (F2_In_l _ F I) as ([k1 v] & V1 & V2 & V3). destruct (F2_In_l _ F' M) as ([k2 v'] & W1 & W2 & W3). cbn [fst snd] in *. subst k1 k2.
    apply (IH _ I c' v v'); [exact V3|exact W3|exact (steady_child _ _ _ _ Sa I)|exact (steady_child _ _ _ _ Sb M)|exact (sub_ok_obj _ _ _ _ _ _ A V1 W1)].
  - apply view_list in Va. destruct Va as (vs & -> & F). apply view_list in Vb. destruct Vb as (vs' & -> & F'). rewrite Forall_forall in IH.
    assert (X : forall c c', In c ks -> In c' ks' -> exists r, diffc c c' = Ok r).
    { intros c c' I I'. destruct (F2_In_l _ F I) as (v & V1 & V3). destruct (F2_In_l _ F' I') as (v' & W1 & W3).
      apply (IH _ I c' v v'); [exact V3|exact W3|exact (steady_item _ _ _ Sa I)|exact (steady_item _ _ _ Sb I')|exact (sub_ok_list _ _ _ _ A V1 W1)]. }
    clear -X. cbn [ndiff_compatible]. revert ks' X. induction ks as [|c r IHr]; intros [|c' r'] X; try (eexists; reflexivity).
    destruct (X c c' (or_introl eq_refl) (or_introl eq_refl)) as (x & ->). cbn [obind]. destruct (IHr r') as (y & ->); [intros a b I I'; apply X; right; assumption|]. eexists. reflexivity.
Qed.
Theorem diff_defined_law : forall a b va vb, view m a va -> view m b vb -> steady a -> steady b -> tame mach va vb ->
  (exists r, diff a b = Ok r) /\ (exists r, diffc a b = Ok r).
Proof.
  intros a b va vb Va Vb Sa Sb T. apply tame_sub_ok in T. split; [eapply diff_def; eassumption|eapply diff_compatible_def; eassumption].
Qed.

(** ** A node with itself *)
Lemma leaf_self : forall u, leaf_sub_ok u u.
Proof.
  intros [[[t e] es]|]; [|exact I]. intros _ i x y X Y. rewrite X in Y. injection Y as <-. unfold sub_defined.
  assert (0 < 2 ^ (bits INT32 - 1) /\ 0 < 2 ^ (bits INT64 - 1)) by (split; reflexivity). destruct t; try reflexivity; rewrite Z.sub_diag; lia.
Qed.
Lemma self_def : forall a va, view m a va -> steady a -> names_unique va -> (exists r, diff a a = Ok r) /\ (exists r, diffc a a = Ok r).
Proof.
  induction a as [h d|h es IH|h ks IH] using node_ind'; intros va Va Sa N.
  - apply view_leaf in Va. destruct Va as (u & -> & Sd & Tu & Lu). cbn [ndiff ndiff_compatible]. split.
    + exact (leaf_diff_def h d h d u u Sd Sd (Forall_inv Sa) (Forall_inv Sa) Lu Lu Tu Tu (leaf_self u)).
    + exact (leaf_diff_compatible_def h d h d u u Sd Sd (Forall_inv Sa) (Forall_inv Sa) Lu Lu Tu Tu (leaf_self u)).
  - apply view_obj in Va. destruct Va as (vs & -> & F). rewrite diff_obj. cbn [ndiff_compatible]. fold (extra_loop diffc es). rewrite Forall_forall in IH.
    inversion N as [|? N1 N2|]; subst. rewrite Forall_forall in N2. assert (NE : NoDup (map fst es)).
    { replace (map fst es) with (map fst vs); [exact N1|]. clear -F. induction F as [|e x es vs [E _] F IHF]; [reflexivity|]. cbn [map]. congruence. }
    assert (X : forall k c c', In (k, c) es -> mget es k = Some c' -> (exists r, diff c c' = Ok r) /\ (exists r, diffc c c' = Ok r)).
    { intros k c c' I M. rewrite (In_mget es k c NE I) in M. injection M as <-. destruct (F2_In_l _ F I) as ([k1 v] & V1 & _ & V3).
      exact (IH _ I v V3 (steady_child _ _ _ _ Sa I) (N2 _ V1)). }
    split.
    + destruct (extra_def diff es es) as (r1 & ->); [intros k c c' I M; apply (X k c c' I M)|]. cbn [obind].
      destruct (missing_def diff es es) as (r2 & ->); [|eexists; reflexivity]. intros k c c' I M.
      assert (c' = c) by (rewrite (In_mget es k c' NE I) in M; congruence). subst c'. apply (X k c c I M).
    + apply extra_def. intros k c c' I M. apply (X k c c' I M).
  - apply view_list in Va. destruct Va as (vs & -> & F). inversion N as [| |? N1]; subst. rewrite Forall_forall in IH, N1.
    assert (X : forall c, In c ks -> (exists r, diff c c = Ok r) /\ (exists r, diffc c c = Ok r)).
    { intros c I. destruct (F2_In_l _ F I) as (v & V1 & V3). exact (IH c I v V3 (steady_item _ _ _ Sa I) (N1 v V1)). }
    clear -X. cbn [ndiff ndiff_compatible]. induction ks as [|c r IHr]; [split; eexists; reflexivity|].
    destruct (X c (or_introl eq_refl)) as ((x & ->) & (x' & ->)). cbn [obind]. destruct IHr as ((y & ->) & (y' & ->)); [intros a I; apply X; right; exact I|]. split; eexists; reflexivity.
Qed.
Theorem diff_self_law : forall a va, view m a va -> steady a -> names_unique va -> not_negative eps \/ Forall no_float (tleaves va) ->
  diff a a = Ok false /\ diffc a a = Ok false.
Proof.
  intros a va Va Sa N E. destruct (self_def a va Va Sa N) as ((r & R) & (r' & R')).
  assert (L : forall u, In u (tleaves va) -> no_float u \/ not_negative eps) by (intros u I; destruct E as [E|E]; [right; exact E|left; exact (proj1 (Forall_forall _ _) E u I)]).
  split.
  - rewrite R. f_equal. apply (diff_law mach m eps a a va va r Va Va R). apply alike_refl; [exact N|]. intros u I. apply leaf_alike_refl. exact (L u I).
  - rewrite R'. f_equal. apply (diff_compatible_law mach m eps a a va va r' Va Va R'). apply within_refl; [exact N|]. intros u I. apply leaf_within_refl. exact (L u I).
Qed.
(** both ways round give the same verdict *)
Theorem diff_symmetric_law : forall a b va vb r r', view m a va -> view m b vb -> diff a b = Ok r -> diff b a = Ok r' -> r = r'.
Proof.
  intros a b va vb r r' Va Vb R R'. pose proof (diff_law mach m eps a b va vb r Va Vb R) as H. pose proof (diff_law mach m eps b a vb va r' Vb Va R') as H'.
  assert (X : alike (leaf_alike mach eps) va vb <-> alike (leaf_alike mach eps) vb va) by (split; apply alike_sym; apply leaf_alike_sym).
  destruct r, r'; try reflexivity; exfalso.
  - assert (false = false) by reflexivity. apply H' in H0. apply X in H0. apply H in H0. discriminate H0.
  - assert (false = false) by reflexivity. apply H in H0. apply X in H0. apply H' in H0. discriminate H0.
Qed.
End Defined.

(** ** Without floats: an equivalence, and an order *)
Theorem alike_equivalence : forall mach eps, let R := alike (leaf_alike mach eps) in
  (forall t, names_unique t -> Forall no_float (tleaves t) -> R t t) /\
  (forall t t', R t t' -> R t' t) /\
  (forall t t' t'', Forall no_float (tleaves t) -> R t t' -> R t' t'' -> R t t'').
Proof.
  intros mach eps R. split; [|split].
  - intros t N F. apply alike_refl; [exact N|]. intros u I. apply leaf_alike_refl. left. exact (proj1 (Forall_forall _ _) F u I).
  - intros t t'. apply alike_sym. apply leaf_alike_sym.
  - intros t t' t'' F. apply (alike_trans _ no_float); [apply leaf_alike_trans|]. intros u I. exact (proj1 (Forall_forall _ _) F u I).
Qed.
Theorem within_order : forall mach eps, let R := within (leaf_within mach eps) in
  (forall t, names_unique t -> Forall no_float (tleaves t) -> R t t) /\
  (forall t t' t'', Forall no_float (tleaves t) -> R t t' -> R t' t'' -> R t t'') /\
  (forall t t', alike (leaf_alike mach eps) t t' -> R t t').
Proof.
  intros mach eps R. split; [|split].
  - intros t N F. apply within_refl; [exact N|]. intros u I. apply leaf_within_refl. left. exact (proj1 (Forall_forall _ _) F u I).
  - intros t t' t'' F. apply (within_trans _ no_float); [apply leaf_within_trans|]. intros u I. exact (proj1 (Forall_forall _ _) F u I).
  - intros t t'. apply alike_within. apply leaf_alike_within.
Qed.
