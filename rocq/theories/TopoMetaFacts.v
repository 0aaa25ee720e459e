From Verif Require Import Base DType Node NodeFacts SchemaInv O2M MeshElem TopoMeta TopoMetaSpec.
From Coq Require Import ZArith Lia Permutation Sorting.Sorted.
Local Open Scope Z_scope.
Import ListNotations.

(** ---- orders ---- *)
Lemma weak_first : strict_weak first_ltb.
Proof. unfold first_ltb. split; intros; rewrite ?Z.ltb_lt, ?Z.ltb_ge in *; lia. Qed.
Lemma weak_second : strict_weak second_ltb.
Proof. unfold second_ltb. split; intros; rewrite ?Z.ltb_lt, ?Z.ltb_ge in *; lia. Qed.
Lemma weak_z : strict_weak Z.ltb.
Proof. split; intros; rewrite ?Z.ltb_lt, ?Z.ltb_ge in *; lia. Qed.
Lemma pair_ltb_iff x y : pair_ltb x y = true <-> fst x < fst y \/ (fst x = fst y /\ snd x < snd y).
Proof. unfold pair_ltb. rewrite Bool.orb_true_iff, Bool.andb_true_iff, Z.ltb_lt, Z.eqb_eq, Z.ltb_lt. tauto. Qed.
Lemma pair_ltb_no x y : pair_ltb x y = false <-> ~ (fst x < fst y \/ (fst x = fst y /\ snd x < snd y)).
Proof. rewrite <- pair_ltb_iff. destruct (pair_ltb x y); split; intro H; congruence || (exfalso; apply H; reflexivity) || reflexivity. Qed.
Lemma weak_pair : strict_weak pair_ltb.
Proof. split; intros; rewrite ?pair_ltb_iff, ?pair_ltb_no in *; lia. Qed.

(** sorted lists with the same members and different keys are equal *)
Lemma sorted_unique {A} (k : A -> Z) : forall l l', Permutation l l' -> StronglySorted (fun x y => k x <= k y) l ->
  StronglySorted (fun x y => k x < k y) l' -> l = l'.
Proof.
  intros l l' P S S'. revert l P S. induction S' as [|y r' Sr IH F]; intros l P S.
  - apply Permutation_nil. symmetry; exact P.
  - destruct l as [|x r]; [exfalso; exact (Permutation_nil_cons P)|].
    inversion S as [|? ? S1 F1]; subst.
    assert (E : x = y).
    { assert (I : In x (y :: r')) by (eapply Permutation_in; [exact P|left; reflexivity]).
      destruct I as [I|I]; [congruence|].
      assert (I' : In y (x :: r)) by (eapply Permutation_in; [symmetry; exact P|left; reflexivity]).
      destruct I' as [I'|I']; [exact I'|].
      rewrite Forall_forall in F, F1. specialize (F _ I). specialize (F1 _ I'). cbv beta in *. lia. }
    subst y. f_equal. apply IH; [exact (Permutation_cons_inv P)|exact S1].
Qed.
Lemma sorted_unique_z : forall l l', Permutation l l' -> StronglySorted Z.le l -> StronglySorted Z.le l' -> l = l'.
Proof.
  intros l. induction l as [|x r IH]; intros l' P S S'; [apply Permutation_nil in P; congruence|].
  destruct l' as [|y r']; [exfalso; exact (Permutation_nil_cons (Permutation_sym P))|].
  inversion S as [|? ? S1 F1]; subst. inversion S' as [|? ? S2 F2]; subst.
  assert (E : x = y).
  { rewrite Forall_forall in F1, F2.
    assert (I : In x (y :: r')) by (eapply Permutation_in; [exact P|left; reflexivity]).
    assert (I' : In y (x :: r)) by (eapply Permutation_in; [symmetry; exact P|left; reflexivity]).
    destruct I as [I|I]; [congruence|]. destruct I' as [I'|I']; [congruence|].
    specialize (F1 _ I'). specialize (F2 _ I). lia. }
  subst y. f_equal. apply IH; [exact (Permutation_cons_inv P)|exact S1|exact S2].
Qed.
Lemma ss_weaken {A} (R R' : A -> A -> Prop) l : (forall x y, R x y -> R' x y) -> StronglySorted R l -> StronglySorted R' l.
Proof. intros H S. induction S; constructor; auto. eapply Forall_impl; [|eassumption]. auto. Qed.
Lemma ss_map {A B} (f : A -> B) (R : B -> B -> Prop) l : StronglySorted (fun x y => R (f x) (f y)) l -> StronglySorted R (map f l).
Proof. intro S. induction S; cbn; constructor; auto. apply Forall_map. exact H. Qed.
Lemma ss_map_inv {A B} (f : A -> B) (R : B -> B -> Prop) l : StronglySorted R (map f l) -> StronglySorted (fun x y => R (f x) (f y)) l.
Proof. induction l; cbn; intro S; constructor; inversion S; subst; auto. rewrite Forall_map in H2. exact H2. Qed.
Lemma zseq_ss n : StronglySorted Z.lt (zseq n).
Proof.
  unfold zseq. generalize 0%nat at 1. induction (Z.to_nat n) as [|k IH]; intro s; cbn; constructor; auto.
  rewrite Forall_map, Forall_forall. intros x I. apply in_seq in I. lia.
Qed.

Lemma map_fst_combine {A B} (a : list A) (b : list B) : length a = length b -> map fst (combine a b) = a.
Proof. revert b; induction a as [|x r IH]; intros [|y s]; cbn; intro H; try discriminate; auto. f_equal. apply IH. lia. Qed.
Lemma map_snd_combine {A B} (a : list A) (b : list B) : length a = length b -> map snd (combine a b) = b.
Proof. revert b; induction a as [|x r IH]; intros [|y s]; cbn; intro H; try discriminate; auto. f_equal. apply IH. lia. Qed.
Lemma zlen_seq {A} (l : list A) : length (zseq (zlen l)) = length l.
Proof. rewrite length_zseq. unfold zlen. lia. Qed.

Section S.
Variable srt : forall A : Type, (A -> A -> bool) -> list A -> list A.
Hypothesis Hs : sorts srt.

Lemma zsort_perm l : Permutation (zsort srt l) l.
Proof. apply (Hs Z Z.ltb l weak_z). Qed.
Lemma zsort_sorted l : StronglySorted Z.le (zsort srt l).
Proof. eapply ss_weaken; [|exact (proj2 (Hs Z Z.ltb l weak_z))]. intros x y H. apply Z.ltb_ge in H. exact H. Qed.

(** ---- numbering the labels ---- *)
Lemma uniq_law : forall l cur u, StronglySorted (fun x y => fst x <= fst y) l -> (forall x, In x l -> cur <= fst x) ->
  exists h U, uniq cur u l = (map (fun x => (snd x, h (fst x))) l, U) /\ h cur = u /\ u <= U /\
    (forall a, In a (cur :: map fst l) -> u <= h a <= U) /\
    (forall a b, In a (cur :: map fst l) -> In b (cur :: map fst l) -> a < b -> h a < h b).
Proof.
  induction l as [|[id ef] r IH]; intros cur u S B.
  - exists (fun _ => u), u. cbn. repeat split; intros; try lia.
  - inversion S as [|? ? S1 F1]; subst. cbn [fst] in F1.
    set (v := if id =? cur then u else u + 1).
    destruct (IH id v S1) as [h [U [E [Hc [LU [Rg Mo]]]]]].
    { intros x I. rewrite Forall_forall in F1. apply F1. exact I. }
    assert (Bid : cur <= id) by (apply (B (id, ef)); left; reflexivity).
    assert (Bi : forall a, In a (map fst r) -> id <= a).
    { intros a I. apply in_map_iff in I. destruct I as [x [<- I]]. rewrite Forall_forall in F1. apply F1. exact I. }
    exists (fun x => if x <=? cur then u else h x), U.
    cbn [uniq]. fold v. rewrite E. cbn [map fst snd].
    assert (Hx : forall a, In a (id :: map fst r) -> (if a <=? cur then u else h a) = h a).
    { intros a I. destruct (Z.leb_spec a cur); [|reflexivity].
      assert (id <= a) by (destruct I as [<-|I]; [lia|apply Bi; exact I]).
      assert (id = cur) by lia. assert (a = id) by lia. subst a. rewrite Hc. unfold v. rewrite (proj2 (Z.eqb_eq id cur)) by lia. reflexivity. }
    assert (uv : u <= v <= u + 1) by (unfold v; destruct (id =? cur); lia).
    repeat split.
    + f_equal. f_equal.
      * rewrite Hx by (left; reflexivity). rewrite Hc. reflexivity.
      * apply map_ext_in. intros x I. f_equal. symmetry. apply Hx. right. apply in_map. exact I.
    + rewrite Z.leb_refl. reflexivity.
    + lia.
    + destruct H as [<-|H]; [rewrite Z.leb_refl; lia|]. rewrite Hx by exact H. specialize (Rg _ H). lia.
    + destruct H as [<-|H]; [rewrite Z.leb_refl; lia|]. rewrite Hx by exact H. specialize (Rg _ H). lia.
    + intros a b Ia Ib Lab. destruct Ib as [<-|Ib].
      { destruct Ia as [<-|Ia]; [lia|]. destruct Ia as [<-|Ia]; [lia|]. specialize (Bi _ Ia). lia. }
      rewrite (Hx b) by exact Ib.
      destruct Ia as [<-|Ia].
      * rewrite Z.leb_refl. destruct (Z.eq_dec id cur) as [->|N].
        -- pose proof (Mo cur b (or_introl eq_refl) Ib Lab) as M. rewrite Hc in M. unfold v in M. rewrite Z.eqb_refl in M. lia.
        -- specialize (Rg _ Ib). unfold v in *. rewrite (proj2 (Z.eqb_neq id cur)) in * by lia. lia.
      * rewrite (Hx a) by exact Ia. apply Mo; assumption.
Qed.

Lemma zseq_ss_snd {A} (ks : list A) l : length ks = length l -> StronglySorted Z.lt l -> StronglySorted (fun x y => snd x < snd y) (combine ks l).
Proof. intros E S. apply (ss_map_inv snd Z.lt). rewrite map_snd_combine by exact E. exact S. Qed.

Lemma unique_law ks : exists h U, place_to_unique srt (combine ks (zseq (zlen ks))) = (combine (zseq (zlen ks)) (map h ks), U) /\
  (forall a, In a ks -> 0 <= h a < U) /\ (forall a b, In a ks -> In b ks -> h a = h b -> a = b).
Proof.
  unfold place_to_unique. set (l := combine ks (zseq (zlen ks))).
  destruct (Hs _ pair_ltb l weak_pair) as [P S]. set (s := srt _ pair_ltb l) in *.
  assert (Ll : length ks = length (zseq (zlen ks))) by (rewrite zlen_seq; reflexivity).
  assert (Inl : forall a, In a ks -> In a (map fst s)).
  { intros a I. eapply Permutation_in; [symmetry; apply Permutation_map; exact P|]. unfold l. rewrite map_fst_combine by exact Ll. exact I. }
  destruct s as [|[id ef] r] eqn:Es.
  - cbn [make_unique]. apply Permutation_nil in P. unfold l in P. destruct ks as [|k ks]; [|apply (f_equal (@length _)) in P; rewrite combine_length, <- Ll in P; cbn in P; lia].
    exists (fun _ => 0), 0. cbn. destruct (Hs _ first_ltb [] weak_first) as [P0 _]. symmetry in P0. apply Permutation_nil in P0. rewrite P0.
    repeat split; intros; contradiction.
  - cbn [make_unique].
    assert (S' : StronglySorted (fun x y : Z * Z => fst x <= fst y) ((id, ef) :: r)).
    { eapply ss_weaken; [|exact S]. intros x y H. apply pair_ltb_no in H. lia. }
    destruct (uniq_law _ id 0 S') as [h [U [E [Hc [LU [Rg Mo]]]]]].
    { intros x [<-|I]; [cbn; lia|]. inversion S' as [|? ? _ F]; subst. rewrite Forall_forall in F. apply (F _ I). }
    rewrite E. exists h, (U + 1). split; [|split].
    + f_equal. apply (sorted_unique fst).
      * destruct (Hs _ first_ltb (map (fun x => (snd x, h (fst x))) ((id, ef) :: r)) weak_first) as [P1 _].
        eapply Permutation_trans; [exact P1|]. eapply Permutation_trans; [apply Permutation_map; exact P|].
        unfold l. clear - Ll. revert Ll. generalize (zseq (zlen ks)). induction ks as [|k r IH]; intros [|z zs] H; try discriminate; cbn; auto.
      * eapply ss_weaken; [|exact (proj2 (Hs _ first_ltb _ weak_first))]. intros x y H. apply Z.ltb_ge in H. exact H.
      * apply (ss_map_inv fst Z.lt). rewrite map_fst_combine by (rewrite map_length; lia). apply zseq_ss.
    + intros a I. specialize (Rg a (or_intror (Inl _ I))). lia.
    + intros a b Ia Ib Eh. destruct (Z.lt_trichotomy a b) as [Lt|[Eq|Gt]]; [|exact Eq|].
      * specialize (Mo a b (or_intror (Inl _ Ia)) (or_intror (Inl _ Ib)) Lt). lia.
      * specialize (Mo b a (or_intror (Inl _ Ib)) (or_intror (Inl _ Ia)) Gt). lia.
Qed.

(** ---- emitting in the order of first mention ---- *)
Fixpoint index_of (k : Z) (l : list Z) : option nat :=
  match l with [] => None | x :: r => if x =? k then Some O else option_map Datatypes.S (index_of k r) end.
Lemma index_of_some k l i : index_of k l = Some i -> nth_error l i = Some k.
Proof.
  revert i; induction l as [|x r IH]; intros i; cbn; [discriminate|]. destruct (Z.eqb_spec x k) as [->|N].
  - intros [= <-]. reflexivity.
  - destruct (index_of k r) as [j|] eqn:E; cbn; [|discriminate]. intros [= <-]. cbn. apply IH. reflexivity.
Qed.
Lemma index_of_none k l : index_of k l = None -> ~ In k l.
Proof.
  induction l as [|x r IH]; cbn; [auto|]. destruct (Z.eqb_spec x k) as [->|N]; [discriminate|].
  destruct (index_of k r) as [j|] eqn:E; cbn; [discriminate|]. intros _ [I|I]; [contradiction|]. exact (IH eq_refl I).
Qed.
Lemma index_of_app k l m : index_of k (l ++ m) = match index_of k l with Some i => Some i | None => option_map (fun i => (length l + i)%nat) (index_of k m) end.
Proof.
  induction l as [|x r IH]; cbn; [destruct (index_of k m); reflexivity|]. destruct (x =? k); [reflexivity|]. rewrite IH.
  destruct (index_of k r); cbn; [reflexivity|]. destruct (index_of k m); reflexivity.
Qed.
(** entities, their keys, and which mention is which *)
Fixpoint firsts (seen : list Z) (l : list (list Z * Z)) : list (list Z) * list Z * list Z :=
  match l with
  | [] => ([], [], [])
  | (f, k) :: r => match index_of k seen with
                   | Some i => let '(d, ks, refs) := firsts seen r in (d, ks, Z.of_nat i :: refs)
                   | None => let '(d, ks, refs) := firsts (seen ++ [k]) r in (f :: d, k :: ks, Z.of_nat (length seen) :: refs)
                   end
  end.
Definition place (seen : list Z) (u : Z) : Z := match index_of u seen with Some i => Z.of_nat i | None => -1 end.

Lemma emit_firsts U : forall l seen reorder, Forall (fun fu => 0 <= snd fu < U) l ->
  (forall u, 0 <= u < U -> znth reorder u = Some (place seen u)) -> length reorder = Z.to_nat U ->
  emit l reorder (Z.of_nat (length seen)) = let '(d, _, refs) := firsts seen l in Ok (d, refs).
Proof.
  induction l as [|[f u] r IH]; intros seen reorder B R Lr; cbn [emit firsts]; [reflexivity|].
  inversion B as [|? ? B1 B2]; subst. cbn [snd] in B1. rewrite (R u B1). cbn [deref obind].
  destruct (index_of u seen) as [i|] eqn:E.
  - assert (Ep : place seen u = Z.of_nat i) by (unfold place; rewrite E; reflexivity). rewrite Ep. rewrite (proj2 (Z.eqb_neq (Z.of_nat i) (-1))) by lia. rewrite (IH seen reorder B2 R Lr).
    destruct (firsts seen r) as [[d ks] refs]. reflexivity.
  - assert (Ep : place seen u = -1) by (unfold place; rewrite E; reflexivity). rewrite Ep. cbn [Z.eqb Pos.eqb].
    specialize (IH (seen ++ [u]) (set_nth reorder (Z.to_nat u) (Z.of_nat (length seen))) B2).
    rewrite app_length in IH. cbn [length] in IH. rewrite Nat2Z.inj_add in IH. change (Z.of_nat 1) with 1 in IH. rewrite IH.
    + destruct (firsts (seen ++ [u]) r) as [[d ks] refs]. reflexivity.
    + intros v Bv. unfold place. rewrite index_of_app. unfold znth. destruct (Z.ltb_spec v 0); [lia|].
      destruct (Z.eq_dec u v) as [<-|N].
      * rewrite E. cbn [index_of]. rewrite Z.eqb_refl. cbn [option_map]. rewrite Nat.add_0_r. apply nth_error_set_nth_same. lia.
      * rewrite nth_error_set_nth_other by lia. specialize (R v Bv). unfold znth in R. destruct (Z.ltb_spec v 0); [lia|]. rewrite R.
        unfold place. cbn [index_of]. destruct (Z.eqb_spec u v); [contradiction|]. cbn [option_map]. destruct (index_of v seen); reflexivity.
    + rewrite length_set_nth. exact Lr.
Qed.

Record first_law (seen : list Z) (l : list (list Z * Z)) (d : list (list Z)) (ks refs : list Z) : Prop := mkFL {
  fl_len : length ks = length d;
  fl_refs : length refs = length l;
  fl_nodup : NoDup (seen ++ ks);
  fl_ref : forall j f k, nth_error l j = Some (f, k) -> exists i, nth_error refs j = Some (Z.of_nat i) /\ nth_error (seen ++ ks) i = Some k;
  fl_first : forall i f k, nth_error d i = Some f -> nth_error ks i = Some k -> exists j, nth_error l j = Some (f, k) /\
     nth_error refs j = Some (Z.of_nat (length seen + i)) /\ forall j', (j' < j)%nat -> exists r, nth_error refs j' = Some r /\ r < Z.of_nat (length seen + i) }.

Lemma firsts_law : forall l seen, NoDup seen -> let '(d, ks, refs) := firsts seen l in first_law seen l d ks refs.
Proof.
  induction l as [|[f k] r IH]; intros seen N; cbn [firsts].
  - split; cbn; auto; try (rewrite app_nil_r; exact N). + intros [|j]; discriminate. + intros [|i]; discriminate.
  - destruct (index_of k seen) as [i|] eqn:E.
    + specialize (IH seen N). destruct (firsts seen r) as [[d ks] refs]. destruct IH as [L1 L2 Nd Rf Fi].
      apply index_of_some in E. assert (Hi : (i < length seen)%nat) by (apply nth_error_Some; congruence).
      split; cbn [length]; auto.
      * intros [|j] f' k' H; cbn in H; [|exact (Rf j f' k' H)]. injection H as <- <-. exists i. split; [reflexivity|]. rewrite nth_error_app1 by exact Hi. exact E.
      * intros i' f' k' H1 H2. destruct (Fi i' f' k' H1 H2) as [j [A [B C]]]. exists (Datatypes.S j). split; [exact A|]. split; [exact B|].
        intros [|j'] Lt; [exists (Z.of_nat i); split; [reflexivity|lia]|]. cbn. apply C. lia.
    + apply index_of_none in E. specialize (IH (seen ++ [k])).
      assert (N' : NoDup (seen ++ [k])) by (apply NoDup_app_snoc || (apply (Permutation_NoDup (Permutation_cons_append seen k)); constructor; assumption)).
      specialize (IH N'). destruct (firsts (seen ++ [k]) r) as [[d ks] refs]. destruct IH as [L1 L2 Nd Rf Fi].
      rewrite <- app_assoc in *. cbn [app] in *. rewrite app_length in Fi. cbn [length] in Fi.
      split; cbn [length]; auto.
      * intros [|j] f' k' H; cbn in H.
        -- injection H as <- <-. exists (length seen). split; [reflexivity|]. rewrite nth_error_app2 by lia. rewrite Nat.sub_diag. reflexivity.
        -- destruct (Rf j f' k' H) as [i [A B]]. exists i. split; [exact A|exact B].
      * intros [|i] f' k' H1 H2; cbn in H1, H2.
        -- injection H1 as <-. injection H2 as <-. exists 0%nat. split; [reflexivity|]. rewrite Nat.add_0_r. split; [reflexivity|]. intros j' Lt. lia.
        -- destruct (Fi i f' k' H1 H2) as [j [A [B C]]]. exists (Datatypes.S j). replace (length seen + 1 + i)%nat with (length seen + Datatypes.S i)%nat in * by lia.
           split; [exact A|]. split; [exact B|]. intros [|j'] Lt; [exists (Z.of_nat (length seen)); split; [reflexivity|lia]|]. cbn. apply C. lia.
Qed.

(** ---- entities are numbered as they come ---- *)
Lemma numbered_firsts fs (us : list Z) : length us = length fs ->
  (forall j j' f g u v, nth_error fs j = Some f -> nth_error fs j' = Some g -> nth_error us j = Some u -> nth_error us j' = Some v -> (u = v <-> Permutation f g)) ->
  let '(d, ks, refs) := firsts [] (combine fs us) in numbered fs d refs.
Proof.
  intros Lu Eq. pose proof (firsts_law (combine fs us) [] (NoDup_nil _)) as H. destruct (firsts [] (combine fs us)) as [[d ks] refs].
  destruct H as [L1 L2 Nd Rf Fi]. cbn [app length Nat.add] in *.
  assert (Cb : forall j f, nth_error fs j = Some f -> exists u, nth_error us j = Some u /\ nth_error (combine fs us) j = Some (f, u)).
  { clear - Lu. revert us Lu. induction fs as [|x r IH]; intros [|u us] Lu [|j] f H; try discriminate; cbn in *.
    - injection H as <-. exists u. auto.
    - apply IH; [lia|exact H]. }
  assert (Cb' : forall j f u, nth_error (combine fs us) j = Some (f, u) -> nth_error fs j = Some f /\ nth_error us j = Some u).
  { clear - Lu. revert us Lu. induction fs as [|x r IH]; intros [|u us] Lu [|j] f v H; try discriminate; cbn in *.
    - injection H as <- <-. auto.
    - apply IH; [lia|exact H]. }
  assert (Dk : forall i f, nth_error d i = Some f -> exists k, nth_error ks i = Some k).
  { intros i f H. destruct (nth_error ks i) as [k|] eqn:E; [exists k; reflexivity|]. apply nth_error_None in E. assert (i < length d)%nat by (apply nth_error_Some; congruence). lia. }
  split.
  - rewrite L2, combine_length. lia.
  - intros j f H. destruct (Cb j f H) as [u [Hu Hc]]. destruct (Rf j f u Hc) as [i [A B]].
    assert (i < length d)%nat by (rewrite <- L1; apply nth_error_Some; congruence).
    destruct (nth_error d i) as [g|] eqn:Eg; [|apply nth_error_None in Eg; lia].
    exists i, g. split; [exact A|]. split; [exact Eg|]. destruct (Fi i g u Eg B) as [j' [C [_ _]]]. apply Cb' in C. destruct C as [C1 C2].
    apply (Eq j j' f g u u H C1 Hu C2). reflexivity.
  - intros i i' f g H H' P. destruct (Dk _ _ H) as [k Hk]. destruct (Dk _ _ H') as [k' Hk'].
    destruct (Fi i f k H Hk) as [j [C _]]. destruct (Fi i' g k' H' Hk') as [j' [C' _]]. apply Cb' in C, C'. destruct C as [C1 C2], C' as [C1' C2'].
    apply (Eq j j' f g k k' C1 C1' C2 C2') in P. subst k'.
    apply (proj1 (NoDup_nth_error ks) Nd); [apply nth_error_Some; congruence|congruence].
  - intros i f H. destruct (Dk _ _ H) as [k Hk]. destruct (Fi i f k H Hk) as [j [C [A B]]]. apply Cb' in C. exists j. split; [apply C|]. split; [exact A|exact B].
Qed.

Lemma fresh_place U u : 0 <= u < U -> znth (fresh_order U) u = Some (place [] u).
Proof. intro B. unfold fresh_order. rewrite znth_map. unfold znth. destruct (Z.ltb_spec u 0); [lia|]. rewrite zseq_nth by lia. reflexivity. Qed.

Lemma keyed_law fs (key : list Z -> Z) : (forall f g, In f fs -> In g fs -> (key f = key g <-> Permutation f g)) ->
  exists pu U us d refs, place_to_unique srt (combine (map key fs) (zseq (zlen fs))) = (pu, U) /\ pu = combine (zseq (zlen fs)) us /\ length us = length fs /\
   emit (combine fs us) (fresh_order U) 0 = Ok (d, refs) /\ numbered fs d refs.
Proof.
  intro Hk. destruct (unique_law (map key fs)) as [h [U [E [Rg Inj]]]].
  assert (El : zlen (map key fs) = zlen fs) by (unfold zlen; rewrite map_length; reflexivity). rewrite El in E.
  exists (combine (zseq (zlen fs)) (map h (map key fs))), U, (map h (map key fs)).
  assert (Eu : length (map h (map key fs)) = length fs) by (rewrite !map_length; reflexivity).
  pose proof (emit_firsts U (combine fs (map h (map key fs))) [] (fresh_order U)) as Em. cbn [length] in Em. change (Z.of_nat 0) with 0 in Em.
  pose proof (numbered_firsts fs (map h (map key fs)) Eu) as Nu.
  destruct (firsts [] (combine fs (map h (map key fs)))) as [[d ks] refs] eqn:Ef. exists d, refs.
  split; [exact E|]. split; [reflexivity|]. split; [exact Eu|]. split.
  - apply Em.
    + apply Forall_forall. intros [f u] I. cbn. apply in_combine_r in I. apply in_map_iff in I. destruct I as [a [<- I]]. apply Rg. exact I.
    + apply fresh_place.
    + unfold fresh_order. rewrite map_length, length_zseq. reflexivity.
  - apply Nu. intros j j' f g u v Hf Hg Hu Hv.
    rewrite !nth_error_map, ?Hf in Hu. rewrite !nth_error_map, ?Hg in Hv. cbn in Hu, Hv. injection Hu as <-. injection Hv as <-.
    apply nth_error_In in Hf, Hg. split.
    + intro Eh. apply Hk; [exact Hf|exact Hg|]. apply Inj; [apply in_map; exact Hf|apply in_map; exact Hg|exact Eh].
    + intro P. f_equal. apply Hk; assumption.
Qed.

Lemma label_iff fs : told_apart fs -> forall f g, In f fs -> In g fs -> (label srt f = label srt g <-> Permutation f g).
Proof.
  intros T f g If Ig. unfold label. split.
  - intro E. exact (T f g _ _ If Ig (Permutation_sym (zsort_perm f)) (Permutation_sym (zsort_perm g)) (zsort_sorted f) (zsort_sorted g) E).
  - intro P. f_equal. apply sorted_unique_z; [|apply zsort_sorted|apply zsort_sorted].
    eapply Permutation_trans; [apply zsort_perm|]. eapply Permutation_trans; [exact P|]. symmetry. apply zsort_perm.
Qed.
Theorem embedded_law fs : told_apart fs -> exists d refs, embedded srt fs = Ok (d, refs) /\ numbered fs d refs.
Proof.
  intro T. destruct (keyed_law fs (label srt) (label_iff fs T)) as [pu [U [us [d [refs [E [Ep [Lu [Em Nu]]]]]]]]].
  exists d, refs. split; [|exact Nu]. unfold embedded. rewrite E, Ep. rewrite map_snd_combine by (rewrite zlen_seq; lia). exact Em.
Qed.
End S.
