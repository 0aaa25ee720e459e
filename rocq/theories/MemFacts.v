(** Facts about byte memory. *)
From Verif Require Import Base Mem.
Local Open Scope Z_scope.

Lemma padd_padd p a b : padd (padd p a) b = padd p (a + b).
Proof. unfold padd; simpl. f_equal. lia. Qed.
Lemma padd_0 p : padd p 0 = p.
Proof. destruct p; unfold padd; simpl. f_equal. lia. Qed.
Lemma padd_inj p a b : padd p a = padd p b -> a = b.
Proof. unfold padd. intros H. injection H. lia. Qed.

Lemma nth_error_sub_range l lo n i : (i < n)%nat -> nth_error (sub_range l lo n) i = nth_error l (lo + i).
Proof.
  intros H. unfold sub_range. revert n i H. induction lo as [|lo IH]; intros n i H.
  - simpl. revert l i H. induction n as [|n IHn]; intros l i H; [lia|].
    destruct l as [|x l]; [destruct i; reflexivity|]. destruct i as [|i]; [reflexivity|]. simpl. apply IHn. lia.
  - revert l n i H IH. intros l. destruct l as [|x l]; intros n i H IH.
    + simpl. destruct n; destruct i; reflexivity.
    + simpl. clear IH. revert l n i H. induction lo as [|lo IHlo]; intros l n i H.
      * simpl. revert l i H. induction n as [|n IHn]; intros l i H; [lia|].
        destruct l as [|y l]; [destruct i; reflexivity|]. destruct i as [|i]; [reflexivity|]. simpl. apply IHn. lia.
      * destruct l as [|y l]; simpl; [destruct n; destruct i; reflexivity|]. apply IHlo. exact H.
Qed.
Lemma length_sub_range l lo n : (lo + n <= length l)%nat -> length (sub_range l lo n) = n.
Proof. intros H. unfold sub_range. rewrite firstn_length, skipn_length. lia. Qed.

Lemma length_put_range l lo bs : (lo + length bs <= length l)%nat -> length (put_range l lo bs) = length l.
Proof.
  intros H. unfold put_range. rewrite !app_length, firstn_length, skipn_length. lia.
Qed.
Lemma nth_error_put_range l lo bs i : (lo + length bs <= length l)%nat ->
  nth_error (put_range l lo bs) i =
  if (lo <=? i)%nat && (i <? lo + length bs)%nat then nth_error bs (i - lo) else nth_error l i.
Proof.
  intros H. unfold put_range.
  assert (Lf : length (firstn lo l) = lo) by (rewrite firstn_length; lia).
  destruct (Nat.leb_spec lo i) as [H1|H1]; simpl.
  - rewrite nth_error_app2 by lia. rewrite Lf.
    destruct (Nat.ltb_spec i (lo + length bs)) as [H2|H2].
    + rewrite nth_error_app1 by lia. reflexivity.
    + rewrite nth_error_app2 by lia.
      assert (X : forall (l : list byte) k j, nth_error (skipn k l) j = nth_error l (k + j)).
      { clear. intros l k. revert l. induction k as [|k IH]; intros l j; [reflexivity|].
        destruct l; [destruct j; reflexivity|]. simpl. apply IH. }
      rewrite X. f_equal. lia.
  - rewrite nth_error_app1 by lia.
    clear Lf H. revert l i H1. induction lo as [|lo IH]; intros l i H1; [lia|].
    destruct l; [destruct i; reflexivity|]. destruct i; [reflexivity|]. simpl. apply IH. lia.
Qed.

(** Which blocks are live. *)
Definition live (m : mem) (b : nat) : Prop := exists l, nth_error m b = Some (Some l).
Lemma rd_live m p c : rd m p = Some c -> live m (fst p).
Proof. unfold rd, live. destruct (nth_error m (fst p)) as [[l|]|]; try discriminate. eauto. Qed.
Lemma live_lt m b : live m b -> (b < length m)%nat.
Proof. intros [l E]. apply nth_error_Some. congruence. Qed.

Lemma rd_some m p : rd m p <> None <->
  exists l, nth_error m (fst p) = Some (Some l) /\ 0 <= snd p < Z.of_nat (length l).
Proof.
  unfold rd. destruct (nth_error m (fst p)) as [[l|]|]; [|split; [congruence|intros (l & E & _); congruence]..].
  destruct (Z.ltb_spec (snd p) 0).
  - split; [congruence|]. intros (l' & E & H'). lia.
  - rewrite nth_error_Some. split; intros X.
    + exists l. split; [reflexivity|lia].
    + destruct X as (l' & E & H'). injection E as <-. lia.
Qed.

(** [readable m p n]: n bytes from p are valid addresses. *)
Definition readable (m : mem) (p : ptr) (n : Z) : Prop :=
  forall j, 0 <= j < n -> rd m (padd p j) <> None.

Lemma readable_block m p n : 0 < n -> readable m p n ->
  exists l, nth_error m (fst p) = Some (Some l) /\ 0 <= snd p /\ snd p + n <= Z.of_nat (length l).
Proof.
  intros Hn H.
  pose proof (proj1 (rd_some _ _) (H 0 ltac:(lia))) as (l & E & R).
  pose proof (proj1 (rd_some _ _) (H (n - 1) ltac:(lia))) as (l' & E' & R').
  unfold padd in *; simpl in *. rewrite E in E'. injection E' as <-.
  exists l. split; [exact E|]. lia.
Qed.

Lemma load_ok m p n : 0 <= n -> readable m p n ->
  exists bs, load m p n = Ok bs /\ length bs = Z.to_nat n /\
             forall j, 0 <= j < n -> nth_error bs (Z.to_nat j) = rd m (padd p j).
Proof.
  intros Hn H. unfold load. destruct (Z.eqb_spec n 0) as [->|N].
  - exists []. split; [reflexivity|]. split; [reflexivity|]. intros j Hj; lia.
  - destruct (readable_block m p n ltac:(lia) H) as (l & E & R1 & R2).
    rewrite E. replace ((0 <=? snd p) && (0 <=? n) && (snd p + n <=? Z.of_nat (length l))) with true by lia.
    eexists. split; [reflexivity|]. split; [apply length_sub_range; lia|].
    intros j Hj. rewrite nth_error_sub_range by lia.
    unfold rd, padd; simpl. rewrite E. replace (snd p + j <? 0) with false by lia.
    f_equal. lia.
Qed.
Lemma load_inv m p n bs : load m p n = Ok bs ->
  0 <= n /\ length bs = Z.to_nat n /\ readable m p n /\
  forall j, 0 <= j < n -> nth_error bs (Z.to_nat j) = rd m (padd p j).
Proof.
  unfold load. destruct (Z.eqb_spec n 0) as [->|N].
  - intros E. injection E as <-. split; [lia|]. split; [reflexivity|].
    split; [intros j Hj; lia|intros j Hj; lia].
  - destruct (nth_error m (fst p)) as [[l|]|] eqn:E; try discriminate.
    destruct ((0 <=? snd p) && (0 <=? n) && (snd p + n <=? Z.of_nat (length l))) eqn:C; [|discriminate].
    intros X. injection X as <-. split; [lia|]. split; [apply length_sub_range; lia|].
    assert (R : readable m p n).
    { intros j Hj. apply rd_some. exists l. unfold padd; simpl. split; [exact E|lia]. }
    split; [exact R|]. intros j Hj. rewrite nth_error_sub_range by lia.
    unfold rd, padd; simpl. rewrite E. replace (snd p + j <? 0) with false by lia. f_equal. lia.
Qed.
Lemma list_ext {A} (a b : list A) : length a = length b ->
  (forall i, (i < length a)%nat -> nth_error a i = nth_error b i) -> a = b.
Proof.
  revert b; induction a as [|x a IH]; intros [|y b] Hl H; try discriminate; [reflexivity|].
  f_equal.
  - specialize (H 0%nat ltac:(simpl; lia)). simpl in H. congruence.
  - apply IH; [simpl in Hl; lia|]. intros i Hi. apply (H (S i)). simpl; lia.
Qed.
Lemma load_move m m' p q n bs :
  load m p n = Ok bs -> (forall j, 0 <= j < n -> rd m' (padd q j) = rd m (padd p j)) ->
  load m' q n = Ok bs.
Proof.
  intros E F. destruct (load_inv m p n bs E) as (Hn & Hl & R & V).
  assert (R' : readable m' q n) by (intros j Hj; rewrite F by lia; apply R; lia).
  destruct (load_ok m' q n Hn R') as (bs' & E' & Hl' & V'). rewrite E'. f_equal.
  apply list_ext; [congruence|]. intros i Hi.
  replace i with (Z.to_nat (Z.of_nat i)) by lia. rewrite V', V, F by lia. reflexivity.
Qed.
Lemma load_frame m m' p n bs :
  load m p n = Ok bs -> (forall j, 0 <= j < n -> rd m' (padd p j) = rd m (padd p j)) ->
  load m' p n = Ok bs.
Proof. apply load_move. Qed.

Lemma store_ok m p bs : readable m p (Z.of_nat (length bs)) -> exists m', store m p bs = Ok m'.
Proof.
  intros H. unfold store. destruct bs as [|c bs]; [eauto|].
  assert (Hl : 0 < Z.of_nat (length (c :: bs))) by (simpl length; lia).
  destruct (readable_block m p _ Hl H) as (l & E & R1 & R2).
  rewrite E. replace ((0 <=? snd p) && (snd p + Z.of_nat (length (c :: bs)) <=? Z.of_nat (length l))) with true by lia.
  eauto.
Qed.
Lemma rd_store m p bs m' q : store m p bs = Ok m' ->
  rd m' q = if Nat.eqb (fst q) (fst p) && (snd p <=? snd q) && (snd q <? snd p + Z.of_nat (length bs))
            then nth_error bs (Z.to_nat (snd q - snd p)) else rd m q.
Proof.
  unfold store. destruct bs as [|c bs'].
  - intros E. injection E as <-. simpl.
    replace ((fst q =? fst p)%nat && (snd p <=? snd q) && (snd q <? snd p + 0)) with false by lia. reflexivity.
  - set (bs := c :: bs') in *. clearbody bs.
    destruct (nth_error m (fst p)) as [[l|]|] eqn:E; try discriminate.
    destruct ((0 <=? snd p) && (snd p + Z.of_nat (length bs) <=? Z.of_nat (length l))) eqn:C; [|discriminate].
    intros X. injection X as <-. unfold rd.
    destruct (Nat.eqb_spec (fst q) (fst p)) as [Eb|Nb]; simpl.
    + rewrite Eb. rewrite nth_error_set_nth_same by (apply nth_error_Some; congruence).
      rewrite E. destruct (Z.ltb_spec (snd q) 0).
      * replace ((snd p <=? snd q) && (snd q <? snd p + Z.of_nat (length bs))) with false by lia. reflexivity.
      * rewrite nth_error_put_range by lia.
        replace ((Z.to_nat (snd p) <=? Z.to_nat (snd q))%nat && (Z.to_nat (snd q) <? Z.to_nat (snd p) + length bs)%nat)
          with ((snd p <=? snd q) && (snd q <? snd p + Z.of_nat (length bs))) by lia.
        destruct ((snd p <=? snd q) && (snd q <? snd p + Z.of_nat (length bs))); [f_equal; lia|reflexivity].
    + rewrite nth_error_set_nth_other by congruence. reflexivity.
Qed.
Lemma store_shape m p bs m' : store m p bs = Ok m' ->
  length m' = length m /\ (forall b, nth_error m' b = Some None <-> nth_error m b = Some None) /\
  (forall b l, nth_error m b = Some (Some l) -> exists l', nth_error m' b = Some (Some l') /\ length l' = length l).
Proof.
  unfold store. destruct bs as [|c bs'].
  - intros E. injection E as <-. split; [reflexivity|]. split; [tauto|]. eauto.
  - set (bs := c :: bs') in *. clearbody bs.
    destruct (nth_error m (fst p)) as [[l|]|] eqn:E; try discriminate.
    destruct ((0 <=? snd p) && (snd p + Z.of_nat (length bs) <=? Z.of_nat (length l))) eqn:C; [|discriminate].
    intros X. injection X as <-. split; [apply length_set_nth|].
    assert (Hlt : (fst p < length m)%nat) by (apply nth_error_Some; congruence).
    split.
    + intros b. destruct (Nat.eq_dec b (fst p)) as [->|N].
      * rewrite nth_error_set_nth_same by exact Hlt. rewrite E. split; discriminate.
      * rewrite nth_error_set_nth_other by congruence. tauto.
    + intros b l0 H. destruct (Nat.eq_dec b (fst p)) as [->|N].
      * rewrite nth_error_set_nth_same by exact Hlt. eexists. split; [reflexivity|].
        rewrite E in H. injection H as <-. apply length_put_range. lia.
      * rewrite nth_error_set_nth_other by congruence. eauto.
Qed.

(** [same_shape m m']: same blocks, same sizes, same freed ones. *)
Definition same_shape (m m' : mem) : Prop :=
  length m' = length m /\
  forall b, match nth_error m b, nth_error m' b with
            | Some (Some l), Some (Some l') => length l = length l'
            | Some None, Some None => True
            | None, None => True
            | _, _ => False
            end.
Lemma same_shape_refl m : same_shape m m.
Proof. split; [reflexivity|]. intros b. destruct (nth_error m b) as [[l|]|]; auto. Qed.
Lemma same_shape_trans a b c : same_shape a b -> same_shape b c -> same_shape a c.
Proof.
  intros [L1 H1] [L2 H2]. split; [congruence|]. intros k. specialize (H1 k). specialize (H2 k).
  destruct (nth_error a k) as [[?|]|], (nth_error b k) as [[?|]|], (nth_error c k) as [[?|]|]; try tauto; congruence.
Qed.
Lemma store_same_shape m p bs m' : store m p bs = Ok m' -> same_shape m m'.
Proof.
  intros E. destruct (store_shape m p bs m' E) as (L1 & L2 & L3). split; [exact L1|].
  intros b. destruct (nth_error m b) as [[l|]|] eqn:Q.
  - destruct (L3 b l Q) as (l' & -> & Hl). congruence.
  - rewrite (proj2 (L2 b) Q). exact I.
  - assert (X : nth_error m' b = None) by (apply nth_error_None; rewrite L1; apply nth_error_None; exact Q).
    rewrite X. exact I.
Qed.
Lemma same_shape_rd m m' q : same_shape m m' -> rd m q <> None <-> rd m' q <> None.
Proof.
  intros [_ H]. specialize (H (fst q)). rewrite !rd_some.
  split; intros (l & E & R); rewrite E in H.
  - destruct (nth_error m' (fst q)) as [[l'|]|]; try tauto. exists l'. split; [reflexivity|lia].
  - destruct (nth_error m (fst q)) as [[l'|]|]; try tauto. exists l'. split; [reflexivity|lia].
Qed.
Lemma same_shape_live m m' b : same_shape m m' -> live m b <-> live m' b.
Proof.
  intros [_ H]. specialize (H b). unfold live.
  split; intros (l & E); rewrite E in H.
  - destruct (nth_error m' b) as [[l'|]|]; try tauto. eauto.
  - destruct (nth_error m b) as [[l'|]|]; try tauto. eauto.
Qed.
Lemma mem_ext m m' : same_shape m m' -> (forall q, rd m q = rd m' q) -> m = m'.
Proof.
  intros [L1 H] R. apply list_ext; [congruence|]. intros b Hb.
  specialize (H b). destruct (nth_error m b) as [[l|]|] eqn:E1, (nth_error m' b) as [[l'|]|] eqn:E2; try tauto.
  do 2 f_equal. apply list_ext; [exact H|]. intros i Hi.
  specialize (R (b, Z.of_nat i)). unfold rd in R; simpl in R. rewrite E1, E2 in R.
  replace (Z.of_nat i <? 0) with false in R by lia. rewrite Nat2Z.id in R. exact R.
Qed.

(** ---- memcpy ---- *)
(** [q] is one of the [n] bytes from [p]. *)
Definition in_range_of (p : ptr) (n : Z) (q : ptr) : Prop := exists j, 0 <= j < n /\ q = padd p j.

Lemma in_range_of_b p n q :
  in_range_of p n q <-> fst q = fst p /\ snd p <= snd q < snd p + n.
Proof.
  unfold in_range_of, padd. split.
  - intros (j & Hj & ->). simpl. lia.
  - intros (E & H). exists (snd q - snd p). split; [lia|]. destruct q as [qb qo]; simpl in *. f_equal; [exact E|lia].
Qed.
Lemma overlapb_false p q n :
  (forall a, in_range_of p n a -> ~ in_range_of q n a) -> overlapb p q n = false.
Proof.
  intros H. unfold overlapb.
  destruct (Nat.eqb (fst p) (fst q) && (snd p <? snd q + n) && (snd q <? snd p + n) && (0 <? n)) eqn:C; [exfalso|reflexivity].
  assert (E : fst p = fst q) by lia.
  apply (H (fst p, Z.max (snd p) (snd q))); apply in_range_of_b; simpl; split; try congruence; lia.
Qed.

Lemma memcpy_ok m d s n :
  0 <= n -> readable m s n -> readable m d n ->
  (forall a, in_range_of d n a -> ~ in_range_of s n a) ->
  exists m', memcpy m (Some d) (Some s) n = Ok m' /\ same_shape m m' /\
    (forall j, 0 <= j < n -> rd m' (padd d j) = rd m (padd s j)) /\
    (forall q, ~ in_range_of d n q -> rd m' q = rd m q).
Proof.
  intros Hn Rs Rd Dj. unfold memcpy. cbn [ooverlapb oload ostore]. rewrite overlapb_false by exact Dj.
  destruct (load_ok m s n Hn Rs) as (bs & E & Hl & V). rewrite E. cbn [obind].
  assert (Hbs : Z.of_nat (length bs) = n) by lia.
  destruct (store_ok m d bs) as (m' & E'); [rewrite Hbs; exact Rd|]. exists m'.
  split; [exact E'|]. split; [eapply store_same_shape; eauto|]. split.
  - intros j Hj. rewrite (rd_store m d bs m' _ E'). unfold padd at 1 2 3; simpl.
    replace ((fst d =? fst d)%nat && (snd d <=? snd d + j) && (snd d + j <? snd d + Z.of_nat (length bs))) with true
      by (rewrite Nat.eqb_refl; lia).
    replace (snd d + j - snd d) with j by lia. apply V; lia.
  - intros q Hq. rewrite (rd_store m d bs m' q E'). rewrite Hbs.
    rewrite in_range_of_b in Hq.
    destruct ((fst q =? fst d)%nat && (snd d <=? snd q) && (snd q <? snd d + n)) eqn:C; [|reflexivity].
    exfalso. apply Hq. lia.
Qed.

(** ---- strided copies ---- *)
(** [q] is a byte of element [i] (0 <= i < n) of the strided array at [p]. *)
Definition in_elems (p : ptr) (n eb st : Z) (q : ptr) : Prop :=
  exists i, 0 <= i < n /\ in_range_of (padd p (st * i)) eb q.

Definition strided_readable (m : mem) (p : ptr) (n eb st : Z) : Prop :=
  forall i, 0 <= i < n -> readable m (padd p (st * i)) eb.

(** Elements of the array do not overlap each other. *)
Definition elems_apart (n eb st : Z) : Prop := n <= 1 \/ eb <= Z.abs st.

Lemma elems_apart_disjoint p n eb st i j q :
  elems_apart n eb st -> 0 <= i < n -> 0 <= j < n ->
  in_range_of (padd p (st * i)) eb q -> in_range_of (padd p (st * j)) eb q -> i = j.
Proof.
  intros A Hi Hj H1 H2. rewrite in_range_of_b in H1, H2. unfold padd in *; simpl in *.
  destruct A as [A|A]; [lia|]. nia.
Qed.

Definition copied (m m' : mem) (d : ptr) (n eb ds : Z) (s : ptr) (ss : Z) : Prop :=
  same_shape m m' /\
  (forall i j, 0 <= i < n -> 0 <= j < eb ->
     rd m' (padd d (ds * i + j)) = rd m (padd s (ss * i + j))) /\
  (forall q, ~ in_elems d n eb ds q -> rd m' q = rd m q).

Lemma copy_loop_ok n : forall m d eb ds s ss,
  0 <= eb -> strided_readable m s (Z.of_nat n) eb ss -> strided_readable m d (Z.of_nat n) eb ds ->
  elems_apart (Z.of_nat n) eb ds ->
  (forall q, in_elems d (Z.of_nat n) eb ds q -> ~ in_elems s (Z.of_nat n) eb ss q) ->
  exists m', copy_loop n m (Some d) eb ds (Some s) ss = Ok m' /\ copied m m' d (Z.of_nat n) eb ds s ss.
Proof.
  induction n as [|n IH]; intros m d eb ds s ss Heb Rs Rd Ap Dj.
  - exists m. split; [reflexivity|]. split; [apply same_shape_refl|].
    split; [intros; lia|reflexivity].
  - cbn [copy_loop].
    assert (Rs0 : readable m s eb) by (specialize (Rs 0 ltac:(lia)); rewrite Z.mul_0_r, padd_0 in Rs; exact Rs).
    assert (Rd0 : readable m d eb) by (specialize (Rd 0 ltac:(lia)); rewrite Z.mul_0_r, padd_0 in Rd; exact Rd).
    destruct (memcpy_ok m d s eb Heb Rs0 Rd0) as (m1 & E1 & Sh1 & V1 & F1).
    { intros a H1 H2. apply (Dj a); exists 0; split; try lia; rewrite Z.mul_0_r, padd_0; assumption. }
    rewrite E1. cbn [obind opadd option_map].
    assert (Shift : forall p st i, padd (padd p st) (st * i) = padd p (st * (i + 1)))
      by (intros; rewrite padd_padd; f_equal; lia).
    destruct (IH m1 (padd d ds) eb ds (padd s ss) ss Heb) as (m2 & E2 & Sh2 & V2 & F2).
    + intros i Hi j Hj. apply (same_shape_rd m m1 _ Sh1). rewrite Shift. apply (Rs (i + 1)); lia.
    + intros i Hi j Hj. apply (same_shape_rd m m1 _ Sh1). rewrite Shift. apply (Rd (i + 1)); lia.
    + destruct Ap; [left; lia|right; assumption].
    + intros q (i & Hi & Qi) (j & Hj & Qj). rewrite Shift in Qi, Qj.
      apply (Dj q); [exists (i + 1)|exists (j + 1)]; split; auto; lia.
    + exists m2. split; [exact E2|]. split; [eapply same_shape_trans; eauto|]. split.
      * intros i j Hi Hj. destruct (Z.eq_dec i 0) as [->|N].
        -- rewrite F2.
           ++ rewrite !Z.mul_0_r. simpl. apply V1; exact Hj.
           ++ intros (k & Hk & Q). rewrite Shift in Q.
              assert (0 = k + 1); [|lia].
              apply (elems_apart_disjoint d (Z.of_nat (S n)) eb ds 0 (k + 1) (padd d (ds * 0 + j))); auto; try lia.
              exists j. split; [lia|]. rewrite padd_padd. reflexivity.
        -- assert (X : rd m2 (padd (padd d ds) (ds * (i - 1) + j)) = rd m1 (padd (padd s ss) (ss * (i - 1) + j)))
             by (apply V2; lia).
           rewrite !padd_padd in X.
           replace (ds + (ds * (i - 1) + j)) with (ds * i + j) in X by lia.
           replace (ss + (ss * (i - 1) + j)) with (ss * i + j) in X by lia.
           rewrite X. apply F1. intros Q.
           apply (Dj (padd s (ss * i + j))).
           ++ exists 0. split; [lia|]. rewrite Z.mul_0_r, padd_0. exact Q.
           ++ exists i. split; [lia|]. exists j. split; [lia|]. rewrite padd_padd. reflexivity.
      * intros q Hq. rewrite F2, F1; auto.
        -- intros Q. apply Hq. exists 0. split; [lia|]. rewrite Z.mul_0_r, padd_0. exact Q.
        -- intros (i & Hi & Q). rewrite Shift in Q. apply Hq. exists (i + 1). split; [lia|exact Q].
Qed.

Lemma in_elems_dense p n eb q : 0 <= n -> 0 <= eb ->
  in_elems p n eb eb q <-> in_range_of p (eb * n) q.
Proof.
  intros Hn He. split.
  - intros (i & Hi & Q). rewrite in_range_of_b in *. unfold padd in Q; simpl in Q. nia.
  - intros (j & Hj & ->). assert (eb <> 0) by nia.
    exists (j / eb). pose proof (Z.div_mod j eb ltac:(lia)). pose proof (Z.mod_pos_bound j eb ltac:(lia)).
    split; [nia|]. exists (j mod eb). split; [lia|]. rewrite padd_padd. f_equal. lia.
Qed.

Lemma memcpy_strided_ok m d n eb ds s ss :
  0 <= n -> 0 <= eb -> strided_readable m s n eb ss -> strided_readable m d n eb ds ->
  elems_apart n eb ds ->
  (forall q, in_elems d n eb ds q -> ~ in_elems s n eb ss q) ->
  exists m', memcpy_strided m (Some d) n eb ds (Some s) ss = Ok m' /\ copied m m' d n eb ds s ss.
Proof.
  intros Hn Heb Rs Rd Ap Dj. unfold memcpy_strided. replace (n <? 0) with false by lia.
  destruct ((ds =? eb) && (ss =? eb)) eqn:C.
  - assert (ds = eb) by lia. assert (ss = eb) by lia. subst ds ss.
    destruct (memcpy_ok m d s (eb * n)) as (m' & E & Sh & V & F).
    + nia.
    + intros j Hj. assert (Q : in_elems s n eb eb (padd s j)) by (apply in_elems_dense; auto; exists j; auto).
      destruct Q as (i & Hi & k & Hk & ->). apply Rs; auto.
    + intros j Hj. assert (Q : in_elems d n eb eb (padd d j)) by (apply in_elems_dense; auto; exists j; auto).
      destruct Q as (i & Hi & k & Hk & ->). apply Rd; auto.
    + intros a H1 H2. apply (Dj a); apply in_elems_dense; auto.
    + exists m'. split; [exact E|]. split; [exact Sh|]. split.
      * intros i j Hi Hj. apply V. nia.
      * intros q Hq. apply F. intros X. apply Hq. apply in_elems_dense; auto.
  - destruct (copy_loop_ok (Z.to_nat n) m d eb ds s ss Heb) as (m' & E & K);
      rewrite ?Z2Nat.id by lia; auto.
    rewrite Z2Nat.id in K by lia. eauto.
Qed.

(** Zero-size copies never touch memory, even through null pointers. *)
Lemma memcpy_zero m d s : memcpy m d s 0 = Ok m.
Proof.
  unfold memcpy. replace (ooverlapb d s 0) with false.
  - destruct s as [s|]; cbn [oload obind].
    + unfold load. simpl. destruct d; reflexivity.
    + simpl. destruct d; reflexivity.
  - destruct d, s; try reflexivity. simpl. unfold overlapb. lia.
Qed.
Lemma memcpy_strided_zero m d eb ds s ss : memcpy_strided m d 0 eb ds s ss = Ok m.
Proof.
  unfold memcpy_strided. simpl. destruct ((ds =? eb) && (ss =? eb)); [|reflexivity].
  rewrite Z.mul_0_r. apply memcpy_zero.
Qed.

(** ---- allocation ---- *)
Lemma alloc_ok m n : 0 <= n ->
  alloc m n = Ok (m ++ [Some (repeat zero_byte (Z.to_nat n))], (length m, 0)).
Proof. intros H. unfold alloc. replace (n <? 0) with false by lia. reflexivity. Qed.
Lemma rd_alloc m n m' p q : alloc m n = Ok (m', p) ->
  rd m' q = if Nat.eqb (fst q) (length m)
            then (if (0 <=? snd q) && (snd q <? n) then Some zero_byte else None)
            else rd m q.
Proof.
  unfold alloc. destruct (Z.ltb_spec n 0); [discriminate|]. intros E. injection E as <- <-.
  unfold rd. destruct (Nat.eqb_spec (fst q) (length m)) as [E|N].
  - rewrite E, nth_error_app2 by lia. rewrite Nat.sub_diag. simpl.
    destruct (Z.ltb_spec (snd q) 0).
    + replace ((0 <=? snd q) && (snd q <? n)) with false by lia. reflexivity.
    + destruct (Z.ltb_spec (snd q) n).
      * replace ((0 <=? snd q) && true) with true by lia.
        rewrite nth_error_repeat by lia. reflexivity.
      * rewrite andb_false_r. apply nth_error_None. rewrite repeat_length. lia.
  - destruct (Nat.lt_ge_cases (fst q) (length m)).
    + rewrite nth_error_app1 by lia. reflexivity.
    + assert (X : nth_error m (fst q) = None) by (apply nth_error_None; lia).
      rewrite X. rewrite (proj2 (nth_error_None _ _)); [reflexivity|]. rewrite app_length. simpl. lia.
Qed.
Lemma rd_free m p m' q : free m p = Ok m' ->
  rd m' q = if Nat.eqb (fst q) (fst p) then None else rd m q.
Proof.
  unfold free. destruct (nth_error m (fst p)) as [[l|]|] eqn:E; try discriminate.
  destruct (snd p =? 0); [|discriminate]. intros X. injection X as <-. unfold rd.
  assert (Hlt : (fst p < length m)%nat) by (apply nth_error_Some; congruence).
  destruct (Nat.eqb_spec (fst q) (fst p)) as [Eq|N].
  - rewrite Eq, nth_error_set_nth_same by exact Hlt. reflexivity.
  - rewrite nth_error_set_nth_other by congruence. reflexivity.
Qed.
