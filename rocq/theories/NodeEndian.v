(** endian_swap. *)
From Verif Require Import Base DType SpecTree Mem MemFacts Node SpecNode NodeFacts NodeCompact NodeSet.
Local Open Scope Z_scope.

(** ---- structural form of [separate] ---- *)
Definition kids_apart (ns : list node) : Prop :=
  ForallOrdPairs (fun a b => forall q, ~ (touches a q /\ touches b q)) ns.
Fixpoint sep (n : node) : Prop :=
  match n with
  | NLeaf _ d => elems_apart (dt_n d) (default_bytes (dt_id d)) (dt_stride d)
  | NObj _ es => kids_apart (map snd es) /\ (fix go l := match l with [] => True | (_, c) :: r => sep c /\ go r end) es
  | NLst _ ks => kids_apart ks /\ (fix go l := match l with [] => True | c :: r => sep c /\ go r end) ks
  end.
Lemma sep_obj h es : sep (NObj h es) <-> kids_apart (map snd es) /\ Forall sep (map snd es).
Proof.
  cbn [sep]. split; (intros [A B]; split; [exact A|clear A]).
  - induction es as [|[k c] es IH]; cbn [map]; constructor; [apply B|apply IH; apply B].
  - induction es as [|[k c] es IH]; [exact I|]. inversion B; subst. split; [assumption|apply IH; assumption].
Qed.
Lemma sep_lst h ks : sep (NLst h ks) <-> kids_apart ks /\ Forall sep ks.
Proof.
  cbn [sep]. split; (intros [A B]; split; [exact A|clear A]).
  - induction ks as [|c es IH]; constructor; [apply B|apply IH; apply B].
  - induction ks as [|c es IH]; [exact I|]. inversion B; subst. split; [assumption|apply IH; assumption].
Qed.
Lemma FOP_app {A} (R : A -> A -> Prop) a b : ForallOrdPairs R (a ++ b) <->
  ForallOrdPairs R a /\ ForallOrdPairs R b /\ (forall x y, In x a -> In y b -> R x y).
Proof.
  induction a as [|x a IH]; cbn [app].
  - split; [intros H; split; [constructor|split; [exact H|intros ? ? []]]|intros (_ & H & _); exact H].
  - split.
    + intros H. inversion H as [|? ? F G]; subst. apply IH in G. destruct G as (G1 & G2 & G3).
      apply Forall_app in F. destruct F as [F1 F2]. split; [constructor; auto|]. split; [auto|].
      intros u w [<-|I] J; [rewrite Forall_forall in F2; auto|auto].
    + intros (H1 & H2 & H3). inversion H1 as [|? ? F G]; subst. constructor.
      * apply Forall_app. split; [exact F|]. apply Forall_forall. intros y J. apply H3; [left; reflexivity|exact J].
      * apply IH. split; [exact G|]. split; [exact H2|]. intros u w I J. apply H3; [right; exact I|exact J].
Qed.
Lemma separate_flat (ns : list node) :
  ForallOrdPairs leaves_apart (flat_map nleaves ns) <->
  Forall (fun n => ForallOrdPairs leaves_apart (nleaves n)) ns /\ kids_apart ns.
Proof.
  unfold kids_apart. induction ns as [|n ns IH]; cbn [flat_map].
  - split; [intros _; split; constructor|intros _; constructor].
  - rewrite FOP_app, IH. split.
    + intros (A & [B C] & D). split; [constructor; assumption|]. constructor; [|exact C].
      apply Forall_forall. intros b Ib q [T1 T2]. unfold touches in *. apply Exists_exists in T1, T2.
      destruct T1 as (l1 & I1 & T1), T2 as (l2 & I2 & T2).
      apply (D l1 l2 I1 (proj2 (in_flat_map _ _ _) (ex_intro _ b (conj Ib I2))) q). auto.
    + intros [A B]. inversion A as [|? ? A1 A2]; subst. inversion B as [|? ? B1 B2]; subst.
      split; [exact A1|]. split; [auto|]. intros l1 l2 I1 I2 q [T1 T2]. apply in_flat_map in I2.
      destruct I2 as (b & Ib & I2). rewrite Forall_forall in B1. apply (B1 b Ib q).
      unfold touches. split; apply Exists_exists; eauto.
Qed.
Lemma flat_map_map {A B C} (f : B -> list C) (g : A -> B) l : flat_map f (map g l) = flat_map (fun x => f (g x)) l.
Proof. induction l as [|x l IH]; [reflexivity|]. simpl. f_equal. exact IH. Qed.
Lemma Forall_flat_map' {A B} (P : B -> Prop) (f : A -> list B) l :
  Forall P (flat_map f l) <-> Forall (fun x => Forall P (f x)) l.
Proof.
  induction l as [|x l IH]; cbn [flat_map]; [split; constructor|]. rewrite Forall_app, IH. split.
  - intros [A1 A2]; constructor; auto.
  - intros H; inversion H; auto.
Qed.
Lemma separate_sep n : separate n <-> sep n.
Proof.
  unfold separate. induction n as [h d|h es IH|h ks IH] using node_ind'; cbn [nleaves].
  - cbn [sep]. split; [intros [_ A]; inversion A; subst; assumption|]. intros A. split; [repeat constructor|].
    constructor; [exact A|constructor].
  - rewrite sep_obj. rewrite <- (flat_map_map nleaves snd es), separate_flat, Forall_flat_map'.
    assert (X : Forall (fun c => separate c <-> sep c) (map snd es)).
    { clear -IH. induction IH; cbn [map]; constructor; auto. }
    assert (Y : Forall separate (map snd es) <-> Forall sep (map snd es)).
    { clear -X. split; intros H; (induction X as [|c l Xc Xr IHx]; [constructor|]); inversion H; subst; constructor; auto; apply Xc; auto. }
    rewrite <- Y. unfold separate. split.
    + intros [[A B] C]. split; [exact B|]. rewrite Forall_forall in *. intros c Ic. auto.
    + intros [B A]. split; [split; [|exact B]|]; rewrite Forall_forall in *; intros c Ic; apply A; exact Ic.
  - rewrite sep_lst. rewrite separate_flat, Forall_flat_map'.
    assert (Y : Forall separate ks <-> Forall sep ks).
    { clear -IH. split; intros H; (induction IH as [|c l Xc Xr IHx]; [constructor|]); inversion H; subst; constructor; auto; apply Xc; auto. }
    rewrite <- Y. unfold separate. split.
    + intros [[A B] C]. split; [exact B|]. rewrite Forall_forall in *. intros c Ic. auto.
    + intros [B A]. split; [split; [|exact B]|]; rewrite Forall_forall in *; intros c Ic; apply A; exact Ic.
Qed.

(** ---- one element ---- *)
Lemma rev_nth_error {A} (l : list A) i : (i < length l)%nat ->
  nth_error (rev l) i = nth_error l (length l - S i).
Proof.
  intros H. destruct (nth_error l (length l - S i)) as [b|] eqn:E.
  - rewrite (nth_error_nth' (rev l) b) by (rewrite rev_length; exact H). rewrite rev_nth by exact H.
    rewrite (nth_error_nth _ _ _ E). reflexivity.
  - apply nth_error_None in E. lia.
Qed.
Lemma swap_elem_ok m p nb : 0 <= nb -> readable m p nb ->
  exists m', swap_elem m (Some p) nb = Ok m' /\ same_shape m m' /\
    (forall j, 0 <= j < nb -> rd m' (padd p j) = rd m (padd p (nb - 1 - j))) /\
    (forall q, ~ in_range_of p nb q -> rd m' q = rd m q).
Proof.
  intros Hn R. unfold swap_elem. cbn [oload ostore].
  destruct (load_ok m p nb Hn R) as (bs & E & Hl & V). rewrite E. cbn [obind].
  assert (Hr : Z.of_nat (length (rev bs)) = nb) by (rewrite rev_length; lia).
  destruct (store_ok m p (rev bs)) as (m' & E'); [rewrite Hr; exact R|].
  exists m'. split; [exact E'|]. split; [eapply store_same_shape; eauto|].
  assert (RS := rd_store m p (rev bs) m').
  split.
  - intros j Hj. rewrite (RS _ E'). unfold padd at 1 2 3; cbn [fst snd]. rewrite Nat.eqb_refl, Hr.
    match goal with |- context [if ?c then _ else _] => replace c with true by lia end.
    change (snd (padd p j)) with (snd p + j).
    rewrite <- V by lia. replace (Z.to_nat (snd p + j - snd p)) with (Z.to_nat j) by lia.
    rewrite rev_nth_error by lia. f_equal. lia.
  - intros q Nq. rewrite (RS _ E'). rewrite in_range_of_b in Nq. rewrite Hr.
    match goal with |- context [if ?c then _ else _] => destruct c eqn:C end; [|reflexivity]. exfalso. apply Nq. lia.
Qed.

(** ---- the elements of a leaf ---- *)
Lemma swap_loop_ok k : forall i m p h d nb,
  h_data h = Some p -> nb = default_bytes (dt_id d) -> 1 <= nb -> 0 <= i -> i + Z.of_nat k <= dt_n d ->
  elems_apart (dt_n d) nb (dt_stride d) ->
  (forall a j, i <= a < i + Z.of_nat k -> 0 <= j < nb -> rd m (padd p (eaddr d a + j)) <> None) ->
  exists m', swap_loop k i m h d nb = Ok m' /\ same_shape m m' /\
    (forall a j, i <= a < i + Z.of_nat k -> 0 <= j < nb ->
       rd m' (padd p (eaddr d a + j)) = rd m (padd p (eaddr d a + (nb - 1 - j)))) /\
    (forall q, (forall a j, i <= a < i + Z.of_nat k -> 0 <= j < nb -> q <> padd p (eaddr d a + j)) -> rd m' q = rd m q).
Proof.
  induction k as [|k IH]; intros i m p h d nb Hd Enb Hnb Hi Hk Ap R.
  - exists m. split; [reflexivity|]. split; [apply same_shape_refl|]. split; [intros; lia|reflexivity].
  - cbn [swap_loop].
    assert (EI : element_index d i = Ok (eaddr d i)).
    { unfold element_index. destruct (Z.ltb_spec 0 i) as [X|X]; [|reflexivity].
      destruct (Z.eqb_spec (dt_stride d) 0) as [S|S]; [|reflexivity]. exfalso. destruct Ap as [A|A]; lia. }
    rewrite EI. cbn [obind]. rewrite Hd. cbn [opadd option_map].
    destruct (swap_elem_ok m (padd p (eaddr d i)) nb) as (m1 & E1 & S1 & V1 & F1); [lia| |].
    { intros j Hj. rewrite padd_padd. apply R; lia. }
    rewrite E1. cbn [obind].
    assert (Fr : forall a j, i + 1 <= a < i + Z.of_nat (S k) -> 0 <= j < nb ->
                 rd m1 (padd p (eaddr d a + j)) = rd m (padd p (eaddr d a + j))).
    { intros a j Ha Hj. apply F1. intros X.
      assert (a = i); [|lia]. unfold eaddr in *.
      apply (elems_apart_disjoint (padd p (dt_off d)) (dt_n d) nb (dt_stride d) a i (padd p (dt_off d + dt_stride d * a + j)) Ap); try lia.
      - exists j. split; [exact Hj|]. rewrite !padd_padd. f_equal. lia.
      - rewrite padd_padd. exact X. }
    destruct (IH (i + 1) m1 p h d nb Hd Enb Hnb ltac:(lia) ltac:(lia) Ap) as (m2 & E2 & S2 & V2 & F2).
    { intros a j Ha Hj. rewrite Fr by lia. apply R; lia. }
    exists m2. split; [exact E2|]. split; [eapply same_shape_trans; eauto|]. split.
    + intros a j Ha Hj. destruct (Z.eq_dec a i) as [->|Ne].
      * rewrite F2.
        -- specialize (V1 j Hj). rewrite !padd_padd in V1. exact V1.
        -- intros a' j' Ha' Hj' X. assert (i = a'); [|lia]. unfold eaddr in *.
           apply (elems_apart_disjoint (padd p (dt_off d)) (dt_n d) nb (dt_stride d) i a' (padd p (dt_off d + dt_stride d * i + j)) Ap); try lia.
           ++ exists j. split; [exact Hj|]. rewrite !padd_padd. f_equal. lia.
           ++ exists j'. split; [exact Hj'|]. rewrite !padd_padd. rewrite X. f_equal. lia.
      * rewrite V2 by lia. apply Fr; lia.
    + intros q Nq. rewrite F2; [|intros a j Ha Hj; apply Nq; lia]. apply F1.
      intros (j & Hj & ->). apply (Nq i j); [lia|exact Hj|]. apply padd_padd.
Qed.

Lemma rev_short {A} (l : list A) : (length l <= 1)%nat -> rev l = l.
Proof. destruct l as [|x [|y l]]; simpl; auto; lia. Qed.
Lemma leaf_endian_ok mach e m h d lv :
  leaf_value m (h_data h) d = Ok lv -> elems_apart (dt_n d) (default_bytes (dt_id d)) (dt_stride d) ->
  exists m', leaf_endian_swap mach m h d e = Ok (m', NLeaf h (dt_set_endian d (resolve mach e))) /\
    same_shape m m' /\
    (forall q, ~ leaf_touches q (h_data h, d) -> rd m' q = rd m q) /\
    leaf_value m' (h_data h) (dt_set_endian d (resolve mach e)) = Ok (swap_leafval mach e lv).
Proof.
  intros E Ap. unfold leaf_endian_swap.
  destruct (leaf_value_inv _ _ _ _ E) as [[T ->]|(D & Hn & es & -> & H)].
  { rewrite T. simpl default_bytes. cbn [Z.eqb orb]. rewrite andb_false_r. cbn [obind].
    exists m. split; [reflexivity|]. split; [apply same_shape_refl|]. split; [reflexivity|].
    apply leaf_value_empty. exact T. }
  pose proof (is_data_pos _ D) as P. set (nb := default_bytes (dt_id d)) in *.
  cbn [swap_leafval].
  assert (Same : forall m' es', same_shape m m' -> (forall q, ~ leaf_touches q (h_data h, d) -> rd m' q = rd m q) ->
     holds m' (h_data h) (dt_set_endian d (resolve mach e)) es' ->
     leaf_value m' (h_data h) (dt_set_endian d (resolve mach e)) = Ok (Some (dt_id d, resolve mach e, es'))).
  { intros m' es' _ _ H'. exact (leaf_value_data m' (h_data h) (dt_set_endian d (resolve mach e)) es' D Hn H'). }
  destruct (endian_eqb (resolve mach (dt_endian d)) (resolve mach e)) eqn:EE; cbn [negb andb].
  { cbn [obind]. exists m. split; [reflexivity|]. split; [apply same_shape_refl|]. split; [reflexivity|].
    apply Same; auto using same_shape_refl. }
  destruct ((nb =? 2) || (nb =? 4) || (nb =? 8)) eqn:B.
  - destruct (Z.eq_dec (dt_n d) 0) as [Z0|NZ].
    { rewrite Z0. cbn [Z.to_nat swap_loop obind]. exists m. split; [reflexivity|]. split; [apply same_shape_refl|].
      split; [reflexivity|]. apply Same; auto using same_shape_refl. destruct H as [Hl _]. rewrite Z0 in Hl.
      destruct es; [|discriminate]. split; [simpl; rewrite Z0; reflexivity|]. intros i Hi. simpl in Hi. lia. }
    destruct (holds_rd m (h_data h) d es 0 0 D H ltac:(lia) ltac:(lia)) as (p & bs0 & Ep & _).
    destruct (swap_loop_ok (Z.to_nat (dt_n d)) 0 m p h d nb Ep eq_refl P ltac:(lia) ltac:(lia) Ap) as (m' & E' & Sh & V & F).
    { intros a j Ha Hj. destruct (holds_rd m (h_data h) d es a j D H ltac:(lia) Hj) as (p' & bs & Ep' & _ & _ & _ & R).
      rewrite Ep in Ep'. injection Ep' as <-. exact R. }
    rewrite E'. cbn [obind]. exists m'. split; [reflexivity|]. split; [exact Sh|].
    assert (Fr : forall q, ~ leaf_touches q (h_data h, d) -> rd m' q = rd m q).
    { intros q Nq. apply F. intros a j Ha Hj ->. apply Nq. exists p, a, j. cbn [fst snd].
      split; [exact Ep|]. split; [lia|]. split; [exact Hj|reflexivity]. }
    split; [exact Fr|]. apply Same; auto.
    split; [rewrite map_length; apply H|]. cbn [dt_n dt_set_endian]. intros i Hi.
    destruct (proj2 H i Hi) as (bs & Eb & Lb). exists (rev bs). split; [rewrite nth_error_map, Eb; reflexivity|].
    unfold leaf_elem in *. cbn [dt_id dt_set_endian]. change (eaddr (dt_set_endian d (resolve mach e)) i) with (eaddr d i).
    rewrite Ep in *. cbn [opadd option_map oload] in *. fold nb in Lb |- *.
    destruct (load_inv _ _ _ _ Lb) as (_ & Ll & _ & Vl).
    destruct (load_ok m' (padd p (eaddr d i)) nb ltac:(lia)) as (bs' & E2 & L2 & V2).
    { intros j Hj. rewrite padd_padd, V by lia. destruct (holds_rd m (Some p) d es i (nb - 1 - j) D H ltac:(lia) ltac:(fold nb; lia)) as (p' & ? & Ep' & _ & _ & _ & R).
      injection Ep' as <-. exact R. }
    rewrite E2. f_equal. apply list_ext; [rewrite rev_length; lia|]. intros j Hj.
    replace j with (Z.to_nat (Z.of_nat j)) at 1 by lia. rewrite V2 by lia. rewrite padd_padd, V by lia.
    rewrite rev_nth_error by lia. replace (length bs - S j)%nat with (Z.to_nat (nb - 1 - Z.of_nat j)) by lia.
    rewrite Vl by lia. rewrite padd_padd. reflexivity.
  - cbn [obind]. exists m. split; [reflexivity|]. split; [apply same_shape_refl|]. split; [reflexivity|].
    apply Same; auto using same_shape_refl.
    assert (nb = 1) as N1. { subst nb. destruct (dt_id d); simpl in *; try discriminate; lia. }
    replace (map (@rev byte) es) with es; [exact H|].
    apply list_ext; [rewrite map_length; reflexivity|]. intros i Hi. rewrite nth_error_map.
    destruct (nth_error es i) as [bs|] eqn:Eb; [|reflexivity]. cbn [option_map]. f_equal.
    assert (Hz : 0 <= Z.of_nat i < dt_n d) by (destruct H as [Hl _]; lia).
    destruct (holds_rd m (h_data h) d es (Z.of_nat i) 0 D H Hz ltac:(fold nb; lia)) as (p & bs' & _ & Eb' & Lb & _).
    rewrite Nat2Z.id, Eb in Eb'. injection Eb' as <-. fold nb in Lb. rewrite rev_short; [reflexivity|]. lia.
Qed.

(** ---- the whole tree ---- *)
Definition nswap_es mach e : mem -> list (str * node) -> outcome (mem * list (str * node)) :=
  fix go m l := match l with
                | [] => Ok (m, [])
                | (k, c) :: r =>
                    do (m', c') <- nendian_swap mach m c e; do (m'', r') <- go m' r; Ok (m'', (k, c') :: r')
                end.
Definition nswap_ks mach e : mem -> list node -> outcome (mem * list node) :=
  fix go m l := match l with
                | [] => Ok (m, [])
                | c :: r => do (m', c') <- nendian_swap mach m c e; do (m'', r') <- go m' r; Ok (m'', c' :: r')
                end.
Lemma touches_set_endian n e q : touches (nset_endian n e) q <-> touches n q.
Proof.
  induction n as [h d|h es IH|h ks IH] using node_ind'; cbn [nset_endian].
  - rewrite !touches_leaf. reflexivity.
  - rewrite !touches_obj. rewrite Forall_forall in IH. split.
    + intros (k & c & I & T). apply in_map_iff in I. destruct I as ([k' c'] & E & I). injection E as <- <-.
      exists k', c'. split; [exact I|]. apply (IH _ I). exact T.
    + intros (k & c & I & T). exists k, (nset_endian c e). split; [apply in_map_iff; exists (k, c); auto|].
      apply (IH _ I). exact T.
  - rewrite !touches_lst. rewrite Forall_forall in IH. split.
    + intros (c & I & T). apply in_map_iff in I. destruct I as (c' & <- & I).
      exists c'. split; [exact I|]. apply (IH _ I). exact T.
    + intros (c & I & T). exists (nset_endian c e). split; [apply in_map_iff; exists c; auto|]. apply (IH _ I). exact T.
Qed.
Definition swap_post mach e m n v m' n' : Prop :=
  n' = nset_endian n (resolve mach e) /\ same_shape m m' /\
  (forall q, ~ touches n q -> rd m' q = rd m q) /\
  nvalue m' n' = Ok (tmap (swap_leafval mach e) v).
Lemma kids_swap mach e (ns : list node) :
  Forall (fun n => forall m v, nvalue m n = Ok v -> sep n ->
            exists m' n', nendian_swap mach m n e = Ok (m', n') /\ swap_post mach e m n v m' n') ns ->
  forall m vs, Forall2 (fun n v => nvalue m n = Ok v) ns vs -> kids_apart ns -> Forall sep ns ->
  exists m', nswap_ks mach e m ns = Ok (m', map (fun c => nset_endian c (resolve mach e)) ns) /\ same_shape m m' /\
    (forall q, ~ Exists (fun c => touches c q) ns -> rd m' q = rd m q) /\
    Forall2 (fun n v => nvalue m' n = Ok v) (map (fun c => nset_endian c (resolve mach e)) ns)
            (map (tmap (swap_leafval mach e)) vs).
Proof.
  induction 1 as [|n ns Hn _ IH]; intros m vs F Ap Sp; inversion F as [|? v ? vs' Ev Er]; subst; cbn [nswap_ks map].
  - exists m. split; [reflexivity|]. split; [apply same_shape_refl|]. split; [reflexivity|constructor].
  - inversion Ap as [|? ? A1 A2]; subst. inversion Sp as [|? ? S1 S2]; subst.
    destruct (Hn m v Ev S1) as (m1 & n1 & E1 & -> & Sh1 & F1 & V1). rewrite E1. cbn [obind].
    destruct (IH m1 vs') as (m2 & E2 & Sh2 & F2 & V2); auto.
    { rewrite Forall_forall in A1. clear -Er A1 F1.
      induction Er as [|c w ns ws Hc Hr IHr]; constructor.
      - apply (nvalue_frame c m m1 w Hc). intros q T. apply F1. intros T'. apply (A1 c (or_introl eq_refl) q). auto.
      - apply IHr. intros x I. apply A1. right; exact I. }
    fold (nswap_ks mach e). rewrite E2. cbn [obind]. exists m2. split; [reflexivity|].
    split; [eapply same_shape_trans; eauto|]. split.
    + intros q Nq. rewrite F2, F1; auto.
    + constructor; [|exact V2]. apply (nvalue_frame _ m1 m2 _ V1). intros q T. apply touches_set_endian in T.
      apply F2. intros X. apply Exists_exists in X. destruct X as (c & Ic & Tc).
      rewrite Forall_forall in A1. apply (A1 c Ic q). auto.
Qed.
Lemma nswap_es_ks mach e es : forall m,
  nswap_es mach e m es =
  do (m', ks) <- nswap_ks mach e m (map snd es); Ok (m', combine (map fst es) ks).
Proof.
  induction es as [|[k c] es IH]; intros m; cbn [nswap_es nswap_ks map fst snd]; [reflexivity|].
  destruct (nendian_swap mach m c e) as [[m1 c1]| | |]; cbn [obind]; try reflexivity.
  fold (nswap_es mach e). rewrite IH. fold (nswap_ks mach e).
  destruct (nswap_ks mach e m1 (map snd es)) as [[m2 ks]| | |]; reflexivity.
Qed.
Lemma nendian_ok mach e n : forall m v, nvalue m n = Ok v -> sep n ->
  exists m' n', nendian_swap mach m n e = Ok (m', n') /\ swap_post mach e m n v m' n'.
Proof.
  induction n as [h d|h es IH|h ks IH] using node_ind'; intros m v E Sp.
  - apply nvalue_leaf in E. destruct E as (lv & -> & E). cbn [nendian_swap].
    destruct (leaf_endian_ok mach e m h d lv E Sp) as (m' & E' & Sh & F & V). rewrite E'.
    exists m', (NLeaf h (dt_set_endian d (resolve mach e))). split; [reflexivity|].
    split; [reflexivity|]. split; [exact Sh|]. split.
    + intros q Nq. apply F. intros T. apply Nq. apply touches_leaf. exact T.
    + apply nvalue_leaf. exists (swap_leafval mach e lv). split; [reflexivity|exact V].
  - apply nvalue_obj in E. destruct E as (vs & -> & E). apply sep_obj in Sp. destruct Sp as [Ap Sp].
    change (nendian_swap mach m (NObj h es) e) with
      (do (m', es') <- nswap_es mach e m es; Ok (m', NObj h es')).
    rewrite nswap_es_ks.
    assert (IH' : Forall (fun n => forall m v, nvalue m n = Ok v -> sep n ->
            exists m' n', nendian_swap mach m n e = Ok (m', n') /\ swap_post mach e m n v m' n') (map snd es)).
    { clear -IH. induction IH; cbn [map]; constructor; auto. }
    assert (E2 : Forall2 (fun n v => nvalue m n = Ok v) (map snd es) (map snd vs)).
    { clear -E. induction E as [|x y l l' [_ Hv] _ IHe]; cbn [map]; constructor; auto. }
    destruct (kids_swap mach e _ IH' m (map snd vs) E2 Ap Sp) as (m' & E' & Sh & F & V). rewrite E'. cbn [obind].
    exists m'. eexists. split; [reflexivity|]. split.
    { cbn [nset_endian]. f_equal. clear. induction es as [|[k c] es IH]; [reflexivity|]. cbn [map combine fst snd]. f_equal. exact IH. }
    split; [exact Sh|]. split.
    + intros q Nq. apply F. intros X. apply Nq. apply touches_obj. apply Exists_exists in X. destruct X as (c & Ic & T).
      apply in_map_iff in Ic. destruct Ic as ([k c'] & <- & I). exists k, c'. auto.
    + apply nvalue_obj. exists (map (fun x => (fst x, tmap (swap_leafval mach e) (snd x))) vs). split; [reflexivity|].
      clear -V E. revert V. induction E as [|[k c] [k' w] l l' [Hk Hv] _ IHe]; cbn [map combine fst snd] in *; intros V; [constructor|].
      inversion V; subst. constructor; [|apply IHe; assumption]. cbn [fst snd]. auto.
  - apply nvalue_lst in E. destruct E as (vs & -> & E). apply sep_lst in Sp. destruct Sp as [Ap Sp].
    change (nendian_swap mach m (NLst h ks) e) with
      (do (m', es') <- nswap_ks mach e m ks; Ok (m', NLst h es')).
    destruct (kids_swap mach e _ IH m vs E Ap Sp) as (m' & E' & Sh & F & V). rewrite E'. cbn [obind].
    exists m'. eexists. split; [reflexivity|]. split; [reflexivity|]. split; [exact Sh|]. split.
    + intros q Nq. apply F. intros X. apply Nq. apply touches_lst. apply Exists_exists in X. exact X.
    + apply nvalue_lst. exists (map (tmap (swap_leafval mach e)) vs). split; [reflexivity|exact V].
Qed.

(** ---- consequences ---- *)
Definition leaf_elems (lv : leafval) : option (list (list byte)) :=
  match lv with None => None | Some (_, _, es) => Some es end.
Lemma elems_rd n : forall m m' e v v', nvalue m n = Ok v -> nvalue m' (nset_endian n e) = Ok v' ->
  tmap leaf_elems v' = tmap leaf_elems v -> forall q, touches n q -> rd m' q = rd m q.
Proof.
  induction n as [h d|h es IH|h ks IH] using node_ind'; intros m m' e v v' E E' Q q T; cbn [nset_endian] in E'.
  - apply nvalue_leaf in E, E'. destruct E as (lv & -> & E). destruct E' as (lv' & -> & E').
    apply touches_leaf in T. destruct T as (p & i & j & Ep & Hi & Hj & ->). cbn [fst snd] in *.
    destruct (leaf_value_inv _ _ _ _ E) as [[X ->]|(D & Hn & es & -> & H)].
    { rewrite X in Hj. simpl in Hj. lia. }
    destruct (leaf_value_inv _ _ _ _ E') as [[X ->]|(D' & Hn' & es' & -> & H')].
    { cbn [dt_id dt_set_endian] in X. rewrite X in D. discriminate. }
    cbn [tmap leaf_elems] in Q. injection Q as ->.
    destruct (holds_rd m _ d es i j D H Hi Hj) as (p1 & b1 & E1 & N1 & _ & R1 & _).
    destruct (holds_rd m' _ _ es i j D' H' Hi Hj) as (p2 & b2 & E2 & N2 & _ & R2 & _).
    rewrite Ep in E1, E2. injection E1 as <-. injection E2 as <-. rewrite N1 in N2. injection N2 as <-.
    cbn [dt_set_endian eaddr dt_off dt_stride] in R2. change (eaddr (dt_set_endian d e) i) with (eaddr d i) in R2.
    congruence.
  - apply nvalue_obj in E, E'. destruct E as (vs & -> & E). destruct E' as (vs' & -> & E').
    apply touches_obj in T. destruct T as (k & c & I & T). rewrite Forall_forall in IH. specialize (IH _ I). cbn [snd] in IH.
    cbn [tmap] in Q. injection Q as Q.
    clear -E E' Q I T IH. revert vs' E' Q. induction E as [|[k0 c0] [k1 w] l l' [_ Hv] _ IHe]; intros vs' E' Q; [destruct I|].
    cbn [map] in E'. inversion E' as [|? [k2 w2] ? l2 [_ Hv2] Hr2]; subst. cbn [map fst snd] in *. injection Q as _ Qw Qr.
    destruct I as [I|I].
    + injection I as <- <-. eapply IH; eauto.
    + apply (IHe I l2 Hr2). exact Qr.
  - apply nvalue_lst in E, E'. destruct E as (vs & -> & E). destruct E' as (vs' & -> & E').
    apply touches_lst in T. destruct T as (c & I & T). rewrite Forall_forall in IH. specialize (IH _ I).
    cbn [tmap] in Q. injection Q as Q.
    clear -E E' Q I T IH. revert vs' E' Q. induction E as [|c0 w l l' Hv _ IHe]; intros vs' E' Q; [destruct I|].
    cbn [map] in E'. inversion E' as [|? w2 ? l2 Hv2 Hr2]; subst. cbn [map] in *. injection Q as Qw Qr.
    destruct I as [<-|I].
    + eapply IH; eauto.
    + apply (IHe I l2 Hr2). exact Qr.
Qed.
Lemma endian_mem_same n m m' e v v' : nvalue m n = Ok v -> nvalue m' (nset_endian n e) = Ok v' ->
  tmap leaf_elems v' = tmap leaf_elems v -> same_shape m m' ->
  (forall q, ~ touches n q -> rd m' q = rd m q) -> m' = m.
Proof.
  intros E E' Q Sh F. symmetry. apply mem_ext; [exact Sh|]. intros q. symmetry.
  assert (D : {rd m' q = rd m q} + {rd m' q <> rd m q}) by (decide equality; apply ascii_dec).
  destruct D as [D|D]; [exact D|]. exfalso. apply D. apply F. intros T. apply D. eapply elems_rd; eauto.
Qed.
Lemma tmap_tmap {A B C} (f : B -> C) (g : A -> B) t : tmap f (tmap g t) = tmap (fun x => f (g x)) t.
Proof.
  induction t as [a|es IH|ts IH] using tree_ind''; cbn [tmap]; [reflexivity|..].
  - f_equal. rewrite map_map. cbn [fst snd]. induction IH as [|x l Hx _ IHl]; cbn [map]; [reflexivity|]. rewrite Hx, IHl. reflexivity.
  - f_equal. rewrite map_map. induction IH as [|x l Hx _ IHl]; cbn [map]; [reflexivity|]. rewrite Hx, IHl. reflexivity.
Qed.
Lemma tmap_ext {A B} (f g : A -> B) t : (forall a, In a (tleaves t) -> f a = g a) -> tmap f t = tmap g t.
Proof.
  induction t as [a|es IH|ts IH] using tree_ind''; cbn [tmap tleaves]; intros H.
  - rewrite H by (left; reflexivity). reflexivity.
  - f_equal. induction es as [|x l IHl]; [reflexivity|]. inversion IH; subst. cbn [map flat_map] in *. f_equal.
    + f_equal. auto using in_or_app.
    + apply IHl; auto using in_or_app.
  - f_equal. induction ts as [|x l IHl]; [reflexivity|]. inversion IH; subst. cbn [map flat_map] in *. f_equal; auto using in_or_app.
Qed.
Lemma nset_endian_twice n a b : nset_endian (nset_endian n a) b = nset_endian n b.
Proof.
  induction n as [h d|h es IH|h ks IH] using node_ind'; cbn [nset_endian]; [reflexivity|..].
  - f_equal. rewrite map_map. cbn [fst snd]. induction IH as [|x l Hx _ IHl]; cbn [map]; [reflexivity|]. rewrite Hx, IHl. reflexivity.
  - f_equal. rewrite map_map. induction IH as [|x l Hx _ IHl]; cbn [map]; [reflexivity|]. rewrite Hx, IHl. reflexivity.
Qed.
Lemma sep_set_endian n e : sep n -> sep (nset_endian n e).
Proof.
  intros S. apply separate_sep. apply separate_sep in S. destruct S as [A B].
  assert (X : nleaves (nset_endian n e) = map (fun l => (fst l, dt_set_endian (snd l) e)) (nleaves n)).
  { clear. induction n as [h d|h es IH|h ks IH] using node_ind'; cbn [nset_endian nleaves]; [reflexivity|..].
    - induction IH as [|x l Hx _ IHl]; cbn [map flat_map]; [reflexivity|]. cbn [snd]. rewrite map_app, Hx, IHl. reflexivity.
    - induction IH as [|x l Hx _ IHl]; cbn [map flat_map]; [reflexivity|]. rewrite map_app, Hx, IHl. reflexivity. }
  split; rewrite X.
  - clear -A. induction A as [|l ls H1 _ IH]; cbn [map]; constructor; auto.
    rewrite Forall_forall in *. intros y I. apply in_map_iff in I. destruct I as (z & <- & I). apply (H1 z I).
  - rewrite Forall_forall in *. intros y I. apply in_map_iff in I. destruct I as (z & <- & I). apply (B z I).
Qed.
Lemma map_rev_rev (es : list (list byte)) : map (@rev byte) (map (@rev byte) es) = es.
Proof. rewrite map_map. rewrite <- (map_id es) at 2. apply map_ext. apply rev_involutive. Qed.
Lemma resolve_idem mach e : resolve mach (resolve mach e) = resolve mach e \/ mach = DEFAULT_E.
Proof. destruct mach, e; auto. Qed.
Lemma endian_round_trip mach e o n m v :
  mach <> DEFAULT_E -> nvalue m n = Ok v -> separate n -> Forall (recorded mach (resolve mach o)) (tleaves v) ->
  exists m1 n1, nendian_swap mach m n e = Ok (m1, n1) /\
    nendian_swap mach m1 n1 o = Ok (m, nset_endian n (resolve mach o)).
Proof.
  intros Hm E Sp R. apply separate_sep in Sp.
  destruct (nendian_ok mach e n m v E Sp) as (m1 & n1 & E1 & -> & Sh1 & F1 & V1).
  exists m1, (nset_endian n (resolve mach e)). split; [exact E1|].
  destruct (nendian_ok mach o _ m1 _ V1 (sep_set_endian n _ Sp)) as (m2 & n2 & E2 & -> & Sh2 & F2 & V2).
  rewrite E2. rewrite nset_endian_twice in *. f_equal. f_equal.
  apply (endian_mem_same n m m2 _ v _ E V2).
  - rewrite !tmap_tmap. apply tmap_ext. intros [[[t en] es]|] I; [|reflexivity]. cbn [swap_leafval leaf_elems].
    rewrite Forall_forall in R. specialize (R _ I). cbn [recorded] in R. rewrite R. f_equal.
    destruct (resolve_idem mach e) as [X|X]; [|contradiction]. rewrite X.
    destruct (endian_eqb (resolve mach o) (resolve mach e)) eqn:Q.
    + apply endian_eqb_eq in Q. rewrite <- Q, endian_eqb_refl. reflexivity.
    + destruct (endian_eqb (resolve mach e) (resolve mach o)) eqn:Q2.
      * apply endian_eqb_eq in Q2. rewrite Q2, endian_eqb_refl in Q. discriminate.
      * apply map_rev_rev.
  - eapply same_shape_trans; eauto.
  - intros q Nq. rewrite F2, F1; auto. intros T. apply Nq. apply touches_set_endian in T. exact T.
Qed.
Lemma endian_same_order mach e n m v :
  nvalue m n = Ok v -> separate n -> Forall (recorded mach (resolve mach e)) (tleaves v) ->
  nendian_swap mach m n e = Ok (m, nset_endian n (resolve mach e)).
Proof.
  intros E Sp R. apply separate_sep in Sp.
  destruct (nendian_ok mach e n m v E Sp) as (m1 & n1 & E1 & -> & Sh1 & F1 & V1).
  rewrite E1. do 2 f_equal. apply (endian_mem_same n m m1 _ v _ E V1); auto.
  rewrite !tmap_tmap. apply tmap_ext. intros [[[t en] es]|] I; [|reflexivity]. cbn [swap_leafval leaf_elems].
  rewrite Forall_forall in R. specialize (R _ I). cbn [recorded] in R. rewrite R, endian_eqb_refl. reflexivity.
Qed.
Lemma swap_numbers mach e lv : mach <> DEFAULT_E -> leaf_numbers mach (swap_leafval mach e lv) = leaf_numbers mach lv.
Proof.
  intros Hm. destruct lv as [[[t en] es]|]; [|reflexivity]. cbn [swap_leafval leaf_numbers].
  destruct (endian_eqb (resolve mach en) (resolve mach e)) eqn:Q.
  - apply map_ext. intros bs. unfold elem_number. destruct (resolve_idem mach e) as [X|X]; [|contradiction].
    apply endian_eqb_eq in Q. rewrite X, Q. reflexivity.
  - rewrite map_map. apply map_ext. intros bs. unfold elem_number.
    destruct mach, en, e; try contradiction; try discriminate; cbn [resolve]; rewrite ?rev_involutive; reflexivity.
Qed.
Lemma endian_swap_law mach e n m v :
  mach <> DEFAULT_E -> nvalue m n = Ok v -> separate n ->
  exists m' n' v', nendian_swap mach m n e = Ok (m', n') /\
    n' = nset_endian n (resolve mach e) /\
    nvalue m' n' = Ok v' /\ v' = tmap (swap_leafval mach e) v /\
    tmap (leaf_numbers mach) v' = tmap (leaf_numbers mach) v /\
    (forall q, ~ touches n q -> rd m' q = rd m q) /\ same_shape m m'.
Proof.
  intros Hm E Sp. apply separate_sep in Sp.
  destruct (nendian_ok mach e n m v E Sp) as (m1 & n1 & E1 & -> & Sh1 & F1 & V1).
  exists m1. eexists. eexists. split; [exact E1|]. split; [reflexivity|]. split; [exact V1|]. split; [reflexivity|].
  split; [|auto]. rewrite tmap_tmap. apply tmap_ext. intros lv _. apply swap_numbers. exact Hm.
Qed.
