(** Facts about nodes: reading, freeing, compacting, copying. *)
From Verif Require Import Base DType SpecTree Mem MemFacts Node SpecNode.
Local Open Scope Z_scope.

Section NodeInd.
  Variable P : node -> Prop.
  Hypothesis Hl : forall h d, P (NLeaf h d).
  Hypothesis Ho : forall h es, Forall (fun e => P (snd e)) es -> P (NObj h es).
  Hypothesis Hk : forall h ks, Forall P ks -> P (NLst h ks).
  Fixpoint node_ind' (n : node) : P n :=
    match n with
    | NLeaf h d => Hl h d
    | NObj h es => Ho h es ((fix go l : Forall (fun e => P (snd e)) l :=
                               match l with [] => Forall_nil _ | e :: r => Forall_cons _ (node_ind' (snd e)) (go r) end) es)
    | NLst h ks => Hk h ks ((fix go l : Forall P l :=
                               match l with [] => Forall_nil _ | c :: r => Forall_cons _ (node_ind' c) (go r) end) ks)
    end.
End NodeInd.

Section TreeInd.
  Context {A : Type}.
  Variable P : tree A -> Prop.
  Hypothesis Hl : forall a, P (TLeaf a).
  Hypothesis Ho : forall es, Forall (fun e => P (snd e)) es -> P (TObj es).
  Hypothesis Hk : forall ts, Forall P ts -> P (TList ts).
  Fixpoint tree_ind'' (t : tree A) : P t :=
    match t with
    | TLeaf a => Hl a
    | TObj es => Ho es ((fix go l : Forall (fun e => P (snd e)) l :=
                           match l with [] => Forall_nil _ | e :: r => Forall_cons _ (tree_ind'' (snd e)) (go r) end) es)
    | TList ts => Hk ts ((fix go l : Forall P l :=
                            match l with [] => Forall_nil _ | c :: r => Forall_cons _ (tree_ind'' c) (go r) end) ts)
    end.
End TreeInd.

(** ---- omapM ---- *)
Lemma omapM_cons {A B} (f : A -> outcome B) x l :
  omapM f (x :: l) = do y <- f x; do ys <- omapM f l; Ok (y :: ys).
Proof. reflexivity. Qed.
Lemma omapM_Ok {A B} (f : A -> outcome B) l : forall ys,
  omapM f l = Ok ys <-> Forall2 (fun x y => f x = Ok y) l ys.
Proof.
  induction l as [|x l IH]; intros ys; [|rewrite omapM_cons].
  - split; [intros E; injection E as <-; constructor|intros H; inversion H; reflexivity].
  - split.
    + destruct (f x) as [y| | |] eqn:E; try discriminate. cbn [obind].
      destruct (omapM f l) as [zs| | |] eqn:E2; try discriminate. cbn [obind].
      intros X. injection X as <-. constructor; [exact E|]. apply IH. reflexivity.
    + intros H. inversion H as [|? y ? zs Hx Hr]; subst. rewrite Hx. cbn [obind].
      apply IH in Hr. rewrite Hr. reflexivity.
Qed.
Lemma omapM_ext {A B} (f g : A -> outcome B) l ys :
  omapM f l = Ok ys -> (forall x y, In x l -> f x = Ok y -> g x = Ok y) -> omapM g l = Ok ys.
Proof.
  rewrite !omapM_Ok. intros H F. induction H as [|x y l ys Hx Hr IH]; constructor.
  - apply F; [left; reflexivity|exact Hx].
  - apply IH. intros x' y' I. apply F. right; exact I.
Qed.
Lemma zseq_nth n i : 0 <= i < n -> nth_error (zseq n) (Z.to_nat i) = Some i.
Proof.
  intros H. unfold zseq. rewrite nth_error_map.
  assert (X : forall k s j, (j < k)%nat -> nth_error (seq s k) j = Some (s + j)%nat).
  { clear. induction k as [|k IH]; intros s j Hj; [lia|]. destruct j as [|j]; simpl.
    - f_equal; lia.
    - rewrite IH by lia. f_equal; lia. }
  rewrite X by lia. simpl. f_equal. lia.
Qed.
Lemma length_zseq n : length (zseq n) = Z.to_nat n.
Proof. unfold zseq. rewrite map_length, seq_length. reflexivity. Qed.
Lemma in_zseq n i : In i (zseq n) <-> 0 <= i < n.
Proof.
  unfold zseq. rewrite in_map_iff. split.
  - intros (k & <- & I). apply in_seq in I. lia.
  - intros H. exists (Z.to_nat i). split; [lia|]. apply in_seq. lia.
Qed.
Lemma Forall2_nth {A B} (R : A -> B -> Prop) l1 : forall l2, Forall2 R l1 l2 <->
  length l1 = length l2 /\ forall i a, nth_error l1 i = Some a -> exists b, nth_error l2 i = Some b /\ R a b.
Proof.
  induction l1 as [|x l1 IH]; intros l2.
  - split.
    + intros H; inversion H; subst. split; [reflexivity|]. intros i a E. destruct i; discriminate.
    + intros [Hl _]. destruct l2; [constructor|discriminate].
  - split.
    + intros H; inversion H as [|? y ? l2' Hx Hr]; subst. apply IH in Hr. destruct Hr as [Hl Hn].
      split; [simpl; congruence|]. intros [|i] a E; simpl in *.
      * injection E as <-. eauto.
      * apply Hn; exact E.
    + intros [Hl Hn]. destruct l2 as [|y l2]; [discriminate|]. constructor.
      * destruct (Hn 0%nat x eq_refl) as (b & E & R'). injection E as <-. exact R'.
      * apply IH. split; [simpl in Hl; lia|]. intros i a E. apply (Hn (S i) a E).
Qed.

(** ---- reading leaves ---- *)
(** The elements [es] are what the leaf holds. *)
Definition holds (m : mem) (data : option ptr) (d : dtype) (es : list (list byte)) : Prop :=
  length es = Z.to_nat (dt_n d) /\
  forall i, 0 <= i < dt_n d -> exists bs, nth_error es (Z.to_nat i) = Some bs /\ leaf_elem m data d i = Ok bs.

Definition is_data (t : tid) : bool :=
  match t with EMPTY | OBJECT | LIST => false | _ => true end.
Lemma is_data_pos t : is_data t = true -> 1 <= default_bytes t.
Proof. destruct t; simpl; intros; try discriminate; lia. Qed.
Lemma is_data_empty d : is_data (dt_id d) = true -> is_empty d = false.
Proof. unfold is_empty. destruct (dt_id d); simpl; intros; try discriminate; reflexivity. Qed.

Lemma omapM_elems m data d es : 0 <= dt_n d ->
  omapM (leaf_elem m data d) (zseq (dt_n d)) = Ok es <-> holds m data d es.
Proof.
  intros Hn. rewrite omapM_Ok, Forall2_nth, length_zseq. unfold holds. split.
  - intros [Hl H]. split; [congruence|]. intros i Hi.
    destruct (H (Z.to_nat i) i (zseq_nth _ _ Hi)) as (b & E & L). eauto.
  - intros [Hl H]. split; [congruence|]. intros k i E.
    assert (Hk : (k < Z.to_nat (dt_n d))%nat).
    { rewrite <- length_zseq. apply nth_error_Some. congruence. }
    rewrite <- (Nat2Z.id k) in E. rewrite zseq_nth in E by lia. injection E as <-.
    destruct (H (Z.of_nat k) ltac:(lia)) as (bs & E & L). rewrite Nat2Z.id in E. eauto.
Qed.
Lemma leaf_value_inv m data d v : leaf_value m data d = Ok v ->
  (dt_id d = EMPTY /\ v = None) \/
  (is_data (dt_id d) = true /\ 0 <= dt_n d /\
   exists es, v = Some (dt_id d, dt_endian d, es) /\ holds m data d es).
Proof.
  unfold leaf_value. destruct (dt_id d) eqn:T; intros H; try discriminate;
    [left; split; [reflexivity|congruence]|right..].
  all: cbv zeta in *; split; [reflexivity|]; destruct (Z.ltb_spec (dt_n d) 0) as [L|L]; [discriminate|];
    split; [exact L|];
    destruct (omapM (leaf_elem m data d) (zseq (dt_n d))) as [es| | |] eqn:E; try discriminate;
    injection H as <-; exists es; split; [reflexivity|apply omapM_elems; assumption].
Qed.
Lemma leaf_value_data m data d es : is_data (dt_id d) = true -> 0 <= dt_n d -> holds m data d es ->
  leaf_value m data d = Ok (Some (dt_id d, dt_endian d, es)).
Proof.
  intros T Hn H. apply (omapM_elems m data d es Hn) in H. unfold leaf_value. rewrite H.
  replace (dt_n d <? 0) with false by lia. destruct (dt_id d); try discriminate; reflexivity.
Qed.
Lemma leaf_value_empty m data d : dt_id d = EMPTY -> leaf_value m data d = Ok None.
Proof. intros E. unfold leaf_value. rewrite E. reflexivity. Qed.

(** Moving a leaf's elements elsewhere. *)
Lemma leaf_elem_move m m' data data' d d' i bs :
  dt_id d' = dt_id d -> is_data (dt_id d) = true ->
  leaf_elem m data d i = Ok bs ->
  (forall p j, data = Some p -> 0 <= j < default_bytes (dt_id d) ->
     exists p', data' = Some p' /\ rd m' (padd p' (eaddr d' i + j)) = rd m (padd p (eaddr d i + j))) ->
  leaf_elem m' data' d' i = Ok bs.
Proof.
  intros T D E F. unfold leaf_elem in *. rewrite T.
  pose proof (is_data_pos _ D).
  destruct data as [p|]; cbn [oload opadd option_map] in *.
  - destruct (F p 0 eq_refl ltac:(lia)) as (p' & -> & _). cbn [oload opadd option_map].
    apply (load_move m m' (padd p (eaddr d i)) (padd p' (eaddr d' i)) _ bs E).
    intros j Hj. rewrite !padd_padd. destruct (F p j eq_refl Hj) as (p'' & X & Y). injection X as <-. exact Y.
  - destruct (Z.eqb_spec (default_bytes (dt_id d)) 0); [lia|discriminate].
Qed.
Lemma holds_move m m' data data' d d' es :
  dt_id d' = dt_id d -> is_data (dt_id d) = true -> dt_n d' = dt_n d ->
  holds m data d es ->
  (forall p i j, data = Some p -> 0 <= i < dt_n d -> 0 <= j < default_bytes (dt_id d) ->
     exists p', data' = Some p' /\ rd m' (padd p' (eaddr d' i + j)) = rd m (padd p (eaddr d i + j))) ->
  holds m' data' d' es.
Proof.
  intros T D N [Hl H] F. split; [congruence|]. rewrite N. intros i Hi.
  destruct (H i Hi) as (bs & E & L). exists bs. split; [exact E|].
  apply (leaf_elem_move m m' data data' d d' i bs T D L).
  intros p j Ep Hj. apply (F p i j Ep Hi Hj).
Qed.
(** Where a held leaf has bytes, they are readable. *)
Lemma holds_rd m data d es i j : is_data (dt_id d) = true -> holds m data d es ->
  0 <= i < dt_n d -> 0 <= j < default_bytes (dt_id d) ->
  exists p bs, data = Some p /\ nth_error es (Z.to_nat i) = Some bs /\
               length bs = Z.to_nat (default_bytes (dt_id d)) /\
               nth_error bs (Z.to_nat j) = rd m (padd p (eaddr d i + j)) /\
               rd m (padd p (eaddr d i + j)) <> None.
Proof.
  intros D [Hl H] Hi Hj. destruct (H i Hi) as (bs & E & L). unfold leaf_elem in L.
  destruct data as [p|]; cbn [oload opadd option_map] in L.
  - exists p, bs. destruct (load_inv _ _ _ _ L) as (_ & Hlen & R & V).
    split; [reflexivity|]. split; [exact E|]. split; [exact Hlen|].
    rewrite <- padd_padd. split; [apply V; exact Hj|apply R; exact Hj].
  - destruct (Z.eqb_spec (default_bytes (dt_id d)) 0); [lia|discriminate].
Qed.

(** ---- frame ---- *)
Lemma touches_obj h es q : touches (NObj h es) q <-> exists k c, In (k, c) es /\ touches c q.
Proof.
  unfold touches. cbn [nleaves]. rewrite Exists_flat_map. rewrite Exists_exists. split.
  - intros ([k c] & I & H). eauto.
  - intros (k & c & I & H). exists (k, c). auto.
Qed.
Lemma touches_lst h ks q : touches (NLst h ks) q <-> exists c, In c ks /\ touches c q.
Proof.
  unfold touches. cbn [nleaves]. rewrite Exists_flat_map. rewrite Exists_exists. reflexivity.
Qed.
Lemma touches_leaf h d q : touches (NLeaf h d) q <-> leaf_touches q (h_data h, d).
Proof.
  unfold touches. cbn [nleaves]. split; [intros H; inversion H as [? ? X|? ? X]; subst; [exact X|inversion X]|].
  intros H. left. exact H.
Qed.

Lemma nvalue_frame n : forall m m' v, nvalue m n = Ok v ->
  (forall q, touches n q -> rd m' q = rd m q) -> nvalue m' n = Ok v.
Proof.
  induction n as [h d|h es IH|h ks IH] using node_ind'; intros m m' v E F; cbn [nvalue] in *.
  - destruct (leaf_value m (h_data h) d) as [lv| | |] eqn:Q; try discriminate. cbn [obind] in *.
    assert (X : leaf_value m' (h_data h) d = Ok lv); [|rewrite X; exact E].
    destruct (leaf_value_inv _ _ _ _ Q) as [[T ->]|(D & Hn & es & -> & H)].
    + apply leaf_value_empty; exact T.
    + apply leaf_value_data; auto.
      apply (holds_move m m' (h_data h) (h_data h) d d es); auto.
      intros p i j Ep Hi Hj. exists p. split; [exact Ep|]. apply F.
      apply touches_leaf. exists p, i, j. simpl. auto.
  - destruct (omapM (fun e => do v <- nvalue m (snd e); Ok (fst e, v)) es) as [vs| | |] eqn:Q; try discriminate.
    cbn [obind] in *.
    rewrite (omapM_ext _ (fun e => do v <- nvalue m' (snd e); Ok (fst e, v)) es vs Q); [exact E|].
    intros [k c] y I H. simpl in *. destruct (nvalue m c) as [w| | |] eqn:W; try discriminate.
    rewrite Forall_forall in IH. pose proof (IH (k, c) I m m' w W) as X. simpl in X.
    rewrite X; [exact H|]. intros q Hq. apply F. apply touches_obj. eauto.
  - destruct (omapM (nvalue m) ks) as [vs| | |] eqn:Q; try discriminate. cbn [obind] in *.
    rewrite (omapM_ext _ (nvalue m') ks vs Q); [exact E|].
    intros c y I H. rewrite Forall_forall in IH. apply (IH c I m m' y H).
    intros q Hq. apply F. apply touches_lst. eauto.
Qed.
Lemma nvalue_readable n : forall m v q, nvalue m n = Ok v -> touches n q -> rd m q <> None.
Proof.
  induction n as [h d|h es IH|h ks IH] using node_ind'; intros m v q E T; cbn [nvalue] in *.
  - destruct (leaf_value m (h_data h) d) as [lv| | |] eqn:Q; try discriminate.
    apply touches_leaf in T. destruct T as (p & i & j & Ep & Hi & Hj & ->). simpl in *.
    destruct (leaf_value_inv _ _ _ _ Q) as [[T ->]|(D & Hn & es & -> & H)].
    + rewrite T in Hj. simpl in Hj. lia.
    + destruct (holds_rd m (h_data h) d es i j D H Hi Hj) as (p' & bs & Ep' & _ & _ & _ & X).
      rewrite Ep in Ep'. injection Ep' as <-. exact X.
  - destruct (omapM (fun e => do v <- nvalue m (snd e); Ok (fst e, v)) es) as [vs| | |] eqn:Q; try discriminate.
    apply touches_obj in T. destruct T as (k & c & I & T).
    apply omapM_Ok in Q. rewrite Forall_forall in IH.
    assert (X : exists w, nvalue m c = Ok w).
    { clear - Q I. induction Q as [|[k' c'] y l ys H Hr IHq]; [destruct I|].
      destruct I as [X|I]; [injection X as -> ->|apply IHq; exact I]. simpl in H.
      destruct (nvalue m c); try discriminate. eauto. }
    destruct X as [w W]. apply (IH (k, c) I m w q W T).
  - destruct (omapM (nvalue m) ks) as [vs| | |] eqn:Q; try discriminate.
    apply touches_lst in T. destruct T as (c & I & T).
    apply omapM_Ok in Q. rewrite Forall_forall in IH.
    assert (X : exists w, nvalue m c = Ok w).
    { clear - Q I. induction Q as [|c' y l ys H Hr IHq]; [destruct I|].
      destruct I as [->|I]; [eauto|apply IHq; exact I]. }
    destruct X as [w W]. apply (IH c I m w q W T).
Qed.

(** ---- freeing ---- *)
Fixpoint free_all (m : mem) (ps : list ptr) : outcome mem :=
  match ps with
  | [] => Ok m
  | p :: r => do m' <- free m p; free_all m' r
  end.
Lemma free_all_app a : forall m b, free_all m (a ++ b) = do m' <- free_all m a; free_all m' b.
Proof.
  induction a as [|p a IH]; intros m b; cbn [free_all app]; [reflexivity|].
  destruct (free m p); cbn [obind]; try reflexivity. apply IH.
Qed.
Lemma free_h_all m h : free_h m h = free_all m (own_ptr h).
Proof.
  unfold free_h, own_ptr. destruct (h_own h), (h_data h); cbn [free_all]; try reflexivity.
  destruct (free m p); reflexivity.
Qed.
Lemma nfree_all n : forall m, nfree m n = free_all m (owns n).
Proof.
  induction n as [h d|h es IH|h ks IH] using node_ind'; intros m; cbn [nfree owns].
  - destruct (is_empty d); [reflexivity|apply free_h_all].
  - rewrite free_all_app.
    assert (X : forall m, (fix go m l := match l with [] => Ok m | (_, c) :: r => do m' <- nfree m c; go m' r end) m es
                          = free_all m (flat_map (fun e => owns (snd e)) es)).
    { induction es as [|[k c] es IHes]; intros m0; [reflexivity|].
      inversion IH as [|? ? Hc Hr]; subst. cbn [snd] in Hc. cbn [flat_map snd]. rewrite free_all_app, <- (Hc m0).
      destruct (nfree m0 c); cbn [obind]; try reflexivity. apply IHes; assumption. }
    rewrite X. destruct (free_all m (flat_map (fun e => owns (snd e)) es)); cbn [obind]; try reflexivity. apply free_h_all.
  - rewrite free_all_app.
    assert (X : forall m, (fix go m l := match l with [] => Ok m | c :: r => do m' <- nfree m c; go m' r end) m ks
                          = free_all m (flat_map owns ks)).
    { induction ks as [|c ks IHks]; intros m0; [reflexivity|].
      inversion IH as [|? ? Hc Hr]; subst. cbn [flat_map]. rewrite free_all_app, <- (Hc m0).
      destruct (nfree m0 c); cbn [obind]; try reflexivity. apply IHks; assumption. }
    rewrite X. destruct (free_all m (flat_map owns ks)); cbn [obind]; try reflexivity. apply free_h_all.
Qed.

(** [m'] is [m] with exactly the blocks [bs] freed. *)
Definition freed (m m' : mem) (bs : list nat) : Prop :=
  length m' = length m /\
  forall b, nth_error m' b = if in_dec Nat.eq_dec b bs then Some None else nth_error m b.
Lemma freed_rd m m' bs q : freed m m' bs ->
  rd m' q = if in_dec Nat.eq_dec (fst q) bs then None else rd m q.
Proof. intros [_ H]. unfold rd. rewrite H. destruct (in_dec Nat.eq_dec (fst q) bs); reflexivity. Qed.
Lemma freed_nil m : freed m m [].
Proof. split; [reflexivity|]. intros b. reflexivity. Qed.
Lemma freed_nil_eq m m' : freed m m' [] -> m' = m.
Proof. intros [L H]. apply list_ext; [exact L|]. intros i _. rewrite H. reflexivity. Qed.
Lemma free_all_ok ps : forall m,
  Forall (fun p => snd p = 0 /\ live m (fst p)) ps -> NoDup (map fst ps) ->
  exists m', free_all m ps = Ok m' /\ freed m m' (map fst ps).
Proof.
  induction ps as [|p ps IH]; intros m F ND; cbn [free_all map].
  - exists m. split; [reflexivity|]. apply freed_nil.
  - inversion F as [|? ? [Hp [l Hlv]] Fr]; subst. inversion ND as [|? ? Hn ND']; subst.
    unfold free. rewrite Hlv, Hp. cbn [Z.eqb obind].
    set (m1 := set_nth m (fst p) None).
    assert (Hlt : (fst p < length m)%nat) by (apply nth_error_Some; congruence).
    assert (N1 : forall b, b <> fst p -> nth_error m1 b = nth_error m b).
    { intros b Hb. unfold m1. apply nth_error_set_nth_other. congruence. }
    destruct (IH m1) as (m' & E & Hlen & H).
    + rewrite Forall_forall in *. intros p' I. destruct (Fr p' I) as [A [l' B]]. split; [exact A|].
      exists l'. rewrite N1; [exact B|]. intros C. apply Hn. rewrite <- C. apply in_map. exact I.
    + exact ND'.
    + exists m'. split; [exact E|]. split; [rewrite Hlen; apply length_set_nth|].
      intros b. rewrite H. destruct (in_dec Nat.eq_dec b (map fst ps)) as [I|I];
        destruct (in_dec Nat.eq_dec b (fst p :: map fst ps)) as [J|J]; try reflexivity.
      * exfalso. apply J. right. exact I.
      * destruct J as [J|J]; [|contradiction]. subst b. unfold m1. apply nth_error_set_nth_same. exact Hlt.
      * apply N1. intros C. apply J. left. congruence.
Qed.
Lemma nfree_ok m n : owned_ok m n -> exists m', nfree m n = Ok m' /\ freed m m' (owned_blocks n).
Proof. intros [A B]. rewrite nfree_all. apply free_all_ok; assumption. Qed.

(** ---- leaves of built trees ---- *)
Lemma nleaves_walk t : forall data own, nleaves (walk t data own) = map (fun d => (data, d)) (tleaves t).
Proof.
  induction t as [d|es IH|ts IH] using tree_ind''; intros data own; cbn [walk nleaves tleaves]; [reflexivity|..].
  - induction es as [|[k c] es IHes]; [reflexivity|].
    inversion IH as [|? ? Hc Hr]; subst. cbn [snd] in Hc. cbn [map flat_map fst snd]. rewrite map_app. rewrite <- (Hc data false).
    f_equal. apply IHes; assumption.
  - induction ts as [|c ts IHts]; [reflexivity|].
    inversion IH as [|? ? Hc Hr]; subst. cbn [map flat_map]. rewrite map_app. rewrite <- (Hc data false).
    f_equal. apply IHts; assumption.
Qed.
Lemma owns_walk_false t : forall data, owns (walk t data false) = [].
Proof.
  induction t as [d|es IH|ts IH] using tree_ind''; intros data; cbn [walk owns]; [destruct (is_empty d); reflexivity|..].
  - rewrite app_nil_r. induction es as [|[k c] es IHes]; [reflexivity|].
    inversion IH as [|? ? Hc Hr]; subst. cbn [snd] in Hc. cbn [map flat_map fst snd]. rewrite (Hc data). apply IHes; assumption.
  - rewrite app_nil_r. induction ts as [|c ts IHts]; [reflexivity|].
    inversion IH as [|? ? Hc Hr]; subst. cbn [map flat_map]. rewrite (Hc data). apply IHts; assumption.
Qed.
Lemma owns_walk t p : owns (walk t (Some p) true) =
  match t with TLeaf d => if is_empty d then [] else [p] | _ => [p] end.
Proof.
  destruct t as [d|es|ts]; cbn [walk owns]; [reflexivity|..].
  - replace (flat_map _ _) with (@nil ptr); [reflexivity|].
    induction es as [|[k c] es IHes]; [reflexivity|]. cbn [map flat_map fst snd]. rewrite owns_walk_false. exact IHes.
  - replace (flat_map _ _) with (@nil ptr); [reflexivity|].
    induction ts as [|c ts IHts]; [reflexivity|]. cbn [map flat_map]. rewrite owns_walk_false. exact IHts.
Qed.
Lemma nschema_walk t : forall data own, nschema (walk t data own) = t.
Proof.
  induction t as [d|es IH|ts IH] using tree_ind''; intros data own; cbn [walk nschema]; [reflexivity|..].
  - f_equal. rewrite map_map. induction es as [|[k c] es IHes]; [reflexivity|].
    inversion IH as [|? ? Hc Hr]; subst. cbn [snd] in Hc. cbn [map fst snd]. rewrite (Hc data false). f_equal. apply IHes; assumption.
  - f_equal. rewrite map_map. induction ts as [|c ts IHts]; [reflexivity|].
    inversion IH as [|? ? Hc Hr]; subst. cbn [map]. rewrite (Hc data false). f_equal. apply IHts; assumption.
Qed.
