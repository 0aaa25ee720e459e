(** Contiguity of a node's data.  Specification first. *)
From Verif Require Import Base DType SpecTree Mem MemFacts Node SpecNode NodeFacts NodeCompact NodeSet NodeSerial Contig.
Local Open Scope Z_scope.

(** ** Specification *)
(** the leaves that hold data, in depth-first order *)
Definition data_leaves (n : node) : list (option ptr * dtype) := filter (fun l => negb (is_empty (snd l))) (nleaves n).
(** [in_a_row l a b]: the leaves of [l] occupy the addresses from a to b one after the
    other without a gap, each from its first to the end of its last element *)
Fixpoint in_a_row (base : nat -> Z) (l : list (option ptr * dtype)) (a b : Z) : Prop :=
  match l with
  | [] => a = b
  | (p, d) :: r =>
      (exists q, p = Some q /\ base (fst q) + snd q + dt_off d = a) /\
      in_a_row base r (a + (dt_stride d * (dt_n d - 1) + dt_ebytes d)) b
  end.
(** the first thing met in depth-first order is a leaf with data *)
Fixpoint leads (n : node) : bool :=
  match n with
  | NLeaf _ d => negb (is_empty d)
  | NObj _ ((_, c) :: _) => leads c
  | NLst _ (c :: _) => leads c
  | _ => false
  end.

(** the bytes [bs] lie at address [a] and after *)
Definition at_address (base : nat -> Z) (m : mem) (a : Z) (bs : list byte) : Prop :=
  forall k, (k < length bs)%nat -> exists q, base (fst q) + snd q = a + Z.of_nat k /\ rd m q = nth_error bs k.
(** elements follow each other without padding *)
Definition dense (d : dtype) : Prop := dt_ebytes d = default_bytes (dt_id d) /\ dt_stride d = default_bytes (dt_id d).

(** ** Facts *)
Lemma data_leaves_obj : forall h es, data_leaves (NObj h es) = flat_map (fun e => data_leaves (snd e)) es.
Proof.
  intros h es. unfold data_leaves. cbn [nleaves]. induction es as [|[k c] r IH]; [reflexivity|].
  cbn [flat_map snd]. rewrite filter_app, IH. reflexivity.
Qed.
Lemma data_leaves_lst : forall h ks, data_leaves (NLst h ks) = flat_map data_leaves ks.
Proof.
  intros h ks. unfold data_leaves. cbn [nleaves]. induction ks as [|c r IH]; [reflexivity|].
  cbn [flat_map]. rewrite filter_app, IH. reflexivity.
Qed.
Lemma row_app : forall base l1 l2 a c, in_a_row base (l1 ++ l2) a c <-> exists b, in_a_row base l1 a b /\ in_a_row base l2 b c.
Proof.
  intros base. induction l1 as [|[p d] r IH]; intros l2 a c; cbn [app in_a_row].
  - split; [intros H; exists a; split; [reflexivity|exact H]|intros (b & -> & H); exact H].
  - rewrite IH. split.
    + intros (H & b & H1 & H2). exists b. tauto.
    + intros (b & (H & H1) & H2). split; [exact H|]. exists b. tauto.
Qed.

Lemma row_det : forall base l a b a' b', l <> [] -> in_a_row base l a b -> in_a_row base l a' b' -> a = a' /\ b = b'.
Proof.
  intros base l. induction l as [|[p d] r IH]; intros a b a' b' N H H'; [contradiction|].
  cbn [in_a_row] in H, H'. destruct H as ((q & -> & E) & H), H' as ((q' & Eq & E') & H'). injection Eq as <-.
  assert (Q : a = a') by lia. rewrite <- Q in *. clear Q E E'. split; [reflexivity|]. destruct r as [|x r]; [cbn in H, H'; lia|]. apply (IH _ _ _ _ ltac:(discriminate) H H').
Qed.
(** what a run that started with [st] and ended with [e] says about the leaves [l] *)
Definition ran (base : nat -> Z) (l : list (option ptr * dtype)) (st e : option Z) : Prop :=
  (l = [] /\ e = st) \/ (l <> [] /\ exists a b, in_a_row base l a b /\ (forall s, st = Some s -> a = s) /\ e = Some b).
Definition stuck (base : nat -> Z) (l : list (option ptr * dtype)) (st : option Z) : Prop :=
  l <> [] /\ forall a b, in_a_row base l a b -> ~ (forall s, st = Some s -> a = s).
Lemma ran_app : forall base l1 l2 st e1 e2, ran base l1 st e1 -> ran base l2 e1 e2 -> ran base (l1 ++ l2) st e2.
Proof.
  intros base l1 l2 st e1 e2 [[-> ->]|(N1 & a & b & R1 & S1 & ->)] H2; [exact H2|].
  destruct H2 as [[-> ->]|(N2 & a' & b' & R2 & S2 & ->)].
  - right. rewrite app_nil_r. split; [exact N1|]. exists a, b. tauto.
  - right. split; [destruct l1; [contradiction|discriminate]|]. exists a, b'. split; [|tauto]. apply row_app. exists b. split; [exact R1|].
    rewrite <- (S2 b eq_refl). exact R2.
Qed.
Lemma stuck_app1 : forall base l1 l2 st, stuck base l1 st -> stuck base (l1 ++ l2) st.
Proof.
  intros base l1 l2 st [N S]. split; [destruct l1; [contradiction|discriminate]|]. intros a b R. apply row_app in R. destruct R as (c & R & _).
  apply (S a c R).
Qed.
Lemma stuck_app2 : forall base l1 l2 st e, ran base l1 st e -> stuck base l2 e -> stuck base (l1 ++ l2) st.
Proof.
  intros base l1 l2 st e [[-> ->]|(N1 & a & b & R1 & S1 & ->)] [N2 S2]; [split; assumption|].
  split; [destruct l1; [contradiction|discriminate]|]. intros x y R H. apply row_app in R. destruct R as (c & R & R').
  destruct (row_det _ _ _ _ _ _ N1 R R1) as [-> ->]. apply (S2 b y R'). intros s E. injection E as <-. reflexivity.
Qed.
Definition outcome_ok (base : nat -> Z) (l : list (option ptr * dtype)) (st : option Z) (r : bool * option Z) : Prop :=
  match r with (true, e) => ran base l st e | (false, _) => stuck base l st end.

Lemma contig_leaf_ok : forall base h d st, is_empty d = false -> outcome_ok base (data_leaves (NLeaf h d)) st (contig_leaf base h d st).
Proof.
  intros base h d st E. unfold data_leaves. cbn [nleaves filter snd]. rewrite E. cbn [negb].
  unfold contig_leaf, addr0, elem0, opadd, addr, eaddr, strided_bytes. destruct (h_data h) as [q|]; cbn [option_map].
  - unfold padd. cbn [fst snd]. rewrite Z.mul_0_r, Z.add_0_r.
    assert (R : forall a b, in_a_row base [(Some q, d)] a b <-> base (fst q) + (snd q + dt_off d) = a /\ a + (dt_stride d * (dt_n d - 1) + dt_ebytes d) = b).
    { intros a b. cbn [in_a_row]. split.
      - intros ((q' & Eq & H) & H'). injection Eq as <-. lia.
      - intros (H & H'). split; [exists q; split; [reflexivity|lia]|exact H']. }
    destruct st as [s|].
    + destruct (base (fst q) + (snd q + dt_off d) =? s) eqn:Q; cbn [outcome_ok].
      * apply Z.eqb_eq in Q. right. split; [discriminate|]. eexists. eexists. split; [apply R; split; reflexivity|]. split; [intros x Ex; injection Ex as <-; lia|reflexivity].
      * apply Z.eqb_neq in Q. split; [discriminate|]. intros a b H. apply R in H. intros C. specialize (C s eq_refl). lia.
    + cbn [outcome_ok]. right. split; [discriminate|]. eexists. eexists. split; [apply R; split; reflexivity|]. split; [intros x Ex; discriminate Ex|reflexivity].
  - assert (S : stuck base [(None, d)] st) by (split; [discriminate|]; intros a b ((q & Eq & _) & _); discriminate Eq). destruct st; exact S.
Qed.

Lemma contig_ok : forall base n st, outcome_ok base (data_leaves n) st (contig base n st st).
Proof.
  intros base n. induction n as [h d|h es IH|h ks IH] using node_ind'; intros st.
  - cbn [contig]. destruct (is_empty d) eqn:E; [|apply contig_leaf_ok; exact E].
    unfold data_leaves. cbn [nleaves filter snd]. rewrite E. left. split; reflexivity.
  - rewrite data_leaves_obj. cbn [contig]. revert st. induction es as [|[k c] r IHr]; intros st; [left; split; reflexivity|].
    cbn [flat_map snd]. pose proof (Forall_inv IH st) as H. cbn [snd] in H. destruct (contig base c st st) as [[|] e]; cbn [outcome_ok] in H.
    + specialize (IHr (Forall_inv_tail IH) e).
      match goal with |- outcome_ok _ _ _ ?g => destruct g as [[|] e'] end; cbn [outcome_ok] in IHr |- *.
      * apply (ran_app _ _ _ _ _ _ H IHr).
      * apply (stuck_app2 _ _ _ _ _ H IHr).
    + cbn [outcome_ok]. apply stuck_app1. exact H.
  - rewrite data_leaves_lst. cbn [contig]. revert st. induction ks as [|c r IHr]; intros st; [left; split; reflexivity|].
    cbn [flat_map]. pose proof (Forall_inv IH st) as H. destruct (contig base c st st) as [[|] e]; cbn [outcome_ok] in H.
    + specialize (IHr (Forall_inv_tail IH) e).
      match goal with |- outcome_ok _ _ _ ?g => destruct g as [[|] e'] end; cbn [outcome_ok] in IHr |- *.
      * apply (ran_app _ _ _ _ _ _ H IHr).
      * apply (stuck_app2 _ _ _ _ _ H IHr).
    + cbn [outcome_ok]. apply stuck_app1. exact H.
Qed.

Theorem is_contiguous_law : forall base n, is_contiguous base n = true <-> exists a b, in_a_row base (data_leaves n) a b.
Proof.
  intros base n. unfold is_contiguous. pose proof (contig_ok base n None) as H. destruct (contig base n None None) as [[|] e]; cbn [outcome_ok fst] in *.
  - split; [intros _|reflexivity]. destruct H as [[-> _]|(_ & a & b & R & _)]; [exists 0, 0; reflexivity|exists a, b; exact R].
  - split; [discriminate|]. intros (a & b & R). exfalso. destruct H as [_ H]. apply (H a b R). intros s C. discriminate C.
Qed.

(** where the search starts matters only if a leaf comes first *)
Lemma contig_forgets : forall base n s, leads n = false -> contig base n (Some s) None = contig base n None None.
Proof.
  intros base n s. induction n as [h d|h es IH|h ks IH] using node_ind'; intros L.
  - cbn [leads] in L. cbn [contig]. destruct (is_empty d); [reflexivity|discriminate L].
  - destruct es as [|[k c] r]; [reflexivity|]. cbn [leads] in L. cbn [contig]. pose proof (Forall_inv IH) as H. cbn [snd] in H. rewrite (H L). reflexivity.
  - destruct ks as [|c r]; [reflexivity|]. cbn [leads] in L. cbn [contig]. pose proof (Forall_inv IH) as H. rewrite (H L). reflexivity.
Qed.
Lemma contig_leads : forall base n st e1 e2, leads n = true -> contig base n st e1 = contig base n st e2.
Proof.
  intros base n st e1 e2. induction n as [h d|h es IH|h ks IH] using node_ind'; intros L.
  - cbn [leads] in L. cbn [contig]. destruct (is_empty d); [discriminate L|reflexivity].
  - destruct es as [|[k c] r]; [discriminate L|]. cbn [leads] in L. cbn [contig]. pose proof (Forall_inv IH) as H. cbn [snd] in H. rewrite (H L). reflexivity.
  - destruct ks as [|c r]; [discriminate L|]. cbn [leads] in L. cbn [contig]. pose proof (Forall_inv IH) as H. rewrite (H L). reflexivity.
Qed.
Theorem contiguous_with_law : forall base n s, leads n = true ->
  (contiguous_with base n (Some s) = true <-> exists b, in_a_row base (data_leaves n) s b).
Proof.
  intros base n s L. unfold contiguous_with. rewrite (contig_leads base n (Some s) None (Some s) L).
  pose proof (contig_ok base n (Some s)) as H. destruct (contig base n (Some s) (Some s)) as [[|] e]; cbn [outcome_ok fst] in *.
  - split; [intros _|reflexivity]. destruct H as [[-> _]|(_ & a & b & R & S & _)]; [exists s; reflexivity|]. rewrite (S s eq_refl) in R. exists b. exact R.
  - split; [discriminate|]. intros (b & R). exfalso. destruct H as [_ H]. apply (H s b R). intros x E. injection E as <-. reflexivity.
Qed.
Theorem contiguous_with_any : forall base n a, contiguous_with base n a = true -> exists x y, in_a_row base (data_leaves n) x y.
Proof.
  intros base n [s|] H; [|discriminate H]. destruct (leads n) eqn:L.
  - apply (contiguous_with_law base n s L) in H. destruct H as [b H]. exists s, b. exact H.
  - apply is_contiguous_law. unfold contiguous_with in H. rewrite (contig_forgets base n s L) in H. exact H.
Qed.
(** one node directly after another *)
Theorem contiguous_after_law : forall base n o, leads n = true -> data_leaves o <> [] ->
  (contiguous_with_node base n o = true <-> exists a b, in_a_row base (data_leaves o ++ data_leaves n) a b).
Proof.
  intros base n o L N. unfold contiguous_with_node. pose proof (contig_ok base o None) as H.
  destruct (contig base o None None) as [[|] e]; cbn [outcome_ok andb] in *.
  - destruct H as [[C _]|(_ & a & b & R & _ & ->)]; [contradiction|]. rewrite (contiguous_with_law base n b L). split.
    + intros (c & R'). exists a, c. apply row_app. exists b. tauto.
    + intros (x & y & R'). apply row_app in R'. destruct R' as (z & R1 & R2). destruct (row_det _ _ _ _ _ _ N R1 R) as [_ ->]. exists y. exact R2.
  - split; [discriminate|]. intros (a & b & R). apply row_app in R. destruct R as (c & R & _). exfalso. destruct H as [_ H]. apply (H a c R). discriminate.
Qed.

Lemma first_data_none : forall c, data_leaves c = [] -> first_data c = None.
Proof.
  intros c. induction c as [h d|h es IH|h ks IH] using node_ind'; intros D.
  - unfold data_leaves in D. cbn [nleaves filter snd] in D. cbn [first_data]. destruct (is_empty d); [reflexivity|discriminate D].
  - rewrite data_leaves_obj in D. cbn [first_data]. induction es as [|[k c] t IHt]; [reflexivity|]. cbn [flat_map snd] in D. apply app_eq_nil in D.
    pose proof (Forall_inv IH) as H. cbn [snd] in H. rewrite (H (proj1 D)). apply IHt; [exact (Forall_inv_tail IH)|apply D].
  - rewrite data_leaves_lst in D. cbn [first_data]. induction ks as [|c t IHt]; [reflexivity|]. cbn [flat_map] in D. apply app_eq_nil in D.
    pose proof (Forall_inv IH) as H. rewrite (H (proj1 D)). apply IHt; [exact (Forall_inv_tail IH)|apply D].
Qed.
(** contiguous_data_ptr is the start of the first leaf *)
Lemma first_data_some : forall n l r, data_leaves n = l :: r -> fst l <> None -> first_data n = opadd (fst l) (dt_off (snd l)).
Proof.
  intros n. induction n as [h d|h es IH|h ks IH] using node_ind'; intros l r E N.
  - unfold data_leaves in E. cbn [nleaves filter snd] in E. cbn [first_data]. destruct (is_empty d); cbn in E; [discriminate E|].
    injection E as <- _. unfold elem0, eaddr. cbn [fst snd]. rewrite Z.mul_0_r, Z.add_0_r. reflexivity.
  - rewrite data_leaves_obj in E. cbn [first_data]. induction es as [|[k c] t IHt]; [discriminate E|]. cbn [flat_map snd] in E.
    pose proof (Forall_inv IH) as H. cbn [snd] in H. destruct (data_leaves c) as [|x y] eqn:D.
    + pose proof (first_data_none c D) as F.
      rewrite F. apply IHt; [exact (Forall_inv_tail IH)|exact E].
    + cbn [app] in E. injection E as -> E. rewrite (H l y ltac:(first [exact D|reflexivity]) N). destruct (fst l) as [p|]; [reflexivity|contradiction].
  - rewrite data_leaves_lst in E. cbn [first_data]. induction ks as [|c t IHt]; [discriminate E|]. cbn [flat_map] in E.
    pose proof (Forall_inv IH) as H. destruct (data_leaves c) as [|x y] eqn:D.
    + pose proof (first_data_none c D) as F.
      rewrite F. apply IHt; [exact (Forall_inv_tail IH)|exact E].
    + cbn [app] in E. injection E as -> E. rewrite (H l y ltac:(first [exact D|reflexivity]) N). destruct (fst l) as [p|]; [reflexivity|contradiction].
Qed.
Theorem contiguous_data_ptr_law : forall base n, data_leaves n <> [] ->
  (is_contiguous base n = true -> exists p, contiguous_data_ptr base n = Some p /\ exists b, in_a_row base (data_leaves n) (base (fst p) + snd p) b) /\
  (is_contiguous base n = false -> contiguous_data_ptr base n = None).
Proof.
  intros base n N. unfold contiguous_data_ptr. split; intros C; rewrite C; [|reflexivity].
  apply is_contiguous_law in C. destruct C as (a & b & R). destruct (data_leaves n) as [|[l d] r] eqn:D; [contradiction|].
  pose proof R as R'. cbn [in_a_row] in R'. destruct R' as ((q & -> & E) & _). rewrite (first_data_some n _ _ D ltac:(discriminate)). cbn [fst snd opadd option_map].
  eexists. split; [reflexivity|]. exists b. unfold padd. cbn [fst snd]. replace (base (fst q) + (snd q + dt_off d)) with a by lia. exact R.
Qed.

(** ** The bytes *)
Lemma at_app : forall base m a x y, at_address base m a x -> at_address base m (a + Z.of_nat (length x)) y -> at_address base m a (x ++ y).
Proof.
  intros base m a x y Hx Hy k Hk. rewrite app_length in Hk. destruct (Nat.lt_ge_cases k (length x)) as [L|L].
  - rewrite nth_error_app1 by exact L. apply Hx. exact L.
  - rewrite nth_error_app2 by exact L. destruct (Hy (k - length x)%nat ltac:(lia)) as (q & Q1 & Q2). exists q. split; [lia|exact Q2].
Qed.
Theorem contiguous_bytes_law : forall base m n v a b, nvalue m n = Ok v -> Forall (fun l => dense (snd l)) (data_leaves n) ->
  in_a_row base (data_leaves n) a b -> at_address base m a (vbytes v) /\ b = a + Z.of_nat (length (vbytes v)).
Proof.
  intros base m n. induction n as [h d|h es IH|h ks IH] using node_ind'; intros v a b E D R.
  - cbn [nvalue] in E. destruct (leaf_value m (h_data h) d) as [lv| | |] eqn:L; try discriminate E. injection E as <-.
    rewrite vbytes_leaf. unfold data_leaves in *. cbn [nleaves filter snd] in *.
    destruct (leaf_value_inv _ _ _ _ L) as [[T ->]|(T & Hn & es & -> & Ho)].
    + unfold is_empty in *. rewrite T in *. cbn in R. subst b. cbn [leaf_bytes length]. split; [intros k Hk; cbn in Hk; lia|lia].
    + rewrite (is_data_empty _ T) in *. cbn [negb in_a_row] in R, D. destruct R as ((q & Eq & A) & <-). pose proof (Forall_inv D) as [D1 D2]. cbn [snd] in D1, D2.
      rewrite Eq in Ho. cbn [leaf_bytes]. pose proof (holds_dense m q d es T Hn (or_introl D2) Ho) as Lo. destruct (load_inv _ _ _ _ Lo) as (N0 & Le & _ & V).
      split.
      * intros k Hk. exists (padd (padd q (eaddr d 0)) (Z.of_nat k)). split.
        -- unfold padd, eaddr. cbn [fst snd]. lia.
        -- rewrite <- V by lia. rewrite Nat2Z.id. reflexivity.
      * rewrite Le, D1, D2. lia.
  - rewrite data_leaves_obj in *. cbn [nvalue] in E.
    destruct (omapM _ es) as [vs| | |] eqn:O in E; try discriminate E. injection E as <-. rewrite vbytes_obj.
    revert vs O a b D R. induction es as [|[k c] r IHr]; intros vs O a b D R.
    + cbn in O. injection O as <-. cbn in R |- *. subst b. split; [intros k Hk; cbn in Hk; lia|lia].
    + cbn [omapM fst snd] in O. destruct (nvalue m c) as [vc| | |] eqn:Vc; cbn [obind] in O; try discriminate O.
      destruct (omapM _ r) as [vr| | |] eqn:Or in O; cbn [obind] in O; try discriminate O. injection O as <-.
      cbn [flat_map snd] in D, R |- *. apply Forall_app in D. destruct D as [D1 D2]. apply row_app in R. destruct R as (x & R1 & R2).
      pose proof (Forall_inv IH vc a x) as H. cbn [snd] in H. destruct (H Vc D1 R1) as [A1 ->].
      destruct (IHr (Forall_inv_tail IH) vr Or _ b D2 R2) as [A2 ->]. split; [apply at_app; assumption|]. rewrite app_length. lia.
  - rewrite data_leaves_lst in *. cbn [nvalue] in E.
    destruct (omapM _ ks) as [vs| | |] eqn:O in E; try discriminate E. injection E as <-. rewrite vbytes_lst.
    revert vs O a b D R. induction ks as [|c r IHr]; intros vs O a b D R.
    + cbn in O. injection O as <-. cbn in R |- *. subst b. split; [intros k Hk; cbn in Hk; lia|lia].
    + cbn [omapM] in O. destruct (nvalue m c) as [vc| | |] eqn:Vc; cbn [obind] in O; try discriminate O.
      destruct (omapM _ r) as [vr| | |] eqn:Or in O; cbn [obind] in O; try discriminate O. injection O as <-.
      cbn [flat_map] in D, R |- *. apply Forall_app in D. destruct D as [D1 D2]. apply row_app in R. destruct R as (x & R1 & R2).
      destruct (Forall_inv IH vc a x Vc D1 R1) as [A1 ->].
      destruct (IHr (Forall_inv_tail IH) vr Or _ b D2 R2) as [A2 ->]. split; [apply at_app; assumption|]. rewrite app_length. lia.
Qed.

(** a compact layout is contiguous, and starts at its buffer *)
Lemma compact_row : forall base p ds off, back_to_back off ds ->
  in_a_row base (filter (fun l => negb (is_empty (snd l))) (map (fun d => (Some p, d)) ds)) (base (fst p) + snd p + off) (base (fst p) + snd p + off + total_of ds).
Proof.
  intros base p. induction ds as [|d r IH]; intros off B; [cbn; lia|]. cbn [back_to_back] in B. destruct B as [H B]. cbn [map filter snd total_of].
  destruct (is_empty d) eqn:E; cbn [negb].
  - assert (T : dt_id d = EMPTY) by (unfold is_empty in E; destruct (dt_id d); (reflexivity || discriminate E)).
    rewrite T in *. cbn [default_bytes] in *. specialize (IH _ B). replace (off + 0 * dt_n d) with off in IH by lia.
    replace (0 * dt_n d + total_of r) with (total_of r) by lia. exact IH.
  - assert (T : dt_id d <> EMPTY) by (intros C; unfold is_empty in E; rewrite C in E; discriminate E). destruct (H T) as (O & S & W).
    cbn [in_a_row]. split; [exists p; split; [reflexivity|lia]|]. specialize (IH _ B). rewrite S, W.
    replace (base (fst p) + snd p + off + (default_bytes (dt_id d) * (dt_n d - 1) + default_bytes (dt_id d))) with (base (fst p) + snd p + (off + default_bytes (dt_id d) * dt_n d)) by lia.
    replace (base (fst p) + snd p + off + (default_bytes (dt_id d) * dt_n d + total_of r)) with (base (fst p) + snd p + (off + default_bytes (dt_id d) * dt_n d) + total_of r) by lia.
    exact IH.
Qed.
Theorem compact_contiguous_law : forall base t p own, back_to_back 0 (tleaves t) ->
  let n := walk t (Some p) own in
  is_contiguous base n = true /\ in_a_row base (data_leaves n) (addr base p) (addr base p + total_of (tleaves t)) /\
  Forall (fun l => dense (snd l)) (data_leaves n).
Proof.
  intros base t p own B n. pose proof (compact_row base p _ 0 B) as R. unfold n, addr, data_leaves. rewrite nleaves_walk.
  replace (base (fst p) + snd p + 0) with (base (fst p) + snd p) in R by lia. split; [|split; [exact R|]].
  - apply is_contiguous_law. unfold data_leaves. rewrite nleaves_walk. eauto.
  - clear R n. generalize dependent 0. induction (tleaves t) as [|d r IH]; intros off B; [constructor|]. cbn [back_to_back] in B. destruct B as [H B]. cbn [map filter snd].
    destruct (is_empty d) eqn:E; cbn [negb]; [eauto|]. constructor; [|eauto].
    assert (T : dt_id d <> EMPTY) by (intros C; unfold is_empty in E; rewrite C in E; discriminate E). destruct (H T) as (O & S & W). split; assumption.
Qed.
