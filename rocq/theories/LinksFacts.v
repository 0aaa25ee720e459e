(** Specification and lemmas for linked nodes and schemas (C22, C40). *)
From Coq Require Import Lia FinFun.
From Verif Require Import Base DType Mem Node NodeLinks.

(** ---- specification ---- *)
(** Nodes and schemas in step: every node has a live schema of its own with as many
    children, the i-th child node uses the i-th child schema, child schemas know their
    parent and are listed by it once, and a node has a parent (and does not own its
    schema) exactly when its schema has a parent. *)
Record sync (H : heap) : Prop := {
  sy_node : forall x n, nodes H x = Some n -> exists s, schemas H (n_schema n) = Some s /\
    length (n_kids n) = length (s_kids s) /\
    (forall i k, nth_error (n_kids n) i = Some k -> exists nk, nodes H k = Some nk /\ nth_error (s_kids s) i = Some (n_schema nk)) /\
    (n_parent n = None <-> s_parent s = None) /\ (n_owns n = true <-> s_parent s = None);
  sy_own : forall x y n n', nodes H x = Some n -> nodes H y = Some n' -> n_schema n = n_schema n' -> x = y;
  sy_down : forall s o c, schemas H s = Some o -> In c (s_kids o) -> exists co, schemas H c = Some co /\ s_parent co = Some s;
  sy_up : forall s o q, schemas H s = Some o -> s_parent o = Some q -> exists qo, schemas H q = Some qo /\ In s (s_kids qo);
  sy_once : forall s o, schemas H s = Some o -> NoDup (s_kids o);
  sy_kind : forall s o, schemas H s = Some o -> s_kids o <> [] -> is_tree_type (dt_id (s_dt o)) = true;
  sy_names : forall s o, schemas H s = Some o -> dt_id (s_dt o) = OBJECT -> length (s_names o) = length (s_kids o);
  sy_new_n : forall x n, nodes H x = Some n -> x < next H;
  sy_new_s : forall s o, schemas H s = Some o -> s < next H
}.
(** Children know their parent. *)
Definition kids_know (H : heap) (x : nat) : Prop :=
  forall n k nk, nodes H x = Some n -> In k (n_kids n) -> nodes H k = Some nk -> n_parent nk = Some x.

(** The tree of objects hanging from a node, and what a user sees of it. *)
Inductive otree := OT (x s : nat) (h : hdr) (d : dtype) (names : list str) (ks : list otree).
Inductive ctree := CT (h : hdr) (d : dtype) (names : list str) (ks : list ctree).
Inductive hangs (H : heap) : nat -> otree -> Prop :=
| hangs_intro x n s ks : nodes H x = Some n -> schemas H (n_schema n) = Some s -> Forall2 (hangs H) (n_kids n) ks ->
    hangs H x (OT x (n_schema n) (n_hdr n) (s_dt s) (s_names s) ks).
Fixpoint seen (t : otree) : ctree := match t with OT _ _ h d nm ks => CT h d nm (map seen ks) end.
Fixpoint ids (t : otree) : list nat := match t with OT x _ _ _ _ ks => x :: concat (map ids ks) end.
Fixpoint sids (t : otree) : list nat := match t with OT _ s _ _ _ ks => s :: concat (map sids ks) end.
(** node [x] shows the tree [c] *)
Definition content (H : heap) (x : nat) (c : ctree) : Prop := exists t, hangs H x t /\ seen t = c.
(** [y] is [x] or below it *)
Definition inside (H : heap) (y x : nat) : Prop := exists t, hangs H x t /\ In y (ids t).
Definition apart (H : heap) (a b : nat) : Prop := ~ inside H a b /\ ~ inside H b a.
(** [a] and [b] are children of one node and [a] comes first *)
Definition comes_before (H : heap) (a b : nat) : Prop :=
  exists na nb q qo i j, nodes H a = Some na /\ nodes H b = Some nb /\ schemas H q = Some qo /\
    nth_error (s_kids qo) i = Some (n_schema na) /\ nth_error (s_kids qo) j = Some (n_schema nb) /\ i < j.

Section OtreeInd.
Variable P : otree -> Prop.
Hypothesis HP : forall x s h d nm ks, Forall P ks -> P (OT x s h d nm ks).
Fixpoint otree_ind' (t : otree) : P t :=
  match t with
  | OT x s h d nm ks =>
      HP x s h d nm ks ((fix go (l : list otree) : Forall P l := match l with [] => Forall_nil P | c :: r => Forall_cons c (otree_ind' c) (go r) end) ks)
  end.
End OtreeInd.

(** ---- lists ---- *)
Lemma index_of_spec : forall s l i, index_of s l = Some i <-> nth_error l i = Some s /\ forall j, j < i -> nth_error l j <> Some s.
Proof.
  intros s. induction l as [|x l IH]; intros i; cbn [index_of].
  - split; [discriminate|]. intros [E _]. destruct i; discriminate E.
  - destruct (Nat.eqb_spec x s) as [->|N].
    + split; [intros E; injection E as <-; split; [reflexivity|lia]|]. intros [E F]. destruct i as [|i]; [reflexivity|]. exfalso. apply (F 0); [lia|reflexivity].
    + destruct (index_of s l) as [k|] eqn:Q; cbn [option_map].
      * destruct (proj1 (IH k) eq_refl) as [A B]. split.
        -- intros E. injection E as <-. split; [exact A|]. intros [|j] Hj; cbn [nth_error]; [congruence|]. apply B. lia.
        -- intros [E F]. destruct i as [|i]; [cbn in E; congruence|]. cbn [nth_error] in E. f_equal. f_equal. assert (Some k = Some i) as X; [|congruence]. apply IH. split; [exact E|].
           intros j Hj. apply (F (S j)). lia.
      * split; [discriminate|]. intros [E F]. destruct i as [|i]; [cbn in E; congruence|]. exfalso. assert (None = Some i) as X; [|discriminate X]. apply IH. split; [exact E|]. intros j Hj. apply (F (S j)). lia.
Qed.
Lemma index_of_In : forall s l, In s l -> exists i, index_of s l = Some i.
Proof.
  intros s l. induction l as [|x l IH]; intros I; [destruct I|]. cbn [index_of]. destruct (Nat.eqb_spec x s) as [->|N]; [eauto|]. destruct I as [->|I]; [congruence|].
  destruct (IH I) as (i & ->). cbn. eauto.
Qed.
Definition sw (a b x : nat) : nat := if Nat.eqb x a then b else if Nat.eqb x b then a else x.
Lemma sw_l : forall a b, sw a b a = b.
Proof. intros. unfold sw. rewrite Nat.eqb_refl. reflexivity. Qed.
Lemma sw_r : forall a b, sw a b b = a.
Proof. intros. unfold sw. rewrite Nat.eqb_refl. destruct (Nat.eqb_spec b a); congruence. Qed.
Lemma sw_o : forall a b x, x <> a -> x <> b -> sw a b x = x.
Proof. intros a b x A B. unfold sw. destruct (Nat.eqb_spec x a); [congruence|]. destruct (Nat.eqb_spec x b); congruence. Qed.
Lemma sw_sw : forall a b x, sw a b (sw a b x) = x.
Proof.
  intros a b x. destruct (Nat.eq_dec x a) as [->|A]; [rewrite sw_l, sw_r; reflexivity|]. destruct (Nat.eq_dec x b) as [->|B]; [rewrite sw_r, sw_l; reflexivity|].
  rewrite (sw_o a b x A B). apply sw_o; assumption.
Qed.
Lemma sw_inj : forall a b x y, sw a b x = sw a b y -> x = y.
Proof. intros a b x y E. rewrite <- (sw_sw a b x), E, sw_sw. reflexivity. Qed.
Lemma nth_ext_eq : forall {A} (l l' : list A), (forall i, nth_error l i = nth_error l' i) -> l = l'.
Proof.
  induction l as [|x l IH]; intros [|y l'] H; [reflexivity|specialize (H 0); discriminate H|specialize (H 0); discriminate H|].
  pose proof (H 0) as H0. cbn in H0. injection H0 as ->. f_equal. apply IH. intros i. apply (H (S i)).
Qed.
Lemma nodup_at : forall {A} (l : list A) i j x, NoDup l -> nth_error l i = Some x -> nth_error l j = Some x -> i = j.
Proof. intros A l i j x N E F. apply (proj1 (NoDup_nth_error l) N); [apply nth_error_Some; congruence|congruence]. Qed.
Lemma map_sw_out : forall a b l, ~ In a l -> ~ In b l -> map (sw a b) l = l.
Proof.
  intros a b. induction l as [|x l IH]; intros A B; cbn [map]; [reflexivity|]. cbn [In] in *. rewrite sw_o by intuition congruence. rewrite IH by intuition. reflexivity.
Qed.
Lemma map_sw_one : forall a b l i, NoDup l -> nth_error l i = Some a -> ~ In b l -> set_nth l i b = map (sw a b) l.
Proof.
  intros a b l i N E B. apply nth_ext_eq. intros j. rewrite nth_error_map. destruct (Nat.eq_dec i j) as [->|Ne].
  - rewrite nth_error_set_nth_same by (apply nth_error_Some; congruence). rewrite E. cbn. rewrite sw_l. reflexivity.
  - rewrite nth_error_set_nth_other by exact Ne. destruct (nth_error l j) as [c|] eqn:Q; [|reflexivity]. cbn. rewrite sw_o; [reflexivity| |].
    + intros ->. apply Ne. eapply nodup_at; eauto.
    + intros ->. apply B. eapply nth_error_In; eauto.
Qed.
Lemma map_sw_two : forall a b l i j, NoDup l -> nth_error l i = Some a -> nth_error l j = Some b -> i <> j -> set_nth (set_nth l i b) j a = map (sw a b) l.
Proof.
  intros a b l i j N E F Nij. apply nth_ext_eq. intros k. rewrite nth_error_map. destruct (Nat.eq_dec j k) as [->|Ne].
  - rewrite nth_error_set_nth_same by (rewrite length_set_nth; apply nth_error_Some; congruence). rewrite F. cbn. rewrite sw_r. reflexivity.
  - rewrite nth_error_set_nth_other by exact Ne. destruct (Nat.eq_dec i k) as [->|Ne'].
    + rewrite nth_error_set_nth_same by (apply nth_error_Some; congruence). rewrite E. cbn. rewrite sw_l. reflexivity.
    + rewrite nth_error_set_nth_other by exact Ne'. destruct (nth_error l k) as [c|] eqn:Q; [|reflexivity]. cbn. rewrite sw_o; [reflexivity| |]; intros ->; [apply Ne'|apply Ne]; eapply nodup_at; eauto.
Qed.
Lemma map_sw_comm : forall a b l, map (sw a b) l = map (sw b a) l.
Proof.
  intros a b l. apply map_ext. intros x. unfold sw. destruct (Nat.eqb_spec x a), (Nat.eqb_spec x b); congruence.
Qed.
Lemma upd_same : forall {A} (f : nat -> option A) k v, upd f k v k = v.
Proof. intros. unfold upd. rewrite Nat.eqb_refl. reflexivity. Qed.
Lemma upd_other : forall {A} (f : nat -> option A) k v x, x <> k -> upd f k v x = f x.
Proof. intros. unfold upd. destruct (Nat.eqb_spec x k); congruence. Qed.

(** ---- swap ---- *)
(** what a successful swap does, with [sa], [sb] the schemas of the two nodes *)
Definition swapped (H H' : heap) (a b : nat) (na nb : nobj) : Prop :=
  let t := sw (n_schema na) (n_schema nb) in
  nodes H' a = Some (mkN (n_schema nb) (n_owns na) (n_parent na) (n_kids nb) (n_hdr nb)) /\
  nodes H' b = Some (mkN (n_schema na) (n_owns nb) (n_parent nb) (n_kids na) (n_hdr na)) /\
  (forall x, x <> a -> x <> b -> nodes H' x = nodes H x) /\
  next H' = next H /\
  (forall s o, schemas H s = Some o -> exists o', schemas H (t s) = Some o' /\
     schemas H' s = Some (mkS (s_parent o') (s_dt o) (s_names o) (map t (s_kids o)))) /\
  (forall s, schemas H s = None -> schemas H' s = None).

Definition kmod (H H1 : heap) (g : nat -> list nat -> list nat) : Prop :=
  nodes H1 = nodes H /\ next H1 = next H /\ forall s, schemas H1 s = option_map (fun o => s_with_kids o (g s (s_kids o))) (schemas H s).
Lemma with_kids_same : forall o, s_with_kids o (s_kids o) = o.
Proof. intros []. reflexivity. Qed.
Lemma replace_ok : forall H n s s' o, schemas H s = Some o -> (n_parent n = None <-> s_parent o = None) ->
  match s_parent o with
  | None => replace_in_parent H n s s' = Ok H
  | Some q => forall qo i, schemas H q = Some qo -> index_of s (s_kids qo) = Some i ->
      exists H1, replace_in_parent H n s s' = Ok H1 /\ kmod H H1 (fun k ks => if Nat.eqb k q then set_nth ks i s' else ks)
  end.
Proof.
  intros H n s s' o E P. unfold replace_in_parent. destruct (n_parent n) as [p|] eqn:Np.
  - destruct (s_parent o) as [q|] eqn:Q; [|destruct P as [_ P]; discriminate (P eq_refl)]. intros qo i Eq I. unfold sget. rewrite E. cbn [obind]. rewrite Q, Eq. cbn [obind]. rewrite I.
    eexists. split; [reflexivity|]. split; [reflexivity|]. split; [reflexivity|]. intros k. unfold put_schema, upd. cbn [schemas]. destruct (Nat.eqb_spec k q) as [->|N]; [rewrite Eq; reflexivity|].
    destruct (schemas H k) as [ko|]; cbn [option_map]; [rewrite with_kids_same|]; reflexivity.
  - destruct P as [P _]. rewrite (P eq_refl). reflexivity.
Qed.
Lemma swap_final : forall H H2 a b na nb g, a <> b -> nodes H a = Some na -> nodes H b = Some nb -> n_schema na <> n_schema nb ->
  kmod H H2 g -> (forall s o, schemas H s = Some o -> g s (s_kids o) = map (sw (n_schema na) (n_schema nb)) (s_kids o)) ->
  (exists oa, schemas H (n_schema na) = Some oa) -> (exists ob, schemas H (n_schema nb) = Some ob) ->
  exists H', (do oa <- sget H2 (n_schema na); do ob <- sget H2 (n_schema nb);
      do ob' <- sget (put_schema H2 (n_schema na) (Some (s_with_parent oa (s_parent ob)))) (n_schema nb);
      Ok (put_node (put_node (put_schema (put_schema H2 (n_schema na) (Some (s_with_parent oa (s_parent ob)))) (n_schema nb) (Some (s_with_parent ob' (s_parent oa))))
             a (Some (mkN (n_schema nb) (n_owns na) (n_parent na) (n_kids nb) (n_hdr nb))))
             b (Some (mkN (n_schema na) (n_owns nb) (n_parent nb) (n_kids na) (n_hdr na))))) = Ok H' /\ swapped H H' a b na nb.
Proof.
  intros H H2 a b na nb g Nab Ea Eb Ns (K1 & K2 & K3) G (oa & Oa) (ob & Ob). unfold sget. rewrite !K3, Oa, Ob. cbn [option_map obind put_schema schemas]. rewrite (upd_other _ _ _ _ (not_eq_sym Ns)), K3, Ob. cbn [option_map obind].
  eexists. split; [reflexivity|]. unfold swapped, put_node, put_schema. cbn [nodes schemas next]. rewrite (upd_other _ b _ a Nab), !upd_same.
  split; [reflexivity|]. split; [reflexivity|]. split; [intros x Xa Xb; rewrite !upd_other by assumption; rewrite K1; reflexivity|]. split; [exact K2|]. split.
  - intros s o E. destruct (Nat.eq_dec s (n_schema nb)) as [->|Nb].
    + rewrite upd_same, sw_r. exists oa. split; [exact Oa|]. rewrite Ob in E. injection E as <-. unfold s_with_parent, s_with_kids. cbn [s_dt s_names s_kids s_parent]. rewrite (G _ _ Ob). reflexivity.
    + rewrite upd_other by exact Nb. destruct (Nat.eq_dec s (n_schema na)) as [->|Na].
      * rewrite upd_same, sw_l. exists ob. split; [exact Ob|]. rewrite Oa in E. injection E as <-. unfold s_with_parent, s_with_kids. cbn [s_dt s_names s_kids s_parent]. rewrite (G _ _ Oa). reflexivity.
      * rewrite upd_other by exact Na. rewrite sw_o by assumption. exists o. split; [exact E|]. rewrite K3, E. cbn [option_map]. unfold s_with_kids. rewrite (G _ _ E). reflexivity.
  - intros s E. rewrite !upd_other, K3, E; [reflexivity| |]; congruence.
Qed.
Lemma kmod_comp : forall H H1 H2 g g', kmod H H1 g -> kmod H1 H2 g' -> kmod H H2 (fun s ks => g' s (g s ks)).
Proof.
  intros H H1 H2 g g' (A & B & C) (A' & B' & C'). split; [congruence|]. split; [congruence|]. intros s. rewrite C', C. destruct (schemas H s); reflexivity.
Qed.
Lemma kmod_id : forall H, kmod H H (fun _ ks => ks).
Proof. intros H. split; [reflexivity|]. split; [reflexivity|]. intros s. destruct (schemas H s) as [o|]; cbn [option_map]; [rewrite with_kids_same|]; reflexivity. Qed.

(** where a schema is listed *)
Lemma listed_parent : forall H s o q qo, sync H -> schemas H s = Some o -> schemas H q = Some qo -> In s (s_kids qo) -> s_parent o = Some q.
Proof. intros H s o q qo Y E Eq I. destruct (sy_down H Y q qo s Eq I) as (co & C & P). congruence. Qed.
Theorem swap_ok : forall H a b na nb, sync H -> a <> b -> nodes H a = Some na -> nodes H b = Some nb -> ~ comes_before H a b ->
  exists H', hswap H a b = Ok H' /\ swapped H H' a b na nb.
Proof.
  intros H a b na nb Y Nab Ea Eb NB. assert (Ns : n_schema na <> n_schema nb) by (intros E; apply Nab; exact (sy_own H Y a b na nb Ea Eb E)).
  destruct (sy_node H Y a na Ea) as (oa & Oa & _ & _ & Pa & _). destruct (sy_node H Y b nb Eb) as (ob & Ob & _ & _ & Pb & _).
  unfold hswap. unfold nget. rewrite Ea, Eb. cbn [obind].
  pose proof (replace_ok H na _ (n_schema nb) oa Oa Pa) as R1.
  assert (Out : forall s o c oc, schemas H c = Some oc -> schemas H s = Some o -> s_parent oc <> Some s -> ~ In c (s_kids o)) by (intros s o c oc Ec Es P I; apply P; exact (listed_parent H c oc s o Y Ec Es I)).
  destruct (s_parent oa) as [qa|] eqn:Qa.
  - destruct (sy_up H Y _ _ _ Oa Qa) as (qo & Eqo & Iqo). destruct (index_of_In _ _ Iqo) as (ia & Ia). destruct (R1 qo ia Eqo Ia) as (H1 & E1 & K1). rewrite E1. cbn [obind].
    pose proof K1 as KA. destruct K1 as (K1 & K2 & K3).
    assert (Ob1 : exists ob1, schemas H1 (n_schema nb) = Some ob1 /\ s_parent ob1 = s_parent ob) by (rewrite K3, Ob; eexists; split; reflexivity). destruct Ob1 as (ob1 & Ob1 & Pb1).
    pose proof (replace_ok H1 nb _ (n_schema na) ob1 Ob1 ltac:(rewrite Pb1; exact Pb)) as R2. rewrite Pb1 in R2. destruct (s_parent ob) as [qb|] eqn:Qb.
    + destruct (sy_up H Y _ _ _ Ob Qb) as (qo' & Eqo' & Iqo'). destruct (In_nth_error _ _ Iqo') as (ib & Ib). destruct (proj1 (index_of_spec _ _ _) Ia) as (Na & _).
      destruct (Nat.eq_dec qb qa) as [->|Nq].
      * assert (qo' = qo) by congruence. subst qo'. assert (Lt : ib < ia). { destruct (Nat.lt_total ib ia) as [L|[L|L]]; [exact L|subst; congruence|]. exfalso. apply NB. exists na, nb, qa, qo, ia, ib. auto 8. }
        destruct (R2 (s_with_kids qo (set_nth (s_kids qo) ia (n_schema nb))) ib) as (H2 & E2 & K').
        { rewrite K3, Eqo. cbn [option_map]. rewrite Nat.eqb_refl. reflexivity. }
        { cbn [s_with_kids s_kids]. apply index_of_spec. split; [rewrite nth_error_set_nth_other by lia; exact Ib|]. intros j Hj. rewrite nth_error_set_nth_other by lia. intros X. assert (j = ib) by (eapply nodup_at; eauto; apply (sy_once H Y _ _ Eqo)). lia. }
        rewrite E2. cbn [obind]. eapply swap_final; eauto.
        { eapply kmod_comp; [exact KA|exact K']. }
        intros s o E. cbv beta. destruct (Nat.eqb_spec s qa) as [->|Nq].
        -- rewrite Eqo in E. injection E as <-. apply map_sw_two; auto; [apply (sy_once H Y _ _ Eqo)|lia].
        -- symmetry. apply map_sw_out; eapply Out; eauto; congruence.
      * destruct (index_of_In _ _ Iqo') as (ib' & Ib'). destruct (proj1 (index_of_spec _ _ _) Ib') as (Nb & _).
        destruct (R2 qo' ib') as (H2 & E2 & K'); [rewrite K3, Eqo'; cbn [option_map]; destruct (Nat.eqb_spec qb qa); [congruence|rewrite with_kids_same; reflexivity]|exact Ib'|].
        rewrite E2. cbn [obind]. eapply swap_final; eauto.
        { eapply kmod_comp; [exact KA|exact K']. }
        intros s o E. cbv beta. destruct (Nat.eqb_spec s qb) as [->|N1].
        -- destruct (Nat.eqb_spec qb qa); [congruence|]. rewrite Eqo' in E. injection E as <-. rewrite map_sw_comm. apply map_sw_one; auto; [apply (sy_once H Y _ _ Eqo')|eapply Out; eauto; congruence].
        -- destruct (Nat.eqb_spec s qa) as [->|N2].
           ++ rewrite Eqo in E. injection E as <-. apply map_sw_one; auto; [apply (sy_once H Y _ _ Eqo)|eapply Out; eauto; congruence].
           ++ symmetry. apply map_sw_out; eapply Out; eauto; congruence.
    + rewrite R2. cbn [obind]. destruct (proj1 (index_of_spec _ _ _) Ia) as (Na & _). eapply swap_final; eauto.
      intros s o E. cbv beta. destruct (Nat.eqb_spec s qa) as [->|N2].
      * rewrite Eqo in E. injection E as <-. apply map_sw_one; auto; [apply (sy_once H Y _ _ Eqo)|eapply Out; eauto; congruence].
      * symmetry. apply map_sw_out; eapply Out; eauto; congruence.
  - rewrite R1. cbn [obind]. pose proof (replace_ok H nb _ (n_schema na) ob Ob Pb) as R2. destruct (s_parent ob) as [qb|] eqn:Qb.
    + destruct (sy_up H Y _ _ _ Ob Qb) as (qo' & Eqo' & Iqo'). destruct (index_of_In _ _ Iqo') as (ib & Ib). destruct (R2 qo' ib Eqo' Ib) as (H2 & E2 & K'). rewrite E2. cbn [obind].
      destruct (proj1 (index_of_spec _ _ _) Ib) as (Nb & _). eapply swap_final; eauto. intros s o E. cbv beta. destruct (Nat.eqb_spec s qb) as [->|N2].
      * rewrite Eqo' in E. injection E as <-. rewrite map_sw_comm. apply map_sw_one; auto; [apply (sy_once H Y _ _ Eqo')|eapply Out; eauto; congruence].
      * symmetry. apply map_sw_out; eapply Out; eauto; congruence.
    + rewrite R2. cbn [obind]. eapply swap_final; eauto using kmod_id. intros s o E. symmetry. apply map_sw_out; eapply Out; eauto; congruence.
Qed.

Lemma swapped_node : forall H H' a b na nb x n', a <> b -> nodes H a = Some na -> nodes H b = Some nb -> swapped H H' a b na nb -> nodes H' x = Some n' ->
  exists n0 n1, nodes H x = Some n0 /\ nodes H (sw a b x) = Some n1 /\
    n' = mkN (n_schema n1) (n_owns n0) (n_parent n0) (n_kids n1) (n_hdr n1).
Proof.
  intros H H' a b na nb x n' Nab Ea Eb (A & B & O & _) E. destruct (Nat.eq_dec x a) as [->|Na].
  - rewrite A in E. injection E as <-. rewrite sw_l. exists na, nb. auto.
  - destruct (Nat.eq_dec x b) as [->|Nb].
    + rewrite B in E. injection E as <-. rewrite sw_r. exists nb, na. auto.
    + rewrite O in E by assumption. rewrite sw_o by assumption. exists n', n'. destruct n'. auto.
Qed.
Lemma swapped_live : forall H H' a b na nb x n, a <> b -> nodes H a = Some na -> nodes H b = Some nb -> swapped H H' a b na nb -> nodes H x = Some n ->
  exists n1, nodes H (sw a b x) = Some n1 /\ nodes H' x = Some (mkN (n_schema n1) (n_owns n) (n_parent n) (n_kids n1) (n_hdr n1)).
Proof.
  intros H H' a b na nb x n Nab Ea Eb (A & B & O & _) E. destruct (Nat.eq_dec x a) as [->|Na].
  - rewrite sw_l. exists nb. split; [exact Eb|]. rewrite A. congruence.
  - destruct (Nat.eq_dec x b) as [->|Nb].
    + rewrite sw_r. exists na. split; [exact Ea|]. rewrite B. congruence.
    + rewrite sw_o by assumption. exists n. split; [exact E|]. rewrite O by assumption. destruct n. exact E.
Qed.
(** the schema of the node standing in for x is the exchanged schema of x *)
Lemma sw_schema : forall H a b na nb x n n1, sync H -> a <> b -> nodes H a = Some na -> nodes H b = Some nb -> nodes H x = Some n -> nodes H (sw a b x) = Some n1 ->
  n_schema n1 = sw (n_schema na) (n_schema nb) (n_schema n).
Proof.
  intros H a b na nb x n n1 Y Nab Ea Eb E E1. destruct (Nat.eq_dec x a) as [->|Na].
  - rewrite sw_l in E1. replace n with na by congruence. rewrite sw_l. congruence.
  - destruct (Nat.eq_dec x b) as [->|Nb].
    + rewrite sw_r in E1. replace n with nb by congruence. rewrite sw_r. congruence.
    + rewrite sw_o in E1 by assumption. rewrite sw_o; [congruence| |]; intros X; [apply Na|apply Nb]; [exact (sy_own H Y x a n na E Ea X)|exact (sy_own H Y x b n nb E Eb X)].
Qed.
Theorem swap_sync : forall H H' a b na nb, sync H -> a <> b -> nodes H a = Some na -> nodes H b = Some nb -> swapped H H' a b na nb -> sync H'.
Proof.
  intros H H' a b na nb Y Nab Ea Eb W. set (t := sw (n_schema na) (n_schema nb)).
  assert (Sch : forall s o', schemas H' s = Some o' -> exists o o2, schemas H s = Some o /\ schemas H (t s) = Some o2 /\ o' = mkS (s_parent o2) (s_dt o) (s_names o) (map t (s_kids o))).
  { intros s o' E. destruct W as (_ & _ & _ & _ & S & D). destruct (schemas H s) as [o|] eqn:Q; [|rewrite (D s Q) in E; discriminate E]. destruct (S s o Q) as (o2 & A & B). exists o, o2. split; [reflexivity|]. split; [exact A|]. rewrite B in E. injection E as <-. reflexivity. }
  assert (Sch' : forall s o, schemas H s = Some o -> exists o2, schemas H (t s) = Some o2 /\ schemas H' s = Some (mkS (s_parent o2) (s_dt o) (s_names o) (map t (s_kids o)))) by (destruct W as (_ & _ & _ & _ & S & _); exact S).
  constructor.
  - intros x n' E. destruct (swapped_node H H' a b na nb x n' Nab Ea Eb W E) as (n0 & n1 & E0 & E1 & ->). cbn [n_schema n_kids n_parent n_owns].
    pose proof (sw_schema H a b na nb x n0 n1 Y Nab Ea Eb E0 E1) as S1. fold t in S1.
    destruct (sy_node H Y _ n1 E1) as (s1 & Es1 & L1 & K1 & _). destruct (sy_node H Y _ n0 E0) as (s0 & Es0 & _ & _ & P0 & O0).
    destruct (Sch' _ _ Es1) as (o2 & A & B). eexists. split; [exact B|]. cbn [s_kids s_parent].
    assert (t (n_schema n1) = n_schema n0) as T by (rewrite S1; apply sw_sw). rewrite T in A. assert (o2 = s0) by congruence. subst o2.
    split; [rewrite map_length; exact L1|]. split; [|auto]. intros i k Ik. destruct (K1 i k Ik) as (nk & Ek & Sk).
    destruct (swapped_live H H' a b na nb k nk Nab Ea Eb W Ek) as (nk1 & Ek1 & Ek'). eexists. split; [exact Ek'|]. cbn [n_schema]. rewrite nth_error_map, Sk. cbn. f_equal.
    symmetry. apply (sw_schema H a b na nb k nk nk1 Y Nab Ea Eb Ek Ek1).
  - intros x y n n' Ex Ey E. destruct (swapped_node H H' a b na nb x n Nab Ea Eb W Ex) as (n0 & n1 & E0 & E1 & ->). destruct (swapped_node H H' a b na nb y n' Nab Ea Eb W Ey) as (m0 & m1 & F0 & F1 & ->).
    cbn [n_schema] in E. apply (sw_inj a b). exact (sy_own H Y _ _ n1 m1 E1 F1 E).
  - intros s o' c E I. destruct (Sch s o' E) as (o & o2 & Eo & _ & ->). cbn [s_kids] in I. apply in_map_iff in I. destruct I as (c0 & <- & I).
    destruct (sy_down H Y s o c0 Eo I) as (co & Ec & Pc). assert (Lv : exists c1, schemas H (t c0) = Some c1). { destruct (Sch' c0 co Ec) as (o3 & A & _). eauto. } destruct Lv as (c1 & Ec1).
    destruct (Sch' _ _ Ec1) as (o3 & A & B). eexists. split; [exact B|]. cbn [s_parent]. unfold t in A. rewrite sw_sw in A. congruence.
  - intros s o' q E P. destruct (Sch s o' E) as (o & o2 & Eo & E2 & ->). cbn [s_parent] in P. destruct (sy_up H Y _ _ _ E2 P) as (qo & Eq & I). destruct (Sch' _ _ Eq) as (o3 & _ & B).
    eexists. split; [exact B|]. cbn [s_kids]. apply in_map_iff. exists (t s). split; [apply sw_sw|exact I].
  - intros s o' E. destruct (Sch s o' E) as (o & o2 & Eo & _ & ->). cbn [s_kids]. apply FinFun.Injective_map_NoDup; [intros x y X; exact (sw_inj _ _ x y X)|apply (sy_once H Y _ _ Eo)].
  - intros s o' E. destruct (Sch s o' E) as (o & o2 & Eo & _ & ->). cbn [s_kids s_dt]. intros N. apply (sy_kind H Y _ _ Eo). intros X. apply N. rewrite X. reflexivity.
  - intros s o' E. destruct (Sch s o' E) as (o & o2 & Eo & _ & ->). cbn [s_kids s_dt s_names]. intros N. rewrite map_length. apply (sy_names H Y _ _ Eo N).
  - intros x n' E. destruct (swapped_node H H' a b na nb x n' Nab Ea Eb W E) as (n0 & _ & E0 & _). destruct W as (_ & _ & _ & Nx & _). rewrite Nx. apply (sy_new_n H Y _ _ E0).
  - intros s o' E. destruct (Sch s o' E) as (o & o2 & Eo & _ & _). destruct W as (_ & _ & _ & Nx & _). rewrite Nx. apply (sy_new_s H Y _ _ Eo).
Qed.
Lemma swapped_schema_data : forall H H' a b na nb s o, swapped H H' a b na nb -> schemas H s = Some o -> exists o', schemas H' s = Some o' /\ s_dt o' = s_dt o /\ s_names o' = s_names o.
Proof. intros H H' a b na nb s o (_ & _ & _ & _ & S & _) E. destruct (S s o E) as (o2 & _ & B). eexists. split; [exact B|]. auto. Qed.

(** ---- trees ---- *)
Lemma hangs_root : forall H x t, hangs H x t -> In x (ids t).
Proof. intros H x t A. inversion A; subst. left. reflexivity. Qed.
Lemma F2_In_l : forall {A B} (R : A -> B -> Prop) l l' x, Forall2 R l l' -> In x l -> exists y, In y l' /\ R x y.
Proof. intros A B R l l' x F. induction F as [|a b l l' Hab F IH]; intros I; [destruct I|]. destruct I as [->|I]; [exists b; split; [left; reflexivity|exact Hab]|]. destruct (IH I) as (y & Iy & Ry). exists y. split; [right; exact Iy|exact Ry]. Qed.
Lemma F2_In_r : forall {A B} (R : A -> B -> Prop) l l' y, Forall2 R l l' -> In y l' -> exists x, In x l /\ R x y.
Proof. intros A B R l l' y F. induction F as [|a b l l' Hab F IH]; intros I; [destruct I|]. destruct I as [->|I]; [exists a; split; [left; reflexivity|exact Hab]|]. destruct (IH I) as (x & Ix & Rx). exists x. split; [right; exact Ix|exact Rx]. Qed.
Lemma in_ids_kids : forall y (ks : list otree), In y (concat (map ids ks)) <-> exists t, In t ks /\ In y (ids t).
Proof. intros y ks. rewrite in_concat. split; [intros (l & I & J); apply in_map_iff in I; destruct I as (t & <- & I); eauto|intros (t & I & J); exists (ids t); split; [apply in_map; exact I|exact J]]. Qed.
(** a tree none of whose objects changed is still there *)
Lemma hangs_keep : forall H H' t x, hangs H x t -> (forall y, In y (ids t) -> nodes H' y = nodes H y) ->
  (forall s o, schemas H s = Some o -> In s (sids t) -> exists o', schemas H' s = Some o' /\ s_dt o' = s_dt o /\ s_names o' = s_names o) -> hangs H' x t.
Proof.
  intros H H'. induction t as [x0 s0 h d nm ks IH] using otree_ind'; intros x A N S. inversion A as [x1 n s ks1 En Es F]; subst.
  destruct (S _ _ Es (or_introl eq_refl)) as (o' & Eo' & Ed & Enm). rewrite <- Ed, <- Enm. constructor; [rewrite N by (left; reflexivity); exact En|exact Eo'|].
  assert (N' : forall y, In y (concat (map ids ks)) -> nodes H' y = nodes H y) by (intros y I; apply N; right; exact I).
  assert (S' : forall s o, schemas H s = Some o -> In s (concat (map sids ks)) -> exists o', schemas H' s = Some o' /\ s_dt o' = s_dt o /\ s_names o' = s_names o) by (intros s1 o E I; apply (S s1 o E); right; exact I).
  clear - F IH N' S'. induction F as [|k t l l' R F IHF]; constructor.
  - inversion IH as [|? ? I0 _]; subst. apply I0; [exact R| |]; [intros y Iy; apply N'; cbn; apply in_or_app; auto|intros s o E Is; apply (S' s o E); cbn; apply in_or_app; auto].
  - inversion IH as [|? ? _ I1]; subst. apply IHF; [exact I1| |]; [intros y Iy; apply N'; cbn; apply in_or_app; auto|intros s o E Is; apply (S' s o E); cbn; apply in_or_app; auto].
Qed.
Lemma hangs_fun : forall H t t' x, hangs H x t -> hangs H x t' -> t = t'.
Proof.
  intros H. induction t as [x0 s0 h d nm ks IH] using otree_ind'; intros t' x A B. inversion A as [x1 n s ks1 En Es F]; subst. inversion B as [x2 n' s' ks2 En' Es' F']; subst.
  assert (n' = n) by congruence. subst n'. assert (s' = s) by congruence. subst s'. f_equal. clear - F F' IH. revert ks2 F'. induction F as [|k t l l' R F IHF]; intros ks2 F'; inversion F'; subst; [reflexivity|].
  inversion IH as [|? ? I0 I1]; subst. f_equal; [eapply I0; eauto|apply IHF; assumption].
Qed.
Lemma hangs_sub : forall H t x y, hangs H x t -> In y (ids t) -> exists t', hangs H y t' /\ incl (ids t') (ids t) /\ incl (sids t') (sids t) /\ (y <> x -> length (ids t') < length (ids t)).
Proof.
  intros H. induction t as [x0 s0 h d nm ks IH] using otree_ind'; intros x y A I. inversion A as [x1 n s ks1 En Es F]; subst. cbn [ids] in I. destruct I as [->|I].
  - exists (OT y (n_schema n) (n_hdr n) (s_dt s) (s_names s) ks). split; [exact A|]. split; [apply incl_refl|]. split; [apply incl_refl|congruence].
  - apply in_ids_kids in I. destruct I as (t1 & I1 & J). destruct (F2_In_r _ _ _ _ F I1) as (k & Ik & Rk). rewrite Forall_forall in IH. destruct (IH t1 I1 k y Rk J) as (t' & A' & B' & C' & D').
    assert (Le : length (ids t1) <= length (concat (map ids ks))).
    { clear - I1. induction ks as [|c ks IHk]; [destruct I1|]. cbn [map concat]. rewrite app_length. destruct I1 as [->|I1]; [lia|]. specialize (IHk I1). lia. }
    exists t'. split; [exact A'|]. split; [intros z Iz; right; apply in_ids_kids; exists t1; auto|]. split.
    + intros z Iz. right. apply in_concat. exists (sids t1). split; [apply in_map; exact I1|auto].
    + intros _. cbn [ids length]. assert (length (ids t') <= length (ids t1)); [|lia]. destruct (Nat.eq_dec y k) as [->|Ne]; [rewrite (hangs_fun _ _ _ _ A' Rk); lia|specialize (D' Ne); lia].
Qed.
Lemma hangs_live : forall H t x y, hangs H x t -> In y (ids t) -> exists n, nodes H y = Some n.
Proof. intros H t x y A I. destruct (hangs_sub H t x y A I) as (t' & B & _). inversion B; subst. eauto. Qed.

Lemma no_cycle : forall H x n s ks, hangs H x (OT x (n_schema n) (n_hdr n) (s_dt s) (s_names s) ks) -> Forall2 (hangs H) (n_kids n) ks -> ~ In x (concat (map ids ks)).
Proof.
  intros H x n s ks A F I. apply in_ids_kids in I. destruct I as (t & It & J). destruct (F2_In_r _ _ _ _ F It) as (k & Ik & Rk). destruct (hangs_sub H t k x Rk J) as (t' & Ht' & _ & _ & D).
  pose proof (hangs_fun _ _ _ _ Ht' A) as X. assert (L : length (ids t') <= length (ids t)). { destruct (Nat.eq_dec x k) as [->|Ne]; [rewrite (hangs_fun _ _ _ _ Ht' Rk); lia|specialize (D Ne); lia]. }
  rewrite X in L. cbn [ids length] in L. assert (length (ids t) <= length (concat (map ids ks))); [|lia]. clear - It. induction ks as [|c ks IHk]; [destruct It|]. cbn [map concat]. rewrite app_length. destruct It as [->|It]; [lia|]. specialize (IHk It). lia.
Qed.
(** ---- contents after swap ---- *)
Lemma swap_takes : forall H H' a b na nb ta tb, a <> b -> nodes H a = Some na -> nodes H b = Some nb -> swapped H H' a b na nb ->
  hangs H a ta -> hangs H b tb -> ~ In a (ids tb) -> ~ In b (ids ta) ->
  exists ta' tb', hangs H' a tb' /\ hangs H' b ta' /\ seen ta' = seen ta /\ seen tb' = seen tb.
Proof.
  intros H H' a b na nb ta tb Nab Ea Eb W Ha Hb Nab' Nba'. pose proof W as W0. destruct W0 as (A & B & O & _).
  assert (Keep : forall t k, hangs H k t -> ~ In a (ids t) -> ~ In b (ids t) -> hangs H' k t).
  { intros t k Hk N1 N2. apply (hangs_keep H H' t k Hk); [intros y I; apply O; intros ->; auto|]. intros s o Es _. exact (swapped_schema_data H H' a b na nb s o W Es). }
  inversion Ha as [x1 n1 s1 ksa En1 Es1 Fa]; subst. inversion Hb as [x2 n2 s2 ksb En2 Es2 Fb]; subst. assert (n1 = na) by congruence. assert (n2 = nb) by congruence. subst n1 n2. cbn [ids In] in Nab', Nba'.
  pose proof (no_cycle _ _ _ _ _ Ha Fa) as Ka. pose proof (no_cycle _ _ _ _ _ Hb Fb) as Kb.
  assert (KeepL : forall l ks, Forall2 (hangs H) l ks -> ~ In a (concat (map ids ks)) -> ~ In b (concat (map ids ks)) -> Forall2 (hangs H') l ks).
  { intros l ks F. induction F as [|k t l ks R F IH]; intros N1 N2; constructor; cbn in N1, N2; [apply Keep; [exact R| |]; intros I; [apply N1|apply N2]; apply in_or_app; auto|]. apply IH; intros I; [apply N1|apply N2]; apply in_or_app; auto. }
  destruct (swapped_schema_data H H' a b na nb _ _ W Es1) as (oa & Eoa & Da & Ma). destruct (swapped_schema_data H H' a b na nb _ _ W Es2) as (ob & Eob & Db & Mb).
  exists (OT b (n_schema na) (n_hdr na) (s_dt s1) (s_names s1) ksa), (OT a (n_schema nb) (n_hdr nb) (s_dt s2) (s_names s2) ksb).
  split; [|split; [|split; reflexivity]].
  - rewrite <- Db, <- Mb. pose proof (hangs_intro H' a _ ob ksb A Eob) as G. cbn [n_schema n_hdr n_kids] in G. apply G. apply KeepL; auto.
  - rewrite <- Da, <- Ma. pose proof (hangs_intro H' b _ oa ksa B Eoa) as G. cbn [n_schema n_hdr n_kids] in G. apply G. apply KeepL; auto.
Qed.

(** ---- sharing ---- *)
Lemma kid_parent : forall H k y z ny nz, sync H -> nodes H y = Some ny -> nodes H z = Some nz -> In k (n_kids ny) -> In k (n_kids nz) -> y = z.
Proof.
  intros H k y z ny nz Y Ey Ez Iy Iz. destruct (sy_node H Y y ny Ey) as (sy & Sy & _ & Ky & _). destruct (sy_node H Y z nz Ez) as (sz & Sz & _ & Kz & _).
  destruct (In_nth_error _ _ Iy) as (i & Ni). destruct (In_nth_error _ _ Iz) as (j & Nj). destruct (Ky i k Ni) as (nk & Ek & A). destruct (Kz j k Nj) as (nk' & Ek' & B). assert (nk' = nk) by congruence. subst nk'.
  destruct (sy_down H Y _ _ _ Sy (nth_error_In _ _ A)) as (co & Ec & Pc). destruct (sy_down H Y _ _ _ Sz (nth_error_In _ _ B)) as (co' & Ec' & Pc'). apply (sy_own H Y y z ny nz Ey Ez). congruence.
Qed.
Lemma kids_nodup : forall H x n, sync H -> nodes H x = Some n -> NoDup (n_kids n).
Proof.
  intros H x n Y E. destruct (sy_node H Y x n E) as (s & Es & L & K & _). apply NoDup_nth_error. intros i j Hi Eij. destruct (nth_error (n_kids n) i) as [k|] eqn:Ei; [|apply nth_error_None in Ei; lia].
  destruct (K i k Ei) as (nk & Ek & A). destruct (K j k (eq_sym Eij)) as (nk' & Ek' & B). assert (nk' = nk) by congruence. subst nk'. eapply nodup_at; [apply (sy_once H Y _ _ Es)|exact A|exact B].
Qed.
Lemma parent_in : forall H t x y, hangs H x t -> In y (ids t) -> y <> x -> exists z n, In z (ids t) /\ nodes H z = Some n /\ In y (n_kids n).
Proof.
  intros H. induction t as [x0 s0 h d nm ks IH] using otree_ind'; intros x y A I N. inversion A as [x1 n s ks1 En Es F]; subst. cbn [ids] in I. destruct I as [->|I]; [congruence|].
  apply in_ids_kids in I. destruct I as (t1 & I1 & J). destruct (F2_In_r _ _ _ _ F I1) as (k & Ik & Rk). destruct (Nat.eq_dec y k) as [->|Ne]; [eexists; exists n; split; [left; reflexivity|auto]|].
  rewrite Forall_forall in IH. destruct (IH t1 I1 k y Rk J Ne) as (z & nz & Iz & Ez & Kz). exists z, nz. split; [right; apply in_ids_kids; eauto|auto].
Qed.
Lemma closed_down : forall H t x y n k, hangs H x t -> In y (ids t) -> nodes H y = Some n -> In k (n_kids n) -> In k (ids t).
Proof.
  intros H t x y n k A I E K. destruct (hangs_sub H t x y A I) as (t' & B & Inc & _). apply Inc. inversion B as [x1 n1 s ks1 En Es F]; subst. assert (n1 = n) by congruence. subst n1.
  destruct (F2_In_l _ _ _ _ F K) as (tk & Ik & Rk). right. apply in_ids_kids. exists tk. split; [exact Ik|exact (hangs_root _ _ _ Rk)].
Qed.
Lemma trees_meet : forall H b tb, sync H -> hangs H b tb -> forall ta a z, hangs H a ta -> In z (ids ta) -> In z (ids tb) -> In a (ids tb) \/ In b (ids ta).
Proof.
  intros H b tb Y Hb. induction ta as [x0 s0 h d nm ks IH] using otree_ind'; intros a z A I J. inversion A as [x1 n s ks1 En Es F]; subst. cbn [ids] in I. destruct I as [->|I]; [left; exact J|].
  apply in_ids_kids in I. destruct I as (t1 & I1 & Jz). destruct (F2_In_r _ _ _ _ F I1) as (k & Ik & Rk). rewrite Forall_forall in IH. destruct (IH t1 I1 k z Rk Jz J) as [Kb|Bk].
  - destruct (Nat.eq_dec k b) as [->|Ne].
    + right. right. apply in_ids_kids. exists t1. split; [exact I1|exact (hangs_root _ _ _ Rk)].
    + destruct (parent_in H tb b k Hb Kb Ne) as (z' & nz & Iz & Ez & Kz). left. rewrite (kid_parent H k x0 z' n nz Y En Ez Ik Kz). exact Iz.
  - right. right. apply in_ids_kids. eauto.
Qed.
Lemma nodup_concat : forall {A} (ls : list (list A)), Forall (@NoDup A) ls -> (forall i j l l' x, nth_error ls i = Some l -> nth_error ls j = Some l' -> In x l -> In x l' -> i = j) -> NoDup (concat ls).
Proof.
  intros A. induction ls as [|l ls IH]; intros F D; cbn [concat]; [constructor|]. inversion F as [|? ? F1 F2]; subst.
  assert (R : NoDup (concat ls)) by (apply IH; [exact F2|]; intros i j l1 l2 x E1 E2 I1 I2; assert (S i = S j) as X by exact (D (S i) (S j) l1 l2 x E1 E2 I1 I2); congruence).
  clear IH. induction l as [|x l IHl]; [exact R|]. inversion F1; subst. cbn [app]. constructor.
  - intros I. apply in_app_or in I. destruct I as [I|I]; [contradiction|]. apply in_concat in I. destruct I as (l' & Il & Ix). destruct (In_nth_error _ _ Il) as (j & Ej).
    assert (0 = S j) as X; [|discriminate X]. apply (D 0 (S j) (x :: l) l' x); auto. left. reflexivity.
  - apply IHl; auto. intros i j l1 l2 y E1 E2 I1 I2. destruct i as [|i], j as [|j]; [reflexivity| | |].
    + cbn in E1. injection E1 as <-. apply (D 0 (S j) (x :: l) l2 y); auto. right. exact I1.
    + cbn in E2. injection E2 as <-. apply (D (S i) 0 l1 (x :: l) y); auto. right. exact I2.
    + apply (D (S i) (S j) l1 l2 y); auto.
Qed.
Lemma F2_nth_r : forall {A B} (R : A -> B -> Prop) l l' i y, Forall2 R l l' -> nth_error l' i = Some y -> exists x, nth_error l i = Some x /\ R x y.
Proof. intros A B R l l' i y F. revert i. induction F as [|a b l l' Hab F IH]; intros [|i] E; try discriminate E; cbn in *; [injection E as <-; eauto|apply IH; exact E]. Qed.
Lemma kid_trees_apart : forall H x n s ks i j t t' z, sync H -> hangs H x (OT x (n_schema n) (n_hdr n) (s_dt s) (s_names s) ks) -> nodes H x = Some n -> Forall2 (hangs H) (n_kids n) ks ->
  nth_error ks i = Some t -> nth_error ks j = Some t' -> In z (ids t) -> In z (ids t') -> i = j.
Proof.
  intros H x n s ks i j t t' z Y A En F Ei Ej Iz Jz. destruct (F2_nth_r _ _ _ _ _ F Ei) as (k & Ek & Rk). destruct (F2_nth_r _ _ _ _ _ F Ej) as (k' & Ek' & Rk').
  destruct (Nat.eq_dec k k') as [->|Ne]; [eapply nodup_at; [apply (kids_nodup H x n Y En)|exact Ek|exact Ek']|]. exfalso. pose proof (no_cycle _ _ _ _ _ A F) as NC.
  assert (Up : forall c c' tc i0, nth_error ks i0 = Some tc -> In c (n_kids n) -> hangs H c' tc -> In c (ids tc) -> c <> c' -> False).
  { intros c c' tc i0 Ei0 Ic Hc J N. destruct (parent_in H tc c' c Hc J N) as (z0 & nz & Iz0 & Ez & Kz). apply NC. rewrite (kid_parent H c x z0 n nz Y En Ez Ic Kz). apply in_ids_kids. exists tc. split; [eapply nth_error_In; eauto|exact Iz0]. }
  destruct (trees_meet H k' t' Y Rk' t k z Rk Iz Jz) as [I|I]; [eapply (Up k k' t' j); eauto|eapply (Up k' k t i); eauto]; eapply nth_error_In; eauto.
Qed.
Lemma ids_nodup : forall H t x, sync H -> hangs H x t -> NoDup (ids t).
Proof.
  intros H t x Y. revert x. induction t as [x0 s0 h d nm ks IH] using otree_ind'; intros x A. inversion A as [x1 n s ks1 En Es F]; subst. cbn [ids]. constructor; [exact (no_cycle _ _ _ _ _ A F)|].
  apply nodup_concat.
  - apply Forall_forall. intros l I. apply in_map_iff in I. destruct I as (t & <- & I). destruct (F2_In_r _ _ _ _ F I) as (k & _ & Rk). rewrite Forall_forall in IH. exact (IH t I k Rk).
  - intros i j l l' z Ei Ej Iz Jz. rewrite nth_error_map in Ei, Ej. destruct (nth_error ks i) as [t|] eqn:Qi; [|discriminate Ei]. destruct (nth_error ks j) as [t'|] eqn:Qj; [|discriminate Ej]. injection Ei as <-. injection Ej as <-.
    eapply kid_trees_apart; eauto.
Qed.
(** schemas of a tree *)
Definition root_s (t : otree) : nat := match t with OT _ s _ _ _ _ => s end.
Lemma sids_ids : forall H t x s, hangs H x t -> In s (sids t) <-> exists y n, In y (ids t) /\ nodes H y = Some n /\ n_schema n = s.
Proof.
  intros H. induction t as [x0 s0 h d nm ks IH] using otree_ind'; intros x s1 A. inversion A as [x1 n s ks1 En Es F]; subst. cbn [ids sids In]. rewrite Forall_forall in IH. split.
  - intros [<-|I]; [eexists; exists n; split; [left; reflexivity|auto]|]. apply in_concat in I. destruct I as (l & Il & Is). apply in_map_iff in Il. destruct Il as (t & <- & It). destruct (F2_In_r _ _ _ _ F It) as (k & Ik & Rk).
    destruct (proj1 (IH t It k s1 Rk) Is) as (y & ny & Iy & Ey & Sy). exists y, ny. split; [right; apply in_ids_kids; eauto|auto].
  - intros (y & ny & [<-|Iy] & Ey & Sy); [left; congruence|]. right. apply in_ids_kids in Iy. destruct Iy as (t & It & Jy). destruct (F2_In_r _ _ _ _ F It) as (k & Ik & Rk).
    apply in_concat. exists (sids t). split; [apply in_map; exact It|]. apply (IH t It k s1 Rk). eauto.
Qed.
