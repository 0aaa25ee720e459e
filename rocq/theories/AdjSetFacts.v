(** Adjacency sets: what they say, and what the conversions do to it. *)
From Coq Require Import Permutation Sorting.Sorted.
From Verif Require Import Base Path DType Mem Node Schema SchemaInv Json JsonSpec Number ArrayOps ArrayOpsFacts O2M MatSet MatSetFacts
  SiloFacts MeshConv MeshConvFacts MeshElemFacts ValueJson ValueFacts PureJson AdjSet.
Local Open Scope Z_scope.
Import ListNotations.

(** * Specification *)
Definition nbrs (g : group) : list Z := snd (g_nbrs g).
Definition vals (g : group) : list Z := snd (g_vals g).
(** leaves hold signed integers of their type *)
Definition leaf_ok (l : tid * list Z) : Prop := is_signed (fst l) = true /\ Forall (in_type (fst l)) (snd l).
Definition well (a : adjset) : Prop :=
  NoDup (map fst a) /\ Forall (fun p => leaf_ok (g_nbrs (snd p)) /\ leaf_ok (g_vals (snd p))) a.
(** entity [e] is shared with domain [n] *)
Definition shares (a : adjset) (e n : Z) : Prop := exists k g, In (k, g) a /\ In e (vals g) /\ In n (nbrs g).
Definition entity (a : adjset) (e : Z) : Prop := exists k g, In (k, g) a /\ In e (vals g).
Definition neighbor (a : adjset) (n : Z) : Prop := exists k g, In (k, g) a /\ In n (nbrs g).
(** the order of names: by the codes of the characters *)
Inductive earlier : str -> str -> Prop :=
  | e_end c s : earlier [] (c :: s)
  | e_chr c d s t : (N_of_ascii c < N_of_ascii d)%N -> earlier (c :: s) (d :: t)
  | e_tail c s t : earlier s t -> earlier (c :: s) (c :: t).
Definition sorted_by_name (gs : adjset) : Prop := StronglySorted (fun p q => earlier (fst p) (fst q)) gs.
(** the canonical name of a group of domain [d]: all its domains in order *)
Definition named (d : Z) (ns : list Z) (k : str) : Prop :=
  exists l ts, Permutation l (d :: ns) /\ StronglySorted Z.le l /\ Forall2 integer ts l /\
    k = L "group" ++ concat (map (fun t => L "_" ++ t) ts).
(** what is listed for neighbor [n], group by group *)
Definition shared (gs : adjset) (n : Z) : list Z :=
  concat (map (fun p => vals (snd p)) (filter (fun p => if in_dec Z.eq_dec n (nbrs (snd p)) then true else false) gs)).
(** the groups that domains [da] and [db] have in common have the same names in both, and
    list the same entities in the same order ([R]: being the same entity) *)
Definition agree (R : Z -> Z -> Prop) (da db : Z) (a b : adjset) : Prop :=
  (forall k, (exists g, In (k, g) a /\ In db (nbrs g)) <-> (exists h, In (k, h) b /\ In da (nbrs h))) /\
  (forall k g h, In (k, g) a -> In db (nbrs g) -> In (k, h) b -> In da (nbrs h) -> Forall2 R (vals g) (vals h)).

(** * Names *)
Lemma zins_perm x l : Permutation (zins x l) (x :: l).
Proof. induction l as [|y l IH]; cbn [zins]; [reflexivity|]. destruct (x <=? y); [reflexivity|]. rewrite IH. apply perm_swap. Qed.
Lemma zsort_perm l : Permutation (zsort l) l.
Proof. induction l as [|x l IH]; [reflexivity|]. cbn [zsort fold_right]. rewrite zins_perm. constructor. exact IH. Qed.
Lemma zins_sorted x l : StronglySorted Z.le l -> StronglySorted Z.le (zins x l).
Proof.
  induction l as [|y l IH]; cbn [zins]; intros S; [constructor; constructor|]. inversion S as [|? ? S1 S2]; subst.
  destruct (Z.leb_spec x y) as [Q|Q]; constructor; auto.
  - constructor; [exact Q|]. eapply Forall_impl; [|exact S2]. cbn. lia.
  - eapply Permutation_Forall; [symmetry; apply zins_perm|]. constructor; [lia|exact S2].
Qed.
Lemma zsort_sorted l : StronglySorted Z.le (zsort l).
Proof. induction l as [|x l IH]; [constructor|]. apply zins_sorted, IH. Qed.
Lemma sorted_unique {A} (R : A -> A -> Prop) (H : forall x y, R x y -> R y x -> x = y) l : forall l', StronglySorted R l -> StronglySorted R l' -> Permutation l l' -> l = l'.
Proof.
  induction l as [|x l IH]; intros l' S S' P; [apply Permutation_nil in P; congruence|].
  destruct l' as [|y l']; [symmetry in P; apply Permutation_nil in P; discriminate|].
  inversion S as [|? ? S1 S2]; inversion S' as [|? ? S1' S2']; subst.
  assert (E : x = y).
  { assert (I : In x (y :: l')) by (eapply Permutation_in; [exact P|left; reflexivity]).
    assert (J : In y (x :: l)) by (eapply Permutation_in; [symmetry; exact P|left; reflexivity]).
    destruct I as [I|I]; [congruence|]. destruct J as [J|J]; [congruence|].
    rewrite Forall_forall in S2, S2'. apply H; [apply S2, J|apply S2', I]. }
  subst y. f_equal. apply IH; [exact S1|exact S1'|]. eapply Permutation_cons_inv, P.
Qed.
Lemma zsort_eq l l' : Permutation l l' -> zsort l = zsort l'.
Proof.
  intros P. apply (sorted_unique Z.le); [intros; lia|apply zsort_sorted|apply zsort_sorted|].
  rewrite zsort_perm, P. symmetry. apply zsort_perm.
Qed.

Definition dom_text (n : Z) : str := "_"%char :: show_Z n.
Lemma digit_free z : ~ In "_"%char (show_Z z) /\ ~ In "000"%char (show_Z z).
Proof.
  pose proof (show_chars z) as H. rewrite Forall_forall in H.
  split; intros I; apply H in I; vm_compute in I; intuition discriminate.
Qed.
Lemma split_word t : ~ In "_"%char t -> ~ In "000"%char t -> forall s acc, split_vec (t ++ s) "_"%char acc = split_vec s "_"%char (rev t ++ acc).
Proof.
  induction t as [|c t IH]; intros H1 H2 s acc; [reflexivity|]. cbn [app split_vec].
  destruct (ascii_dec c "000") as [->|_]; [destruct H2; left; reflexivity|].
  destruct (ascii_dec c "_") as [->|_]; [destruct H1; left; reflexivity|].
  rewrite IH; [|intros I; apply H1; right; exact I|intros I; apply H2; right; exact I]. cbn [rev]. rewrite <- app_assoc. reflexivity.
Qed.
Lemma show_ne z : show_Z z <> [].
Proof. intros E. pose proof (show_Z_int z) as H. rewrite E in H. discriminate. Qed.
Lemma split_doms l : forall acc, split_vec (concat (map dom_text l)) "_"%char acc = match acc with [] => [] | _ => [rev acc] end ++ map show_Z l.
Proof.
  induction l as [|n l IH]; intros acc; cbn [map concat]; [destruct acc; reflexivity|].
  unfold dom_text at 1. cbn [app split_vec]. destruct (ascii_dec "_" "000") as [E|_]; [discriminate E|]. destruct (ascii_dec "_" "_") as [_|N]; [|congruence].
  destruct (digit_free n) as [F1 F2].
  assert (G : split_vec (show_Z n ++ concat (map dom_text l)) "_"%char [] = show_Z n :: map show_Z l).
  { rewrite split_word by assumption. rewrite app_nil_r, IH. pose proof (show_ne n) as Ne. destruct (rev (show_Z n)) as [|c r] eqn:E.
    - apply (f_equal (@rev ascii)) in E. rewrite rev_involutive in E. cbn in E. congruence.
    - rewrite <- E, rev_involutive. reflexivity. }
  destruct acc as [|c acc]; rewrite G; reflexivity.
Qed.
Lemma split_name l : split_string_vec (L "group" ++ concat (map dom_text l)) "_"%char = L "group" :: map show_Z l.
Proof.
  unfold split_string_vec. rewrite split_word.
  - rewrite split_doms. reflexivity.
  - vm_compute. intuition discriminate.
  - vm_compute. intuition discriminate.
Qed.
Lemma show_inj x y : show_Z x = show_Z y -> x = y.
Proof. intros E. pose proof (show_Z_int x) as H. rewrite E, show_Z_int in H. congruence. Qed.
Lemma map_show_inj l : forall l', map show_Z l = map show_Z l' -> l = l'.
Proof. induction l as [|x l IH]; intros [|y l'] E; try discriminate E; [reflexivity|]. injection E as E1 E2. apply show_inj in E1. f_equal; auto. Qed.
Lemma new_name_eq d g : new_name d g = L "group" ++ concat (map dom_text (zsort (d :: ids (g_nbrs g)))).
Proof. reflexivity. Qed.
Lemma new_name_inj d d' g g' : new_name d g = new_name d' g' -> Permutation (d :: ids (g_nbrs g)) (d' :: ids (g_nbrs g')).
Proof.
  rewrite !new_name_eq. intros E. apply (f_equal (fun s => split_string_vec s "_"%char)) in E. rewrite !split_name in E.
  injection E as E. apply map_show_inj in E. change (zsort (d :: ids (g_nbrs g)) = zsort (d' :: ids (g_nbrs g'))) in E.
  eapply perm_trans; [symmetry; apply zsort_perm|]. rewrite E. apply zsort_perm.
Qed.
Lemma new_name_perm d d' g g' : Permutation (d :: ids (g_nbrs g)) (d' :: ids (g_nbrs g')) -> new_name d g = new_name d' g'.
Proof. intros P. rewrite !new_name_eq, (zsort_eq _ _ P). reflexivity. Qed.
Lemma new_name_named d g : named d (ids (g_nbrs g)) (new_name d g).
Proof.
  exists (zsort (d :: ids (g_nbrs g))), (map show_Z (zsort (d :: ids (g_nbrs g)))).
  split; [apply zsort_perm|]. split; [apply zsort_sorted|]. split.
  - induction (zsort (d :: ids (g_nbrs g))); cbn [map]; constructor; auto. apply int_text_iff, show_Z_int.
  - rewrite new_name_eq, map_map. reflexivity.
Qed.

(** * Canonical names *)
Definition renamed (d : Z) (p : str * group) : str * group := (new_name d (snd p), snd p).
Definition canon_step (d : Z) (a : adjset) (old : str) : outcome adjset :=
    match mget a old with
    | None => Err
    | Some g => let new := new_name d g in if str_eqb old new then Ok a else rename_child a old new
    end.
Lemma canonicalize_eq d a : canonicalize d a = ofold (canon_step d) (map fst a) a.
Proof. reflexivity. Qed.
Lemma rename_mid {A} (done todo : list (str * A)) k v new : NoDup (map fst (done ++ (k, v) :: todo)) ->
  map (fun p => if str_eqb (fst p) k then (new, snd p) else p) (done ++ (k, v) :: todo) = done ++ (new, v) :: todo.
Proof.
  intros N. rewrite map_app in *. cbn [map fst] in N. cbn [map fst snd].
  assert (NI : forall x, In x done \/ In x todo -> fst x <> k).
  { intros x I E. apply NoDup_remove_2 in N. apply N. apply in_or_app. rewrite <- E. destruct I; [left|right]; apply in_map; assumption. }
  destruct (str_eqb_spec k k) as [_|C]; [|congruence]. f_equal; [|f_equal].
  - rewrite <- (map_id done) at 2. apply map_ext_in. intros x I. destruct (str_eqb_spec (fst x) k) as [E|_]; [destruct (NI x (or_introl I) E)|reflexivity].
  - rewrite <- (map_id todo) at 2. apply map_ext_in. intros x I. destruct (str_eqb_spec (fst x) k) as [E|_]; [destruct (NI x (or_intror I) E)|reflexivity].
Qed.
Lemma canon_only d todo : forall done r, NoDup (map fst (done ++ todo)) -> ofold (canon_step d) (map fst todo) (done ++ todo) = Ok r ->
  r = done ++ map (renamed d) todo /\ NoDup (map fst r).
Proof.
  induction todo as [|[k g] todo IH]; intros done r N E; cbn [map ofold] in *.
  - injection E as <-. split; [reflexivity|exact N].
  - cbn [fst] in E. unfold canon_step in E at 1.
    rewrite (mget_Some_In_nodup _ k g N) in E by (apply in_or_app; right; left; reflexivity). cbn zeta in E.
    destruct (str_eqb_spec k (new_name d g)) as [K|K].
    + cbn [obind] in E. replace (done ++ (k, g) :: todo) with ((done ++ [(k, g)]) ++ todo) in * by (rewrite <- app_assoc; reflexivity).
      destruct (IH _ _ N E) as [-> N']. split; [|exact N']. unfold renamed at 2. cbn [snd]. rewrite <- K, <- app_assoc. reflexivity.
    + unfold rename_child in E. rewrite (mget_Some_In_nodup _ k g N) in E by (apply in_or_app; right; left; reflexivity).
      destruct (mget (done ++ (k, g) :: todo) (new_name d g)) eqn:M; [discriminate E|]. cbn [obind] in E. rewrite rename_mid in E by exact N.
      apply mget_None_notin in M.
      assert (N2 : NoDup (map fst ((done ++ [(new_name d g, g)]) ++ todo))).
      { rewrite <- app_assoc. rewrite map_app in *. cbn [map app fst] in *. apply NoDup_remove in N. destruct N as [N1 N2].
        apply Permutation_NoDup with (new_name d g :: map fst done ++ map fst todo); [apply Permutation_middle|]. constructor; [|exact N1].
        intros I. apply M. apply in_app_or in I. apply in_or_app. destruct I; [left|right; right]; assumption. }
      replace (done ++ (new_name d g, g) :: todo) with ((done ++ [(new_name d g, g)]) ++ todo) in E by (rewrite <- app_assoc; reflexivity).
      destruct (IH _ _ N2 E) as [-> N']. split; [|exact N']. rewrite <- app_assoc. reflexivity.
Qed.
Lemma canonicalize_only d a r : NoDup (map fst a) -> canonicalize d a = Ok r -> r = map (renamed d) a /\ NoDup (map fst r).
Proof. intros N E. exact (canon_only d a [] r N E). Qed.
Lemma canon_does d todo : forall done, NoDup (map fst (done ++ todo)) -> NoDup (map (fun p => new_name d (snd p)) todo) ->
  (forall p, In p todo -> ~ In (new_name d (snd p)) (map fst done)) ->
  (forall p q, In p todo -> In q todo -> new_name d (snd p) = fst q -> p = q) ->
  ofold (canon_step d) (map fst todo) (done ++ todo) = Ok (done ++ map (renamed d) todo).
Proof.
  induction todo as [|[k g] todo IH]; intros done N N1 D1 D2; cbn [map ofold]; [reflexivity|].
  cbn [map snd] in N1. inversion N1 as [|? ? N1a N1b]; subst.
  cbn [fst]. unfold canon_step at 1.
  rewrite (mget_Some_In_nodup _ k g N) by (apply in_or_app; right; left; reflexivity). cbn zeta.
  assert (Ct : forall done', map fst done' = map fst done ++ [new_name d g] -> NoDup (map fst (done' ++ todo)) ->
    ofold (canon_step d) (map fst todo) (done' ++ todo) = Ok (done' ++ map (renamed d) todo)).
  { intros done' M N'. apply IH; [exact N'|exact N1b| |].
    - intros p I J. rewrite M in J. apply in_app_or in J. destruct J as [J|[J|[]]]; [exact (D1 p (or_intror I) J)|].
      apply N1a. rewrite J. apply in_map_iff. exists p. split; [reflexivity|exact I].
    - intros p q I J. apply D2; right; assumption. }
  destruct (str_eqb_spec k (new_name d g)) as [K|K].
  - cbn [obind]. replace (done ++ (k, g) :: todo) with ((done ++ [(k, g)]) ++ todo) in * by (rewrite <- app_assoc; reflexivity).
    rewrite Ct; [|rewrite map_app; cbn [map fst]; rewrite <- K; reflexivity|exact N]. unfold renamed at 2. cbn [snd]. rewrite <- K, <- app_assoc. reflexivity.
  - unfold rename_child. rewrite (mget_Some_In_nodup _ k g N) by (apply in_or_app; right; left; reflexivity).
    assert (M : ~ In (new_name d g) (map fst (done ++ (k, g) :: todo))).
    { rewrite map_app. intros I. apply in_app_or in I. destruct I as [I|I]; [exact (D1 (k, g) (or_introl eq_refl) I)|].
      apply in_map_iff in I. destruct I as (q & E & I). pose proof (D2 (k, g) q (or_introl eq_refl) I) as Q. cbn [snd] in Q. specialize (Q (eq_sym E)). subst q. exact (K E). }
    rewrite (proj2 (mget_None_notin _ _) M). cbn [obind]. rewrite rename_mid by exact N.
    replace (done ++ (new_name d g, g) :: todo) with ((done ++ [(new_name d g, g)]) ++ todo) by (rewrite <- app_assoc; reflexivity).
    rewrite Ct; [rewrite <- app_assoc; reflexivity|rewrite map_app; reflexivity|].
    rewrite <- app_assoc. rewrite map_app in *. cbn [map app fst] in *. apply NoDup_remove in N. destruct N as [Na Nb].
    apply Permutation_NoDup with (new_name d g :: map fst done ++ map fst todo); [apply Permutation_middle|]. constructor; [|exact Na].
    intros I. apply M. apply in_app_or in I. apply in_or_app. destruct I; [left|right; right]; assumption.
Qed.
Lemma canonicalize_does d a : NoDup (map fst a) -> NoDup (map (fun p => new_name d (snd p)) a) ->
  (forall p q, In p a -> In q a -> new_name d (snd p) = fst q -> p = q) -> canonicalize d a = Ok (map (renamed d) a).
Proof. intros N N1 H. apply (canon_does d a []); auto. Qed.

(** ---- is_canonical ---- *)
Lemma a_digits_dec t : forall acc, Forall (fun c => In c (L "0123456789")) t -> a_digits acc t = fold_left (fun a c => 10 * a + (Z.of_N (N_of_ascii c) - 48)) t acc.
Proof.
  induction t as [|c t IH]; intros acc H; [reflexivity|]. inversion_clear H as [|? ? Hc Ht]. cbn [a_digits fold_left].
  assert (Q : (0 <=? Z.of_N (N_of_ascii c) - 48) && (Z.of_N (N_of_ascii c) - 48 <=? 9) = true) by (cbn [L list_ascii_of_string In] in Hc; repeat (destruct Hc as [<-|Hc]; [reflexivity|]); destruct Hc).
  rewrite Q. apply IH, Ht.
Qed.
Lemma digit_not_blank c : digit c -> a_blank [c] = [c] /\ Ascii.eqb c "-" = false /\ Ascii.eqb c "+" = false.
Proof. unfold digit. cbn [L list_ascii_of_string In]. intros H. repeat (destruct H as [<-|H]; [repeat split|]); destruct H. Qed.
Lemma a_blank_digit c r : digit c -> a_blank (c :: r) = c :: r.
Proof. intros H. apply digit_not_blank in H. destruct H as [H _]. cbn [a_blank] in *. destruct (_ || _)%bool; [discriminate|reflexivity]. Qed.
Lemma atoi_show n : - 2 ^ 31 <= n < 2 ^ 31 -> atoi (show_Z n) = Ok n.
Proof.
  intros B. assert (I : integer (show_Z n) n) by apply int_text_iff, show_Z_int.
  destruct I as (d & [Dn D] & [[E V]|[E V]]); rewrite E.
  - unfold atoi. destruct d as [|c d]; [congruence|]. inversion D as [|? ? Dc Dd]; subst.
    rewrite a_blank_digit by exact Dc. destruct (digit_not_blank c Dc) as (_ & -> & ->). rewrite a_digits_dec by exact D.
    change (fold_left _ (c :: d) 0) with (decimal (c :: d)). replace (_ && _) with true by lia. reflexivity.
  - unfold atoi. change (a_blank ("-"%char :: d)) with ("-"%char :: d). cbn [Ascii.eqb Bool.eqb]. rewrite a_digits_dec by exact D.
    change (fold_left _ d 0) with (decimal d). rewrite V in *. replace (_ && _) with true by lia. reflexivity.
Qed.
Lemma climbs_sorted l : StronglySorted Z.lt l -> climbs l = true.
Proof.
  induction l as [|x l IH]; intros S; [reflexivity|]. inversion S as [|? ? S1 S2]; subst. destruct l as [|y l]; [reflexivity|].
  change (climbs (x :: y :: l)) with ((x <? y) && climbs (y :: l)). rewrite IH by exact S1. inversion S2; subst. lia.
Qed.
Lemma sorted_strict l : StronglySorted Z.le l -> NoDup l -> StronglySorted Z.lt l.
Proof.
  induction l as [|x l IH]; intros S N; [constructor|]. inversion S as [|? ? S1 S2]; inversion N as [|? ? N1 N2]; subst. constructor; [auto|].
  rewrite Forall_forall in *. intros y I. specialize (S2 y I). assert (x <> y) by (intros ->; contradiction). lia.
Qed.
Lemma canonical_new d g : ids (g_nbrs g) <> [] -> NoDup (d :: ids (g_nbrs g)) -> Forall (fun n => - 2 ^ 31 <= n < 2 ^ 31) (d :: ids (g_nbrs g)) ->
  canonical_name (new_name d g) = Ok true.
Proof.
  intros Ne N B. unfold canonical_name. rewrite new_name_eq.
  assert (S : starts (L "group") (L "group" ++ concat (map dom_text (zsort (d :: ids (g_nbrs g))))) = true).
  { generalize (concat (map dom_text (zsort (d :: ids (g_nbrs g))))). intros s. reflexivity. }
  rewrite S, split_name. cbn [length tl]. rewrite map_length.
  rewrite (Permutation_length (zsort_perm _)). cbn [length]. destruct (ids (g_nbrs g)) as [|x r] eqn:E; [congruence|]. rewrite <- E in *. 
  replace (3 <=? _)%nat with true by (rewrite E; cbn [length]; reflexivity).
  assert (O : forall l, Forall (fun n => - 2 ^ 31 <= n < 2 ^ 31) l -> omapM atoi (map show_Z l) = Ok l).
  { induction l as [|y l IH]; intros H; [reflexivity|]. inversion_clear H as [|? ? Hy Hl]. cbn [map]. cbn [omapM]; rewrite atoi_show by exact Hy. cbn [obind]. rewrite IH by exact Hl. reflexivity. }
  rewrite O by (eapply Permutation_Forall; [symmetry; apply zsort_perm|exact B]). cbn [obind].
  rewrite climbs_sorted; [reflexivity|]. apply sorted_strict; [apply zsort_sorted|]. eapply Permutation_NoDup; [symmetry; apply zsort_perm|exact N].
Qed.
Lemma canonical_all ks : Forall (fun k => canonical_name k = Ok true) ks -> canonical_names ks = Ok true.
Proof. induction ks as [|k ks IH]; intros H; [reflexivity|]. inversion_clear H as [|? ? Hk Hr]. cbn [canonical_names]. rewrite Hk. cbn [obind]. auto. Qed.

(** * Leaves *)
Lemma signed_int t : is_signed t = true -> is_int t = true.
Proof. destruct t; cbn; congruence. Qed.
Lemma signed_in t u x : is_signed t = true -> is_signed u = true -> default_bytes t <= default_bytes u -> in_type t x -> in_type u x.
Proof.
  unfold in_type, int_min, int_max, bits. intros T U B. rewrite T, U.
  assert (P : 2 ^ (8 * default_bytes t - 1) <= 2 ^ (8 * default_bytes u - 1)) by (apply Z.pow_le_mono_r; lia). lia.
Qed.
Lemma in_64 t x : is_signed t = true -> in_type t x -> in_type INT64 x.
Proof. intros S. apply signed_in; [exact S|reflexivity|]. destruct t; cbn; try discriminate; lia. Qed.
Lemma ids_ok l : leaf_ok l -> ids l = snd l.
Proof.
  intros [S F]. unfold ids. rewrite <- (map_id (snd l)) at 2. apply map_ext_in. intros x I. rewrite Forall_forall in F.
  apply conv_id; [reflexivity|]. eapply in_64; [exact S|apply F, I].
Qed.
Definition leaf_types (a : adjset) : list tid := concat (map (fun p => [fst (g_vals (snd p)); fst (g_nbrs (snd p))]) (rev a)).
Lemma leaf_types_in a p : In p a -> In (fst (g_vals (snd p))) (leaf_types a) /\ In (fst (g_nbrs (snd p))) (leaf_types a).
Proof.
  intros I. unfold leaf_types. split; apply in_concat; exists [fst (g_vals (snd p)); fst (g_nbrs (snd p))]; (split; [apply in_map_iff; exists p; split; [reflexivity|apply in_rev; rewrite rev_involutive; exact I]|]); [left|right; left]; reflexivity.
Qed.
Lemma int_type_fits a : well a -> is_signed (int_type a) = true /\
  forall p, In p a -> Forall (in_type (int_type a)) (nbrs (snd p)) /\ Forall (in_type (int_type a)) (vals (snd p)).
Proof.
  intros [_ W]. rewrite Forall_forall in W. change (int_type a) with (find_widest int_defaults (leaf_types a)).
  assert (LS : forall u, In u (leaf_types a) -> is_signed u = true).
  { intros u I. unfold leaf_types in I. apply in_concat in I. destruct I as (l & I & J). apply in_map_iff in I. destruct I as (p & <- & I). apply in_rev in I.
    destruct (W p I) as [[A _] [B _]]. destruct J as [<-|[<-|[]]]; assumption. }
  pose proof (int_type_ok (leaf_types a)) as H. cbn zeta in H. destruct H as [_ [[E F]|[I F]]].
  - split; [rewrite E; reflexivity|]. intros p Ip. destruct (leaf_types_in a p Ip) as [J _]. rewrite Forall_forall in F. pose proof (F _ J) as Q. rewrite signed_int in Q by (apply LS, J). discriminate.
  - pose proof (LS _ I) as S. split; [exact S|]. intros p Ip. rewrite Forall_forall in F. destruct (leaf_types_in a p Ip) as [J1 J2]. destruct (W p Ip) as [[A1 A2] [B1 B2]].
    unfold nbrs, vals. split; [eapply Forall_impl; [|exact A2]|eapply Forall_impl; [|exact B2]]; intros x; apply signed_in; auto; apply F; auto using signed_int.
Qed.
Lemma store_ok t xs : is_signed t = true -> Forall (in_type t) xs -> leaf_ok (store t xs) /\ snd (store t xs) = xs.
Proof.
  intros S F. assert (E : map (conv t) xs = xs).
  { rewrite <- (map_id xs) at 2. apply map_ext_in. intros x I. rewrite Forall_forall in F. apply conv_id; [apply signed_int, S|apply F, I]. }
  unfold store, leaf_ok. cbn [fst snd]. rewrite E. repeat split; assumption.
Qed.

(** * The order of names *)
Lemma earlier_trans a b c : earlier a b -> earlier b c -> earlier a c.
Proof.
  intros H. revert c. induction H; intros x K; inversion K; subst; solve [apply e_end|apply e_chr; lia|apply e_tail; auto].
Qed.
Lemma earlier_irrefl a : ~ earlier a a.
Proof. induction a; intros H; inversion H; subst; [lia|auto]. Qed.
Lemma leb_earlier a : forall b, a <> b -> str_leb a b = true -> earlier a b.
Proof.
  induction a as [|c a IH]; intros [|d b] N H; cbn [str_leb] in H; try congruence; [constructor|].
  destruct (N.ltb_spec (N_of_ascii c) (N_of_ascii d)); [apply e_chr; assumption|].
  destruct (N.ltb_spec (N_of_ascii d) (N_of_ascii c)); [discriminate|].
  assert (E : c = d) by (rewrite <- (ascii_N_embedding c), <- (ascii_N_embedding d); f_equal; lia). subst d. apply e_tail, IH; [congruence|exact H].
Qed.
Lemma not_leb_earlier a : forall b, str_leb a b = false -> earlier b a.
Proof.
  induction a as [|c a IH]; intros [|d b] H; cbn [str_leb] in H; try discriminate; [constructor|].
  destruct (N.ltb_spec (N_of_ascii c) (N_of_ascii d)); [discriminate|].
  destruct (N.ltb_spec (N_of_ascii d) (N_of_ascii c)); [apply e_chr; assumption|].
  assert (E : c = d) by (rewrite <- (ascii_N_embedding c), <- (ascii_N_embedding d); f_equal; lia). subst d. apply e_tail, IH, H.
Qed.
Lemma by_name_sorted (a : adjset) : NoDup (map fst a) -> sorted_by_name (by_name a).
Proof.
  induction a as [|x a IH]; intros N; [constructor|]. cbn [map] in N. inversion N as [|? ? N1 N2]; subst. cbn [by_name fold_right]. fold (by_name a).
  specialize (IH N2). assert (NI : ~ In (fst x) (map fst (by_name a))).
  { intros I. apply N1. eapply Permutation_in; [apply Permutation_map, by_name_perm|exact I]. }
  revert IH NI. unfold sorted_by_name. generalize (by_name a). clear. induction l as [|y l IH]; cbn [insert_name]; intros S NI; [constructor; constructor|].
  inversion S as [|? ? S1 S2]; subst. destruct (str_leb (fst x) (fst y)) eqn:Q.
  - apply leb_earlier in Q; [|intros E; apply NI; left; congruence]. constructor; [exact S|]. constructor; [exact Q|].
    eapply Forall_impl; [|exact S2]. cbn. intros z. apply earlier_trans, Q.
  - apply not_leb_earlier in Q. constructor; [apply IH; [exact S1|intros I; apply NI; right; exact I]|].
    eapply Permutation_Forall; [symmetry; apply insert_perm|]. constructor; assumption.
Qed.
Lemma by_name_is (a gs : adjset) : NoDup (map fst a) -> Permutation gs a -> sorted_by_name gs -> by_name a = gs.
Proof.
  intros N P S. eapply sorted_unique; [|apply by_name_sorted, N|exact S|rewrite by_name_perm; symmetry; exact P].
  cbn. intros x y H1 H2. exfalso. eapply earlier_irrefl, earlier_trans; eassumption.
Qed.

(** * Numbered groups *)
Lemma combine_fst {A B} (l : list A) : forall (r : list B), length l = length r -> map fst (combine l r) = l.
Proof. induction l as [|x l IH]; intros [|y r] E; try discriminate E; [reflexivity|]. cbn [combine map fst]. f_equal. apply IH. injection E as E. exact E. Qed.
Lemma combine_snd {A B} (l : list A) : forall (r : list B), length l = length r -> map snd (combine l r) = r.
Proof. induction l as [|x l IH]; intros [|y r] E; try discriminate E; [reflexivity|]. cbn [combine map snd]. f_equal. apply IH. injection E as E. exact E. Qed.
Lemma counted_len gs : length (map (fun i => show_Z (Z.of_nat i)) (seq 0 (length gs))) = length (gs : list group).
Proof. rewrite map_length. apply seq_length. Qed.
Lemma counted_snd gs : map snd (counted gs) = gs.
Proof. apply combine_snd, counted_len. Qed.
Lemma counted_nodup gs : NoDup (map fst (counted gs)).
Proof.
  unfold counted. rewrite combine_fst by apply counted_len. apply FinFun.Injective_map_NoDup; [|apply seq_NoDup].
  intros x y E. apply show_inj in E. lia.
Qed.
Lemma counted_name gs k : In k (map fst (counted gs)) -> exists i, k = show_Z i.
Proof.
  unfold counted. rewrite combine_fst by apply counted_len. intros I. apply in_map_iff in I. destruct I as (i & <- & _). eauto.
Qed.
Lemma new_not_number d g i : new_name d g <> show_Z i.
Proof.
  intros E. pose proof (show_chars i) as H. rewrite <- E in H. unfold new_name in H. cbn [L list_ascii_of_string app] in H. inversion_clear H as [|? ? Hc Ht]. vm_compute in Hc. intuition discriminate.
Qed.
Lemma canonicalize_counted d gs : NoDup (map (new_name d) gs) -> canonicalize d (counted gs) = Ok (map (fun g => (new_name d g, g)) gs).
Proof.
  intros N. rewrite canonicalize_does.
  - rewrite <- (counted_snd gs) at 2. rewrite map_map. reflexivity.
  - apply counted_nodup.
  - rewrite <- (counted_snd gs) in N. rewrite map_map in N. exact N.
  - intros p q _ I E. exfalso. assert (J : In (fst q) (map fst (counted gs))) by (apply in_map, I). apply counted_name in J. destruct J as (i & J).
    rewrite J in E. exact (new_not_number _ _ _ E).
Qed.

(** * Pairwise *)
Lemma fold_flat {G K V M} (f : V -> M -> K -> M) (v : G -> V) (h : G -> list K) gs : forall m,
  fold_left (fun m g => fold_left (f (v g)) (h g) m) gs m =
  fold_left (fun m p => f (snd p) m (fst p)) (concat (map (fun g => map (fun n => (n, v g)) (h g)) gs)) m.
Proof.
  induction gs as [|g gs IH]; intros m; cbn [fold_left map concat]; [reflexivity|]. rewrite fold_left_app, IH. f_equal.
  generalize (h g). intros l. revert m. induction l as [|x l IHl]; intros m; cbn [map fold_left fst snd]; [reflexivity|apply IHl].
Qed.
Definition keyed {V} (n : Z) (ps : list (Z * V)) : list V := map snd (filter (fun p => fst p =? n) ps).
Lemma add_values_get (ps : list (Z * list Z)) n : forall m,
  zget (fold_left (fun m p => add_values (snd p) m (fst p)) ps m) n =
  match keyed n ps with
  | [] => zget m n
  | l => Some ((match zget m n with Some x => x | None => [] end) ++ concat l)
  end.
Proof.
  induction ps as [|[k v] ps IH]; intros m; [reflexivity|]. cbn [fold_left fst snd]. rewrite IH. unfold add_values. rewrite zget_zset.
  unfold keyed. cbn [filter fst]. rewrite (Z.eqb_sym n k). destruct (Z.eqb_spec k n) as [->|_]; [|reflexivity]. cbn [map snd]. fold (keyed n ps).
  destruct (keyed n ps) as [|x l]; cbn [concat]; destruct (zget m n); rewrite ?app_nil_r, ?app_assoc; reflexivity.
Qed.
Lemma add_values_asc (ps : list (Z * list Z)) : forall m, ascending m -> ascending (fold_left (fun m p => add_values (snd p) m (fst p)) ps m).
Proof. induction ps as [|[k v] ps IH]; intros m H; [exact H|]. cbn [fold_left]. apply IH. unfold add_values. apply zset_asc, H. Qed.
Definition pairs_of (f h : group -> list Z) (gs : list group) : list (Z * list Z) := concat (map (fun g => map (fun n => (n, f g)) (h g)) gs).
Lemma keyed_app {V} n (a b : list (Z * V)) : keyed n (a ++ b) = keyed n a ++ keyed n b.
Proof. unfold keyed. rewrite filter_app, map_app. reflexivity. Qed.
Lemma keyed_const {V} n (v : V) l : keyed n (map (fun k => (k, v)) l) = repeat v (count_occ Z.eq_dec l n).
Proof.
  unfold keyed. induction l as [|k l IH]; [reflexivity|]. cbn [map filter fst count_occ]. destruct (Z.eqb_spec k n) as [E|E]; destruct (Z.eq_dec k n); try contradiction; cbn [map snd repeat]; congruence.
Qed.
Lemma keyed_pairs f h n gs : Forall (fun g => NoDup (h g)) gs ->
  keyed n (pairs_of f h gs) = map f (filter (fun g => if in_dec Z.eq_dec n (h g) then true else false) gs).
Proof.
  unfold pairs_of. induction gs as [|g gs IH]; intros N; [reflexivity|]. inversion_clear N as [|? ? Ng Nr]. cbn [map concat filter]. rewrite keyed_app, keyed_const, IH by exact Nr.
  destruct (in_dec Z.eq_dec n (h g)) as [I|I].
  - apply (count_occ_In Z.eq_dec) in I. pose proof (proj1 (NoDup_count_occ Z.eq_dec (h g)) Ng n). replace (count_occ Z.eq_dec (h g) n) with 1%nat by lia. reflexivity.
  - rewrite (proj1 (count_occ_not_In Z.eq_dec (h g) n) I). reflexivity.
Qed.
Lemma pair_values_eq a : pair_values a = fold_left (fun m p => add_values (snd p) m (fst p)) (pairs_of (fun g => ids (g_vals g)) (fun g => ids (g_nbrs g)) (in_order a)) [].
Proof. unfold pair_values, pairs_of. exact (fold_flat add_values (fun g => ids (g_vals g)) (fun g => ids (g_nbrs g)) (in_order a) []). Qed.
Lemma well_in a k g : well a -> In (k, g) a -> leaf_ok (g_nbrs g) /\ leaf_ok (g_vals g) /\ ids (g_nbrs g) = nbrs g /\ ids (g_vals g) = vals g.
Proof.
  intros [_ W] I. rewrite Forall_forall in W. destruct (W _ I) as [A B]. cbn [snd] in A, B. split; [exact A|]. split; [exact B|]. split; apply ids_ok; assumption.
Qed.
Lemma order_in a g : In g (in_order a) <-> exists k, In (k, g) a.
Proof.
  unfold in_order. split.
  - intros I. apply in_map_iff in I. destruct I as ([k g'] & <- & I). exists k. eapply Permutation_in; [apply by_name_perm|exact I].
  - intros (k & I). apply in_map_iff. exists (k, g). split; [reflexivity|]. eapply Permutation_in; [symmetry; apply by_name_perm|exact I].
Qed.
Lemma filter_map_snd {A B} (f : B -> bool) (l : list (A * B)) : filter f (map snd l) = map snd (filter (fun p => f (snd p)) l).
Proof. induction l as [|x l IH]; [reflexivity|]. cbn [map filter]. destruct (f (snd x)); cbn [map]; congruence. Qed.
Lemma shared_eq a n : well a -> 
  concat (map (fun g => ids (g_vals g)) (filter (fun g => if in_dec Z.eq_dec n (ids (g_nbrs g)) then true else false) (in_order a))) = shared (by_name a) n.
Proof.
  intros W. unfold in_order, shared. rewrite filter_map_snd, map_map. f_equal.
  assert (E : forall p, In p (by_name a) -> ids (g_nbrs (snd p)) = nbrs (snd p) /\ ids (g_vals (snd p)) = vals (snd p)).
  { intros [k g] I. apply (well_in a k g W). eapply Permutation_in; [apply by_name_perm|exact I]. }
  revert E. generalize (by_name a). induction l as [|x l IH]; intros E; [reflexivity|]. cbn [filter].
  destruct (E x (or_introl eq_refl)) as [-> E2]. destruct (in_dec _ _ _); cbn [map]; rewrite IH by (intros; apply E; right; assumption); congruence.
Qed.
Lemma pair_get a n : well a -> Forall (fun p => NoDup (nbrs (snd p))) a ->
  (neighbor a n -> zget (pair_values a) n = Some (shared (by_name a) n)) /\ (zget (pair_values a) n <> None -> neighbor a n).
Proof.
  intros W N. rewrite pair_values_eq, add_values_get. cbn [zget].
  rewrite keyed_pairs.
  2:{ apply Forall_forall. intros g I. apply order_in in I. destruct I as (k & I). destruct (well_in a k g W I) as (_ & _ & -> & _). rewrite Forall_forall in N. exact (N _ I). }
  rewrite <- (shared_eq a n W).
  set (fl := filter (fun g => if in_dec Z.eq_dec n (ids (g_nbrs g)) then true else false) (in_order a)).
  assert (F : forall g, In g fl <-> (exists k, In (k, g) a /\ In n (nbrs g))).
  { intros g. unfold fl. rewrite filter_In, order_in. split.
    - intros [(k & I) H]. exists k. split; [exact I|]. destruct (well_in a k g W I) as (_ & _ & E & _). rewrite E in H. destruct (in_dec _ _ _); [assumption|discriminate].
    - intros (k & I & H). split; [exists k; exact I|]. destruct (well_in a k g W I) as (_ & _ & E & _). rewrite E. destruct (in_dec _ _ _); [reflexivity|contradiction]. }
  split.
  - intros (k & g & I & H). assert (J : In g fl) by (apply F; eauto). destruct fl as [|x fl]; [destruct J|]. cbn [map]. reflexivity.
  - intros H. destruct fl as [|x fl]; [cbn in H; congruence|]. destruct (proj1 (F x) (or_introl eq_refl)) as (k & I & J). exists k, x. auto.
Qed.
Lemma pair_values_asc a : ascending (pair_values a).
Proof. rewrite pair_values_eq. apply add_values_asc. constructor. Qed.
Lemma shared_in (a : adjset) (gs : adjset) n e : Permutation gs a -> In e (shared gs n) -> shares a e n.
Proof.
  intros P I. unfold shared in I. apply in_concat in I. destruct I as (l & I & J). apply in_map_iff in I. destruct I as ([k g] & <- & I). apply filter_In in I. destruct I as [I H]. cbn [snd] in *.
  exists k, g. split; [eapply Permutation_in; [exact P|exact I]|]. split; [exact J|]. destruct (in_dec _ _ _); [assumption|discriminate].
Qed.

Definition pair_group (t : tid) (p : Z * list Z) : group := Group (store t [fst p]) (store t (snd p)).
Theorem pairwise_law d a gs : well a -> Forall (fun p => NoDup (nbrs (snd p))) a -> Permutation gs a -> sorted_by_name gs ->
  exists r, to_pairwise d a = Ok r /\ well r /\
    (forall k g, In (k, g) r -> exists n, nbrs g = [n] /\ k = new_name d g /\ named d [n] k /\ neighbor a n /\ vals g = shared gs n) /\
    (forall n, neighbor a n -> exists k g, In (k, g) r /\ nbrs g = [n]).
Proof.
  intros W N P S. assert (B : by_name a = gs) by (apply by_name_is; [apply W|exact P|exact S]).
  destruct (int_type_fits a W) as [T Fit]. set (t := int_type a) in *.
  set (pv := pair_values a).
  assert (PV : forall n vs, In (n, vs) pv -> neighbor a n /\ vs = shared gs n /\ Forall (in_type t) [n] /\ Forall (in_type t) vs).
  { intros n vs I. apply (asc_get _ _ _ (pair_values_asc a)) in I. destruct (pair_get a n W N) as [G1 G2].
    assert (Nb : neighbor a n) by (apply G2; congruence). rewrite (G1 Nb), B in I. injection I as <-.
    split; [exact Nb|]. split; [reflexivity|]. split.
    - constructor; [|constructor]. destruct Nb as (k & g & I & J). destruct (Fit _ I) as [F1 _]. rewrite Forall_forall in F1. apply F1, J.
    - apply Forall_forall. intros e I. apply (shared_in a gs n e P) in I. destruct I as (k & g & I & J & _). destruct (Fit _ I) as [_ F2]. rewrite Forall_forall in F2. apply F2, J. }
  assert (Lf : forall n vs, In (n, vs) pv -> leaf_ok (store t [n]) /\ snd (store t [n]) = [n] /\ leaf_ok (store t vs) /\ snd (store t vs) = vs).
  { intros n vs I. destruct (PV n vs I) as (_ & _ & F1 & F2). destruct (store_ok t [n] T F1), (store_ok t vs T F2). auto. }
  assert (Nm : NoDup (map (new_name d) (map (pair_group t) pv))).
  { assert (ND : NoDup (map fst pv)) by apply asc_nodup, pair_values_asc.
    clear PV. revert ND Lf. clearbody pv. induction pv as [|[n vs] l IH]; intros ND Lf; cbn [map]; constructor.
    - intros I. rewrite map_map in I. apply in_map_iff in I. destruct I as ([n' vs'] & E & I). apply new_name_inj in E. unfold pair_group in E. cbn [g_nbrs fst] in E.
      destruct (Lf n vs (or_introl eq_refl)) as (L1 & L2 & _). destruct (Lf n' vs' (or_intror I)) as (L1' & L2' & _).
      rewrite (ids_ok _ L1), (ids_ok _ L1'), L2, L2' in E. apply Permutation_cons_inv in E. apply Permutation_length_1 in E. subst n'.
      cbn [map fst] in ND. inversion ND as [|? ? ND1 ND2]. apply ND1. apply in_map_iff. exists (n, vs'). auto.
    - apply IH; [inversion ND; assumption|intros; apply Lf; right; assumption]. }
  exists (map (fun g => (new_name d g, g)) (map (pair_group t) pv)). split; [|split; [|split]].
  - apply canonicalize_counted, Nm.
  - split; [rewrite map_map; exact Nm|]. apply Forall_forall. intros p I. apply in_map_iff in I. destruct I as (g & <- & I). apply in_map_iff in I. destruct I as ([n vs] & <- & I).
    destruct (Lf n vs I) as (L1 & _ & L2 & _). cbn [snd pair_group g_nbrs g_vals fst]. auto.
  - intros k g I. apply in_map_iff in I. destruct I as (g' & E & I). injection E as <- <-. apply in_map_iff in I. destruct I as ([n vs] & <- & I).
    destruct (Lf n vs I) as (L1 & L2 & L3 & L4). destruct (PV n vs I) as (Nb & V & _). exists n. unfold nbrs, vals. cbn [pair_group g_nbrs g_vals fst snd] in *.
    split; [exact L2|]. split; [reflexivity|]. split; [|split; [exact Nb|exact (eq_trans L4 V)]].
    pose proof (new_name_named d (pair_group t (n, vs))) as Q. cbn [pair_group g_nbrs fst] in Q. rewrite (ids_ok _ L1), L2 in Q. exact Q.
  - intros n Nb. destruct (pair_get a n W N) as [G1 _]. specialize (G1 Nb). apply zget_In in G1. fold pv in G1. destruct (Lf _ _ G1) as (_ & L2 & _).
    exists (new_name d (pair_group t (n, shared (by_name a) n))), (pair_group t (n, shared (by_name a) n)). split; [|exact L2].
    apply in_map_iff. eexists. split; [reflexivity|]. apply in_map_iff. eexists. split; [reflexivity|exact G1].
Qed.

(** ---- two domains ---- *)
Lemma forall2_concat {A B X Y} (R : X -> Y -> Prop) (f : A -> list X) (g : B -> list Y) l l' :
  Forall2 (fun x y => Forall2 R (f x) (g y)) l l' -> Forall2 R (concat (map f l)) (concat (map g l')).
Proof. induction 1; cbn [map concat]; [constructor|]. apply Forall2_app; assumption. Qed.
Lemma sorted_filter {A} (R : A -> A -> Prop) f l : StronglySorted R l -> StronglySorted R (filter f l).
Proof.
  induction 1 as [|x l S IH F]; [constructor|]. cbn [filter]. destruct (f x); [|exact IH]. constructor; [exact IH|].
  apply Forall_forall. intros y I. apply filter_In in I. rewrite Forall_forall in F. apply F, I.
Qed.
Lemma sorted_names l : sorted_by_name l -> StronglySorted earlier (map fst l).
Proof.
  unfold sorted_by_name. induction 1 as [|x l S IH F]; cbn [map]; constructor; [exact IH|]. apply Forall_forall. intros k I. apply in_map_iff in I. destruct I as (p & <- & I).
  rewrite Forall_forall in F. exact (F p I).
Qed.
Lemma sorted_nodup l : StronglySorted earlier l -> NoDup l.
Proof. induction 1 as [|x l S IH F]; constructor; [|exact IH]. intros I. rewrite Forall_forall in F. exact (earlier_irrefl x (F x I)). Qed.
Lemma names_forall2 (P : group -> group -> Prop) (l : adjset) : forall l' : adjset, map fst l = map fst l' ->
  (forall k g h, In (k, g) l -> In (k, h) l' -> P g h) -> Forall2 (fun p q => P (snd p) (snd q)) l l'.
Proof.
  induction l as [|[k g] l IH]; intros [|[k' h] l'] E H; try discriminate E; constructor.
  - injection E as E _. subst k'. apply (H k); left; reflexivity.
  - injection E as _ E. apply IH; [exact E|]. intros x y z I J. apply (H x); right; assumption.
Qed.
Theorem across_law (R : Z -> Z -> Prop) da db a b ra rb : well a -> well b ->
  Forall (fun p => NoDup (nbrs (snd p))) a -> Forall (fun p => NoDup (nbrs (snd p))) b ->
  agree R da db a b -> to_pairwise da a = Ok ra -> to_pairwise db b = Ok rb ->
  forall k g, In (k, g) ra -> nbrs g = [db] -> exists h, In (k, h) rb /\ nbrs h = [da] /\ Forall2 R (vals g) (vals h).
Proof.
  intros Wa Wb Na Nb [H1 H2] Ea Eb k g I E.
  destruct (pairwise_law da a (by_name a) Wa Na (by_name_perm a) (by_name_sorted a (proj1 Wa))) as (ra' & Ea' & Wra & Ga & _). rewrite Ea in Ea'. injection Ea' as <-.
  destruct (pairwise_law db b (by_name b) Wb Nb (by_name_perm b) (by_name_sorted b (proj1 Wb))) as (rb' & Eb' & Wrb & Gb & Xb). rewrite Eb in Eb'. injection Eb' as <-.
  destruct (Ga k g I) as (n & E' & K & _ & Nn & V). rewrite E in E'. injection E' as <-.
  assert (Nd : neighbor b da).
  { destruct Nn as (k0 & g0 & I0 & J0). destruct (proj1 (H1 k0) (ex_intro _ g0 (conj I0 J0))) as (h & I1 & J1). exists k0, h. auto. }
  destruct (Xb da Nd) as (k' & h & Ih & Eh). destruct (Gb k' h Ih) as (n & E' & K' & _ & _ & V'). rewrite Eh in E'. injection E' as <-.
  assert (KK : k = k').
  { rewrite K, K'. apply new_name_perm. destruct (well_in ra k g Wra I) as (_ & _ & -> & _). destruct (well_in rb k' h Wrb Ih) as (_ & _ & -> & _). rewrite E, Eh. apply perm_swap. }
  exists h. split; [rewrite KK; exact Ih|]. split; [exact Eh|]. rewrite V, V'. unfold shared.
  set (fa := filter (fun p => if in_dec Z.eq_dec db (nbrs (snd p)) then true else false) (by_name a)).
  set (fb := filter (fun p => if in_dec Z.eq_dec da (nbrs (snd p)) then true else false) (by_name b)).
  assert (Fa : forall x y, In (x, y) fa <-> In (x, y) a /\ In db (nbrs y)).
  { intros x y. unfold fa. rewrite filter_In. cbn [snd]. split; intros [A B].
    - split; [eapply Permutation_in; [apply by_name_perm|exact A]|]. destruct (in_dec _ _ _); [assumption|discriminate].
    - split; [eapply Permutation_in; [symmetry; apply by_name_perm|exact A]|]. destruct (in_dec _ _ _); [reflexivity|contradiction]. }
  assert (Fb : forall x y, In (x, y) fb <-> In (x, y) b /\ In da (nbrs y)).
  { intros x y. unfold fb. rewrite filter_In. cbn [snd]. split; intros [A B].
    - split; [eapply Permutation_in; [apply by_name_perm|exact A]|]. destruct (in_dec _ _ _); [assumption|discriminate].
    - split; [eapply Permutation_in; [symmetry; apply by_name_perm|exact A]|]. destruct (in_dec _ _ _); [reflexivity|contradiction]. }
  assert (Sa : StronglySorted earlier (map fst fa)) by (apply sorted_names, sorted_filter, by_name_sorted, Wa).
  assert (Sb : StronglySorted earlier (map fst fb)) by (apply sorted_names, sorted_filter, by_name_sorted, Wb).
  apply forall2_concat. apply (names_forall2 (fun g h => Forall2 R (vals g) (vals h))).
  - eapply sorted_unique; [|exact Sa|exact Sb|].
    + intros x y X Y. exfalso. eapply earlier_irrefl, earlier_trans; eassumption.
    + apply NoDup_Permutation; [apply sorted_nodup, Sa|apply sorted_nodup, Sb|]. intros x. split; intros J; apply in_map_iff in J; destruct J as ([x' y] & <- & J); cbn [fst].
      * apply Fa in J. destruct (proj1 (H1 x') (ex_intro _ y J)) as (z & J'). apply in_map_iff. exists (x', z). split; [reflexivity|apply Fb, J'].
      * apply Fb in J. destruct (proj2 (H1 x') (ex_intro _ y J)) as (z & J'). apply in_map_iff. exists (x', z). split; [reflexivity|apply Fa, J'].
  - intros x y z J1 J2. apply Fa in J1. apply Fb in J2. destruct J1, J2. eapply H2; eassumption.
Qed.

(** * Max-share *)
Lemma sadd_in x s y : In y (sadd x s) <-> y = x \/ In y s.
Proof.
  induction s as [|z s IH]; cbn [sadd]; [cbn; intuition|]. destruct (Z.eqb_spec x z) as [->|N]; [cbn; intuition|]. destruct (x <? z); cbn [In]; [intuition|]. rewrite IH. intuition.
Qed.
Lemma sadd_sorted x s : StronglySorted Z.lt s -> StronglySorted Z.lt (sadd x s).
Proof.
  induction s as [|z s IH]; intros H; cbn [sadd]; [constructor; constructor|]. inversion H as [|? ? H1 H2]; subst. destruct (Z.eqb_spec x z) as [->|N]; [exact H|].
  destruct (Z.ltb_spec x z).
  - constructor; [exact H|]. constructor; [assumption|]. eapply Forall_impl; [|exact H2]. cbn. lia.
  - constructor; [apply IH, H1|]. apply Forall_forall. intros y I. apply sadd_in in I. rewrite Forall_forall in H2. destruct I as [->|I]; [lia|apply H2, I].
Qed.
Definition sadds (ns s : list Z) : list Z := fold_left (fun s n => sadd n s) ns s.
Lemma sadds_in ns : forall s y, In y (sadds ns s) <-> In y ns \/ In y s.
Proof. induction ns as [|x ns IH]; intros s y; cbn [sadds fold_left]; [cbn; tauto|]. fold (sadds ns (sadd x s)). rewrite IH, sadd_in. cbn [In]. intuition. Qed.
Lemma sadds_sorted ns : forall s, StronglySorted Z.lt s -> StronglySorted Z.lt (sadds ns s).
Proof. induction ns as [|x ns IH]; intros s H; cbn [sadds fold_left]; [exact H|]. apply IH, sadd_sorted, H. Qed.
Lemma add_sharers_get (ps : list (Z * list Z)) e : forall m,
  zget (fold_left (fun m p => add_sharers (snd p) m (fst p)) ps m) e =
  match keyed e ps with
  | [] => zget m e
  | l => Some (sadds (concat l) (match zget m e with Some s => s | None => [] end))
  end.
Proof.
  induction ps as [|[k v] ps IH]; intros m; [reflexivity|]. cbn [fold_left fst snd]. rewrite IH. unfold add_sharers. rewrite zget_zset.
  unfold keyed. cbn [filter fst]. rewrite (Z.eqb_sym e k). destruct (Z.eqb_spec k e) as [->|_]; [|reflexivity]. cbn [map snd]. fold (keyed e ps).
  destruct (keyed e ps) as [|x l]; cbn [concat]; unfold sadds; rewrite ?app_nil_r; [reflexivity|]. rewrite !fold_left_app. reflexivity.
Qed.
Lemma add_sharers_asc (ps : list (Z * list Z)) : forall m, ascending m -> ascending (fold_left (fun m p => add_sharers (snd p) m (fst p)) ps m).
Proof. induction ps as [|[k v] ps IH]; intros m H; [exact H|]. cbn [fold_left]. apply IH. unfold add_sharers. apply zset_asc, H. Qed.
Lemma groupsets_eq a : groupsets a = fold_left (fun m p => add_sharers (snd p) m (fst p)) (pairs_of (fun g => ids (g_nbrs g)) (fun g => ids (g_vals g)) (in_order a)) [].
Proof. exact (fold_flat add_sharers (fun g => ids (g_nbrs g)) (fun g => ids (g_vals g)) (in_order a) []). Qed.
Lemma keyed_in f h gs e l : In l (keyed e (pairs_of f h gs)) <-> exists g, In g gs /\ In e (h g) /\ l = f g.
Proof.
  unfold keyed, pairs_of. split.
  - intros I. apply in_map_iff in I. destruct I as ([k v] & <- & I). apply filter_In in I. destruct I as [I E]. cbn [fst snd] in *. apply Z.eqb_eq in E. subst k.
    apply in_concat in I. destruct I as (q & I & J). apply in_map_iff in I. destruct I as (g & <- & I). apply in_map_iff in J. destruct J as (n & E & J). injection E as -> <-. eauto.
  - intros (g & I & J & ->). apply in_map_iff. exists (e, f g). split; [reflexivity|]. apply filter_In. split; [|cbn [fst]; lia].
    apply in_concat. eexists. split; [apply in_map_iff; exists g; split; [reflexivity|exact I]|]. apply in_map_iff. exists e. auto.
Qed.
Lemma groupset_get a e : well a ->
  (entity a e -> exists s, zget (groupsets a) e = Some s /\ StronglySorted Z.lt s /\ forall n, In n s <-> shares a e n) /\
  (~ entity a e -> zget (groupsets a) e = None).
Proof.
  intros W. rewrite groupsets_eq, add_sharers_get. cbn [zget].
  assert (K : forall l, In l (keyed e (pairs_of (fun g => ids (g_nbrs g)) (fun g => ids (g_vals g)) (in_order a))) <-> exists k g, In (k, g) a /\ In e (vals g) /\ l = nbrs g).
  { intros l. rewrite keyed_in. split.
    - intros (g & I & J & E). apply order_in in I. destruct I as (k & I). destruct (well_in a k g W I) as (_ & _ & E1 & E2). rewrite E2 in J. rewrite E1 in E. eauto.
    - intros (k & g & I & J & E). exists g. destruct (well_in a k g W I) as (_ & _ & E1 & E2). rewrite E2, E1. split; [apply order_in; eauto|auto]. }
  split.
  - intros (k & g & I & J). destruct (keyed e _) as [|x l].
    + exfalso. apply (proj2 (K (nbrs g))). eauto.
    + eexists. split; [reflexivity|]. split; [apply sadds_sorted; constructor|]. intros n. rewrite sadds_in. split.
      * intros [Hn|[]]. apply in_concat in Hn. destruct Hn as (q & Hq & Hn). apply K in Hq. destruct Hq as (k' & g' & I' & J' & ->). exists k', g'. auto.
      * intros (k' & g' & I' & J' & Hn). left. apply in_concat. exists (nbrs g'). split; [apply K; eauto|exact Hn].
  - intros N. destruct (keyed e _) as [|x l]; [reflexivity|]. exfalso. apply N. destruct (proj1 (K x) (or_introl eq_refl)) as (k & g & I & J & _). exists k, g. auto.
Qed.
Lemma zeqs_spec a : forall b, reflect (a = b) (zeqs a b).
Proof.
  induction a as [|x a IH]; intros [|y b]; cbn [zeqs]; try (constructor; congruence). destruct (Z.eqb_spec x y) as [->|N]; cbn [andb]; [|constructor; congruence].
  destruct (IH b) as [->|N]; constructor; congruence.
Qed.
Lemma group_keys_spec es : forall ks, NoDup ks -> let r := fold_left (fun ks (p : Z * list Z) => if existsb (zeqs (snd p)) ks then ks else ks ++ [snd p]) es ks in
  NoDup r /\ forall s, In s r <-> In s ks \/ In s (map snd es).
Proof.
  induction es as [|p es IH]; intros ks N; cbn [fold_left map]; cbn zeta; [split; [exact N|cbn; tauto]|].
  assert (X : existsb (zeqs (snd p)) ks = true <-> In (snd p) ks).
  { rewrite existsb_exists. split; [intros (y & I & E); destruct (zeqs_spec (snd p) y) as [->|]; [exact I|discriminate]|]. intros I. exists (snd p). split; [exact I|]. destruct (zeqs_spec (snd p) (snd p)); congruence. }
  destruct (existsb _ ks) eqn:E.
  - destruct (IH ks N) as [A B]. split; [exact A|]. intros s. rewrite B. cbn [In]. split; [tauto|]. intros [?|[<-|?]]; auto. left. apply X. reflexivity.
  - assert (N' : NoDup (ks ++ [snd p])).
    { apply Permutation_NoDup with (snd p :: ks); [rewrite Permutation_app_comm; reflexivity|]. constructor; [|exact N]. intros I. apply X in I. discriminate. }
    destruct (IH _ N') as [A B]. split; [exact A|]. intros s. rewrite B, in_app_iff. cbn [In]. intuition.
Qed.
Lemma sget_sset {A} (m : list (list Z * A)) k v s : sget (sset m k v) s = if zeqs s k then Some v else sget m s.
Proof.
  induction m as [|[k' v'] m IH]; cbn [sset sget]; [destruct (zeqs s k); reflexivity|].
  destruct (zeqs_spec k k') as [->|N]; cbn [sget].
  - destruct (zeqs s k'); reflexivity.
  - destruct (zeqs_spec s k') as [->|N']; [|exact IH]. destruct (zeqs_spec k' k); [congruence|reflexivity].
Qed.
Definition key_of (es : list (Z * list Z)) (e : Z) : list Z := match zget es e with Some s => s | None => [] end.
Lemma add_entity_get es s all : forall m,
  sget (fold_left (add_entity es) all m) s =
  match filter (fun e => zeqs (key_of es e) s) all with
  | [] => sget m s
  | l => Some (match sget m s with Some x => x ++ firsts x l | None => firsts [] l end)
  end.
Proof.
  induction all as [|e all IH]; intros m; [reflexivity|]. cbn [fold_left filter]. rewrite IH. unfold add_entity. fold (key_of es e). cbn zeta. rewrite sget_sset.
  destruct (zeqs_spec s (key_of es e)) as [->|N].
  - destruct (zeqs_spec (key_of es e) (key_of es e)) as [_|C]; [|congruence].
    set (pre := match sget m (key_of es e) with Some l => l | None => [] end).
    assert (Q : forall l, (if existsb (Z.eqb e) pre then pre else pre ++ [e]) ++ firsts (if existsb (Z.eqb e) pre then pre else pre ++ [e]) l = pre ++ firsts pre (e :: l)).
    { intros l. cbn [firsts]. destruct (existsb (Z.eqb e) pre); [reflexivity|]. rewrite <- app_assoc. cbn [app]. do 2 f_equal. apply firsts_ext. intros y. rewrite in_app_iff. cbn [In]. tauto. }
    destruct (filter _ all) as [|x l] eqn:F.
    + specialize (Q []). cbn [firsts] in Q |- *. rewrite app_nil_r in Q. rewrite Q. unfold pre. destruct (sget m (key_of es e)); reflexivity.
    + rewrite Q. unfold pre. destruct (sget m (key_of es e)); reflexivity.
  - destruct (zeqs_spec (key_of es e) s) as [E|_]; [congruence|reflexivity].
Qed.
Lemma fold_concat {A B C} (f : C -> B -> C) (h : A -> list B) gs : forall m, fold_left (fun m g => fold_left f (h g) m) gs m = fold_left f (concat (map h gs)) m.
Proof. induction gs as [|g gs IH]; intros m; cbn [fold_left map concat]; [reflexivity|]. rewrite fold_left_app. apply IH. Qed.
Lemma order_vals a : well a -> concat (map (fun g => ids (g_vals g)) (in_order a)) = concat (map (fun p => vals (snd p)) (by_name a)).
Proof.
  intros W. unfold in_order. rewrite map_map. f_equal. apply map_ext_in. intros [k g] I. cbn [snd]. apply (well_in a k g W). eapply Permutation_in; [apply by_name_perm|exact I].
Qed.
Lemma groupset_values_get a s : well a -> sget (groupset_values (groupsets a) a) s =
  match filter (fun e => zeqs (key_of (groupsets a) e) s) (concat (map (fun p => vals (snd p)) (by_name a))) with [] => None | l => Some (distinct l) end.
Proof. intros W. unfold groupset_values. rewrite fold_concat, order_vals by exact W. exact (add_entity_get _ s _ []). Qed.
Lemma sorted_ext l : forall l', StronglySorted Z.lt l -> StronglySorted Z.lt l' -> (forall x, In x l <-> In x l') -> l = l'.
Proof.
  assert (ND : forall m, StronglySorted Z.lt m -> NoDup m).
  { induction 1 as [|x m S IH F]; constructor; [|exact IH]. intros I. rewrite Forall_forall in F. specialize (F x I). lia. }
  intros l' S S' H. eapply sorted_unique; [|exact S|exact S'|apply NoDup_Permutation; auto]. intros; lia.
Qed.
Lemma entity_in a gs e : Permutation gs a -> entity a e <-> In e (concat (map (fun p => vals (snd p)) gs)).
Proof.
  intros P. split.
  - intros (k & g & I & J). apply in_concat. exists (vals g). split; [|exact J]. apply in_map_iff. exists (k, g). split; [reflexivity|]. eapply Permutation_in; [symmetry; exact P|exact I].
  - intros I. apply in_concat in I. destruct I as (l & I & J). apply in_map_iff in I. destruct I as ([k g] & <- & I). exists k, g. split; [eapply Permutation_in; [exact P|exact I]|exact J].
Qed.
Theorem maxshare_law d a gs : well a -> Permutation gs a -> sorted_by_name gs ->
  exists r, to_maxshare d a = Ok r /\ well r /\
    (forall k g, In (k, g) r -> k = new_name d g /\ named d (nbrs g) k /\ StronglySorted Z.lt (nbrs g) /\ vals g <> [] /\
       exists f, (forall e, f e = true <-> forall n, shares a e n <-> In n (nbrs g)) /\ vals g = distinct (filter f (concat (map (fun p => vals (snd p)) gs)))) /\
    (forall e, entity a e -> exists k g, In (k, g) r /\ In e (vals g)).
Proof.
  intros W P S. assert (B : by_name a = gs) by (apply by_name_is; [apply W|exact P|exact S]).
  destruct (int_type_fits a W) as [T Fit]. set (t := int_type a) in *. set (es := groupsets a). set (vm := groupset_values es a).
  assert (Asc : ascending es) by (unfold es; rewrite groupsets_eq; apply add_sharers_asc; constructor).
  set (all := concat (map (fun p => vals (snd p)) gs)).
  assert (VM : forall s, sget vm s = match filter (fun e => zeqs (key_of es e) s) all with [] => None | l => Some (distinct l) end).
  { intros s. unfold vm, es, all. rewrite groupset_values_get by exact W. rewrite B. reflexivity. }
  assert (Ent : forall e, In e all <-> entity a e) by (intros e; symmetry; apply entity_in, P).
  assert (Key : forall e, entity a e -> zget es e = Some (key_of es e) /\ StronglySorted Z.lt (key_of es e) /\ forall n, In n (key_of es e) <-> shares a e n).
  { intros e He. destruct (proj1 (groupset_get a e W) He) as (s & E & Q1 & Q2). unfold key_of, es. rewrite E. auto. }
  assert (Key0 : forall e, ~ In e all -> key_of es e = []).
  { intros e N. unfold key_of, es. rewrite (proj2 (groupset_get a e W)); [reflexivity|]. intros H. apply N, Ent, H. }
  destruct (group_keys_spec es [] (NoDup_nil _)) as [Nk Ik]. cbn zeta in Nk, Ik. change (fold_left _ es []) with (group_keys es) in Nk, Ik.
  set (ks := group_keys es) in *.
  set (gr := fun s => Group (store t s) (store t (match sget vm s with Some l => l | None => [] end))).
  assert (KS : forall s, In s ks -> exists e, entity a e /\ key_of es e = s).
  { intros s I. apply Ik in I. destruct I as [[]|I]. apply in_map_iff in I. destruct I as ([e s'] & E & I). cbn in E. subst s'. apply (asc_get _ _ _ Asc) in I.
    exists e. unfold key_of. rewrite I. split; [|reflexivity]. destruct (in_dec Z.eq_dec e all) as [J|J]; [apply Ent, J|].
    exfalso. unfold es in I. rewrite (proj2 (groupset_get a e W)) in I; [discriminate|]. intros H. apply J, Ent, H. }
  assert (Vs : forall s, In s ks -> exists l, sget vm s = Some l /\ l <> [] /\ l = distinct (filter (fun e => zeqs (key_of es e) s) all)).
  { intros s I. destruct (KS s I) as (e & He & E). assert (J : In e (filter (fun e => zeqs (key_of es e) s) all)).
    { apply filter_In. split; [apply Ent, He|]. destruct (zeqs_spec (key_of es e) s); congruence. }
    rewrite VM. destruct (filter _ all) as [|x l] eqn:F; [destruct J|]. eexists. split; [reflexivity|]. split; [discriminate|reflexivity]. }
  assert (Lf : forall s, In s ks -> leaf_ok (g_nbrs (gr s)) /\ nbrs (gr s) = s /\ leaf_ok (g_vals (gr s)) /\ sget vm s = Some (vals (gr s))).
  { intros s I. destruct (KS s I) as (e & He & E). destruct (Key e He) as (_ & _ & Q). destruct (Vs s I) as (l & El & _ & Dl).
    assert (F1 : Forall (in_type t) s).
    { apply Forall_forall. intros n J. rewrite <- E in J. apply Q in J. destruct J as (k & g & I1 & _ & I2). destruct (Fit _ I1) as [F _]. rewrite Forall_forall in F. apply F, I2. }
    assert (F2 : Forall (in_type t) l).
    { apply Forall_forall. intros x J. rewrite Dl in J. apply (proj1 (proj2 (distinct_ok _) x)) in J. apply filter_In in J. destruct J as [J _]. apply Ent in J. destruct J as (k & g & I1 & I2). destruct (Fit _ I1) as [_ F]. rewrite Forall_forall in F. apply F, I2. }
    unfold gr, nbrs, vals. cbn [g_nbrs g_vals]. rewrite El. destruct (store_ok t s T F1) as [A1 A2]. destruct (store_ok t l T F2) as [B1 B2]. rewrite B2. auto. }
  assert (Nm : NoDup (map (new_name d) (map gr ks))).
  { rewrite map_map. apply NoDup_nth_error. intros i j Hi E. rewrite map_length in Hi. rewrite !nth_error_map in E.
    destruct (nth_error ks i) as [s|] eqn:Ei; [|apply nth_error_None in Ei; lia]. destruct (nth_error ks j) as [s'|] eqn:Ej; [|discriminate]. cbn [option_map] in E. apply (f_equal (fun o => match o with Some x => x | None => [] end)) in E.
    pose proof (nth_error_In _ _ Ei) as Is. pose proof (nth_error_In _ _ Ej) as Is'. apply new_name_inj in E.
    destruct (Lf s Is) as (L1 & L2 & _). destruct (Lf s' Is') as (L1' & L2' & _). rewrite (ids_ok _ L1), (ids_ok _ L1') in E. unfold nbrs in L2, L2'. rewrite L2, L2' in E. apply Permutation_cons_inv in E.
    destruct (KS s Is) as (e & He & Ee). destruct (KS s' Is') as (e' & He' & Ee'). destruct (Key e He) as (_ & Q & _). destruct (Key e' He') as (_ & Q' & _). rewrite Ee in Q. rewrite Ee' in Q'.
    assert (s = s') by (apply sorted_ext; [exact Q|exact Q'|]; intros x; split; apply Permutation_in; [exact E|symmetry; exact E]). subst s'.
    rewrite NoDup_nth_error in Nk. apply Nk; [apply nth_error_Some; congruence|congruence]. }
  exists (map (fun g => (new_name d g, g)) (map gr ks)). split; [|split; [|split]].
  - apply canonicalize_counted, Nm.
  - split; [rewrite map_map; exact Nm|]. apply Forall_forall. intros p I. apply in_map_iff in I. destruct I as (g & <- & I). apply in_map_iff in I. destruct I as (s & <- & I).
    destruct (Lf s I) as (L1 & _ & L2 & _). cbn [snd]. auto.
  - intros k g I. apply in_map_iff in I. destruct I as (g' & E & I). injection E as <- <-. apply in_map_iff in I. destruct I as (s & <- & I).
    destruct (Lf s I) as (L1 & L2 & L3 & L4). destruct (Vs s I) as (l & El & Nl & Dl). rewrite L4 in El. injection El as El. destruct (KS s I) as (e0 & He0 & Ee0). destruct (Key e0 He0) as (_ & Qs & _). rewrite Ee0 in Qs.
    split; [reflexivity|]. split.
    { pose proof (new_name_named d (gr s)) as Q. rewrite (ids_ok _ L1) in Q. exact Q. }
    rewrite L2. split; [exact Qs|]. split; [congruence|]. exists (fun e => zeqs (key_of es e) s). split; [|congruence].
    intros e. destruct (zeqs_spec (key_of es e) s) as [E|E]; (split; [intros Q|intros Q]); try discriminate Q; try reflexivity.
    + destruct (in_dec Z.eq_dec e all) as [J|J].
      * apply Ent in J. destruct (Key e J) as (_ & _ & Qn). intros n. rewrite <- Qn, E. tauto.
      * intros n. pose proof (Key0 e J) as K0. rewrite K0 in E. rewrite <- E. split; [|intros []]. intros (k & g & I1 & I2 & _). apply J, Ent. exists k, g. auto.
    + exfalso. apply E. destruct (in_dec Z.eq_dec e all) as [J|J].
      * apply Ent in J. destruct (Key e J) as (_ & Qo & Qn). apply sorted_ext; [exact Qo|exact Qs|]. intros n. rewrite Qn. apply Q.
      * rewrite (Key0 e J). destruct s as [|n s]; [reflexivity|]. exfalso. destruct (proj2 (Q n) (or_introl eq_refl)) as (k & g & I1 & I2 & _). apply J, Ent. exists k, g. auto.
  - intros e He. destruct (Key e He) as (Ge & _ & _). apply zget_In in Ge. assert (I : In (key_of es e) ks) by (apply Ik; right; apply in_map_iff; exists (e, key_of es e); auto).
    destruct (Lf _ I) as (_ & _ & _ & L4). destruct (Vs _ I) as (l & El & _ & Dl). rewrite L4 in El. injection El as El.
    exists (new_name d (gr (key_of es e))), (gr (key_of es e)). split; [apply in_map_iff; eexists; split; [reflexivity|apply in_map, I]|].
    rewrite El, Dl. apply distinct_ok. apply filter_In. split; [apply Ent, He|]. destruct (zeqs_spec (key_of es e) (key_of es e)); congruence.
Qed.
Lemma new_name_nbrs d g g' : ids (g_nbrs g) = ids (g_nbrs g') -> new_name d g = new_name d g'.
Proof. intros E. apply new_name_perm. rewrite E. reflexivity. Qed.
(** every entity with all its neighbors, in one group *)
Theorem maxshare_sharers d a r : well a -> to_maxshare d a = Ok r ->
  (forall k g e, In (k, g) r -> In e (vals g) -> entity a e /\ forall n, In n (nbrs g) <-> shares a e n) /\
  (forall e, entity a e -> exists k g, In (k, g) r /\ In e (vals g)) /\
  (forall k g k' g' e, In (k, g) r -> In (k', g') r -> In e (vals g) -> In e (vals g') -> k = k' /\ g = g') /\
  (forall k g, In (k, g) r -> NoDup (vals g) /\ NoDup (nbrs g)).
Proof.
  intros W E. destruct (maxshare_law d a (by_name a) W (by_name_perm a) (by_name_sorted a (proj1 W))) as (r' & E' & Wr & G & X). rewrite E in E'. injection E' as <-.
  assert (A : forall k g e, In (k, g) r -> In e (vals g) -> entity a e /\ forall n, In n (nbrs g) <-> shares a e n).
  { intros k g e I J. destruct (G k g I) as (_ & _ & _ & _ & f & F & V). rewrite V in J. apply (proj1 (proj2 (distinct_ok _) e)) in J. apply filter_In in J. destruct J as [J1 J2].
    split; [apply (entity_in a (by_name a) e (by_name_perm a)), J1|]. intros n. symmetry. apply F, J2. }
  split; [exact A|]. split; [exact X|]. split.
  - intros k g k' g' e I I' J J'. destruct (A k g e I J) as [_ Q]. destruct (A k' g' e I' J') as [_ Q']. destruct (G k g I) as (K & _ & S & _). destruct (G k' g' I') as (K' & _ & S' & _).
    assert (N : nbrs g = nbrs g') by (apply sorted_ext; [exact S|exact S'|]; intros n; rewrite Q, Q'; tauto).
    assert (KK : k = k').
    { rewrite K, K'. apply new_name_nbrs. destruct (well_in r k g Wr I) as (_ & _ & -> & _). destruct (well_in r k' g' Wr I') as (_ & _ & -> & _). exact N. }
    split; [exact KK|]. rewrite <- KK in I'. destruct Wr as [Nr _]. pose proof (mget_Some_In_nodup _ _ _ Nr I) as M. pose proof (mget_Some_In_nodup _ _ _ Nr I') as M'. congruence.
  - intros k g I. destruct (G k g I) as (_ & _ & S & _ & f & _ & V). split; [rewrite V; apply distinct_ok|].
    clear - S. induction S as [|x l S IH F]; constructor; [|exact IH]. intros I. rewrite Forall_forall in F. specialize (F x I). lia.
Qed.

(** ---- there and back ---- *)
Lemma firsts_none l : forall pre, (forall x, In x l -> In x pre) -> firsts pre l = [].
Proof.
  induction l as [|x l IH]; intros pre H; [reflexivity|]. cbn [firsts]. replace (existsb (Z.eqb x) pre) with true; [apply IH; intros y I; apply H; right; exact I|].
  symmetry. apply existsb_exists. exists x. split; [apply H; left; reflexivity|lia].
Qed.
Lemma distinct_copies v ls : NoDup v -> (forall l, In l ls -> l = [] \/ l = v) -> In v ls -> distinct (concat ls) = v.
Proof.
  intros N. unfold distinct. induction ls as [|l ls IH]; intros H I; [destruct I|]. cbn [concat]. rewrite firsts_app. cbn [app].
  destruct (H l (or_introl eq_refl)) as [E|E].
  - rewrite E in *. cbn [firsts app]. destruct I as [I|I]; [|apply IH; [intros; apply H; right; assumption|exact I]].
    rewrite <- I. apply firsts_none. intros x J. apply in_concat in J. destruct J as (m & J1 & J2). destruct (H m (or_intror J1)) as [->| ->]; [destruct J2|rewrite <- I in J2; destruct J2].
  - rewrite E. rewrite firsts_nodup by (auto; intros x _ []). rewrite firsts_none; [apply app_nil_r|].
    intros x J. apply in_concat in J. destruct J as (m & J1 & J2). destruct (H m (or_intror J1)) as [->| ->]; [destruct J2|exact J2].
Qed.
Lemma nodup_parts {A B} (f : A -> list B) l : NoDup (concat (map f l)) -> (forall x, In x l -> NoDup (f x)) /\
  forall x y e, In x l -> In y l -> In e (f x) -> In e (f y) -> x = y.
Proof.
  induction l as [|z l IH]; intros N; [split; [intros x []|intros x y e []]|]. cbn [map concat] in N.
  assert (N1 : NoDup (f z)) by (clear IH; induction (f z); [constructor|]; cbn [app] in N; inversion_clear N; constructor; [intros I; apply H, in_or_app; left; exact I|auto]).
  assert (N2 : NoDup (concat (map f l))) by (clear IH N1; induction (f z); [exact N|]; cbn [app] in N; inversion_clear N; auto).
  assert (N3 : forall e x, In e (f z) -> In x l -> In e (f x) -> False).
  { clear IH N1 N2. intros e x I J K. induction (f z) as [|b r IHr]; [destruct I|]. cbn [app] in N. inversion_clear N as [|? ? M1 M2]. destruct I as [->|I]; [|auto].
    apply M1, in_or_app. right. apply in_concat. exists (f x). split; [apply in_map, J|exact K]. }
  destruct (IH N2) as [P Q]. split; [intros x [<-|I]; auto|]. intros x y e [<-|I] [<-|J] K K'; [reflexivity|exfalso; apply (N3 e y); assumption|exfalso; apply (N3 e x); assumption|apply (Q x y e); assumption].
Qed.
Lemma concat_filter_map {A B} (f : B -> bool) (h : A -> list B) l : filter f (concat (map h l)) = concat (map (fun x => filter f (h x)) l).
Proof. induction l as [|x l IH]; [reflexivity|]. cbn [map concat]. rewrite filter_app, IH. reflexivity. Qed.
Theorem back_law d a p r : well a -> NoDup (concat (map (fun q => vals (snd q)) a)) ->
  Forall (fun q => NoDup (nbrs (snd q)) /\ nbrs (snd q) <> [] /\ vals (snd q) <> []) a ->
  (forall k g k' g', In (k, g) a -> In (k', g') a -> Permutation (nbrs g) (nbrs g') -> k = k') ->
  to_pairwise d a = Ok p -> to_maxshare d p = Ok r ->
  (forall k g, In (k, g) a -> exists k' g', In (k', g') r /\ named d (nbrs g) k' /\ Permutation (nbrs g') (nbrs g) /\ vals g' = vals g) /\
  (forall k' g', In (k', g') r -> exists k g, In (k, g) a /\ Permutation (nbrs g') (nbrs g) /\ vals g' = vals g).
Proof.
  intros W Nc Fa Dk Ep Er. rewrite Forall_forall in Fa.
  assert (Fn : Forall (fun q => NoDup (nbrs (snd q))) a) by (apply Forall_forall; intros q I; apply Fa, I).
  destruct (pairwise_law d a (by_name a) W Fn (by_name_perm a) (by_name_sorted a (proj1 W))) as (p' & Ep' & Wp & Gp & Xp).
  rewrite Ep in Ep'. injection Ep' as <-.
  destruct (maxshare_law d p (by_name p) Wp (by_name_perm p) (by_name_sorted p (proj1 Wp))) as (r' & Er' & Wr & Gr & Xr). rewrite Er in Er'. injection Er' as <-.
  destruct (maxshare_sharers d p r Wp Er) as (Ms & _ & Mu & Mn).
  destruct (nodup_parts _ _ Nc) as [Vn Vu].
  assert (Own : forall k g e, In (k, g) a -> In e (vals g) -> forall n, shares a e n <-> In n (nbrs g)).
  { intros k g e I J n. split.
    - intros (k2 & h & I2 & J2 & Hn). pose proof (Vu (k, g) (k2, h) e I I2 J J2) as E. injection E as <- <-. exact Hn.
    - intros Hn. exists k, g. auto. }
  assert (Shi : forall n e, shares a e n -> In e (shared (by_name a) n)).
  { intros n e (k & g & I & J & Hn). unfold shared. apply in_concat. exists (vals g). split; [|exact J]. apply in_map_iff. exists (k, g). split; [reflexivity|].
    apply filter_In. split; [eapply Permutation_in; [symmetry; apply by_name_perm|exact I]|]. cbn [snd]. destruct (in_dec _ _ _); [reflexivity|contradiction]. }
  assert (Sh : forall e n, shares p e n <-> shares a e n).
  { intros e n. split.
    - intros (k & g & I & J & Hn). destruct (Gp k g I) as (m & E & _ & _ & _ & V). rewrite E in Hn. destruct Hn as [<-|[]]. rewrite V in J. apply (shared_in a (by_name a)); [apply by_name_perm|exact J].
    - intros H. assert (Nb : neighbor a n) by (destruct H as (k & g & I & _ & Hn); exists k, g; auto). destruct (Xp n Nb) as (k & g & I & E). destruct (Gp k g I) as (m & E' & _ & _ & _ & V).
      rewrite E in E'. injection E' as <-. exists k, g. split; [exact I|]. split; [rewrite V; apply Shi, H|rewrite E; left; reflexivity]. }
  assert (Fw : forall k g, In (k, g) a -> exists k' g', In (k', g') r /\ named d (nbrs g) k' /\ Permutation (nbrs g') (nbrs g) /\ vals g' = vals g).
  { intros k g I. destruct (Fa _ I) as (Ng & Nn & Nv). cbn [snd] in *.
    destruct (vals g) as [|e vs] eqn:Ev; [congruence|]. rewrite <- Ev in *. assert (Je : In e (vals g)) by (rewrite Ev; left; reflexivity).
    destruct (nbrs g) as [|n0 ns] eqn:En; [congruence|]. rewrite <- En in *. assert (Jn : In n0 (nbrs g)) by (rewrite En; left; reflexivity).
    assert (S0 : shares a e n0) by (apply (Own k g e I Je), Jn).
    destruct (Xr e) as (k' & g' & I' & J'); [apply Sh in S0; destruct S0 as (k2 & h & I2 & J2 & _); exists k2, h; auto|].
    destruct (Ms k' g' e I' J') as [_ Q]. destruct (Mn k' g' I') as [_ Ng'].
    assert (P : Permutation (nbrs g') (nbrs g)) by (apply NoDup_Permutation; [exact Ng'|exact Ng|]; intros n; rewrite Q, Sh; apply (Own k g e I Je)).
    exists k', g'. split; [exact I'|]. destruct (Gr k' g' I') as (_ & (l & ts & K1 & K2 & K3 & K4) & _ & _ & f & F & V). split; [|split; [exact P|]].
    { exists l, ts. split; [|auto]. rewrite K1. constructor. exact P. }
    rewrite V.
    assert (Ff : forall k2 h, In (k2, h) a -> filter f (vals h) = if str_eqb k2 k then vals g else []).
    { intros k2 h I2. destruct (str_eqb_spec k2 k) as [->|Nk].
      - assert (h = g) by (pose proof (mget_Some_In_nodup _ _ _ (proj1 W) I) as M; pose proof (mget_Some_In_nodup _ _ _ (proj1 W) I2) as M'; congruence). subst h.
        clear - F Sh Own I P. assert (A : forall x, In x (vals g) -> f x = true).
        { intros x J. apply F. intros n. rewrite Sh, (Own k g x I J n). split; apply Permutation_in; [symmetry; exact P|exact P]. }
        revert A. generalize (vals g). induction l as [|x l IH]; intros A; [reflexivity|]. cbn [filter]. rewrite A by (left; reflexivity). f_equal. apply IH. intros; apply A; right; assumption.
      - assert (A : forall x, In x (vals h) -> f x = false).
        { intros x J. destruct (f x) eqn:Fx; [|reflexivity]. exfalso. apply Nk. apply (Dk k2 h k g I2 I). destruct (Fa _ I2) as (Nh & _ & _). apply NoDup_Permutation; [exact Nh|exact Ng|].
          intros n. rewrite <- (Own k2 h x I2 J n), <- Sh. apply F with (n := n) in Fx. rewrite Fx. split; apply Permutation_in; [exact P|symmetry; exact P]. }
        clear - A. revert A. generalize (vals h). induction l as [|x l IH]; intros A; [reflexivity|]. cbn [filter]. rewrite A by (left; reflexivity). apply IH. intros; apply A; right; assumption. }
    assert (Fs : forall n, filter f (shared (by_name a) n) = if in_dec Z.eq_dec n (nbrs g) then vals g else []).
    { intros n. unfold shared.
      assert (In_a : forall q, In q (by_name a) -> In q a) by (intros q; apply Permutation_in, by_name_perm).
      assert (Nd : NoDup (map fst (by_name a))) by apply by_name_nodup, W.
      assert (Kin : In (k, g) (by_name a)) by (eapply Permutation_in; [symmetry; apply by_name_perm|exact I]).
      assert (Gn : forall gl, (forall q, In q gl -> In q a) -> NoDup (map fst gl) ->
        filter f (concat (map (fun q => vals (snd q)) (filter (fun q => if in_dec Z.eq_dec n (nbrs (snd q)) then true else false) gl))) =
        if in_dec (list_eq_dec ascii_dec) k (map fst gl) then (if in_dec Z.eq_dec n (nbrs g) then vals g else []) else []).
      { intros gl. induction gl as [|[k2 h] gl IH]; intros Hl Hn; [reflexivity|]. cbn [map fst] in Hn. inversion Hn as [|? ? Hn1 Hn2]; subst.
        assert (IHl := IH (fun q J => Hl q (or_intror J)) Hn2). clear IH.
        cbn [filter snd map fst]. pose proof (Hl (k2, h) (or_introl eq_refl)) as I2. destruct (list_eq_dec ascii_dec k2 k) as [->|Nk].
        - assert (h = g) by (pose proof (mget_Some_In_nodup _ _ _ (proj1 W) I) as M; pose proof (mget_Some_In_nodup _ _ _ (proj1 W) I2) as M'; congruence). subst h.
          destruct (in_dec (list_eq_dec ascii_dec) k (k :: map fst gl)) as [_|C]; [|destruct C; left; reflexivity].
          destruct (in_dec (list_eq_dec ascii_dec) k (map fst gl)) as [C|_]; [contradiction|].
          destruct (in_dec Z.eq_dec n (nbrs g)); [|exact IHl]. cbn [map snd concat]. rewrite filter_app, (Ff k g I2), IHl. destruct (str_eqb_spec k k); [apply app_nil_r|congruence].
        - replace (filter f _) with (filter f (concat (map (fun q => vals (snd q)) (filter (fun q => if in_dec Z.eq_dec n (nbrs (snd q)) then true else false) gl)))).
          + rewrite IHl. destruct (in_dec (list_eq_dec ascii_dec) k (map fst gl)) as [C|C]; destruct (in_dec (list_eq_dec ascii_dec) k (k2 :: map fst gl)) as [C'|C']; try reflexivity; exfalso; [apply C'; right; exact C|destruct C'; [congruence|contradiction]].
          + destruct (in_dec Z.eq_dec n (nbrs h)); [|reflexivity]. cbn [map snd concat]. rewrite filter_app, (Ff k2 h I2). destruct (str_eqb_spec k2 k); [congruence|reflexivity]. }
      rewrite (Gn _ In_a Nd). destruct (in_dec (list_eq_dec ascii_dec) k (map fst (by_name a))) as [_|C]; [reflexivity|]. destruct C. apply in_map_iff. exists (k, g). auto. }
    rewrite (concat_filter_map f (fun q => vals (snd q))).
    apply distinct_copies; [apply (Vn (k, g) I)| |].
    - intros l0 J. apply in_map_iff in J. destruct J as ([k2 h] & <- & J). assert (J2 : In (k2, h) p) by (eapply Permutation_in; [apply by_name_perm|exact J]). destruct (Gp k2 h J2) as (m & _ & _ & _ & _ & Vm). cbn [snd].
      rewrite Vm, Fs. destruct (in_dec _ _ _); auto.
    - assert (Nb : neighbor a n0) by (exists k, g; auto). destruct (Xp n0 Nb) as (k2 & h & I2 & E2). destruct (Gp k2 h I2) as (m & E2' & _ & _ & _ & Vm). rewrite E2 in E2'. injection E2' as <-.
      apply in_map_iff. exists (k2, h). split; [|eapply Permutation_in; [symmetry; apply by_name_perm|exact I2]]. cbn [snd]. rewrite Vm, Fs. destruct (in_dec _ _ _); [reflexivity|contradiction]. }
  split; [exact Fw|]. intros k' g' I'. destruct (Gr k' g' I') as (_ & _ & _ & Nv & _). destruct (vals g') as [|e vs] eqn:Ev; [congruence|].
  assert (J' : In e (vals g')) by (rewrite Ev; left; reflexivity). destruct (Ms k' g' e I' J') as [(k2 & h & I2 & J2) _].
  destruct (Gp k2 h I2) as (m & _ & _ & _ & _ & Vm). rewrite Vm in J2. apply (shared_in a (by_name a) m e (by_name_perm a)) in J2. destruct J2 as (k & g & I & J & _).
  destruct (Fw k g I) as (k3 & g3 & I3 & _ & P3 & V3). rewrite <- V3 in J. destruct (Mu k' g' k3 g3 e I' I3 J' J) as [_ ->]. exists k, g. split; [exact I|]. split; [exact P3|congruence].
Qed.

(** ---- the tests ---- *)
Lemma pairwise_iff a : is_pairwise a = true <-> forall k g, In (k, g) a -> length (nbrs g) = 1%nat.
Proof.
  unfold is_pairwise. rewrite forallb_forall. split.
  - intros H k g I. specialize (H _ I). cbn [snd] in H. unfold zlen, nbrs in *. lia.
  - intros H [k g] I. specialize (H _ _ I). cbn [snd]. unfold zlen, nbrs in *. lia.
Qed.
Lemma fresh_spec vs : forall seen, fst (fresh vs seen) = true <-> NoDup vs /\ forall v, In v vs -> ~ In v seen.
Proof.
  induction vs as [|v vs IH]; intros seen; cbn [fresh]; [cbn; split; [split; [constructor|tauto]|reflexivity]|].
  destruct (fresh vs (v :: seen)) as [b s] eqn:E. specialize (IH (v :: seen)). rewrite E in IH. cbn [fst] in *. rewrite andb_true_iff, IH, negb_true_iff, <- not_true_iff_false, existsb_exists. split.
  - intros (A & B & C). split.
    + constructor; [|exact B]. intros I. apply (C v I). left. reflexivity.
    + intros x [<-|I] J; [apply A; exists v; split; [exact J|lia]|]. apply (C x I). right. exact J.
  - intros (A & B). inversion_clear A as [|? ? A1 A2]. split; [|split; [exact A2|]].
    + intros (y & I & Q). apply Z.eqb_eq in Q. subst y. apply (B v (or_introl eq_refl) I).
    + intros x I [<-|J]; [contradiction|]. apply (B x (or_intror I) J).
Qed.
Lemma fresh_seen vs : forall seen x, In x (snd (fresh vs seen)) <-> In x vs \/ In x seen.
Proof.
  induction vs as [|v vs IH]; intros seen x; cbn [fresh]; [cbn; tauto|]. specialize (IH (v :: seen) x). destruct (fresh vs (v :: seen)) as [b s]. cbn [snd] in *. rewrite IH. cbn [In]. tauto.
Qed.
Lemma maxshare_from_spec gs : forall seen, maxshare_from gs seen = true <-> NoDup (concat (map (fun g => ids (g_vals g)) gs)) /\ forall v, In v (concat (map (fun g => ids (g_vals g)) gs)) -> ~ In v seen.
Proof.
  induction gs as [|g gs IH]; intros seen; cbn [maxshare_from map concat]; [cbn; split; [split; [constructor|tauto]|reflexivity]|].
  pose proof (fresh_spec (ids (g_vals g)) seen) as Fs. pose proof (fresh_seen (ids (g_vals g)) seen) as Sn. destruct (fresh (ids (g_vals g)) seen) as [b s]. cbn [fst snd] in *.
  set (vs := ids (g_vals g)) in *. set (r := concat (map (fun g => ids (g_vals g)) gs)) in *.
  assert (Nd : NoDup (vs ++ r) <-> NoDup vs /\ NoDup r /\ forall x, In x vs -> ~ In x r).
  { clear. induction vs as [|x vs IH]; cbn [app]; [split; [intros; repeat split; [constructor|assumption|intros x []]|tauto]|]. split.
    - intros N. inversion_clear N as [|? ? N1 N2]. apply IH in N2. destruct N2 as (A & B & C). rewrite in_app_iff in N1. split; [constructor; tauto|]. split; [exact B|]. intros y [<-|I]; [tauto|auto].
    - intros (A & B & C). inversion_clear A as [|? ? A1 A2]. constructor; [rewrite in_app_iff; intros [I|I]; [contradiction|apply (C x (or_introl eq_refl) I)]|]. apply IH. split; [exact A2|]. split; [exact B|]. intros y I. apply C. right. exact I. }
  rewrite Nd. split.
  - intros H. destruct b; [|discriminate]. destruct (proj1 Fs eq_refl) as [F1 F2]. apply IH in H. destruct H as [H1 H2]. split; [split; [exact F1|split; [exact H1|]]|].
    + intros x I J. apply (H2 x J), Sn. left. exact I.
    + intros x I J. apply in_app_or in I. destruct I as [I|I]; [exact (F2 x I J)|]. apply (H2 x I), Sn. right. exact J.
  - intros ((A & B & C) & D). replace b with true; [apply IH; split; [exact B|]; intros x I J; apply Sn in J; destruct J as [J|J]; [exact (C x J I)|apply (D x); [apply in_or_app; right; exact I|exact J]]|].
    symmetry. apply Fs. split; [exact A|]. intros x I. apply D, in_or_app. left. exact I.
Qed.
Lemma maxshare_iff a : well a -> is_maxshare a = true <-> NoDup (concat (map (fun q => vals (snd q)) a)).
Proof.
  intros W. unfold is_maxshare. rewrite maxshare_from_spec, map_map.
  replace (map (fun x => ids (g_vals (snd x))) a) with (map (fun q => vals (snd q)) a); [cbn [In]; tauto|].
  apply map_ext_in. intros [k g] I. symmetry. apply (well_in a k g W I).
Qed.
Lemma nodup_whole {A B} (f : A -> list B) l : NoDup l -> (forall x, In x l -> NoDup (f x)) ->
  (forall x y e, In x l -> In y l -> In e (f x) -> In e (f y) -> x = y) -> NoDup (concat (map f l)).
Proof.
  induction l as [|z l IH]; intros N P Q; [constructor|]. inversion_clear N as [|? ? N1 N2]. cbn [map concat].
  assert (R : NoDup (concat (map f l))) by (apply IH; [exact N2|intros; apply P; right; assumption|intros x y e I J; apply Q; right; assumption]).
  assert (D : forall e, In e (f z) -> ~ In e (concat (map f l))).
  { intros e I J. apply in_concat in J. destruct J as (m & J & K). apply in_map_iff in J. destruct J as (x & <- & J). apply N1.
    rewrite (Q z x e (or_introl eq_refl) (or_intror J) I K). exact J. }
  pose proof (P z (or_introl eq_refl)) as Pz. clear - Pz D R. induction (f z) as [|b r IH]; [exact R|]. inversion_clear Pz as [|? ? P1 P2]. cbn [app]. constructor.
  - intros I. apply in_app_or in I. destruct I as [I|I]; [contradiction|]. exact (D b (or_introl eq_refl) I).
  - apply IH; [|exact P2]. intros e I. apply D. right. exact I.
Qed.
Lemma nodup_of_names {A} (l : list (str * A)) : NoDup (map fst l) -> NoDup l.
Proof. intros N. eapply NoDup_map_inv, N. Qed.
Lemma maxshare_tests d a r : well a -> to_maxshare d a = Ok r -> is_maxshare r = true.
Proof.
  intros W E. destruct (maxshare_sharers d a r W E) as (_ & _ & U & N).
  destruct (maxshare_law d a (by_name a) W (by_name_perm a) (by_name_sorted a (proj1 W))) as (r' & E' & Wr & _). rewrite E in E'. injection E' as <-.
  apply maxshare_iff; [exact Wr|]. apply nodup_whole; [apply nodup_of_names, Wr|intros [k g] I; apply (N k g I)|].
  intros [k g] [k' g'] e I J K L'. destruct (U k g k' g' e I J K L') as [-> ->]. reflexivity.
Qed.
Theorem canonical_law d a r : well a -> canonicalize d a = Ok r -> map snd r = map snd a /\ NoDup (map fst r) /\
  (forall k g, In (k, g) r -> named d (nbrs g) k) /\
  ((forall k g, In (k, g) a -> nbrs g <> [] /\ NoDup (d :: nbrs g) /\ Forall (in_type INT32) (d :: nbrs g)) -> is_canonical r = Ok true).
Proof.
  intros W E. destruct (canonicalize_only d a r (proj1 W) E) as [-> N]. split; [rewrite map_map; reflexivity|]. split; [exact N|]. split.
  - intros k g I. apply in_map_iff in I. destruct I as ([k' g'] & Q & I). injection Q as <- <-. pose proof (new_name_named d g') as Q. destruct (well_in a k' g' W I) as (_ & _ & Q' & _). rewrite Q' in Q. exact Q.
  - intros H. unfold is_canonical. apply canonical_all, Forall_forall. intros k I. rewrite map_map in I. apply in_map_iff in I. destruct I as ([k' g'] & <- & I). cbn [renamed fst snd].
    destruct (H k' g' I) as (H1 & H2 & H3). destruct (well_in a k' g' W I) as (_ & _ & Q & _). apply canonical_new; rewrite Q; [exact H1|exact H2|].
    eapply Forall_impl; [|exact H3]. intros x X. unfold in_type, int_min, int_max, bits in X. cbn in X. lia.
Qed.
Theorem canonical_total d a : well a ->
  (forall k g k' g', In (k, g) a -> In (k', g') a -> Permutation (nbrs g) (nbrs g') -> k = k') ->
  (forall k g k' g', In (k, g) a -> In (k', g') a -> named d (nbrs g) k' -> k = k') -> exists r, canonicalize d a = Ok r.
Proof.
  intros W H1 H2. exists (map (renamed d) a). assert (One : forall p q, In p a -> In q a -> fst p = fst q -> p = q).
  { intros [k g] [k' g'] I J E. cbn in E. subst k'. pose proof (mget_Some_In_nodup _ _ _ (proj1 W) I). pose proof (mget_Some_In_nodup _ _ _ (proj1 W) J). congruence. }
  apply canonicalize_does; [apply W| |].
  - assert (Nd : NoDup a) by apply nodup_of_names, W. assert (G : forall p q, In p a -> In q a -> new_name d (snd p) = new_name d (snd q) -> p = q).
    { intros [k g] [k' g'] I J E. cbn [snd] in E. apply new_name_inj, Permutation_cons_inv in E. destruct (well_in a k g W I) as (_ & _ & Q & _). destruct (well_in a k' g' W J) as (_ & _ & Q' & _). rewrite Q, Q' in E.
      apply One; [exact I|exact J|]. cbn [fst]. eapply H1; eassumption. }
    clear - Nd G. induction a as [|x l IH]; cbn [map]; constructor.
    + intros I. apply in_map_iff in I. destruct I as (y & E & I). inversion_clear Nd as [|? ? N1 N2]. apply N1. rewrite (G x y (or_introl eq_refl) (or_intror I) (eq_sym E)). exact I.
    + inversion_clear Nd. apply IH; [assumption|]. intros p q I J. apply G; right; assumption.
  - intros [k g] [k' g'] I J E. cbn [snd fst] in E. apply One; [exact I|exact J|]. cbn [fst]. apply (H2 k g k' g' I J). rewrite <- E. pose proof (new_name_named d g) as Q. destruct (well_in a k g W I) as (_ & _ & Q' & _). rewrite Q' in Q. exact Q.
Qed.
