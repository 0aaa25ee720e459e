(** Removing subtrees of linked nodes: delete, release, reset, remove. *)
From Coq Require Import Lia FinFun.
From Verif Require Import Base DType Mem Node NodeLinks LinksFacts.

(** keep the entries marked true *)
Fixpoint select {A} (m : list bool) (l : list A) : list A :=
  match m, l with
  | true :: m', x :: r => x :: select m' r
  | false :: m', _ :: r => select m' r
  | _, _ => []
  end.
Lemma select_nth : forall {A} m (l : list A) i x, nth_error (select m l) i = Some x ->
  exists j, nth_error m j = Some true /\ nth_error l j = Some x /\ forall B (l2 : list B) y, nth_error l2 j = Some y -> length l2 = length l -> nth_error (select m l2) i = Some y.
Proof.
  intros A. induction m as [|b m IH]; intros l i x E; [destruct i; discriminate E|]. destruct l as [|a l]; [destruct b, i; discriminate E|]. destruct b; cbn [select] in E.
  - destruct i as [|i].
    + injection E as ->. exists 0. split; [reflexivity|]. split; [reflexivity|]. intros B [|c l2] y E2 L; [discriminate E2|]. cbn in *. exact E2.
    + destruct (IH l i x E) as (j & Mj & Lj & G). exists (S j). split; [exact Mj|]. split; [exact Lj|]. intros B [|c l2] y E2 L; [discriminate E2|]. cbn in *. apply (G B l2 y E2). lia.
  - destruct (IH l i x E) as (j & Mj & Lj & G). exists (S j). split; [exact Mj|]. split; [exact Lj|]. intros B [|c l2] y E2 L; [discriminate E2|]. cbn in *. apply (G B l2 y E2). lia.
Qed.
Lemma select_in : forall {A} m (l : list A) x, In x (select m l) <-> exists j, nth_error m j = Some true /\ nth_error l j = Some x.
Proof.
  intros A. induction m as [|b m IH]; intros l x.
  - cbn [select]. split; [intros []|intros (j & E & _); destruct j; discriminate E].
  - destruct l as [|a l]; [destruct b; cbn [select]; (split; [intros []|intros (j & _ & E); destruct j; discriminate E])|]. destruct b; cbn [select In].
    + rewrite IH. split; [intros [->|(j & M & E)]; [exists 0; auto|exists (S j); auto]|intros ([|j] & M & E); [left; cbn in E; congruence|right; exists j; auto]].
    + rewrite IH. split; [intros (j & M & E); exists (S j); auto|intros ([|j] & M & E); [discriminate M|exists j; auto]].
Qed.
Lemma select_incl : forall {A} m (l : list A) x, In x (select m l) -> In x l.
Proof. intros A m l x I. apply select_in in I. destruct I as (j & _ & E). eapply nth_error_In; eauto. Qed.
Lemma select_nodup : forall {A} m (l : list A), NoDup l -> NoDup (select m l).
Proof.
  intros A. induction m as [|b m IH]; intros l N; [constructor|]. destruct l as [|a l]; [destruct b; constructor|]. inversion N; subst. destruct b; cbn [select]; [constructor; [intros I; apply select_incl in I; contradiction|auto]|auto].
Qed.
Lemma select_length : forall {A B} m (l : list A) (l2 : list B), length l = length l2 -> length (select m l) = length (select m l2).
Proof. intros A B. induction m as [|b m IH]; intros [|a l] [|c l2] L; try discriminate L; [reflexivity..|destruct b; reflexivity|]. cbn in L. destruct b; cbn [select length]; [f_equal|]; apply IH; lia. Qed.
Definition mask_none {A} (l : list A) : list bool := map (fun _ => false) l.
Definition mask_but {A} (l : list A) (i : nat) : list bool := set_nth (map (fun _ => true) l) i false.
Lemma select_none : forall {A B} (l : list A) (l' : list B), select (mask_none l) l' = [].
Proof. intros A B. induction l as [|a l IH]; intros [|b l']; cbn; auto. Qed.
Lemma select_all : forall {A B} (l : list A) (l' : list B), length l = length l' -> select (map (fun _ => true) l) l' = l'.
Proof. intros A B. induction l as [|a l IH]; intros [|b l'] L; try discriminate L; cbn; auto. f_equal. apply IH. cbn in L. lia. Qed.
Lemma select_but : forall {A B} (l : list A) (l' : list B) i, length l = length l' -> select (mask_but l i) l' = erase_nth l' i.
Proof.
  intros A B. induction l as [|a l IH]; intros [|b l'] i L; try discriminate L; unfold mask_but in *.
  - destruct i; reflexivity.
  - cbn in L. destruct i as [|i]; cbn [map set_nth select erase_nth]; [apply select_all; lia|f_equal; apply IH; lia].
Qed.
Lemma mask_but_nth : forall {A} (l : list A) i j, nth_error (mask_but l i) j = Some true <-> j < length l /\ j <> i.
Proof.
  intros A l i j. unfold mask_but. destruct (Nat.eq_dec i j) as [->|N].
  - destruct (Nat.lt_ge_cases j (length l)); [rewrite nth_error_set_nth_same by (rewrite map_length; lia); split; [discriminate|lia]|].
    split; [|lia]. intros E. assert (j < length (set_nth (map (fun _ : A => true) l) j false)) by (apply nth_error_Some; congruence). rewrite length_set_nth, map_length in *. lia.
  - rewrite nth_error_set_nth_other by exact N. rewrite nth_error_map. destruct (nth_error l j) eqn:E; cbn.
    + split; [|reflexivity]. intros _. split; [apply nth_error_Some; congruence|congruence].
    + split; [discriminate|]. intros [L _]. apply nth_error_None in E. lia.
Qed.
Lemma mask_none_nth : forall {A} (l : list A) j, nth_error (mask_none l) j <> Some true.
Proof. intros A l j. unfold mask_none. rewrite nth_error_map. destruct (nth_error l j); discriminate. Qed.

(** ---- cutting subtrees below x ---- *)
(** [D]: the nodes below the children of [x] not kept by the mask *)
Record cutset (H : heap) (x : nat) (m : list bool) (D : list nat) : Prop := {
  cu_x : ~ In x D;
  cu_live : forall y, In y D -> exists n, nodes H y = Some n;
  cu_down : forall y n k, In y D -> nodes H y = Some n -> In k (n_kids n) -> In k D;
  cu_kids : forall n j k, nodes H x = Some n -> nth_error (n_kids n) j = Some k -> (In k D <-> nth_error m j <> Some true);
  cu_up : forall k, In k D -> (exists n, nodes H x = Some n /\ In k (n_kids n)) \/ (exists z n, In z D /\ nodes H z = Some n /\ In k (n_kids n))
}.
(** the heap after the cut; [h], [d] and [nm] are the new header, dtype and names of [x] *)
Definition cut (H H' : heap) (x : nat) (m : list bool) (D E : list nat) (h : hdr) (d : dtype) (nm : list str) : Prop :=
  exists n s, nodes H x = Some n /\ schemas H (n_schema n) = Some s /\
  nodes H' x = Some (mkN (n_schema n) (n_owns n) (n_parent n) (select m (n_kids n)) h) /\
  schemas H' (n_schema n) = Some (mkS (s_parent s) d nm (select m (s_kids s))) /\
  (forall y, y <> x -> nodes H' y = if in_dec Nat.eq_dec y D then None else nodes H y) /\
  (forall y, y <> n_schema n -> schemas H' y = if in_dec Nat.eq_dec y E then None else schemas H y) /\
  next H' = next H.
Definition schemas_of (H : heap) (D E : list nat) : Prop := forall s, In s E <-> exists y n, In y D /\ nodes H y = Some n /\ n_schema n = s.
Lemma cut_sync : forall H H' x m D E h d nm, sync H -> cutset H x m D -> schemas_of H D E -> cut H H' x m D E h d nm ->
  (forall n s, nodes H x = Some n -> schemas H (n_schema n) = Some s -> select m (s_kids s) <> [] -> is_tree_type (dt_id d) = true) ->
  (forall n s, nodes H x = Some n -> schemas H (n_schema n) = Some s -> dt_id d = OBJECT -> length nm = length (select m (s_kids s))) -> sync H'.
Proof.
  intros H H' x m D E h d nm Y C SE (n & s & En & Es & Enx & Esx & On & Os & Nx) Kd Knm.
  specialize (Kd n s En Es). specialize (Knm n s En Es).
  destruct (sy_node H Y x n En) as (s_ & Es_ & Lx & Kx & Px & Ox). assert (s_ = s) by congruence. subst s_. clear Es_.
  assert (SD : forall y ny, nodes H y = Some ny -> In (n_schema ny) E <-> In y D).
  { intros y ny Ey. rewrite (SE (n_schema ny)). split; [intros (z & nz & Iz & Ez & Sz); rewrite (sy_own H Y y z ny nz Ey Ez (eq_sym Sz)); exact Iz|eauto]. }
  assert (Nsx : ~ In (n_schema n) E) by (rewrite (SD x n En); apply (cu_x _ _ _ _ C)).
  assert (Live : forall y ny', nodes H' y = Some ny' -> exists ny, nodes H y = Some ny /\ ~ In y D /\ n_schema ny' = n_schema ny /\ n_owns ny' = n_owns ny /\ n_parent ny' = n_parent ny /\ (y = x \/ ny' = ny)).
  { intros y ny' Ey. destruct (Nat.eq_dec y x) as [->|N]; [rewrite Enx in Ey; injection Ey as <-; exists n; split; [exact En|]; split; [apply (cu_x _ _ _ _ C)|auto]|].
    rewrite (On y N) in Ey. destruct (in_dec Nat.eq_dec y D); [discriminate Ey|]. exists ny'. auto 10. }
  assert (Keep : forall y ny, nodes H y = Some ny -> ~ In y D -> exists ny', nodes H' y = Some ny' /\ n_schema ny' = n_schema ny).
  { intros y ny Ey N. destruct (Nat.eq_dec y x) as [->|Nx']; [rewrite En in Ey; injection Ey as <-; eexists; split; [exact Enx|reflexivity]|]. exists ny. split; [|reflexivity]. rewrite (On y Nx'). destruct (in_dec Nat.eq_dec y D); [contradiction|exact Ey]. }
  assert (SLive : forall y o', schemas H' y = Some o' -> exists o, schemas H y = Some o /\ ~ In y E /\ s_parent o' = s_parent o /\ (y = n_schema n \/ o' = o)).
  { intros y o' Ey. destruct (Nat.eq_dec y (n_schema n)) as [->|N]; [rewrite Esx in Ey; injection Ey as <-; exists s; auto|]. rewrite (Os y N) in Ey. destruct (in_dec Nat.eq_dec y E); [discriminate Ey|]. exists o'. auto. }
  assert (SKeep : forall y o, schemas H y = Some o -> ~ In y E -> exists o', schemas H' y = Some o' /\ s_parent o' = s_parent o).
  { intros y o Ey N. destruct (Nat.eq_dec y (n_schema n)) as [->|Nx']; [rewrite Es in Ey; injection Ey as <-; eexists; split; [exact Esx|reflexivity]|]. exists o. split; [|reflexivity]. rewrite (Os y Nx'). destruct (in_dec Nat.eq_dec y E); [contradiction|exact Ey]. }
  assert (KidOut : forall y ny k, nodes H y = Some ny -> y <> x -> ~ In y D -> In k (n_kids ny) -> ~ In k D).
  { intros y ny k Ey Nyx NyD Ik ID. destruct (cu_up _ _ _ _ C k ID) as [(n' & E' & I')|(z & nz & Iz & Ez & I')]; [apply Nyx; exact (kid_parent H k y x ny n' Y Ey E' Ik I')|].
    apply NyD. rewrite (kid_parent H k y z ny nz Y Ey Ez Ik I'). exact Iz. }
  assert (Kid2 : forall i k sk, nth_error (n_kids n) i = Some k -> nth_error (s_kids s) i = Some sk -> exists nk, nodes H k = Some nk /\ n_schema nk = sk).
  { intros i k sk Ei Si. destruct (Kx i k Ei) as (nk & Ek & Sk). exists nk. split; [exact Ek|congruence]. }
  assert (SKid : forall z nz sz c, nodes H z = Some nz -> schemas H (n_schema nz) = Some sz -> In c (s_kids sz) -> exists k nk i, nth_error (n_kids nz) i = Some k /\ nth_error (s_kids sz) i = Some c /\ nodes H k = Some nk /\ n_schema nk = c).
  { intros z nz sz c Ez Sz Ic. destruct (sy_node H Y z nz Ez) as (sz' & Sz' & Lz & Kz & _). assert (sz' = sz) by congruence. subst sz'. destruct (In_nth_error _ _ Ic) as (i & Ei).
    destruct (nth_error (n_kids nz) i) as [k|] eqn:Q; [|apply nth_error_None in Q; assert (i < length (s_kids sz)) by (apply nth_error_Some; congruence); lia]. destruct (Kz i k Q) as (nk & Ek & Sk). exists k, nk, i. repeat split; auto. congruence. }
  constructor.
  - intros y ny' Ey. destruct (Live y ny' Ey) as (ny & Ey0 & NyD & Sy & Oy & Py & Cs). destruct (sy_node H Y y ny Ey0) as (sy & Sy0 & Ly & Ky & P1 & O1).
    destruct Cs as [->| ->].
    + assert (ny = n) by congruence. subst ny. rewrite Enx in Ey. injection Ey as <-. assert (sy = s) by congruence. subst sy. cbn [n_schema n_kids n_parent n_owns]. eexists. split; [exact Esx|]. cbn [s_kids s_parent].
      split; [apply select_length; exact Lx|]. split; [|auto]. intros i k Ik. destruct (select_nth _ _ _ _ Ik) as (j & Mj & Kj & G). destruct (Kx j k Kj) as (nk & Ek & Sk).
      assert (NkD : ~ In k D) by (rewrite (cu_kids _ _ _ _ C n j k En Kj); intros X; apply X; exact Mj). destruct (Keep k nk Ek NkD) as (nk' & Ek' & Sk'). exists nk'. split; [exact Ek'|]. rewrite Sk'. apply (G _ (s_kids s)); [exact Sk|symmetry; exact Lx].
    + destruct (Nat.eq_dec y x) as [->|Nyx].
      { assert (ny = n) by congruence. subst ny. rewrite Enx in Ey. injection Ey as X. assert (Sel : select m (n_kids n) = n_kids n) by (rewrite <- X at 2; reflexivity). assert (sy = s) by congruence. subst sy. eexists. split; [exact Esx|]. cbn [s_kids s_parent].
        split; [rewrite <- (select_length m _ _ Lx), Sel; reflexivity|]. split; [|auto]. intros i k Ik. rewrite <- Sel in Ik. destruct (select_nth _ _ _ _ Ik) as (j & Mj & Kj & G). destruct (Kx j k Kj) as (nk & Ek & Sk).
        assert (NkD : ~ In k D) by (rewrite (cu_kids _ _ _ _ C n j k En Kj); intros Z; apply Z; exact Mj). destruct (Keep k nk Ek NkD) as (nk' & Ek' & Sk'). exists nk'. split; [exact Ek'|]. rewrite Sk'. apply (G _ (s_kids s)); [exact Sk|symmetry; exact Lx]. }
      assert (n_schema ny <> n_schema n) by (intros X; apply Nyx; exact (sy_own H Y y x ny n Ey0 En X)). exists sy. split; [rewrite Os by assumption; destruct (in_dec Nat.eq_dec (n_schema ny) E) as [I|I]; [apply (SD y ny Ey0) in I; contradiction|exact Sy0]|].
      split; [exact Ly|]. split; [|auto]. intros i k Ik. destruct (Ky i k Ik) as (nk & Ek & Sk). destruct (Keep k nk Ek) as (nk' & Ek' & Sk'); [eapply (KidOut y ny k); eauto; eapply nth_error_In; eauto|]. exists nk'. split; [exact Ek'|]. congruence.
  - intros y z ny nz Ey Ez Q. destruct (Live y ny Ey) as (ny0 & Ey0 & _ & Sy & _). destruct (Live z nz Ez) as (nz0 & Ez0 & _ & Sz & _). apply (sy_own H Y y z ny0 nz0 Ey0 Ez0). congruence.
  - intros q o' c Eq Ic. destruct (SLive q o' Eq) as (o & Eo & NqE & _ & Cs).
    assert (X : exists co, schemas H c = Some co /\ s_parent co = Some q /\ ~ In c E).
    { destruct (Nat.eq_dec q (n_schema n)) as [->|Nq].
      - rewrite Esx in Eq. injection Eq as <-. cbn [s_kids] in Ic. apply select_in in Ic. destruct Ic as (j & Mj & Sj). destruct (sy_down H Y _ _ c Es (nth_error_In _ _ Sj)) as (co & Ec & Pc). exists co. split; [exact Ec|]. split; [exact Pc|].
        destruct (nth_error (n_kids n) j) as [k|] eqn:Qk; [|apply nth_error_None in Qk; assert (j < length (s_kids s)) by (apply nth_error_Some; congruence); lia]. destruct (Kx j k Qk) as (nk & Ek & Sk). replace c with (n_schema nk) by congruence.
        rewrite (SD k nk Ek), (cu_kids _ _ _ _ C n j k En Qk). intros Z. apply Z. exact Mj.
      - destruct Cs as [X| <-]; [congruence|]. destruct (sy_down H Y q o' c Eo Ic) as (co & Ec & Pc). exists co. split; [exact Ec|]. split; [exact Pc|]. intros IE. apply SE in IE. destruct IE as (k & nk & Ik & Ek & Sk).
        assert (Par : forall z nz, nodes H z = Some nz -> In k (n_kids nz) -> n_schema nz = q).
        { intros z nz Ez Iz. destruct (sy_node H Y z nz Ez) as (sz & Sz & _ & Kz & _). destruct (In_nth_error _ _ Iz) as (i & Ei). destruct (Kz i k Ei) as (nk' & Ek' & Sk'). destruct (sy_down H Y _ _ _ Sz (nth_error_In _ _ Sk')) as (co' & Ec' & Pc'). congruence. }
        destruct (cu_up _ _ _ _ C k Ik) as [(n' & E' & I')|(z & nz & Iz & Ez & I')]; [apply Nq; rewrite <- (Par x n' E' I'); congruence|]. apply NqE. rewrite <- (Par z nz Ez I'). apply (SD z nz Ez). exact Iz. }
    destruct X as (co & Ec & Pc & Nc). destruct (SKeep c co Ec Nc) as (co' & Ec' & Pc'). exists co'. split; [exact Ec'|congruence].
  - intros c o' q Ec Pc. destruct (SLive c o' Ec) as (o & Eo & NcE & Po & _). rewrite Po in Pc. destruct (sy_up H Y c o q Eo Pc) as (qo & Eq & Ic).
    destruct (Nat.eq_dec q (n_schema n)) as [->|Nq].
    + assert (qo = s) by congruence. subst qo. eexists. split; [exact Esx|]. cbn [s_kids]. destruct (SKid x n s c En Es Ic) as (k & nk & i & Ki & Si & Ek & Sk). apply select_in. exists i. split; [|exact Si].
      destruct (nth_error m i) as [[|]|] eqn:Mi; [reflexivity| |]; exfalso; apply NcE; rewrite <- Sk; apply (SD k nk Ek); apply (cu_kids _ _ _ _ C n i k En Ki); rewrite Mi; discriminate.
    + destruct (in_dec Nat.eq_dec q E) as [Iq|Iq].
      * exfalso. apply NcE. apply SE in Iq. destruct Iq as (z & nz & Iz & Ez & Sz). rewrite <- Sz in Eq. destruct (SKid z nz qo c Ez Eq Ic) as (k & nk & i & Ki & _ & Ek & Sk). rewrite <- Sk. apply (SD k nk Ek). apply (cu_down _ _ _ _ C z nz k Iz Ez). eapply nth_error_In; eauto.
      * exists qo. split; [|exact Ic]. rewrite Os by exact Nq. destruct (in_dec Nat.eq_dec q E); [contradiction|exact Eq].
  - intros q o' Eq. destruct (Nat.eq_dec q (n_schema n)) as [->|Nq]; [rewrite Esx in Eq; injection Eq as <-; cbn [s_kids]; apply select_nodup; apply (sy_once H Y _ _ Es)|].
    destruct (SLive q o' Eq) as (o & Eo & _ & _ & [X| <-]); [congruence|]. apply (sy_once H Y _ _ Eo).
  - intros q o' Eq. destruct (Nat.eq_dec q (n_schema n)) as [->|Nq]; [rewrite Esx in Eq; injection Eq as <-; cbn [s_kids s_dt]; exact Kd|].
    destruct (SLive q o' Eq) as (o & Eo & _ & _ & [X| <-]); [congruence|]. apply (sy_kind H Y _ _ Eo).
  - intros q o' Eq. destruct (Nat.eq_dec q (n_schema n)) as [->|Nq]; [rewrite Esx in Eq; injection Eq as <-; cbn [s_kids s_dt s_names]; exact Knm|].
    destruct (SLive q o' Eq) as (o & Eo & _ & _ & [X| <-]); [congruence|]. apply (sy_names H Y _ _ Eo).
  - intros y ny Ey. destruct (Live y ny Ey) as (ny0 & Ey0 & _). rewrite Nx. apply (sy_new_n H Y _ _ Ey0).
  - intros q o Eq. destruct (SLive q o Eq) as (o0 & Eo & _). rewrite Nx. apply (sy_new_s H Y _ _ Eo).
Qed.

(** ---- good heaps ---- *)
(** every node's tree is finite *)
Definition finite (H : heap) : Prop := forall x n, nodes H x = Some n -> exists t, hangs H x t.
(** every schema is some node's schema *)
Definition used (H : heap) : Prop := forall s o, schemas H s = Some o -> exists x n, nodes H x = Some n /\ n_schema n = s.
Definition good (H : heap) : Prop := sync H /\ finite H /\ used H.
(** every child knows its parent *)
Definition parents_right (H : heap) : Prop := forall x, kids_know H x.

Lemma finite_shrink : forall H H', sync H' -> finite H -> (forall y n', nodes H' y = Some n' -> exists n, nodes H y = Some n /\ incl (n_kids n') (n_kids n)) -> finite H'.
Proof.
  intros H H' Y F Sub. assert (G : forall t x n', hangs H x t -> nodes H' x = Some n' -> exists t', hangs H' x t').
  { induction t as [x0 s0 h d nm ks IH] using otree_ind'; intros x n' A E'. inversion A as [x1 n s ks1 En Es Fk]; subst. destruct (Sub x0 n' E') as (n2 & En2 & Inc). assert (n2 = n) by congruence. subst n2.
    destruct (sy_node H' Y x0 n' E') as (s' & Es' & _ & K & _). rewrite Forall_forall in IH.
    assert (Ex : exists ts, Forall2 (hangs H') (n_kids n') ts).
    { assert (X : forall k, In k (n_kids n') -> exists t', hangs H' k t').
      { intros k Ik. destruct (In_nth_error _ _ Ik) as (i & Ei). destruct (K i k Ei) as (nk & Ek & _). destruct (F2_In_l _ _ _ _ Fk (Inc k Ik)) as (tk & It & Rk). exact (IH tk It k nk Rk Ek). }
      revert X. generalize (n_kids n') as l. induction l as [|k l IHl]; intros X; [exists []; constructor|]. destruct (X k (or_introl eq_refl)) as (t' & Ht). destruct IHl as (ts & Hts); [intros k' I; apply X; right; exact I|]. exists (t' :: ts). constructor; assumption. }
    destruct Ex as (ts & Hts). eexists. econstructor; eauto. }
  intros x n' E'. destruct (Sub x n' E') as (n & En & _). destruct (F x n En) as (t & A). exact (G t x n' A E').
Qed.
Lemma cut_shape : forall H H' x m D E h d nm y n', cut H H' x m D E h d nm -> nodes H' y = Some n' -> exists n, nodes H y = Some n /\ incl (n_kids n') (n_kids n) /\ n_schema n' = n_schema n /\ n_parent n' = n_parent n /\ (y <> x -> n' = n).
Proof.
  intros H H' x m D E h d nm y n' (n & s & En & Es & Enx & Esx & On & Os & Nx) E'. destruct (Nat.eq_dec y x) as [->|N].
  - rewrite Enx in E'. injection E' as <-. exists n. split; [exact En|]. cbn. split; [intros k I; eapply select_incl; eauto|]. split; [reflexivity|]. split; [reflexivity|congruence].
  - rewrite (On y N) in E'. destruct (in_dec Nat.eq_dec y D); [discriminate E'|]. exists n'. split; [exact E'|]. split; [apply incl_refl|auto].
Qed.
Lemma cut_good : forall H H' x m D E h d nm, good H -> cutset H x m D -> schemas_of H D E -> cut H H' x m D E h d nm ->
  (forall n s, nodes H x = Some n -> schemas H (n_schema n) = Some s -> select m (s_kids s) <> [] -> is_tree_type (dt_id d) = true) ->
  (forall n s, nodes H x = Some n -> schemas H (n_schema n) = Some s -> dt_id d = OBJECT -> length nm = length (select m (s_kids s))) -> good H'.
Proof.
  intros H H' x m D E h d nm (Y & F & U) C SE W Kd Knm. pose proof (cut_sync H H' x m D E h d nm Y C SE W Kd Knm) as Y'. split; [exact Y'|]. split.
  - apply (finite_shrink H H' Y' F). intros y n' E'. destruct (cut_shape _ _ _ _ _ _ _ _ _ _ _ W E') as (n & A & B & _). eauto.
  - destruct W as (n & s & En & Es & Enx & Esx & On & Os & Nx). intros q o' Eq. destruct (Nat.eq_dec q (n_schema n)) as [->|Nq]; [eauto|]. rewrite (Os q Nq) in Eq. destruct (in_dec Nat.eq_dec q E) as [|Nq']; [discriminate Eq|].
    destruct (U q o' Eq) as (y & ny & Ey & Sy). assert (Nyx : y <> x) by (intros ->; apply Nq; congruence). exists y, ny. split; [|exact Sy]. rewrite (On y Nyx). destruct (in_dec Nat.eq_dec y D) as [I|I]; [|exact Ey]. exfalso. apply Nq'. apply SE. eauto.
Qed.
Lemma cut_parents : forall H H' x m D E h d nm, parents_right H -> cut H H' x m D E h d nm -> parents_right H'.
Proof.
  intros H H' x m D E h d nm P W y n' k nk Ey Ik Ek. destruct (cut_shape _ _ _ _ _ _ _ _ _ _ _ W Ey) as (n & A & B & _). destruct (cut_shape _ _ _ _ _ _ _ _ _ _ _ W Ek) as (nk0 & A' & _ & _ & Q & _). rewrite Q. exact (P y n k nk0 A (B k Ik) A').
Qed.
(** trees that do not contain the cut node are still there *)
Lemma cut_keep : forall H H' x m D E h d nm y t, sync H -> cutset H x m D -> schemas_of H D E -> cut H H' x m D E h d nm -> hangs H y t -> ~ In x (ids t) -> ~ In y D -> hangs H' y t.
Proof.
  intros H H' x m D E h d nm y t Y C SE (n & s & En & Es & Enx & Esx & On & Os & Nx) A N ND.
  assert (Out : forall z, In z (ids t) -> ~ In z D).
  { revert A N ND. clear - Y C. revert y. induction t as [x0 s0 h d nm ks IH] using otree_ind'; intros y A N ND z I. inversion A as [x1 n s ks1 En Es F]; subst. cbn [ids] in *. destruct I as [<-|I]; [exact ND|].
    apply in_ids_kids in I. destruct I as (t1 & I1 & J). destruct (F2_In_r _ _ _ _ F I1) as (k & Ik & Rk). rewrite Forall_forall in IH. apply (IH t1 I1 k Rk); [intros I'; apply N; right; apply in_ids_kids; eauto| |exact J].
    intros IkD. destruct (cu_up _ _ _ _ C k IkD) as [(n' & E' & I')|(z' & nz & Iz & Ez & I')]; [apply N; left; exact (kid_parent H k x0 x n n' Y En E' Ik I')|]. apply ND. rewrite (kid_parent H k x0 z' n nz Y En Ez Ik I'). exact Iz. }
  apply (hangs_keep H H' t y A).
  - intros z I. assert (z <> x) by (intros ->; contradiction). rewrite (On z) by assumption. destruct (in_dec Nat.eq_dec z D) as [J|J]; [exfalso; exact (Out z I J)|reflexivity].
  - intros q o Eq Iq. apply (sids_ids H t y q A) in Iq. destruct Iq as (z & nz & Iz & Ez & Sz). assert (q <> n_schema n) by (intros X; apply N; rewrite <- (sy_own H Y z x nz n Ez En); [exact Iz|congruence]).
    exists o. split; [|auto]. rewrite (Os q) by assumption. destruct (in_dec Nat.eq_dec q E) as [J|J]; [|exact Eq]. exfalso. apply SE in J. destruct J as (z' & nz' & Iz' & Ez' & Sz'). apply (Out z Iz). rewrite (sy_own H Y z z' nz nz' Ez Ez'); [exact Iz'|congruence].
Qed.

(** ---- deleting trees ---- *)
Definition drop_nodes (H H' : heap) (D : list nat) : Prop :=
  (forall y, nodes H' y = if in_dec Nat.eq_dec y D then None else nodes H y) /\ schemas H' = schemas H /\ next H' = next H.
Definition drop_schemas (H H' : heap) (E : list nat) : Prop :=
  (forall y, schemas H' y = if in_dec Nat.eq_dec y E then None else schemas H y) /\ nodes H' = nodes H /\ next H' = next H.
Lemma drop_nodes_app : forall H H1 H2 D D', drop_nodes H H1 D -> drop_nodes H1 H2 D' -> drop_nodes H H2 (D ++ D').
Proof.
  intros H H1 H2 D D' (A & B & C) (A' & B' & C'). split; [|split; congruence]. intros y. rewrite A', A.
  destruct (in_dec Nat.eq_dec y D'), (in_dec Nat.eq_dec y D), (in_dec Nat.eq_dec y (D ++ D')); rewrite ?in_app_iff in *; try reflexivity; tauto.
Qed.
Lemma drop_schemas_app : forall H H1 H2 D D', drop_schemas H H1 D -> drop_schemas H1 H2 D' -> drop_schemas H H2 (D ++ D').
Proof.
  intros H H1 H2 D D' (A & B & C) (A' & B' & C'). split; [|split; congruence]. intros y. rewrite A', A.
  destruct (in_dec Nat.eq_dec y D'), (in_dec Nat.eq_dec y D), (in_dec Nat.eq_dec y (D ++ D')); rewrite ?in_app_iff in *; try reflexivity; tauto.
Qed.
Lemma nodup_app_out : forall {A} (l l' : list A) x, NoDup (l ++ l') -> In x l -> In x l' -> False.
Proof. intros A l l' x N I J. induction l as [|a l IH]; [destruct I|]. inversion N; subst. destruct I as [->|I]; [apply H1; apply in_or_app; auto|auto]. Qed.
Lemma nodup_app_l : forall {A} (l l' : list A), NoDup (l ++ l') -> NoDup l.
Proof. intros A l l' N. induction l as [|a l IH]; [constructor|]. inversion N; subst. constructor; [intros I; apply H1; apply in_or_app; auto|auto]. Qed.
Lemma nodup_app_r : forall {A} (l l' : list A), NoDup (l ++ l') -> NoDup l'.
Proof. intros A l l' N. induction l as [|a l IH]; [exact N|]. inversion N; subst. auto. Qed.

Lemma delete_nodes_ok : forall fuel,
  (forall t H x, hangs H x t -> (forall y n, In y (ids t) -> nodes H y = Some n -> n_owns n = false) -> NoDup (ids t) -> length (ids t) <= fuel ->
     exists H', delete_node fuel H x = Ok H' /\ drop_nodes H H' (ids t)) ->
  forall ts l H, Forall2 (hangs H) l ts -> (forall y n, In y (concat (map ids ts)) -> nodes H y = Some n -> n_owns n = false) -> NoDup (concat (map ids ts)) -> length (concat (map ids ts)) <= fuel ->
     exists H', fold_o (delete_node fuel) l H = Ok H' /\ drop_nodes H H' (concat (map ids ts)).
Proof.
  intros fuel One ts. induction ts as [|t ts IH]; intros l H F O N Le; inversion F as [|k ? l' ? R F' Q1 Q2]; subst.
  - exists H. split; [reflexivity|]. split; [intros y; reflexivity|auto].
  - cbn [map concat] in *. rewrite app_length in Le. destruct (One t H k R) as (H1 & E1 & D1); [intros y n I; apply O; apply in_or_app; auto|eapply nodup_app_l; exact N|lia|].
    pose proof D1 as (A1 & B1 & C1).
    assert (Same : forall y, In y (concat (map ids ts)) -> nodes H1 y = nodes H y). { intros y I. rewrite A1. destruct (in_dec Nat.eq_dec y (ids t)) as [J|J]; [exfalso; eapply nodup_app_out; eauto|reflexivity]. }
    destruct (IH l' H1) as (H2 & E2 & D2).
    + clear - F' Same B1. induction F' as [|k t0 l ts R F IHF]; constructor; cbn [map concat] in Same.
      * apply (hangs_keep H H1 t0 k R); [intros y I; apply Same; apply in_or_app; auto|]. intros s o E _. exists o. rewrite B1. auto.
      * apply IHF. intros y I. apply Same. apply in_or_app. auto.
    + intros y n I. rewrite Same by exact I. apply O. apply in_or_app. auto.
    + eapply nodup_app_r; exact N.
    + lia.
    + exists H2. split; [cbn [fold_o]; rewrite E1; exact E2|]. eapply drop_nodes_app; eauto.
Qed.
Lemma delete_node_ok : forall fuel t H x, hangs H x t -> (forall y n, In y (ids t) -> nodes H y = Some n -> n_owns n = false) -> NoDup (ids t) -> length (ids t) <= fuel ->
  exists H', delete_node fuel H x = Ok H' /\ drop_nodes H H' (ids t).
Proof.
  induction fuel as [|f IH]; intros t H x A O N Le; inversion A as [x1 n s ks En Es F]; subst; cbn [ids length] in Le; [lia|].
  cbn [ids] in *. inversion N as [|? ? N1 N2]; subst. destruct (delete_nodes_ok f IH ks (n_kids n) H F) as (H1 & E1 & (A1 & B1 & C1)); [intros y ny I; apply O; right; exact I|exact N2|lia|].
  cbn [delete_node]. unfold nget. rewrite En. cbn [obind]. rewrite E1. cbn [obind]. rewrite (O x n (or_introl eq_refl) En). cbn [obind]. eexists. split; [reflexivity|].
  split; [|auto]. intros y. unfold put_node, upd. cbn [nodes]. destruct (Nat.eqb_spec y x) as [->|Ne].
  - destruct (in_dec Nat.eq_dec x (x :: concat (map ids ks))) as [|X]; [reflexivity|]. exfalso. apply X. left. reflexivity.
  - rewrite A1. destruct (in_dec Nat.eq_dec y (concat (map ids ks))), (in_dec Nat.eq_dec y (x :: concat (map ids ks))) as [I|I]; cbn [In] in *; try reflexivity; [exfalso; apply I; auto|destruct I; [congruence|contradiction]].
Qed.
(** the schemas of the children are the children of the schema *)
Lemma kid_schemas : forall H x n s ks, sync H -> nodes H x = Some n -> schemas H (n_schema n) = Some s -> Forall2 (hangs H) (n_kids n) ks -> s_kids s = map root_s ks.
Proof.
  intros H x n s ks Y En Es F. destruct (sy_node H Y x n En) as (s' & Es' & L & K & _). assert (s' = s) by congruence. subst s'. apply nth_ext_eq. intros i. rewrite nth_error_map.
  destruct (nth_error ks i) as [t|] eqn:Q; cbn [option_map].
  - destruct (F2_nth_r _ _ _ _ _ F Q) as (k & Ek & Rk). destruct (K i k Ek) as (nk & Enk & Sk). rewrite Sk. inversion Rk; subst. cbn. congruence.
  - apply nth_error_None in Q. apply nth_error_None. rewrite <- L. clear - F Q. induction F in i, Q |- *; cbn in *; [lia|]. destruct i; [lia|]. specialize (IHF i). lia.
Qed.
Lemma delete_schemas_ok : forall H0 fuel,
  (forall t H x, hangs H0 x t -> (forall s, In s (sids t) -> schemas H s = schemas H0 s) -> NoDup (sids t) -> length (sids t) <= fuel -> exists H', delete_schema fuel H (root_s t) = Ok H' /\ drop_schemas H H' (sids t)) ->
  forall ts l H, Forall2 (hangs H0) l ts -> (forall s, In s (concat (map sids ts)) -> schemas H s = schemas H0 s) -> NoDup (concat (map sids ts)) -> length (concat (map sids ts)) <= fuel ->
     exists H', fold_o (delete_schema fuel) (map root_s ts) H = Ok H' /\ drop_schemas H H' (concat (map sids ts)).
Proof.
  intros H0 fuel One ts. induction ts as [|t ts IH]; intros l H F O N Le; inversion F as [|k ? l' ? R F' Q1 Q2]; subst.
  - exists H. split; [reflexivity|]. split; [intros y; reflexivity|auto].
  - cbn [map concat] in *. rewrite app_length in Le. destruct (One t H k R) as (H1 & E1 & D1); [intros y I; apply O; apply in_or_app; auto|eapply nodup_app_l; exact N|lia|].
    pose proof D1 as (A1 & B1 & C1).
    destruct (IH l' H1 F') as (H2 & E2 & D2).
    + intros s I. rewrite A1. destruct (in_dec Nat.eq_dec s (sids t)) as [J|J]; [exfalso; eapply nodup_app_out; eauto|]. apply O. apply in_or_app. auto.
    + eapply nodup_app_r; exact N.
    + lia.
    + exists H2. split; [cbn [fold_o]; rewrite E1; exact E2|]. eapply drop_schemas_app; eauto.
Qed.
Lemma delete_schema_ok : forall H0, sync H0 -> forall fuel t H x, hangs H0 x t -> (forall s, In s (sids t) -> schemas H s = schemas H0 s) -> NoDup (sids t) -> length (sids t) <= fuel ->
  exists H', delete_schema fuel H (root_s t) = Ok H' /\ drop_schemas H H' (sids t).
Proof.
  intros H0 Y. induction fuel as [|f IH]; intros t H x A O N Le; inversion A as [x1 n s ks En Es F]; subst; cbn [sids length] in Le; [lia|].
  cbn [sids root_s] in *. inversion N as [|? ? N1 N2]; subst. assert (Ksd := kid_schemas H0 x n s ks Y En Es F).
  destruct (delete_schemas_ok H0 f IH ks (n_kids n) H F) as (H1 & E1 & (A1 & B1 & C1)); [intros y I; apply O; right; exact I|exact N2|lia|].
  cbn [delete_schema]. unfold sget. rewrite (O _ (or_introl eq_refl)), Es. cbn [obind]. rewrite Ksd.
  assert (Q : (if is_tree_type (dt_id (s_dt s)) then fold_o (delete_schema f) (map root_s ks) H else Ok H) = Ok H1 \/ ks = [] /\ (if is_tree_type (dt_id (s_dt s)) then fold_o (delete_schema f) (map root_s ks) H else Ok H) = Ok H).
  { destruct (is_tree_type (dt_id (s_dt s))) eqn:T; [left; exact E1|]. right. split; [|reflexivity]. destruct ks as [|t ks]; [reflexivity|]. exfalso. assert (X : s_kids s <> []) by (rewrite Ksd; discriminate). rewrite (sy_kind H0 Y _ _ Es X) in T. discriminate T. }
  assert (D1 : forall H2, drop_schemas H H2 (concat (map sids ks)) -> drop_schemas H (put_schema H2 (n_schema n) None) (n_schema n :: concat (map sids ks))).
  { intros H2 (A2 & B2 & C2). split; [|auto]. intros y. unfold put_schema, upd. cbn [schemas]. destruct (Nat.eqb_spec y (n_schema n)) as [->|Ne].
    - destruct (in_dec Nat.eq_dec (n_schema n) (n_schema n :: concat (map sids ks))) as [|X]; [reflexivity|]. exfalso. apply X. left. reflexivity.
    - rewrite A2. destruct (in_dec Nat.eq_dec y (concat (map sids ks))), (in_dec Nat.eq_dec y (n_schema n :: concat (map sids ks))) as [I|I]; cbn [In] in *; try reflexivity; [exfalso; apply I; auto|destruct I; [congruence|contradiction]]. }
  destruct Q as [Q|(-> & Q)]; rewrite Q; cbn [obind]; (eexists; split; [reflexivity|]); apply D1; [split; auto|]. split; [intros y; reflexivity|auto].
Qed.
Lemma sids_map : forall H t x, hangs H x t -> sids t = map (fun y => match nodes H y with Some n => n_schema n | None => 0 end) (ids t).
Proof.
  intros H. induction t as [x0 s0 h d nm ks IH] using otree_ind'; intros x A. inversion A as [x1 n s ks1 En Es F]; subst. cbn [sids ids map]. rewrite En. f_equal. rewrite Forall_forall in IH. rewrite concat_map, map_map. f_equal. apply map_ext_in.
  intros t It. destruct (F2_In_r _ _ _ _ F It) as (k & Ik & Rk). exact (IH t It k Rk).
Qed.
Lemma nodup_map_in : forall {A B} (f : A -> B) l, NoDup l -> (forall x y, In x l -> In y l -> f x = f y -> x = y) -> NoDup (map f l).
Proof.
  intros A B f l N. induction N as [|x l Nx N IH]; intros I; cbn; constructor.
  - intros J. apply in_map_iff in J. destruct J as (y & E & Iy). apply Nx. rewrite (I x y); auto; [left; reflexivity|right; exact Iy].
  - apply IH. intros a b Ia Ib. apply I; right; assumption.
Qed.
Lemma sids_nodup : forall H t x, sync H -> hangs H x t -> NoDup (sids t).
Proof.
  intros H t x Y A. rewrite (sids_map H t x A). apply nodup_map_in; [exact (ids_nodup H t x Y A)|]. intros y z Iy Iz E. destruct (hangs_live H t x y A Iy) as (ny & Ey). destruct (hangs_live H t x z A Iz) as (nz & Ez). rewrite Ey, Ez in E. exact (sy_own H Y y z ny nz Ey Ez E).
Qed.
Lemma ids_bound : forall H t x, sync H -> hangs H x t -> length (ids t) <= next H.
Proof.
  intros H t x Y A. rewrite <- (seq_length (next H) 0). apply NoDup_incl_length; [exact (ids_nodup H t x Y A)|]. intros y I. destruct (hangs_live H t x y A I) as (n & E). apply in_seq. pose proof (sy_new_n H Y y n E). lia.
Qed.
Lemma sids_len : forall H t x, hangs H x t -> length (sids t) = length (ids t).
Proof. intros H t x A. rewrite (sids_map H t x A). apply map_length. Qed.
Lemma below_not_owner : forall H t x y n, sync H -> hangs H x t -> In y (ids t) -> y <> x -> nodes H y = Some n -> n_owns n = false.
Proof.
  intros H t x y n Y A I N E. destruct (parent_in H t x y A I N) as (z & nz & Iz & Ez & K). destruct (sy_node H Y z nz Ez) as (sz & Sz & _ & Kz & _). destruct (In_nth_error _ _ K) as (i & Ei). destruct (Kz i y Ei) as (ny & Ey & Sy). assert (ny = n) by congruence. subst ny.
  destruct (sy_down H Y _ _ _ Sz (nth_error_In _ _ Sy)) as (co & Ec & Pc). destruct (sy_node H Y y n E) as (sy & Esy & _ & _ & _ & Ow). destruct (n_owns n); [|reflexivity]. destruct Ow as [Ow _]. specialize (Ow eq_refl). congruence.
Qed.

(** the cut of the children not kept by the mask *)
Lemma tree_cutset : forall H x n s ks m D, sync H -> nodes H x = Some n -> hangs H x (OT x (n_schema n) (n_hdr n) (s_dt s) (s_names s) ks) -> Forall2 (hangs H) (n_kids n) ks ->
  (forall y, In y D <-> exists j t, nth_error ks j = Some t /\ nth_error m j <> Some true /\ In y (ids t)) -> cutset H x m D.
Proof.
  intros H x n s ks m D Y En A F Ch. pose proof (no_cycle _ _ _ _ _ A F) as NC. constructor.
  - intros I. apply Ch in I. destruct I as (j & t & Ej & _ & It). apply NC. apply in_ids_kids. exists t. split; [eapply nth_error_In; eauto|exact It].
  - intros y I. apply Ch in I. destruct I as (j & t & Ej & _ & It). destruct (F2_nth_r _ _ _ _ _ F Ej) as (k & Ek & Rk). exact (hangs_live H t k y Rk It).
  - intros y ny k I Ey Ik. apply Ch in I. destruct I as (j & t & Ej & Mj & It). destruct (F2_nth_r _ _ _ _ _ F Ej) as (c & Ec & Rc). apply Ch. exists j, t. split; [exact Ej|]. split; [exact Mj|]. exact (closed_down H t c y ny k Rc It Ey Ik).
  - intros n' j k En' Ek. assert (n' = n) by congruence. subst n'. rewrite Ch.
    assert (Ex : exists t, nth_error ks j = Some t /\ hangs H k t). { clear - F Ek. revert j Ek. induction F as [|a b l l' R F IH]; intros [|j] Ek; try discriminate Ek; cbn in *; [injection Ek as <-; eauto|apply IH; exact Ek]. }
    destruct Ex as (t & Et & Rt). split.
    + intros (j' & t' & Ej' & Mj' & It'). assert (j = j') as ->; [|exact Mj']. exact (kid_trees_apart H x n s ks j j' t t' k Y A En F Et Ej' (hangs_root _ _ _ Rt) It').
    + intros Mj. exists j, t. split; [exact Et|]. split; [exact Mj|]. exact (hangs_root _ _ _ Rt).
  - intros k I. apply Ch in I. destruct I as (j & t & Ej & Mj & It). destruct (F2_nth_r _ _ _ _ _ F Ej) as (c & Ec & Rc). destruct (Nat.eq_dec k c) as [->|Ne]; [left; exists n; split; [exact En|eapply nth_error_In; eauto]|].
    right. destruct (parent_in H t c k Rc It Ne) as (z & nz & Iz & Ez & Kz). exists z, nz. split; [apply Ch; exists j, t; auto|auto].
Qed.
Lemma concat_sids_of : forall H l ks, Forall2 (hangs H) l ks -> schemas_of H (concat (map ids ks)) (concat (map sids ks)).
Proof.
  intros H l ks F s. split.
  - intros I. apply in_concat in I. destruct I as (q & Iq & Is). apply in_map_iff in Iq. destruct Iq as (t & <- & It). destruct (F2_In_r _ _ _ _ F It) as (k & _ & Rk). destruct (proj1 (sids_ids H t k s Rk) Is) as (y & n & Iy & Ey & Sy). exists y, n. split; [apply in_ids_kids; eauto|auto].
  - intros (y & n & Iy & Ey & Sy). apply in_ids_kids in Iy. destruct Iy as (t & It & Jy). destruct (F2_In_r _ _ _ _ F It) as (k & _ & Rk). apply in_concat. exists (sids t). split; [apply in_map; exact It|]. apply (sids_ids H t k s Rk). eauto.
Qed.
Lemma none_cutset : forall H x n s ks, sync H -> nodes H x = Some n -> hangs H x (OT x (n_schema n) (n_hdr n) (s_dt s) (s_names s) ks) -> Forall2 (hangs H) (n_kids n) ks -> cutset H x (mask_none (n_kids n)) (concat (map ids ks)).
Proof.
  intros H x n s ks Y En A F. apply (tree_cutset H x n s ks _ _ Y En A F). intros y. rewrite in_ids_kids. split.
  - intros (t & It & J). destruct (In_nth_error _ _ It) as (j & Ej). exists j, t. split; [exact Ej|]. split; [apply mask_none_nth|exact J].
  - intros (j & t & Ej & _ & J). exists t. split; [eapply nth_error_In; eauto|exact J].
Qed.
Lemma release_ok : forall H x n s ks, sync H -> nodes H x = Some n -> schemas H (n_schema n) = Some s -> hangs H x (OT x (n_schema n) (n_hdr n) (s_dt s) (s_names s) ks) -> Forall2 (hangs H) (n_kids n) ks ->
  exists H1, release_node (next H) H x = Ok H1 /\ nodes H1 x = Some (mkN (n_schema n) (n_owns n) (n_parent n) [] (released (s_dt s) (n_hdr n))) /\
    (forall y, y <> x -> nodes H1 y = if in_dec Nat.eq_dec y (concat (map ids ks)) then None else nodes H y) /\ schemas H1 = schemas H /\ next H1 = next H.
Proof.
  intros H x n s ks Y En Es A F. pose proof (ids_nodup H _ x Y A) as N. pose proof (ids_bound H _ x Y A) as B. cbn [ids length] in N, B. inversion N as [|? ? N1 N2]; subst.
  destruct (delete_nodes_ok (next H) (delete_node_ok (next H)) ks (n_kids n) H F) as (H1 & E1 & (A1 & B1 & C1)); [|exact N2|lia|].
  { intros y ny I Ey. apply (below_not_owner H _ x y ny Y A); [right; exact I|intros ->; contradiction|exact Ey]. }
  unfold release_node, nget. rewrite En. cbn [obind]. rewrite E1. cbn [obind]. unfold sget. rewrite B1, Es. cbn [obind]. eexists. split; [reflexivity|]. unfold put_node. cbn [nodes schemas next]. rewrite upd_same. split; [reflexivity|]. split; [|auto].
  intros y Ny. rewrite upd_other by exact Ny. apply A1.
Qed.
Lemma set_schema_ok : forall H0 H x n s ks d, sync H0 -> nodes H0 x = Some n -> schemas H0 (n_schema n) = Some s -> hangs H0 x (OT x (n_schema n) (n_hdr n) (s_dt s) (s_names s) ks) -> Forall2 (hangs H0) (n_kids n) ks ->
  schemas H = schemas H0 -> exists H1, set_schema (next H0) H (n_schema n) d = Ok H1 /\ nodes H1 = nodes H /\ next H1 = next H /\ schemas H1 (n_schema n) = Some (mkS (s_parent s) d [] []) /\
    (forall y, y <> n_schema n -> schemas H1 y = if in_dec Nat.eq_dec y (concat (map sids ks)) then None else schemas H0 y).
Proof.
  intros H0 H x n s ks d Y En Es A F SS. pose proof (sids_nodup H0 _ x Y A) as N. pose proof (ids_bound H0 _ x Y A) as B. rewrite <- (sids_len H0 _ x A) in B. cbn [sids length] in N, B. inversion N as [|? ? N1 N2]; subst.
  destruct (delete_schemas_ok H0 (next H0) (delete_schema_ok H0 Y (next H0)) ks (n_kids n) H F) as (H1 & E1 & (A1 & B1 & C1)); [intros q _; rewrite SS; reflexivity|exact N2|lia|].
  assert (Ksd := kid_schemas H0 x n s ks Y En Es F). unfold set_schema, sget. rewrite SS, Es. cbn [obind]. rewrite Ksd.
  assert (Q : (if is_tree_type (dt_id (s_dt s)) then fold_o (delete_schema (next H0)) (map root_s ks) H else Ok H) = Ok H1 \/ ks = [] /\ (if is_tree_type (dt_id (s_dt s)) then fold_o (delete_schema (next H0)) (map root_s ks) H else Ok H) = Ok H).
  { destruct (is_tree_type (dt_id (s_dt s))) eqn:T; [left; exact E1|]. right. split; [|reflexivity]. destruct ks as [|t ks]; [reflexivity|]. exfalso. assert (X : s_kids s <> []) by (rewrite Ksd; discriminate). rewrite (sy_kind H0 Y _ _ Es X) in T. discriminate T. }
  destruct Q as [Q|(-> & Q)]; rewrite Q; cbn [obind]; (eexists; split; [reflexivity|]); unfold put_schema; cbn [nodes schemas next]; rewrite upd_same.
  - split; [exact B1|]. split; [exact C1|]. split; [reflexivity|]. intros y Ny. rewrite upd_other by exact Ny. rewrite A1, SS. reflexivity.
  - split; [reflexivity|]. split; [reflexivity|]. split; [reflexivity|]. intros y Ny. rewrite upd_other by exact Ny. rewrite SS. reflexivity.
Qed.
(** what reset does *)
Lemma hreset_ok : forall H x n s ks, sync H -> nodes H x = Some n -> schemas H (n_schema n) = Some s -> hangs H x (OT x (n_schema n) (n_hdr n) (s_dt s) (s_names s) ks) -> Forall2 (hangs H) (n_kids n) ks ->
  exists H', hreset H x = Ok H' /\ cut H H' x (mask_none (n_kids n)) (concat (map ids ks)) (concat (map sids ks)) (released (s_dt s) (n_hdr n)) dt_empty [].
Proof.
  intros H x n s ks Y En Es A F. destruct (release_ok H x n s ks Y En Es A F) as (H1 & E1 & X1 & O1 & S1 & N1). destruct (set_schema_ok H H1 x n s ks dt_empty Y En Es A F S1) as (H2 & E2 & X2 & N2 & Sx & O2).
  unfold hreset, nget. rewrite En. cbn [obind]. rewrite E1. cbn [obind]. exists H2. split; [exact E2|]. exists n, s. split; [exact En|]. split; [exact Es|]. rewrite !select_none. rewrite X2. split; [exact X1|]. split; [exact Sx|]. split; [exact O1|]. split; [exact O2|congruence].
Qed.
Lemma kidless : forall H x n s ks, sync H -> nodes H x = Some n -> schemas H (n_schema n) = Some s -> Forall2 (hangs H) (n_kids n) ks -> is_tree_type (dt_id (s_dt s)) = false -> n_kids n = [] /\ ks = [].
Proof.
  intros H x n s ks Y En Es F T. assert (Ksd := kid_schemas H x n s ks Y En Es F). destruct ks as [|t ks]; [inversion F; auto|]. exfalso. assert (X : s_kids s <> []) by (rewrite Ksd; discriminate). rewrite (sy_kind H Y _ _ Es X) in T. discriminate T.
Qed.
(** what init does when the node is of another kind *)
Lemma hinit_ok : forall H x n s ks d, sync H -> nodes H x = Some n -> schemas H (n_schema n) = Some s -> hangs H x (OT x (n_schema n) (n_hdr n) (s_dt s) (s_names s) ks) -> Forall2 (hangs H) (n_kids n) ks ->
  (dt_id (s_dt s) = dt_id d /\ hinit H x d = Ok H) \/
  (dt_id (s_dt s) <> dt_id d /\ exists H' h, hinit H x d = Ok H' /\ cut H H' x (mask_none (n_kids n)) (concat (map ids ks)) (concat (map sids ks)) h d []).
Proof.
  intros H x n s ks d Y En Es A F. unfold hinit, nget, sget. rewrite En. cbn [obind]. rewrite Es. cbn [obind]. destruct (tid_eqb (dt_id (s_dt s)) (dt_id d)) eqn:T; [left; split; [destruct (dt_id (s_dt s)), (dt_id d); cbn in T; try discriminate T; reflexivity|reflexivity]|].
  right. split; [intros X; rewrite X in T; destruct (dt_id d); discriminate T|].
  destruct (is_tree_type (dt_id (s_dt s)) || (match h_data (n_hdr n) with Some _ => true | None => false end))%bool eqn:R.
  - destruct (release_ok H x n s ks Y En Es A F) as (H1 & E1 & X1 & O1 & S1 & N1). destruct (set_schema_ok H H1 x n s ks d Y En Es A F S1) as (H2 & E2 & X2 & N2 & Sx & O2).
    rewrite E1. cbn [obind]. exists H2, (released (s_dt s) (n_hdr n)). split; [exact E2|]. exists n, s. split; [exact En|]. split; [exact Es|]. rewrite !select_none. rewrite X2. split; [exact X1|]. split; [exact Sx|]. split; [exact O1|]. split; [exact O2|congruence].
  - apply orb_false_iff in R. destruct R as [R _]. destruct (kidless H x n s ks Y En Es F R) as (Kn & ->). destruct (set_schema_ok H H x n s [] d Y En Es A F eq_refl) as (H2 & E2 & X2 & N2 & Sx & O2).
    cbn [obind]. exists H2, (n_hdr n). split; [exact E2|]. exists n, s. split; [exact En|]. split; [exact Es|]. rewrite !select_none. rewrite X2. split; [rewrite En; rewrite <- Kn; destruct n; reflexivity|]. split; [exact Sx|]. split; [intros y _; reflexivity|]. split; [exact O2|congruence].
Qed.
Lemma erase_len : forall {A} (l : list A) i, i < length l -> length (erase_nth l i) = length l - 1.
Proof. intros A. induction l as [|a l IH]; intros i L; cbn in L; [lia|]. destruct i as [|i]; cbn [erase_nth length]; [lia|]. rewrite IH by lia. lia. Qed.
(** what remove does *)
Lemma hremove_ok : forall H x n s ks i t, sync H -> nodes H x = Some n -> schemas H (n_schema n) = Some s -> hangs H x (OT x (n_schema n) (n_hdr n) (s_dt s) (s_names s) ks) -> Forall2 (hangs H) (n_kids n) ks -> nth_error ks i = Some t ->
  exists H', hremove H x i = Ok H' /\ cutset H x (mask_but (n_kids n) i) (ids t) /\
    cut H H' x (mask_but (n_kids n) i) (ids t) (sids t) (n_hdr n) (s_dt s) (if tid_eqb (dt_id (s_dt s)) OBJECT then erase_nth (s_names s) i else s_names s).
Proof.
  intros H x n s ks i t Y En Es A F Et. destruct (F2_nth_r _ _ _ _ _ F Et) as (c & Ec & Rc). assert (Ksd := kid_schemas H x n s ks Y En Es F). pose proof (no_cycle _ _ _ _ _ A F) as NC.
  assert (It : In t ks) by (eapply nth_error_In; eauto). assert (Cx : ~ In x (ids t)) by (intros I; apply NC; apply in_ids_kids; eauto).
  assert (CU : cutset H x (mask_but (n_kids n) i) (ids t)).
  { apply (tree_cutset H x n s ks _ _ Y En A F). intros y. split.
    - intros I. exists i, t. split; [exact Et|]. split; [|exact I]. intros X. apply mask_but_nth in X. lia.
    - intros (j & t' & Ej & Mj & I). destruct (Nat.eq_dec j i) as [->|Ne]; [congruence|]. exfalso. apply Mj. apply mask_but_nth. split; [|exact Ne]. destruct (F2_nth_r _ _ _ _ _ F Ej) as (c' & Ec' & _). apply nth_error_Some. congruence. }
  destruct (delete_node_ok (next H) t H c Rc) as (H1 & E1 & (A1 & B1 & C1)).
  { intros y ny I Ey. apply (below_not_owner H _ x y ny Y A); [right; apply in_ids_kids; eauto|intros ->; contradiction|exact Ey]. }
  { exact (ids_nodup H t c Y Rc). } { exact (ids_bound H t c Y Rc). }
  destruct (delete_schema_ok H Y (next H) t H1 c Rc) as (H2 & E2 & (A2 & B2 & C2)).
  { intros q _. rewrite B1. reflexivity. } { exact (sids_nodup H t c Y Rc). } { rewrite (sids_len H t c Rc). exact (ids_bound H t c Y Rc). }
  assert (T : is_tree_type (dt_id (s_dt s)) = true). { apply (sy_kind H Y _ _ Es). rewrite Ksd. intros X. apply map_eq_nil in X. subst ks. destruct i; discriminate Et. }
  unfold hremove, nget. rewrite En. cbn [obind]. rewrite Ec. rewrite E1. cbn [obind]. unfold sget. rewrite B1, Es. cbn [obind]. rewrite T. assert (Ni : nth_error (s_kids s) i = Some (root_s t)) by (rewrite Ksd, nth_error_map, Et; reflexivity). rewrite Ni. rewrite E2. cbn [obind].
  eexists. split; [reflexivity|]. split; [exact CU|]. exists n, s. split; [exact En|]. split; [exact Es|]. destruct (sy_node H Y x n En) as (s' & Es' & L & _). assert (s' = s) by congruence. subst s'.
  rewrite !select_but by (auto). unfold put_node, put_schema. cbn [nodes schemas next]. split; [apply upd_same|]. split; [apply upd_same|]. split; [intros y Ny; rewrite upd_other by exact Ny; rewrite B2; apply A1|]. split; [intros y Ny; rewrite upd_other by exact Ny; rewrite A2, B1; reflexivity|congruence].
Qed.
