(** Creating nodes, swap and move, and histories of operations on linked nodes. *)
From Coq Require Import Lia FinFun.
From Verif Require Import Base DType Mem Node NodeLinks LinksFacts LinksCut.

(** ---- new nodes ---- *)
Lemma new_good : forall H, good H -> good (fst (hnew H)).
Proof.
  intros H (Y & F & U). cbn [hnew fst].
  assert (On : forall y n, nodes H y = Some n -> y <> next H) by (intros y n E ->; pose proof (sy_new_n H Y _ _ E); lia).
  assert (Os : forall y o, schemas H y = Some o -> y <> next H) by (intros y o E ->; pose proof (sy_new_s H Y _ _ E); lia).
  set (H' := mkHeap _ _ _).
  assert (Kn : forall y n, nodes H y = Some n -> nodes H' y = Some n) by (intros y n E; cbn; rewrite upd_other; eauto).
  assert (Ks : forall y n, schemas H y = Some n -> schemas H' y = Some n) by (intros y n E; cbn; rewrite upd_other; eauto).
  assert (Ln : forall y n, nodes H' y = Some n -> (y = next H /\ n = mkN (next H) true None [] null_hdr) \/ nodes H y = Some n).
  { intros y n. cbn. unfold upd. destruct (Nat.eqb_spec y (next H)) as [->|N]; [intros E; injection E as <-; auto|auto]. }
  assert (Ls : forall y n, schemas H' y = Some n -> (y = next H /\ n = mkS None dt_empty [] []) \/ schemas H y = Some n).
  { intros y n. cbn. unfold upd. destruct (Nat.eqb_spec y (next H)) as [->|N]; [intros E; injection E as <-; auto|auto]. }
  assert (Sx : schemas H' (next H) = Some (mkS None dt_empty [] [])) by (cbn; apply upd_same).
  assert (SN : forall y n, nodes H y = Some n -> n_schema n <> next H) by (intros y n E; destruct (sy_node H Y y n E) as (s & Es & _); eauto).
  split; [constructor|split].
  - intros y n E. destruct (Ln y n E) as [(-> & ->)|E0].
    + eexists. split; [exact Sx|]. cbn. split; [reflexivity|]. split; [intros [|i] k X; discriminate X|]. split; tauto.
    + destruct (sy_node H Y y n E0) as (s & Es & L & K & P & O). exists s. split; [auto|]. split; [exact L|]. split; [|auto]. intros i k Ei. destruct (K i k Ei) as (nk & Ek & Sk). exists nk. auto.
  - intros y z n n' Ey Ez Q. destruct (Ln y n Ey) as [(-> & ->)|Ey0]; destruct (Ln z n' Ez) as [(-> & ->)|Ez0]; cbn in Q; [reflexivity|exfalso; exact (SN z n' Ez0 (eq_sym Q))|exfalso; exact (SN y n Ey0 Q)|exact (sy_own H Y y z n n' Ey0 Ez0 Q)].
  - intros s o c E I. destruct (Ls s o E) as [(-> & ->)|E0]; [destruct I|]. destruct (sy_down H Y s o c E0 I) as (co & Ec & Pc). eauto.
  - intros s o q E P. destruct (Ls s o E) as [(-> & ->)|E0]; [discriminate P|]. destruct (sy_up H Y s o q E0 P) as (qo & Eq & I). eauto.
  - intros s o E. destruct (Ls s o E) as [(-> & ->)|E0]; [constructor|]. exact (sy_once H Y s o E0).
  - intros s o E N. destruct (Ls s o E) as [(-> & ->)|E0]; [cbn in N; congruence|]. exact (sy_kind H Y s o E0 N).
  - intros s o E T. destruct (Ls s o E) as [(-> & ->)|E0]; [reflexivity|]. exact (sy_names H Y s o E0 T).
  - intros y n E. cbn [next H']. destruct (Ln y n E) as [(-> & _)|E0]; [cbn; lia|]. pose proof (sy_new_n H Y y n E0). cbn. lia.
  - intros y n E. destruct (Ls y n E) as [(-> & _)|E0]; [cbn; lia|]. pose proof (sy_new_s H Y y n E0). cbn. lia.
  - intros y n E. destruct (Ln y n E) as [(-> & ->)|E0]; [eexists; econstructor; [exact E|exact Sx|constructor]|]. destruct (F y n E0) as (t & A). exists t. apply (hangs_keep H H' t y A).
    + intros z I. destruct (hangs_live H t y z A I) as (nz & Ez). rewrite Ez. auto.
    + intros s o Es _. exists o. auto.
  - intros s o E. destruct (Ls s o E) as [(-> & _)|E0]; [exists (next H); eexists; split; [cbn; apply upd_same|reflexivity]|]. destruct (U s o E0) as (y & n & Ey & Sy). eauto.
Qed.
Lemma new_parents : forall H, sync H -> parents_right H -> parents_right (fst (hnew H)).
Proof.
  intros H Y P x n k nk Ex Ik Ek. cbn [hnew fst nodes] in Ex, Ek. unfold upd in Ex, Ek. destruct (Nat.eqb_spec x (next H)) as [->|Nx]; [injection Ex as <-; destruct Ik|].
  destruct (Nat.eqb_spec k (next H)) as [->|Nk]; [|exact (P x n k nk Ex Ik Ek)]. destruct (sy_node H Y x n Ex) as (s & _ & _ & K & _). destruct (In_nth_error _ _ Ik) as (i & Ei). destruct (K i _ Ei) as (nk' & E' & _). pose proof (sy_new_n H Y _ _ E'). lia.
Qed.
Lemma new_keeps : forall H y t, sync H -> hangs H y t -> hangs (fst (hnew H)) y t.
Proof.
  intros H y t Y A. apply (hangs_keep H _ t y A).
  - intros z I. destruct (hangs_live H t y z A I) as (nz & Ez). cbn [hnew fst nodes]. rewrite upd_other; [reflexivity|]. pose proof (sy_new_n H Y z nz Ez). lia.
  - intros s o Es _. exists o. cbn [hnew fst schemas]. rewrite upd_other; [auto|]. pose proof (sy_new_s H Y s o Es). lia.
Qed.

(** ---- new children ---- *)
Lemma nth_app_one : forall {A} (l : list A) c i x, nth_error (l ++ [c]) i = Some x -> nth_error l i = Some x \/ (i = length l /\ x = c).
Proof.
  intros A l c i x E. destruct (Nat.lt_ge_cases i (length l)) as [L|L]; [rewrite nth_error_app1 in E by exact L; auto|]. rewrite nth_error_app2 in E by exact L. destruct (i - length l) as [|j] eqn:Q; cbn in E; [injection E as <-; right; split; [lia|reflexivity]|destruct j; discriminate E].
Qed.
Lemma nodup_app_one : forall {A} (l : list A) c, NoDup l -> ~ In c l -> NoDup (l ++ [c]).
Proof. intros A l c N I. induction N as [|a l Na N IH]; cbn; constructor; [intros []|constructor| |]. - intros J. apply in_app_or in J. destruct J as [J|[<-|[]]]; [contradiction|apply I; left; reflexivity]. - apply IH. intros J. apply I. right. exact J. Qed.
Lemma new_child_ok : forall H x n s ks nm, good H -> nodes H x = Some n -> schemas H (n_schema n) = Some s -> Forall2 (hangs H) (n_kids n) ks -> hangs H x (OT x (n_schema n) (n_hdr n) (s_dt s) (s_names s) ks) ->
  (dt_id (s_dt s) = OBJECT /\ length nm = 1 \/ dt_id (s_dt s) = LIST /\ nm = []) ->
  exists H', new_child H x nm = Ok (H', next H) /\ good H' /\ (parents_right H -> parents_right H') /\
    hangs H' x (OT x (n_schema n) (n_hdr n) (s_dt s) (s_names s ++ nm) (ks ++ [OT (next H) (next H) null_hdr dt_empty [] []])) /\
    (forall y t, hangs H y t -> ~ In x (ids t) -> hangs H' y t) /\ (forall y m, nodes H y = Some m -> exists m', nodes H' y = Some m').
Proof.
  intros H x n s ks nm (Y & F & U) En Es Fk A Kd.
  assert (On : forall y n, nodes H y = Some n -> y <> next H) by (intros y n0 E ->; pose proof (sy_new_n H Y _ _ E); lia).
  assert (Os : forall y o, schemas H y = Some o -> y <> next H) by (intros y o E ->; pose proof (sy_new_s H Y _ _ E); lia).
  unfold new_child, nget, sget. rewrite En. cbn [obind]. rewrite Es. cbn [obind]. set (c := next H) in *. set (sx := n_schema n) in *. eexists. split; [reflexivity|]. set (H' := mkHeap _ _ _).
  assert (Ncx : c <> x) by (intros X; exact (On x n En (eq_sym X))). assert (Ncs : c <> sx) by (intros X; exact (Os sx s Es (eq_sym X))).
  assert (Ex : nodes H' x = Some (with_kids n (n_kids n ++ [c]))) by (cbn; rewrite upd_other by auto; apply upd_same).
  assert (Ec : nodes H' c = Some (mkN c false (Some x) [] null_hdr)) by (cbn; apply upd_same).
  assert (Sx : schemas H' sx = Some (mkS (s_parent s) (s_dt s) (s_names s ++ nm) (s_kids s ++ [c]))) by (cbn; rewrite upd_other by auto; apply upd_same).
  assert (Sc : schemas H' c = Some (mkS (Some sx) dt_empty [] [])) by (cbn; apply upd_same).
  assert (Kn : forall y m, y <> x -> nodes H y = Some m -> nodes H' y = Some m) by (intros y m N E; cbn; rewrite !upd_other; eauto).
  assert (Ks : forall y m, y <> sx -> schemas H y = Some m -> schemas H' y = Some m) by (intros y m N E; cbn; rewrite !upd_other; eauto).
  assert (Ln : forall y m, nodes H' y = Some m -> (y = c /\ m = mkN c false (Some x) [] null_hdr) \/ (y = x /\ m = with_kids n (n_kids n ++ [c])) \/ (y <> x /\ nodes H y = Some m)).
  { intros y m E. destruct (Nat.eq_dec y c) as [->|N1]; [left; split; [reflexivity|congruence]|]. right. destruct (Nat.eq_dec y x) as [->|N2]; [left; split; [reflexivity|congruence]|]. right. split; [exact N2|]. cbn in E. rewrite !upd_other in E by auto. exact E. }
  assert (Ls : forall y m, schemas H' y = Some m -> (y = c /\ m = mkS (Some sx) dt_empty [] []) \/ (y = sx /\ m = mkS (s_parent s) (s_dt s) (s_names s ++ nm) (s_kids s ++ [c])) \/ (y <> sx /\ schemas H y = Some m)).
  { intros y m E. destruct (Nat.eq_dec y c) as [->|N1]; [left; split; [reflexivity|congruence]|]. right. destruct (Nat.eq_dec y sx) as [->|N2]; [left; split; [reflexivity|congruence]|]. right. split; [exact N2|]. cbn in E. rewrite !upd_other in E by auto. exact E. }
  assert (Kn' : forall y m, nodes H y = Some m -> exists m', nodes H' y = Some m' /\ n_schema m' = n_schema m).
  { intros y m E. destruct (Nat.eq_dec y x) as [->|N]; [eexists; split; [exact Ex|]; assert (m = n) by congruence; subst m; reflexivity|exists m; auto]. }
  assert (Ks' : forall y m, schemas H y = Some m -> exists m', schemas H' y = Some m' /\ s_parent m' = s_parent m /\ incl (s_kids m) (s_kids m')).
  { intros y m E. destruct (Nat.eq_dec y sx) as [->|N]; [eexists; split; [exact Sx|]; assert (m = s) by congruence; subst m; cbn; split; [reflexivity|apply incl_appl; apply incl_refl]|exists m; split; [auto|]; split; [reflexivity|apply incl_refl]]. }
  assert (Nsc : ~ In c (s_kids s)). { intros I. destruct (sy_down H Y _ _ _ Es I) as (co & Eco & _). exact (Os c co Eco eq_refl). }
  assert (Sch : forall y m, nodes H y = Some m -> n_schema m <> c) by (intros y m E X; destruct (sy_node H Y y m E) as (o & Eo & _); exact (Os _ _ Eo X)).
  destruct (sy_node H Y x n En) as (s_ & Es_ & Lx & Kx & Px & Ox). assert (s_ = s) by (unfold sx in Es; congruence). subst s_. clear Es_.
  assert (Y' : sync H').
  { constructor.
    - intros y m E. destruct (Ln y m E) as [(-> & ->)|[(-> & ->)|(N & E0)]].
      + eexists. split; [exact Sc|]. cbn. split; [reflexivity|]. split; [intros [|i] k X; discriminate X|]. split; split; discriminate.
      + cbn [with_kids n_schema n_kids n_parent n_owns]. eexists. split; [exact Sx|]. cbn [s_kids s_parent]. split; [rewrite !app_length, Lx; reflexivity|]. split; [|auto].
        intros i k Ei. destruct (nth_app_one _ _ _ _ Ei) as [Ei0|(-> & ->)].
        * destruct (Kx i k Ei0) as (nk & Ek & Sk). destruct (Kn' k nk Ek) as (nk' & Ek' & Sk'). exists nk'. split; [exact Ek'|]. rewrite Sk'. rewrite nth_error_app1; [exact Sk|]. apply nth_error_Some. congruence.
        * eexists. split; [exact Ec|]. cbn [n_schema]. rewrite Lx. rewrite nth_error_app2 by lia. rewrite Nat.sub_diag. reflexivity.
      + destruct (sy_node H Y y m E0) as (o & Eo & L & K & P & O). assert (Nq : n_schema m <> sx) by (intros X; apply N; exact (sy_own H Y y x m n E0 En X)). exists o. split; [auto|]. split; [exact L|]. split; [|auto].
        intros i k Ei. destruct (K i k Ei) as (nk & Ek & Sk). destruct (Kn' k nk Ek) as (nk' & Ek' & Sk'). exists nk'. split; [exact Ek'|congruence].
    - intros y z m m' Ey Ez Q.
      assert (G : forall w q, nodes H' w = Some q -> (w = c /\ n_schema q = c) \/ exists q0, nodes H w = Some q0 /\ n_schema q = n_schema q0).
      { intros w q E. destruct (Ln w q E) as [(-> & ->)|[(-> & ->)|(N & E0)]]; [left; auto|right; exists n; auto|right; exists q; auto]. }
      destruct (G y m Ey) as [(-> & Q1)|(m0 & E0 & Q1)], (G z m' Ez) as [(-> & Q2)|(m1 & E1 & Q2)]; [reflexivity|exfalso; apply (Sch z m1 E1); congruence|exfalso; apply (Sch y m0 E0); congruence|]. apply (sy_own H Y y z m0 m1 E0 E1). congruence.
    - intros q o k E I. destruct (Ls q o E) as [(-> & ->)|[(-> & ->)|(N & E0)]]; [destruct I| |].
      + cbn [s_kids] in I. apply in_app_or in I. destruct I as [I|[<-|[]]]; [|eauto]. destruct (sy_down H Y _ _ _ Es I) as (co & Eco & Pc). destruct (Ks' k co Eco) as (co' & Eco' & Pc' & _). exists co'. split; [exact Eco'|congruence].
      + destruct (sy_down H Y _ _ _ E0 I) as (co & Eco & Pc). destruct (Ks' k co Eco) as (co' & Eco' & Pc' & _). exists co'. split; [exact Eco'|congruence].
    - assert (G : forall k o q, schemas H k = Some o -> s_parent o = Some q -> exists qo, schemas H' q = Some qo /\ In k (s_kids qo)).
      { intros k o q E P. destruct (sy_up H Y k o q E P) as (qo & Eq & I). destruct (Ks' q qo Eq) as (qo' & Eq' & _ & Inc). exists qo'. auto. }
      intros k o q E P. destruct (Ls k o E) as [(-> & ->)|[(-> & ->)|(N & E0)]].
      + cbn in P. injection P as <-. eexists. split; [exact Sx|]. cbn. apply in_or_app. right. left. reflexivity.
      + cbn in P. exact (G sx s q Es P).
      + exact (G k o q E0 P).
    - intros q o E. destruct (Ls q o E) as [(-> & ->)|[(-> & ->)|(N & E0)]]; [constructor| |exact (sy_once H Y q o E0)]. cbn [s_kids]. apply nodup_app_one; [exact (sy_once H Y _ _ Es)|exact Nsc].
    - intros q o E Nk. destruct (Ls q o E) as [(-> & ->)|[(-> & ->)|(N & E0)]]; [cbn in Nk; congruence| |exact (sy_kind H Y q o E0 Nk)]. cbn [s_dt]. destruct Kd as [(-> & _)|(-> & _)]; reflexivity.
    - intros q o E T. destruct (Ls q o E) as [(-> & ->)|[(-> & ->)|(N & E0)]]; [reflexivity| |exact (sy_names H Y q o E0 T)]. cbn [s_dt s_names s_kids] in *. destruct Kd as [(_ & L1)|(T2 & _)]; [rewrite !app_length, L1, (sy_names H Y _ _ Es T); reflexivity|rewrite T2 in T; discriminate T].
    - intros y m E. cbn [H' next]. destruct (Ln y m E) as [(-> & ->)|[(-> & ->)|(N & E0)]]; [unfold c; lia|pose proof (sy_new_n H Y _ _ En); unfold c; lia|pose proof (sy_new_n H Y _ _ E0); unfold c; lia].
    - intros y m E. cbn [H' next]. destruct (Ls y m E) as [(-> & ->)|[(-> & ->)|(N & E0)]]; [unfold c; lia|pose proof (sy_new_s H Y _ _ Es); unfold c; lia|pose proof (sy_new_s H Y _ _ E0); unfold c; lia]. }
  assert (Hc : hangs H' c (OT c c null_hdr dt_empty [] [])). { pose proof (hangs_intro H' c _ _ [] Ec Sc) as G. apply G. constructor. }
  assert (Keep : forall y t, hangs H y t -> ~ In x (ids t) -> hangs H' y t).
  { intros y t B N. apply (hangs_keep H H' t y B).
    - intros z I. destruct (hangs_live H t y z B I) as (nz & Ez). rewrite Ez. apply Kn; [intros ->; contradiction|exact Ez].
    - intros q o Eq Iq. exists o. split; [|auto]. apply Ks; [|exact Eq]. intros ->. apply N. apply (sids_ids H t y sx B) in Iq. destruct Iq as (z & nz & Iz & Ez & Sz). rewrite <- (sy_own H Y z x nz n Ez En Sz). exact Iz. }
  assert (Hx : hangs H' x (OT x sx (n_hdr n) (s_dt s) (s_names s ++ nm) (ks ++ [OT c c null_hdr dt_empty [] []]))).
  { pose proof (hangs_intro H' x _ _ (ks ++ [OT c c null_hdr dt_empty [] []]) Ex Sx) as G. apply G. cbn [with_kids n_kids]. apply Forall2_app; [|constructor; [exact Hc|constructor]].
    pose proof (no_cycle _ _ _ _ _ A Fk) as NC. clearbody H'. clear - Fk Keep NC. induction Fk as [|k t l ks R F IH]; [constructor|]; cbn [map concat] in NC; constructor; [apply Keep; [exact R|intros I; apply NC; apply in_or_app; auto]|apply IH; intros I; apply NC; apply in_or_app; auto]. }
  split; [|split; [|split; [exact Hx|split; [exact Keep|intros y m E; destruct (Kn' y m E) as (m' & E' & _); eauto]]]].
  - split; [exact Y'|]. split.
    + assert (G : forall t y, hangs H y t -> exists t', hangs H' y t').
      { induction t as [x0 s0 h d nm0 ks0 IH] using otree_ind'; intros y B. inversion B as [x1 m o ks1 Em Eo Fm]; subst. destruct (Nat.eq_dec x0 x) as [->|N]; [eauto|].
        assert (Nq : n_schema m <> sx) by (intros X; apply N; exact (sy_own H Y x0 x m n Em En X)).
        rewrite Forall_forall in IH. assert (Ex2 : exists ts, Forall2 (hangs H') (n_kids m) ts).
        { clear - Fm IH. induction Fm as [|k t l ts R Fm IHF]; [exists []; constructor|]. destruct (IH t (or_introl eq_refl) k R) as (t' & Ht). destruct IHF as (ts' & Hts); [intros t0 I; apply IH; right; exact I|]. exists (t' :: ts'). constructor; assumption. }
        destruct Ex2 as (ts & Hts). eexists. exact (hangs_intro H' x0 m o ts (Kn _ _ N Em) (Ks _ _ Nq Eo) Hts). }
      intros y m E. destruct (Ln y m E) as [(-> & ->)|[(-> & ->)|(N & E0)]]; [eauto|eauto|]. destruct (F y m E0) as (t & B). exact (G t y B).
    + intros q o E. destruct (Ls q o E) as [(-> & ->)|[(-> & ->)|(N & E0)]]; [exists c; eexists; split; [exact Ec|reflexivity]|exists x; eexists; split; [exact Ex|reflexivity]|]. destruct (U q o E0) as (y & m & Ey & Sy). destruct (Kn' y m Ey) as (m' & Ey' & Sy'). exists y, m'. split; [exact Ey'|congruence].
  - intros P y m k mk Ey Ik Ek. destruct (Ln y m Ey) as [(-> & ->)|[(-> & ->)|(N & E0)]]; [destruct Ik| |].
    + cbn [with_kids n_kids] in Ik. apply in_app_or in Ik. destruct Ik as [Ik|[<-|[]]]; [|rewrite Ec in Ek; injection Ek as <-; reflexivity]. destruct (Ln k mk Ek) as [(-> & ->)|[(-> & ->)|(N & E0)]]; [reflexivity| |exact (P x n k mk En Ik E0)].
      cbn [with_kids n_parent]. exact (P x n x n En Ik En).
    + destruct (Ln k mk Ek) as [(-> & ->)|[(-> & ->)|(N' & E0')]]; [|exact (P y m x n E0 Ik En)|exact (P y m k mk E0 Ik E0')]. exfalso. destruct (sy_node H Y y m E0) as (o & Eo & _ & K & _). destruct (In_nth_error _ _ Ik) as (i & Ei). destruct (K i c Ei) as (nk & Ek2 & _). exact (On c nk Ek2 eq_refl).
Qed.

(** ---- views of a live node ---- *)
Lemma view : forall H x n, good H -> nodes H x = Some n -> exists s ks, schemas H (n_schema n) = Some s /\ Forall2 (hangs H) (n_kids n) ks /\ hangs H x (OT x (n_schema n) (n_hdr n) (s_dt s) (s_names s) ks).
Proof.
  intros H x n (Y & F & U) En. destruct (F x n En) as (t & A). inversion A as [x1 n1 s ks En1 Es Fk]; subst. assert (n1 = n) by congruence. subst n1. exists s, ks. auto.
Qed.
(** the trees an operation on [x] must not disturb *)
Definition frame (H H' : heap) (x : nat) : Prop := forall y t, hangs H y t -> ~ In x (ids t) -> ~ inside H y x -> hangs H' y t.
Lemma cut_frame : forall H H' x n s ks m D E h d nm, sync H -> hangs H x (OT x (n_schema n) (n_hdr n) (s_dt s) (s_names s) ks) -> incl D (concat (map ids ks)) -> cutset H x m D -> schemas_of H D E -> cut H H' x m D E h d nm -> frame H H' x.
Proof.
  intros H H' x n s ks m D E h d nm Y A Inc C SE W y t B N NI. apply (cut_keep H H' x m D E h d nm y t Y C SE W B N). intros I. apply NI. eexists. split; [exact A|]. cbn [ids]. right. apply Inc. exact I.
Qed.
Lemma hangs_view : forall H x y s h d nm ks, hangs H x (OT y s h d nm ks) -> exists n o, nodes H x = Some n /\ n_schema n = s /\ n_hdr n = h /\ schemas H s = Some o /\ s_dt o = d /\ s_names o = nm /\ Forall2 (hangs H) (n_kids n) ks.
Proof. intros H x y s h d nm ks A. inversion A as [x1 n o ks1 En Eo F]; subst. exists n, o. auto 10. Qed.
Lemma reset_good : forall H x n s ks, good H -> nodes H x = Some n -> schemas H (n_schema n) = Some s -> Forall2 (hangs H) (n_kids n) ks -> hangs H x (OT x (n_schema n) (n_hdr n) (s_dt s) (s_names s) ks) ->
  exists H', hreset H x = Ok H' /\ good H' /\ (parents_right H -> parents_right H') /\ frame H H' x /\
  hangs H' x (OT x (n_schema n) (released (s_dt s) (n_hdr n)) dt_empty [] []) /\ cut H H' x (mask_none (n_kids n)) (concat (map ids ks)) (concat (map sids ks)) (released (s_dt s) (n_hdr n)) dt_empty [].
Proof.
  intros H x n s ks G En Es Fk A. pose proof G as (Y & F & U). destruct (hreset_ok H x n s ks Y En Es A Fk) as (H' & E & W). pose proof (none_cutset H x n s ks Y En A Fk) as C. pose proof (concat_sids_of H _ ks Fk) as SE.
  exists H'. split; [exact E|]. split; [apply (cut_good _ _ _ _ _ _ _ _ _ G C SE W); intros n' s' _ _; rewrite select_none; [congruence|discriminate]|]. split; [intros P; exact (cut_parents _ _ _ _ _ _ _ _ _ P W)|].
  split; [exact (cut_frame H H' x n s ks _ _ _ _ _ _ Y A (incl_refl _) C SE W)|]. split; [|exact W]. destruct W as (n1 & s1 & En1 & Es1 & Ex & Esx & _). assert (n1 = n) by congruence. subst n1. rewrite !select_none in *.
  pose proof (hangs_intro H' x _ _ [] Ex Esx) as X. cbn [n_kids n_schema n_hdr s_dt s_names] in X. apply X. constructor.
Qed.
Lemma init_good : forall H x n d, good H -> nodes H x = Some n -> is_tree_type (dt_id d) = true -> exists H' n' s' ks', hinit H x d = Ok H' /\ good H' /\ (parents_right H -> parents_right H') /\ frame H H' x /\
  nodes H' x = Some n' /\ n_schema n' = n_schema n /\ schemas H' (n_schema n') = Some s' /\ dt_id (s_dt s') = dt_id d /\ Forall2 (hangs H') (n_kids n') ks' /\ hangs H' x (OT x (n_schema n') (n_hdr n') (s_dt s') (s_names s') ks') /\
  next H' = next H /\ (H' = H \/ n_kids n' = []).
Proof.
  intros H x n d G En T. pose proof G as (Y & F & U). destruct (view H x n G En) as (s & ks & Es & Fk & A). destruct (hinit_ok H x n s ks d Y En Es A Fk) as [(Ed & E)|(Nd & H' & h & E & W)].
  - exists H, n, s, ks. split; [exact E|]. split; [exact G|]. split; [auto|]. split; [intros y t B _ _; exact B|]. auto 10.
  - pose proof (none_cutset H x n s ks Y En A Fk) as C. pose proof (concat_sids_of H _ ks Fk) as SE. pose proof W as (n1 & s1 & En1 & Es1 & Ex & Esx & _ & _ & Nx). assert (n1 = n) by congruence. subst n1. rewrite !select_none in *.
    exists H'. eexists. eexists. exists []. split; [exact E|]. split; [apply (cut_good _ _ _ _ _ _ _ _ _ G C SE W); intros n' s' _ _; rewrite select_none; [congruence|reflexivity]|]. split; [intros P; exact (cut_parents _ _ _ _ _ _ _ _ _ P W)|].
    split; [exact (cut_frame H H' x n s ks _ _ _ _ _ _ Y A (incl_refl _) C SE W)|]. split; [exact Ex|]. cbn [n_schema n_kids n_hdr]. split; [reflexivity|]. split; [exact Esx|]. split; [reflexivity|]. split; [constructor|].
    split; [|auto]. pose proof (hangs_intro H' x _ _ [] Ex Esx) as X. cbn [n_kids n_schema n_hdr s_dt s_names] in X. apply X. constructor.
Qed.
Lemma inside_trans : forall H x y z, inside H x y -> inside H y z -> inside H x z.
Proof.
  intros H x y z (t & A & I) (t' & B & J). destruct (hangs_sub H t' z y B J) as (t2 & C & Inc & _). rewrite (hangs_fun _ _ _ _ A C) in I. exists t'. split; [exact B|apply Inc; exact I].
Qed.
Lemma grow_frame : forall H H1 H' x, frame H H1 x -> (forall y t, hangs H1 y t -> ~ In x (ids t) -> hangs H' y t) -> frame H H' x.
Proof. intros H H1 H' x F G y t A N I. apply G; [exact (F y t A N I)|exact N]. Qed.
Lemma name_index_bound : forall k l i, name_index k l = Some i -> i < length l /\ nth_error l i = Some k.
Proof.
  intros k l. induction l as [|a l IH]; intros i E; cbn [name_index] in E; [discriminate E|]. destruct (str_eqb a k) eqn:Q.
  - injection E as <-. apply str_eqb_eq in Q. subst a. cbn. split; [lia|reflexivity].
  - destruct (name_index k l) as [j|] eqn:QJ; [|discriminate E]. cbn in E. injection E as <-. destruct (IH j eq_refl). cbn. split; [lia|assumption].
Qed.
(** the i-th child of [x] is [c], under name [k] *)
Definition named_child (H : heap) (x : nat) (k : str) (c : nat) : Prop :=
  exists n s i, nodes H x = Some n /\ schemas H (n_schema n) = Some s /\ dt_id (s_dt s) = OBJECT /\ nth_error (s_names s) i = Some k /\ nth_error (n_kids n) i = Some c.
Lemma find_ok : forall H x n s k, sync H -> nodes H x = Some n -> schemas H (n_schema n) = Some s ->
  (find_child H x k = Ok None) \/ (exists c, find_child H x k = Ok (Some c) /\ named_child H x k c).
Proof.
  intros H x n s k Y En Es. unfold find_child, nget, sget. rewrite En. cbn [obind]. rewrite Es. cbn [obind]. destruct (tid_eqb (dt_id (s_dt s)) OBJECT) eqn:T; [|auto]. assert (T' : dt_id (s_dt s) = OBJECT) by (destruct (dt_id (s_dt s)); try discriminate T; reflexivity).
  destruct (name_index k (s_names s)) as [i|] eqn:Q; [|auto]. right. destruct (name_index_bound _ _ _ Q) as (L & N). rewrite (sy_names H Y _ _ Es T') in L. destruct (sy_node H Y x n En) as (s' & Es' & Lk & _). assert (s' = s) by congruence. subst s'.
  destruct (nth_error (n_kids n) i) as [c|] eqn:Qc; [|apply nth_error_None in Qc; lia]. exists c. split; [reflexivity|]. exists n, s, i. auto.
Qed.
(** what a child operation guarantees *)
Definition child_result (H H' : heap) (x : nat) : Prop := good H' /\ (parents_right H -> parents_right H') /\ frame H H' x /\ exists n, nodes H' x = Some n.
Lemma hangs_node : forall H x t, hangs H x t -> exists n, nodes H x = Some n.
Proof. intros H x t A. inversion A; subst. eauto. Qed.
Lemma fetch_good : forall H x n k, good H -> nodes H x = Some n -> exists H' c, hfetch H x k = Ok (H', c) /\ child_result H H' x /\ named_child H' x k c.
Proof.
  intros H x n k G En. destruct (init_good H x n dt_object G En eq_refl) as (H1 & n1 & s1 & ks1 & E1 & G1 & P1 & F1 & En1 & Sn1 & Es1 & T1 & Fk1 & A1 & Nx1 & _). pose proof G1 as (Y1 & _ & _). cbn in T1.
  unfold hfetch. rewrite E1. cbn [obind]. destruct (find_ok H1 x n1 s1 k Y1 En1 Es1) as [Q|(c & Q & N)]; rewrite Q; cbn [obind].
  - destruct (new_child_ok H1 x n1 s1 ks1 [k] G1 En1 Es1 Fk1 A1 (or_introl (conj T1 eq_refl))) as (H2 & E2 & G2 & P2 & A2 & F2 & _). exists H2, (next H1). split; [exact E2|]. split.
    + split; [exact G2|]. split; [auto|]. split; [exact (grow_frame H H1 H2 x F1 F2)|]. exact (hangs_node _ _ _ A2).
    + destruct (hangs_view _ _ _ _ _ _ _ _ A2) as (n2 & s2 & En2 & Sn2 & _ & Es2 & Ed2 & Em2 & Fk2). exists n2, s2, (length ks1). split; [exact En2|]. split; [rewrite Sn2; exact Es2|].
      assert (Ln : length (s_names s1) = length ks1). { rewrite (sy_names H1 Y1 _ _ Es1 T1). rewrite (kid_schemas H1 x n1 s1 ks1 Y1 En1 Es1 Fk1). apply map_length. }
      split; [rewrite Ed2; exact T1|]. rewrite Em2. split; [rewrite <- Ln; rewrite nth_error_app2 by lia; rewrite Nat.sub_diag; reflexivity|].
      assert (X : nth_error (ks1 ++ [OT (next H1) (next H1) null_hdr dt_empty [] []]) (length ks1) = Some (OT (next H1) (next H1) null_hdr dt_empty [] [])) by (rewrite nth_error_app2 by lia; rewrite Nat.sub_diag; reflexivity).
      destruct (F2_nth_r _ _ _ _ _ Fk2 X) as (c & Ec & Rc). assert (Qc : c = next H1) by (inversion Rc; congruence). rewrite Qc in Ec. exact Ec.
  - exists H1, c. split; [reflexivity|]. split; [split; [exact G1|]; split; [exact P1|]; split; [exact F1|eauto]|exact N].
Qed.
(** [x] is a list whose last child is the new node [c] *)
Lemma append_good : forall H x n, good H -> nodes H x = Some n -> exists H' c n', happend H x = Ok (H', c) /\ child_result H H' x /\ nodes H' x = Some n' /\ (exists l, n_kids n' = l ++ [c]) /\ content H' c (CT null_hdr dt_empty [] []).
Proof.
  intros H x n G En. destruct (init_good H x n dt_list G En eq_refl) as (H1 & n1 & s1 & ks1 & E1 & G1 & P1 & F1 & En1 & Sn1 & Es1 & T1 & Fk1 & A1 & Nx1 & _). cbn in T1.
  unfold happend. rewrite E1. cbn [obind]. destruct (new_child_ok H1 x n1 s1 ks1 [] G1 En1 Es1 Fk1 A1 (or_intror (conj T1 eq_refl))) as (H2 & E2 & G2 & P2 & A2 & F2 & _).
  destruct (hangs_view _ _ _ _ _ _ _ _ A2) as (n2 & s2 & En2 & Sn2 & _ & Es2 & Ed2 & Em2 & Fk2). exists H2, (next H1), n2. split; [exact E2|].
  split; [split; [exact G2|]; split; [auto|]; split; [exact (grow_frame H H1 H2 x F1 F2)|eauto]|]. split; [exact En2|].
  apply Forall2_app_inv_r in Fk2. destruct Fk2 as (l & l2 & Fa & Fb & Q). inversion Fb as [|c ? l3 ? R Fc]; subst. inversion Fc; subst. assert (Qc : c = next H1) by (inversion R; congruence). subst c. split; [eauto|]. eexists. split; [exact R|reflexivity].
Qed.
Lemma add_child_good : forall H x n k, good H -> nodes H x = Some n -> (forall s, schemas H (n_schema n) = Some s -> dt_id (s_dt s) = OBJECT \/ n_kids n = []) ->
  exists H' c, hadd_child H x k = Ok (H', c) /\ child_result H H' x /\ named_child H' x k c.
Proof.
  intros H x n k G En Safe. pose proof G as (Y & _ & _). destruct (view H x n G En) as (s & ks & Es & Fk & A). specialize (Safe s Es).
  unfold hadd_child. destruct (find_ok H x n s k Y En Es) as [Q|(c & Q & N)]; rewrite Q; cbn [obind].
  2: { exists H, c. split; [reflexivity|]. split; [split; [exact G|]; split; [auto|]; split; [intros y t B _ _; exact B|eauto]|exact N]. }
  unfold nget, sget. rewrite En. cbn [obind]. rewrite Es. cbn [obind].
  assert (St : exists H1 n1 s1 ks1, (if tid_eqb (dt_id (s_dt s)) OBJECT then Ok H else set_schema (next H) H (n_schema n) dt_object) = Ok H1 /\ good H1 /\ (parents_right H -> parents_right H1) /\ frame H H1 x /\
     nodes H1 x = Some n1 /\ schemas H1 (n_schema n1) = Some s1 /\ dt_id (s_dt s1) = OBJECT /\ Forall2 (hangs H1) (n_kids n1) ks1 /\ hangs H1 x (OT x (n_schema n1) (n_hdr n1) (s_dt s1) (s_names s1) ks1)).
  { destruct (tid_eqb (dt_id (s_dt s)) OBJECT) eqn:T.
    - exists H, n, s, ks. split; [reflexivity|]. split; [exact G|]. split; [auto|]. split; [intros y t B _ _; exact B|]. split; [exact En|]. split; [exact Es|]. split; [destruct (dt_id (s_dt s)); try discriminate T; reflexivity|auto].
    - destruct Safe as [X|Kn]; [rewrite X in T; discriminate T|]. assert (ks = []) by (rewrite Kn in Fk; inversion Fk; reflexivity). subst ks.
      destruct (set_schema_ok H H x n s [] dt_object Y En Es A Fk eq_refl) as (H1 & E1 & B1 & C1 & Sx & Os). cbn [map concat] in Os.
      assert (W : cut H H1 x (mask_none (n_kids n)) (concat (map ids [])) (concat (map sids [])) (n_hdr n) dt_object []).
      { exists n, s. split; [exact En|]. split; [exact Es|]. rewrite !select_none. split; [rewrite B1, En; rewrite <- Kn; destruct n; reflexivity|]. split; [exact Sx|]. split; [intros y _; rewrite B1; reflexivity|]. split; [exact Os|exact C1]. }
      pose proof (none_cutset H x n s [] Y En A Fk) as C. pose proof (concat_sids_of H _ [] Fk) as SE.
      exists H1, n, (mkS (s_parent s) dt_object [] []), []. split; [exact E1|]. split; [apply (cut_good _ _ _ _ _ _ _ _ _ G C SE W); intros n' s' _ _; rewrite select_none; [congruence|reflexivity]|].
      split; [intros P; exact (cut_parents _ _ _ _ _ _ _ _ _ P W)|]. split; [exact (cut_frame H H1 x n s [] _ _ _ _ _ _ Y A (incl_refl _) C SE W)|]. assert (En1 : nodes H1 x = Some n) by (rewrite B1; exact En). split; [exact En1|]. split; [exact Sx|]. split; [reflexivity|].
      rewrite Kn. split; [constructor|]. pose proof (hangs_intro H1 x n _ [] En1 Sx) as X. rewrite Kn in X. apply X. constructor. }
  destruct St as (H1 & n1 & s1 & ks1 & E1 & G1 & P1 & F1 & En1 & Es1 & T1 & Fk1 & A1). rewrite E1. cbn [obind]. pose proof G1 as (Y1 & _ & _).
  destruct (new_child_ok H1 x n1 s1 ks1 [k] G1 En1 Es1 Fk1 A1 (or_introl (conj T1 eq_refl))) as (H2 & E2 & G2 & P2 & A2 & F2 & _). exists H2, (next H1). split; [exact E2|]. split.
  - split; [exact G2|]. split; [auto|]. split; [exact (grow_frame H H1 H2 x F1 F2)|]. exact (hangs_node _ _ _ A2).
  - destruct (hangs_view _ _ _ _ _ _ _ _ A2) as (n2 & s2 & En2 & Sn2 & _ & Es2 & Ed2 & Em2 & Fk2). exists n2, s2, (length ks1). split; [exact En2|]. split; [rewrite Sn2; exact Es2|].
    assert (Ln : length (s_names s1) = length ks1). { rewrite (sy_names H1 Y1 _ _ Es1 T1). rewrite (kid_schemas H1 x n1 s1 ks1 Y1 En1 Es1 Fk1). apply map_length. }
    split; [rewrite Ed2; exact T1|]. rewrite Em2. split; [rewrite <- Ln; rewrite nth_error_app2 by lia; rewrite Nat.sub_diag; reflexivity|].
    assert (X : nth_error (ks1 ++ [OT (next H1) (next H1) null_hdr dt_empty [] []]) (length ks1) = Some (OT (next H1) (next H1) null_hdr dt_empty [] [])) by (rewrite nth_error_app2 by lia; rewrite Nat.sub_diag; reflexivity).
    destruct (F2_nth_r _ _ _ _ _ Fk2 X) as (c & Ec & Rc). assert (Qc : c = next H1) by (inversion Rc; congruence). rewrite Qc in Ec. exact Ec.
Qed.
Lemma F2_erase : forall {A B} (R : A -> B -> Prop) l l' i, Forall2 R l l' -> Forall2 R (erase_nth l i) (erase_nth l' i).
Proof. intros A B R l l' i F. revert i. induction F as [|a b l l' Hab F IH]; intros [|i]; cbn; try constructor; auto. Qed.
Lemma erase_in : forall {A} (l : list A) i x, In x (erase_nth l i) -> exists j, j <> i /\ nth_error l j = Some x.
Proof.
  intros A. induction l as [|a l IH]; intros i x I; [destruct i; destruct I|]. destruct i as [|i]; cbn [erase_nth] in I.
  - destruct (In_nth_error _ _ I) as (j & Ej). exists (S j). split; [lia|exact Ej].
  - destruct I as [->|I]; [exists 0; split; [lia|reflexivity]|]. destruct (IH i x I) as (j & N & Ej). exists (S j). split; [lia|exact Ej].
Qed.
(** the node without its i-th child *)
Definition without (c : ctree) (i : nat) : ctree :=
  match c with CT h d nm ks => CT h d (if tid_eqb (dt_id d) OBJECT then erase_nth nm i else nm) (erase_nth ks i) end.
Lemma erase_map : forall {A B} (f : A -> B) l i, map f (erase_nth l i) = erase_nth (map f l) i.
Proof. intros A B f. induction l as [|a l IH]; intros [|i]; cbn; auto. f_equal. apply IH. Qed.
Lemma remove_good : forall H x n i c, good H -> nodes H x = Some n -> i < length (n_kids n) -> content H x c ->
  exists H', hremove H x i = Ok H' /\ child_result H H' x /\ content H' x (without c i).
Proof.
  intros H x n i c G En Li (t0 & A0 & S0). pose proof G as (Y & _ & _). destruct (view H x n G En) as (s & ks & Es & Fk & A). rewrite (hangs_fun _ _ _ _ A0 A) in S0. cbn [seen] in S0.
  assert (Ex : exists t, nth_error ks i = Some t). { destruct (nth_error ks i) eqn:Q; [eauto|]. apply nth_error_None in Q. clear - Fk Li Q. exfalso. assert (length (n_kids n) = length ks); [|lia]. clear - Fk. induction Fk; cbn; congruence. }
  destruct Ex as (t & Et). destruct (hremove_ok H x n s ks i t Y En Es A Fk Et) as (H' & E & C & W). destruct (F2_nth_r _ _ _ _ _ Fk Et) as (k & Ek & Rk).
  assert (SE : schemas_of H (ids t) (sids t)) by (intros q; exact (sids_ids H t k q Rk)). destruct (sy_node H Y x n En) as (s' & Es' & L & Kx & _). assert (s' = s) by congruence. subst s'.
  assert (Tr : is_tree_type (dt_id (s_dt s)) = true). { apply (sy_kind H Y _ _ Es). intros X. rewrite X in L. cbn in L. lia. }
  assert (Inc : incl (ids t) (concat (map ids ks))) by (intros z I; apply in_ids_kids; exists t; split; [eapply nth_error_In; eauto|exact I]).
  assert (G' : good H').
  { apply (cut_good _ _ _ _ _ _ _ _ _ G C SE W); intros n' s2 En' Es2; assert (n' = n) by congruence; subst n'; assert (s2 = s) by congruence; subst s2; [auto|]. intros T. rewrite T, tid_eqb_refl. rewrite select_but by exact L. pose proof (sy_names H Y _ _ Es T) as LN. rewrite !erase_len by lia. lia. }
  exists H'. split; [exact E|]. split.
  - split; [exact G'|]. split; [intros P; exact (cut_parents _ _ _ _ _ _ _ _ _ P W)|]. split; [exact (cut_frame H H' x n s ks _ _ _ _ _ _ Y A Inc C SE W)|]. destruct W as (n1 & s1 & _ & _ & Ex & _). eauto.
  - pose proof W as (n1 & s1 & En1 & Es1 & Ex & Esx & _). assert (n1 = n) by congruence. subst n1. assert (s1 = s) by congruence. subst s1. rewrite select_but in Ex by reflexivity. rewrite select_but in Esx by exact L.
    assert (Fk' : Forall2 (hangs H') (erase_nth (n_kids n) i) (erase_nth ks i)).
    { pose proof (no_cycle _ _ _ _ _ A Fk) as NC.
      assert (K1 : forall j k' t', nth_error (n_kids n) j = Some k' -> nth_error ks j = Some t' -> hangs H k' t' -> j <> i -> hangs H' k' t').
      { intros j k' t' Ej Etj Rj Ne. apply (cut_keep H H' x _ _ _ _ _ _ k' t' Y C SE W Rj); [intros I; apply NC; apply in_ids_kids; exists t'; split; [eapply nth_error_In; eauto|exact I]|].
        intros I. apply Ne. exact (kid_trees_apart H x n s ks j i t' t k' Y A En Fk Etj Et (hangs_root _ _ _ Rj) I). }
      clear - Fk K1. revert i K1. induction Fk as [|a b l l' R F IH]; intros i K1; [destruct i; constructor|]. destruct i as [|i]; cbn [erase_nth].
      - assert (K2 : forall j k' t', nth_error l j = Some k' -> nth_error l' j = Some t' -> hangs H k' t' -> hangs H' k' t') by (intros j k' t' E1 E2 R'; apply (K1 (S j) k' t'); auto).
        clear - F K2. induction F as [|a b l l' R F IH]; constructor; [apply (K2 0 a b); auto|]. apply IH. intros j k' t' E1 E2 R'. apply (K2 (S j)); auto.
      - constructor; [apply (K1 0 a b); auto|]. apply IH. intros j k' t' E1 E2 R' N. apply (K1 (S j)); auto. }
    pose proof (hangs_intro H' x _ _ _ Ex Esx Fk') as X. eexists. split; [exact X|]. cbn [seen s_dt s_names n_hdr]. subst c. cbn [without]. rewrite erase_map. reflexivity.
Qed.

(** ---- swap and move ---- *)
Lemma swap_good : forall H a b na nb, good H -> a <> b -> nodes H a = Some na -> nodes H b = Some nb -> apart H a b -> ~ comes_before H a b ->
  exists H', hswap H a b = Ok H' /\ swapped H H' a b na nb /\ good H' /\
    (forall c, content H a c -> content H' b c) /\ (forall c, content H b c -> content H' a c) /\
    (forall y t, hangs H y t -> ~ In a (ids t) -> ~ In b (ids t) -> hangs H' y t).
Proof.
  intros H a b na nb G Nab Ea Eb (Ap1 & Ap2) NB. pose proof G as (Y & F & U). destruct (swap_ok H a b na nb Y Nab Ea Eb NB) as (H' & E & W). pose proof (swap_sync H H' a b na nb Y Nab Ea Eb W) as Y'.
  destruct (F a na Ea) as (ta & Ha). destruct (F b nb Eb) as (tb & Hb). assert (N1 : ~ In a (ids tb)) by (intros I; apply Ap1; exists tb; auto). assert (N2 : ~ In b (ids ta)) by (intros I; apply Ap2; exists ta; auto).
  destruct (swap_takes H H' a b na nb ta tb Nab Ea Eb W Ha Hb N1 N2) as (ta' & tb' & Ha' & Hb' & Sa & Sb).
  assert (Keep : forall y t, hangs H y t -> ~ In a (ids t) -> ~ In b (ids t) -> hangs H' y t).
  { intros y t A Na Nb. pose proof W as (_ & _ & O & _). apply (hangs_keep H H' t y A); [intros z I; apply O; intros ->; auto|]. intros s o Es _. exact (swapped_schema_data H H' a b na nb s o W Es). }
  exists H'. split; [exact E|]. split; [exact W|]. split; [|split; [|split; [|exact Keep]]].
  - split; [exact Y'|]. split.
    + assert (Gr : forall t y, hangs H y t -> exists t', hangs H' y t').
      { induction t as [x0 s0 h d nm ks IH] using otree_ind'; intros y A. inversion A as [x1 n s ks1 En Es Fk]; subst. destruct (Nat.eq_dec x0 a) as [->|Na]; [eauto|]. destruct (Nat.eq_dec x0 b) as [->|Nb]; [eauto|].
        pose proof W as (_ & _ & O & _). destruct (swapped_schema_data H H' a b na nb _ _ W Es) as (o' & Eo' & _). rewrite Forall_forall in IH.
        assert (Ex2 : exists ts, Forall2 (hangs H') (n_kids n) ts).
        { clear - Fk IH. induction Fk as [|k t l ts R Fm IHF]; [exists []; constructor|]. destruct (IH t (or_introl eq_refl) k R) as (t' & Ht). destruct IHF as (ts' & Hts); [intros t0 I; apply IH; right; exact I|]. exists (t' :: ts'). constructor; assumption. }
        destruct Ex2 as (ts & Hts). eexists. apply (hangs_intro H' x0 n o' ts); [rewrite O by assumption; exact En|exact Eo'|exact Hts]. }
      intros y n E'. destruct (Nat.eq_dec y a) as [->|Na]; [eauto|]. destruct (Nat.eq_dec y b) as [->|Nb]; [eauto|]. pose proof W as (_ & _ & O & _). rewrite O in E' by assumption. destruct (F y n E') as (t & A). exact (Gr t y A).
    + intros s o E'. pose proof W as (A' & B' & O & _ & Ss & Sn). destruct (schemas H s) as [o0|] eqn:Es; [|rewrite (Sn s Es) in E'; discriminate E']. destruct (U s o0 Es) as (y & n & Ey & Sy).
      destruct (Nat.eq_dec y a) as [->|Na]; [exists b; eexists; split; [exact B'|]; cbn; congruence|]. destruct (Nat.eq_dec y b) as [->|Nb]; [exists a; eexists; split; [exact A'|]; cbn; congruence|]. exists y, n. rewrite O by assumption. auto.
  - intros c (t & A & S0). rewrite (hangs_fun _ _ _ _ A Ha) in S0. exists ta'. split; [exact Hb'|congruence].
  - intros c (t & A & S0). rewrite (hangs_fun _ _ _ _ A Hb) in S0. exists tb'. split; [exact Ha'|congruence].
Qed.
(** the same heap, object by object *)
Definition same_heap (H H' : heap) : Prop := (forall x, nodes H x = nodes H' x) /\ (forall s, schemas H s = schemas H' s) /\ next H = next H'.
Lemma swap_before : forall H H' a b na nb, sync H -> a <> b -> nodes H a = Some na -> nodes H b = Some nb -> swapped H H' a b na nb -> comes_before H' a b -> comes_before H a b.
Proof.
  intros H H' a b na nb Y Nab Ea Eb (A & B & O & _ & Ss & Sn) (na' & nb' & q & qo & i & j & Ea' & Eb' & Eq & Ei & Ej & L). assert (Ea0 : na' = mkN (n_schema nb) (n_owns na) (n_parent na) (n_kids nb) (n_hdr nb)) by congruence. assert (Eb0 : nb' = mkN (n_schema na) (n_owns nb) (n_parent nb) (n_kids na) (n_hdr na)) by congruence. subst na' nb'. cbn [n_schema] in *.
  destruct (schemas H q) as [q0|] eqn:Eq0; [|rewrite (Sn q Eq0) in Eq; discriminate Eq]. destruct (Ss q q0 Eq0) as (o' & _ & Eq'). rewrite Eq' in Eq. injection Eq as <-. cbn [s_kids] in Ei, Ej. rewrite nth_error_map in Ei, Ej.
  exists na, nb, q, q0, i, j. split; [exact Ea|]. split; [exact Eb|]. split; [exact Eq0|].
  destruct (nth_error (s_kids q0) i) as [u|] eqn:Qi; [|discriminate Ei]. destruct (nth_error (s_kids q0) j) as [v|] eqn:Qj; [|discriminate Ej]. cbn in Ei, Ej. injection Ei as Ei. injection Ej as Ej.
  split; [f_equal; apply (sw_inj (n_schema na) (n_schema nb)); rewrite Ei, sw_l; reflexivity|]. split; [f_equal; apply (sw_inj (n_schema na) (n_schema nb)); rewrite Ej, sw_r; reflexivity|exact L].
Qed.
Lemma swap_twice : forall H a b na nb, good H -> a <> b -> nodes H a = Some na -> nodes H b = Some nb -> ~ comes_before H a b ->
  exists H1 H2, hswap H a b = Ok H1 /\ hswap H1 a b = Ok H2 /\ same_heap H H2.
Proof.
  intros H a b na nb G Nab Ea Eb NB. pose proof G as (Y & F & U). destruct (swap_ok H a b na nb Y Nab Ea Eb NB) as (H1 & E1 & W1). pose proof (swap_sync H H1 a b na nb Y Nab Ea Eb W1) as Y1.
  pose proof W1 as (A1 & B1 & O1 & N1 & S1 & Z1). destruct (swap_ok H1 a b _ _ Y1 Nab A1 B1) as (H2 & E2 & W2); [intros X; apply NB; exact (swap_before H H1 a b na nb Y Nab Ea Eb W1 X)|].
  exists H1, H2. split; [exact E1|]. split; [exact E2|]. destruct W2 as (A2 & B2 & O2 & N2 & S2 & Z2). cbn [n_schema n_owns n_parent n_kids n_hdr] in *. split; [|split; [|congruence]].
  - intros x. destruct (Nat.eq_dec x a) as [->|Na]; [rewrite A2, Ea; destruct na; reflexivity|]. destruct (Nat.eq_dec x b) as [->|Nb]; [rewrite B2, Eb; destruct nb; reflexivity|]. rewrite O2, O1 by assumption. reflexivity.
  - intros s. destruct (schemas H s) as [o|] eqn:Es; [|rewrite (Z2 s (Z1 s Es)); reflexivity].
    destruct (S1 s o Es) as (o' & Et & E'). destruct (S2 s _ E') as (o2 & Et2 & E2'). cbn [s_dt s_names s_kids] in E2'. rewrite E2'. set (t := sw (n_schema na) (n_schema nb)) in *.
    assert (Cm : forall z, sw (n_schema nb) (n_schema na) z = t z). { intros z. unfold t, sw. destruct (Nat.eqb_spec z (n_schema nb)), (Nat.eqb_spec z (n_schema na)); congruence. }
    rewrite Cm in Et2. destruct (S1 (t s) o' Et) as (o3 & Et3 & E3). rewrite E3 in Et2. injection Et2 as <-. unfold t in Et3. rewrite sw_sw in Et3. assert (o3 = o) by congruence. subst o3. cbn [s_parent]. f_equal. destruct o as [op od onm oks]. cbn [s_parent s_dt s_names s_kids]. f_equal.
    rewrite map_map. rewrite <- (map_id oks) at 1. apply map_ext. intros z. rewrite Cm. unfold t. rewrite sw_sw. reflexivity.
Qed.
Lemma move_good : forall H a b na nb, good H -> a <> b -> nodes H a = Some na -> nodes H b = Some nb -> apart H a b -> ~ comes_before H a b ->
  exists H', hmove H a b = Ok H' /\ good H' /\ (forall c, content H b c -> content H' a c) /\ (exists h, content H' b (CT h dt_empty [] [])) /\
    (forall y t, hangs H y t -> ~ In a (ids t) -> ~ In b (ids t) -> ~ inside H y a -> hangs H' y t).
Proof.
  intros H a b na nb G Nab Ea Eb Ap NB. pose proof G as (Y & F & U). destruct (view H a na G Ea) as (sa & ksa & Esa & Fka & Ha). destruct (view H b nb G Eb) as (sb & ksb & Esb & Fkb & Hb). pose proof Ap as (Ap1 & Ap2).
  destruct (reset_good H a na sa ksa G Ea Esa Fka Ha) as (H1 & E1 & G1 & P1 & F1 & A1 & W). pose proof W as (n & s & En & Es & Enx & Esx & On & Os & Nx). assert (n = na) by congruence. subst n. rewrite !select_none in *.
  assert (Nb : ~ In a (ids (OT b (n_schema nb) (n_hdr nb) (s_dt sb) (s_names sb) ksb))) by (intros I; apply Ap1; eexists; split; [exact Hb|exact I]).
  pose proof (F1 b _ Hb Nb Ap2) as Hb1. pose proof G1 as (Y1 & _ & _).
  assert (Eb1 : nodes H1 b = Some nb). { rewrite On by auto. destruct (in_dec Nat.eq_dec b (concat (map ids ksa))) as [I|I]; [|exact Eb]. exfalso. apply Ap2. eexists. split; [exact Ha|]. cbn [ids]. right. exact I. }
  assert (Ap' : apart H1 a b). { split; [intros (t & A & I); rewrite (hangs_fun _ _ _ _ A Hb1) in I; contradiction|]. intros (t & A & I). rewrite (hangs_fun _ _ _ _ A A1) in I. cbn in I. destruct I as [I|[]]. congruence. }
  assert (NB' : ~ comes_before H1 a b).
  { intros (na' & nb' & q & qo & i & j & Ea' & Eb' & Eq & Ei & Ej & L). apply NB. destruct (Nat.eq_dec q (n_schema na)) as [->|Nq]; [rewrite Esx in Eq; injection Eq as <-; destruct i; discriminate Ei|].
    rewrite (Os q Nq) in Eq. destruct (in_dec Nat.eq_dec q (concat (map sids ksa))); [discriminate Eq|]. exists na, nb, q, qo, i, j. split; [exact Ea|]. split; [exact Eb|]. split; [exact Eq|]. rewrite Enx in Ea'. injection Ea' as <-. assert (nb' = nb) by congruence. subst nb'. auto. }
  destruct (swap_good H1 a b _ nb G1 Nab Enx Eb1 Ap' NB') as (H2 & E2 & W2 & G2 & C1 & C2 & K2). exists H2. unfold hmove. rewrite E1. cbn [obind]. split; [exact E2|]. split; [exact G2|]. split; [|split].
  - intros c (t & A & S0). apply C2. exists t. split; [|exact S0]. rewrite (hangs_fun _ _ _ _ A Hb). exact Hb1.
  - eexists. apply C1. eexists. split; [exact A1|]. reflexivity.
  - intros y t A Na Nb' NI. apply K2; [exact (F1 y t A Na NI)|exact Na|exact Nb'].
Qed.

(** ---- deleting a whole tree ---- *)
Lemma drop_leaf_good : forall H H' x n s, good H -> nodes H x = Some n -> schemas H (n_schema n) = Some s -> n_parent n = None -> n_kids n = [] ->
  (forall y, nodes H' y = if Nat.eq_dec y x then None else nodes H y) -> (forall y, schemas H' y = if Nat.eq_dec y (n_schema n) then None else schemas H y) -> next H' = next H -> good H'.
Proof.
  intros H H' x n s (Y & F & U) En Es Pn Kn On Os Nx. destruct (sy_node H Y x n En) as (s' & Es' & L & _ & Px & _). assert (s' = s) by congruence. subst s'. assert (Sk : s_kids s = []) by (rewrite Kn in L; destruct (s_kids s); [reflexivity|discriminate L]). assert (Sp : s_parent s = None) by (apply Px; exact Pn).
  assert (Ln : forall y m, nodes H' y = Some m -> y <> x /\ nodes H y = Some m) by (intros y m E; rewrite On in E; destruct (Nat.eq_dec y x); [discriminate E|auto]).
  assert (Ls : forall y m, schemas H' y = Some m -> y <> n_schema n /\ schemas H y = Some m) by (intros y m E; rewrite Os in E; destruct (Nat.eq_dec y (n_schema n)); [discriminate E|auto]).
  assert (Kpn : forall y m, y <> x -> nodes H y = Some m -> nodes H' y = Some m) by (intros y m N E; rewrite On; destruct (Nat.eq_dec y x); [congruence|exact E]).
  assert (Kps : forall y m, y <> n_schema n -> schemas H y = Some m -> schemas H' y = Some m) by (intros y m N E; rewrite Os; destruct (Nat.eq_dec y (n_schema n)); [congruence|exact E]).
  assert (NoKid : forall q o, schemas H q = Some o -> ~ In (n_schema n) (s_kids o)). { intros q o E I. destruct (sy_down H Y q o _ E I) as (co & Ec & Pc). congruence. }
  assert (Y' : sync H').
  { constructor.
    - intros y m E. destruct (Ln y m E) as (N & E0). destruct (sy_node H Y y m E0) as (o & Eo & Lk & K & P & O). exists o. split; [apply Kps; [intros X; apply N; exact (sy_own H Y y x m n E0 En X)|exact Eo]|]. split; [exact Lk|]. split; [|auto].
      intros i k Ei. destruct (K i k Ei) as (nk & Ek & Sk'). exists nk. split; [|exact Sk']. apply Kpn; [|exact Ek]. intros ->. apply (NoKid _ _ Eo). assert (nk = n) by congruence. subst nk. eapply nth_error_In; eauto.
    - intros y z m m' Ey Ez. destruct (Ln y m Ey), (Ln z m' Ez). apply (sy_own H Y); assumption.
    - intros q o c E I. destruct (Ls q o E) as (N & E0). destruct (sy_down H Y q o c E0 I) as (co & Ec & Pc). exists co. split; [|exact Pc]. apply Kps; [intros ->; exact (NoKid q o E0 I)|exact Ec].
    - intros c o q E P. destruct (Ls c o E) as (N & E0). destruct (sy_up H Y c o q E0 P) as (qo & Eq & I). exists qo. split; [|exact I]. apply Kps; [|exact Eq]. intros ->. assert (qo = s) by congruence. subst qo. rewrite Sk in I. destruct I.
    - intros q o E. destruct (Ls q o E) as (_ & E0). exact (sy_once H Y q o E0).
    - intros q o E. destruct (Ls q o E) as (_ & E0). exact (sy_kind H Y q o E0).
    - intros q o E. destruct (Ls q o E) as (_ & E0). exact (sy_names H Y q o E0).
    - intros y m E. destruct (Ln y m E) as (_ & E0). rewrite Nx. exact (sy_new_n H Y y m E0).
    - intros y m E. destruct (Ls y m E) as (_ & E0). rewrite Nx. exact (sy_new_s H Y y m E0). }
  split; [exact Y'|]. split.
  - apply (finite_shrink H H' Y' F). intros y m E. destruct (Ln y m E) as (_ & E0). exists m. split; [exact E0|apply incl_refl].
  - intros q o E. destruct (Ls q o E) as (N & E0). destruct (U q o E0) as (y & m & Ey & Sy). exists y, m. split; [|exact Sy]. apply Kpn; [intros ->; apply N; congruence|exact Ey].
Qed.
(** deleting a root takes exactly its tree away *)
Lemma delete_ok : forall H x n t, good H -> nodes H x = Some n -> n_parent n = None -> hangs H x t -> exists H', hdelete H x = Ok H' /\ good H' /\ (parents_right H -> parents_right H') /\
  (forall y, nodes H' y = if in_dec Nat.eq_dec y (ids t) then None else nodes H y) /\ (forall y, schemas H' y = if in_dec Nat.eq_dec y (sids t) then None else schemas H y) /\ next H' = next H.
Proof.
  intros H x n t G En Pn A. pose proof G as (Y & F & U). inversion A as [x1 n1 s ks En1 Es Fk]; subst. assert (n1 = n) by congruence. subst n1. clear En1.
  pose proof (ids_nodup H _ x Y A) as N. pose proof (ids_bound H _ x Y A) as B. pose proof (sids_nodup H _ x Y A) as NS. pose proof (sids_len H _ x A) as LS. cbn [ids length] in N, B. inversion N as [|? ? N1 N2]; subst.
  destruct (delete_nodes_ok (next H) (delete_node_ok (next H)) ks (n_kids n) H Fk) as (H1 & E1 & (A1 & B1 & C1)); [|exact N2|lia|].
  { intros y ny I Ey. apply (below_not_owner H _ x y ny Y A); [right; exact I|intros ->; contradiction|exact Ey]. }
  destruct (sy_node H Y x n En) as (s' & Es' & _ & _ & Px & Ox). assert (s' = s) by congruence. subst s'. assert (Ow : n_owns n = true) by (apply Ox, Px, Pn).
  destruct (delete_schema_ok H Y (next H) _ H1 x A) as (H2 & E2 & (A2 & B2 & C2)); [intros q _; rewrite B1; reflexivity|exact NS|rewrite LS; cbn [ids length]; lia|]. cbn [root_s] in E2.
  unfold hdelete. cbn [delete_node]. unfold nget. rewrite En. cbn [obind]. rewrite E1. cbn [obind]. rewrite Ow, E2. cbn [obind]. eexists. split; [reflexivity|]. set (H' := put_node H2 x None).
  assert (Fn : forall y, nodes H' y = if in_dec Nat.eq_dec y (x :: concat (map ids ks)) then None else nodes H y).
  { intros y. unfold H', put_node, upd. cbn [nodes]. destruct (Nat.eqb_spec y x) as [->|Ne]; [destruct (in_dec Nat.eq_dec x (x :: concat (map ids ks))) as [|X]; [reflexivity|exfalso; apply X; left; reflexivity]|].
    rewrite B2, A1. destruct (in_dec Nat.eq_dec y (concat (map ids ks))), (in_dec Nat.eq_dec y (x :: concat (map ids ks))) as [I|I]; cbn [In] in *; try reflexivity; [exfalso; apply I; auto|destruct I; [congruence|contradiction]]. }
  assert (Fs : forall y, schemas H' y = if in_dec Nat.eq_dec y (n_schema n :: concat (map sids ks)) then None else schemas H y).
  { intros y. unfold H', put_node. cbn [schemas]. rewrite A2, B1. reflexivity. }
  assert (Nx : next H' = next H) by (unfold H', put_node; cbn [next]; congruence).
  split; [|split; [|split; [exact Fn|split; [exact Fs|exact Nx]]]].
  - destruct (reset_good H x n s ks G En Es Fk A) as (HR & ER & GR & _ & _ & AR & WR). destruct WR as (n2 & s2 & En2 & Es2 & ExR & EsR & OnR & OsR & NxR). assert (n2 = n) by congruence. subst n2. rewrite !select_none in *.
    apply (drop_leaf_good HR H' x _ _ GR ExR EsR Pn eq_refl); [| |congruence].
    + intros y. rewrite Fn. destruct (Nat.eq_dec y x) as [->|Ne]; [destruct (in_dec Nat.eq_dec x (x :: concat (map ids ks))) as [|X]; [reflexivity|exfalso; apply X; left; reflexivity]|]. rewrite OnR by exact Ne.
      destruct (in_dec Nat.eq_dec y (concat (map ids ks))), (in_dec Nat.eq_dec y (x :: concat (map ids ks))) as [I|I]; cbn [In] in *; try reflexivity; [exfalso; apply I; auto|destruct I; [congruence|contradiction]].
    + cbn [n_schema]. intros y. rewrite Fs. destruct (Nat.eq_dec y (n_schema n)) as [->|Ne]; [destruct (in_dec Nat.eq_dec (n_schema n) (n_schema n :: concat (map sids ks))) as [|X]; [reflexivity|exfalso; apply X; left; reflexivity]|]. rewrite OsR by exact Ne.
      destruct (in_dec Nat.eq_dec y (concat (map sids ks))), (in_dec Nat.eq_dec y (n_schema n :: concat (map sids ks))) as [I|I]; cbn [In] in *; try reflexivity; [exfalso; apply I; auto|destruct I; [congruence|contradiction]].
  - intros P y m k mk Ey Ik Ek. rewrite Fn in Ey, Ek. destruct (in_dec Nat.eq_dec y _); [discriminate Ey|]. destruct (in_dec Nat.eq_dec k _); [discriminate Ek|]. exact (P y m k mk Ey Ik Ek).
Qed.

(** ---- histories ---- *)
Definition live (H : heap) (x : nat) : Prop := exists n, nodes H x = Some n.
(** the calls that keep to the rules: nodes in use, index in range, only roots deleted,
    add_child not on a list with children, swap and move of nodes neither of which is
    inside the other, and not of an earlier with a later child of one node *)
Definition allowed (H : heap) (o : op) : Prop :=
  match o with
  | New => True
  | Delete x => exists n, nodes H x = Some n /\ n_parent n = None
  | Fetch x _ | Append x | Reset x => live H x
  | AddChild x _ => exists n s, nodes H x = Some n /\ schemas H (n_schema n) = Some s /\ (dt_id (s_dt s) = OBJECT \/ n_kids n = [])
  | Remove x i => exists n, nodes H x = Some n /\ i < length (n_kids n)
  | Swap a b | Move a b => live H a /\ live H b /\ a <> b /\ apart H a b /\ ~ comes_before H a b
  end.
Fixpoint all_allowed (H : heap) (l : list op) : Prop :=
  match l with [] => True | o :: r => allowed H o /\ forall H', step H o = Ok H' -> all_allowed H' r end.
Definition no_swap (o : op) : bool := match o with Swap _ _ | Move _ _ => false | _ => true end.
Lemma step_good : forall H o, good H -> allowed H o -> exists H', step H o = Ok H' /\ good H' /\ (no_swap o = true -> parents_right H -> parents_right H').
Proof.
  intros H o G Al. pose proof G as (Y & F & U). destruct o; cbn [allowed step no_swap] in *.
  - eexists. split; [reflexivity|]. split; [apply new_good; exact G|]. intros _ P. apply new_parents; assumption.
  - destruct Al as (n & En & Pn). destruct (F x n En) as (t & A). destruct (delete_ok H x n t G En Pn A) as (H' & E & G' & P & _). eauto.
  - destruct Al as (n & En). destruct (fetch_good H x n k G En) as (H' & c & E & (G' & P & _) & _). rewrite E. cbn [obind fst]. eauto.
  - destruct Al as (n & s & En & Es & Sf). destruct (add_child_good H x n k G En) as (H' & c & E & (G' & P & _) & _); [intros s' Es'; assert (s' = s) by congruence; subst; exact Sf|]. rewrite E. cbn [obind fst]. eauto.
  - destruct Al as (n & En). destruct (append_good H x n G En) as (H' & c & n' & E & (G' & P & _) & _). rewrite E. cbn [obind fst]. eauto.
  - destruct Al as (n & En & L). destruct (F x n En) as (t & A). destruct (remove_good H x n i (seen t) G En L) as (H' & E & (G' & P & _) & _); [exists t; auto|]. eauto.
  - destruct Al as (n & En). destruct (view H x n G En) as (s & ks & Es & Fk & A). destruct (reset_good H x n s ks G En Es Fk A) as (H' & E & G' & P & _). eauto.
  - destruct Al as ((na & Ea) & (nb & Eb) & Nab & Ap & NB). destruct (swap_good H a b na nb G Nab Ea Eb Ap NB) as (H' & E & _ & G' & _). exists H'. split; [exact E|]. split; [exact G'|]. discriminate.
  - destruct Al as ((na & Ea) & (nb & Eb) & Nab & Ap & NB). destruct (move_good H a b na nb G Nab Ea Eb Ap NB) as (H' & E & G' & _). exists H'. split; [exact E|]. split; [exact G'|]. discriminate.
Qed.
Lemma history_good : forall l H, good H -> all_allowed H l -> exists H', steps H l = Ok H' /\ good H' /\ (forallb no_swap l = true -> parents_right H -> parents_right H').
Proof.
  induction l as [|o l IH]; intros H G Al; [exists H; cbn; auto|]. destruct Al as (A1 & A2). destruct (step_good H o G A1) as (H1 & E1 & G1 & P1). destruct (IH H1 G1 (A2 H1 E1)) as (H2 & E2 & G2 & P2). exists H2. cbn [steps]. rewrite E1. cbn [obind]. split; [exact E2|]. split; [exact G2|].
  cbn [forallb]. intros B P. apply andb_true_iff in B. destruct B as [B1 B2]. auto.
Qed.
Lemma empty_good : good empty_heap.
Proof. split; [constructor; cbn; intros; discriminate|]. split; [intros x n E; discriminate E|intros s o E; discriminate E]. Qed.
Lemma empty_parents : parents_right empty_heap.
Proof. intros x n k nk E. discriminate E. Qed.
(** nothing is lost: every node is in the tree of a root, every schema is in use *)
Lemma no_leak : forall H x, good H -> live H x -> exists r n, nodes H r = Some n /\ n_parent n = None /\ inside H x r.
Proof.
  intros H x G (n & En). pose proof G as (Y & F & U). destruct (F x n En) as (t & A).
  assert (Gr : forall k x n t, nodes H x = Some n -> hangs H x t -> next H - length (ids t) < k -> exists r n, nodes H r = Some n /\ n_parent n = None /\ inside H x r); [|exact (Gr (S (next H - length (ids t))) x n t En A ltac:(lia))].
  clear - G Y F U. induction k as [|k IH]; intros x n t En A L; [lia|]. destruct (n_parent n) as [p|] eqn:P; [|exists x, n; split; [exact En|]; split; [exact P|]; exists t; split; [exact A|exact (hangs_root _ _ _ A)]].
  destruct (sy_node H Y x n En) as (s & Es & _ & _ & Px & _). destruct (s_parent s) as [q|] eqn:Q; [|destruct Px as [_ Px]; rewrite (Px eq_refl) in P; discriminate P].
  destruct (sy_up H Y _ _ q Es Q) as (qo & Eq & Iq). destruct (U q qo Eq) as (z & nz & Ez & Sz). destruct (sy_node H Y z nz Ez) as (qo' & Eq' & Lz & Kz & _). rewrite Sz in Eq'. assert (qo' = qo) by congruence. subst qo'.
  destruct (In_nth_error _ _ Iq) as (i & Ei). destruct (nth_error (n_kids nz) i) as [c|] eqn:Qc; [|apply nth_error_None in Qc; assert (i < length (s_kids qo)) by (apply nth_error_Some; congruence); lia]. destruct (Kz i c Qc) as (nc & Ec & Sc).
  assert (c = x) by (apply (sy_own H Y c x nc n Ec En); congruence). subst c. destruct (F z nz Ez) as (tz & Az). assert (Iz : In x (ids tz)) by (apply (closed_down H tz z z nz x Az (hangs_root _ _ _ Az) Ez); eapply nth_error_In; eauto).
  assert (Nxz : x <> z). { intros ->. inversion Az as [z1 n1 s1 ks En1 Es1 Fk]; subst. assert (n1 = nz) by congruence. subst n1. destruct (F2_In_l _ _ _ _ Fk (nth_error_In _ _ Qc)) as (t1 & It1 & R1). apply (no_cycle _ _ _ _ _ Az Fk). apply in_ids_kids. exists t1. split; [exact It1|exact (hangs_root _ _ _ R1)]. }
  destruct (hangs_sub H tz z x Az Iz) as (t' & A' & _ & _ & Lt). specialize (Lt Nxz). rewrite (hangs_fun _ _ _ _ A' A) in Lt. pose proof (ids_bound H tz z Y Az).
  destruct (IH z nz tz Ez Az ltac:(lia)) as (r & nr & Er & Pr & Ir). exists r, nr. split; [exact Er|]. split; [exact Pr|]. apply (inside_trans H x z r); [exists tz; auto|exact Ir].
Qed.

(** ---- contents after fetch and append ---- *)
Definition blank : ctree := CT null_hdr dt_empty [] [].
Lemma name_index_In : forall k l, In k l -> exists i, name_index k l = Some i.
Proof.
  intros k l. induction l as [|a l IH]; intros I; [destruct I|]. cbn [name_index]. destruct (str_eqb a k) eqn:Q; [eauto|]. destruct I as [->|I]; [rewrite (proj2 (str_eqb_eq k k) eq_refl) in Q; discriminate Q|]. destruct (IH I) as (i & ->). cbn. eauto.
Qed.
Lemma init_content : forall H x d c, good H -> content H x c -> is_tree_type (dt_id d) = true ->
  exists H' n' s' ks', hinit H x d = Ok H' /\ good H' /\ nodes H' x = Some n' /\ schemas H' (n_schema n') = Some s' /\ Forall2 (hangs H') (n_kids n') ks' /\ hangs H' x (OT x (n_schema n') (n_hdr n') (s_dt s') (s_names s') ks') /\
   match c with CT h0 d0 nm0 ks0 => if tid_eqb (dt_id d0) (dt_id d) then H' = H /\ n_hdr n' = h0 /\ s_dt s' = d0 /\ s_names s' = nm0 /\ map seen ks' = ks0 else s_dt s' = d /\ s_names s' = [] /\ ks' = [] end.
Proof.
  intros H x d c G (t & A & Sc) T. pose proof G as (Y & F & U). inversion A as [x1 n s ks En Es Fk]; subst. cbn [seen]. destruct (hinit_ok H x n s ks d Y En Es A Fk) as [(Ed & E)|(Nd & H' & h & E & W)].
  - rewrite (proj2 (tid_eqb_eq _ _) Ed). exists H, n, s, ks. auto 15.
  - destruct (tid_eqb (dt_id (s_dt s)) (dt_id d)) eqn:Q; [apply tid_eqb_eq in Q; contradiction|]. pose proof (none_cutset H x n s ks Y En A Fk) as C. pose proof (concat_sids_of H _ ks Fk) as SE. pose proof W as (n1 & s1 & En1 & Es1 & Ex & Esx & _). assert (n1 = n) by congruence. subst n1. rewrite !select_none in *.
    exists H'. eexists. eexists. exists []. split; [exact E|]. split; [apply (cut_good _ _ _ _ _ _ _ _ _ G C SE W); intros n' s' _ _; rewrite select_none; [congruence|reflexivity]|]. split; [exact Ex|]. cbn [n_schema n_kids n_hdr]. split; [exact Esx|]. split; [constructor|].
    split; [|auto]. pose proof (hangs_intro H' x _ _ [] Ex Esx) as X. cbn [n_kids n_schema n_hdr s_dt s_names] in X. apply X. constructor.
Qed.
Lemma fetch_content : forall H x k h d nm ks, good H -> content H x (CT h d nm ks) -> exists H' c, hfetch H x k = Ok (H', c) /\
  ((dt_id d = OBJECT /\ In k nm /\ H' = H) \/ (dt_id d = OBJECT /\ ~ In k nm /\ content H' x (CT h d (nm ++ [k]) (ks ++ [blank]))) \/ (dt_id d <> OBJECT /\ exists h', content H' x (CT h' dt_object [k] [blank]))).
Proof.
  intros H x k h d nm ks G C. destruct (init_content H x dt_object _ G C eq_refl) as (H1 & n1 & s1 & ks1 & E1 & G1 & En1 & Es1 & Fk1 & A1 & Cs). pose proof G1 as (Y1 & _ & _). unfold hfetch. rewrite E1. cbn [obind]. change (dt_id dt_object) with OBJECT in Cs.
  destruct (tid_eqb (dt_id d) OBJECT) eqn:T.
  - apply tid_eqb_eq in T. destruct Cs as (-> & Hh & Hd & Hn & Hk). assert (T1 : dt_id (s_dt s1) = OBJECT) by congruence.
    destruct (in_dec (list_eq_dec Ascii.ascii_dec) k nm) as [I|I].
    + destruct (name_index_In k nm I) as (i & Qi). destruct (find_ok H x n1 s1 k Y1 En1 Es1) as [Q|(c & Q & N)].
      * exfalso. unfold find_child, nget, sget in Q. rewrite En1 in Q. cbn [obind] in Q. rewrite Es1 in Q. cbn [obind] in Q. rewrite T1, tid_eqb_refl, Hn, Qi in Q. destruct (nth_error (n_kids n1) i); discriminate Q.
      * rewrite Q. cbn [obind]. exists H, c. auto 10.
    + assert (Q : find_child H x k = Ok None). { unfold find_child, nget, sget. rewrite En1. cbn [obind]. rewrite Es1. cbn [obind]. rewrite T1, tid_eqb_refl, Hn. destruct (name_index k nm) as [i|] eqn:Qi; [|reflexivity]. exfalso. apply I. destruct (name_index_bound _ _ _ Qi) as (_ & X). eapply nth_error_In; eauto. }
      rewrite Q. cbn [obind]. destruct (new_child_ok H x n1 s1 ks1 [k] G1 En1 Es1 Fk1 A1 (or_introl (conj T1 eq_refl))) as (H2 & E2 & _ & _ & A2 & _). exists H2, (next H). split; [exact E2|]. right. left. split; [exact T|]. split; [exact I|].
      eexists. split; [exact A2|]. cbn [seen]. rewrite map_app, Hh, Hd, Hn, Hk. reflexivity.
  - destruct Cs as (Hd & Hn & ->). assert (T1 : dt_id (s_dt s1) = OBJECT) by (rewrite Hd; reflexivity).
    assert (Q : find_child H1 x k = Ok None). { unfold find_child, nget, sget. rewrite En1. cbn [obind]. rewrite Es1. cbn [obind]. rewrite T1, tid_eqb_refl, Hn. reflexivity. }
    rewrite Q. cbn [obind]. destruct (new_child_ok H1 x n1 s1 [] [k] G1 En1 Es1 Fk1 A1 (or_introl (conj T1 eq_refl))) as (H2 & E2 & _ & _ & A2 & _). exists H2, (next H1). split; [exact E2|]. right. right.
    split; [intros X; rewrite X, tid_eqb_refl in T; discriminate T|]. eexists. eexists. split; [exact A2|]. cbn [seen]. rewrite Hd, Hn. reflexivity.
Qed.
Lemma append_content : forall H x h d nm ks, good H -> content H x (CT h d nm ks) -> exists H' c, happend H x = Ok (H', c) /\
  ((dt_id d = LIST /\ content H' x (CT h d nm (ks ++ [blank]))) \/ (dt_id d <> LIST /\ exists h', content H' x (CT h' dt_list [] [blank]))).
Proof.
  intros H x h d nm ks G C. destruct (init_content H x dt_list _ G C eq_refl) as (H1 & n1 & s1 & ks1 & E1 & G1 & En1 & Es1 & Fk1 & A1 & Cs). unfold happend. rewrite E1. cbn [obind]. change (dt_id dt_list) with LIST in Cs.
  destruct (tid_eqb (dt_id d) LIST) eqn:T.
  - apply tid_eqb_eq in T. destruct Cs as (-> & Hh & Hd & Hn & Hk). assert (T1 : dt_id (s_dt s1) = LIST) by congruence.
    destruct (new_child_ok H x n1 s1 ks1 [] G1 En1 Es1 Fk1 A1 (or_intror (conj T1 eq_refl))) as (H2 & E2 & _ & _ & A2 & _). exists H2, (next H). split; [exact E2|]. left. split; [exact T|]. eexists. split; [exact A2|]. cbn [seen]. rewrite map_app, app_nil_r, Hh, Hd, Hn, Hk. reflexivity.
  - destruct Cs as (Hd & Hn & ->). assert (T1 : dt_id (s_dt s1) = LIST) by (rewrite Hd; reflexivity). destruct (new_child_ok H1 x n1 s1 [] [] G1 En1 Es1 Fk1 A1 (or_intror (conj T1 eq_refl))) as (H2 & E2 & _ & _ & A2 & _). exists H2, (next H1). split; [exact E2|]. right.
    split; [intros X; rewrite X, tid_eqb_refl in T; discriminate T|]. eexists. eexists. split; [exact A2|]. cbn [seen]. rewrite Hd, Hn. reflexivity.
Qed.
