(** Species sets in Silo form: specification and facts. *)
From Coq Require Import Lia.
From Verif Require Import Base Node NodeDiff NodeFacts O2M O2MFacts MatSet MatSetFacts Silo SiloFacts.
Local Open Scope Z_scope.

(** * Specification *)
Section Spec.
Context {V : Type}.
(** mass fraction of the s-th species of the i-th material in zone z *)
Definition mass (sp : species (V:=V)) (i s z : nat) : option V :=
  match nth_error sp i with
  | Some (_, l) => match nth_error l s with Some (_, c) => nth_error c z | None => None end
  | None => None
  end.
(** From place [q], counted from 1, the fractions array holds those of the i-th material in zone z. *)
Definition leads (mf : list V) (sp : species (V:=V)) (z i : nat) (q : Z) : Prop :=
  1 <= q /\ forall k l s, nth_error sp i = Some (k, l) -> (s < length l)%nat ->
    exists x, mass sp i s z = Some x /\ nth_error mf (Z.to_nat (q - 1) + s) = Some x.
(** place [q] is for the material with number [id] *)
Definition leads_for (mf : list V) (sp : species (V:=V)) (mm : list (str * Z)) (z : nat) (id q : Z) : Prop :=
  exists i k, nth_error mm i = Some (k, id) /\ leads mf sp z i q.
(** The materials of a zone in a Silo material object: one, or those along the chain *)
Inductive zone_ids (next mat : list Z) (m : Z) : list Z -> Prop :=
| zone_clean : 0 <= m -> zone_ids next mat m [m]
| zone_mixed slots ids : m < 0 -> chain next (Z.to_nat (- m - 1)) slots -> map (nth_error mat) slots = map Some ids -> zone_ids next mat m ids.
(** number of slots of the mixed zones *)
Definition mixed_slots (l : list (Z * list Z)) : nat := length (concat (map snd (filter (fun p => fst p <? 0) l))).
(** The result [r], when [tab] lists matlist entry and materials of the zones *)
Definition spec_stands (sp : species (V:=V)) (mm : list (str * Z)) (tab : list (Z * list Z)) (r : spec_silo) : Prop :=
  sp_nmatspec r = map (fun c => Z.of_nat (length (snd c))) sp /\
  sp_names r = flat_map (fun c => map fst (snd c)) sp /\
  length (sp_list r) = length tab /\ length (sp_mix r) = mixed_slots tab /\
  forall z m ids, nth_error tab z = Some (m, ids) ->
    if m <? 0 then
      let a := mixed_slots (firstn z tab) in
      nth_error (sp_list r) z = Some (- Z.of_nat a - 1) /\
      forall j id, nth_error ids j = Some id -> exists q, nth_error (sp_mix r) (a + j) = Some q /\ leads_for (sp_mf r) sp mm z id q
    else exists q, nth_error (sp_list r) z = Some q /\ leads_for (sp_mf r) sp mm z m q.
End Spec.

(** * Facts *)
Section Facts.
Context {V : Type}.
Implicit Type sp : species (V:=V).

Lemma number_map_law sp : forall mm a acc, map fst mm = map fst sp -> NoDup (map snd mm) -> (forall id, In id (map snd mm) -> zget acc id = None) ->
  exists nm, number_map (Z.of_nat a) sp mm acc = Ok nm /\
    (forall i k id, nth_error mm i = Some (k, id) -> zget nm id = Some (Z.of_nat (a + i))) /\
    (forall id, ~ In id (map snd mm) -> zget nm id = zget acc id).
Proof.
  induction sp as [|[k c] sp IH]; intros [|[k' id] mm] a acc E N F; try discriminate E; cbn [number_map].
  - exists acc. repeat split. intros [|i] ? ? X; discriminate X.
  - cbn [map fst] in E. injection E as -> E. destruct (str_eqb_spec k k) as [_|X]; [|congruence]. cbn [map snd] in N, F. inversion_clear N as [|? ? N1 N2].
    replace (Z.of_nat a + 1) with (Z.of_nat (S a)) by lia. destruct (IH mm (S a) (zset acc id (Z.of_nat a)) E N2) as (nm & En & A & B).
    + intros id' I. rewrite zget_zset. destruct (Z.eqb_spec id' id) as [-> |]; [contradiction|]. apply F. right. exact I.
    + exists nm. split; [exact En|]. split.
      * intros [|i] k0 id0 X; cbn in X.
        -- injection X as _ <-. rewrite B by exact N1. rewrite zget_zset, Z.eqb_refl. f_equal. lia.
        -- rewrite (A i k0 id0 X). f_equal. lia.
      * intros id' H. cbn [map snd In] in H. rewrite B by tauto. rewrite zget_zset. destruct (Z.eqb_spec id' id); [|reflexivity]. subst. tauto.
Qed.
Lemma zsum_app a b : zsum (a ++ b) = zsum a + zsum b.
Proof. induction a as [|x a IH]; cbn [zsum app]; lia. Qed.
Lemma species_index_law (nspec : list Z) z i : (i <= length nspec)%nat -> species_index nspec z (Z.of_nat i) = Ok (z * zsum nspec + (1 + zsum (firstn i nspec))).
Proof.
  intros H. unfold species_index. rewrite (omapM_nat _ (fun j => nth j nspec 0) i).
  - cbn [obind]. do 4 f_equal. revert i H. induction nspec as [|x l IH]; intros [|i] H; try reflexivity; [cbn in H; lia|]. cbn [seq map firstn nth]. f_equal.
    cbn [length] in H. rewrite <- (IH i) by lia. rewrite <- seq_shift, map_map. reflexivity.
  - intros j Hj. rewrite get_nat, (nth_error_nth' nspec 0) by lia. reflexivity.
Qed.
Definition counts sp : list Z := map (fun c => zlen (snd c)) sp.
Lemma counts_sum sp : zsum (counts sp) = Z.of_nat (length (concat (map snd sp))).
Proof. induction sp as [|c sp IH]; [reflexivity|]. unfold counts in *. cbn [map zsum concat]. rewrite app_length. unfold zlen in *. lia. Qed.
Lemma counts_firstn i sp : firstn i (counts sp) = counts (firstn i sp).
Proof. unfold counts. apply firstn_map. Qed.
Lemma concat_at {A} (ll : list (list A)) : forall i l s, nth_error ll i = Some l -> (s < length l)%nat ->
  nth_error (concat ll) (length (concat (firstn i ll)) + s) = nth_error l s.
Proof.
  induction ll as [|a ll IH]; intros [|i] l s E H; try discriminate E; cbn [firstn concat] in *.
  - cbn in E. injection E as ->. cbn [length Nat.add]. apply nth_error_app1, H.
  - cbn in E. rewrite app_length, nth_error_app2 by lia. replace (length a + _ + s - length a)%nat with (length (concat (firstn i ll)) + s)%nat by lia. apply IH; assumption.
Qed.
Lemma rows_at {A} (rows : list (list A)) T : Forall (fun r => length r = T) rows -> forall z r s, nth_error rows z = Some r -> (s < T)%nat ->
  nth_error (concat rows) (z * T + s) = nth_error r s.
Proof.
  intros F z r s E H. assert (Lr : length r = T) by (rewrite Forall_forall in F; apply F; apply nth_error_In in E; exact E).
  rewrite <- (concat_at rows z r s E) by lia. f_equal. f_equal. apply nth_error_split in E. destruct E as (a & b & -> & <-).
  rewrite firstn_app, Nat.sub_diag, firstn_all. cbn [firstn]. rewrite app_nil_r. apply Forall_app in F. destruct F as [F _]. clear -F.
  induction F as [|x l Hx F IH]; [reflexivity|]. cbn [length concat Nat.mul]. rewrite app_length. lia.
Qed.

Variable sp : species (V:=V).
Variable mm : list (str * Z).
Variable nz : nat.
Hypothesis Names : map fst mm = map fst sp.
Hypothesis Numbers : NoDup (map snd mm).
Hypothesis Sizes : Forall (fun m => Forall (fun c => length (snd c) = nz) (snd m)) sp.
Definition row (z : nat) : list V := concat (map (fun c : str * list V => match nth_error (snd c) z with Some x => [x] | None => [] end) (concat (map snd sp))).
Lemma col_len c : In c (concat (map snd sp)) -> length (snd c) = nz.
Proof.
  intros I. apply in_concat in I. destruct I as (l & Il & I). apply in_map_iff in Il. destruct Il as (m & <- & Im). rewrite Forall_forall in Sizes.
  specialize (Sizes m Im). rewrite Forall_forall in Sizes. apply Sizes, I.
Qed.
Lemma row_law z : (z < nz)%nat -> zone_mf sp (Z.of_nat z) = Ok (row z) /\ length (row z) = length (concat (map snd sp)) /\
  forall j c, nth_error (concat (map snd sp)) j = Some c -> nth_error (row z) j = nth_error (snd c) z.
Proof.
  intros H. unfold zone_mf, row. pose proof col_len as CL. revert CL. induction (concat (map snd sp)) as [|c l IH]; intros CL.
  - cbn. repeat split. intros [|j] c X; discriminate X.
  - destruct IH as (A & B & D); [intros c' I; apply CL; right; exact I|]. specialize (CL c (or_introl eq_refl)).
    destruct (nth_error (snd c) z) as [x|] eqn:Ex; [|apply nth_error_None in Ex; lia]. cbn [omapM map concat]. rewrite get_nat, Ex. cbn [deref obind]. rewrite A. cbn [obind app].
    split; [reflexivity|]. split; [cbn [length]; lia|]. intros [|j] c' E; cbn in E; [injection E as <-; rewrite Ex; reflexivity|]. cbn. apply D, E.
Qed.
Definition all_mf : list V := concat (map row (seq 0 nz)).
Lemma all_mf_law : omapM (zone_mf sp) (zseq (Z.of_nat nz)) = Ok (map row (seq 0 nz)).
Proof. apply omapM_nat. intros i H. apply row_law, H. Qed.
Definition place (z i : nat) : Z := Z.of_nat z * zsum (counts sp) + (1 + zsum (firstn i (counts sp))).
Lemma place_leads z i : (z < nz)%nat -> leads all_mf sp z i (place z i).
Proof.
  intros Hz. split.
  - unfold place. rewrite counts_firstn, !counts_sum. lia.
  - intros k l s E Hs. unfold mass. rewrite E. destruct (nth_error l s) as [[k' c]|] eqn:El; [|apply nth_error_None in El; lia].
    assert (Em : nth_error (map snd sp) i = Some l) by (rewrite nth_error_map, E; reflexivity).
    assert (Ec : nth_error (concat (map snd sp)) (length (concat (firstn i (map snd sp))) + s) = Some (k', c)) by (rewrite (concat_at _ _ _ _ Em Hs); exact El).
    assert (Lc : length c = nz) by (apply (col_len (k', c)); apply nth_error_In in Ec; exact Ec).
    destruct (nth_error c z) as [x|] eqn:Ex; [|apply nth_error_None in Ex; lia]. exists x. split; [reflexivity|].
    destruct (row_law z Hz) as (_ & Lr & R). unfold place. rewrite counts_firstn, !counts_sum, <- firstn_map.
    set (T := length (concat (map snd sp))) in *. set (o := length (concat (firstn i (map snd sp)))) in *.
    replace (Z.to_nat (Z.of_nat z * Z.of_nat T + (1 + Z.of_nat o) - 1) + s)%nat with (z * T + (o + s))%nat by lia.
    unfold all_mf. rewrite (rows_at _ T) with (r := row z).
    + rewrite (R _ _ Ec). exact Ex.
    + apply Forall_forall. intros r I. apply in_map_iff in I. destruct I as (z' & <- & I). apply in_seq in I. apply row_law. lia.
    + rewrite nth_error_map, (nth_error_nth' _ 0%nat) by (rewrite seq_length; exact Hz). rewrite seq_nth by exact Hz. reflexivity.
    + assert (X : nth_error (concat (map snd sp)) (o + s) <> None) by congruence. apply nth_error_Some in X. exact X.
Qed.
Section Zones.
Variable nm : list (Z * Z).
Hypothesis Nm : forall i k id, nth_error mm i = Some (k, id) -> zget nm id = Some (Z.of_nat i).
Definition place_of (z : nat) (id : Z) : Z := place z (Z.to_nat (mat_index nm id)).
Lemma index_of z id : In id (map snd mm) -> species_index (counts sp) (Z.of_nat z) (mat_index nm id) = Ok (place_of z id).
Proof.
  intros I. apply In_nth_error in I. destruct I as [i E]. rewrite nth_error_map in E. destruct (nth_error mm i) as [[k id']|] eqn:Em; [|discriminate E]. cbn in E. injection E as ->.
  unfold place_of, mat_index. rewrite (Nm _ _ _ Em), Nat2Z.id. apply species_index_law. unfold counts. rewrite map_length.
  assert (L : length mm = length sp) by (rewrite <- (map_length fst mm), Names; apply map_length). rewrite <- L. apply Nat.lt_le_incl, nth_error_Some. congruence.
Qed.
Lemma place_of_leads z id : (z < nz)%nat -> In id (map snd mm) -> leads_for all_mf sp mm z id (place_of z id).
Proof.
  intros Hz I. apply In_nth_error in I. destruct I as [i E]. rewrite nth_error_map in E. destruct (nth_error mm i) as [[k id']|] eqn:Em; [|discriminate E]. cbn in E. injection E as ->.
  exists i, k. split; [exact Em|]. unfold place_of, mat_index. rewrite (Nm _ _ _ Em), Nat2Z.id. apply place_leads, Hz.
Qed.
Variables next mat : list Z.
Lemma mixed_law z j slots : chain next j slots -> forall ids fuel, map (nth_error mat) slots = map Some ids -> incl ids (map snd mm) -> (length ids < fuel)%nat ->
  mixed fuel next mat nm (counts sp) (Z.of_nat z) (Z.of_nat j) = Ok (map (place_of z) ids).
Proof.
  induction 1 as [j E|j j' l E _ IH]; intros [|id ids] fuel Em I Hf; try discriminate Em; cbn [map] in Em; injection Em as E0 Em; (destruct fuel as [|f]; [lia|]); cbn [mixed].
  - destruct ids; [|discriminate Em]. replace (_ <? 0) with false by lia. rewrite !get_nat, E0, E. cbn [deref obind]. rewrite index_of by (apply I; left; reflexivity). cbn [obind].
    destruct f as [|f]; [cbn in Hf; lia|]. reflexivity.
  - replace (_ <? 0) with false by lia. rewrite !get_nat, E0, E. cbn [deref obind]. rewrite index_of by (apply I; left; reflexivity). cbn [obind].
    replace (Z.of_nat j' + 1 - 1) with (Z.of_nat j') by lia. cbn [length] in Hf. rewrite (IH ids f Em) by (try (intros x J; apply I; right; exact J); lia). reflexivity.
Qed.
Lemma zones_law : forall tab z a fuel, Forall (fun p => zone_ids next mat (fst p) (snd p) /\ incl (snd p) (map snd mm) /\ (length (snd p) < fuel)%nat) tab ->
  (z + length tab = nz)%nat ->
  exists sl mx, zones fuel next mat nm (counts sp) (Z.of_nat z) (- Z.of_nat a - 1) (map fst tab) = Ok (sl, mx) /\ length sl = length tab /\ length mx = mixed_slots tab /\
    forall y m ids, nth_error tab y = Some (m, ids) ->
      if m <? 0 then
        nth_error sl y = Some (- Z.of_nat (a + mixed_slots (firstn y tab)) - 1) /\
        forall j id, nth_error ids j = Some id -> exists q, nth_error mx (mixed_slots (firstn y tab) + j) = Some q /\ leads_for all_mf sp mm (z + y) id q
      else exists q, nth_error sl y = Some q /\ leads_for all_mf sp mm (z + y) m q.
Proof.
  induction tab as [|[m ids] tab IH]; intros z a fuel F E; cbn [map zones].
  - exists [], []. repeat split. intros [|y] m ids X; discriminate X.
  - inversion_clear F as [|? ? (Zi & In1 & Hf) F']. cbn [fst snd length] in *. replace (Z.of_nat z + 1) with (Z.of_nat (S z)) by lia.
    destruct Zi as [Hm|slots ids Hm Ch Em].
    + destruct (IH (S z) a fuel F' ltac:(lia)) as (sl & mx & Ez & L1 & L2 & R). replace (0 <=? m) with true by lia.
      rewrite index_of by (apply In1; left; reflexivity). cbn [obind]. rewrite Ez. cbn [obind]. eexists _, _. split; [reflexivity|].
      assert (Hm' : (m <? 0) = false) by lia. split; [cbn [length]; lia|]. split; [unfold mixed_slots in *; cbn [filter fst]; rewrite Hm'; exact L2|].
      intros [|y] m' ids' Ey; cbn in Ey.
      * injection Ey as <- <-. rewrite Hm'. exists (place_of z m). split; [reflexivity|]. rewrite Nat.add_0_r. apply place_of_leads; [lia|]. apply In1. left. reflexivity.
      * specialize (R y m' ids' Ey). cbn [firstn nth_error]. unfold mixed_slots in *. cbn [filter fst]. rewrite Hm'. replace (z + S y)%nat with (S z + y)%nat by lia. exact R.
    + assert (Hm' : (m <? 0) = true) by lia. replace (0 <=? m) with false by lia. replace (-1 * (m + 1)) with (Z.of_nat (Z.to_nat (- m - 1))) by lia.
      rewrite (mixed_law z _ slots Ch ids fuel Em In1 Hf). cbn [obind]. unfold zlen. rewrite map_length.
      destruct (IH (S z) (a + length ids)%nat fuel F' ltac:(lia)) as (sl & mx & Ez & L1 & L2 & R).
      replace (- Z.of_nat a - 1 - Z.of_nat (length ids)) with (- Z.of_nat (a + length ids) - 1) by lia. rewrite Ez. cbn [obind]. eexists _, _. split; [reflexivity|].
      split; [cbn [length]; lia|]. split; [unfold mixed_slots in *; cbn [filter fst]; rewrite Hm'; cbn [map concat snd]; rewrite !app_length, map_length; lia|].
      intros [|y] m' ids' Ey; cbn in Ey.
      * injection Ey as <- <-. rewrite Hm'. split; [cbn; do 2 f_equal; lia|]. intros j id Ej. exists (place_of z id). cbn [firstn]. unfold mixed_slots. cbn [filter map concat length Nat.add].
        rewrite nth_error_app1 by (rewrite map_length; apply nth_error_Some; congruence). rewrite nth_error_map, Ej. split; [reflexivity|]. rewrite Nat.add_0_r.
        apply place_of_leads; [lia|]. apply In1. apply nth_error_In in Ej. exact Ej.
      * specialize (R y m' ids' Ey). cbn [firstn nth_error].
        assert (Ms : mixed_slots ((m, ids) :: firstn y tab) = (length ids + mixed_slots (firstn y tab))%nat) by (unfold mixed_slots; cbn [filter fst]; rewrite Hm'; cbn [map concat snd]; apply app_length).
        rewrite Ms. replace (z + S y)%nat with (S z + y)%nat by lia. destruct (m' <? 0).
        -- destruct R as [R1 R2]. split; [rewrite R1; do 2 f_equal; lia|]. intros j id Ej. destruct (R2 j id Ej) as (q & Eq & Lq). exists q. split; [|exact Lq].
           rewrite nth_error_app2 by (rewrite map_length; lia). rewrite map_length. rewrite <- Eq. f_equal. lia.
        -- exact R.
Qed.
End Zones.
Lemma spec_law next mat tab fuel : length tab = nz ->
  Forall (fun p => zone_ids next mat (fst p) (snd p) /\ incl (snd p) (map snd mm) /\ (length (snd p) < fuel)%nat) tab ->
  exists r, spec_to_silo fuel sp mm (map fst tab) next mat = Ok r /\ spec_stands sp mm tab r.
Proof.
  intros Lt F. unfold spec_to_silo. assert (L : length mm = length sp) by (rewrite <- (map_length fst mm), Names; apply map_length). rewrite L, Z.eqb_refl.
  destruct (number_map_law sp mm 0 [] Names Numbers) as (nm & En & Nm & _); [intros; reflexivity|]. cbn [Z.of_nat] in En. rewrite En. cbn [obind].
  replace (zlen (map fst tab)) with (Z.of_nat nz) by (unfold zlen; rewrite map_length; lia). rewrite all_mf_law. cbn [obind]. fold (counts sp).
  destruct (zones_law nm Nm next mat tab 0 0 fuel F) as (sl & mx & Ez & L1 & L2 & R); [exact Lt|]. change (- Z.of_nat 0 - 1) with (-1) in Ez. change (Z.of_nat 0) with 0 in Ez.
  rewrite Ez. cbn [obind]. eexists. split; [reflexivity|]. unfold spec_stands. cbn [sp_nmatspec sp_names sp_list sp_mix sp_mf]. split; [reflexivity|]. split.
  - rewrite flat_map_concat_map, concat_map, map_map. reflexivity.
  - split; [exact L1|]. split; [exact L2|]. exact R.
Qed.
End Facts.

(** * Together with a material object made by matset::to_silo *)
Section Both.
Context {V : Type}.
Variable rnd : V -> V.
Definition table_of (s : silo (V:=V)) (ls : list (list (Z * (V * V)))) : list (Z * list Z) := combine (si_matlist s) (map (map fst) ls).
Definition is_mixed (s : silo (V:=V)) (ls : list (list (Z * (V * V)))) : Prop :=
  forall e m l, nth_error (si_matlist s) e = Some m -> nth_error ls e = Some l -> (m <? 0) = (1 <? length l)%nat.
Lemma table_slots ls : forall ml, length ml = length ls -> (forall e m l, nth_error ml e = Some m -> nth_error ls e = Some l -> (m <? 0) = (1 <? length l)%nat) ->
  forall e, mixed_slots (firstn e (combine ml (map (map fst) ls))) = mixed_total (V:=V) (firstn e ls).
Proof.
  induction ls as [|l ls IH]; intros [|m ml] E H e; try discriminate E; [destruct e; reflexivity|]. destruct e as [|e]; [reflexivity|].
  cbn [map combine firstn]. unfold mixed_slots, mixed_total in *. cbn [filter fst]. rewrite (H 0%nat m l eq_refl eq_refl). injection E as E.
  assert (H' : forall e m l, nth_error ml e = Some m -> nth_error ls e = Some l -> (m <? 0) = (1 <? length l)%nat) by (intros e0; apply (H (S e0))).
  specialize (IH ml E H' e). destruct (1 <? length l)%nat; [|exact IH]. cbn [map concat snd]. rewrite !app_length, map_length. lia.
Qed.
Theorem spec_of_silo sp mm entries s fuel : stands_for rnd (length (si_matlist s)) entries s ->
  map fst mm = map fst sp -> NoDup (map snd mm) -> Forall (fun m => Forall (fun c : str * list V => length (snd c) = length (si_matlist s)) (snd m)) sp ->
  (forall e id x, In (e, (id, x)) entries -> In id (map snd mm)) -> (length (si_mat s) + 1 < fuel)%nat ->
  exists r, spec_to_silo fuel sp mm (si_matlist s) (si_next s) (si_mat s) = Ok r /\ length (sp_list r) = length (si_matlist s) /\ length (sp_mix r) = length (si_mat s) /\
    forall e m, nth_error (si_matlist s) e = Some m ->
      if m <? 0 then
        nth_error (sp_list r) e = Some m /\
        forall slots p id, chain (si_next s) (Z.to_nat (- m - 1)) slots -> In p slots -> nth_error (si_mat s) p = Some id ->
          exists q, nth_error (sp_mix r) p = Some q /\ leads_for (sp_mf r) sp mm e id q
      else exists q, nth_error (sp_list r) e = Some q /\ leads_for (sp_mf r) sp mm e m q.
Proof.
  intros (ls & Ls & R & _ & Ln & Lm & _) Nm Nd Sz Ids Hf. set (tab := table_of s ls). 
  assert (Mx : is_mixed s ls).
  { intros e m l Em El. destruct (R e l El) as (_ & _ & Re). unfold records in Re. destruct l as [|[id x] [|y l]]; [destruct Re| |].
    - destruct Re as [Re H]. assert (m = id) by congruence. subst m. cbn. lia.
    - destruct Re as (slots & Re & _). assert (m = - Z.of_nat (mixed_total (firstn e ls)) - 1) by congruence. subst m. cbn [length]. 
      replace (_ <? 0) with true by lia. reflexivity. }
  assert (Lt : length tab = length (si_matlist s)) by (unfold tab, table_of; rewrite combine_length, map_length; lia).
  assert (Fst : map fst tab = si_matlist s) by (unfold tab, table_of; apply map_fst_combine; rewrite map_length; lia).
  assert (At : forall e m ids, nth_error tab e = Some (m, ids) -> exists l, nth_error (si_matlist s) e = Some m /\ nth_error ls e = Some l /\ ids = map fst l).
  { unfold tab, table_of. clear. intros e m ids. revert e. generalize (si_matlist s). intros ml. revert ml. induction ls as [|l ls IH]; intros [|m0 ml] [|e] E; try discriminate E; cbn in E |- *.
    - injection E as <- <-. eauto.
    - apply IH, E. }
  assert (Has : forall e l, nth_error ls e = Some l -> (length l <= length (si_mat s) + 1)%nat).
  { intros e l El. destruct (Nat.leb_spec (length l) 1) as [H|H]; [lia|]. rewrite Lm. unfold mixed_total. apply nth_error_In in El.
    assert (I : In l (filter (fun l => (1 <? length l)%nat) ls)) by (apply filter_In; split; [exact El|apply Nat.ltb_lt; exact H]).
    apply in_split in I. destruct I as (a & b & ->). rewrite concat_app. cbn [concat]. rewrite !app_length. lia. }
  assert (Sl : forall e, mixed_slots (firstn e tab) = mixed_total (firstn e ls)) by (intros e; apply table_slots; [lia|exact Mx]).
  destruct (spec_law sp mm (length (si_matlist s)) Nm Nd Sz (si_next s) (si_mat s) tab fuel Lt) as (r & Er & S1 & S2 & S3 & S4 & S5).
  { apply Forall_forall. intros [m ids] I. apply In_nth_error in I. destruct I as [e Et]. destruct (At e m ids Et) as (l & Em & El & ->). cbn [fst snd].
    destruct (R e l El) as (_ & Il & Re). split; [|split].
    - unfold records in Re. destruct l as [|[id x] [|y l]]; [destruct Re| |].
      + destruct Re as [Re H]. assert (m = id) by congruence. subst m. cbn. constructor. exact H.
      + destruct Re as (slots & Re & Ch & Sq & Ma & _). assert (Hm : m = - Z.of_nat (mixed_total (firstn e ls)) - 1) by congruence.
        apply (zone_mixed _ _ _ slots); [lia| |].
        * rewrite Hm. replace (Z.to_nat _) with (mixed_total (firstn e ls)) by lia. exact Ch.
        * rewrite Ma, map_map. reflexivity.
    - intros id J. apply in_map_iff in J. destruct J as ([id' x] & <- & J). apply Il in J. apply (Ids _ _ _ J).
    - rewrite map_length. specialize (Has e l El). lia. }
  rewrite Fst in Er. exists r. split; [exact Er|]. split; [lia|]. split.
  { rewrite S4, Lm. rewrite <- (firstn_all tab), Sl, firstn_all2 by lia. reflexivity. }
  intros e m Em. assert (He : (e < length ls)%nat) by (rewrite Ls; apply nth_error_Some; congruence).
  destruct (nth_error tab e) as [[m' ids]|] eqn:Et; [|apply nth_error_None in Et; lia]. destruct (At e m' ids Et) as (l & Em' & El & ->). assert (m' = m) by congruence. subst m'.
  specialize (S5 e m _ Et). rewrite Sl in S5. destruct (m <? 0) eqn:Hm; [|exact S5]. cbn zeta in S5. destruct S5 as [A B]. destruct (R e l El) as (_ & _ & Re).
  assert (Hl : (1 < length l)%nat) by (apply Nat.ltb_lt; rewrite <- (Mx e m l Em El); exact Hm). unfold records in Re. destruct l as [|[id0 x] [|y l]]; [cbn in Hl; lia|cbn in Hl; lia|].
  destruct Re as (slots0 & Re & Ch & Sq & Ma & _). assert (Hm2 : m = - Z.of_nat (mixed_total (firstn e ls)) - 1) by congruence.
  split; [rewrite A, Hm2; reflexivity|]. intros slots p id Ch' Ip Ep. rewrite Hm2 in Ch'. replace (Z.to_nat _) with (mixed_total (firstn e ls)) in Ch' by lia.
  rewrite (chain_same _ _ _ _ Ch' Ch), Sq in Ip. apply in_seq in Ip. set (a := mixed_total (firstn e ls)) in *. set (L0 := (id0, x) :: y :: l) in *.
  replace p with (a + (p - a))%nat by lia. apply B. assert (Hj : (p - a < length L0)%nat) by lia.
  assert (E2 : nth_error (map (nth_error (si_mat s)) slots0) (p - a) = Some (Some id)).
  { rewrite Sq, nth_error_map, (nth_error_nth' _ 0%nat) by (rewrite seq_length; exact Hj). rewrite seq_nth by exact Hj. cbn. replace (a + (p - a))%nat with p by lia. f_equal. exact Ep. }
  rewrite Ma, nth_error_map in E2. rewrite nth_error_map. destruct (nth_error L0 (p - a)) as [q|]; [|discriminate E2]. cbn in E2 |- *. congruence.
Qed.
End Both.
