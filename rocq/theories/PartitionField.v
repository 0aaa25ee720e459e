From Coq Require Import ZArith Lia Permutation Sorting.Sorted.
From Verif Require Import Base Node NodeFacts Partition PartitionSpec PartitionFacts PartitionInit.
Local Open Scope Z_scope.

Definition value_sels (f : str) (p : nat * dom) : list selection :=
  match mget (d_fields (snd p)) f with Some l => map (fun v => mkSel (SFld f (Some v)) (Some false) (fst p)) (zset l) | None => [] end.
Lemma init_field f doms : forall i, init_one i doms (mkReq (SFld f None) None) = flat_map (value_sels f) (combine (seq i (length doms)) doms).
Proof.
  induction doms as [|d r IH]; intros i; [reflexivity|]. cbn [init_one length seq combine flat_map q_dom q_sel applicable]. unfold value_sels at 1. cbn [fst snd]. destruct (mget (d_fields d) f) as [l|] eqn:M; [|apply IH].
  cbn [chosen split_sel]. unfold field. rewrite M, map_map, IH. reflexivity.
Qed.
Lemma each_named dds : Forall (fun x => is_free x = false) dds -> forall d res, assign_each d res dds = dds.
Proof. induction 1 as [|x dds F _ IH]; intros d res; [reflexivity|]. cbn [assign_each]. rewrite F, IH. reflexivity. Qed.
Lemma combine_maps {A B C} (f : A -> B) (g : A -> C) l : combine (map f l) (map g l) = map (fun x => (f x, g x)) l.
Proof. induction l as [|x l IH]; [reflexivity|]. cbn [map combine]. rewrite IH. reflexivity. Qed.
Lemma filter_one v l : NoDup l -> filter (fun x => x =? v) l = if existsb (Z.eqb v) l then [v] else [].
Proof.
  induction 1 as [|x l N D IH]; [reflexivity|]. cbn [filter existsb]. rewrite Z.eqb_sym. destruct (Z.eqb_spec v x) as [E|E]; cbn [orb]; [|exact IH]. subst x. f_equal. apply filter_none. intros y I. apply Z.eqb_neq. intros ->. contradiction.
Qed.
Lemma with_value_znth l v : with_value l v = filter (fun e => match znth l e with Some x => x =? v | None => false end) (zseq (Z.of_nat (length l))).
Proof.
  unfold with_value. rewrite <- numbered_fst, filter_map. f_equal. apply filter_same. intros [e x] I. cbn [fst snd].
  assert (Q : znth l e = Some x); [|rewrite Q; reflexivity]. unfold numbered in I. apply In_nth_error in I. destruct I as [n I].
  assert (G : forall (a : list Z) (b : list Z) n, nth_error (combine a b) n = Some (e, x) -> nth_error a n = Some e /\ nth_error b n = Some x). { clear. induction a as [|y a IH]; intros [|z b] [|n] H; try discriminate; cbn [combine nth_error] in *; [injection H as -> ->; split; reflexivity|apply IH, H]. }
  apply G in I. destruct I as [I1 I2]. assert (Z.of_nat n = e). { assert (L : (n < length l)%nat) by (apply nth_error_Some; congruence). assert (K : nth_error (zseq (Z.of_nat (length l))) n = Some (Z.of_nat n)); [|congruence]. unfold zseq. rewrite Nat2Z.id. rewrite (map_nth_error Z.of_nat n (seq 0 (length l)) (d := n)); [reflexivity|]. clear - L. rewrite <- (Nat.add_0_l n) at 2. generalize 0%nat as s. revert n L. generalize (length l) as m. induction m as [|m IH]; intros n L s; [lia|]. destruct n as [|n]; cbn [seq nth_error]; [f_equal; lia|]. rewrite IH by lia. f_equal. lia. }
  subst e. unfold znth. destruct (Z.ltb_spec (Z.of_nat n) 0); [lia|]. rewrite Nat2Z.id. exact I2.
Qed.
Lemma nth_placed (doms : list dom) : forall i (p : nat * dom), In p (combine (seq i (length doms)) doms) -> exists k, fst p = (i + k)%nat /\ nth_error doms k = Some (snd p).
Proof.
  induction doms as [|d r IH]; intros i p I; [contradiction|]. cbn [length seq combine] in I. destruct I as [<-|I]; [exists 0%nat; split; [cbn; lia|reflexivity]|]. destruct (IH (S i) p I) as (k & E & N). exists (S k). split; [lia|exact N].
Qed.
Lemma with_value_some l v : In v l -> with_value l v <> [].
Proof.
  intros I E. assert (H : In v (map snd (numbered l))). { unfold numbered. rewrite snd_combine; [exact I|]. apply Nat2Z.inj. rewrite length_zseq. lia. } apply in_map_iff in H. destruct H as ([e x] & Ex & H). cbn [snd] in Ex. subst x.
  assert (J : In e (with_value l v)) by (unfold with_value; apply in_map_iff; exists (e, v); split; [reflexivity|]; apply filter_In; split; [exact H|apply Z.eqb_refl]). rewrite E in J. contradiction.
Qed.
Lemma with_value_none l v : ~ In v l -> with_value l v = [].
Proof.
  intros N. unfold with_value. rewrite filter_none; [reflexivity|]. intros [e x] I. cbn [snd]. apply Z.eqb_neq. intros ->. apply N. unfold numbered in I. apply in_combine_r in I. exact I.
Qed.
Lemma to_int_small v : 0 <= v < 2 ^ 31 -> to_int v = v.
Proof. intros H. unfold to_int. rewrite Z.mod_small; lia. Qed.

Lemma partition_by_field doms f fuel : mesh_ok doms -> (forall d l, In d doms -> mget (d_fields d) f = Some l -> Forall (fun v => 0 <= v < 2 ^ 31) l) ->
  exists vs, StronglySorted Z.lt vs /\ (forall v, In v vs <-> with_field_value doms f v <> []) /\
    partition (S fuel) doms (Some [mkReq (SFld f None) None]) None = Ok (map (fun v => (v, with_field_value doms f v)) vs).
Proof.
  intros [W _] R. unfold partition. cbn [initialize flat_map]. rewrite app_nil_r, init_field. fold (placed doms). set (ss := flat_map (value_sels f) (placed doms)).
  assert (Ps : forall p, In p (placed doms) -> In (snd p) doms /\ nth (fst p) doms (mkDom 0 None 0 []) = snd p).
  { intros p I. destruct (nth_placed doms 0 p I) as (k & -> & N). split; [eapply nth_error_In; exact N|]. apply nth_error_nth. exact N. }
  assert (Sv : forall s, In s ss -> exists p l v, In p (placed doms) /\ mget (d_fields (snd p)) f = Some l /\ In v l /\ s = mkSel (SFld f (Some v)) (Some false) (fst p)).
  { intros s I. unfold ss in I. apply in_flat_map in I. destruct I as (p & Ip & I). unfold value_sels in I. destruct (mget (d_fields (snd p)) f) as [l|] eqn:M; [|contradiction]. apply in_map_iff in I. destruct I as (v & <- & I). apply (proj1 (zset_in _ _)) in I. exists p, l, v. repeat split; assumption. }
  set (t := count_targets ss). cbn [split_loop]. fold t. rewrite Z.ltb_irrefl. replace (if t =? 0 then Ok ss else Ok ss) with (Ok ss) by (destruct (t =? 0); reflexivity). cbn [obind]. fold t.
  assert (Dn : Forall (fun x => is_free x = false) (map (fun s => dest (s_what s)) ss)).
  { apply Forall_forall. intros x I. apply in_map_iff in I. destruct I as (s & <- & I). destruct (Sv s I) as (p & l & v & Ip & M & Iv & ->). cbn [s_what dest]. destruct (Ps p Ip) as [Id _]. specialize (R _ _ Id M). rewrite Forall_forall in R. specialize (R v Iv). rewrite to_int_small by exact R. unfold is_free. apply Z.eqb_neq. lia. }
  unfold map_chunks. rewrite Z.eqb_refl. rewrite snd_combine by (rewrite !map_length; reflexivity). rewrite each_named by exact Dn. cbn [obind]. rewrite combine_maps.
  assert (Eq : forall v, flat_map snd (filter (fun x => fst x =? v) (map (fun s => (dest (s_what s), chunk doms s)) ss)) = with_field_value doms f v).
  { intros v. rewrite filter_map. cbn [fst]. rewrite flat_map_concat_map, map_map. cbn [snd]. rewrite <- flat_map_concat_map. unfold ss. rewrite filter_flat_map. unfold with_field_value.
    assert (As : forall (A B C : Type) (g : B -> list C) (h : A -> list B) l, flat_map g (flat_map h l) = flat_map (fun x => flat_map g (h x)) l) by (clear; intros A B C g h l; induction l as [|x l IH]; [reflexivity|]; cbn [flat_map]; rewrite flat_map_app, IH; reflexivity).
    rewrite As. apply flat_map_same. intros p Ip. destruct (Ps p Ip) as [Id Np]. unfold elements. rewrite filter_map. cbn [snd]. unfold value_sels, has_value, value_at. destruct (mget (d_fields (snd p)) f) as [l|] eqn:M; [|cbn [filter flat_map]; rewrite filter_none by reflexivity; reflexivity].
    rewrite Forall_forall in W. destruct (W _ Id) as (_ & _ & Wf). rewrite <- (Wf f l M). rewrite <- with_value_znth. rewrite filter_map. cbn [s_what dest]. specialize (R _ _ Id M). rewrite Forall_forall in R.
    rewrite (filter_same _ (fun x => x =? v)) by (intros x I; apply (proj1 (zset_in _ _)) in I; rewrite to_int_small by (apply R, I); reflexivity). rewrite filter_one by (apply sorted_nodup, zset_sorted).
    destruct (existsb (Z.eqb v) (zset l)) eqn:Ex; cbn [map flat_map].
    - rewrite app_nil_r. unfold chunk, sel_dom. cbn [s_from s_whole s_what]. rewrite Np. cbn [sel_ids]. unfold field. rewrite M. reflexivity.
    - rewrite with_value_none; [reflexivity|]. intros I. assert (T : existsb (Z.eqb v) (zset l) = true) by (apply existsb_exists; exists v; split; [apply zset_in, I|apply Z.eqb_refl]). congruence. }
  exists (zset (map (fun s => dest (s_what s)) ss)). split; [apply zset_sorted|]. split.
  - intros v. rewrite zset_in, <- Eq. rewrite filter_map. cbn [fst]. rewrite flat_map_concat_map, map_map. cbn [snd]. rewrite <- flat_map_concat_map. split.
    + intros I E. apply in_map_iff in I. destruct I as (s & Es & I). assert (J : In s (filter (fun s => dest (s_what s) =? v) ss)) by (apply filter_In; split; [exact I|apply Z.eqb_eq, Es]).
      destruct (Sv s I) as (p & l & x & Ip & M & Iv & ->). destruct (Ps p Ip) as [Id Np]. pose proof (with_value_some l x Iv) as Q. destruct (with_value l x) as [|e r] eqn:Wx; [congruence|].
      assert (K : In (fst p, e) (flat_map (chunk doms) (filter (fun s => dest (s_what s) =? v) ss))); [|change (flat_map (chunk doms) (filter (fun s => dest (s_what s) =? v) ss) = []) in E; rewrite E in K; contradiction]. apply in_flat_map. eexists. split; [exact J|]. unfold chunk, sel_dom. cbn [s_from s_whole s_what]. rewrite Np. cbn [sel_ids]. unfold field. rewrite M, Wx. left. reflexivity.
    + intros N. destruct (filter (fun s => dest (s_what s) =? v) ss) as [|s r] eqn:E; [exfalso; apply N; reflexivity|]. assert (J : In s (filter (fun s => dest (s_what s) =? v) ss)) by (rewrite E; left; reflexivity). apply filter_In in J. destruct J as [J1 J2]. apply Z.eqb_eq in J2. apply in_map_iff. exists s. split; assumption.
  - f_equal. apply map_ext. intros v. f_equal. apply Eq.
Qed.
