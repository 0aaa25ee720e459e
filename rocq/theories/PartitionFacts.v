From Coq Require Import ZArith Lia Permutation Sorting.Sorted.
From Verif Require Import Base Node NodeFacts Partition.
Local Open Scope Z_scope.

(** ** Lists *)
Lemma zseq_neg n : n <= 0 -> zseq n = [].
Proof. intros H. unfold zseq. replace (Z.to_nat n) with 0%nat by lia. reflexivity. Qed.
Lemma zseq_nodup n : NoDup (zseq n).
Proof. unfold zseq. apply FinFun.Injective_map_NoDup; [intros x y; lia|apply seq_NoDup]. Qed.
Lemma zseq_plus a b : 0 <= a -> 0 <= b -> zseq (a + b) = zseq a ++ map (fun i => a + i) (zseq b).
Proof.
  intros A B. unfold zseq. rewrite Z2Nat.inj_add by assumption. rewrite seq_app, map_app. f_equal. rewrite Nat.add_0_l, map_map.
  rewrite <- (Nat.add_0_r (Z.to_nat a)) at 1. generalize 0%nat as s. induction (Z.to_nat b) as [|n IH]; intros s; [reflexivity|]. cbn [seq map]. f_equal; [lia|]. rewrite <- IH. f_equal. f_equal. lia.
Qed.
Lemma in_zrange a b x : In x (zrange a b) <-> a <= x <= b.
Proof.
  unfold zrange. rewrite in_map_iff. split.
  - intros (i & <- & I). apply in_zseq in I. lia.
  - intros H. exists (x - a). split; [lia|]. apply in_zseq. lia.
Qed.
Lemma zrange_nil a b : b < a -> zrange a b = [].
Proof. intros H. unfold zrange. rewrite zseq_neg by lia. reflexivity. Qed.
Lemma zrange_split a m b : a <= m + 1 -> m <= b -> zrange a b = zrange a m ++ zrange (m + 1) b.
Proof.
  intros A B. unfold zrange. replace (b - a + 1) with ((m - a + 1) + (b - (m + 1) + 1)) by lia. rewrite zseq_plus, map_app, map_map by lia. f_equal. apply map_ext. lia.
Qed.
Lemma zrange_0 n : zrange 0 (n - 1) = zseq n.
Proof. unfold zrange. replace (n - 1 - 0 + 1) with n by lia. rewrite map_ext with (g := fun x => x) by lia. apply map_id. Qed.
Lemma length_zrange a b : Z.of_nat (length (zrange a b)) = Z.max 0 (b - a + 1).
Proof. unfold zrange. rewrite map_length, length_zseq. lia. Qed.
Lemma zrange_nodup a b : NoDup (zrange a b).
Proof. unfold zrange. apply FinFun.Injective_map_NoDup; [intros x y; lia|apply zseq_nodup]. Qed.
Lemma flat_map_split {A B} (f g : A -> list B) l : Permutation (flat_map (fun x => f x ++ g x) l) (flat_map f l ++ flat_map g l).
Proof.
  induction l as [|x l IH]; [constructor|]. cbn [flat_map]. rewrite IH. rewrite <- !app_assoc. apply Permutation_app_head. rewrite !app_assoc. apply Permutation_app_tail, Permutation_app_comm.
Qed.
Lemma flat_map_perm {A B} (f g : A -> list B) l : (forall x, In x l -> Permutation (f x) (g x)) -> Permutation (flat_map f l) (flat_map g l).
Proof.
  induction l as [|x l IH]; intros H; [constructor|]. cbn [flat_map]. apply Permutation_app; [apply H; left; reflexivity|apply IH; intros y I; apply H; right; exact I].
Qed.
Lemma flat_map_same {A B} (f g : A -> list B) l : (forall x, In x l -> f x = g x) -> flat_map f l = flat_map g l.
Proof. induction l as [|x l IH]; intros H; [reflexivity|]. cbn [flat_map]. rewrite H by (left; reflexivity). rewrite IH; [reflexivity|]. intros y I. apply H. right. exact I. Qed.
Lemma filter_all {A} (f : A -> bool) l : (forall x, In x l -> f x = true) -> filter f l = l.
Proof. induction l as [|x l IH]; intros H; [reflexivity|]. cbn [filter]. rewrite H by (left; reflexivity). f_equal. apply IH. intros y I. apply H. right. exact I. Qed.
Lemma grid_row a b : 0 <= a -> 0 <= b -> flat_map (fun j => map (fun i => j * a + i) (zseq a)) (zseq b) = zseq (a * b).
Proof.
  intros A B. pattern b. apply natlike_ind; [|intros n N IH|exact B].
  - rewrite (zseq_neg 0) by lia. cbn [flat_map]. rewrite zseq_neg by lia. reflexivity.
  - unfold Z.succ. rewrite zseq_plus by lia. rewrite flat_map_app, IH. replace (a * (n + 1)) with (a * n + a) by lia. rewrite (zseq_plus (a * n)) by lia. apply f_equal. change (zseq 1) with [0]. cbn [map flat_map]. rewrite app_nil_r. apply map_ext. lia.
Qed.

(** ** Sets *)
Lemma zinsert_in x l y : In y (zinsert x l) <-> y = x \/ In y l.
Proof.
  induction l as [|z l IH]; cbn [zinsert In]; [intuition|]. destruct (Z.ltb_spec x z); [cbn [In]; intuition|]. destruct (Z.eqb_spec x z) as [->|N]; cbn [In]; [intuition|]. rewrite IH. intuition.
Qed.
Lemma zset_in l y : In y (zset l) <-> In y l.
Proof. induction l as [|x l IH]; [reflexivity|]. cbn [zset fold_right]. rewrite zinsert_in. fold (zset l). rewrite IH. cbn [In]. intuition. Qed.
Lemma zinsert_sorted x l : StronglySorted Z.lt l -> StronglySorted Z.lt (zinsert x l).
Proof.
  induction 1 as [|z l S IH F]; cbn [zinsert]; [repeat constructor|]. destruct (Z.ltb_spec x z).
  - constructor; [constructor; assumption|]. constructor; [assumption|]. eapply Forall_impl; [|exact F]. cbn. lia.
  - destruct (Z.eqb_spec x z) as [->|N]; [constructor; assumption|]. constructor; [exact IH|]. apply Forall_forall. intros y I. apply zinsert_in in I. destruct I as [->|I]; [lia|]. rewrite Forall_forall in F. apply F, I.
Qed.
Lemma zset_sorted l : StronglySorted Z.lt (zset l).
Proof. induction l as [|x l IH]; [constructor|]. apply zinsert_sorted, IH. Qed.
Lemma sorted_nodup l : StronglySorted Z.lt l -> NoDup l.
Proof. induction 1 as [|x l S IH F]; constructor; [|exact IH]. intros I. rewrite Forall_forall in F. specialize (F x I). lia. Qed.
Lemma sorted_eq l : forall l', StronglySorted Z.lt l -> StronglySorted Z.lt l' -> (forall x, In x l <-> In x l') -> l = l'.
Proof.
  induction l as [|x l IH]; intros l' S S' E.
  - destruct l' as [|y l']; [reflexivity|]. exfalso. apply (proj2 (E y)). left. reflexivity.
  - destruct l' as [|y l']; [exfalso; apply (proj1 (E x)); left; reflexivity|]. inversion S as [|? ? S1 F1]; subst. inversion S' as [|? ? S2 F2]; subst. rewrite Forall_forall in F1, F2.
    assert (x = y). { destruct (proj1 (E x) (or_introl eq_refl)) as [A|A]; [congruence|]. destruct (proj2 (E y) (or_introl eq_refl)) as [B|B]; [congruence|]. specialize (F1 y B). specialize (F2 x A). lia. } subst y. f_equal.
    apply IH; try assumption. intros z. split; intros I.
    + destruct (proj1 (E z) (or_intror I)) as [A|A]; [|exact A]. specialize (F1 z I). lia.
    + destruct (proj2 (E z) (or_intror I)) as [A|A]; [|exact A]. specialize (F2 z I). lia.
Qed.
Lemma zseq_sorted n : StronglySorted Z.lt (zseq n).
Proof.
  unfold zseq. generalize 0%nat as s. induction (Z.to_nat n) as [|k IH]; intros s; [constructor|]. cbn [seq map]. constructor; [apply IH|]. apply Forall_forall. intros y I. apply in_map_iff in I. destruct I as (i & <- & I). apply in_seq in I. lia.
Qed.
(** things sorted into boxes *)
Lemma boxes_perm {A} (l : list (Z * list A)) ks : NoDup ks -> (forall x, In x l -> In (fst x) ks) ->
  Permutation (flat_map (fun k => flat_map snd (filter (fun x => fst x =? k) l)) ks) (flat_map snd l).
Proof.
  induction l as [|x l IH]; intros N H; cbn [flat_map].
  - cbn [filter flat_map]. induction ks as [|k ks IHk]; [constructor|]. cbn [flat_map]. inversion N; subst. rewrite IHk; [constructor|assumption|intros x []].
  - rewrite <- IH; [|exact N|intros y I; apply H; right; exact I].
    assert (K : In (fst x) ks) by (apply H; left; reflexivity). clear IH H. induction ks as [|k ks IHk]; [contradiction|]. inversion N as [|? ? N1 N2]; subst. cbn [flat_map filter].
    destruct (Z.eqb_spec (fst x) k) as [E|E].
    + cbn [flat_map]. rewrite <- app_assoc. apply Permutation_app_head. apply Permutation_app_head. rewrite (flat_map_same _ (fun k => flat_map snd (filter (fun y => fst y =? k) l))); [reflexivity|].
      intros z I. cbn [filter]. destruct (Z.eqb_spec (fst x) z) as [Q|Q]; [|reflexivity]. subst. contradiction.
    + destruct K as [K|K]; [congruence|]. rewrite (IHk N2 K). rewrite !app_assoc. apply Permutation_app_tail, Permutation_app_comm.
Qed.

(** ** Splitting one selection *)
(** what a selection may be for the elements to be kept *)
Definition sound (d : dom) (s : sel) : Prop :=
  match s with
  | SLog s e => exists g, d_grid d = Some g /\ 0 <= c0 s <= c0 e /\ 0 <= c1 s <= c1 e /\ 0 <= c2 s <= c2 e /\ c0 e < c0 g /\ c1 e < c1 g /\ c2 e < c2 g
  | SExp ids => Forall (fun i => 0 <= i) ids
  | SRng rs => Forall (fun r => 0 <= fst r <= snd r) rs
  | SFld _ v => v <> None
  end.
Lemma box_split0 g s e m : c0 s <= m + 1 -> m <= c0 e -> Permutation (box g s e) (box g s (m, c1 e, c2 e) ++ box g (m + 1, c1 s, c2 s) e).
Proof.
  intros A B. unfold box. cbn [c0 c1 c2 fst snd]. rewrite <- flat_map_split. apply flat_map_perm. intros k _. rewrite <- flat_map_split. apply flat_map_perm. intros j _.
  rewrite (zrange_split (c0 s) m (c0 e)) by assumption. rewrite map_app. reflexivity.
Qed.
Lemma box_split1 g s e m : c1 s <= m + 1 -> m <= c1 e -> Permutation (box g s e) (box g s (c0 e, m, c2 e) ++ box g (c0 s, m + 1, c2 s) e).
Proof.
  intros A B. unfold box. cbn [c0 c1 c2 fst snd]. rewrite <- flat_map_split. apply flat_map_perm. intros k _. rewrite (zrange_split (c1 s) m (c1 e)) by assumption. rewrite flat_map_app. reflexivity.
Qed.
Lemma box_split2 g s e m : c2 s <= m + 1 -> m <= c2 e -> Permutation (box g s e) (box g s (c0 e, c1 e, m) ++ box g (c0 s, c1 s, m + 1) e).
Proof. intros A B. unfold box. cbn [c0 c1 c2 fst snd]. rewrite (zrange_split (c2 s) m (c2 e)) by assumption. rewrite flat_map_app. reflexivity. Qed.

Ltac axes := unfold cells in *; cbn [c0 c1 c2 fst snd] in *.
(** two parts, both sound, none empty, with the elements of the whole *)
Lemma split_log_ok d s e : sound d (SLog s e) -> split_log s e <> [] ->
  exists a b, split_log s e = [a; b] /\ sound d a /\ sound d b /\ Permutation (sel_ids d (SLog s e)) (sel_ids d a ++ sel_ids d b) /\ 1 <= slen d a /\ 1 <= slen d b /\ slen d a + slen d b = slen d (SLog s e).
Proof.
  intros (g & G & A0 & A1 & A2 & B0 & B1 & B2). unfold split_log. cbn [slen sel_ids]. rewrite G.
  set (n0 := cells c0 s e). set (n1 := cells c1 s e). set (n2 := cells c2 s e).
  assert (P0 : 1 <= n0) by (unfold n0; axes; lia). assert (P1 : 1 <= n1) by (unfold n1; axes; lia). assert (P2 : 1 <= n2) by (unfold n2; axes; lia).
  destruct (Z.ltb_spec 1 (n0 * n1 * n2)) as [L|L]; [|congruence]. intros _.
  assert (Half : forall n, 2 <= n -> 1 <= n / 2 /\ n / 2 <= n - 1) by (intros n H; split; [apply Z.div_le_lower_bound; lia|apply Z.div_le_upper_bound; lia]).
  destruct (Z.ltb_spec n0 n1) as [L1|L1]; [change (1 =? 1) with true | change (0 =? 1) with false]; cbv iota.
  - destruct (Z.ltb_spec n1 n2) as [L2|L2]; [change (2 =? 0) with false; change (2 =? 1) with false | change (1 =? 0) with false; change (1 =? 1) with true]; cbv iota.
    + destruct (Half n2 ltac:(lia)) as [H1 H2]. eexists _, _. split; [reflexivity|]. cbn [sound slen sel_ids]. rewrite G.
      split; [exists g; axes; unfold n2 in *; axes; intuition lia|]. split; [exists g; axes; unfold n2 in *; axes; intuition lia|].
      split; [pose proof (box_split2 g s e (c2 s + n2 / 2 - 1)) as Q; replace (c2 s + n2 / 2 - 1 + 1) with (c2 s + n2 / 2) in Q by lia; apply Q; unfold n2 in *; axes; lia|].
      unfold n0, n1, n2 in *. axes. set (h := (c2 e - c2 s + 1) / 2) in *. clearbody h. nia.
    + destruct (Half n1 ltac:(lia)) as [H1 H2]. eexists _, _. split; [reflexivity|]. cbn [sound slen sel_ids]. rewrite G.
      split; [exists g; axes; unfold n1 in *; axes; intuition lia|]. split; [exists g; axes; unfold n1 in *; axes; intuition lia|].
      split; [pose proof (box_split1 g s e (c1 s + n1 / 2 - 1)) as Q; replace (c1 s + n1 / 2 - 1 + 1) with (c1 s + n1 / 2) in Q by lia; apply Q; unfold n1 in *; axes; lia|].
      unfold n0, n1, n2 in *. axes. set (h := (c1 e - c1 s + 1) / 2) in *. clearbody h. nia.
  - destruct (Z.ltb_spec n0 n2) as [L2|L2]; [change (2 =? 0) with false; change (2 =? 1) with false | change (0 =? 0) with true]; cbv iota.
    + destruct (Half n2 ltac:(lia)) as [H1 H2]. eexists _, _. split; [reflexivity|]. cbn [sound slen sel_ids]. rewrite G.
      split; [exists g; axes; unfold n2 in *; axes; intuition lia|]. split; [exists g; axes; unfold n2 in *; axes; intuition lia|].
      split; [pose proof (box_split2 g s e (c2 s + n2 / 2 - 1)) as Q; replace (c2 s + n2 / 2 - 1 + 1) with (c2 s + n2 / 2) in Q by lia; apply Q; unfold n2 in *; axes; lia|].
      unfold n0, n1, n2 in *. axes. set (h := (c2 e - c2 s + 1) / 2) in *. clearbody h. nia.
    + assert (G2 : 2 <= n0) by (clearbody n0 n1 n2; clear - P0 P1 P2 L L1 L2; assert (n0 = 1 -> n1 = 1) by lia; assert (n0 = 1 -> n2 = 1) by lia; destruct (Z.eq_dec n0 1) as [E|E]; [rewrite E, H, H0 in L by assumption; lia|lia]).
      destruct (Half n0 G2) as [H1 H2]. eexists _, _. split; [reflexivity|]. cbn [sound slen sel_ids]. rewrite G.
      split; [exists g; axes; unfold n0 in *; axes; intuition lia|]. split; [exists g; axes; unfold n0 in *; axes; intuition lia|].
      split; [pose proof (box_split0 g s e (c0 s + n0 / 2 - 1)) as Q; replace (c0 s + n0 / 2 - 1 + 1) with (c0 s + n0 / 2) in Q by lia; apply Q; unfold n0 in *; axes; lia|].
      unfold n0, n1, n2 in *. axes. set (h := (c0 e - c0 s + 1) / 2) in *. clearbody h. nia.
Qed.
Lemma split_log_some s e : 1 < cells c0 s e * cells c1 s e * cells c2 s e -> split_log s e <> [].
Proof. intros H. unfold split_log. destruct (Z.ltb_spec 1 (cells c0 s e * cells c1 s e * cells c2 s e)); [|lia]. destruct (_ =? 0); [discriminate|]. destruct (_ =? 1); discriminate. Qed.

Lemma firstn_skipn_filter {A} (f : A -> bool) h l : filter f l = filter f (firstn h l) ++ filter f (skipn h l).
Proof. rewrite <- filter_app, firstn_skipn. reflexivity. Qed.
Lemma filter_filter {A} (f : A -> bool) l : filter f (filter f l) = filter f l.
Proof. apply filter_all. intros x I. apply filter_In in I. apply I. Qed.
Definition rids (rs : list (Z * Z)) : list Z := flat_map (fun r => zrange (fst r) (snd r)) rs.
Lemma cut_ok r : 0 <= fst r <= snd r -> rids (fst (cut r)) ++ rids (snd (cut r)) = zrange (fst r) (snd r) /\ Forall (fun r => 0 <= fst r <= snd r) (fst (cut r)) /\ Forall (fun r => 0 <= fst r <= snd r) (snd (cut r)).
Proof.
  destruct r as [a b]. cbn [fst snd]. intros H. unfold cut. destruct (Z.eqb_spec (b - a + 1) 1) as [E|E].
  - cbn [fst snd rids flat_map]. replace b with a by lia. rewrite !app_nil_r. split; [reflexivity|]. split; repeat constructor; cbn; lia.
  - destruct (Z.eqb_spec (b - a + 1) 2) as [E2|E2].
    + cbn [fst snd rids flat_map]. rewrite !app_nil_r. replace b with (a + 1) by lia. rewrite (zrange_split a a (a + 1)) by lia. split; [reflexivity|]. split; repeat constructor; cbn; lia.
    + cbn [fst snd rids flat_map]. rewrite !app_nil_r. assert (1 <= (b - a + 1) / 2 /\ (b - a + 1) / 2 + 1 <= b - a) as [H1 H2].
      { split; [apply Z.div_le_lower_bound; lia|]. pose proof (Z.div_le_upper_bound (b - a + 1) 2 (b - a - 1)). lia. }
      rewrite (zrange_split a (a + (b - a + 1) / 2) b) by lia. split; [reflexivity|]. split; repeat constructor; cbn; lia.
Qed.
Lemma split_rng_ok d rs : sound d (SRng rs) -> exists a b, split_rng rs = [SRng a; SRng b] /\ sound d (SRng a) /\ sound d (SRng b) /\ rids rs = rids a ++ rids b.
Proof.
  cbn [sound]. intros F. unfold split_rng. set (k := split_index _ 0 0 rs). destruct (nth_error rs k) as [r|] eqn:E.
  - destruct (nth_error_split rs k E) as (l1 & l2 & Ers & K). rewrite <- K. clearbody k. subst k. rewrite Ers in *. rewrite firstn_app, Nat.sub_diag, firstn_all, firstn_O, app_nil_r.
    replace (skipn (S (length l1)) (l1 ++ r :: l2)) with l2 by (replace (l1 ++ r :: l2) with ((l1 ++ [r]) ++ l2) by (rewrite <- app_assoc; reflexivity); replace (S (length l1)) with (length (l1 ++ [r])) by (rewrite app_length; cbn; lia); rewrite skipn_app, skipn_all, Nat.sub_diag; reflexivity).
    apply Forall_app in F. destruct F as [F1 F2]. inversion F2 as [|? ? Fr F3]; subst. destruct (cut_ok r Fr) as (C1 & C2 & C3). destruct (cut r) as [x y]. cbn [fst snd] in *.
    exists (l1 ++ x), (y ++ l2). split; [reflexivity|]. split; [apply Forall_app; split; assumption|]. split; [apply Forall_app; split; assumption|].
    unfold rids in *. rewrite !flat_map_app. cbn [flat_map]. rewrite <- C1. rewrite <- !app_assoc. reflexivity.
  - apply nth_error_None in E. exists (firstn k rs), (skipn (S k) rs). cbn [app]. rewrite app_nil_r. split; [reflexivity|].
    rewrite firstn_all2 by exact E. rewrite skipn_all2 by lia. split; [exact F|]. split; [constructor|]. rewrite app_nil_r. reflexivity.
Qed.
(** a single range is split into two that are not empty *)
Lemma split_one a b : 0 <= a -> a < b -> exists m, a <= m < b /\ split_rng [(a, b)] = [SRng [(a, m)]; SRng [(m + 1, b)]].
Proof.
  intros A B. unfold split_rng. cbn [fold_left fst snd split_index]. rewrite Z.add_0_l. assert (H : ((b - a + 1) / 2 <? b - a + 1) = true) by (apply Z.ltb_lt, Z.div_lt; lia).
  rewrite H. cbn [nth_error firstn skipn app]. unfold cut. destruct (Z.eqb_spec (b - a + 1) 1); [lia|]. destruct (Z.eqb_spec (b - a + 1) 2) as [E2|E2].
  - exists a. split; [lia|]. replace (a + 1) with b by lia. reflexivity.
  - exists (a + (b - a + 1) / 2). split; [|reflexivity]. split; [pose proof (Z.div_pos (b - a + 1) 2); lia|]. pose proof (Z.div_le_upper_bound (b - a + 1) 2 (b - a - 1)). lia.
Qed.
Lemma with_value_nonneg l v : Forall (fun i => 0 <= i < Z.of_nat (length l)) (with_value l v).
Proof.
  unfold with_value. apply Forall_forall. intros x I. apply in_map_iff in I. destruct I as ([i y] & <- & I). apply filter_In in I. destruct I as [I _]. unfold numbered in I. apply in_combine_l in I. apply in_zseq in I. exact I.
Qed.
Lemma split_sel_ok d s : sound d s -> (forall f l, mget (d_fields d) f = Some l -> Z.of_nat (length l) = d_n d) -> split_sel d s <> [] ->
  Forall (sound d) (split_sel d s) /\ Permutation (flat_map (sel_ids d) (split_sel d s)) (sel_ids d s).
Proof.
  intros H Fl N. destruct s as [s e|ids|rs|f [v|]].
  - cbn [split_sel] in *. destruct (split_log_ok d s e H N) as (a & b & E & Sa & Sb & P & _). rewrite E. cbn [flat_map]. rewrite app_nil_r. split; [constructor; [exact Sa|constructor; [exact Sb|constructor]]|]. symmetry. exact P.
  - cbn [split_sel split_exp flat_map sel_ids]. cbn [sound] in H. split.
    + constructor; [|constructor; [|constructor]]; cbn [sound]; apply Forall_forall; intros x I; apply filter_In in I; destruct I as [I _]; rewrite Forall_forall in H; apply H.
      * rewrite <- (firstn_skipn (length ids / 2) ids). apply in_or_app. left. exact I.
      * rewrite <- (firstn_skipn (length ids / 2) ids). apply in_or_app. right. exact I.
    + rewrite !filter_filter, app_nil_r. rewrite <- firstn_skipn_filter. reflexivity.
  - cbn [split_sel]. destruct (split_rng_ok d rs H) as (a & b & -> & Sa & Sb & E). split; [constructor; [exact Sa|constructor; [exact Sb|constructor]]|]. cbn [flat_map sel_ids]. fold (rids a) (rids b) (rids rs). rewrite app_nil_r, E, filter_app. reflexivity.
  - cbn [split_sel]. pose proof (with_value_nonneg (field d f) v) as W. cbn [flat_map sel_ids]. set (ids := with_value (field d f) v) in *. set (h := (length ids / 2)%nat).
    assert (In_ : forall x, In x ids -> 0 <= x < d_n d).
    { intros x I. rewrite Forall_forall in W. specialize (W x I). unfold field in W. destruct (mget (d_fields d) f) as [l|] eqn:E; [rewrite (Fl f l E) in W; exact W|cbn in W; lia]. }
    assert (I1 : forall x, In x (firstn h ids) -> In x ids) by (intros x I; rewrite <- (firstn_skipn h ids); apply in_or_app; left; exact I).
    assert (I2 : forall x, In x (skipn h ids) -> In x ids) by (intros x I; rewrite <- (firstn_skipn h ids); apply in_or_app; right; exact I).
    split.
    + constructor; [|constructor; [|constructor]]; cbn [sound]; apply Forall_forall; intros x I; apply In_; auto.
    + rewrite app_nil_r. rewrite !filter_all; [rewrite firstn_skipn; reflexivity| |]; intros x I; apply Z.ltb_lt; apply In_; auto.
  - exfalso. apply H. reflexivity.
Qed.

(** ** The loop keeps the elements *)
Definition el (doms : list dom) (s : selection) : list (nat * Z) := map (pair (s_from s)) (sel_ids (sel_dom doms s) (s_what s)).
Definition taken_whole (doms : list dom) (s : selection) : bool := match s_whole s with Some b => b | None => is_whole (sel_dom doms s) (s_what s) end.
Definition ok (doms : list dom) (s : selection) : Prop :=
  (0 < slen (sel_dom doms s) (s_what s) -> sound (sel_dom doms s) (s_what s)) /\
  (taken_whole doms s = true -> Permutation (sel_ids (sel_dom doms s) (s_what s)) (zseq (d_n (sel_dom doms s)))).
Definition full_fields (d : dom) : Prop := forall f l, mget (d_fields d) f = Some l -> Z.of_nat (length l) = d_n d.

Lemma largest_spec doms ss : forall i best at_ k, largest doms i best at_ ss = Some k ->
  at_ = Some k \/ exists j s, k = (i + j)%nat /\ nth_error ss j = Some s /\ best < slen (sel_dom doms s) (s_what s).
Proof.
  induction ss as [|s ss IH]; intros i best at_ k H; cbn [largest] in H; [left; exact H|].
  destruct (Z.ltb_spec best (slen (sel_dom doms s) (s_what s))) as [L|L].
  - apply IH in H. right. destruct H as [H|(j & s' & -> & N & B)]; [injection H as <-; exists 0%nat, s; split; [lia|split; [reflexivity|exact L]]|]. exists (S j), s'. split; [lia|]. split; [exact N|lia].
  - apply IH in H. destruct H as [H|(j & s' & -> & N & B)]; [left; exact H|]. right. exists (S j), s'. split; [lia|]. split; [exact N|lia].
Qed.
Lemma chunk_perm doms s : ok doms s -> Permutation (chunk doms s) (el doms s).
Proof.
  intros [_ W]. unfold chunk, el. fold (taken_whole doms s). destruct (taken_whole doms s); [|reflexivity]. apply Permutation_map. symmetry. apply W. reflexivity.
Qed.
Lemma at_place {A} (l : list A) i x : nth_error l i = Some x -> l = firstn i l ++ x :: skipn (S i) l.
Proof.
  revert i; induction l as [|y l IH]; intros [|i] H; cbn [nth_error] in H; try discriminate.
  - injection H as ->. reflexivity.
  - cbn [firstn skipn app]. f_equal. apply IH, H.
Qed.
Lemma replaced_ok doms s ps : ok doms s -> 0 < slen (sel_dom doms s) (s_what s) -> full_fields (sel_dom doms s) -> split_sel (sel_dom doms s) (s_what s) = ps -> ps <> [] ->
  Forall (ok doms) (map (fun p => mkSel p (Some false) (s_from s)) ps) /\ Permutation (flat_map (el doms) (map (fun p => mkSel p (Some false) (s_from s)) ps)) (el doms s).
Proof.
  intros O L Fl <- N. destruct O as [O _]. destruct (split_sel_ok _ _ (O L) Fl N) as [Sd P]. split.
  - apply Forall_forall. intros x I. apply in_map_iff in I. destruct I as (p & <- & I). rewrite Forall_forall in Sd. split; cbn [s_what s_from sel_dom]; [intros _; exact (Sd p I)|]. unfold taken_whole. cbn [s_whole]. discriminate.
  - unfold el at 2. rewrite <- P. rewrite flat_map_concat_map, map_map. rewrite (flat_map_concat_map (sel_ids _)), concat_map, map_map. reflexivity.
Qed.
Lemma split_loop_keeps doms target : (forall s, full_fields (sel_dom doms s)) -> forall fuel ss ss', Forall (ok doms) ss -> split_loop fuel doms target ss = Ok ss' ->
  Forall (ok doms) ss' /\ Permutation (flat_map (el doms) ss') (flat_map (el doms) ss).
Proof.
  intros Fl. induction fuel as [|k IH]; intros ss ss' O H; cbn [split_loop] in H; [discriminate|].
  destruct (count_targets ss =? 0); [injection H as <-; split; [exact O|reflexivity]|].
  destruct (count_targets ss <? target); [|injection H as <-; split; [exact O|reflexivity]].
  destruct (largest doms 0 0 None ss) as [i|] eqn:Lg; [|discriminate]. apply largest_spec in Lg. destruct Lg as [Lg|(j & s & -> & N & B)]; [discriminate|]. cbn [Nat.add] in H. rewrite N in H.
  destruct (split_sel (sel_dom doms s) (s_what s)) as [|p ps] eqn:Sp; [exact (IH _ _ O H)|].
  assert (Os : ok doms s) by (rewrite Forall_forall in O; apply O; eapply nth_error_In; exact N).
  destruct (replaced_ok doms s (p :: ps) Os B (Fl s) Sp ltac:(discriminate)) as [R1 R2].
  rewrite (at_place ss j s N) in O. apply Forall_app in O. destruct O as [O1 O2]. inversion O2 as [|? ? _ O3]; subst.
  apply IH in H; [|apply Forall_app; split; [exact O1|apply Forall_app; split; [exact R1|exact O3]]]. destruct H as [H1 H2]. split; [exact H1|].
  rewrite H2. rewrite (at_place ss j s N) at 3. rewrite !flat_map_app. cbn [flat_map]. rewrite R2. reflexivity.
Qed.
Lemma length_assign_each dds : forall domid res, length (assign_each domid res dds) = length dds.
Proof. induction dds as [|x dds IH]; intros domid res; [reflexivity|]. cbn [assign_each]. destruct (is_free x); cbn [length]; rewrite IH; reflexivity. Qed.
Lemma length_assign_group cs : forall domid res running remaining len rt, length (assign_group domid res running remaining len rt cs) = length cs.
Proof. induction cs as [|[n x] cs IH]; intros; [reflexivity|]. cbn [assign_group]. destruct (is_free x); [destruct (_ && _)|]; cbn [length]; rewrite IH; reflexivity. Qed.
Lemma length_map_chunks target nt cs ds : map_chunks target nt cs = Ok ds -> length ds = length cs.
Proof.
  unfold map_chunks. destruct (nt =? target); [intros H; injection H as <-; rewrite length_assign_each, map_length; reflexivity|].
  destruct (target <? nt); [|discriminate]. intros H. injection H as <-. apply length_assign_group.
Qed.
Lemma snd_combine {A B} (l : list A) : forall m : list B, length l = length m -> map snd (combine l m) = m.
Proof. induction l as [|x l IH]; intros [|y m] H; try discriminate; [reflexivity|]. cbn [combine map snd]. f_equal. apply IH. injection H as H. exact H. Qed.
Lemma partition_keeps fuel doms qs target out : (forall s, full_fields (sel_dom doms s)) -> Forall (ok doms) (initialize doms qs) -> partition fuel doms qs target = Ok out ->
  Permutation (flat_map snd out) (flat_map (el doms) (initialize doms qs)).
Proof.
  intros Fl O. unfold partition. set (t := match target with Some t => t | None => _ end). destruct (split_loop fuel doms t (initialize doms qs)) as [ss'| | |] eqn:E; cbn [obind]; try discriminate.
  destruct (split_loop_keeps doms t Fl fuel _ _ O E) as [O' P]. set (cs := map (chunk doms) ss'). destruct (map_chunks _ _ _) as [ds| | |] eqn:M; cbn [obind]; try discriminate. intros H. injection H as <-.
  apply length_map_chunks in M. rewrite combine_length, !map_length in M. unfold cs in M. rewrite map_length, Nat.min_id in M.
  rewrite flat_map_concat_map, map_map. cbn [snd]. rewrite <- flat_map_concat_map. rewrite boxes_perm.
  - rewrite flat_map_concat_map, snd_combine by (unfold cs; rewrite map_length; exact M). unfold cs. rewrite <- flat_map_concat_map. rewrite <- P. apply flat_map_perm. intros s I. apply chunk_perm. rewrite Forall_forall in O'. apply O', I.
  - apply sorted_nodup, zset_sorted.
  - intros [v c] I. apply in_combine_l in I. apply zset_in. exact I.
Qed.
