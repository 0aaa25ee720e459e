From Coq Require Import ZArith Lia Permutation Sorting.Sorted.
From Verif Require Import Base Node NodeFacts Partition PartitionSpec PartitionFacts.
Local Open Scope Z_scope.

(** ** Boxes of cells *)
Lemma filter_flat_map {A B} (p : B -> bool) (f : A -> list B) l : filter p (flat_map f l) = flat_map (fun x => filter p (f x)) l.
Proof. induction l as [|x l IH]; [reflexivity|]. cbn [flat_map]. rewrite filter_app, IH. reflexivity. Qed.
Lemma filter_map {A B} (p : B -> bool) (f : A -> B) l : filter p (map f l) = map f (filter (fun x => p (f x)) l).
Proof. induction l as [|x l IH]; [reflexivity|]. cbn [map filter]. rewrite IH. destruct (p (f x)); reflexivity. Qed.
Lemma filter_same {A} (p q : A -> bool) l : (forall x, In x l -> p x = q x) -> filter p l = filter q l.
Proof. induction l as [|x l IH]; intros H; [reflexivity|]. cbn [filter]. rewrite H by (left; reflexivity). rewrite IH; [reflexivity|]. intros y I. apply H. right. exact I. Qed.
Lemma flat_map_if {A B} (b : A -> bool) (f : A -> list B) l : flat_map (fun x => if b x then f x else []) l = flat_map f (filter b l).
Proof. induction l as [|x l IH]; [reflexivity|]. cbn [flat_map filter]. rewrite IH. destruct (b x); reflexivity. Qed.
Lemma filter_and {A} (b : bool) (q : A -> bool) l : filter (fun x => b && q x) l = if b then filter q l else [].
Proof. destruct b; [reflexivity|]. induction l as [|x l IH]; [reflexivity|]. exact IH. Qed.
Lemma filter_none {A} (f : A -> bool) l : (forall x, In x l -> f x = false) -> filter f l = [].
Proof. induction l as [|x l IH]; intros H; [reflexivity|]. cbn [filter]. rewrite H by (left; reflexivity). apply IH. intros y I. apply H. right. exact I. Qed.
Lemma filter_between a b n : 0 <= a -> filter (fun x => between a x b) (zseq n) = zrange a (Z.min b (n - 1)).
Proof.
  intros A. destruct (Z_lt_le_dec (Z.min b (n - 1)) a) as [H|H].
  - rewrite zrange_nil by exact H. apply filter_none. intros x I. apply in_zseq in I. unfold between. destruct (Z.leb_spec a x), (Z.leb_spec x b); try reflexivity. lia.
  - rewrite <- zrange_0. rewrite (zrange_split 0 (a - 1) (n - 1)) by lia. replace (a - 1 + 1) with a by lia. rewrite (zrange_split a (Z.min b (n - 1)) (n - 1)) by lia. rewrite !filter_app.
    rewrite (filter_none _ (zrange 0 (a - 1))), (filter_all _ (zrange a _)), (filter_none _ (zrange (_ + 1) _)); [cbn [app]; apply app_nil_r|..]; intros x I; apply in_zrange in I; unfold between; destruct (Z.leb_spec a x), (Z.leb_spec x b); try reflexivity; lia.
Qed.
Lemma box_full g : 0 <= c0 g -> 0 <= c1 g -> 0 <= c2 g -> box g (0, 0, 0) (c0 g - 1, c1 g - 1, c2 g - 1) = zseq (c0 g * c1 g * c2 g).
Proof.
  intros A B C. unfold box. cbn [c0 c1 c2 fst snd]. rewrite !zrange_0. rewrite <- (grid_row (c0 g * c1 g)) by nia.
  apply flat_map_same. intros k _. rewrite <- (grid_row (c0 g)) by lia. rewrite flat_map_concat_map, (flat_map_concat_map _ (zseq (c1 g))), concat_map, map_map. f_equal. apply map_ext. intros j. rewrite map_map. apply map_ext. intros i. lia.
Qed.
Lemma coords g i j k : 0 <= i < c0 g -> 0 <= j < c1 g -> (k * (c0 g * c1 g) + j * c0 g + i) mod c0 g = i /\ (k * (c0 g * c1 g) + j * c0 g + i) / c0 g mod c1 g = j /\ (k * (c0 g * c1 g) + j * c0 g + i) / (c0 g * c1 g) = k.
Proof.
  intros I J. split; [|split].
  - replace (k * (c0 g * c1 g) + j * c0 g + i) with (i + (k * c1 g + j) * c0 g) by ring. rewrite Z_mod_plus_full. apply Z.mod_small. exact I.
  - replace (k * (c0 g * c1 g) + j * c0 g + i) with (i + (k * c1 g + j) * c0 g) by ring. rewrite Z_div_plus_full by lia. rewrite (Z.div_small i) by exact I. rewrite Z.add_0_l. rewrite Z.add_comm, Z_mod_plus_full. apply Z.mod_small. exact J.
  - replace (k * (c0 g * c1 g) + j * c0 g + i) with ((j * c0 g + i) + k * (c0 g * c1 g)) by ring. rewrite Z_div_plus_full by nia. rewrite Z.div_small by nia. reflexivity.
Qed.
Lemma box_wanted d g s e : d_grid d = Some g -> 1 <= c0 g -> 1 <= c1 g -> 1 <= c2 g -> 0 <= c0 s -> 0 <= c1 s -> 0 <= c2 s ->
  filter (wanted d (SLog s e)) (zseq (c0 g * c1 g * c2 g)) = box g s (Z.min (c0 e) (c0 g - 1), Z.min (c1 e) (c1 g - 1), Z.min (c2 e) (c2 g - 1)).
Proof.
  intros G A B C S0 S1 S2. rewrite <- box_full by lia. unfold box at 1. cbn [c0 c1 c2 fst snd]. rewrite !zrange_0. rewrite filter_flat_map.
  rewrite (flat_map_same _ (fun k => if between (c2 s) k (c2 e) then flat_map (fun j => map (fun i => k * (c0 g * c1 g) + j * c0 g + i) (zrange (c0 s) (Z.min (c0 e) (c0 g - 1)))) (zrange (c1 s) (Z.min (c1 e) (c1 g - 1))) else [])).
  - rewrite flat_map_if, filter_between by exact S2. unfold box. cbn [c0 c1 c2 fst snd]. reflexivity.
  - intros k _. rewrite filter_flat_map. rewrite (flat_map_same _ (fun j => if between (c2 s) k (c2 e) && between (c1 s) j (c1 e) then map (fun i => k * (c0 g * c1 g) + j * c0 g + i) (zrange (c0 s) (Z.min (c0 e) (c0 g - 1))) else [])).
    + rewrite flat_map_if. rewrite filter_and. destruct (between (c2 s) k (c2 e)); [|reflexivity]. rewrite filter_between by exact S1. reflexivity.
    + intros j J. apply in_zseq in J. rewrite filter_map. rewrite (filter_same _ (fun i => (between (c2 s) k (c2 e) && between (c1 s) j (c1 e)) && between (c0 s) i (c0 e))).
      * rewrite filter_and. destruct (_ && _); [|reflexivity]. rewrite filter_between by exact S0. reflexivity.
      * intros i I. apply in_zseq in I. cbn [wanted]. rewrite G. destruct (coords g i j k I J) as (-> & -> & ->). destruct (between (c2 s) k (c2 e)), (between (c1 s) j (c1 e)), (between (c0 s) i (c0 e)); reflexivity.
Qed.

(** ** Ranges *)
Lemma in_rids rs x : In x (rids rs) <-> exists r, In r rs /\ fst r <= x <= snd r.
Proof. unfold rids. rewrite in_flat_map. split; intros (r & I & H); exists r; split; try exact I; apply in_zrange; exact H. Qed.
Lemma rids_nodup rs : Forall (fun r => 0 <= fst r <= snd r) rs -> ForallOrdPairs (fun r r' => snd r < fst r' \/ snd r' < fst r) rs -> NoDup (rids rs).
Proof.
  intros F P. induction P as [|r rs D P IH]; [constructor|]. inversion F as [|? ? F1 F2]; subst. change (rids (r :: rs)) with (zrange (fst r) (snd r) ++ rids rs).
  specialize (IH F2). revert IH. generalize (zrange_nodup (fst r) (snd r)). intros N1 N2. assert (Dj : forall x, In x (zrange (fst r) (snd r)) -> In x (rids rs) -> False).
  { intros x I J. apply in_zrange in I. apply in_rids in J. destruct J as (r' & I' & J). rewrite Forall_forall in D. specialize (D r' I'). lia. }
  revert Dj. generalize (zrange (fst r) (snd r)) N1. intros l N. induction N as [|x l X N IH]; intros Dj; [exact N2|]. cbn [app]. constructor.
  - intros I. apply in_app_or in I. destruct I as [I|I]; [contradiction|]. apply (Dj x); [left; reflexivity|exact I].
  - apply IH. intros y I J. apply (Dj y); [right; exact I|exact J].
Qed.
Lemma rids_wanted d rs : Forall (fun r => 0 <= fst r <= snd r) rs -> ForallOrdPairs (fun r r' => snd r < fst r' \/ snd r' < fst r) rs ->
  Permutation (filter (fun i => i <? d_n d) (rids rs)) (filter (wanted d (SRng rs)) (zseq (d_n d))).
Proof.
  intros F P. apply NoDup_Permutation; [apply NoDup_filter, rids_nodup; assumption|apply NoDup_filter, zseq_nodup|].
  intros x. rewrite !filter_In, in_zseq, in_rids. cbn [wanted]. rewrite existsb_exists. rewrite Forall_forall in F. split.
  - intros [(r & I & H) L]. apply Z.ltb_lt in L. split; [specialize (F r I); lia|]. exists r. split; [exact I|]. unfold between. apply andb_true_intro. split; apply Z.leb_le; lia.
  - intros [L (r & I & H)]. apply andb_prop in H. destruct H as [H1 H2]. apply Z.leb_le in H1, H2. split; [exists r; split; [exact I|lia]|apply Z.ltb_lt; lia].
Qed.
Lemma all_in_whole d rs : Forall (fun r => 0 <= fst r <= snd r) rs -> ForallOrdPairs (fun r r' => snd r < fst r' \/ snd r' < fst r) rs -> 0 <= d_n d -> is_whole d (SRng rs) = true ->
  Permutation (filter (fun i => i <? d_n d) (rids rs)) (zseq (d_n d)).
Proof.
  intros F P N W. rewrite rids_wanted by assumption. rewrite filter_all; [reflexivity|]. intros x I. cbn [wanted]. apply existsb_exists.
  assert (G : forall rs, Forall (fun r => 0 <= fst r <= snd r) rs -> unique (flat_map (fun r => zrange (fst r) (Z.min (snd r) (d_n d - 1))) rs) = d_n d -> exists r, In r rs /\ between (fst r) x (snd r) = true).
  { clear - I N. intros rs F U. unfold unique in U. set (l := flat_map _ rs) in U. assert (J : In x l).
    { apply (nodup_In Z.eq_dec). apply (NoDup_length_incl (NoDup_nodup Z.eq_dec l) (l' := zseq (d_n d))); [|intros y Y|exact I].
      - apply Nat2Z.inj_le. rewrite U, length_zseq. lia.
      - apply nodup_In in Y. apply in_flat_map in Y. destruct Y as (r & R & Y). apply in_zrange in Y. rewrite Forall_forall in F. specialize (F r R). apply in_zseq. lia. }
    apply in_flat_map in J. destruct J as (r & R & J). apply in_zrange in J. exists r. split; [exact R|]. unfold between. apply andb_true_intro. split; apply Z.leb_le; lia. }
  destruct rs as [|r [|r' rs]].
  - cbn [is_whole] in W. apply (G [] F). apply Z.eqb_eq, W.
  - cbn [is_whole] in W. apply andb_prop in W. destruct W as [W1 W2]. apply Z.eqb_eq in W1, W2. apply in_zseq in I. exists r. split; [left; reflexivity|]. unfold between. apply andb_true_intro. split; apply Z.leb_le; lia.
  - apply (G _ F). apply Z.eqb_eq, W.
Qed.

(** ** Values *)
Lemma numbered_fst l : map fst (numbered l) = zseq (Z.of_nat (length l)).
Proof.
  unfold numbered. assert (E : length (zseq (Z.of_nat (length l))) = length l) by (apply Nat2Z.inj; rewrite length_zseq; lia). revert E. generalize (zseq (Z.of_nat (length l))) as m. induction l as [|x l IH]; intros [|y m] E; try discriminate; [reflexivity|]. cbn [combine map fst]. f_equal. apply IH. injection E as E. exact E.
Qed.
Lemma values_cover l : Permutation (flat_map (with_value l) (zset l)) (zseq (Z.of_nat (length l))).
Proof.
  rewrite <- numbered_fst. transitivity (flat_map snd (map (fun e => (snd e, [fst e])) (numbered l))).
  - rewrite <- (boxes_perm _ (zset l)); [|apply sorted_nodup, zset_sorted|].
    + apply flat_map_perm. intros v _. unfold with_value. rewrite filter_map. cbn [fst]. induction (filter _ _) as [|x m IH]; [constructor|]. cbn [map flat_map snd app]. constructor. exact IH.
    + intros x I. apply in_map_iff in I. destruct I as ([i v] & <- & I). cbn [fst snd]. apply zset_in. unfold numbered in I. apply in_combine_r in I. exact I.
  - induction (numbered l) as [|x m IH]; [constructor|]. cbn [map flat_map snd app]. constructor. exact IH.
Qed.

(** ** One request in one domain *)
Lemma clamp_whole g s e n : 1 <= c0 g -> 1 <= c1 g -> 1 <= c2 g -> c0 g * c1 g * c2 g = n -> 0 <= c0 s <= c0 e -> 0 <= c1 s <= c1 e -> 0 <= c2 s <= c2 e ->
  c0 e < c0 g -> c1 e < c1 g -> c2 e < c2 g -> n = cells c0 s e * cells c1 s e * cells c2 s e -> box g s e = zseq n.
Proof.
  intros A B C E S0 S1 S2 T0 T1 T2 H. unfold cells in H. destruct s as [[s0 s1] s2], e as [[e0 e1] e2], g as [[g0 g1] g2]. cbn [c0 c1 c2 fst snd] in *.
  assert (K : forall a b c A B C, 1 <= a <= A -> 1 <= b <= B -> 1 <= c <= C -> A * B * C = a * b * c -> a = A).
  { clear. intros a b c A B C Ha Hb Hc H. destruct (Z.eq_dec a A) as [E|E]; [exact E|]. exfalso. assert (b * c <= B * C) by nia. assert (a * (b * c) <= (A - 1) * (B * C)) by nia. nia. }
  assert (e0 - s0 + 1 = g0) by (apply (K _ (e1 - s1 + 1) (e2 - s2 + 1) _ g1 g2); lia).
  assert (e1 - s1 + 1 = g1) by (apply (K _ (e0 - s0 + 1) (e2 - s2 + 1) _ g0 g2); lia).
  assert (e2 - s2 + 1 = g2) by (apply (K _ (e0 - s0 + 1) (e1 - s1 + 1) _ g0 g1); lia).
  assert (s0 = 0 /\ s1 = 0 /\ s2 = 0) as (-> & -> & ->) by lia. rewrite <- E. pose proof (box_full (g0, g1, g2)) as Q. cbn [c0 c1 c2 fst snd] in Q. rewrite <- Q by lia. f_equal. f_equal; [f_equal|]; lia.
Qed.
Lemma all_in_exp d ids : NoDup ids -> Forall (fun i => 0 <= i < d_n d) ids -> Permutation (filter (fun i => i <? d_n d) ids) (filter (wanted d (SExp ids)) (zseq (d_n d))).
Proof.
  intros N F. rewrite Forall_forall in F. apply NoDup_Permutation; [apply NoDup_filter, N|apply NoDup_filter, zseq_nodup|].
  intros x. rewrite !filter_In, in_zseq. cbn [wanted]. rewrite existsb_exists. split.
  - intros [I L]. split; [apply F, I|]. exists x. split; [exact I|apply Z.eqb_refl].
  - intros [L (y & I & E)]. apply Z.eqb_eq in E. subst y. split; [exact I|]. apply Z.ltb_lt. lia.
Qed.
Lemma chosen_ok doms i d q s' : nth i doms (mkDom 0 None 0 []) = d -> In d doms -> well_formed d -> goes_to q d = true -> fair doms q -> applicable d (q_sel q) = Some s' ->
  Forall (ok doms) (chosen i d s') /\ Permutation (flat_map (el doms) (chosen i d s')) (map (pair i) (filter (wanted d (q_sel q)) (zseq (d_n d)))).
Proof.
  intros Ni Id (Wn & Wg & Wf) Gt Fr Ap. unfold fair in Fr. destruct (q_sel q) as [s e|ids|rs|f [v|]]; cbn [applicable] in Ap.
  - destruct (d_grid d) as [g|] eqn:G; [|discriminate]. destruct (Wg g eq_refl) as (A & B & C & E). destruct ((c0 s <? c0 g) && (c1 s <? c1 g) && (c2 s <? c2 g)) eqn:T; [|discriminate]. injection Ap as <-.
    apply andb_prop in T. destruct T as [T T2]. apply andb_prop in T. destruct T as [T0 T1]. apply Z.ltb_lt in T0, T1, T2. set (e' := (Z.min (c0 e) (c0 g - 1), Z.min (c1 e) (c1 g - 1), Z.min (c2 e) (c2 g - 1))).
    cbn [chosen flat_map]. unfold el. cbn [s_from s_what]. unfold sel_dom. cbn [s_from]. rewrite Ni. split.
    + constructor; [|constructor]. split; unfold taken_whole, sel_dom; cbn [s_from s_what s_whole]; rewrite Ni.
      * intros _. exists g. unfold e'. cbn [c0 c1 c2 fst snd]. split; [exact G|]. repeat (split; [lia|]). lia.
      * cbn [is_whole slen sel_ids]. rewrite G. intros W. apply Z.eqb_eq in W. rewrite (clamp_whole g s e' (d_n d)); try assumption; try (unfold e'; cbn [c0 c1 c2 fst snd]; lia). reflexivity.
    + rewrite app_nil_r. cbn [sel_ids]. rewrite G. rewrite <- E, box_wanted by (try exact G; lia). reflexivity.
  - injection Ap as <-. destruct Fr as [N F]. specialize (F d Id Gt). cbn [chosen flat_map]. unfold el. cbn [s_from s_what]. unfold sel_dom. cbn [s_from]. rewrite Ni. split.
    + constructor; [|constructor]. split; unfold taken_whole, sel_dom; cbn [s_from s_what s_whole]; rewrite Ni.
      * intros _. eapply Forall_impl; [|exact F]. cbn. lia.
      * cbn [is_whole sel_ids]. intros W. apply andb_prop in W. destruct W as [W _]. apply andb_prop in W. destruct W as [W _]. apply Z.eqb_eq in W. rewrite Forall_forall in F. rewrite filter_all by (intros x I; apply Z.ltb_lt; apply F, I).
        apply NoDup_Permutation_bis; [exact N| |intros x I; apply in_zseq, F, I]. apply Nat2Z.inj_le. rewrite length_zseq. lia.
    + rewrite app_nil_r. cbn [sel_ids]. apply Permutation_map, all_in_exp; assumption.
  - injection Ap as <-. destruct Fr as [F P]. cbn [chosen flat_map]. unfold el. cbn [s_from s_what]. unfold sel_dom. cbn [s_from]. rewrite Ni. split.
    + constructor; [|constructor]. split; unfold taken_whole, sel_dom; cbn [s_from s_what s_whole]; rewrite Ni.
      * intros _. exact F.
      * intros W. apply all_in_whole; assumption.
    + rewrite app_nil_r. cbn [sel_ids]. apply Permutation_map, rids_wanted; assumption.
  - contradiction.
  - destruct (mget (d_fields d) f) as [l|] eqn:M; [|discriminate]. injection Ap as <-. cbn [chosen split_sel]. unfold field. rewrite M. split.
    + apply Forall_forall. intros x I. apply in_map_iff in I. destruct I as (y & <- & I). apply in_map_iff in I. destruct I as (v & <- & I). split; [intros _; cbn [s_what sound]; discriminate|]. unfold taken_whole. cbn [s_whole]. discriminate.
    + rewrite filter_all by (intros x _; cbn [wanted]; rewrite M; reflexivity). rewrite <- (Wf f l M). rewrite <- values_cover. rewrite map_map. rewrite flat_map_concat_map, map_map, <- flat_map_concat_map. rewrite (flat_map_concat_map (with_value l)), concat_map, map_map, <- flat_map_concat_map.
      rewrite (flat_map_same _ (fun v => map (pair i) (with_value l v))); [reflexivity|]. intros v _. unfold el. cbn [s_from s_what]. unfold sel_dom. cbn [s_from]. rewrite Ni. cbn [sel_ids]. unfold field. rewrite M. reflexivity.
Qed.
Lemma not_applicable doms d q : In d doms -> well_formed d -> fair doms q -> applicable d (q_sel q) = None -> filter (wanted d (q_sel q)) (zseq (d_n d)) = [].
Proof.
  intros Id (Wn & Wg & Wf) Fr Ap. unfold fair in Fr. destruct (q_sel q) as [s e|ids|rs|f v]; cbn [applicable] in Ap; try discriminate.
  - destruct (d_grid d) as [g|] eqn:G; [|apply filter_none; intros x _; cbn [wanted]; rewrite G; reflexivity]. destruct (Wg g eq_refl) as (A & B & C & E). rewrite <- E, box_wanted by (try exact G; lia).
    destruct (Z.ltb_spec (c0 s) (c0 g)) as [L0|L0]; [destruct (Z.ltb_spec (c1 s) (c1 g)) as [L1|L1]; [destruct (Z.ltb_spec (c2 s) (c2 g)) as [L2|L2]; [discriminate|]|]|]; unfold box; cbn [c0 c1 c2 fst snd].
    + rewrite (zrange_nil (c2 s)) by lia. reflexivity.
    + rewrite (zrange_nil (c1 s)) by lia. cbn [flat_map]. induction (zrange _ _) as [|x l IH]; [reflexivity|]. exact IH.
    + rewrite (zrange_nil (c0 s)) by lia. cbn [map]. induction (zrange (c2 s) _) as [|x l IH]; [reflexivity|]. cbn [flat_map]. rewrite IH. rewrite app_nil_r. clear. induction (zrange (c1 s) _) as [|y m IH]; [reflexivity|]. exact IH.
  - destruct (mget (d_fields d) f) eqn:M; [discriminate|]. apply filter_none. intros x _. cbn [wanted]. rewrite M. reflexivity.
Qed.
Lemma picks_ids q i d : goes_to q d = true -> picks q (i, d) = map (pair i) (filter (wanted d (q_sel q)) (zseq (d_n d))).
Proof. intros H. unfold picks, elements. cbn [fst snd]. rewrite H, filter_map. reflexivity. Qed.
Lemma init_one_ok doms q : fair doms q -> forall doms' i, (forall k d, nth_error doms' k = Some d -> nth (i + k) doms (mkDom 0 None 0 []) = d) -> (forall d, In d doms' -> In d doms) -> Forall well_formed doms' -> NoDup (map d_id doms') ->
  Forall (ok doms) (init_one i doms' q) /\ Permutation (flat_map (el doms) (init_one i doms' q)) (flat_map (picks q) (combine (seq i (length doms')) doms')).
Proof.
  intros Fr. induction doms' as [|d r IH]; intros i Hn Hi W N; [split; constructor|]. cbn [init_one length seq combine flat_map].
  inversion W as [|? ? Wd Wr]; subst. inversion N as [|? ? Nd Nr]; subst.
  assert (IH' : Forall (ok doms) (init_one (S i) r q) /\ Permutation (flat_map (el doms) (init_one (S i) r q)) (flat_map (picks q) (combine (seq (S i) (length r)) r))).
  { apply IH; try assumption; [|intros x I; apply Hi; right; exact I]. intros k x K. rewrite <- (Hn (S k) x K). f_equal. lia. }
  fold (goes_to q d). destruct (goes_to q d) eqn:Gt; [|unfold picks at 1; cbn [fst snd]; rewrite Gt; exact IH'].
  assert (Ni : nth i doms (mkDom 0 None 0 []) = d) by (rewrite <- (Hn 0%nat d eq_refl); f_equal; lia). assert (Id : In d doms) by (apply Hi; left; reflexivity). rewrite (picks_ids q i d Gt).
  destruct (applicable d (q_sel q)) as [s'|] eqn:Ap.
  - destruct (chosen_ok doms i d q s' Ni Id Wd Gt Fr Ap) as [C1 C2]. rewrite flat_map_app. destruct (q_dom q) as [n|] eqn:Q.
    + rewrite app_nil_r. split; [exact C1|]. cbn [flat_map]. apply Permutation_app; [exact C2|]. unfold goes_to in Gt. rewrite Q in Gt. apply Z.eqb_eq in Gt.
      enough (E : flat_map (picks q) (combine (seq (S i) (length r)) r) = []) by (rewrite E; constructor). clear - Nd Q Gt. generalize (S i) as j. induction r as [|x r IH]; intros j; [reflexivity|]. cbn [length seq combine flat_map]. rewrite IH by (intros I; apply Nd; right; exact I). unfold picks, goes_to. cbn [fst snd]. rewrite Q. destruct (Z.eqb_spec (d_id x) n) as [E|E]; [|reflexivity]. exfalso. apply Nd. left. congruence.
    + destruct IH' as [I1 I2]. split; [apply Forall_app; split; assumption|]. apply Permutation_app; assumption.
  - rewrite (not_applicable doms d q Id Wd Fr Ap). cbn [map app]. exact IH'.
Qed.
Lemma all_ids d : well_formed d -> Permutation (sel_ids d (all_of d)) (zseq (d_n d)) /\ (0 < slen d (all_of d) -> sound d (all_of d)).
Proof.
  intros (Wn & Wg & _). unfold all_of. destruct (d_grid d) as [g|] eqn:G; cbn [sel_ids sound slen fold_left fst snd].
  - rewrite G. destruct (Wg g eq_refl) as (A & B & C & E). unfold last_cell. destruct (Z.ltb_spec 0 (c0 g)); [|lia]. destruct (Z.ltb_spec 0 (c1 g)); [|lia]. destruct (Z.ltb_spec 0 (c2 g)); [|lia]. rewrite box_full, E by lia. split; [reflexivity|].
    intros _. exists g. split; [reflexivity|]. cbn [c0 c1 c2 fst snd]. repeat (split; [lia|]). lia.
  - cbn [flat_map fst snd]. rewrite app_nil_r, zrange_0. rewrite filter_all by (intros x I; apply in_zseq in I; apply Z.ltb_lt; lia). split; [reflexivity|]. intros H. constructor; [cbn [fst snd]; lia|constructor].
Qed.
Lemma init_all_ok doms : forall doms' i, (forall k d, nth_error doms' k = Some d -> nth (i + k) doms (mkDom 0 None 0 []) = d) -> Forall well_formed doms' ->
  Forall (ok doms) (init_all i doms') /\ Permutation (flat_map (el doms) (init_all i doms')) (flat_map elements (combine (seq i (length doms')) doms')).
Proof.
  induction doms' as [|d r IH]; intros i Hn W; [split; constructor|]. cbn [init_all length seq combine flat_map]. inversion W as [|? ? Wd Wr]; subst.
  assert (Ni : nth i doms (mkDom 0 None 0 []) = d) by (rewrite <- (Hn 0%nat d eq_refl); f_equal; lia). destruct (all_ids d Wd) as [P Sd].
  destruct (IH (S i)) as [I1 I2]; [|assumption|]. { intros k x K. rewrite <- (Hn (S k) x K). f_equal. lia. }
  split.
  - constructor; [|exact I1]. split; unfold sel_dom; cbn [s_from s_what]; rewrite Ni; [exact Sd|]. intros _. exact P.
  - apply Permutation_app; [|exact I2]. unfold el, elements, sel_dom. cbn [s_from s_what fst snd]. rewrite Ni. apply Permutation_map, P.
Qed.
Lemma init_ok doms qs : mesh_ok doms -> match qs with Some l => Forall (fair doms) l | None => True end ->
  Forall (ok doms) (initialize doms qs) /\ Permutation (flat_map (el doms) (initialize doms qs)) (picked doms qs).
Proof.
  intros [W N] F. assert (Hn : forall k d, nth_error doms k = Some d -> nth (0 + k) doms (mkDom 0 None 0 []) = d) by (intros k d K; cbn [Nat.add]; apply nth_error_nth; exact K).
  destruct qs as [l|]; cbn [initialize picked]; [|apply init_all_ok; assumption].
  induction F as [|q l Fq F IH]; [split; constructor|]. cbn [flat_map]. destruct IH as [I1 I2]. destruct (init_one_ok doms q Fq doms 0 Hn (fun d I => I) W N) as [J1 J2].
  split; [apply Forall_app; split; assumption|]. rewrite flat_map_app. apply Permutation_app; assumption.
Qed.
Lemma mesh_fields doms s : mesh_ok doms -> full_fields (sel_dom doms s).
Proof.
  intros [W _]. unfold sel_dom. destruct (nth_in_or_default (s_from s) doms (mkDom 0 None 0 [])) as [I|E].
  - rewrite Forall_forall in W. destruct (W _ I) as (_ & _ & H). exact H.
  - rewrite E. intros f l H. discriminate H.
Qed.

(** every element, once *)
Lemma partition_covers fuel doms qs target out : mesh_ok doms -> match qs with Some l => Forall (fair doms) l | None => True end -> partition fuel doms qs target = Ok out ->
  Permutation (flat_map snd out) (picked doms qs).
Proof. intros M F H. destruct (init_ok doms qs M F) as [O P]. rewrite (partition_keeps fuel doms qs target out (fun s => mesh_fields doms s M) O H). exact P. Qed.
