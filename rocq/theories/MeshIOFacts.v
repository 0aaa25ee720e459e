From Coq Require Import ZArith Lia Permutation.
From Verif Require Import Base Path PathFacts Json JsonSpec JsonSchema Node NodeFacts SchemaInv MeshIO MeshIOSpec.
Local Open Scope Z_scope.

(** * The map of domains to files *)
Section D2F.
Variable n nf : Z.
Hypothesis Hnf : 1 <= nf <= n.
Let off := first_of n nf.
Let q := n / nf. Let r := n mod nf.
Lemma q_pos : 1 <= q. Proof. unfold q. apply Z.div_le_lower_bound; lia. Qed.
Lemma r_range : 0 <= r < nf. Proof. apply Z.mod_pos_bound. lia. Qed.
Lemma off_eq f : off f = f * q + Z.min f r. Proof. reflexivity. Qed.
Lemma off_step f : off f + 1 <= off (f + 1).
Proof. pose proof q_pos. rewrite !off_eq. nia. Qed.
Lemma off_mono f g : f <= g -> off f <= off g.
Proof. pose proof q_pos. rewrite !off_eq. intros. nia. Qed.
Lemma off_0 : off 0 = 0. Proof. pose proof r_range. rewrite off_eq. lia. Qed.
Lemma off_end : off nf = n.
Proof. pose proof r_range. rewrite off_eq. rewrite Z.min_r by lia. unfold q, r. pose proof (Z.div_mod n nf). lia. Qed.
Lemma off_diff f : off (f + 1) - off f = n / nf + (if f <? n mod nf then 1 else 0).
Proof. rewrite !off_eq. fold q r. destruct (Z.ltb_spec f r); lia. Qed.
Lemma offsets_nth k : forall a i, (i < k)%nat ->
  nth_error (offsets (off (Z.of_nat a)) (map (fun f => n / nf + (if f <? n mod nf then 1 else 0)) (map Z.of_nat (seq a k)))) i = Some (off (Z.of_nat (a + i))).
Proof.
  induction k as [|k IH]; intros a i H; [lia|]. cbn [seq map offsets]. destruct i as [|i]; cbn [nth_error]; [rewrite Nat.add_0_r; reflexivity|].
  rewrite <- off_diff. replace (off (Z.of_nat a) + (off (Z.of_nat a + 1) - off (Z.of_nat a))) with (off (Z.of_nat (S a))).
  - rewrite IH by lia. do 3 f_equal. lia.
  - replace (Z.of_nat (S a)) with (Z.of_nat a + 1) by lia. lia.
Qed.
Lemma offsets_at f : 0 <= f < nf -> znth (offsets 0 (per_file n nf)) f = Some (off f).
Proof.
  intros H. unfold znth. destruct (Z.ltb_spec f 0); [lia|]. unfold per_file, zseq. pose proof (offsets_nth (Z.to_nat nf) 0 (Z.to_nat f) ltac:(lia)) as E.
  change (Z.of_nat 0) with 0 in E. rewrite off_0 in E. rewrite E. f_equal. f_equal. lia.
Qed.
Definition block (d f : Z) : Prop := 0 <= f < nf /\ off f <= d < off (f + 1).
Lemma block_unique d f g : block d f -> block d g -> f = g.
Proof.
  intros [F B] [G C]. destruct (Z.lt_trichotomy f g) as [H|[H|H]]; [|exact H|].
  - pose proof (off_mono (f + 1) g ltac:(lia)). lia.
  - pose proof (off_mono (g + 1) f ltac:(lia)). lia.
Qed.
Lemma assign_ok k : forall d f, 0 <= f < nf -> off f <= Z.of_nat d <= off (f + 1) -> Z.of_nat (d + k) <= n ->
  forall i g, nth_error (assign nf (offsets 0 (per_file n nf)) f (map Z.of_nat (seq d k))) i = Some g -> block (Z.of_nat (d + i)) g.
Proof.
  induction k as [|k IH]; intros d f Hf Hd Hn i g E; [destruct i; discriminate E|]. cbn [seq map assign] in E.
  set (f' := if f + 1 <? nf then _ else f) in E.
  assert (B : block (Z.of_nat d) f').
  { unfold f'. destruct (Z.ltb_spec (f + 1) nf) as [A|A].
    - rewrite offsets_at by lia. destruct (Z.leb_spec (off (f + 1)) (Z.of_nat d)) as [C|C].
      + split; [lia|]. pose proof (off_step (f + 1)). lia.
      + split; lia.
    - split; [lia|]. replace (f + 1) with nf in * by lia. rewrite off_end in *. lia. }
  clearbody f'. destruct i as [|i]; cbn [nth_error] in E.
  - injection E as <-. rewrite Nat.add_0_r. exact B.
  - replace (d + S i)%nat with (S d + i)%nat by lia. destruct B as [B1 B2]. apply (IH (S d) f'); [exact B1|lia|lia|exact E].
Qed.
Lemma assign_len offs ds : forall f, length (assign nf offs f ds) = length ds.
Proof. induction ds as [|d ds IH]; intros f; cbn [assign length]; [reflexivity|rewrite IH; reflexivity]. Qed.
Lemma d2f_len : length (d2f_map n nf) = Z.to_nat n.
Proof. unfold d2f_map. rewrite assign_len. apply length_zseq. Qed.
Lemma d2f_iff d f : znth (d2f_map n nf) d = Some f <-> 0 <= f < nf /\ first_of n nf f <= d < first_of n nf (f + 1).
Proof.
  assert (A : forall d f, znth (d2f_map n nf) d = Some f -> block d f).
  { intros d0 f0 E. unfold znth in E. destruct (Z.ltb_spec d0 0); [discriminate E|]. unfold d2f_map, zseq in E.
    apply (assign_ok (Z.to_nat n) 0%nat 0) in E; try lia.
    - cbn [Nat.add] in E. rewrite Z2Nat.id in E by lia. exact E.
    - rewrite off_0. pose proof (off_step 0). rewrite off_0 in *. cbn [Z.add] in *. lia. }
  split; [apply A|]. intros B. destruct (znth (d2f_map n nf) d) as [g|] eqn:E.
  - f_equal. apply (block_unique d); [apply A, E|exact B].
  - exfalso. destruct B as [B1 B2]. fold off in B2. pose proof (off_mono 0 f ltac:(lia)). rewrite off_0 in *. pose proof (off_mono (f + 1) nf ltac:(lia)). rewrite off_end in *.
    unfold znth in E. destruct (Z.ltb_spec d 0); [lia|]. apply nth_error_None in E. rewrite d2f_len in E. lia.
Qed.
Lemma d2f_total d : 0 <= d < n -> exists f, znth (d2f_map n nf) d = Some f /\ 0 <= f < nf.
Proof.
  intros H. destruct (znth (d2f_map n nf) d) as [g|] eqn:E; [exists g; split; [reflexivity|apply d2f_iff in E; lia]|].
  unfold znth in E. destruct (Z.ltb_spec d 0); [lia|]. apply nth_error_None in E. rewrite d2f_len in E. lia.
Qed.
Lemma first_bounds : first_of n nf 0 = 0 /\ first_of n nf nf = n /\
  forall f, first_of n nf (f + 1) - first_of n nf f = n / nf + (if f <? n mod nf then 1 else 0).
Proof. split; [exact off_0|]. split; [exact off_end|]. exact off_diff. Qed.
End D2F.

(** * Interleavings *)
Lemma merge_in {A} ls (t : list A) : merge_of ls t -> forall x, In x t <-> exists l, In l ls /\ In x l.
Proof.
  induction 1 as [ls H|ls i x l t E M IH]; intros y.
  - split; [intros []|]. intros (l & I & J). rewrite (H l I) in J. destruct J.
  - assert (Li : (i < length ls)%nat) by (apply nth_error_Some; congruence).
    cbn [In]. rewrite IH. split.
    + intros [<-|(l' & I & J)].
      * exists (x :: l). split; [eapply nth_error_In, E|left; reflexivity].
      * apply In_nth_error in I. destruct I as [j I]. destruct (Nat.eq_dec i j) as [<-|N].
        -- rewrite nth_error_set_nth_same in I by exact Li. injection I as <-. exists (x :: l). split; [eapply nth_error_In, E|right; exact J].
        -- rewrite nth_error_set_nth_other in I by congruence. exists l'. split; [eapply nth_error_In, I|exact J].
    + intros (l' & I & J). apply In_nth_error in I. destruct I as [j I]. destruct (Nat.eq_dec i j) as [<-|N].
      * rewrite E in I. injection I as <-. destruct J as [J|J]; [left; exact J|right]. exists l. split; [|exact J].
        eapply nth_error_In. apply nth_error_set_nth_same, Li.
      * right. exists l'. split; [|exact J]. apply (nth_error_In _ j). rewrite nth_error_set_nth_other by congruence. exact I.
Qed.
(** if only the k-th list has elements with p, they come in its order *)
Lemma merge_filter {A} (p : A -> bool) ls t : merge_of ls t -> forall k F, option_map (filter p) (nth_error ls k) = Some F ->
  (forall j m, j <> k -> nth_error ls j = Some m -> filter p m = []) -> filter p t = F.
Proof.
  induction 1 as [ls H|ls i x l t E M IH]; intros k F K O.
  - destruct (nth_error ls k) as [m|] eqn:Em; [|discriminate K]. injection K as <-. apply nth_error_In in Em. rewrite (H _ Em). reflexivity.
  - assert (Li : (i < length ls)%nat) by (apply nth_error_Some; congruence).
    destruct (Nat.eq_dec i k) as [->|N].
    + rewrite E in K. cbn [option_map filter] in K. cbn [filter].
      assert (G : filter p t = filter p l).
      { apply (IH k); [rewrite nth_error_set_nth_same by exact Li; reflexivity|].
        intros j m J Ej. rewrite nth_error_set_nth_other in Ej by congruence. apply (O j); assumption. }
      rewrite G. destruct (p x); congruence.
    + assert (X : filter p (x :: l) = []) by (apply (O i); [exact N|exact E]). cbn [filter] in *. destruct (p x); [discriminate X|].
      apply (IH k); [rewrite nth_error_set_nth_other by congruence; exact K|].
      intros j m J Ej. destruct (Nat.eq_dec i j) as [<-|N2].
      * rewrite nth_error_set_nth_same in Ej by exact Li. injection Ej as <-. exact X.
      * rewrite nth_error_set_nth_other in Ej by congruence. apply (O j); assumption.
Qed.

(** * Names *)
Lemma dec_zeros k s : dec_value (repeat "0"%char k ++ s) 0 = dec_value s 0.
Proof. induction k as [|k IH]; [reflexivity|]. cbn [repeat app dec_value]. exact IH. Qed.
Lemma pad_value w z : 0 <= z -> dec_value (pad w z) 0 = Some z.
Proof.
  intros H. unfold pad. rewrite dec_zeros. unfold show_Z. destruct (Z.ltb_spec z 0); [lia|].
  destruct (show_N_spec (Z.to_N z)) as (_ & _ & E). rewrite E. f_equal. lia.
Qed.
Lemma pad_inj w a b : 0 <= a -> 0 <= b -> pad w a = pad w b -> a = b.
Proof. intros A B E. pose proof (pad_value w a A) as X. rewrite E, pad_value in X by exact B. congruence. Qed.
Lemma pad_digits w z : 0 <= z -> Forall digit (pad w z) .
Proof.
  intros H. unfold pad. apply Forall_app. split.
  - apply Forall_forall. intros c I. apply repeat_spec in I. subst c. left. reflexivity.
  - unfold show_Z. destruct (Z.ltb_spec z 0); [lia|]. apply (show_N_spec (Z.to_N z)).
Qed.
Lemma dom_name_inj a b : 0 <= a -> 0 <= b -> dom_name a = dom_name b -> a = b.
Proof. intros A B E. unfold dom_name in E. apply app_inv_head in E. apply pad_inj in E; assumption. Qed.
