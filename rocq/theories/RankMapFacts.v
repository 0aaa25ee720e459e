(** Facts about RankMap.v *)
From Coq Require Import ZArith Lia.
From Verif Require Import Base RankMap RankMapSpec.
Import ListNotations.
Local Open Scope Z_scope.

Lemma max_local_spec l : forall m, (forall d, In d l -> d <= fold_left (fun m d => if m <? d then d else m) l m) /\ m <= fold_left (fun m d => if m <? d then d else m) l m /\
  (fold_left (fun m d => if m <? d then d else m) l m = m \/ In (fold_left (fun m d => if m <? d then d else m) l m) l).
Proof.
  induction l as [|a l IH]; intros m; cbn [fold_left In]; [split; [intros ? []|split; [lia|auto]]|].
  destruct (IH (if m <? a then a else m)) as (A & B & C). destruct (Z.ltb_spec m a).
  - split; [intros d [<-|D]; [exact B|exact (A d D)]|]. split; [lia|]. destruct C as [C|C]; [right; left; congruence|auto].
  - split; [intros d [<-|D]; [lia|exact (A d D)]|]. split; [lia|]. destruct C; auto.
Qed.
Lemma fold_max l : forall x, (forall d, In d l -> d <= fold_left Z.max l x) /\ x <= fold_left Z.max l x /\ (fold_left Z.max l x = x \/ In (fold_left Z.max l x) l).
Proof.
  induction l as [|a l IH]; intros x; cbn [fold_left In]; [split; [intros ? []|split; [lia|auto]]|].
  destruct (IH (Z.max x a)) as (A & B & C). split; [intros d [<-|D]; [lia|exact (A d D)]|]. split; [lia|].
  destruct C as [C|C]; [|auto]. destruct (Z.max_spec x a) as [[_ E]|[_ E]]; rewrite E in C; [right; left; congruence|left; congruence].
Qed.
Lemma max_reduce_spec l : (forall d, In d l -> d <= max_reduce l) /\ (l <> [] -> In (max_reduce l) l).
Proof.
  destruct l as [|x l]; [split; [intros ? []|intros H; exfalso; apply H; reflexivity]|]. cbn [max_reduce]. destruct (fold_max l x) as (A & B & C).
  split; [intros d [<-|D]; [exact B|exact (A d D)]|]. intros _. destruct C as [C|C]; [left; congruence|right; exact C].
Qed.
Lemma ranked_nth rs : forall k r ds, nth_error rs r = Some ds -> nth_error (ranked k rs) r = Some (k + Z.of_nat r, numbers (k + Z.of_nat r) ds).
Proof.
  induction rs as [|d rs IH]; intros k [|r] ds H; try discriminate.
  - injection H as ->. cbn [ranked nth_error]. rewrite Z.add_0_r. reflexivity.
  - cbn [ranked nth_error] in *. rewrite (IH (k + 1) r ds H). replace (k + 1 + Z.of_nat r) with (k + Z.of_nat (S r)) by lia. reflexivity.
Qed.
Lemma ranked_inv rs : forall k r x ids, nth_error (ranked k rs) r = Some (x, ids) -> x = k + Z.of_nat r /\ exists ds, nth_error rs r = Some ds /\ ids = numbers x ds.
Proof.
  induction rs as [|d rs IH]; intros k [|r] x ids H; try discriminate.
  - injection H as <- <-. split; [cbn; lia|]. exists d. split; reflexivity.
  - cbn [ranked nth_error] in *. destruct (IH _ _ _ _ H) as (E & ds & A & B). split; [lia|]. exists ds. auto.
Qed.
Lemma has_ranked rs r id : has_domain rs r id <-> exists ids, nth_error (ranked 0 rs) r = Some (Z.of_nat r, ids) /\ In id ids.
Proof.
  split.
  - intros (ds & N & H). exists (numbers (Z.of_nat r) ds). split; [apply (ranked_nth rs 0 r ds N)|]. unfold numbers. apply in_map_iff.
    destruct H as [H|[H ->]]; [exists (Some id)|exists None]; auto.
  - intros (ids & N & H). destruct (ranked_inv _ _ _ _ _ N) as (E & ds & A & ->). exists ds. split; [exact A|].
    unfold numbers in H. apply in_map_iff in H. destruct H as ([z|] & <- & H); [left; exact H|right; auto].
Qed.

Lemma put_at_length v : forall i x, length (put_at v i x) = length v.
Proof. induction v as [|a v IH]; intros [|i] x; cbn; rewrite ?IH; reflexivity. Qed.
Lemma put_at_nth v : forall i x j, (i < length v)%nat -> nth j (put_at v i x) (-1) = if Nat.eqb j i then x else nth j v (-1).
Proof.
  induction v as [|a v IH]; intros i x j H; [cbn in H; lia|]. destruct i as [|i], j as [|j]; cbn [put_at nth Nat.eqb]; try reflexivity.
  apply IH. cbn in H. lia.
Qed.
Lemma mark_all_spec l x : forall v, (forall i, In i l -> 0 <= i < Z.of_nat (length v)) ->
  exists v', mark_all v l x = Ok v' /\ length v' = length v /\
    forall j, nth j v' (-1) = if existsb (Z.eqb (Z.of_nat j)) l then x else nth j v (-1).
Proof.
  induction l as [|i l IH]; intros v H; [exists v; cbn; auto|]. cbn [mark_all]. unfold mark.
  pose proof (H i (or_introl eq_refl)) as Hi. assert (E : (0 <=? i) && (i <? Z.of_nat (length v)) = true) by (apply Bool.andb_true_iff; split; [apply Z.leb_le|apply Z.ltb_lt]; lia).
  rewrite E. cbn [obind]. destruct (IH (put_at v (Z.to_nat i) x)) as (v' & A & B & C).
  { intros j J. rewrite put_at_length. apply H. right. exact J. }
  exists v'. rewrite put_at_length in B. split; [exact A|]. split; [exact B|]. intros j. rewrite C. cbn [existsb].
  rewrite put_at_nth by lia. destruct (Z.eqb_spec (Z.of_nat j) i) as [Q|Q]; cbn [orb].
  - destruct (Nat.eqb_spec j (Z.to_nat i)); [|lia]. destruct (existsb _ l); reflexivity.
  - destruct (Nat.eqb_spec j (Z.to_nat i)); [lia|]. reflexivity.
Qed.
Lemma local_maps_spec size l : (forall k ids i, In (k, ids) l -> In i ids -> 0 <= i < Z.of_nat size) ->
  exists vs, local_maps size l = Ok vs /\
    Forall2 (fun r v => forall j, nth j v (-1) = if existsb (Z.eqb (Z.of_nat j)) (snd r) then fst r else -1) l vs.
Proof.
  induction l as [|[k ids] l IH]; intros H; [exists []; split; [reflexivity|constructor]|]. cbn [local_maps].
  destruct (mark_all_spec ids k (repeat (-1) size)) as (v & A & _ & C).
  { intros i I. rewrite repeat_length. apply (H k ids i); [left; reflexivity|exact I]. }
  destruct IH as (vs & B & F); [intros; eapply H; [right; eassumption|assumption]|]. exists (v :: vs). rewrite A. cbn [obind]. rewrite B. cbn [obind].
  split; [reflexivity|]. constructor; [|exact F]. intros j. rewrite C. cbn [fst snd]. destruct (existsb _ ids); [reflexivity|].
  destruct (Nat.lt_ge_cases j size); [rewrite nth_repeat; reflexivity|rewrite nth_overflow by (rewrite repeat_length; assumption); reflexivity].
Qed.
Lemma map_nth_error_inv {A B} (f : A -> B) l : forall i b, nth_error (map f l) i = Some b -> exists a, nth_error l i = Some a /\ f a = b.
Proof. induction l as [|a l IH]; intros [|i] b H; try discriminate; [injection H as <-; exists a; auto|exact (IH i b H)]. Qed.
Lemma forall2_nth {A B} (P : A -> B -> Prop) l m : Forall2 P l m -> forall r,
  (forall a, nth_error l r = Some a -> exists b, nth_error m r = Some b /\ P a b) /\ (forall b, nth_error m r = Some b -> exists a, nth_error l r = Some a /\ P a b).
Proof.
  induction 1 as [|a b l m H F IH]; intros r; [destruct r; split; intros; discriminate|].
  destruct r as [|r]; [split; intros x E; injection E as <-; [exists b|exists a]; auto|apply IH].
Qed.
Lemma told_map rs : (exists r id, has_domain rs r id) -> (forall r id, has_domain rs r id -> 0 <= id) -> exists m, rank_map rs = Ok m /\ tells rs m.
Proof.
  intros (r0 & id0 & H0) Pos. unfold rank_map. set (l := ranked 0 rs).
  set (mx := max_reduce (map (fun r => max_local (snd r)) l)).
  destruct (max_reduce_spec (map (fun r => max_local (snd r)) l)) as [M1 M2]. fold mx in M1, M2.
  assert (LE : forall r id, has_domain rs r id -> id <= mx).
  { intros r id H. apply has_ranked in H. destruct H as (ids & N & I).
    transitivity (max_local ids); [apply (max_local_spec ids (-1)), I|]. apply M1, in_map_iff. exists (Z.of_nat r, ids). split; [reflexivity|exact (nth_error_In _ _ N)]. }
  assert (P0 : 0 <= mx) by (pose proof (Pos _ _ H0); pose proof (LE _ _ H0); lia).
  assert (MX : exists r, has_domain rs r mx).
  { assert (NE : map (fun r => max_local (snd r)) l <> []).
    { apply has_ranked in H0. destruct H0 as (ids & N & _). fold l in N. destruct l; [destruct r0; discriminate|discriminate]. }
    specialize (M2 NE). apply in_map_iff in M2. destruct M2 as ([k ids] & E & I). cbn [snd] in E. apply In_nth_error in I. destruct I as [r I].
    destruct (ranked_inv _ _ _ _ _ I) as (K & _). exists r. apply has_ranked. exists ids. rewrite <- (Z.add_0_l (Z.of_nat r)), <- K. split; [exact I|].
    destruct (max_local_spec ids (-1)) as (_ & _ & [C|C]); fold (max_local ids) in C; [lia|]. rewrite <- E. exact C. }
  set (size := Z.to_nat (mx + 1)). assert (SZ : Z.of_nat size = mx + 1) by (unfold size; lia).
  destruct (local_maps_spec size l) as (vs & E & F).
  { intros k ids i I J. apply In_nth_error in I. destruct I as [r I]. destruct (ranked_inv _ _ _ _ _ I) as (K & _).
    assert (HD : has_domain rs r i) by (apply has_ranked; exists ids; rewrite <- (Z.add_0_l (Z.of_nat r)), <- K; auto).
    pose proof (Pos _ _ HD). pose proof (LE _ _ HD). lia. }
  rewrite E. cbn [obind]. set (m := map (fun i => max_reduce (map (fun v => nth i v (-1)) vs)) (seq 0 size)). exists m.
  assert (LM : length m = size) by (unfold m; rewrite map_length, seq_length; reflexivity).
  split; [destruct size; [lia|reflexivity]|]. split; [|split].
  - intros r id H. rewrite LM. pose proof (Pos _ _ H). pose proof (LE _ _ H). lia.
  - destruct MX as [r MX]. exists r. rewrite LM, SZ. replace (mx + 1 - 1) with mx by lia. exact MX.
  - intros i k H. unfold m in H. apply map_nth_error_inv in H. destruct H as (j & J & <-).
    assert (j = i).
    { assert (i < size)%nat by (rewrite <- (seq_length size 0); apply nth_error_Some; congruence). rewrite (nth_error_nth' _ O) in J by (rewrite seq_length; assumption). rewrite seq_nth in J by assumption. injection J as <-. reflexivity. }
    subst j. destruct (max_reduce_spec (map (fun v => nth i v (-1)) vs)) as [A1 A2]. set (k := max_reduce (map (fun v => nth i v (-1)) vs)) in *.
    assert (VAL : forall r v, nth_error vs r = Some v -> (nth i v (-1) = Z.of_nat r /\ has_domain rs r (Z.of_nat i)) \/ (nth i v (-1) = -1 /\ ~ has_domain rs r (Z.of_nat i))).
    { intros r v V. destruct (proj2 (forall2_nth _ _ _ F r) v V) as ([x ids] & N & P). specialize (P i). cbn [fst snd] in P. destruct (ranked_inv _ _ _ _ _ N) as (K & _). cbn in K. subst x.
      destruct (existsb (Z.eqb (Z.of_nat i)) ids) eqn:X.
      - left. split; [exact P|]. apply existsb_exists in X. destruct X as (y & Y & Q). apply Z.eqb_eq in Q. subst y. apply has_ranked. exists ids. auto.
      - right. split; [exact P|]. intros H. apply has_ranked in H. destruct H as (ids' & N' & I'). fold l in N'. rewrite N in N'. injection N' as <-.
        assert (existsb (Z.eqb (Z.of_nat i)) ids = true) by (apply existsb_exists; exists (Z.of_nat i); split; [exact I'|apply Z.eqb_refl]). congruence. }
    assert (HV : forall r, has_domain rs r (Z.of_nat i) -> exists v, nth_error vs r = Some v /\ nth i v (-1) = Z.of_nat r).
    { intros r H. pose proof H as H'. apply has_ranked in H'. destruct H' as (ids & N & _). destruct (proj1 (forall2_nth _ _ _ F r) _ N) as (v & V & _).
      exists v. split; [exact V|]. destruct (VAL r v V) as [[Q _]|[_ Q]]; [exact Q|contradiction]. }
    assert (NE : map (fun v => nth i v (-1)) vs <> []).
    { destruct MX as [r MX]. apply has_ranked in MX. destruct MX as (ids & N & _). destruct (proj1 (forall2_nth _ _ _ F r) _ N) as (v & V & _). destruct vs; [destruct r; discriminate|discriminate]. }
    specialize (A2 NE). apply in_map_iff in A2. destruct A2 as (v & Q & V). apply In_nth_error in V. destruct V as [r V].
    assert (UP : forall r', has_domain rs r' (Z.of_nat i) -> Z.of_nat r' <= k).
    { intros r' H'. destruct (HV r' H') as (v' & V' & Q'). rewrite <- Q'. apply A1, in_map_iff. exists v'. split; [reflexivity|exact (nth_error_In _ _ V')]. }
    destruct (VAL r v V) as [[Q1 H]|[Q1 H]].
    + right. exists r. split; [congruence|]. split; [exact H|]. intros r' H'. specialize (UP r' H'). lia.
    + left. split; [congruence|]. intros r' H'. specialize (UP r' H'). lia.
Qed.
Lemma told_once rs m r id : tells rs m -> has_domain rs r id -> (forall r', has_domain rs r' id -> r' = r) -> nth_error m (Z.to_nat id) = Some (Z.of_nat r).
Proof.
  intros (A & _ & B) H U. pose proof (A _ _ H) as R. destruct (nth_error m (Z.to_nat id)) as [k|] eqn:N; [|apply nth_error_None in N; lia].
  destruct (B _ _ N) as [[_ X]|(r' & -> & X & _)]; rewrite Z2Nat.id in * by lia; [exfalso; exact (X r H)|]. rewrite (U r' X). reflexivity.
Qed.
