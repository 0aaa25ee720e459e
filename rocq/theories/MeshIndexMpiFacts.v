(** Indices of ranks are merged like those of domains. *)
From Coq Require Import ZArith Lia.
From Verif Require Import Base DType SpecTree Mem Node NodeFacts Number ArrayOps ArrayOpsFacts NumConv Json Path MeshVerify MeshVerifySpec MeshVerifyFacts MeshVerifyParts MeshVerifySets MeshVerifyDomain MeshIndex MeshIndexSpec MeshIndexFacts MeshIndexMake MeshIndexWhole MeshIndexMany MeshIndexMpi MeshIndexMpiSpec.
Import ListNotations.

Lemma part_entry rp d p k c e : good_domain d -> In p sections -> part d p k = Some c -> maker rp p k c = Ok e -> clean e /\ solid e.
Proof.
  intros (C & D & R) P A B. apply part_kid in A. destruct A as (sec & A1 & A2).
  destruct (made_part rp d p sec k c e C D R P A1 (kid_kids _ _ _ A2) B) as (X & _ & _ & Y & _). split; [exact X|exact (maker_solid rp p k c e P B Y)].
Qed.
Lemma inv_merge rp ds acc xs i : xs <> [] -> (forall x, In x (xs ++ ds) -> good_domain x) -> consistent (xs ++ ds) -> inv rp ds acc -> inv rp xs i ->
  inv rp (xs ++ ds) (update i acc).
Proof.
  intros NX GD CO (C & O & S & V) (CI & OI & SI & VI). destruct OI as [OI|OI]; [contradiction|].
  assert (LX : forall x, In x xs -> In x (xs ++ ds)) by (intros; apply in_or_app; auto).
  assert (RX : forall x, In x ds -> In x (xs ++ ds)) by (intros; apply in_or_app; auto).
  destruct i as [|is| | |]; try discriminate OI.
  assert (NI : is <> []).
  { destruct xs as [|d xs]; [congruence|]. destruct (GD d (or_introl eq_refl)) as (_ & D & _). destruct (sections_given d (L "coordsets") D (or_introl eq_refl)) as [s KS].
    assert (P : In (L "coordsets") sections) by (left; reflexivity). intros ->. specialize (SI _ P). cbn [kid mget] in SI. rewrite (SI d (or_introl eq_refl)) in KS. discriminate. }
  assert (KEY : forall p es, In p sections -> kid (TObj is) p = Some (TObj es) -> es <> [] ->
    (forall k e, mget es k = Some e -> exists d c, In d xs /\ part d p k = Some c /\ maker rp p k c = Ok e) -> exists es', kid (update (TObj is) acc) p = Some (TObj es') /\
    forall k, mget es' k = match mget es k with Some e => Some e | None => match kid acc p with Some s => kid s k | None => None end end).
  { intros p es P K NE BACK. cbn [kid] in K. pose proof (clean_kid _ _ _ CI (K : kid (TObj is) p = Some (TObj es))) as CE.
    rewrite update_kid by apply (clean_obj _ CI). rewrite K, update_obj by exact NE. eexists. split; [reflexivity|]. intro k.
    rewrite (puts_get _ (proj1 (clean_obj _ CE))). destruct (mget es k) as [e|] eqn:H.
    - f_equal. destruct (BACK k e H) as (d & c & D & PC & MC). destruct (part_entry rp d p k c e (GD d (LX d D)) P PC MC) as [E1 E2]. rewrite !get_kid. specialize (S p P).
      destruct (kid acc p) as [s|]; [|apply update_new; assumption]. destruct S as (es0 & -> & _ & S). cbn [kid]. destruct (mget es0 k) as [e0|] eqn:H0; [|apply update_new; assumption].
      destruct (S k e0 H0) as (d0 & c0 & D0 & P0 & M0).
      assert (e = e0) by (apply (alike_equal rp d d0 p k c c0); auto; apply (CO d d0 p k); auto).
      subst e0. apply update_same, E1.
    - rewrite get_kid. destruct (kid acc p) as [s|]; [destruct s; reflexivity|reflexivity]. }
  assert (OFF : forall p, kid (TObj is) p = None -> kid (update (TObj is) acc) p = kid acc p).
  { intros p K. rewrite update_kid by apply (clean_obj _ CI). cbn [kid] in K. rewrite K. reflexivity. }
  split; [apply update_clean; assumption|]. split; [|split].
  - right. rewrite update_obj by exact NI. reflexivity.
  - intros p P. pose proof (SI p P) as SP. specialize (S p P). destruct (kid (TObj is) p) as [s|] eqn:K.
    + destruct SP as (es & -> & NE & BACK). destruct (KEY p es P K NE BACK) as (es' & E & GET). rewrite E. exists es'. split; [reflexivity|]. split.
      * destruct es as [|[k e] es]; [congruence|]. specialize (GET k). cbn [mget] in GET. rewrite (proj2 (str_eqb_eq k k) eq_refl) in GET. intros ->. discriminate GET.
      * intros k e H. rewrite GET in H. destruct (mget es k) as [e1|] eqn:H1.
        -- assert (e1 = e) by congruence. subst e1. destruct (BACK k e H1) as (d & c & D & X). exists d, c. auto.
        -- destruct (kid acc p) as [s|]; [|discriminate H]. destruct S as (es0 & -> & _ & S). destruct (S k e H) as (d0 & c0 & D0 & X). exists d0, c0. auto.
    + rewrite (OFF p K). destruct (kid acc p) as [s|].
      * destruct S as (es & E & NE & S). exists es. split; [exact E|split; [exact NE|]]. intros k e H. destruct (S k e H) as (d0 & c0 & D0 & X). exists d0, c0. auto.
      * intros d' H. apply in_app_or in H. destruct H as [H|H]; [exact (SP d' H)|exact (S d' H)].
  - intros d' D' p sec k c P K1 K2. assert (PC : part d' p k = Some c) by (apply part_kid; eauto). pose proof (SI p P) as SP. apply in_app_or in D'. destruct D' as [D'|D'].
    + destruct (VI d' D' p sec k c P K1 K2) as (es & e & E1 & E2 & E3). rewrite E1 in SP. destruct SP as (es1 & EE & NE & BACK). injection EE as <-.
      destruct (KEY p es P E1 NE BACK) as (es' & E & GET). exists es', e. split; [exact E|split; [rewrite GET, E2; reflexivity|exact E3]].
    + destruct (V d' D' p sec k c P K1 K2) as (es0 & e0 & E1 & E2 & E3). destruct (kid (TObj is) p) as [s|] eqn:K.
      * destruct SP as (es & -> & NE & BACK). destruct (KEY p es P K NE BACK) as (es' & E & GET). exists es', e0. split; [exact E|split; [|exact E3]].
        rewrite GET, E1. destruct (mget es k) as [e|] eqn:H; [|exact E2]. destruct (BACK k e H) as (d1 & c1 & D1 & PC1 & MC1). f_equal.
        apply (alike_equal rp d1 d' p k c1 c); auto. apply (CO d1 d' p k); auto.
      * rewrite (OFF p K). exists es0, e0. auto.
Qed.

(** * The index of one rank *)
Definition stated (i : tree) (f : str) (v : tree) : Prop := part i (L "state") f = Some v.
Definition state_claim (ds : list tree) (z : Z) (i : tree) : Prop := stated i (L "number_of_domains") (TNum INT64 [z]) /\
  forall f v, In f [L "cycle"; L "time"] -> (exists t vs, v = TNum t vs) -> (forall d, In d ds -> part d (L "state") f = Some v) -> stated i f v.
Lemma rank_one rp d z : good_domain d -> exists i, generate_index d rp z = Ok i /\ inv rp [d] i /\ state_claim [d] z i.
Proof.
  intros G. pose proof G as (C & D & R). destruct (one_domain rp d z C D R) as (j & EJ & _ & (s & S1 & S2 & S3) & _).
  destruct (domain_run rp d C D R) as (i & E & CI & O & M & _). destruct (sections_given d (L "coordsets") D (or_introl eq_refl)) as [cs GC].
  assert (J : j = numbered i z). { unfold generate_index, has in EJ. rewrite GC, E in EJ. destruct d; try discriminate GC. injection EJ as <-. reflexivity. }
  subst j. assert (M' : made rp d (numbered i z)). { intros p P. rewrite (numbered_kid _ _ _ O P). exact (M p P). }
  exists (numbered i z). split; [exact EJ|]. split; [split; [apply numbered_clean, CI|split; [right; reflexivity|split]]|split].
  - intros p P. pose proof (M' p P) as X. unfold section_made in X. destruct (kid d p) as [sec|] eqn:KD.
    + destruct X as (es & K & LI). rewrite K. exists es. split; [reflexivity|]. split.
      * destruct (domain_goods d p sec D R P KD) as [OS _]. pose proof (listed_names _ _ _ _ LI) as N. intros ->. destruct sec as [|[|]| | |]; try discriminate OS; discriminate N.
      * intros k e H. destruct (made_back rp d _ p es k e G M' P K H) as (c & X). exists d, c. split; [left; reflexivity|exact X].
    + rewrite X. intros d' [<-|[]]. exact KD.
  - intros d' [<-|[]]. apply made_covers, M'.
  - unfold stated, part. rewrite S1. exact S2.
  - intros f v F _ H. specialize (H d (or_introl eq_refl)). apply part_kid in H. destruct H as (t & T1 & T2). destruct (S3 t T1) as (X & Y & _).
    unfold stated, part. rewrite S1. destruct F as [<-|[<-|[]]]; congruence.
Qed.
Lemma rank_many rp n z : clean n -> given (L "coordsets") n = false -> kids n <> [] ->
  (forall d, In d (map snd (kids n)) -> good_domain d) -> consistent (map snd (kids n)) ->
  exists i, generate_index n rp z = Ok i /\ inv rp (map snd (kids n)) i /\ state_claim (map snd (kids n)) z i.
Proof.
  intros C GV NE GD CO. destruct (many_domains rp n z C GV NE) as (j & EJ & _ & _ & _ & SJ1 & SJ2); [intros d H; apply GD in H; apply H|exact CO|].
  set (ds := map snd (kids n)) in *. assert (ND : ds <> []) by (unfold ds; destruct (kids n); [congruence|discriminate]).
  assert (REV : forall x, In x (rev ds ++ []) <-> In x ds) by (intro x; rewrite app_nil_r; symmetry; apply in_rev).
  assert (V0 : inv rp [] TNone). { split; [exact I|split; [left; reflexivity|split; [|intros d []]]]. intros p P d []. }
  destruct (inv_run rp ds [] TNone) as (i & E & V); [intros x X; apply GD, REV, X| |exact V0|].
  { apply (consistent_incl _ ds); [|exact CO]. intros x X. apply REV, X. }
  assert (OI : is_object i = true). { destruct V as (_ & [X|X] & _); [|exact X]. apply app_eq_nil in X. destruct X as [X _]. apply (f_equal (@rev _)) in X. rewrite rev_involutive in X. elim ND. exact X. }
  assert (J : j = numbered i z).
  { unfold generate_index, has in EJ. unfold given in GV. destruct (kid n (L "coordsets")); [discriminate|]. change (map snd (kids n)) with ds in EJ. rewrite E in EJ.
    destruct n; try (injection EJ as <-; reflexivity). discriminate EJ. }
  subst j. exists (numbered i z). split; [exact EJ|]. split; [|split; [exact SJ1|exact SJ2]].
  destruct V as (C1 & _ & S & W). split; [apply numbered_clean, C1|]. split; [right; reflexivity|]. split.
  - intros p P. rewrite (numbered_kid _ _ _ OI P). specialize (S p P). destruct (kid i p) as [s|].
    + destruct S as (es & A & B & S). exists es. split; [exact A|split; [exact B|]]. intros k e H. destruct (S k e H) as (d & c & X & Y). exists d, c. split; [apply REV, X|exact Y].
    + intros d D. apply S, REV, D.
  - intros d D p sec k c P. rewrite (numbered_kid _ _ _ OI P). apply (W d); [apply REV, D|exact P].
Qed.
Lemma number_is n : number_of_domains n = Z.of_nat (length (rank_domains n)).
Proof. unfold number_of_domains, rank_domains, has, given. destruct (kid n (L "coordsets")); [reflexivity|]. rewrite map_length. reflexivity. Qed.
Lemma number_all l : fold_right Z.add 0%Z (map number_of_domains l) = Z.of_nat (length (all_domains l)).
Proof. unfold all_domains. induction l as [|n l IH]; [reflexivity|]. cbn [map fold_right concat]. rewrite app_length, IH, number_is. lia. Qed.
Lemma rank_run rp n z : clean n -> (forall d, In d (rank_domains n) -> domain_ok d = true /\ indexable d = true) -> consistent (rank_domains n) ->
  rank_domains n = [] /\ local_index rp z n = Ok TNone \/
  rank_domains n <> [] /\ (forall d, In d (rank_domains n) -> good_domain d) /\ exists i, local_index rp z n = Ok i /\ inv rp (rank_domains n) i /\ state_claim (rank_domains n) z i.
Proof.
  intros C G CO. unfold local_index. rewrite number_is. destruct (rank_domains n) as [|x xs] eqn:E; [left; split; reflexivity|right].
  split; [discriminate|]. change (0 <? Z.of_nat (length (x :: xs)))%Z with true. assert (NE : rank_domains n <> []) by (rewrite E; discriminate).
  rewrite <- E in *. clear x xs E. cbv iota. unfold rank_domains in *. destruct (given (L "coordsets") n) eqn:GV.
  - assert (GD : good_domain n) by (destruct (G n (or_introl eq_refl)); repeat split; assumption). split; [intros d [<-|[]]; exact GD|]. apply rank_one, GD.
  - assert (GD : forall d, In d (map snd (kids n)) -> good_domain d).
    { intros d H. destruct (G d H). split; [|auto]. apply in_map_iff in H. destruct H as ([k c] & <- & H). exact (proj2 (kids_fine _ _ _ C H)). }
    split; [exact GD|]. apply rank_many; auto. intro K. rewrite K in NE. apply NE. reflexivity.
Qed.

(** * All ranks *)
Lemma stated_merge i acc f t vs : clean i -> stated i f (TNum t vs) -> kid acc (L "state") = None \/ stated acc f (TNum t vs) -> stated (update i acc) f (TNum t vs).
Proof.
  intros CI K A. unfold stated in K. apply part_kid in K. destruct K as (u & S1 & KU). pose proof (clean_kid _ _ _ CI S1) as CU.
  destruct i as [|is| | |]; try discriminate S1. destruct u as [|us| | |]; try discriminate KU.
  unfold stated, part. rewrite update_kid by apply (clean_obj _ CI). cbn [kid] in S1, KU. rewrite S1, update_kid by apply (clean_obj _ CU). rewrite KU. f_equal.
  rewrite !get_kid. destruct A as [A|A].
  - rewrite A. reflexivity.
  - apply part_kid in A. destruct A as (w & A1 & A2). rewrite A1, A2. cbn [update]. rewrite tid_refl, Nat.leb_refl, skipn_all, app_nil_r. reflexivity.
Qed.
Definition good_ranks (l : list tree) : Prop :=
  (forall n, In n l -> clean n) /\ (forall d, In d (all_domains l) -> domain_ok d = true /\ indexable d = true).
Definition so_far (rp : str) (z : Z) (ds : list tree) (acc : tree) : Prop :=
  inv rp ds acc /\ (forall d, In d ds -> good_domain d) /\ (ds = [] /\ acc = TNone \/ ds <> [] /\ state_claim ds z acc).
Lemma so_far_step rp z ds acc xs i : xs <> [] -> (forall x, In x xs -> good_domain x) -> consistent (xs ++ ds) -> so_far rp z ds acc -> inv rp xs i -> state_claim xs z i ->
  so_far rp z (xs ++ ds) (update i acc).
Proof.
  intros NX GX CO (V & GD & S) VI SI. assert (G : forall x, In x (xs ++ ds) -> good_domain x) by (intros x H; apply in_app_or in H; destruct H; auto).
  split; [apply inv_merge; assumption|]. split; [exact G|]. right. split; [destruct xs; [congruence|discriminate]|].
  destruct SI as [SI1 SI2]. pose proof (proj1 VI) as CI. split.
  - apply stated_merge; [exact CI|exact SI1|]. destruct S as [[_ ->]|[_ [S _]]]; [left; reflexivity|right; exact S].
  - intros f v F (t & vs & ->) H. apply stated_merge; [exact CI| |].
    + apply SI2; [exact F|eauto|]. intros d D. apply H, in_or_app. auto.
    + destruct S as [[_ ->]|[_ [_ S]]]; [left; reflexivity|right]. apply S; [exact F|eauto|]. intros d D. apply H, in_or_app. auto.
Qed.
Ltac within H := clear - H; rewrite ?in_app_iff in *; tauto.
Lemma ranks_run rp z l : forall ds acc, good_ranks l -> consistent (all_domains l ++ ds) -> so_far rp z ds acc ->
  exists is ds', local_indices rp z l = Ok is /\ (forall x, In x ds' <-> In x (all_domains l ++ ds)) /\ so_far rp z ds' (fold_left (fun acc i => update i acc) is acc).
Proof.
  induction l as [|n l IH]; intros ds acc (CL & GL) CO V; [exists [], ds; split; [reflexivity|split; [tauto|exact V]]|].
  change (all_domains (n :: l)) with (rank_domains n ++ all_domains l) in *. cbn [local_indices].
  assert (GL' : good_ranks l). { split; [intros m H; apply CL; right; exact H|]. intros d H. apply GL, in_or_app. auto. }
  assert (C1 : consistent (rank_domains n ++ ds)) by (eapply consistent_incl; [|exact CO]; intros x H; within H).
  destruct (rank_run rp n z) as [[E L1]|(NE & GD & i & L1 & VI & SI)].
  - apply CL. left. reflexivity.
  - intros d H. apply GL, in_or_app. auto.
  - eapply consistent_incl; [|exact CO]; intros x H; within H.
  - rewrite E in *. cbn [app] in *. destruct (IH ds acc GL' CO V) as (is & ds' & A & B & D). rewrite L1. cbn [obind]. rewrite A. cbn [obind].
    exists (TNone :: is), ds'. split; [reflexivity|]. split; [exact B|exact D].
  - destruct (IH (rank_domains n ++ ds) (update i acc) GL') as (is & ds' & A & B & D).
    + eapply consistent_incl; [|exact CO]; intros x H; within H.
    + apply so_far_step; assumption.
    + rewrite L1. cbn [obind]. rewrite A. cbn [obind]. exists (i :: is), ds'. split; [reflexivity|]. split; [|exact D]. intro x. rewrite B. clear. rewrite !in_app_iff. tauto.
Qed.
Lemma inv_same rp a b i : (forall x, In x a <-> In x b) -> inv rp a i -> inv rp b i.
Proof.
  intros H (C & O & S & V). split; [exact C|split; [|split]].
  - destruct O as [->|O]; [left|right; exact O]. destruct b as [|y b]; [reflexivity|]. destruct (proj2 (H y) (or_introl eq_refl)).
  - intros p P. specialize (S p P). destruct (kid i p) as [s|].
    + destruct S as (es & A & B & S). exists es. split; [exact A|split; [exact B|]]. intros k e K. destruct (S k e K) as (d & c & X & Y). exists d, c. split; [apply H, X|exact Y].
    + intros d D. apply S, H, D.
  - intros d D. apply V, H, D.
Qed.
Lemma ranks_index rp l : good_ranks l -> consistent (all_domains l) -> all_domains l <> [] ->
  exists i, mpi_generate_index l rp = Ok i /\ inv rp (all_domains l) i /\ (forall d, In d (all_domains l) -> good_domain d) /\ state_claim (all_domains l) (global_number l) i.
Proof.
  intros G CO NE. assert (V0 : so_far rp (global_number l) [] TNone).
  { split; [|split; [intros d []|left; auto]]. split; [exact I|split; [left; reflexivity|split; [|intros d []]]]. intros p P d []. }
  destruct (ranks_run rp (global_number l) l [] TNone G) as (is & ds & E & S & V & GD & T); [rewrite app_nil_r; exact CO|exact V0|].
  rewrite app_nil_r in S. unfold mpi_generate_index. rewrite E. cbn [obind]. eexists. split; [reflexivity|]. split; [exact (inv_same _ _ _ _ S V)|].
  split; [intros d D; apply GD, S, D|]. destruct T as [[-> _]|[_ [T1 T2]]].
  - exfalso. destruct (all_domains l) as [|x r]; [congruence|]. destruct (proj2 (S x) (or_introl eq_refl)).
  - split; [exact T1|]. intros f v F X H. apply T2; [exact F|exact X|]. intros d D. apply H, S, D.
Qed.
Lemma part_spread rp a b i j p k e : (forall x, In x a -> In x b) -> inv rp a i -> inv rp b j -> In p sections -> part i p k = Some e -> part j p k = Some e.
Proof.
  intros H (_ & _ & S & _) (_ & _ & _ & V) P K. apply part_kid in K. destruct K as (s & K1 & K2). specialize (S p P). rewrite K1 in S. destruct S as (es & -> & _ & S).
  destruct (S k e K2) as (d & c & D & PC & M). apply part_kid in PC. destruct PC as (sec & A & B). destruct (V d (H d D) p sec k c P A B) as (es' & e' & X & Y & Z).
  unfold part. rewrite X. cbn [kid]. congruence.
Qed.
Lemma global_small l : (Z.of_nat (length (all_domains l)) < 2 ^ 31)%Z -> global_number l = Z.of_nat (length (all_domains l)).
Proof.
  intro H. unfold global_number. rewrite number_all. apply wrap_s_id; [lia|]. change (2 ^ (32 - 1))%Z with (2 ^ 31)%Z. lia.
Qed.
