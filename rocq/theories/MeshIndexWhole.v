(** Whole indices: sections, and the check of an index that was made. *)
From Coq Require Import ZArith Lia Btauto.
From Verif Require Import Base DType SpecTree Mem Node NodeFacts Number ArrayOps NumConv Json Path MeshVerify MeshVerifySpec MeshVerifyFacts MeshVerifyParts MeshVerifySets MeshVerifyDomain MeshIndex MeshIndexSpec MeshIndexFacts MeshIndexMake.
Import ListNotations.

Definition maker (rp p : str) : str -> tree -> outcome tree :=
  if str_eqb p (L "coordsets") then idx_coordset rp else if str_eqb p (L "topologies") then idx_topology rp
  else if str_eqb p (L "matsets") then idx_matset rp else if str_eqb p (L "specsets") then idx_specset rp
  else if str_eqb p (L "fields") then idx_field rp else idx_meeting p rp.
Definition entry (p : str) : tree -> bool :=
  if str_eqb p (L "coordsets") then coordset_entry else if str_eqb p (L "topologies") then topology_entry
  else if str_eqb p (L "matsets") then matset_entry else if str_eqb p (L "specsets") then specset_entry
  else if str_eqb p (L "fields") then field_entry else meeting_entry.
Definition ready (p : str) : tree -> bool :=
  if str_eqb p (L "coordsets") then one_system else if str_eqb p (L "matsets") then named_materials
  else if str_eqb p (L "specsets") then readable_specset else if str_eqb p (L "fields") then countable else fun _ => true.
Lemma part_made d rp p k c : In p sections -> clean c -> goods d p c = true -> ready p c = true -> made_of (maker rp p) rp p k c (entry p).
Proof.
  intros P C G R. unfold sections in P. cbn [In] in P.
  destruct P as [<-|[<-|[<-|[<-|[<-|[<-|[<-|[]]]]]]]].
  - apply coordset_made; [exact G|exact R].
  - apply topology_made. apply andb_prop in G. apply G.
  - apply matset_made; [exact C| |exact R]. apply andb_prop in G. apply G.
  - apply specset_made; [exact C| |exact R]. apply andb_prop in G. apply G.
  - apply field_made; [exact C| |exact R]. change (field_good d c = true) in G. unfold field_good in G. rewrite !Bool.andb_true_iff in G. apply G.
  - change (adj_good d c = true) in G. unfold adj_good, adjset_ok in G. rewrite !Bool.andb_true_iff in G. apply meeting_made; [left; reflexivity|apply G|apply G].
  - change (nest_good d c = true) in G. unfold nest_good, nestset_ok in G. rewrite !Bool.andb_true_iff in G. apply meeting_made; [right; reflexivity|apply G|apply G].
Qed.
(** what a valid domain has in a section *)
Lemma domain_goods d p sec : domain_ok d = true -> indexable d = true -> In p sections -> kid d p = Some sec ->
  object_ sec = true /\ forall k c, In (k, c) (kids sec) -> goods d p c = true /\ ready p c = true.
Proof.
  intros D R P K. unfold domain_ok in D. rewrite !Bool.andb_true_iff in D. destruct D as [[[[[[D1 D2] D3] D4] D5] D6] D7].
  unfold indexable in R. rewrite !Bool.andb_true_iff in R. destruct R as [[[R1 R3] R4] R5].
  assert (X : forall g, all_good g sec = true -> object_ sec = true /\ forall k c, In (k, c) (kids sec) -> g c = true).
  { intros g H. apply andb_prop in H. destruct H as [H1 H2]. split; [exact H1|]. intros k c H. exact (every_In _ _ _ _ H2 H). }
  unfold sections in P. cbn [In] in P. destruct P as [<-|[<-|[<-|[<-|[<-|[<-|[<-|[]]]]]]]].
  - rewrite (must_some _ _ _ _ K) in D1. rewrite (may_some _ _ _ _ K) in R1. destruct (X _ D1) as [A B]. split; [exact A|]. intros k c H. split; [exact (B k c H)|exact (every_In _ _ _ _ R1 H)].
  - rewrite (must_some _ _ _ _ K) in D2. destruct (X _ D2) as [A B]. split; [exact A|]. intros k c H. split; [|reflexivity]. specialize (B k c H). apply andb_prop in B. exact (proj1 B).
  - rewrite (may_some _ _ _ _ K) in D3. rewrite (may_some _ _ _ _ K) in R3. destruct (X _ D3) as [A B]. split; [exact A|]. intros k c H. split; [exact (B k c H)|exact (every_In _ _ _ _ R3 H)].
  - rewrite (may_some _ _ _ _ K) in D4. rewrite (may_some _ _ _ _ K) in R4. destruct (X _ D4) as [A B]. split; [exact A|]. intros k c H. split; [exact (B k c H)|exact (every_In _ _ _ _ R4 H)].
  - rewrite (may_some _ _ _ _ K) in D5. rewrite (may_some _ _ _ _ K) in R5. destruct (X _ D5) as [A B]. split; [exact A|]. intros k c H. split; [exact (B k c H)|exact (every_In _ _ _ _ R5 H)].
  - rewrite (may_some _ _ _ _ K) in D6. destruct (X _ D6) as [A B]. split; [exact A|]. intros k c H. split; [exact (B k c H)|reflexivity].
  - rewrite (may_some _ _ _ _ K) in D7. destruct (X _ D7) as [A B]. split; [exact A|]. intros k c H. split; [exact (B k c H)|reflexivity].
Qed.
(** * Sections *)
Definition opt (p : str) (o : option tree) : list (str * tree) := match o with Some t => [(p, t)] | None => [] end.
Definition listed (rp p : str) : list (str * tree) -> list (str * tree) -> Prop :=
  Forall2 (fun a b => fst b = fst a /\ maker rp p (fst a) (snd a) = Ok (snd b)).
Definition section_made (rp : str) (d : tree) (p : str) (o : option tree) : Prop :=
  match kid d p with None => o = None | Some sec => exists es, o = Some (TObj es) /\ listed rp p (kids sec) es end.
Lemma section_run d rp p : clean d -> domain_ok d = true -> indexable d = true -> In p sections ->
  exists o, idx_section d p (maker rp p) = Ok (opt p o) /\ section_made rp d p o.
Proof.
  intros C D R P. unfold idx_section, section_made, has. destruct (kid d p) as [sec|] eqn:K; [|exists None; auto].
  unfold fetch. rewrite K. cbn [obind]. destruct (domain_goods d p sec D R P K) as [O G]. pose proof (clean_kid _ _ _ C K) as CS.
  assert (M : forall k c, In (k, c) (kids sec) -> exists e, maker rp p k c = Ok e).
  { intros k c H. destruct (G k c H) as [G1 G2]. destruct (part_made d rp p k c P (proj2 (kids_fine _ _ _ CS H)) G1 G2) as (e & E & _). exists e. exact E. }
  assert (X : exists es, omapM (fun e => do x <- maker rp p (fst e) (snd e); Ok (fst e, x)) (kids sec) = Ok es /\ listed rp p (kids sec) es).
  { clear -M. induction (kids sec) as [|[k c] l IH]; [exists []; split; [reflexivity|constructor]|].
    destruct (M k c (or_introl eq_refl)) as [e E]. destruct IH as (es & E1 & E2); [intros k' c' H; apply M; right; exact H|].
    exists ((k, e) :: es). rewrite omapM_cons. cbn [fst snd]. rewrite E. cbn [obind]. rewrite E1. split; [reflexivity|]. constructor; [split; [reflexivity|exact E]|exact E2]. }
  destruct X as (es & E1 & E2). rewrite E1. cbn [obind]. exists (Some (TObj es)). split; [|exists es; auto].
  destruct es; [|reflexivity]. inversion E2 as [E3|]. destruct sec as [|[|]| | |]; try discriminate O; discriminate E3.
Qed.
Lemma mget_app {A} (a b : list (str * A)) k : mget (a ++ b) k = match mget a k with Some x => Some x | None => mget b k end.
Proof. induction a as [|[k' v] a IH]; [reflexivity|]. cbn [app mget]. destruct (str_eqb k k'); [reflexivity|exact IH]. Qed.
Lemma mget_opt p o k : mget (opt p o) k = if str_eqb k p then o else None.
Proof. destruct o; cbn; destruct (str_eqb k p); reflexivity. Qed.
Lemma opt_names p o x : In x (map fst (opt p o)) -> x = p.
Proof. destruct o; cbn; intuition. Qed.
Lemma opt_nodup p o l : ~ In p (map fst l) -> NoDup (map fst l) -> NoDup (map fst (opt p o ++ l)).
Proof. intros A B. destruct o; cbn; [constructor; assumption|exact B]. Qed.
Lemma opt_cleans p o l : ~ In p reserved -> match o with Some t => clean t | None => True end -> cleans l -> cleans (opt p o ++ l).
Proof. intros A B C. destruct o; cbn [opt app]; [apply cleans_cons; assumption|exact C]. Qed.
Lemma listed_names rp p l es : listed rp p l es -> map fst es = map fst l.
Proof. induction 1 as [|a b l es [H _] _ IH]; [reflexivity|]. cbn. rewrite IH, H. reflexivity. Qed.
Lemma listed_get rp p l es : listed rp p l es -> forall k c, mget l k = Some c -> exists e, mget es k = Some e /\ maker rp p k c = Ok e.
Proof.
  induction 1 as [|[k' c'] [k2 e'] l es [H1 H2] _ IH]; intros k c G; [discriminate|]. cbn [fst snd] in *. subst k2. cbn [mget] in *.
  destruct (str_eqb_spec k k') as [->|N]; [|exact (IH k c G)]. injection G as <-. exists e'. auto.
Qed.
Lemma listed_back rp p l es : listed rp p l es -> forall k e, In (k, e) es -> exists c, In (k, c) l /\ maker rp p k c = Ok e.
Proof.
  induction 1 as [|[k' c'] [k2 e'] l es [H1 H2] _ IH]; intros k e G; [destruct G|]. cbn [fst snd] in *. subst k2.
  destruct G as [G|G]; [injection G as <- <-; exists c'; split; [left; reflexivity|exact H2]|].
  destruct (IH k e G) as (c & A & B). exists c. split; [right; exact A|exact B].
Qed.
Lemma cleans_all es : (forall k e, In (k, e) es -> ~ In k reserved /\ clean e) -> cleans es.
Proof.
  induction es as [|[k e] es IH]; intro H; [exact I|]. destruct (H k e (or_introl eq_refl)) as [A B]. apply cleans_cons; [exact A|exact B|].
  apply IH. intros k' e' X. apply H. right. exact X.
Qed.
Lemma section_clean d rp p o : clean d -> domain_ok d = true -> indexable d = true -> In p sections -> section_made rp d p o ->
  match o with Some t => clean t | None => True end.
Proof.
  intros C D R P M. unfold section_made in M. destruct (kid d p) as [sec|] eqn:K; [|subst; exact I]. destruct M as (es & -> & M).
  pose proof (clean_kid _ _ _ C K) as CS. destruct (domain_goods d p sec D R P K) as [O G].
  apply clean_make; [rewrite (listed_names _ _ _ _ M); apply kids_distinct, CS|]. apply cleans_all. intros k e H.
  destruct (listed_back _ _ _ _ M k e H) as (c & A & B). destruct (kids_fine _ _ _ CS A) as [F1 F2]. split; [exact F1|].
  destruct (G k c A) as [G1 G2]. destruct (part_made d rp p k c P F2 G1 G2) as (e' & E & X & _). assert (e' = e) by congruence. subst. exact X.
Qed.
(** * Domains *)
Lemma state_run rp d : clean d -> exists o, idx_state rp d = Ok (opt (L "state") o) /\ match o with Some t => clean t | None => True end /\
  match kid d (L "state") with
  | None => o = None
  | Some s => exists t, o = Some t /\ kid t (L "cycle") = kid s (L "cycle") /\ kid t (L "time") = kid s (L "time") /\ kid t (L "path") = Some (TStr (join_path rp (L "state")))
  end.
Proof.
  intro C. unfold idx_state, has. destruct (kid d (L "state")) as [s|] eqn:K; [|exists None; auto]. unfold fetch. rewrite K. cbn [obind].
  pose proof (clean_kid _ _ _ C K) as CS. eexists (Some _). split; [reflexivity|]. split.
  - destruct (kid s (L "cycle")) as [a|] eqn:A, (kid s (L "time")) as [b|] eqn:B;
      try pose proof (clean_kid _ _ _ CS A); try pose proof (clean_kid _ _ _ CS B); (apply clean_make; [fine_names|cbn [app]; cleans_; assumption]).
  - eexists. split; [reflexivity|]. destruct (kid s (L "cycle")) as [a|], (kid s (L "time")) as [b|]; repeat split.
Qed.
Definition made (rp : str) (d i : tree) : Prop := forall p, In p sections -> section_made rp d p (kid i p).
Ltac mget_go := rewrite ?mget_app, ?mget_opt; repeat match goal with |- context [str_eqb (L ?a) (L ?b)] => let v := eval vm_compute in (str_eqb (L a) (L b)) in change (str_eqb (L a) (L b)) with v end; cbv iota.
Lemma domain_run rp d : clean d -> domain_ok d = true -> indexable d = true ->
  exists i, index_domain rp d = Ok i /\ clean i /\ is_object i = true /\ made rp d i /\
    match kid d (L "state") with
    | None => kid i (L "state") = None
    | Some s => exists t, kid i (L "state") = Some t /\ kid t (L "cycle") = kid s (L "cycle") /\ kid t (L "time") = kid s (L "time") /\ kid t (L "path") = Some (TStr (join_path rp (L "state")))
    end.
Proof.
  intros C D R. destruct (state_run rp d C) as (o0 & E0 & C0 & S0).
  assert (RUN := fun p P => section_run d rp p C D R P). assert (CL := fun p o P => section_clean d rp p o C D R P).
  assert (P1 : In (L "coordsets") sections) by (cbn; tauto). assert (P2 : In (L "topologies") sections) by (cbn; tauto).
  assert (P3 : In (L "matsets") sections) by (cbn; tauto). assert (P4 : In (L "specsets") sections) by (cbn; tauto).
  assert (P5 : In (L "fields") sections) by (cbn; tauto). assert (P6 : In (L "adjsets") sections) by (cbn; tauto). assert (P7 : In (L "nestsets") sections) by (cbn; tauto).
  destruct (RUN _ P1) as (o1 & E1 & M1). destruct (RUN _ P2) as (o2 & E2 & M2). destruct (RUN _ P3) as (o3 & E3 & M3). destruct (RUN _ P4) as (o4 & E4 & M4).
  destruct (RUN _ P5) as (o5 & E5 & M5). destruct (RUN _ P6) as (o6 & E6 & M6). destruct (RUN _ P7) as (o7 & E7 & M7).
  assert (CS : exists sec, kid d (L "coordsets") = Some sec).
  { unfold domain_ok in D. rewrite !Bool.andb_true_iff in D. destruct D as [[[[[[D _] _] _] _] _] _]. unfold must in D. destruct (kid d (L "coordsets")); [eauto|discriminate]. }
  destruct CS as [sec CS]. pose proof M1 as M1'. unfold section_made in M1'. rewrite CS in M1'. destruct M1' as (es & -> & _).
  set (l := opt (L "state") o0 ++ opt (L "coordsets") (Some (TObj es)) ++ opt (L "topologies") o2 ++ opt (L "matsets") o3 ++ opt (L "specsets") o4 ++ opt (L "fields") o5 ++ opt (L "adjsets") o6 ++ opt (L "nestsets") o7 ++ []).
  exists (TObj l). split; [|split; [|split; [reflexivity|split]]].
  - unfold index_domain, has. rewrite CS. cbn [negb]. rewrite E0. cbn [obind].
    change (idx_coordset rp) with (maker rp (L "coordsets")). rewrite E1. cbn [obind]. change (idx_topology rp) with (maker rp (L "topologies")). rewrite E2. cbn [obind].
    change (idx_matset rp) with (maker rp (L "matsets")). rewrite E3. cbn [obind]. change (idx_specset rp) with (maker rp (L "specsets")). rewrite E4. cbn [obind].
    change (idx_field rp) with (maker rp (L "fields")). rewrite E5. cbn [obind]. change (idx_meeting (L "adjsets") rp) with (maker rp (L "adjsets")). rewrite E6. cbn [obind].
    change (idx_meeting (L "nestsets") rp) with (maker rp (L "nestsets")). rewrite E7. cbn [obind].
    unfold l. rewrite app_nil_r. destruct o0; reflexivity.
  - apply clean_make; unfold l.
    + assert (NI : forall x, ~ In x (map fst (@nil (str * tree)))) by (intros x []).
      assert (CONS : forall x p o (m : list (str * tree)), x <> p -> ~ In x (map fst m) -> ~ In x (map fst (opt p o ++ m))).
      { intros x p o m N H X. rewrite map_app in X. apply in_app_or in X. destruct X as [X|X]; [apply opt_names in X; auto|auto]. }
      repeat (apply opt_nodup; [repeat (apply CONS; [nv|]); apply NI|]). constructor.
    + apply opt_cleans; [fine_name|exact C0|]. apply opt_cleans; [fine_name|exact (CL _ _ P1 M1)|]. apply opt_cleans; [fine_name|exact (CL _ _ P2 M2)|].
      apply opt_cleans; [fine_name|exact (CL _ _ P3 M3)|]. apply opt_cleans; [fine_name|exact (CL _ _ P4 M4)|]. apply opt_cleans; [fine_name|exact (CL _ _ P5 M5)|].
      apply opt_cleans; [fine_name|exact (CL _ _ P6 M6)|]. apply opt_cleans; [fine_name|exact (CL _ _ P7 M7)|]. exact I.
  - intros p P. assert (E : kid (TObj l) p = if str_eqb p (L "coordsets") then Some (TObj es) else if str_eqb p (L "topologies") then o2 else if str_eqb p (L "matsets") then o3
        else if str_eqb p (L "specsets") then o4 else if str_eqb p (L "fields") then o5 else if str_eqb p (L "adjsets") then o6 else o7).
    { unfold sections in P. cbn [In] in P. cbn [kid]. unfold l. destruct P as [<-|[<-|[<-|[<-|[<-|[<-|[<-|[]]]]]]]]; mget_go; destruct o0, o2, o3, o4, o5, o6, o7; reflexivity. }
    rewrite E. unfold sections in P. cbn [In] in P. destruct P as [<-|[<-|[<-|[<-|[<-|[<-|[<-|[]]]]]]]]; assumption.
  - assert (E : kid (TObj l) (L "state") = o0). { cbn [kid]. unfold l. mget_go. destruct o0, o2, o3, o4, o5, o6, o7; reflexivity. }
    rewrite E. exact S0.
Qed.
(** * The check of an index that was made *)
Lemma made_part rp d p sec k c e : clean d -> domain_ok d = true -> indexable d = true -> In p sections -> kid d p = Some sec -> In (k, c) (kids sec) -> maker rp p k c = Ok e ->
  clean e /\ kid e (L "path") = Some (TStr (place rp p k)) /\ says p c e /\ entry p e = true /\ goods d p c = true.
Proof.
  intros C D R P K H M. destruct (domain_goods d p sec D R P K) as [_ G]. destruct (G k c H) as [G1 G2].
  destruct (part_made d rp p k c P (proj2 (kids_fine _ _ _ (clean_kid _ _ _ C K) H)) G1 G2) as (e' & E & A & B & S & T). assert (e' = e) by congruence. subst. auto.
Qed.
Lemma made_get rp d i p sec k c : made rp d i -> In p sections -> kid d p = Some sec -> kid sec k = Some c ->
  exists es e, kid i p = Some (TObj es) /\ mget es k = Some e /\ maker rp p k c = Ok e.
Proof.
  intros M P K G. specialize (M p P). unfold section_made in M. rewrite K in M. destruct M as (es & E & L).
  destruct sec as [|ss| | |]; try discriminate G. destruct (listed_get _ _ _ _ L k c G) as (e & A & B). exists es, e. auto.
Qed.
(** a reference that is good in the domain is good in any index that has the entries *)
Definition covers (rp : str) (d i : tree) : Prop := forall p sec k c, In p sections -> kid d p = Some sec -> kid sec k = Some c ->
  exists es e, kid i p = Some (TObj es) /\ mget es k = Some e /\ maker rp p k c = Ok e.
Lemma made_covers rp d i : made rp d i -> covers rp d i.
Proof. intros M p sec k c. apply made_get, M. Qed.
Lemma names_move rp d i x q g h c e : covers rp d i -> In q sections -> kid e x = kid c x -> names_good d x q g c = true ->
  (forall sec k t e', kid d q = Some sec -> kid sec k = Some t -> g t = true -> maker rp q k t = Ok e' -> h e' = true) -> names_good i x q h e = true.
Proof.
  intros M Q E G H. unfold names_good, must in *. rewrite E. destruct (kid c x) as [[| | |s|]|]; try discriminate.
  destruct (kid d q) as [sec|] eqn:K; [|discriminate]. apply andb_prop in G. destruct G as [_ G].
  destruct (kid sec s) as [t|] eqn:KS; [|discriminate]. destruct (M q sec s t Q K KS) as (es & e' & A & B & F). rewrite A. cbn [kid]. rewrite B.
  rewrite (H sec s t e' eq_refl KS G F), Bool.andb_true_r. destruct es; [discriminate B|reflexivity].
Qed.
Lemma same_at l c e f : same l c e -> In f l -> kid e f = kid c f. Proof. intros H F. exact (H f F). Qed.
Section Listed.
  Variables (rp : str) (d i : tree).
  Hypotheses (C : clean d) (D : domain_ok d = true) (R : indexable d = true) (M : covers rp d i).
  Lemma part_facts p sec k c e : In p sections -> kid d p = Some sec -> kid sec k = Some c -> maker rp p k c = Ok e ->
    says p c e /\ entry p e = true /\ goods d p c = true.
  Proof. intros P K G E. destruct (made_part rp d p sec k c e C D R P K (kid_kids _ _ _ G) E) as (_ & _ & A & B & F). auto. Qed.
  Lemma coordsets_listed sec k c e : kid d (L "coordsets") = Some sec -> kid sec k = Some c -> maker rp (L "coordsets") k c = Ok e -> coordset_entry e = true.
  Proof. intros K G E. apply (part_facts (L "coordsets") sec k c e); auto. cbn. tauto. Qed.
  Lemma topologies_listed sec k c e : kid d (L "topologies") = Some sec -> kid sec k = Some c -> maker rp (L "topologies") k c = Ok e -> topo_listed i e = true.
  Proof.
    intros K G E. destruct (part_facts (L "topologies") sec k c e) as (A & B & F); auto; [cbn; tauto|]. apply andb_true_intro. split; [exact B|].
    change (topo_good d c = true) in F. apply andb_prop in F. destruct F as [_ F]. apply names_move with (rp := rp) (d := d) (g := coordset_ok) (c := c); auto.
    - cbn. tauto.
    - apply (same_at _ _ _ _ A). cbn. tauto.
    - intros sec' k' t e' K' G' _ E'. exact (coordsets_listed sec' k' t e' K' G' E').
  Qed.
  Lemma matsets_listed sec k c e : kid d (L "matsets") = Some sec -> kid sec k = Some c -> maker rp (L "matsets") k c = Ok e -> mat_listed i e = true.
  Proof.
    intros K G E. destruct (part_facts (L "matsets") sec k c e) as (A & B & F); auto; [cbn; tauto|]. apply andb_true_intro. split; [exact B|].
    change (mat_good d c = true) in F. apply andb_prop in F. destruct F as [_ F]. apply names_move with (rp := rp) (d := d) (g := topo_good d) (c := c); auto.
    - cbn. tauto.
    - destruct A as [A _]. apply (same_at _ _ _ _ A). cbn. tauto.
    - intros sec' k' t e' K' G' _ E'. exact (topologies_listed sec' k' t e' K' G' E').
  Qed.
  Lemma specsets_listed sec k c e : kid d (L "specsets") = Some sec -> kid sec k = Some c -> maker rp (L "specsets") k c = Ok e -> spec_listed i e = true.
  Proof.
    intros K G E. destruct (part_facts (L "specsets") sec k c e) as (A & B & F); auto; [cbn; tauto|]. apply andb_true_intro. split; [exact B|].
    change (spec_good d c = true) in F. apply andb_prop in F. destruct F as [_ F]. apply names_move with (rp := rp) (d := d) (g := mat_good d) (c := c); auto.
    - cbn. tauto.
    - destruct A as [A _]. apply (same_at _ _ _ _ A). cbn. tauto.
    - intros sec' k' t e' K' G' _ E'. exact (matsets_listed sec' k' t e' K' G' E').
  Qed.
  Lemma given_same f c e : kid e f = kid c f -> given f e = given f c. Proof. unfold given. intros ->. reflexivity. Qed.
  Lemma fields_listed sec k c e : kid d (L "fields") = Some sec -> kid sec k = Some c -> maker rp (L "fields") k c = Ok e -> field_listed i e = true.
  Proof.
    intros K G E. destruct (part_facts (L "fields") sec k c e) as (A & B & F); auto; [cbn; tauto|]. destruct A as [A _].
    change (field_good d c = true) in F. unfold field_good in F. rewrite !Bool.andb_true_iff in F. destruct F as [[_ F1] F2].
    assert (T : kid e (L "topology") = kid c (L "topology")) by (apply (same_at _ _ _ _ A); cbn; tauto).
    assert (N : kid e (L "matset") = kid c (L "matset")) by (apply (same_at _ _ _ _ A); cbn; tauto).
    unfold field_listed. rewrite !Bool.andb_true_iff. rewrite (given_same _ _ _ T), (given_same _ _ _ N). split; [split; [exact B|]|].
    - apply Bool.orb_true_iff in F1. apply Bool.orb_true_iff. destruct F1 as [F1|F1]; [left; exact F1|right].
      apply names_move with (rp := rp) (d := d) (g := topo_good d) (c := c); auto; [cbn; tauto|]. intros sec' k' t e' K' G' _ E'. exact (topologies_listed sec' k' t e' K' G' E').
    - apply Bool.orb_true_iff in F2. apply Bool.orb_true_iff. destruct F2 as [F2|F2]; [left; exact F2|right].
      apply names_move with (rp := rp) (d := d) (g := mat_good d) (c := c); auto; [cbn; tauto|]. intros sec' k' t e' K' G' _ E'. exact (matsets_listed sec' k' t e' K' G' E').
  Qed.
  Lemma meetings_listed p sec k c e : p = L "adjsets" \/ p = L "nestsets" -> kid d p = Some sec -> kid sec k = Some c -> maker rp p k c = Ok e -> meeting_listed i e = true.
  Proof.
    intros P K G E. assert (IN : In p sections) by (destruct P; subst; cbn; tauto). destruct (part_facts p sec k c e IN K G E) as (A & B & F).
    assert (S : same [L "association"; L "topology"] c e) by (destruct P; subst; exact A).
    assert (B' : meeting_entry e = true) by (destruct P; subst; exact B).
    assert (F' : names_good d (L "topology") (L "topologies") (topo_good d) c = true) by (destruct P; subst; apply andb_prop in F; apply F).
    apply andb_true_intro. split; [exact B'|]. apply names_move with (rp := rp) (d := d) (g := topo_good d) (c := c); auto.
    - cbn. tauto.
    - apply (same_at _ _ _ _ S). cbn. tauto.
    - intros sec' k' t e' K' G' _ E'. exact (topologies_listed sec' k' t e' K' G' E').
  Qed.
  Lemma entry_listed p sec k c e : In p sections -> kid d p = Some sec -> kid sec k = Some c -> maker rp p k c = Ok e -> entries i p e = true.
  Proof.
    intros P K G E. unfold sections in P. cbn [In] in P. destruct P as [<-|[<-|[<-|[<-|[<-|[<-|[<-|[]]]]]]]].
    - exact (coordsets_listed sec k c e K G E).
    - exact (topologies_listed sec k c e K G E).
    - exact (matsets_listed sec k c e K G E).
    - exact (specsets_listed sec k c e K G E).
    - exact (fields_listed sec k c e K G E).
    - exact (meetings_listed _ sec k c e (or_introl eq_refl) K G E).
    - exact (meetings_listed _ sec k c e (or_intror eq_refl) K G E).
  Qed.
End Listed.
(** an index is good if it has coordinates and topologies and every entry is good *)
Lemma index_good i : (forall p, In p sections -> match kid i p with Some s => object_ s = true /\ (forall k e, In (k, e) (kids s) -> entries i p e = true) | None => p <> L "coordsets" /\ p <> L "topologies" end) ->
  index_ok i = true.
Proof.
  intro H. assert (MUST : forall p, In p sections -> p = L "coordsets" \/ p = L "topologies" -> must p (all_good (entries i p)) i = true).
  { intros p P Q. specialize (H p P). unfold must. destruct (kid i p) as [s|]; [|tauto]. destruct H as [H1 H2]. unfold all_good. rewrite H1. apply forallb_forall. intros [k e] X. exact (H2 k e X). }
  assert (MAY : forall p, In p sections -> may p (all_good (entries i p)) i = true).
  { intros p P. specialize (H p P). unfold may. destruct (kid i p) as [s|]; [|reflexivity]. destruct H as [H1 H2]. unfold all_good. rewrite H1. apply forallb_forall. intros [k e] X. exact (H2 k e X). }
  unfold index_ok. rewrite !Bool.andb_true_iff.
  split; [split; [split; [split; [split; [split|]|]|]|]|]; first [apply (MUST (L "coordsets"))|apply (MUST (L "topologies"))|apply (MAY (L "matsets"))|apply (MAY (L "specsets"))|apply (MAY (L "fields"))|apply (MAY (L "adjsets"))|apply (MAY (L "nestsets"))]; cbn; tauto.
Qed.
Lemma sections_given d p : domain_ok d = true -> p = L "coordsets" \/ p = L "topologies" -> exists s, kid d p = Some s.
Proof.
  intros D Q. unfold domain_ok in D. rewrite !Bool.andb_true_iff in D. destruct D as [[[[[[D1 D2] _] _] _] _] _]. unfold must in D1, D2.
  destruct Q; subst p; [destruct (kid d (L "coordsets")); [eauto|discriminate]|destruct (kid d (L "topologies")); [eauto|discriminate]].
Qed.
Lemma made_ok rp d i : clean d -> domain_ok d = true -> indexable d = true -> made rp d i -> index_ok i = true.
Proof.
  intros C D R M. apply index_good. intros p P. pose proof (M p P) as S. unfold section_made in S. destruct (kid d p) as [sec|] eqn:K.
  - destruct S as (es & E & L). rewrite E. destruct (domain_goods d p sec D R P K) as [O _]. split.
    + pose proof (listed_names _ _ _ _ L) as N. destruct es; [|reflexivity]. destruct sec as [|[|]| | |]; try discriminate O; discriminate N.
    + intros k e X. destruct (listed_back _ _ _ _ L k e X) as (c & A & B). apply (entry_listed rp d i C D R (made_covers _ _ _ M) p sec k c e P K); [|exact B].
      apply kid_of; [exact (clean_kid _ _ _ C K)|destruct sec; try discriminate O; reflexivity|exact A].
  - rewrite S. split; intro Q; destruct (sections_given d p D) as [s X]; auto; congruence.
Qed.
Lemma made_index rp d i : clean d -> domain_ok d = true -> indexable d = true -> made rp d i -> index_of rp d i.
Proof.
  intros C D R M p P. pose proof (M p P) as S. unfold section_made in S. destruct (kid d p) as [sec|] eqn:K; [|exact S].
  destruct S as (es & E & L). exists es. split; [exact E|split; [exact (listed_names _ _ _ _ L)|]]. intros k c G.
  destruct sec as [|ss| | |]; try discriminate G. destruct (listed_get _ _ _ _ L k c G) as (e & A & B). exists e. split; [exact A|].
  destruct (made_part rp d p _ k c e C D R P K (kid_kids _ _ _ G) B) as (_ & X & Y & _). auto.
Qed.
(** * generate_index of one domain *)
Lemma put_kid i k c q : q <> k -> is_object i = true -> kid (put_ i k c) q = kid i q.
Proof. intros Q O. destruct i; try discriminate O. unfold put_. cbn [kid ents]. apply mget_mset_other. congruence. Qed.
Lemma put_clean i k c : clean i -> ~ In k reserved -> clean c -> clean (put_ i k c).
Proof.
  intros C K X. unfold put_. destruct i as [|es| | |]; cbn [ents]; try (apply clean_make; [apply mset_nodup; constructor|apply mset_cleans; [exact K|exact X|exact I]]).
  apply clean_obj in C. destruct C as [C1 C2]. apply clean_make; [apply mset_nodup, C1|apply mset_cleans; assumption].
Qed.
Lemma get_clean es k : cleans es -> clean (get es k).
Proof. intro C. unfold get. destruct (mget es k) eqn:E; [|exact I]. exact (proj2 (cleans_In _ _ _ C (mget_In _ _ _ E))). Qed.
Lemma ents_cleans i : clean i -> cleans (ents i).
Proof. intro C. destruct i; try exact I. apply clean_obj, C. Qed.
Definition numbered (i : tree) (domains : Z) : tree :=
  put_ i (L "state") (put_ (get (ents i) (L "state")) (L "number_of_domains") (TNum INT64 [domains])).
Lemma numbered_clean i z : clean i -> clean (numbered i z).
Proof. intro C. apply put_clean; [exact C|fine_name|]. apply put_clean; [apply get_clean, ents_cleans, C|fine_name|exact I]. Qed.
Lemma numbered_kid i z p : is_object i = true -> In p sections -> kid (numbered i z) p = kid i p.
Proof. intros O P. apply put_kid; [|exact O]. intro E. subst. vm_compute in P. intuition discriminate. Qed.
Lemma numbered_state i z : exists s, kid (numbered i z) (L "state") = Some s /\ kid s (L "number_of_domains") = Some (TNum INT64 [z]) /\
  forall f t, f <> L "number_of_domains" -> kid i (L "state") = Some t -> is_object t = true -> kid s f = kid t f.
Proof.
  eexists. split; [unfold numbered, put_ at 1; cbn [kid]; apply mget_mset_same|]. split; [unfold put_; cbn [kid]; apply mget_mset_same|].
  intros f t F K O. assert (E : get (ents i) (L "state") = t). { unfold get. destruct i; try discriminate K. cbn [kid ents] in *. rewrite K. reflexivity. }
  rewrite E. apply put_kid; [exact F|exact O].
Qed.
Lemma one_domain rp d z : clean d -> domain_ok d = true -> indexable d = true ->
  exists i, generate_index d rp z = Ok i /\ index_of rp d i /\ state_of rp d i z /\ clean i /\ index_ok i = true.
Proof.
  intros C D R. destruct (domain_run rp d C D R) as (i & E & CI & O & M & S). exists (numbered i z).
  assert (G : exists s, kid d (L "coordsets") = Some s) by (apply sections_given; auto). destruct G as [cs G].
  assert (M' : made rp d (numbered i z)). { intros p P. rewrite (numbered_kid _ _ _ O P). exact (M p P). }
  split; [|split; [apply made_index; assumption|split; [|split; [apply numbered_clean, CI|exact (made_ok rp d _ C D R M')]]]].
  - unfold generate_index, has. rewrite G, E. destruct d; try discriminate G. reflexivity.
  - destruct (numbered_state i z) as (s & A & B & F). exists s. split; [exact A|split; [exact B|]]. intros t T. rewrite T in S. destruct S as (u & S1 & S2 & S3 & S4).
    assert (OU : is_object u = true) by (destruct u; try discriminate S4; reflexivity). rewrite !(F _ u) by (try exact S1; try exact OU; nv). auto.
Qed.
