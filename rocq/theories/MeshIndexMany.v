(** Indices of meshes of several domains: entries that say the same are put together. *)
From Coq Require Import ZArith Lia.
From Verif Require Import Base DType SpecTree Mem Node NodeFacts Number ArrayOps NumConv Json Path MeshVerify MeshVerifySpec MeshVerifyFacts MeshVerifyParts MeshVerifySets MeshVerifyDomain MeshIndex MeshIndexSpec MeshIndexFacts MeshIndexMake MeshIndexWhole.
Import ListNotations.

Lemma all_tree (P : tree -> Prop) : P TNone -> (forall es, (forall k c, In (k, c) es -> P c) -> P (TObj es)) ->
  (forall ts, (forall c, In c ts -> P c) -> P (TList ts)) -> (forall s, P (TStr s)) -> (forall t vs, P (TNum t vs)) -> forall n, P n.
Proof.
  intros A B C D E. fix F 1. intros [|es|ts|s|t vs]; [exact A| | |apply D|apply E].
  - apply B. induction es as [|[k' c'] r IH]; intros k c H; [destruct H|]. destruct H as [H|H]; [injection H as _ <-; apply F|exact (IH k c H)].
  - apply C. induction ts as [|c' r IH]; intros c H; [destruct H|]. destruct H as [<-|H]; [apply F|exact (IH c H)].
Qed.
(** * Node::update *)
Fixpoint puts (l acc : list (str * tree)) : list (str * tree) :=
  match l with [] => acc | (k, c) :: r => puts r (mset acc k (update c (get acc k))) end.
Lemma update_obj es dst : es <> [] -> update (TObj es) dst = TObj (puts es (ents dst)).
Proof.
  intro N. destruct es as [|e es]; [congruence|]. reflexivity.
Qed.
Lemma puts_get l : NoDup (map fst l) -> forall acc k,
  mget (puts l acc) k = match mget l k with Some c => Some (update c (get acc k)) | None => mget acc k end.
Proof.
  induction l as [|[k' c'] l IH]; intros N acc k; [reflexivity|]. cbn [puts mget]. inversion N as [|? ? N1 N2]; subst. rewrite (IH N2).
  destruct (str_eqb_spec k k') as [->|E].
  - destruct (mget l k') eqn:M; [elim N1; apply mget_In in M; apply (in_map fst) in M; exact M|]. apply mget_mset_same.
  - unfold get. rewrite mget_mset_other by congruence. reflexivity.
Qed.
Lemma puts_nodup l : forall acc, NoDup (map fst acc) -> NoDup (map fst (puts l acc)).
Proof. induction l as [|[k c] l IH]; intros acc N; [exact N|]. cbn [puts]. apply IH, mset_nodup, N. Qed.
Fixpoint lists (l ds : list tree) : list tree :=
  match l, ds with [], _ => ds | c :: r, d :: ds => update c d :: lists r ds | c :: r, [] => update c TNone :: lists r [] end.
Lemma update_list ts ds : ts <> [] -> update (TList ts) (TList ds) = TList (lists ts ds).
Proof.
  intro N. destruct ts as [|t ts]; [congruence|]. reflexivity.
Qed.
Definition clean_list ts := forall c, In c ts -> clean c.
Lemma clean_list_iff ts : clean (TList ts) <-> clean_list ts.
Proof.
  unfold clean_list. induction ts as [|t ts IH]; [cbn; intuition|]. change (clean t /\ clean (TList ts) <-> forall c, In c (t :: ts) -> clean c). rewrite IH. split.
  - intros [A B] c [<-|H]; auto.
  - intro H. split; [apply H; left; reflexivity|]. intros c X. apply H. right. exact X.
Qed.
Lemma update_clean a : clean a -> forall b, clean b -> clean (update a b).
Proof.
  induction a as [|es IH|ts IH|s|t vs] using all_tree; intros C b CB; [exact CB| | |exact I|].
  - destruct es as [|e es]; [exact CB|]. rewrite update_obj by discriminate. apply clean_obj in C. destruct C as [C1 C2].
    assert (B1 : NoDup (map fst (ents b))) by (destruct b; try constructor; apply clean_obj, CB). pose proof (ents_cleans _ CB) as B2.
    apply clean_make; [apply puts_nodup, B1|]. revert B2. generalize (ents b). clear CB B1 C1. revert IH C2. generalize (e :: es). clear.
    induction l as [|[k c] l IHl]; intros IH C acc A; [exact A|]. cbn [puts]. destruct C as (C1 & C2 & C3).
    apply IHl; [intros k' c' H; apply (IH k' c'); right; exact H|exact C3|]. apply mset_cleans; [exact C1| |exact A].
    apply (IH k c (or_introl eq_refl) C2), get_clean, A.
  - apply clean_list_iff in C. destruct ts as [|t ts]; [exact CB|]. destruct b as [|bs|ds|s|t' vs].
    1,2,4,5: change (clean (TList (map (fun c => update c TNone) (t :: ts)))); apply clean_list_iff; intros c H; apply in_map_iff in H;
      destruct H as (x & <- & H); apply IH; [exact H|exact (C x H)|exact I].
    rewrite update_list by discriminate. apply clean_list_iff. apply clean_list_iff in CB. revert ds CB IH C. generalize (t :: ts). clear.
    induction l as [|c l IHl]; intros ds CB IH C; [exact CB|]. destruct ds as [|d ds]; cbn [lists]; intros x [<-|H].
    + apply IH; [left; reflexivity|apply C; left; reflexivity|exact I].
    + apply (IHl []); [intros y []|intros; apply IH; try (right; assumption); assumption|intros y Y; apply C; right; exact Y|exact H].
    + apply IH; [left; reflexivity|apply C; left; reflexivity|apply CB; left; reflexivity].
    + apply (IHl ds); [intros y Y; apply CB; right; exact Y|intros; apply IH; try (right; assumption); assumption|intros y Y; apply C; right; exact Y|exact H].
  - cbn [update]. destruct b; try exact I. destruct (_ && _); exact I.
Qed.
Lemma mset_id es k (c : tree) : mget es k = Some c -> mset es k c = es.
Proof.
  induction es as [|[k' c'] es IH]; [discriminate|]. cbn [mget mset]. destruct (str_eqb_spec k k') as [->|N]; [congruence|]. intro H. rewrite (IH H). reflexivity.
Qed.
Lemma tid_refl t : tid_eqb t t = true. Proof. destruct t; reflexivity. Qed.
Lemma update_same a : clean a -> update a a = a.
Proof.
  induction a as [|es IH|ts IH|s|t vs] using all_tree; intro C; [reflexivity| | |reflexivity|].
  - destruct es as [|e es]; [reflexivity|]. rewrite update_obj by discriminate. f_equal. cbn [ents]. apply clean_obj in C. destruct C as [C1 C2].
    remember (e :: es) as all. clear Heqall e es.
    assert (G : forall l, incl l all -> puts l all = all).
    { induction l as [|[k c] l IHl]; intro X; [reflexivity|]. cbn [puts]. assert (H : In (k, c) all) by (apply X; left; reflexivity).
      pose proof (mget_Some_In_nodup _ _ _ C1 H) as M. unfold get. rewrite M, (IH k c H (proj2 (cleans_In _ _ _ C2 H))), (mset_id _ _ _ M). apply IHl.
      intros y Y. apply X. right. exact Y. }
    apply G, incl_refl.
  - destruct ts as [|t ts]; [reflexivity|]. rewrite update_list by discriminate. f_equal. apply clean_list_iff in C. revert IH C. generalize (t :: ts). clear.
    induction l as [|c l IHl]; intros IH C; [reflexivity|]. cbn [lists]. rewrite IH by (try apply C; left; reflexivity). f_equal. apply IHl; [intros; apply IH; try (right; assumption); assumption|intros y Y; apply C; right; exact Y].
  - cbn [update]. rewrite tid_refl, Nat.leb_refl, skipn_all, app_nil_r. reflexivity.
Qed.
(** nothing in it is left out when it is copied *)
Fixpoint solid (n : tree) : Prop :=
  match n with
  | TObj es => es <> [] /\ (fix go l := match l with [] => True | (_, c) :: r => solid c /\ go r end) es
  | TList ts => ts <> [] /\ (fix go l := match l with [] => True | c :: r => solid c /\ go r end) ts
  | _ => True
  end.
Lemma solid_obj es : solid (TObj es) <-> es <> [] /\ forall k c, In (k, c) es -> solid c.
Proof.
  cbn [solid]. assert (X : (fix go (l : list (str * tree)) := match l with [] => True | (_, c) :: r => solid c /\ go r end) es <-> forall k c, In (k, c) es -> solid c); [|rewrite X; reflexivity].
  induction es as [|[k c] es IH]; [cbn; intuition|]. rewrite IH. split.
  - intros [A B] k' c' [H|H]; [injection H as _ <-; exact A|exact (B k' c' H)].
  - intro H. split; [exact (H k c (or_introl eq_refl))|]. intros k' c' X. exact (H k' c' (or_intror X)).
Qed.
Lemma solid_list ts : solid (TList ts) <-> ts <> [] /\ forall c, In c ts -> solid c.
Proof.
  cbn [solid]. assert (X : (fix go (l : list tree) := match l with [] => True | c :: r => solid c /\ go r end) ts <-> forall c, In c ts -> solid c); [|rewrite X; reflexivity].
  induction ts as [|c ts IH]; [cbn; intuition|]. rewrite IH. split.
  - intros [A B] c' [<-|H]; auto.
  - intro H. split; [apply H; left; reflexivity|]. intros c' X. apply H. right. exact X.
Qed.
Lemma update_new a : clean a -> solid a -> update a TNone = a.
Proof.
  induction a as [|es IH|ts IH|s|t vs] using all_tree; intros C S; [reflexivity| | |reflexivity|reflexivity].
  - apply solid_obj in S. destruct S as [S1 S2]. rewrite update_obj by exact S1. f_equal. cbn [ents]. apply clean_obj in C. destruct C as [C1 C2].
    assert (G : forall l acc, NoDup (map fst (acc ++ l)) -> incl l es -> puts l acc = acc ++ l).
    { induction l as [|[k c] l IHl]; intros acc N X; [rewrite app_nil_r; reflexivity|]. cbn [puts]. assert (H : In (k, c) es) by (apply X; left; reflexivity).
      assert (F : ~ In k (map fst acc)). { rewrite map_app in N. apply NoDup_remove_2 in N. intro Y. apply N, in_or_app. left. exact Y. }
      assert (M : mget acc k = None). { destruct (mget acc k) eqn:E; [|reflexivity]. elim F. apply mget_In in E. apply (in_map fst) in E. exact E. }
      unfold get. rewrite M, (IH k c H (proj2 (cleans_In _ _ _ C2 H)) (S2 k c H)), (mset_new _ _ _ F), IHl.
      - rewrite <- app_assoc. reflexivity.
      - rewrite <- app_assoc. exact N.
      - intros y Y. apply X. right. exact Y. }
    apply (G es []); [exact C1|apply incl_refl].
  - apply solid_list in S. destruct S as [S1 S2]. apply clean_list_iff in C. destruct ts as [|t ts]; [congruence|].
    change (TList (map (fun c => update c TNone) (t :: ts)) = TList (t :: ts)). f_equal. rewrite <- (map_id (t :: ts)) at 2. apply map_ext_in.
    intros c H. apply IH; [exact H|exact (C c H)|exact (S2 c H)].
Qed.
(** * Entries are solid, and those of parts that are alike are equal *)
Lemma marked_solid l : l <> [] -> solid (TObj (marked l)).
Proof.
  intro N. apply solid_obj. split.
  - pose proof (marked_object l N) as O. destruct (marked l); discriminate.
  - assert (G : forall m : list (str * tree), (forall k c, In (k, c) m -> c = TNone) -> forall k c, In (k, c) (fold_left (fun acc a => mset acc a TNone) l m) -> c = TNone).
    { clear N. induction l as [|a l IH]; intros m M k c H; [exact (M k c H)|]. cbn [fold_left] in H. apply (IH (mset m a TNone)) in H; [exact H|]. clear -M.
      intros k c. induction m as [|[k' c'] m IHm]; cbn [mset]; [intros [H|[]]; injection H as _ <-; reflexivity|]. destruct (str_eqb a k').
      - intros [H|H]; [injection H as _ <-; reflexivity|exact (M k c (or_intror H))].
      - intros [H|H]; [exact (M k c (or_introl H))|]. apply IHm; [intros; apply (M k0); right; assumption|exact H]. }
    intros k c H. rewrite (G [] (fun k c F => match F with end) k c H). exact I.
Qed.
Ltac solids := apply solid_obj; split; [discriminate|]; let k := fresh in let c := fresh in let H := fresh in intros k c H; cbn [app In] in H;
  repeat match type of H with _ \/ _ => destruct H as [H|H] end; try contradiction; try (injection H as _ <-); try exact I.
Ltac step H := match type of H with obind ?x _ = Ok _ => let E := fresh "E" in destruct x eqn:E; try discriminate H; cbn [obind] in H end.
Lemma optional_solid c f o : optional c f = Ok o -> o = [] \/ exists s, o = [(f, TStr s)].
Proof. unfold optional. destruct (has c f); [|intro H; injection H as <-; auto]. intro H. step H. injection H as <-. eauto. Qed.
Lemma maker_solid rp p k c e : In p sections -> maker rp p k c = Ok e -> entry p e = true -> solid e.
Proof.
  intros P M G. unfold sections in P. cbn [In] in P. destruct P as [<-|[<-|[<-|[<-|[<-|[<-|[<-|[]]]]]]]].
  - change (idx_coordset rp k c = Ok e) in M. unfold idx_coordset in M. do 3 step M. injection M as <-. solids.
    destruct a0 as [|x l]; [solids|]. solids. apply marked_solid. discriminate.
  - change (idx_topology rp k c = Ok e) in M. unfold idx_topology in M. do 3 step M. injection M as <-. destruct (optional_solid _ _ _ E1) as [->|[s ->]]; solids.
  - change (idx_matset rp k c = Ok e) in M. unfold idx_matset in M. do 2 step M. injection M as <-. change (matset_entry (TObj ([(L "topology", TStr a)] ++ a0 ++ [(L "path", ref rp (L "matsets") k)])) = true) in G.
    destruct (has c (L "material_map")); [|destruct (has c (L "materials")); [|destruct (has c (L "volume_fractions")); [|discriminate E0]]]; step E0; injection E0 as <-.
    + unfold matset_entry in G. erewrite (must_some _ (L "material_map")) in G by reflexivity. erewrite (given_some _ (L "material_map")) in G by reflexivity. rewrite !Bool.andb_true_iff in G.
      destruct G as [_ G]. cbn [negb andb] in G. rewrite Bool.orb_false_r in G. unfold material_map_ok in G. apply andb_prop in G. destruct G as [G1 G2]. solids.
      destruct a1 as [|es| | |]; try discriminate G1. apply solid_obj. split; [destruct es; discriminate|]. intros k' c' HH. pose proof (every_In _ _ _ _ G2 HH) as X. destruct c'; try discriminate X; exact I.
    + destruct (names_of a1) as [|x l]; [solids|]. solids. apply marked_solid. discriminate.
    + destruct (names_of a1) as [|x l]; [solids|]. solids. apply solid_obj. split; [discriminate|].
      intros k' c' [HH|HH]; [injection HH as _ <-; exact I|]. apply in_combine_r, in_map_iff in HH. destruct HH as (j & <- & _). exact I.
  - change (idx_specset rp k c = Ok e) in M. unfold idx_specset in M. do 2 step M. injection M as <-.
    set (sp := flat_map _ (kids a0)). assert (S : forall x y, In (x, y) sp -> solid y).
    { intros x y H. apply in_flat_map in H. destruct H as ([m v] & _ & H). cbn [fst snd] in H. destruct (names_of v) as [|s l]; [destruct H|]. destruct H as [H|[]]. injection H as _ <-. apply marked_solid. discriminate. }
    destruct sp as [|s sp]; [solids|]. solids. apply solid_obj. split; [discriminate|exact S].
  - change (idx_field rp k c = Ok e) in M. unfold idx_field in M. do 5 step M. injection M as <-. destruct a3 as [g x].
    change (field_entry (TObj ([(L "number_of_components", count a)] ++ a0 ++ a1 ++ a2 ++ [(g, x); (L "path", ref rp (L "fields") k)])) = true) in G.
    assert (X : solid x).
    { unfold field_entry in G. rewrite !Bool.andb_true_iff in G. destruct G as [[[[[[[_ GA] GB] _] _] _] _] _].
      destruct (has c (L "association")); step E3; injection E3 as <- <-;
      destruct (optional_solid _ _ _ E0) as [->|[s0 ->]], (optional_solid _ _ _ E1) as [->|[s1 ->]], (optional_solid _ _ _ E2) as [->|[s2 ->]];
      first [erewrite (may_some _ (L "association")) in GA by reflexivity; destruct a3; try discriminate GA; exact I
            |erewrite (may_some _ (L "basis")) in GB by reflexivity; destruct a3; try discriminate GB; exact I]. }
    destruct (optional_solid _ _ _ E0) as [->|[s0 ->]], (optional_solid _ _ _ E1) as [->|[s1 ->]], (optional_solid _ _ _ E2) as [->|[s2 ->]]; solids; exact X.
  - change (idx_meeting (L "adjsets") rp k c = Ok e) in M. unfold idx_meeting in M. do 2 step M. injection M as <-. solids.
  - change (idx_meeting (L "nestsets") rp k c = Ok e) in M. unfold idx_meeting in M. do 2 step M. injection M as <-. solids.
Qed.
Lemma coordset_value rp k c : coordset_ok c = true -> one_system c = true -> exists ty, kid c (L "type") = Some (TStr ty) /\
  idx_coordset rp k c = Ok (TObj [(L "type", TStr ty);
    (L "coord_system", TObj ((match axis_names c with [] => [] | _ => [(L "axes", TObj (marked (axis_names c)))] end) ++ [(L "type", TStr (sys (axis_names c)))]));
    (L "path", ref rp (L "coordsets") k)]).
Proof.
  intros C O. destruct (coordset_type c C) as (ty & T & _ & D & V). destruct (axes_made c ty T D V O) as (A & s & _ & _ & n & S3 & S4 & S5).
  exists ty. split; [exact T|]. unfold idx_coordset. rewrite (text_of _ _ _ T). cbn [obind]. rewrite A. cbn [obind]. rewrite S3. cbn [obind]. rewrite S4, S5. reflexivity.
Qed.
Lemma same_kid l a b f : same l a b -> In f l -> kid b f = kid a f. Proof. intros H F. exact (H f F). Qed.
Ltac kids_at H f := rewrite (same_kid _ _ _ f H) by (cbn; tauto).
Lemma maker_alike da db rp p k a b : In p sections -> goods da p a = true -> ready p a = true -> goods db p b = true -> ready p b = true ->
  alike p a b -> maker rp p k a = maker rp p k b.
Proof.
  intros P GA RA GB RB E. unfold sections in P. cbn [In] in P. destruct P as [<-|[<-|[<-|[<-|[<-|[<-|[<-|[]]]]]]]].
  - destruct E as [E1 E2]. destruct (coordset_value rp k a GA RA) as (t & T & MA). destruct (coordset_value rp k b GB RB) as (u & U & MB).
    change (idx_coordset rp k a = idx_coordset rp k b). rewrite MA, MB, E2. pose proof (same_kid _ _ _ (L "type") E1 (or_introl eq_refl)) as X.
    assert (t = u) by congruence. subst. reflexivity.
  - change (same [L "type"; L "coordset"; L "grid_function"] a b) in E. change (idx_topology rp k a = idx_topology rp k b). unfold idx_topology, optional, text, fetch, has.
    kids_at E (L "type"). kids_at E (L "coordset"). kids_at E (L "grid_function"). reflexivity.
  - destruct E as [E1 E2]. change (idx_matset rp k a = idx_matset rp k b). unfold idx_matset, text, fetch, has.
    kids_at E1 (L "topology"). kids_at E1 (L "material_map"). f_equal. unfold given, names_at in E2. destruct (kid a (L "material_map")); [reflexivity|]. destruct (E2 eq_refl) as [F1 F2]. unfold member_names in *.
    destruct (kid a (L "materials")), (kid b (L "materials")); cbn [option_map] in F1; try discriminate F1.
    + cbn [obind]. unfold names_of. injection F1 as ->. reflexivity.
    + destruct (kid a (L "volume_fractions")), (kid b (L "volume_fractions")); cbn [option_map] in F2; try discriminate F2; [|reflexivity]. cbn [obind]. unfold names_of. injection F2 as ->. reflexivity.
  - destruct E as [E1 E2]. change (idx_specset rp k a = idx_specset rp k b). unfold idx_specset, text, fetch.
    kids_at E1 (L "matset"). destruct (kid a (L "matset_values")) as [v|], (kid b (L "matset_values")) as [w|]; cbn [option_map] in E2; try discriminate E2; [|reflexivity].
    cbn [obind]. injection E2 as E2. assert (X : forall l, flat_map (fun e : str * tree => match names_of (snd e) with [] => [] | l => [(fst e, TObj (marked l))] end) l =
       flat_map (fun e : str * list str => match snd e with [] => [] | l => [(fst e, TObj (marked l))] end) (map (fun e => (fst e, member_names (snd e))) l)).
    { induction l as [|[m x] l IH]; [reflexivity|]. cbn [flat_map map fst snd]. rewrite IH. reflexivity. }
    rewrite !X, E2. reflexivity.
  - destruct E as (E1 & E2 & E3). change (idx_field rp k a = idx_field rp k b). unfold idx_field, optional, text.
    assert (K : forall c, (if has c (L "values") then do v <- fetch c (L "values"); Ok (components_of v)
      else do v <- fetch c (L "matset_values"); match kids v with (_, x) :: _ => Ok (components_of x) | [] => Err end) = match components c with Some n => Ok n | None => Err end).
    { intro c. unfold has, fetch, components. destruct (kid c (L "values")); [reflexivity|]. destruct (kid c (L "matset_values")) as [v|]; [|reflexivity]. cbn [obind]. destruct (kids v) as [|[? ?] ?]; reflexivity. }
    rewrite !K, E3. unfold has, fetch. kids_at E1 (L "topology"). kids_at E1 (L "matset"). kids_at E1 (L "volume_dependent"). kids_at E1 (L "association").
    unfold given in E2. destruct (kid a (L "association")); [reflexivity|]. specialize (E2 eq_refl). kids_at E2 (L "basis"). reflexivity.
  - change (same [L "association"; L "topology"] a b) in E. change (idx_meeting (L "adjsets") rp k a = idx_meeting (L "adjsets") rp k b). unfold idx_meeting, text, fetch.
    kids_at E (L "association"). kids_at E (L "topology"). reflexivity.
  - change (same [L "association"; L "topology"] a b) in E. change (idx_meeting (L "nestsets") rp k a = idx_meeting (L "nestsets") rp k b). unfold idx_meeting, text, fetch.
    kids_at E (L "association"). kids_at E (L "topology"). reflexivity.
Qed.
(** * All domains *)
Definition good_domain (d : tree) : Prop := clean d /\ domain_ok d = true /\ indexable d = true.
Lemma part_kid d p k c : part d p k = Some c <-> exists sec, kid d p = Some sec /\ kid sec k = Some c.
Proof. unfold part. destruct (kid d p) as [s|]; split; [eauto|intros (x & A & B); congruence|discriminate|intros (x & A & _); discriminate]. Qed.
Lemma part_good d p k c : good_domain d -> In p sections -> part d p k = Some c -> goods d p c = true /\ ready p c = true.
Proof.
  intros (C & D & R) P K. apply part_kid in K. destruct K as (sec & K1 & K2). destruct (domain_goods d p sec D R P K1) as [_ G]. apply (G k), kid_kids, K2.
Qed.
Lemma alike_equal rp d d' p k a b e f : good_domain d -> good_domain d' -> In p sections -> part d p k = Some a -> part d' p k = Some b -> alike p a b ->
  maker rp p k a = Ok e -> maker rp p k b = Ok f -> e = f.
Proof.
  intros G G' P A B E MA MB. destruct (part_good _ _ _ _ G P A), (part_good _ _ _ _ G' P B). rewrite (maker_alike d d' rp p k a b) in MA; auto. congruence.
Qed.
Lemma made_back rp d i p es k e : good_domain d -> made rp d i -> In p sections -> kid i p = Some (TObj es) -> mget es k = Some e ->
  exists c, part d p k = Some c /\ maker rp p k c = Ok e.
Proof.
  intros (C & D & R) M P K G. specialize (M p P). unfold section_made in M. destruct (kid d p) as [sec|] eqn:KD; [|congruence]. destruct M as (es' & E & L).
  assert (es' = es) by congruence. subst es'. destruct (listed_back _ _ _ _ L k e (mget_In _ _ _ G)) as (c & A & B). exists c. split; [|exact B].
  apply part_kid. exists sec. split; [exact KD|]. destruct (domain_goods d p sec D R P KD) as [O _].
  apply kid_of; [exact (clean_kid _ _ _ C KD)|destruct sec; try discriminate O; reflexivity|exact A].
Qed.
Lemma made_entry rp d i p es k e : good_domain d -> made rp d i -> In p sections -> kid i p = Some (TObj es) -> mget es k = Some e -> clean e /\ solid e.
Proof.
  intros G M P K H. destruct (made_back rp d i p es k e G M P K H) as (c & A & B). apply part_kid in A. destruct A as (sec & A1 & A2). destruct G as (C & D & R).
  destruct (made_part rp d p sec k c e C D R P A1 (kid_kids _ _ _ A2) B) as (X & _ & _ & Y & _). split; [exact X|exact (maker_solid rp p k c e P B Y)].
Qed.
Lemma update_kid es dst k : NoDup (map fst es) -> kid (update (TObj es) dst) k = match mget es k with Some c => Some (update c (get (ents dst) k)) | None => kid dst k end.
Proof.
  intro N. destruct es as [|e es]; [reflexivity|]. rewrite update_obj by discriminate. cbn [kid]. rewrite (puts_get _ N).
  destruct (mget (e :: es) k); [reflexivity|]. destruct dst; reflexivity.
Qed.
Lemma get_kid n k : get (ents n) k = match kid n k with Some c => c | None => TNone end. Proof. destruct n; reflexivity. Qed.
Definition inv (rp : str) (ds : list tree) (acc : tree) : Prop :=
  clean acc /\ (ds = [] \/ is_object acc = true) /\
  (forall p, In p sections -> match kid acc p with
     | None => forall d, In d ds -> kid d p = None
     | Some s => exists es, s = TObj es /\ es <> [] /\ forall k e, mget es k = Some e -> exists d c, In d ds /\ part d p k = Some c /\ maker rp p k c = Ok e
     end) /\
  (forall d, In d ds -> covers rp d acc).
Lemma inv_step rp ds acc d i : (forall x, In x (d :: ds) -> good_domain x) -> consistent (d :: ds) -> inv rp ds acc ->
  clean i -> is_object i = true -> made rp d i -> inv rp (d :: ds) (update i acc).
Proof.
  intros GD CO (C & O & S & V) CI OI M. assert (G : good_domain d) by (apply GD; left; reflexivity).
  assert (KEY : forall p es, In p sections -> kid i p = Some (TObj es) -> es <> [] /\ exists es', kid (update i acc) p = Some (TObj es') /\
    forall k, mget es' k = match mget es k with Some e => Some e | None => match kid acc p with Some s => kid s k | None => None end end).
  { intros p es P K. assert (NE : es <> []).
    { pose proof (M p P) as X. unfold section_made in X. destruct (kid d p) as [sec|] eqn:KD; [|congruence]. destruct X as (es' & E & L). assert (es' = es) by congruence. subst es'.
      destruct G as (_ & D & R). destruct (domain_goods d p sec D R P KD) as [OS _]. pose proof (listed_names _ _ _ _ L) as N. intros ->. destruct sec as [|[|]| | |]; try discriminate OS; discriminate N. }
    split; [exact NE|]. destruct i as [|is| | |]; try discriminate OI. cbn [kid] in K. pose proof (clean_kid _ _ _ CI (K : kid (TObj is) p = Some (TObj es))) as CE.
    rewrite update_kid by apply (clean_obj _ CI). rewrite K, update_obj by exact NE. eexists. split; [reflexivity|]. intro k.
    rewrite (puts_get _ (proj1 (clean_obj _ CE))). destruct (mget es k) as [e|] eqn:H.
    - f_equal. destruct (made_entry rp d (TObj is) p es k e G M P K H) as [E1 E2]. rewrite !get_kid. specialize (S p P).
      destruct (kid acc p) as [s|]; [|apply update_new; assumption]. destruct S as (es0 & -> & _ & S). cbn [kid]. destruct (mget es0 k) as [e0|] eqn:H0; [|apply update_new; assumption].
      destruct (S k e0 H0) as (d0 & c0 & D0 & P0 & M0). destruct (made_back rp d (TObj is) p es k e G M P K H) as (c & PC & MC).
      assert (e = e0).
      { apply (alike_equal rp d d0 p k c c0); auto; [apply GD; right; exact D0|]. apply (CO d d0 p k); auto; [left; reflexivity|right; exact D0]. }
      subst e0. apply update_same, E1.
    - rewrite get_kid. destruct (kid acc p) as [s|]; [destruct s; reflexivity|reflexivity]. }
  assert (OFF : forall p, In p sections -> kid i p = None -> kid (update i acc) p = kid acc p).
  { intros p P K. destruct i as [|is| | |]; try discriminate OI. rewrite update_kid by apply (clean_obj _ CI). cbn [kid] in K. rewrite K. reflexivity. }
  assert (CASE : forall p, In p sections -> kid i p = None /\ kid d p = None \/ exists es, kid i p = Some (TObj es)).
  { intros p P. pose proof (M p P) as X. unfold section_made in X. destruct (kid d p); [right; destruct X as (es & X & _); eauto|left; auto]. }
  split; [apply update_clean; assumption|]. split; [|split].
  - right. destruct i as [|[|e is]| | |]; try discriminate OI; [|rewrite update_obj by discriminate; reflexivity].
    exfalso. destruct G as (_ & D & _). destruct (sections_given d (L "coordsets") D (or_introl eq_refl)) as [s KS]. assert (P : In (L "coordsets") sections) by (left; reflexivity).
    destruct (CASE _ P) as [[_ X]|[es X]]; [congruence|discriminate X].
  - intros p P. specialize (S p P). destruct (CASE p P) as [[K KD]|[es K]].
    + rewrite (OFF p P K). destruct (kid acc p) as [s|].
      * destruct S as (es & E & NE & S). exists es. split; [exact E|split; [exact NE|]]. intros k e H. destruct (S k e H) as (d0 & c0 & D0 & X). exists d0, c0. split; [right; exact D0|exact X].
      * intros d' [<-|H]; [exact KD|exact (S d' H)].
    + destruct (KEY p es P K) as (NE & es' & E & GET). rewrite E. exists es'. split; [reflexivity|]. split.
      * destruct es as [|[k e] es]; [congruence|]. specialize (GET k). cbn [mget] in GET. rewrite (proj2 (str_eqb_eq k k) eq_refl) in GET. intros ->. discriminate GET.
      * intros k e H. rewrite GET in H. destruct (mget es k) as [e1|] eqn:H1.
        -- assert (e1 = e) by congruence. subst e1. destruct (made_back rp d i p es k e G M P K H1) as (c & X). exists d, c. split; [left; reflexivity|exact X].
        -- destruct (kid acc p) as [s|]; [|discriminate H]. destruct S as (es0 & -> & _ & S). destruct (S k e H) as (d0 & c0 & D0 & X). exists d0, c0. split; [right; exact D0|exact X].
  - intros d' D' p sec k c P K1 K2. assert (PC : part d' p k = Some c) by (apply part_kid; eauto). destruct D' as [<-|D'].
    + destruct (made_get rp d i p sec k c M P K1 K2) as (es & e & E1 & E2 & E3). destruct (KEY p es P E1) as (_ & es' & E & GET).
      exists es', e. split; [exact E|split; [rewrite GET, E2; reflexivity|exact E3]].
    + destruct (V d' D' p sec k c P K1 K2) as (es0 & e0 & E1 & E2 & E3). destruct (CASE p P) as [[K KD]|[es K]].
      * rewrite (OFF p P K). exists es0, e0. auto.
      * destruct (KEY p es P K) as (_ & es' & E & GET). exists es', e0. split; [exact E|split; [|exact E3]]. rewrite GET, E1. destruct (mget es k) as [e|] eqn:H; [|exact E2].
        destruct (made_back rp d i p es k e G M P K H) as (c1 & PC1 & MC1). f_equal. apply (alike_equal rp d d' p k c1 c); auto; [apply GD; right; exact D'|].
        apply (CO d d' p k); auto; [left; reflexivity|right; exact D'].
Qed.
Lemma consistent_incl a b : incl a b -> consistent b -> consistent a.
Proof. intros H C d d' p k x y D D'. apply C; apply H; assumption. Qed.
Lemma inv_run rp l : forall ds acc, (forall x, In x (rev l ++ ds) -> good_domain x) -> consistent (rev l ++ ds) -> inv rp ds acc ->
  exists i, index_domains rp l acc = Ok i /\ inv rp (rev l ++ ds) i.
Proof.
  induction l as [|d l IH]; intros ds acc G C V; [exists acc; auto|]. cbn [index_domains rev] in *. rewrite <- app_assoc in G, C |- *. cbn [app] in *.
  assert (I1 : incl (d :: ds) (rev l ++ d :: ds)) by (intros x X; apply in_or_app; right; exact X).
  destruct (G d (I1 d (or_introl eq_refl))) as (D1 & D2 & D3). destruct (domain_run rp d D1 D2 D3) as (i & E & CI & OI & M & _). rewrite E. cbn [obind].
  apply (IH (d :: ds)); [exact G|exact C|]. apply inv_step; [intros x X; apply G, I1, X|exact (consistent_incl _ _ I1 C)|exact V|exact CI|exact OI|exact M].
Qed.
(** the index of all of them *)
Lemma inv_ok rp ds i : ds <> [] -> (forall x, In x ds -> good_domain x) -> inv rp ds i -> index_ok i = true /\ index_of_all rp ds i.
Proof.
  intros NE G (C & _ & S & V). split; [|split].
  - apply index_good. intros p P. specialize (S p P). destruct (kid i p) as [s|] eqn:K.
    + destruct S as (es & -> & N & S). split; [destruct es; [congruence|reflexivity]|]. intros k e H. cbn [kids] in H.
      apply (mget_Some_In_nodup _ _ _ (proj1 (clean_obj _ (clean_kid _ _ _ C K)))) in H. destruct (S k e H) as (d & c & D & PC & M).
      apply part_kid in PC. destruct PC as (sec & K1 & K2). destruct (G d D) as (G1 & G2 & G3). exact (entry_listed rp d i G1 G2 G3 (V d D) p sec k c e P K1 K2 M).
    + destruct ds as [|d ds]; [congruence|]. destruct (G d (or_introl eq_refl)) as (_ & D & _). split; intro Q; (destruct (sections_given d p D) as [s X]; [auto|]);
        rewrite (S d (or_introl eq_refl)) in X; discriminate.
  - intros d p k c D P K. apply part_kid in K. destruct K as (sec & K1 & K2). destruct (V d D p sec k c P K1 K2) as (es & e & A & B & F).
    exists e. split; [unfold part; rewrite A; exact B|]. destruct (G d D) as (G1 & G2 & G3). destruct (made_part rp d p sec k c e G1 G2 G3 P K1 (kid_kids _ _ _ K2) F) as (_ & X & Y & _). auto.
  - intros p s P K. specialize (S p P). rewrite K in S. destruct S as (es & -> & N & S). split; [destruct es; [congruence|reflexivity]|].
    intros k e H. unfold part in H. rewrite K in H. destruct (S k e H) as (d & c & D & X & _). exists d, c. auto.
Qed.
(** * What domains agree on in their state *)
Lemma state_step rp d i acc f v : good_domain d -> In f [L "cycle"; L "time"] -> part d (L "state") f = Some v -> (exists t vs, v = TNum t vs) ->
  index_domain rp d = Ok i -> kid acc (L "state") = None \/ part acc (L "state") f = Some v -> part (update i acc) (L "state") f = Some v.
Proof.
  intros (C & D & R) F K (t & vs & ->) E A. destruct (domain_run rp d C D R) as (i' & E' & CI & OI & _ & S). assert (i' = i) by congruence. subst i'. clear E E'.
  apply part_kid in K. destruct K as (st & K1 & K2). rewrite K1 in S. destruct S as (u & S1 & S2 & S3 & S4).
  assert (KU : kid u f = Some (TNum t vs)). { destruct F as [<-|[<-|[]]]; congruence. }
  pose proof (clean_kid _ _ _ CI S1) as CU. destruct i as [|is| | |]; try discriminate OI. destruct u as [|us| | |]; try discriminate KU.
  unfold part. rewrite update_kid by apply (clean_obj _ CI). cbn [kid] in S1, KU. rewrite S1, update_kid by apply (clean_obj _ CU). rewrite KU. f_equal.
  rewrite !get_kid. destruct A as [A|A].
  - rewrite A. reflexivity.
  - apply part_kid in A. destruct A as (w & A1 & A2). rewrite A1, A2. cbn [update]. rewrite tid_refl, Nat.leb_refl, skipn_all, app_nil_r. reflexivity.
Qed.
Lemma state_all rp f v : In f [L "cycle"; L "time"] -> (exists t vs, v = TNum t vs) -> forall l acc i, (forall d, In d l -> good_domain d /\ part d (L "state") f = Some v) ->
  index_domains rp l acc = Ok i -> kid acc (L "state") = None \/ part acc (L "state") f = Some v -> l = [] \/ part i (L "state") f = Some v.
Proof.
  intros F V. assert (X : forall l acc i, (forall d, In d l -> good_domain d /\ part d (L "state") f = Some v) -> index_domains rp l acc = Ok i -> part acc (L "state") f = Some v -> part i (L "state") f = Some v).
  { induction l as [|d l IH]; intros acc i G E A; [injection E as <-; exact A|]. cbn [index_domains] in E. step E. destruct (G d (or_introl eq_refl)) as [G1 G2].
    apply (IH (update a acc)); [intros x Y; apply G; right; exact Y|exact E|]. exact (state_step rp d a acc f v G1 F G2 V E0 (or_intror A)). }
  intros [|d l] acc i G E A; [left; reflexivity|right]. cbn [index_domains] in E. step E. destruct (G d (or_introl eq_refl)) as [G1 G2].
  apply (X l (update a acc)); [intros x Y; apply G; right; exact Y|exact E|]. exact (state_step rp d a acc f v G1 F G2 V E0 A).
Qed.
Lemma many_domains rp n z : clean n -> given (L "coordsets") n = false -> kids n <> [] ->
  (forall d, In d (map snd (kids n)) -> domain_ok d = true /\ indexable d = true) -> consistent (map snd (kids n)) ->
  exists i, generate_index n rp z = Ok i /\ index_of_all rp (map snd (kids n)) i /\ clean i /\ index_ok i = true /\ part i (L "state") (L "number_of_domains") = Some (TNum INT64 [z]) /\
    forall f v, In f [L "cycle"; L "time"] -> (exists t vs, v = TNum t vs) -> (forall d, In d (map snd (kids n)) -> part d (L "state") f = Some v) -> part i (L "state") f = Some v.
Proof.
  intros C GV NE G CO. set (ds := map snd (kids n)) in *. assert (ND : ds <> []) by (unfold ds; destruct (kids n); [congruence|discriminate]).
  assert (GD : forall d, In d ds -> good_domain d).
  { intros d H. destruct (G d H). split; [|auto]. unfold ds in H. apply in_map_iff in H. destruct H as ([k c] & <- & H). exact (proj2 (kids_fine _ _ _ C H)). }
  assert (REV : forall x, In x (rev ds ++ []) <-> In x ds) by (intro x; rewrite app_nil_r; symmetry; apply in_rev).
  assert (V0 : inv rp [] TNone). { split; [exact I|split; [left; reflexivity|split; [|intros d []]]]. intros p P d []. }
  destruct (inv_run rp ds [] TNone) as (i & E & V); [intros x X; apply GD, REV, X| |exact V0|].
  { apply (consistent_incl _ ds); [|exact CO]. intros x X. apply REV, X. }
  assert (OI : is_object i = true). { destruct V as (_ & [X|X] & _); [|exact X]. apply app_eq_nil in X. destruct X as [X _]. apply (f_equal (@rev _)) in X. rewrite rev_involutive in X. elim ND. exact X. }
  assert (VI : inv rp ds (numbered i z)).
  { destruct V as (C1 & _ & S & W). split; [apply numbered_clean, C1|]. split; [right; unfold numbered, put_; reflexivity|]. split.
    - intros p P. rewrite (numbered_kid _ _ _ OI P). specialize (S p P). destruct (kid i p) as [s|].
      + destruct S as (es & A & B & S). exists es. split; [exact A|split; [exact B|]]. intros k e H. destruct (S k e H) as (d & c & X & Y). exists d, c. split; [apply REV, X|exact Y].
      + intros d D. apply S, REV, D.
    - intros d D p sec k c P. rewrite (numbered_kid _ _ _ OI P). apply (W d); [apply REV, D|exact P]. }
  destruct (inv_ok rp ds (numbered i z) ND GD VI) as [OK ALL]. exists (numbered i z).
  destruct (numbered_state i z) as (st & A & B & F). split; [|split; [exact ALL|split; [apply VI|split; [exact OK|split]]]].
  - unfold generate_index, has. unfold given in GV. destruct (kid n (L "coordsets")); [discriminate|]. change (map snd (kids n)) with ds. rewrite E. destruct n; try reflexivity. elim NE. reflexivity.
  - unfold part. rewrite A. exact B.
  - intros f v HF HV HD. destruct (state_all rp f v HF HV ds TNone i) as [X|X]; [intros d D; split; [apply GD, D|apply HD, D]|exact E|left; reflexivity|congruence|].
    apply part_kid in X. destruct X as (t & X1 & X2). unfold part. rewrite A, (F f t); [exact X2| |exact X1|destruct t; try discriminate X2; reflexivity].
    destruct HF as [<-|[<-|[]]]; nv.
Qed.
