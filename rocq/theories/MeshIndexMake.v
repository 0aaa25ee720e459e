(** Making an index: what it says, and that it passes the check. *)
From Coq Require Import ZArith Lia Btauto.
From Verif Require Import Base DType SpecTree Mem Node NodeFacts Number ArrayOps NumConv Json Path MeshVerify MeshVerifySpec MeshVerifyFacts MeshVerifyParts MeshVerifySets MeshVerifyDomain MeshIndex MeshIndexSpec MeshIndexFacts.
Import ListNotations.

(** * Trees put together *)
Lemma clean_make es : NoDup (map fst es) -> cleans es -> clean (TObj es).
Proof.
  intros A B. split; [exact A|]. clear A. induction es as [|[k c] r IH]; [exact I|]. destruct B as [B1 [B2 B3]].
  split; [exact B1|split; [exact B2|exact (IH B3)]].
Qed.
Lemma mset_names {A} (m : list (str * A)) k v x : In x (map fst (mset m k v)) <-> x = k \/ In x (map fst m).
Proof.
  induction m as [|[k' v'] m IH]; [cbn; intuition congruence|]. cbn [mset].
  destruct (str_eqb_spec k k') as [->|N]; cbn; [intuition congruence|]. rewrite IH. intuition congruence.
Qed.
Lemma mset_nodup {A} (m : list (str * A)) k v : NoDup (map fst m) -> NoDup (map fst (mset m k v)).
Proof.
  induction m as [|[k' v'] m IH]; intro N; [cbn; constructor; [intros []|constructor]|]. cbn [mset]. inversion N as [|? ? N1 N2]; subst.
  destruct (str_eqb_spec k k') as [->|E]; cbn; [exact N|]. constructor; [|apply IH, N2]. rewrite mset_names. intuition congruence.
Qed.
Lemma mset_cleans m k v : ~ In k reserved -> clean v -> cleans m -> cleans (mset m k v).
Proof.
  intros K V. induction m as [|[k' v'] m IH]; [cbn; auto|]. intros (A & B & C). cbn [mset].
  destruct (str_eqb k k'); cbn; auto.
Qed.
Lemma mset_new {A} (m : list (str * A)) k v : ~ In k (map fst m) -> mset m k v = m ++ [(k, v)].
Proof.
  induction m as [|[k' v'] m IH]; intro H; [reflexivity|]. cbn [mset]. destruct (str_eqb_spec k k') as [->|E]; [elim H; left; reflexivity|].
  cbn. rewrite IH; [reflexivity|]. intro X. apply H. right. exact X.
Qed.
Lemma marked_names l x : In x (map fst (marked l)) <-> In x l.
Proof.
  unfold marked. assert (G : forall l acc, In x (map fst (fold_left (fun acc a => mset acc a TNone) l acc)) <-> In x l \/ In x (map fst acc)).
  { clear l. induction l as [|a l IH]; intro acc; [cbn; tauto|]. cbn [fold_left]. rewrite IH, mset_names. cbn. intuition congruence. }
  rewrite G. cbn. tauto.
Qed.
Lemma marked_nodup l : NoDup (map fst (marked l)).
Proof.
  unfold marked. assert (G : forall acc : list (str * tree), NoDup (map fst acc) -> NoDup (map fst (fold_left (fun acc a => mset acc a TNone) l acc))).
  { induction l as [|a l IH]; intros acc N; [exact N|]. apply IH, mset_nodup, N. }
  apply G. constructor.
Qed.
Lemma marked_cleans l : (forall x, In x l -> ~ In x reserved) -> cleans (marked l).
Proof.
  unfold marked. assert (G : forall acc : list (str * tree), cleans acc -> (forall x, In x l -> ~ In x reserved) -> cleans (fold_left (fun acc a => mset acc a TNone) l acc)).
  { induction l as [|a l IH]; intros acc N H; [exact N|]. apply IH; [apply mset_cleans; [apply H; left; reflexivity|exact I|exact N]|intros x X; apply H; right; exact X]. }
  intro H. apply G; [exact I|exact H].
Qed.
Lemma marked_distinct l : NoDup l -> map fst (marked l) = l.
Proof.
  unfold marked. intro N. assert (G : forall acc : list (str * tree), NoDup (map fst acc ++ l) -> map fst (fold_left (fun acc a => mset acc a TNone) l acc) = map fst acc ++ l).
  { clear N. induction l as [|a l IH]; intros acc N; [cbn; rewrite app_nil_r; reflexivity|]. cbn [fold_left].
    assert (X : ~ In a (map fst acc)). { intro X. apply NoDup_remove_2 in N. apply N, in_or_app. left. exact X. }
    rewrite (mset_new _ _ _ X). rewrite IH; rewrite map_app; cbn [map fst]; rewrite <- app_assoc; [reflexivity|exact N]. }
  exact (G [] N).
Qed.
Lemma marked_clean l : (forall x, In x l -> ~ In x reserved) -> clean (TObj (marked l)).
Proof. intro H. apply clean_make; [apply marked_nodup|apply marked_cleans, H]. Qed.
Lemma marked_object l : l <> [] -> object_ (TObj (marked l)) = true.
Proof.
  intro H. destruct l as [|a l]; [congruence|]. destruct (marked (a :: l)) eqn:E; [|reflexivity].
  pose proof (proj2 (marked_names (a :: l) a) (or_introl eq_refl)) as X. rewrite E in X. destruct X.
Qed.
(** * Coordinate systems *)
Definition any (l ws : list str) : bool := existsb (fun a => existsb (str_eqb a) ws) l.
Definition sys (l : list str) : str :=
  if any l [L "theta"; L "phi"] then L "spherical" else if any l [L "r"] then L "cylindrical"
  else if any l [L "x"; L "y"; L "z"] then L "cartesian" else if any l [L "i"; L "j"; L "k"] then L "logical" else L "unknown".
Lemma in_words a ws : existsb (str_eqb a) ws = true <-> In a ws.
Proof.
  rewrite existsb_exists. split; [intros (x & X & E); apply str_eqb_eq in E; subst; exact X|].
  intro H. exists a. split; [exact H|apply str_eqb_eq; reflexivity].
Qed.
Lemma inside_In a b : inside a b = true <-> forall x, In x a -> In x b.
Proof. apply inside_spec. Qed.
Lemma any_false l ws u : inside l u = true -> (forall x, In x u -> ~ In x ws) -> any l ws = false.
Proof.
  rewrite inside_In. intros H D. destruct (any l ws) eqn:E; [|reflexivity]. unfold any in E. apply existsb_exists in E.
  destruct E as (x & X & E). apply in_words in E. elim (D x (H x X) E).
Qed.
Lemma any_true l ws : l <> [] -> inside l ws = true -> any l ws = true.
Proof.
  rewrite inside_In. intros N H. destruct l as [|a l]; [congruence|]. unfold any. apply existsb_exists. exists a.
  split; [left; reflexivity|]. apply in_words, H. left. reflexivity.
Qed.
Lemma any_none l ws : any l ws = false -> forall x, In x l -> ~ In x ws.
Proof.
  intros H x X W. assert (E : any l ws = true) by (apply existsb_exists; exists x; split; [exact X|apply in_words, W]). congruence.
Qed.
Ltac off := let x := fresh in let A := fresh in let B := fresh in intros x A B; cbn in A, B; intuition (subst; discriminate).
Lemma sys_kind l : l <> [] -> existsb (fun s => inside l (snd s)) kinds = true ->
  exists s, In s kinds /\ sys l = fst s /\ inside l (snd s) = true.
Proof.
  intros N H. unfold kinds in H. cbn [existsb snd] in H. rewrite Bool.orb_false_r in H. unfold sys.
  apply Bool.orb_true_iff in H. destruct H as [H|H]; [|apply Bool.orb_true_iff in H; destruct H as [H|H]].
  - exists (L "cartesian", [L "x"; L "y"; L "z"]). split; [left; reflexivity|].
    rewrite (any_false l [L "theta"; L "phi"] _ H) by off. rewrite (any_false l [L "r"] _ H) by off. rewrite (any_true _ _ N H). auto.
  - rewrite (any_false l [L "theta"; L "phi"] _ H) by off. destruct (any l [L "r"]) eqn:E.
    + exists (L "cylindrical", [L "r"; L "z"]). split; [right; left; reflexivity|]. auto.
    + assert (Z : inside l [L "z"] = true).
      { rewrite inside_In in *. intros x X. pose proof (any_none _ _ E x X) as Y. specialize (H x X). cbn in *. tauto. }
      assert (XYZ : inside l [L "x"; L "y"; L "z"] = true) by (rewrite inside_In in *; intros x X; specialize (Z x X); cbn in *; tauto).
      exists (L "cartesian", [L "x"; L "y"; L "z"]). split; [left; reflexivity|]. rewrite (any_true _ _ N XYZ). auto.
  - destruct (any l [L "theta"; L "phi"]) eqn:E.
    + exists (L "spherical", [L "r"; L "theta"; L "phi"]). split; [right; right; left; reflexivity|]. auto.
    + assert (R : inside l [L "r"] = true).
      { rewrite inside_In in *. intros x X. pose proof (any_none _ _ E x X) as Y. specialize (H x X). cbn in *. tauto. }
      exists (L "cylindrical", [L "r"; L "z"]). split; [right; left; reflexivity|]. rewrite (any_true _ _ N R).
      split; [reflexivity|]. rewrite inside_In in *. intros x X. specialize (R x X). cbn in *. tauto.
Qed.
Lemma any_swap (l : list str) (w : str) : existsb (fun a => str_eqb a w) l = existsb (str_eqb w) l.
Proof. induction l as [|a l IH]; [reflexivity|]. cbn [existsb]. rewrite IH. f_equal. destruct (str_eqb_spec a w), (str_eqb_spec w a); congruence. Qed.
Lemma any_one (l : list str) w : any l [w] = existsb (str_eqb w) l.
Proof. rewrite <- any_swap. unfold any. induction l as [|a l IH]; [reflexivity|]. cbn [existsb] in *. rewrite IH, Bool.orb_false_r. reflexivity. Qed.
Lemma any_two (l : list str) w v : any l [w; v] = existsb (str_eqb w) l || existsb (str_eqb v) l.
Proof. rewrite <- !any_swap. unfold any. induction l as [|a l IH]; [reflexivity|]. cbn [existsb] in *. rewrite IH, Bool.orb_false_r. btauto. Qed.
Lemma sys_of l s : sys l = fst s -> In s kinds -> sys l = system_of l.
Proof.
  intros H K. unfold sys, system_of in *. rewrite any_two, any_one in *. destruct (_ || _); [reflexivity|]. destruct (existsb (str_eqb (L "r")) l); [reflexivity|].
  destruct (any l _); [reflexivity|]. destruct (any l _); destruct K as [<-|[<-|[<-|[]]]]; discriminate H.
Qed.
Lemma strip_same l u : inside l u = true -> (forall x, In x u -> strip_d x = x) -> map strip_d l = l.
Proof.
  rewrite inside_In. intros H S. induction l as [|a l IH]; [reflexivity|]. cbn [map]. rewrite S by (apply H; left; reflexivity).
  rewrite IH; [reflexivity|]. intros x X. apply H. right. exact X.
Qed.
Lemma kinds_strip s : In s kinds -> forall x, In x (snd s) -> strip_d x = x.
Proof. intros [<-|[<-|[<-|[]]]] x X; cbn in X; intuition subst; reflexivity. Qed.
Lemma names_given n : names n <> [] -> names_of n = names n.
Proof. destruct n; cbn; congruence. Qed.
Lemma axis_strip s : axis_of s = strip_d s.
Proof. destruct s as [|a [|b r]]; try reflexivity; [destruct a as [[] [] [] [] [] [] [] []]; reflexivity|]. unfold strip_d. destruct (ascii_dec a "d") as [->|N]; [reflexivity|]. destruct a as [[] [] [] [] [] [] [] []]; try reflexivity. elim N. reflexivity. Qed.

(** * Parts *)
Ltac fine_name := let H := fresh in intro H; vm_compute in H; intuition discriminate.
Lemma cleans_cons k c r : ~ In k reserved -> clean c -> cleans r -> cleans ((k, c) :: r).
Proof. intros A B C. split; [exact A|split; [exact B|exact C]]. Qed.
Ltac cleans_ := repeat match goal with |- cleans (_ :: _) => apply cleans_cons; [fine_name|try exact I|] end; try exact I.
Ltac fine_names := cbn [app map fst]; repeat (apply NoDup_cons; [let H := fresh in intro H; vm_compute in H; intuition discriminate|]); apply NoDup_nil.
Lemma must_word n f w : must f (word [w]) n = true -> kid n f = Some (TStr w).
Proof.
  unfold must. destruct (kid n f) as [[| | |s|]|]; try discriminate. rewrite one_word. intro H. apply str_eqb_eq in H. subst. reflexivity.
Qed.
Lemma must_string n f : must f string_ n = true -> exists s, kid n f = Some (TStr s).
Proof. unfold must. destruct (kid n f) as [[| | |s|]|]; try discriminate. eauto. Qed.
Lemma text_of n f s : kid n f = Some (TStr s) -> text n f = Ok s.
Proof. unfold text, fetch. intros ->. reflexivity. Qed.
Lemma coordset_type c : coordset_ok c = true -> exists ty, kid c (L "type") = Some (TStr ty) /\ In ty [L "uniform"; L "rectilinear"; L "explicit"] /\
  (ty = L "uniform" -> exists d, kid c (L "dims") = Some d) /\ (ty <> L "uniform" -> exists v, kid c (L "values") = Some v).
Proof.
  unfold coordset_ok. rewrite !Bool.orb_true_iff, !Bool.andb_true_iff. intros [[H|H]|H].
  - destruct H as [[[A B] _] _]. exists (L "uniform"). split; [apply must_word, A|]. split; [cbn; tauto|]. split; [|congruence]. intros _.
    unfold must in B. destruct (kid c (L "dims")); [eauto|discriminate].
  - destruct H as [A B]. exists (L "rectilinear"). split; [apply must_word, A|]. split; [cbn; tauto|]. split; [discriminate|]. intros _.
    unfold must in B. destruct (kid c (L "values")); [eauto|discriminate].
  - destruct H as [A B]. exists (L "explicit"). split; [apply must_word, A|]. split; [cbn; tauto|]. split; [discriminate|]. intros _.
    unfold must in B. destruct (kid c (L "values")); [eauto|discriminate].
Qed.
Lemma firstn_nil {A} n (l : list A) : firstn n l <> [] -> n <> 0.
Proof. destruct n; [cbn; congruence|discriminate]. Qed.
Lemma ijk_logical l : l <> [] -> inside l [L "i"; L "j"; L "k"] = true -> sys (map strip_d l) = L "logical".
Proof.
  intros N H. rewrite (strip_same _ _ H) by (intros x X; cbn in X; intuition subst; reflexivity). unfold sys.
  rewrite (any_false l [L "theta"; L "phi"] _ H) by off. rewrite (any_false l [L "r"] _ H) by off.
  rewrite (any_false l [L "x"; L "y"; L "z"] _ H) by off. rewrite (any_true _ _ N H). reflexivity.
Qed.
Lemma coordsys_eq c : coordsys c =
  do ty <- text c (L "type");
  do n <- fetch c (if str_eqb ty (L "uniform") then
                     if has c (L "origin") then L "origin" else if has c (L "spacing") then L "spacing" else L "dims"
                   else L "values");
  Ok (sys (map strip_d (names_of n))).
Proof. reflexivity. Qed.
Lemma axes_made c ty : kid c (L "type") = Some (TStr ty) -> (ty = L "uniform" -> exists d, kid c (L "dims") = Some d) ->
  (ty <> L "uniform" -> exists v, kid c (L "values") = Some v) -> one_system c = true ->
  index_axes c ty = Ok (axis_names c) /\ exists s, In s kinds /\ inside (axis_names c) (snd s) = true /\
    exists n, coordsys c = Ok n /\ (if str_eqb n (L "logical") then L "cartesian" else n) = fst s /\ sys (axis_names c) = fst s.
Proof.
  intros T D V O. unfold one_system in O. apply andb_prop in O. destruct O as [O1 O2].
  assert (N : axis_names c <> []) by (intro E; rewrite E in O1; discriminate O1). clear O1.
  assert (KEY : forall l, map strip_d l = axis_names c -> exists s, In s kinds /\ inside (axis_names c) (snd s) = true /\
     exists n, Ok (sys (map strip_d l)) = Ok n /\ (if str_eqb n (L "logical") then L "cartesian" else n) = fst s /\ sys (axis_names c) = fst s).
  { intros l E. rewrite E. destruct (sys_kind _ N O2) as (s & S1 & S2 & S3). exists s. split; [exact S1|split; [exact S3|]].
    exists (sys (axis_names c)). split; [reflexivity|]. rewrite S2. split; [|reflexivity]. destruct S1 as [<-|[<-|[<-|[]]]]; reflexivity. }
  assert (ID : map strip_d (axis_names c) = axis_names c).
  { destruct (sys_kind _ N O2) as (s & S1 & _ & S3). apply (strip_same _ _ S3), kinds_strip, S1. }
  rewrite coordsys_eq. unfold index_axes. rewrite (text_of _ _ _ T). cbn [obind].
  unfold axis_names in *. rewrite (must_some _ _ _ _ T), one_word in *. unfold has, fetch.
  destruct (str_eqb_spec ty (L "uniform")) as [E|E].
  - destruct (D E) as [dm KD]. rewrite KD in *.
    destruct (kid c (L "origin")) as [o|] eqn:KO.
    + rewrite KO. cbn [obind]. rewrite (names_given o N). split; [reflexivity|apply KEY, ID].
    + destruct (kid c (L "spacing")) as [sp|] eqn:KS.
      * rewrite KS. cbn [obind]. assert (NS : names sp <> []) by (intro X; rewrite X in N; apply N; reflexivity).
        rewrite (names_given sp NS). assert (X : map axis_of (names sp) = map strip_d (names sp)) by (apply map_ext, axis_strip).
        split; [rewrite X; reflexivity|]. apply KEY. symmetry. exact X.
      * rewrite KD. cbn [obind]. destruct (inside (names dm) [L "i"; L "j"; L "k"]) eqn:IN; [|congruence].
        assert (ND : names dm <> []). { pose proof (firstn_nil _ _ N) as Z. intro X. rewrite X in Z. elim Z. reflexivity. }
        assert (LN : length (kids dm) = length (names dm)). { rewrite <- (names_given dm ND). unfold names_of. rewrite map_length. reflexivity. }
        rewrite LN, (names_given dm ND). split; [reflexivity|].
        exists (L "cartesian", [L "x"; L "y"; L "z"]). split; [left; reflexivity|]. split.
        { apply inside_In. intros x X. rewrite <- (firstn_skipn (length (names dm)) [L "x"; L "y"; L "z"]). apply in_or_app. left. exact X. }
        exists (L "logical"). split; [f_equal; apply ijk_logical; assumption|split; [reflexivity|]].
        destruct (length (names dm)) as [|[|[|m]]]; [elim N; reflexivity|reflexivity|reflexivity|destruct m; reflexivity].
  - destruct (V E) as [v KV]. rewrite KV in *. cbn [obind]. rewrite (names_given v N). split; [reflexivity|apply KEY, ID].
Qed.
Definition made_of (f : str -> tree -> outcome tree) (rp p k : str) (c : tree) (g : tree -> bool) : Prop :=
  exists e, f k c = Ok e /\ clean e /\ kid e (L "path") = Some (TStr (place rp p k)) /\ says p c e /\ g e = true.
Lemma coordset_made rp k c : coordset_ok c = true -> one_system c = true -> made_of (idx_coordset rp) rp (L "coordsets") k c coordset_entry.
Proof.
  intros C O. destruct (coordset_type c C) as (ty & T & TY & D & V). destruct (axes_made c ty T D V O) as (A & s & S1 & S2 & n & S3 & S4 & S5).
  unfold made_of, idx_coordset. rewrite (text_of _ _ _ T). cbn [obind]. rewrite A. cbn [obind]. rewrite S3. cbn [obind]. rewrite S4.
  assert (N : axis_names c <> []). { unfold one_system in O. apply andb_prop in O. destruct O as [O1 _]. intro E. rewrite E in O1. discriminate. }
  replace (match axis_names c with [] => [] | _ => [(L "axes", TObj (marked (axis_names c)))] end) with [(L "axes", TObj (marked (axis_names c)))]
    by (destruct (axis_names c); [congruence|reflexivity]).
  eexists. split; [reflexivity|]. split; [|split; [reflexivity|split]].
  - apply clean_make; [fine_names|]. cbn [app]; cleans_.
    apply clean_make; [fine_names|]. cbn [app]; cleans_. apply marked_clean.
    intros x X. rewrite inside_In in S2. specialize (S2 x X). destruct S1 as [<-|[<-|[<-|[]]]]; cbn [snd In] in S2; repeat (destruct S2 as [<-|S2]; [fine_name|]); destruct S2.
  - change (says (L "coordsets")) with (fun c e => same [L "type"] c e /\ exists s a, kid e (L "coord_system") = Some s /\ kid s (L "axes") = Some a /\
      (forall x, In x (names a) <-> In x (axis_names c)) /\ kid s (L "type") = Some (TStr (system_of (axis_names c)))). split.
    + intros f [<-|[]]. rewrite T. reflexivity.
    + eexists. eexists. split; [reflexivity|split; [reflexivity|]]. split; [intro x; apply marked_names|]. rewrite <- S5, (sys_of _ s S5 S1). reflexivity.
  - unfold coordset_entry. rewrite (must_some _ (L "type") _ (TStr ty)) by reflexivity. rewrite (must_some _ (L "path") _ (ref rp (L "coordsets") k)) by reflexivity.
    erewrite (must_some _ (L "coord_system")) by reflexivity. cbn [string_ ref]. rewrite Bool.andb_true_r. apply andb_true_intro. split.
    + apply in_words, TY.
    + apply existsb_exists. exists s. split; [exact S1|]. erewrite (must_some _ (L "type")) by reflexivity. erewrite (must_some _ (L "axes")) by reflexivity.
      rewrite one_word, (proj2 (str_eqb_eq _ _) eq_refl), (marked_object _ N). cbn [andb].
      rewrite inside_In in *. intros x X. apply S2, marked_names, X.
Qed.
Lemma same_cons a l c e : same (a :: l) c e <-> kid e a = kid c a /\ same l c e.
Proof. unfold same. split; [intro H; split; [apply H; left; reflexivity|intros f F; apply H; right; exact F]|]. intros [A B] f [<-|F]; auto. Qed.
Lemma same_nil c e : same [] c e. Proof. intros f []. Qed.
Lemma topology_made rp k c : topology_ok c = true -> made_of (idx_topology rp) rp (L "topologies") k c topology_entry.
Proof.
  unfold topology_ok. rewrite !Bool.andb_true_iff. intros [[CS G] TY]. destruct (must_string _ _ CS) as [cs KC].
  assert (T : exists ty, kid c (L "type") = Some (TStr ty) /\ In ty [L "points"; L "uniform"; L "rectilinear"; L "structured"; L "unstructured"]).
  { rewrite !Bool.orb_true_iff, !Bool.andb_true_iff in TY. destruct TY as [[T|[T _]]|[T _]].
    - unfold must in T. destruct (kid c (L "type")) as [[| | |ty|]|]; try discriminate. exists ty. split; [reflexivity|]. apply in_words in T. cbn in *. tauto.
    - apply must_word in T. exists (L "structured"). split; [exact T|cbn; tauto].
    - apply must_word in T. exists (L "unstructured"). split; [exact T|cbn; tauto]. }
  destruct T as (ty & KT & TY'). unfold made_of, idx_topology, optional. rewrite (text_of _ _ _ KT), (text_of _ _ _ KC). cbn [obind].
  unfold has, may in *. destruct (kid c (L "grid_function")) as [g|] eqn:KG.
  - destruct g as [| | |g|]; try discriminate. rewrite (text_of _ _ _ KG). cbn [obind]. eexists. split; [reflexivity|]. split; [|split; [reflexivity|split]].
    + apply clean_make; [fine_names|]. cbn [app]; cleans_.
    + change (says (L "topologies")) with (same [L "type"; L "coordset"; L "grid_function"]). rewrite !same_cons, KT, KC, KG. repeat split. apply same_nil.
    + unfold topology_entry. erewrite (must_some _ (L "type")) by reflexivity. cbn [word]. rewrite (proj2 (in_words _ _) TY'). reflexivity.
  - cbn [obind]. eexists. split; [reflexivity|]. split; [|split; [reflexivity|split]].
    + apply clean_make; [fine_names|]. cbn [app]; cleans_.
    + change (says (L "topologies")) with (same [L "type"; L "coordset"; L "grid_function"]). rewrite !same_cons, KT, KC, KG. repeat split. apply same_nil.
    + unfold topology_entry. erewrite (must_some _ (L "type")) by reflexivity. cbn [word]. rewrite (proj2 (in_words _ _) TY'). reflexivity.
Qed.
Lemma meeting_made p rp k c : p = L "adjsets" \/ p = L "nestsets" -> must (L "topology") string_ c = true -> assoc_ok c = true -> made_of (idx_meeting p rp) rp p k c meeting_entry.
Proof.
  intros P T A. destruct (must_string _ _ T) as [t KT]. unfold assoc_ok in A. unfold must in A.
  destruct (kid c (L "association")) as [[| | |a|]|] eqn:KA; try discriminate.
  unfold made_of, idx_meeting. rewrite (text_of _ _ _ KA), (text_of _ _ _ KT). cbn [obind]. eexists. split; [reflexivity|]. split; [|split; [reflexivity|split]].
  - apply clean_make; [fine_names|]. cbn [app]; cleans_.
  - assert (E : says p = same [L "association"; L "topology"]) by (destruct P; subst; reflexivity). rewrite E, !same_cons, KT, KA. repeat split. apply same_nil.
  - unfold meeting_entry, assoc_ok. erewrite (must_some _ (L "association")) by reflexivity. rewrite A. reflexivity.
Qed.
Lemma combine_names {A} (l : list str) (m : list A) : length l = length m -> map fst (combine l m) = l.
Proof. revert m. induction l as [|x l IH]; intros [|y m] H; try discriminate; [reflexivity|]. cbn. f_equal. apply IH. cbn in H. lia. Qed.
Lemma numbered_get l : NoDup l -> forall j s k, nth_error l j = Some k -> mget (combine l (map count (seq s (length l)))) k = Some (count (s + j)).
Proof.
  induction l as [|a l IH]; intros N j s k H; [destruct j; discriminate|]. inversion N as [|? ? N1 N2]; subst. cbn [length seq map combine mget].
  destruct j as [|j]; cbn [nth_error] in H.
  - injection H as ->. rewrite (proj2 (str_eqb_eq k k) eq_refl). rewrite Nat.add_0_r. reflexivity.
  - destruct (str_eqb_spec k a) as [->|E]; [elim N1; apply nth_error_In with j; exact H|].
    rewrite (IH N2 j (Datatypes.S s) k H). do 2 f_equal. lia.
Qed.
Lemma numbered_int (l : list str) s : forallb (fun e : str * tree => int_ (snd e)) (combine l (map count (seq s (length l)))) = true.
Proof. revert s. induction l as [|a l IH]; intro s; [reflexivity|]. cbn. apply IH. Qed.
Lemma numbered_cleans l s : (forall x, In x l -> ~ In x reserved) -> cleans (combine l (map count (seq s (length l)))).
Proof.
  revert s. induction l as [|a l IH]; intros s H; [exact I|]. cbn [length seq map combine]. apply cleans_cons; [apply H; left; reflexivity|exact I|].
  apply IH. intros x X. apply H. right. exact X.
Qed.
Lemma names_fine n : clean n -> forall x, In x (member_names n) -> ~ In x reserved.
Proof. intros C x X. apply in_map_iff in X. destruct X as ([k c] & <- & X). exact (proj1 (kids_fine _ _ _ C X)). Qed.
Lemma object_names n : object_ n = true -> names_of n <> [].
Proof. destruct n as [|[|]| | |]; try discriminate. Qed.
Lemma matset_made rp k c : clean c -> matset_ok c = true -> named_materials c = true -> made_of (idx_matset rp) rp (L "matsets") k c matset_entry.
Proof.
  intros C M NM. unfold matset_ok in M. apply andb_prop in M. destruct M as [T M]. destruct (must_string _ _ T) as [t KT].
  unfold made_of, idx_matset. rewrite (text_of _ _ _ KT). cbn [obind]. unfold has.
  change (says (L "matsets")) with (fun c e => same [L "topology"] c e /\
    (given (L "material_map") c = true -> same [L "material_map"] c e) /\
    (forall ms, given (L "material_map") c = false -> kid c (L "materials") = Some ms ->
       exists m, kid e (L "materials") = Some m /\ names m = names ms) /\
    (forall vf, given (L "material_map") c = false -> given (L "materials") c = false -> kid c (L "volume_fractions") = Some vf ->
       exists m, kid e (L "material_map") = Some m /\ names m = names vf /\
         forall j k, nth_error (names vf) j = Some k -> kid m k = Some (int64 j))). cbv beta.
  destruct (kid c (L "material_map")) as [m|] eqn:KM.
  - unfold fetch at 1. rewrite KM. cbn [obind].
    assert (MM : material_map_ok m = true).
    { apply Bool.orb_true_iff in M. destruct M as [M|M].
      - rewrite !Bool.andb_true_iff in M. destruct M as [[_ M] _]. rewrite (must_some _ _ _ _ KM) in M. exact M.
      - unfold must in M. destruct (kid c (L "volume_fractions")); [|discriminate]. rewrite !Bool.andb_true_iff in M. destruct M as [[_ M] _].
        rewrite (may_some _ _ _ _ KM) in M. apply andb_prop in M. apply M. }
    eexists. split; [reflexivity|]. split; [|split; [reflexivity|split]].
    + apply clean_make; [fine_names|]. cbn [app]; cleans_. exact (clean_kid _ _ _ C KM).
    + rewrite !same_cons, KT, KM. split; [split; [reflexivity|apply same_nil]|]. split; [intros _; split; [reflexivity|apply same_nil]|].
      split; intros vf G; rewrite (given_some _ _ _ KM) in G; discriminate.
    + unfold matset_entry. erewrite (must_some _ (L "material_map")) by reflexivity. rewrite MM. reflexivity.
  - destruct (kid c (L "materials")) as [ms|] eqn:KS.
    + unfold fetch at 1. rewrite KS. cbn [obind].
      assert (O : object_ ms = true).
      { unfold named_materials in NM. rewrite (given_none _ _ KM), (given_some _ _ _ KS), (must_some _ _ _ _ KS) in NM. cbn [negb orb andb] in NM. rewrite Bool.orb_false_r in NM. exact NM. }
      pose proof (object_names _ O) as N. destruct (names_of ms) as [|s0 l0] eqn:EN; [congruence|]. rewrite <- EN in *.
      eexists. split; [reflexivity|]. split; [|split; [reflexivity|split]].
      * apply clean_make; [fine_names|]. cbn [app]; cleans_. apply marked_clean, names_fine, (clean_kid _ _ _ C KS).
      * rewrite !same_cons, KT. split; [split; [reflexivity|apply same_nil]|]. split; [intro G; rewrite (given_none _ _ KM) in G; discriminate|].
        split; [|intros vf _ G; rewrite (given_some _ _ _ KS) in G; discriminate]. intros ms' _ E. assert (ms' = ms) by congruence. subst ms'.
        eexists. split; [reflexivity|]. cbn [names]. rewrite marked_distinct by apply kids_distinct, (clean_kid _ _ _ C KS). symmetry. apply names_object, O.
      * unfold matset_entry. erewrite (must_some _ (L "materials")) by reflexivity. rewrite (marked_object _ N). reflexivity.
    + assert (O : must (L "volume_fractions") object_ c = true).
      { unfold named_materials in NM. rewrite (given_none _ _ KM), (given_none _ _ KS), (must_none _ _ _ KS) in NM. exact NM. }
      unfold must in O. destruct (kid c (L "volume_fractions")) as [vf|] eqn:KV; [|discriminate].
      unfold fetch at 1. rewrite KV. cbn [obind]. pose proof (object_names _ O) as N.
      assert (NM' : names vf = names_of vf) by (apply names_object, O).
      assert (ND : NoDup (names_of vf)) by apply kids_distinct, (clean_kid _ _ _ C KV).
      destruct (names_of vf) as [|s0 l0] eqn:EN; [congruence|]. rewrite <- EN in *.
      assert (KF : map fst (combine (names_of vf) (map count (seq 0 (length (names_of vf))))) = names_of vf) by (apply combine_names; rewrite map_length, seq_length; reflexivity).
      eexists. split; [reflexivity|]. split; [|split; [reflexivity|split]].
      * apply clean_make; [fine_names|]. cbn [app]; cleans_. apply clean_make; [rewrite KF; exact ND|]. apply numbered_cleans, names_fine, (clean_kid _ _ _ C KV).
      * rewrite !same_cons, KT. split; [split; [reflexivity|apply same_nil]|]. split; [intro G; rewrite (given_none _ _ KM) in G; discriminate|].
        split; [congruence|]. intros vf' _ _ E. assert (vf' = vf) by congruence. subst vf'. eexists. split; [reflexivity|]. split; [cbn [names]; rewrite KF; symmetry; exact NM'|].
        intros j x X. rewrite NM' in X. exact (numbered_get _ ND j 0 x X).
      * unfold matset_entry. erewrite (must_some _ (L "material_map")) by reflexivity. unfold material_map_ok, every. cbn [kids].
        rewrite numbered_int. destruct (names_of vf) as [|a l] eqn:E; [congruence|]. reflexivity.
Qed.
Lemma specset_made rp k c : clean c -> specset_ok c = true -> readable_specset c = true -> made_of (idx_specset rp) rp (L "specsets") k c specset_entry.
Proof.
  intros C M R. unfold specset_ok in M. apply andb_prop in M. destruct M as [T M]. destruct (must_string _ _ T) as [t KT].
  unfold must in M. destruct (kid c (L "matset_values")) as [vs|] eqn:KV; [|discriminate]. rewrite !Bool.andb_true_iff in M. destruct M as [[O CO] _].
  unfold readable_specset in R. rewrite (may_some _ _ _ _ KV) in R. pose proof (clean_kid _ _ _ C KV) as CV.
  unfold made_of, idx_specset. rewrite (text_of _ _ _ KT). unfold fetch at 1. rewrite KV. cbn [obind].
  assert (E : flat_map (fun e => match names_of (snd e) with [] => [] | _ => [(fst e, TObj (marked (names_of (snd e))))] end) (kids vs) =
              map (fun e => (fst e, TObj (marked (names_of (snd e))))) (kids vs)).
  { unfold every in *. clear -R CO. induction (kids vs) as [|[m v] l IH]; [reflexivity|]. cbn [forallb flat_map map fst snd] in *.
    apply andb_prop in R, CO. rewrite (IH (proj2 CO) (proj2 R)). destruct R as [R _], CO as [CO _].
    destruct v as [|[|]|[|]| |]; try discriminate R; try discriminate CO; reflexivity. }
  replace (flat_map (fun e : str * tree => match names_of (snd e) with [] => [] | l => [(fst e, TObj (marked l))] end) (kids vs)) with
    (map (fun e => (fst e, TObj (marked (names_of (snd e))))) (kids vs)).
  2: { rewrite <- E. apply flat_map_ext. intros [m v]. cbn [fst snd]. destruct (names_of v); reflexivity. }
  set (sp := map _ (kids vs)). assert (NE : sp <> []) by (unfold sp; destruct vs as [|[|]| | |]; try discriminate O; discriminate).
  assert (KF : map fst sp = map fst (kids vs)) by (unfold sp; rewrite map_map; reflexivity).
  replace (match sp with [] => [] | _ => [(L "species", TObj sp)] end) with [(L "species", TObj sp)] by (destruct sp; [congruence|reflexivity]).
  change (says (L "specsets")) with (fun c e => same [L "matset"] c e /\ exists vs sp, kid c (L "matset_values") = Some vs /\ kid e (L "species") = Some sp /\ names sp = names vs /\
      forall m v, kid vs m = Some v -> exists x, kid sp m = Some x /\ names x = member_names v). cbv beta.
  eexists. split; [reflexivity|]. split; [|split; [reflexivity|split]].
  - apply clean_make; [fine_names|]. cbn [app]; cleans_. apply clean_make; [rewrite KF; apply kids_distinct, CV|].
    assert (F : forall m v, In (m, v) (kids vs) -> ~ In m reserved /\ clean v) by (intros m v H; exact (kids_fine _ _ _ CV H)).
    unfold sp. clear -F. induction (kids vs) as [|[m v] l IH]; [exact I|]. cbn [map fst snd]. destruct (F m v (or_introl eq_refl)) as [F1 F2].
    apply cleans_cons; [exact F1|apply marked_clean, names_fine, F2|]. apply IH. intros m' v' H. apply F. right. exact H.
  - rewrite same_cons, KT. split; [split; [reflexivity|apply same_nil]|]. exists vs, (TObj sp). split; [exact KV|split; [reflexivity|]]. split.
    + cbn [names]. rewrite KF. symmetry. apply names_object, O.
    + intros m v H. exists (TObj (marked (names_of v))). split; [|apply marked_distinct, kids_distinct, (clean_kid _ _ _ CV H)].
      cbn [kid]. unfold sp. destruct vs as [|es| | |]; try discriminate H. cbn [kid kids] in *. clear -H. induction es as [|[m' v'] l IH]; [discriminate|].
      cbn [mget map fst snd] in *. destruct (str_eqb m m'); [congruence|auto].
  - unfold specset_entry. erewrite (must_some _ (L "species")) by reflexivity. destruct sp; [congruence|]. reflexivity.
Qed.
Lemma not_number vs hi : levels hi vs = true -> num_ vs = false -> kids vs <> [].
Proof.
  intros H N. unfold levels in H. rewrite !Bool.andb_true_iff in H. destruct H as [[[H1 _] H2] _].
  destruct vs as [|[|]|[|]| |]; cbn in *; try discriminate.
  rewrite Bool.andb_true_r in H2. congruence.
Qed.
Lemma field_made rp k c : clean c -> field_ok c = true -> countable c = true -> made_of (idx_field rp) rp (L "fields") k c field_entry.
Proof.
  intros C F R. unfold field_ok in F. rewrite !Bool.andb_true_iff in F. destruct F as [[[[[AB A] B] TM] PT] PM].
  unfold countable in R. apply andb_prop in R. destruct R as [VD R].
  assert (K : exists w, (if has c (L "values") then do v <- fetch c (L "values"); Ok (components_of v)
           else do v <- fetch c (L "matset_values"); match kids v with (_, x) :: _ => Ok (components_of x) | [] => Err end) = Ok w /\
     (forall v, kid c (L "values") = Some v -> w = width v) /\
     (forall vs m v r, given (L "values") c = false -> kid c (L "matset_values") = Some vs -> kids vs = (m, v) :: r -> w = width v)).
  { unfold has, fetch. destruct (kid c (L "values")) as [v|] eqn:KV.
    - cbn [obind]. eexists. split; [reflexivity|]. split; [intros x X; injection X as <-; reflexivity|]. intros vs m x r G. rewrite (given_some _ _ _ KV) in G. discriminate.
    - rewrite (given_none _ _ KV) in R. cbn [orb] in R. unfold pair_ok in PT, PM. unfold either in TM.
      rewrite (must_none _ (L "values") _ KV), (given_none _ _ KV) in PT. cbn [negb andb] in PT. rewrite Bool.andb_false_r, Bool.andb_true_r in PT. cbn [orb] in PT.
      apply Bool.negb_true_iff in PT. rewrite PT in TM. cbn [orb] in TM. rewrite TM in PM. cbn [negb andb] in PM. rewrite Bool.orb_false_r in PM. apply andb_prop in PM.
      destruct PM as [_ PM]. unfold must in PM, R. destruct (kid c (L "matset_values")) as [vs|] eqn:KM; [|discriminate]. apply Bool.negb_true_iff in R.
      pose proof (not_number _ _ PM R) as N. cbn [obind]. destruct (kids vs) as [|[m v] r] eqn:E; [congruence|]. eexists. split; [reflexivity|].
      split; [discriminate|]. intros vs' m' v' r' _ X Y. injection X as <-. rewrite E in Y. injection Y as _ <- _. reflexivity. }
  destruct K as (w & K1 & K2 & K3).
  assert (ST : forall f, must f string_ c = true \/ may f string_ c = true -> exists o, optional c f = Ok o /\ match kid c f with Some x => o = [(f, x)] /\ string_ x = true | None => o = [] end).
  { intros f H. unfold optional, has. destruct (kid c f) as [x|] eqn:E; [|exists []; auto]. assert (S : string_ x = true).
    { destruct H as [H|H]; [rewrite (must_some _ _ _ _ E) in H|rewrite (may_some _ _ _ _ E) in H]; exact H. }
    destruct x as [| | |s|]; try discriminate S. rewrite (text_of _ _ _ E). cbn [obind]. eexists. split; [reflexivity|]. auto. }
  assert (PS : forall a b hi, pair_ok a b hi c = true -> must a string_ c = true \/ may a string_ c = true).
  { intros a b hi H. unfold pair_ok in H. apply Bool.orb_true_iff in H. destruct H as [H|H]; apply andb_prop in H; [left; apply H|right]. unfold may. destruct H as [H _].
    apply Bool.negb_true_iff in H. unfold given in H. destruct (kid c a); [discriminate|reflexivity]. }
  destruct (ST _ (PS _ _ _ PT)) as (t & T1 & T2). destruct (ST _ (PS _ _ _ PM)) as (m & M1 & M2). destruct (ST _ (or_intror VD)) as (v & V1 & V2).
  unfold made_of, idx_field. rewrite K1. cbn [obind]. rewrite T1, M1, V1. cbn [obind].
  change (says (L "fields")) with (fun c e => same [L "topology"; L "matset"; L "volume_dependent"; L "association"] c e /\
    (given (L "association") c = false -> same [L "basis"] c e) /\
    (forall v, kid c (L "values") = Some v -> kid e (L "number_of_components") = Some (int64 (width v))) /\
    (forall vs m v r, given (L "values") c = false -> kid c (L "matset_values") = Some vs -> kids vs = (m, v) :: r ->
       kid e (L "number_of_components") = Some (int64 (width v)))). cbv beta.
  assert (AA : exists g x, (if has c (L "association") then do a <- fetch c (L "association"); Ok (L "association", a) else do b <- fetch c (L "basis"); Ok (L "basis", b)) = Ok (g, x) /\
     (g = L "association" /\ kid c (L "association") = Some x /\ word [L "vertex"; L "element"] x = true \/
      g = L "basis" /\ kid c (L "association") = None /\ kid c (L "basis") = Some x /\ string_ x = true)).
  { unfold has, fetch. unfold may in A, B. unfold either, given in AB. destruct (kid c (L "association")) as [x|] eqn:KA.
    - cbn [obind]. eexists. eexists. split; [reflexivity|]. left. auto.
    - destruct (kid c (L "basis")) as [x|] eqn:KB; [|discriminate]. cbn [obind]. eexists. eexists. split; [reflexivity|]. right. auto. }
  destruct AA as (g & x & AA & AC). rewrite AA. cbn [obind]. eexists. split; [reflexivity|].
  assert (KW : forall v, kid c (L "values") = Some v -> Some (count w) = Some (int64 (width v))) by (intros v' X; rewrite (K2 _ X); reflexivity).
  assert (KX : forall vs m v r, given (L "values") c = false -> kid c (L "matset_values") = Some vs -> kids vs = (m, v) :: r -> Some (count w) = Some (int64 (width v)))
    by (intros; erewrite K3; eauto; reflexivity).
  clear K1 K2 K3 ST PS T1 M1 V1 AA PT PM A B AB R VD. unfold either in TM.
  assert (CX : clean x) by (destruct AC as [(_ & Y & _)|(_ & _ & Y & _)]; exact (clean_kid _ _ _ C Y)).
  rewrite !same_cons. unfold field_entry, either. change (given (L "topology") c) with (match kid c (L "topology") with Some _ => true | None => false end) in TM.
  change (given (L "matset") c) with (match kid c (L "matset") with Some _ => true | None => false end) in TM. unfold given.
  destruct (kid c (L "topology")) as [t'|]; [destruct T2 as [-> T2]|subst t];
  (destruct (kid c (L "matset")) as [m'|]; [destruct M2 as [-> M2]|subst m]); try discriminate TM;
  (destruct (kid c (L "volume_dependent")) as [v'|]; [destruct V2 as [-> V2]|subst v]);
  (destruct AC as [(-> & AC & AD)|(-> & AC & AE & AD)]; rewrite AC); try rewrite AE;
  (split; [apply clean_make; [fine_names|]; cbn [app]; cleans_; try exact CX; first [destruct t'; try discriminate T2; exact I|destruct m'; try discriminate M2; exact I|destruct v'; try discriminate V2; exact I|idtac] |]);
  (split; [reflexivity|]);
  (split; [split; [repeat split; apply same_nil|split; [intro; first [discriminate|split; [reflexivity|apply same_nil]]|split; [exact KW|exact KX]]]|]);
  cbn [app]; unfold must, may; cbn [kid mget]; words; repeat match goal with |- context [str_eqb ?a ?b] => let r := eval vm_compute in (str_eqb a b) in change (str_eqb a b) with r end;
  cbn [orb andb string_ ref count int_]; rewrite ?AD, ?T2, ?M2; reflexivity.
Qed.
