(** Checks of indices: what each check returns. *)
From Coq Require Import ZArith Lia Btauto.
From Verif Require Import Base DType SpecTree Mem Node Number ArrayOps NumConv Json MeshVerify MeshVerifySpec MeshVerifyFacts MeshVerifyParts MeshVerifySets MeshVerifyDomain MeshIndex MeshIndexSpec.
Import ListNotations.

Lemma inside_cons a r l : inside (a :: r) l = existsb (str_eqb a) l && inside r l. Proof. reflexivity. Qed.
Lemma ok_axis_names l s : ok (each (fun e : str * tree => if existsb (str_eqb (fst e)) l then ret true else fails) s) (inside (map fst s) l).
Proof.
  eapply ok_eq; [apply ok_each with (g := fun e => existsb (str_eqb (fst e)) l); intros e _; apply keeps_ok, keeps_test|].
  unfold inside. symmetry. exact (forallb_map_fst (fun x => existsb (str_eqb x) l) s).
Qed.
Lemma names_object n : object_ n = true -> names n = map fst (kids n).
Proof. destruct n as [|[|]| | |]; try discriminate. reflexivity. Qed.
Lemma ok_system n : ok (v_system n) (system_ok n).
Proof.
  apply ok_reset, ok_finish. apply ok_kb with (x := must (L "type") (word systems) n); [apply keeps_enum; nv|].
  apply ok_kb with (x := must (L "axes") object_ n); [apply keeps_obj; nv|].
  destruct (kid n (L "axes")) as [a|] eqn:A.
  2: { rewrite (must_none _ _ _ A). eapply ok_eq; [apply keeps_ok, keeps_ret|]. unfold system_ok. cbn [existsb kinds]. rewrite !(must_none _ (L "axes") _ A). bt. }
  rewrite (must_some _ _ _ _ A). unfold system_ok. cbn [existsb kinds fst snd]. rewrite !(must_some _ (L "axes") _ _ A).
  destruct (object_ a) eqn:O; [|eapply ok_eq; [apply keeps_ok, keeps_ret|cbn [andb]; bt]].
  destruct (kid n (L "type")) as [t|] eqn:T.
  2: { rewrite !(must_none _ (L "type") _ T). eapply ok_eq; [apply keeps_ok, keeps_ret|reflexivity]. }
  rewrite !(must_some _ (L "type") _ _ T). destruct t as [| | |s|]; try (apply keeps_ok, keeps_ret).
  unfold need, fetch. rewrite A, T. cbn [obind as_string andb]. rewrite !one_word. unfold word, systems. cbn [existsb].
  rewrite (names_object _ O). pose proof (fun l => ok_axis_names l (kids a)) as X. unfold system_axes.
  is_word s (L "cartesian"); [eapply ok_eq; [apply X|bt]|].
  is_word s (L "cylindrical"); [eapply ok_eq; [apply X|bt]|].
  is_word s (L "spherical"); [eapply ok_eq; [apply X|bt]|].
  apply keeps_ok, keeps_ret.
Qed.
Lemma system_object c : system_ok c = true -> object_ c = true.
Proof. destruct c as [|[|]| | |]; try discriminate; reflexivity. Qed.
Lemma ok_coordset_entry n :
  ok (all_ [v_sub (v_name coord_types) n (L "type"); v_str n (L "path"); v_objsub v_system n (L "coord_system")]) (coordset_entry n).
Proof.
  eapply ok_eq.
  - all_parts; apply keeps_ok; [apply keeps_sub; [nv|intros c _; apply ok_name]|apply keeps_str; nv|].
    apply keeps_objsub with (h := system_ok); [nv|]. intros c _ _. apply ok_system.
  - unfold coordset_entry. rewrite Bool.andb_true_r, Bool.andb_assoc. f_equal. apply must_ext. intro c.
    pose proof (system_object c) as H. destruct (system_ok c); [rewrite (H eq_refl)|]; bt.
Qed.
Lemma ok_topology_entry n :
  ok (all_ [v_sub (v_name topo_types) n (L "type"); v_str n (L "coordset"); v_str n (L "path");
    when (has n (L "grid_function")) (tell log_optional (v_str n (L "grid_function")))]) (topology_entry n).
Proof.
  eapply ok_eq.
  - all_parts; apply keeps_ok; [apply keeps_sub with (h := word [L "points"; L "uniform"; L "rectilinear"; L "structured"; L "unstructured"]); [nv|intros c _; apply ok_name]|apply keeps_str; nv|apply keeps_str; nv|].
    apply keeps_maybe with (p := string_), keeps_optional, keeps_str. nv.
  - unfold topology_entry. bt.
Qed.
Lemma ok_matset_entry n :
  ok (all_ [v_str n (L "topology");
    (if has n (L "material_map") then v_material_map n else v_obj n (L "materials")); v_str n (L "path")]) (matset_entry n).
Proof.
  eapply ok_eq.
  - all_parts; [apply keeps_ok, keeps_str; nv| |apply keeps_ok, keeps_str; nv].
    instantiate (1 := must (L "material_map") material_map_ok n || negb (given (L "material_map") n) && must (L "materials") object_ n).
    change (has n (L "material_map")) with (given (L "material_map") n). destruct (kid n (L "material_map")) as [m|] eqn:M.
    + rewrite (given_some _ _ _ M), (must_some _ _ _ _ M). cbn [negb andb]. rewrite Bool.orb_false_r. apply ok_material_map, M.
    + rewrite (given_none _ _ M), (must_none _ _ _ M). cbn [negb andb orb]. apply keeps_ok, keeps_obj. nv.
  - unfold matset_entry. bt.
Qed.
Lemma ok_specset_entry n : ok (all_ [v_str n (L "matset"); v_obj n (L "species"); v_str n (L "path")]) (specset_entry n).
Proof.
  eapply ok_eq; [all_parts; apply keeps_ok; [apply keeps_str; nv|apply keeps_obj; nv|apply keeps_str; nv]|unfold specset_entry; bt].
Qed.
Lemma ok_field_entry n :
  ok (all_
    [(if negb (has n (L "association")) && negb (has n (L "basis")) then fails else ret true);
     v_given (v_name associations) n (L "association");
     v_given v_basis n (L "basis");
     (if negb (has n (L "topology")) && negb (has n (L "matset")) then fails else ret true);
     when (has n (L "topology")) (v_str n (L "topology"));
     when (has n (L "matset")) (v_str n (L "matset"));
     v_int n (L "number_of_components"); v_str n (L "path")]) (field_entry n).
Proof.
  assert (E : forall a b, keeps (if negb (has n a) && negb (has n b) then fails else ret true) (either a b n)).
  { intros a b. unfold either. change (has n a) with (given a n). change (has n b) with (given b n).
    destruct (given a n), (given b n); first [apply keeps_ret|apply keeps_fails]. }
  eapply ok_eq.
  - all_parts; apply keeps_ok; [apply E| | |apply E|apply keeps_maybe with (p := string_), keeps_str; nv|apply keeps_maybe with (p := string_), keeps_str; nv|apply keeps_int; nv|apply keeps_str; nv].
    + apply keeps_given with (h := word [L "vertex"; L "element"]); [nv|]. intros c _. apply ok_name.
    + apply keeps_given with (h := string_); [nv|]. intros c _. apply ok_reset, ok_finish, ok_self.
  - unfold field_entry. bt.
Qed.
Lemma ok_meeting_entry n : ok (all_ [v_str n (L "topology"); v_sub (v_name associations) n (L "association"); v_str n (L "path")]) (meeting_entry n).
Proof.
  eapply ok_eq; [all_parts; apply keeps_ok; [apply keeps_str; nv|apply assoc_part|apply keeps_str; nv]|unfold meeting_entry; bt].
Qed.

(** * Whole indices *)
Lemma index_stage d : clean d -> stage (all_
    [section d (L "coordsets") coordset_index (fun _ => []);
     section d (L "topologies") topology_index (fun _ => [(L "coordset", L "coordsets")]);
     when (has d (L "matsets")) (section d (L "matsets") matset_index to_topology);
     when (has d (L "specsets")) (section d (L "specsets") specset_index (fun _ => [(L "matset", L "matsets")]));
     when (has d (L "fields")) (section d (L "fields") field_index field_refs);
     when (has d (L "adjsets")) (section d (L "adjsets") meeting_index to_topology);
     when (has d (L "nestsets")) (section d (L "nestsets") meeting_index to_topology)]) (index_ok d) (fun _ => True)
    (fun i => forall p, In p sections -> shows d p (entries d p) i).
Proof.
  intros C. set (K := known d (entries d)). set (done1 := [L "coordsets"]). set (done2 := L "topologies" :: done1). set (done3 := L "matsets" :: done2). set (done4 := L "specsets" :: done3).
  set (done5 := L "fields" :: done4). set (done6 := L "adjsets" :: done5). set (done7 := L "nestsets" :: done6).
  assert (RES : forall q, In q done7 -> ~ In q reserved).
  { intros q Q. cbn in Q. intuition subst; match goal with H : In _ reserved |- _ => vm_compute in H; intuition discriminate end. }
  assert (S1 : stage (section d (L "coordsets") coordset_index (fun _ => [])) (must (L "coordsets") (all_good coordset_entry) d) (K []) (K done1)).
  { apply (stage_section d (entries d) C) with (vb := coordset_entry); [reserved_|intros []|intros q []|intros c r []| |].
    - intros sec k c _ _. apply fresh_of, ok_coordset_entry.
    - intro c. symmetry. apply Bool.andb_true_r. }
  assert (S2 : stage (section d (L "topologies") topology_index (fun _ => [(L "coordset", L "coordsets")])) (must (L "topologies") (all_good (topo_listed d)) d) (K done1) (K done2)).
  { apply (stage_section d (entries d) C) with (vb := topology_entry); [reserved_|reserved_| | | |].
    - intros q Q. apply RES. do 6 right. exact Q.
    - intros c r [<-|[]]. split; [nv|left; reflexivity].
    - intros sec k c KS H. apply fresh_of, ok_topology_entry.
    - intro c. unfold refs_value. cbn [forallb fst snd]. rewrite Bool.andb_true_r. reflexivity. }
  assert (TT : forall done, In (L "topologies") done -> forall c r, In r (to_topology c) -> fst r <> L "valid" /\ In (snd r) done).
  { intros done H c r [<-|[]]. split; [nv|exact H]. }
  assert (S3 : stage (when (has d (L "matsets")) (section d (L "matsets") matset_index to_topology)) (may (L "matsets") (all_good (mat_listed d)) d) (K done2) (K done3)).
  { apply stage_may. apply (stage_section d (entries d) C) with (vb := matset_entry); [reserved_|reserved_| | | |].
    - intros q Q. apply RES. do 5 right. exact Q.
    - apply TT. left. reflexivity.
    - intros sec k c KS H. apply fresh_of, ok_matset_entry.
    - intro c. unfold refs_value, to_topology. cbn [forallb fst snd]. rewrite Bool.andb_true_r. reflexivity. }
  assert (S4 : stage (when (has d (L "specsets")) (section d (L "specsets") specset_index (fun _ => [(L "matset", L "matsets")]))) (may (L "specsets") (all_good (spec_listed d)) d) (K done3) (K done4)).
  { apply stage_may. apply (stage_section d (entries d) C) with (vb := specset_entry); [reserved_|reserved_| | | |].
    - intros q Q. apply RES. do 4 right. exact Q.
    - intros c r [<-|[]]. split; [nv|left; reflexivity].
    - intros sec k c KS H. apply fresh_of, ok_specset_entry.
    - intro c. unfold refs_value. cbn [forallb fst snd]. rewrite Bool.andb_true_r. reflexivity. }
  assert (S5 : stage (when (has d (L "fields")) (section d (L "fields") field_index field_refs)) (may (L "fields") (all_good (field_listed d)) d) (K done4) (K done5)).
  { apply stage_may. apply (stage_section d (entries d) C) with (vb := field_entry); [reserved_|reserved_| | | |].
    - intros q Q. apply RES. do 3 right. exact Q.
    - intros c r H. unfold field_refs in H. apply in_app_or in H.
      destruct H as [H|H]; [destruct (has c (L "topology"))|destruct (has c (L "matset"))]; try destruct H; try match goal with X : _ = r |- _ => subst r end; try contradiction; (split; [nv|cbn; tauto]).
    - intros sec k c KS H. apply fresh_of, ok_field_entry.
    - intro c. unfold refs_value, field_refs. change (has c (L "topology")) with (given (L "topology") c). change (has c (L "matset")) with (given (L "matset") c).
      change (entries d (L "fields") c) with (field_listed d c). unfold field_listed.
      destruct (given (L "topology") c), (given (L "matset") c); cbn [app forallb fst snd negb orb];
        change (entries d (L "topologies")) with (topo_listed d); change (entries d (L "matsets")) with (mat_listed d); bt. }
  assert (S6 : stage (when (has d (L "adjsets")) (section d (L "adjsets") meeting_index to_topology)) (may (L "adjsets") (all_good (meeting_listed d)) d) (K done5) (K done6)).
  { apply stage_may. apply (stage_section d (entries d) C) with (vb := meeting_entry); [reserved_|reserved_| | | |].
    - intros q Q. apply RES. do 2 right. exact Q.
    - apply TT. cbn. tauto.
    - intros sec k c KS H. apply fresh_of, ok_meeting_entry.
    - intro c. unfold refs_value, to_topology. cbn [forallb fst snd]. rewrite Bool.andb_true_r. reflexivity. }
  assert (S7 : stage (when (has d (L "nestsets")) (section d (L "nestsets") meeting_index to_topology)) (may (L "nestsets") (all_good (meeting_listed d)) d) (K done6) (K done7)).
  { apply stage_may. apply (stage_section d (entries d) C) with (vb := meeting_entry); [reserved_|reserved_| | | |].
    - intros q Q. apply RES. right. exact Q.
    - apply TT. cbn. tauto.
    - intros sec k c KS H. apply fresh_of, ok_meeting_entry.
    - intro c. unfold refs_value, to_topology. cbn [forallb fst snd]. rewrite Bool.andb_true_r. reflexivity. }
  assert (W := stage_also _ _ _ _ _ _ _ S1 (stage_also _ _ _ _ _ _ _ S2 (stage_also _ _ _ _ _ _ _ S3 (stage_also _ _ _ _ _ _ _ S4
    (stage_also _ _ _ _ _ _ _ S5 (stage_also _ _ _ _ _ _ _ S6 (stage_also _ _ _ _ _ _ _ S7 (stage_end _)))))))).
  intros i T _. destruct (W i T) as (i' & A1 & A2 & A3 & A4); [intros q []|]. exists i'. split; [|split; [exact A2|split; [exact A3|]]].
  - unfold all_. cbn [fold_right]. etransitivity; [exact A1|]. do 2 f_equal. unfold index_ok. bt.
  - intros p P. apply A4. cbn in P. cbn. tauto.
Qed.
Lemma index_report n : clean n -> exists i, index_verify n = Ok (index_ok n, i) /\ flag i = Some (index_ok n) /\
  forall p, In p sections -> shows n p (entries n p) i.
Proof.
  intros C. unfold index_verify, reset, finish. assert (T : tidy INone) by exact I.
  destruct (index_stage n C INone T I) as (i1 & A1 & A2 & A3 & A4).
  unfold bindV at 1. rewrite A1. cbn [obind fst snd]. unfold valid.
  destruct (validation_ok i1 (index_ok n) A2) as (j & D1 & D2 & D3 & D4). rewrite D1. cbn [obind fst snd].
  exists j. split; [reflexivity|split]; [rewrite D3; unfold upto; rewrite A3; cbn; f_equal; apply Bool.andb_true_r|].
  intros p P sec s c X Y. rewrite D4; [exact (A4 p P sec s c X Y)|]. intro E. subst p. vm_compute in P. intuition discriminate.
Qed.
