(** Lemmas for C65: the tables as a whole. *)
From Coq Require Import ZArith Floats.SpecFloat Lia List.
From Verif Require Import Base DType SpecTree Mem Node Number ArrayOps Json B64Json ValueJson NumConv FloatText MeshConv MeshFlat MeshFlatSpec MeshFlatFacts MeshFlatSingle MeshFlatRun MeshFlatAlloc.
Import ListNotations.

Lemma elem_type_widest l : widest l (elem_type l).
Proof.
  unfold elem_type, find_widest.
  assert (G : forall l, match fold_left (wider [FLOAT32; INT32; UINT32]) (rev l) None with
    | Some t => exists a b, l = a ++ t :: b /\ numeric t = true /\
       Forall (fun u => numeric u = true -> (default_bytes u <= default_bytes t)%Z) a /\
       Forall (fun u => numeric u = true -> (default_bytes u < default_bytes t)%Z) b
    | None => Forall (fun u => numeric u = false) l end).
  { clear l. induction l as [|u l IH]; [constructor|]. cbn [rev]. rewrite fold_left_app. cbn [fold_left].
    assert (Nm : existsb (family u) [FLOAT32; INT32; UINT32] = numeric u) by (destruct u; reflexivity).
    unfold wider at 1. rewrite Nm. destruct (fold_left _ (rev l) None) as [t|].
    - destruct IH as (a & b & -> & Nt & Fa & Fb). destruct (numeric u) eqn:Nu; cbn [andb].
      + destruct (Z.ltb _ _) eqn:Lt.
        * apply Z.ltb_lt in Lt. exists [], (a ++ t :: b). split; [reflexivity|]. split; [exact Nu|]. split; [constructor|].
          apply Forall_app. split; [|constructor].
          -- revert Fa. apply Forall_impl. intros x Hx Nx. specialize (Hx Nx). lia.
          -- intros _. lia.
          -- revert Fb. apply Forall_impl. intros x Hx Nx. specialize (Hx Nx). lia.
        * apply Z.ltb_ge in Lt. exists (u :: a), b. split; [reflexivity|]. split; [exact Nt|]. split; [|exact Fb]. constructor; [|exact Fa]. intros _. exact Lt.
      + exists (u :: a), b. split; [reflexivity|]. split; [exact Nt|]. split; [|exact Fb]. constructor; [congruence|exact Fa].
    - destruct (numeric u) eqn:Nu; cbn [andb].
      + assert (Lt : Z.ltb 0 (default_bytes u) = true) by (destruct u; try discriminate Nu; reflexivity). rewrite Lt.
        exists [], l. split; [reflexivity|]. split; [exact Nu|]. split; [constructor|]. revert IH. apply Forall_impl. intros x Hx Nx. congruence.
      + constructor; assumption. }
  specialize (G l). destruct (fold_left _ (rev l) None) as [t|]; [left; exact G|right; split; [exact G|reflexivity]].
Qed.
Lemma widest_numeric l t : widest l t -> numeric t = true.
Proof. intros [(a & b & _ & H & _)|[_ ->]]; [exact H|reflexivity]. Qed.
Lemma fill_fill_of o t v : numeric t = true -> fill o t = Ok v -> fill_of o t = Ok v.
Proof.
  intros N H. unfold fill, fill_of in *. destruct (is_float t) eqn:Ef.
  - destruct (o_float o) as [s|s| |s m e]; try exact H. injection H as <-. destruct t; try discriminate Ef; reflexivity.
  - destruct (is_int t); [|discriminate H]. destruct (Z.eqb (o_int o) 0) eqn:E; [|exact H]. apply Z.eqb_eq in E. rewrite E. injection H as <-.
    destruct t; try discriminate N; try discriminate Ef; reflexivity.
Qed.

Definition names0 (b : bool) (n : str) : list str := if b then [n] else [].
Definition kv (o : opts) (tn cs : str) (ds : list dom) : list str :=
  id_columns o (names0 (o_verts o) cs ++ filter (of_assoc ds vx) (chosen o tn ds)) (L "vertex_id").
Definition ke (o : opts) (tn : str) (ds : list dom) : list str :=
  id_columns o (names0 (o_centers o) ec ++ filter (of_assoc ds el) (chosen o tn ds)) (L "element_id").
Lemma in_id_columns o l ids n : In n l -> In n (id_columns o l ids).
Proof. unfold id_columns. destruct (o_info o); [|auto]. destruct l; [auto|]. intros H. apply in_or_app. left. exact H. Qed.

(** everything before the domains are read *)
Record prep (o : opts) (tn cs : str) (axes : list str) (ds : list dom) (s0 : table * table) (ids : list Z) : Prop := {
  pr_shape : shape o cs axes (kv o tn cs ds) (ke o tn ds) s0;
  pr_ids : length ids = length ds /\ forall k, k < length ds -> nth_error ids k = id_of ds k;
  pr_coords : o_verts o = true -> forall a, In a axes -> made o (elem_type (coord_leaves o ds)) (total (verts o) ds) (column (fst s0) cs (Some a));
  pr_centers : o_centers o = true -> forall a, In a axes -> made o FLOAT64 (total (elems o) ds) (column (snd s0) ec (Some a));
  pr_fields : forall n f, In n (chosen o tn ds) -> first_field ds n = Some f ->
     let ty := elem_type (leaves_of (f_vals f)) in
     (f_assoc f = Some vx -> forall a c, part (f_vals f) a = Some c -> made o ty (total (verts o) ds) (column (fst s0) n a)) /\
     (f_assoc f = Some el -> forall a c, part (f_vals f) a = Some c -> made o ty (total (elems o) ds) (column (snd s0) n a));
  pr_vid : In (L "vertex_id") (kv o tn cs ds) -> made o INT64 (total (verts o) ds) (column (fst s0) (L "domain_id") None) /\
                                          made o INT64 (total (verts o) ds) (column (fst s0) (L "vertex_id") None);
  pr_eid : In (L "element_id") (ke o tn ds) -> made o INT64 (total (elems o) ds) (column (snd s0) (L "domain_id") None) /\
                                          made o INT64 (total (elems o) ds) (column (snd s0) (L "element_id") None)
}.
Record start (o : opts) (tn cs : str) (axes : list str) (ds : list dom) (s0 s : table * table) (ids : list Z) : Prop := {
  st_shape : shape o cs axes (kv o tn cs ds) (ke o tn ds) s0;
  st_run : domains o (chosen o tn ds) ds ids (map (verts o) ds) (map (elems o) ds) 0 0 s0 = Ok s;
  st_ids : length ids = length ds /\ forall k, k < length ds -> nth_error ids k = id_of ds k;
  st_coords : o_verts o = true -> forall a, In a axes -> made o (elem_type (coord_leaves o ds)) (total (verts o) ds) (column (fst s0) cs (Some a));
  st_centers : o_centers o = true -> forall a, In a axes -> made o FLOAT64 (total (elems o) ds) (column (snd s0) ec (Some a));
  st_fields : forall n f, In n (chosen o tn ds) -> first_field ds n = Some f ->
     let ty := elem_type (leaves_of (f_vals f)) in
     (f_assoc f = Some vx -> forall a c, part (f_vals f) a = Some c -> made o ty (total (verts o) ds) (column (fst s0) n a)) /\
     (f_assoc f = Some el -> forall a c, part (f_vals f) a = Some c -> made o ty (total (elems o) ds) (column (snd s0) n a));
  st_vid : In (L "vertex_id") (kv o tn cs ds) -> made o INT64 (total (verts o) ds) (column (fst s0) (L "domain_id") None) /\
                                          made o INT64 (total (verts o) ds) (column (fst s0) (L "vertex_id") None);
  st_eid : In (L "element_id") (ke o tn ds) -> made o INT64 (total (elems o) ds) (column (snd s0) (L "domain_id") None) /\
                                          made o INT64 (total (elems o) ds) (column (snd s0) (L "element_id") None)
}.
(** flatten up to the loop over the domains *)
Definition prepare (o : opts) (ds : list dom) : outcome (info * list str * (table * table)) :=
  do i <- collect o ds;
  let nv := list_sum (i_verts i) in
  let ne := list_sum (i_elems i) in
  do vt <- (if o_verts o then for_ (i_axes i) (alloc_comp o (i_cset i) nv (i_type i)) [] else Ok []);
  do et <- (if o_centers o then for_ (i_axes i) (alloc_comp o (L "element_centers") ne FLOAT64) [] else Ok []);
  match ds with
  | [] => Err
  | d0 :: _ =>
      do t0 <- get_topo o d0;
      do names <- fields_to_flatten o (fst t0) ds;
      do s <- allocate o (fst t0) ds names nv ne (vt, et);
      do vt <- add_ids o (fst s) (L "vertex_id") nv;
      do et <- add_ids o (snd s) (L "element_id") ne;
      Ok (i, names, (vt, et))
  end.
Lemma obind_assoc {A B C} (x : outcome A) (f : A -> outcome B) (g : B -> outcome C) :
  obind (obind x f) g = obind x (fun a => obind (f a) g).
Proof. destruct x; reflexivity. Qed.
Lemma flatten_prepare o ds : flatten o ds =
  (do p <- prepare o ds; domains o (snd (fst p)) ds (i_ids (fst (fst p))) (i_verts (fst (fst p))) (i_elems (fst (fst p))) 0 0 (snd p)).
Proof.
  unfold flatten, prepare. destruct (collect o ds) as [i| | |]; cbn [obind]; try reflexivity. cbv zeta.
  destruct (if o_verts o then _ else _) as [vt| | |]; cbn [obind]; try reflexivity.
  destruct (if o_centers o then _ else _) as [et| | |]; cbn [obind]; try reflexivity.
  destruct ds as [|d0 ds]; [reflexivity|].
  destruct (get_topo o d0) as [t| | |]; cbn [obind]; try reflexivity.
  destruct (fields_to_flatten _ _ _) as [ns| | |]; cbn [obind]; try reflexivity.
  destruct (allocate _ _ _ _ _ _ _) as [s1| | |]; cbn [obind]; try reflexivity.
  destruct (add_ids o (fst s1) _ _) as [v1| | |]; cbn [obind]; try reflexivity.
  destruct (add_ids o (snd s1) _ _) as [e1| | |]; cbn [obind]; reflexivity.
Qed.
Lemma first_comps o n N ty axes tb' : axes <> [] -> NoDup axes -> for_ axes (alloc_comp o n N ty) [] = Ok tb' ->
  map fst tb' = [n] /\ exists out, mget tb' n = Some (VMc out) /\ map fst out = axes /\ forall a, In a axes -> made o ty N (mget out a).
Proof.
  intros Ne ND H. destruct axes as [|a axes]; [congruence|]. rewrite for_cons in H. rewrite <- (alloc_comp_touch o n N ty a []) in H. rewrite <- for_cons in H.
  destruct (new_comps_ok o n N ty (a :: axes) [] tb' (fun X => X) H) as (K & _ & out & H1 & H2 & H3). split; [exact K|].
  exists out. split; [exact H1|]. split; [exact (H3 ND)|exact H2].
Qed.
Lemma prepare_prep o tn cs axes ds i names s0 : fits o tn cs axes ds -> prepare o ds = Ok (i, names, s0) ->
  names = chosen o tn ds /\ i_verts i = map (verts o) ds /\ i_elems i = map (elems o) ds /\ prep o tn cs axes ds s0 (i_ids i).
Proof.
  rename i into i', names into names'.
  intros [Ft [Ax1 Ax2] Fc Fcs Fn Fo Ff] H. unfold prepare in H. ob H i Ei. cbv zeta in H.
  destruct (collect_ok _ _ _ _ Ax1 Ax2 Fc Ei) as (I1 & I2 & I3 & I4 & I5 & d0 & c0 & I6 & I7 & I8).
  assert (ND : NoDup axes) by (rewrite <- Ax2; apply nodup_axes).
  destruct Ft as (d0' & Hd0 & (t0 & Ht0) & (c0' & Hc0)). rewrite I6 in Hd0. injection Hd0 as <-. rewrite I7 in Hc0. injection Hc0 as Ecs _.
  rewrite Ecs, I3 in H. rewrite Ecs in I7.
  rewrite I1, I2 in H. fold (total (verts o) ds) in H. fold (total (elems o) ds) in H.
  set (NV := total (verts o) ds) in *. set (NE := total (elems o) ds) in *.
  ob H vt0 V0. ob H et0 E0. destruct ds as [|d1 ds']; [discriminate|]. cbn in I6. injection I6 as ->. remember (d0 :: ds') as ds eqn:Ed.
  ob H t1 T1. apply get_topo_of in T1. rewrite Ht0 in T1. injection T1 as <-. cbn [fst] in H.
  ob H names Nm. apply fields_chosen in Nm. subst names.
  pose proof (chosen_nodup o tn ds Fn) as NDc.
  assert (Lv : coord_leaves o ds = match cs_leaves c0 with Some l => l | None => map (fun v => c_ty (snd v)) (cs_values c0) end).
  { subst ds. unfold coord_leaves. rewrite I7. reflexivity. }
  assert (PV : map fst vt0 = names0 (o_verts o) cs /\ (o_verts o = true -> forall a, In a axes -> made o (i_type i) NV (column vt0 cs (Some a)))).
  { unfold names0. destruct (o_verts o).
    - destruct (first_comps _ _ _ _ _ _ Ax1 ND V0) as (K & out & O1 & _ & O3). split; [exact K|]. intros _ a Ha. unfold column. rewrite O1. exact (O3 a Ha).
    - injection V0 as <-. split; [reflexivity|discriminate]. }
  assert (PE : map fst et0 = names0 (o_centers o) ec /\ (o_centers o = true -> center_keys et0 axes /\ forall a, In a axes -> made o FLOAT64 NE (column et0 ec (Some a)))).
  { unfold names0. destruct (o_centers o).
    - fold ec in E0. destruct (first_comps _ _ _ _ _ _ Ax1 ND E0) as (K & out & O1 & O2 & O3). split; [exact K|]. intros _. split; [exists out; auto|].
      intros a Ha. unfold column. rewrite O1. exact (O3 a Ha).
    - injection E0 as <-. split; [reflexivity|discriminate]. }
  destruct PV as [KV0 PV]. destruct PE as [KE0 PE].
  ob H s1 A1.
  assert (Ow : forall n x, In n (chosen o tn ds) -> In x (own cs) -> n <> x) by (intros n x Hn Hx ->; exact (Fo x Hn Hx)).
  assert (Dis : forall n, In n (chosen o tn ds) -> ~ In n (map fst (fst (vt0, et0))) /\ ~ In n (map fst (snd (vt0, et0)))).
  { intros n Hn. cbn [fst snd]. rewrite KV0, KE0. unfold names0. split.
    - intros X. refine (in_one _ _ _ X (Ow n cs Hn (or_introl eq_refl))).
    - intros X. refine (in_one _ _ _ X (Ow n ec Hn (or_intror (or_introl eq_refl)))). }
  destruct (allocate_ok o tn ds NV NE (chosen o tn ds) _ _ (fun n d f Hn Hd Hf => proj1 (Ff n d f Hn Hd Hf)) NDc Dis A1) as (R1 & R2 & R3 & R4).
  cbn [fst snd] in R1, R2, R3. rewrite KV0 in R1. rewrite KE0 in R2.
  ob H vt1 V1. ob H et1 E1. injection H as <- <- <-. split; [reflexivity|]. split; [exact I1|]. split; [exact I2|].
  assert (Ni : forall l x g, (forall y, In y l -> y <> x) -> In x (own cs) -> ~ In x (l ++ filter g (chosen o tn ds))).
  { intros l x g Hl Hx X. apply in_app_or in X. destruct X as [X|X]; [exact (Hl x X eq_refl)|]. apply filter_In in X. destruct X as [X _]. exact (Ow x x X Hx eq_refl). }
  assert (NVl : forall x, x = L "domain_id" \/ x = L "vertex_id" -> forall y, In y (names0 (o_verts o) cs) -> y <> x).
  { intros x Hx y Hy ->. unfold names0 in Hy. destruct (o_verts o); [|destruct Hy]. destruct Hy as [<-|[]]. apply Fcs. cbn. destruct Hx; auto. }
  assert (NEl : forall x, x = L "domain_id" \/ x = L "element_id" -> forall y, In y (names0 (o_centers o) ec) -> y <> x).
  { intros x Hx y Hy ->. unfold names0 in Hy. destruct (o_centers o); [|destruct Hy]. destruct Hy as [<-|[]]. destruct Hx; discriminate. }
  assert (B1 : map fst vt1 = kv o tn cs ds /\ (forall k, k <> L "vertex_id" -> k <> L "domain_id" -> mget vt1 k = mget (fst s1) k) /\
     (In (L "vertex_id") (map fst vt1) -> made o INT64 NV (column vt1 (L "domain_id") None) /\ made o INT64 NV (column vt1 (L "vertex_id") None))).
  { unfold kv. rewrite <- R1. refine (add_ids_ok o (fst s1) _ NV vt1 _ _ _ V1); [discriminate| |]; rewrite R1; (apply Ni; [apply NVl; auto|]); cbn; auto 8. }
  assert (B2 : map fst et1 = ke o tn ds /\ (forall k, k <> L "element_id" -> k <> L "domain_id" -> mget et1 k = mget (snd s1) k) /\
     (In (L "element_id") (map fst et1) -> made o INT64 NE (column et1 (L "domain_id") None) /\ made o INT64 NE (column et1 (L "element_id") None))).
  { unfold ke. rewrite <- R2. refine (add_ids_ok o (snd s1) _ NE et1 _ _ _ E1); [discriminate| |]; rewrite R2; (apply Ni; [apply NEl; auto|]); cbn; auto 8. }
  destruct B1 as (B1 & B2' & B3). destruct B2 as (C1 & C2 & C3). rewrite B1 in B3. rewrite C1 in C3.
  assert (O1 : ~ In cs (chosen o tn ds)) by (intros X; exact (Ow cs cs X (or_introl eq_refl) eq_refl)).
  assert (O2 : ~ In ec (chosen o tn ds)) by (intros X; exact (Ow ec ec X (or_intror (or_introl eq_refl)) eq_refl)).
  assert (Ck : cs <> L "vertex_id" /\ cs <> L "domain_id") by (split; intros E; apply Fcs; rewrite E; cbn; auto).
  constructor.
  - split; [exact B1|]. split; [exact C1|]. split.
    + intros Ov. unfold kv, names0. rewrite Ov. unfold id_columns. destruct (o_info o); reflexivity.
    + intros Oc. destruct (PE Oc) as [(out & X & Y) _]. exists out. split; [|exact Y]. cbn [snd]. rewrite C2 by discriminate. rewrite (proj2 (R3 ec O2)). exact X.
  - split; [exact I4|exact I5].
  - intros Ov a Ha. specialize (PV Ov a Ha). rewrite Lv, <- I8. unfold column in *. cbn [fst]. rewrite B2' by apply Ck. rewrite (proj1 (R3 cs O1)). exact PV.
  - intros Oc a Ha. specialize (proj2 (PE Oc) a Ha). unfold column. cbn [snd]. rewrite C2 by discriminate. rewrite (proj2 (R3 ec O2)). auto.
  - intros n f Hn Hf. specialize (R4 n f Hn Hf). cbv zeta in *. unfold column in *. cbn [fst snd].
    rewrite B2', C2 by (apply Ow; [exact Hn|cbn; auto 8]). exact R4.
  - exact B3.
  - exact C3.
Qed.
Lemma flatten_start o tn cs axes ds s : fits o tn cs axes ds -> flatten o ds = Ok s -> exists s0 ids, start o tn cs axes ds s0 s ids.
Proof.
  intros F H. rewrite flatten_prepare in H. ob H p E. destruct p as [[i names] s0]. cbn [fst snd] in H.
  destruct (prepare_prep _ _ _ _ _ _ _ _ F E) as (-> & E1 & E2 & [P1 P2 P3 P4 P5 P6 P7]). rewrite E1, E2 in H.
  exists s0, (i_ids i). constructor; assumption.
Qed.
