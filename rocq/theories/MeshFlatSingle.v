(** Lemmas for C65: the centers, and what one domain writes. *)
From Coq Require Import ZArith Floats.SpecFloat Lia List.
From Verif Require Import Base DType SpecTree Mem Node Number ArrayOps Json B64Json ValueJson NumConv FloatText MeshConv MeshFlat MeshFlatSpec MeshFlatFacts.
Import ListNotations.

Lemma for_cons {A S} (x : A) r (body : A -> S -> outcome S) s : for_ (x :: r) body s = (do s' <- body x s; for_ r body s').
Proof. reflexivity. Qed.

(** * Centers *)
Lemma real_ok v x : real v = Ok x -> cast FLOAT64 v = Ok (NF x).
Proof. unfold real. intros H. ob H w E. destruct w; [discriminate|]. congruence. Qed.
Lemma center_ok c e m : center c e = Ok m -> mean_of c e m.
Proof.
  unfold center. intros H. ob H s E. ob H n En. injection H as <-. apply real_ok in En. cbn [cast is_float] in En.
  assert (G : forall e s0 s, for_ e (fun i s => do v <- slot (c_vals c) i; do x <- real v; Ok (dadd s x)) s0 = Ok s ->
    exists xs, Forall2 (fun i x => exists v, nth_error (c_vals c) i = Some v /\ cast FLOAT64 v = Ok (NF x)) e xs /\ s = fold_left dadd xs s0).
  { clear. induction e as [|i e IH]; intros s0 s H; [injection H as <-; exists []; split; [constructor|reflexivity]|].
    rewrite for_cons in H. ob H s1 E1. ob E1 v Ev. ob E1 x Ex. injection E1 as <-. destruct (IH _ _ H) as (xs & F & ->).
    exists (x :: xs). split; [|reflexivity]. constructor; [|exact F]. exists v. split; [exact (slot_ok _ _ _ Ev)|exact (real_ok _ _ Ex)]. }
  destruct (G _ _ _ E) as (xs & F & ->). exists xs. split; [exact F|]. do 2 f_equal. congruence.
Qed.
Lemma set_comp_keys cs i c : map fst (set_comp cs i c) = map fst cs.
Proof.
  unfold set_comp. revert i. induction cs as [|[k v] cs IH]; intros [|i]; cbn; try reflexivity.
  f_equal. exact (IH i).
Qed.
Definition center_rows (c : col) (es : list (list nat)) (ws : list number) : Prop := Forall2 (mean_of c) es ws.
Lemma centers_loop t (cs : list (str * col)) off m : forall k out out',
  for_ (seq k m) (fun i out =>
              do c <- slot cs i;
              do d <- slot out i;
              do ws <- omapM (center (snd c)) (t_elems t);
              if tid_eq_dec (c_ty (snd d)) FLOAT64 then
                do d' <- overwrite (snd d) off ws; Ok (set_comp out i d')
              else Err) out = Ok out' ->
  map fst out' = map fst out /\
  (forall i, ~ (k <= i < k + m) -> nth_error out' i = nth_error out i) /\
  (forall i, k <= i < k + m -> exists c a d ws, nth_error cs i = Some c /\ nth_error out i = Some (a, d) /\
     c_ty d = FLOAT64 /\ center_rows (snd c) (t_elems t) ws /\ off + length ws <= length (c_vals d) /\
     nth_error out' i = Some (a, splice d off ws)).
Proof.
  induction m as [|m IH]; intros k out out' H; cbn [seq] in H.
  - injection H as <-. split; [reflexivity|]. split; [reflexivity|]. intros i Hi. lia.
  - rewrite for_cons in H. ob H o1 E1. ob E1 c Ec. apply slot_ok in Ec. ob E1 d Ed. apply slot_ok in Ed. ob E1 ws Ew.
    destruct (tid_eq_dec _ _) as [T|]; [|discriminate E1]. ob E1 d' Ed'. injection E1 as <-.
    destruct (overwrite_ok _ _ _ _ Ed') as [Le ->]. destruct (IH _ _ _ H) as (K & Out & In_).
    rewrite set_comp_keys in K. split; [exact K|].
    assert (Lk : k < length out) by (apply nth_error_Some; congruence).
    split.
    + intros i Hi. rewrite Out by lia. unfold set_comp. apply nth_error_set_nth_other. lia.
    + intros i Hi. destruct (Nat.eq_dec i k) as [->|Ne].
      * exists c, (fst d), (snd d), ws. split; [exact Ec|]. split; [destruct d; exact Ed|]. split; [exact T|]. split.
        { unfold center_rows. apply omapM_f2 in Ew. clear -Ew. induction Ew; constructor; auto. apply center_ok. assumption. }
        split; [exact Le|]. rewrite Out by lia. unfold set_comp. rewrite nth_error_set_nth_same by exact Lk. rewrite Ed. destruct d; reflexivity.
      * destruct (In_ i ltac:(lia)) as (c1 & a & d1 & ws1 & H1 & H2 & H3 & H4 & H5 & H6).
        exists c1, a, d1, ws1. unfold set_comp in H2. rewrite nth_error_set_nth_other in H2 by lia. auto 8.
Qed.
Lemma nth_mget {V} (m : list (str * V)) i k v : NoDup (map fst m) -> nth_error m i = Some (k, v) -> mget m k = Some v.
Proof.
  revert i. induction m as [|[k' v'] m IH]; intros i ND H; [destruct i; discriminate|]. inversion_clear ND as [|? ? Hk ND'].
  cbn [mget]. destruct i as [|i]; [injection H as -> ->; rewrite str_eqb_refl; reflexivity|]. cbn [nth_error] in H.
  destruct (str_eqb k k') eqn:E; [|exact (IH _ ND' H)]. apply str_eqb_eq in E. subst. exfalso. apply Hk.
  apply nth_error_In in H. exact (in_map fst _ _ H).
Qed.
Lemma mget_nth {V} (m : list (str * V)) k v : mget m k = Some v -> exists i, nth_error m i = Some (k, v).
Proof.
  induction m as [|[k' v'] m IH]; cbn [mget]; [discriminate|]. destruct (str_eqb k k') eqn:E.
  - apply str_eqb_eq in E. intros [= ->]. subst. exists 0. reflexivity.
  - intros H. destruct (IH H) as [i Hi]. exists (Datatypes.S i). exact Hi.
Qed.
Definition center_written (es : list (list nat)) (c : col) (o o' : option col) (off : nat) : Prop :=
  exists d ws, o = Some d /\ c_ty d = FLOAT64 /\ center_rows c es ws /\ off + length ws <= length (c_vals d) /\ o' = Some (splice d off ws).
Definition ec := L "element_centers".
(** the components of the column of centers *)
Definition center_keys (tb : table) (axes : list str) : Prop :=
  exists out, mget tb ec = Some (VMc out) /\ map fst out = axes.
Lemma centers_ok t cs tb off tb' axes : center_keys tb axes -> map fst cs = axes -> NoDup axes ->
  centers t cs tb off = Ok tb' ->
  only ec tb tb' /\ center_keys tb' axes /\
  forall a c, mget cs a = Some c -> center_written (t_elems t) c (column tb ec (Some a)) (column tb' ec (Some a)) off.
Proof.
  intros (out & Ho & Ko) Kc ND H. unfold centers in H. fold ec in H. rewrite Ho in H. ob H o0 E0.
  destruct (negb _); [discriminate|]. destruct (negb _); [discriminate|]. destruct (Nat.ltb _ _); [discriminate|].
  ob H out' E. injection H as <-. destruct (centers_loop _ _ _ _ _ _ _ E) as (K & _ & W).
  split; [exact (only_mset _ _ _ (mget_key _ _ _ Ho))|]. split.
  { exists out'. split; [apply mget_mset_same|congruence]. }
  intros a c Hc. destruct (mget_nth _ _ _ Hc) as [i Hi].
  assert (Li : i < length cs) by (apply nth_error_Some; congruence).
  destruct (W i ltac:(lia)) as (c1 & a1 & d & ws & H1 & H2 & H3 & H4 & H5 & H6).
  assert (c1 = (a, c)) by congruence. subst c1.
  assert (a1 = a).
  { assert (X : nth_error (map fst out) i = Some a1) by (rewrite nth_error_map, H2; reflexivity).
    assert (Y : nth_error (map fst cs) i = Some a) by (rewrite nth_error_map, Hi; reflexivity). congruence. }
  subst a1. exists d, ws. unfold column. rewrite Ho, mget_mset_same. cbn [part].
  split; [apply (nth_mget out i); [congruence|exact H2]|]. split; [exact H3|]. split; [exact H4|]. split; [exact H5|].
  apply (nth_mget out' i); [congruence|exact H6].
Qed.

(** * The sizes *)
Lemma get_topo_of o d t : get_topo o d = Ok t -> topo_of o d = Some t.
Proof.
  unfold get_topo, topo_of. destruct (o_topo o).
  - destruct (d_topos d); cbn; congruence.
  - intros H. ob H x E. apply need_ok in E. rewrite E. injection H as <-. reflexivity.
Qed.
Lemma get_cset_of o d c : get_cset o d = Ok c -> cset_of o d = Some c.
Proof.
  unfold get_cset, cset_of. intros H. ob H t E. apply get_topo_of in E. rewrite E. ob H x Ex. apply need_ok in Ex.
  destruct t as [tn t]. cbn [snd] in *. rewrite Ex. injection H as <-. reflexivity.
Qed.
Lemma for_length (m : list (str * col)) n : Forall (fun c => length (c_vals (snd c)) = n) m -> forall l k k',
  for_ l (fun a _ => do v <- need (mget m a); Ok (length (c_vals v))) k = Ok k' -> k' = match l with [] => k | _ => n end.
Proof.
  intros F. induction l as [|a l IH]; intros k k' H; [injection H; auto|]. rewrite for_cons in H. ob H k1 E. ob E v Ev.
  injection E as <-. apply need_ok in Ev. destruct (mget_nth _ _ _ Ev) as [i Hi]. apply nth_error_In in Hi.
  rewrite Forall_forall in F. specialize (F _ Hi). cbn [snd] in F. specialize (IH _ _ H). destruct l; [congruence|exact IH].
Qed.
(** a domain with these axes and arrays of one length *)
Definition regular (o : opts) (axes : list str) (d : dom) : Prop :=
  map fst (coords o d) = axes /\ Forall (fun c => length (c_vals (snd c)) = verts o d) (coords o d).
Lemma cs_length_of o axes d c n : axes <> [] -> axes_of axes = axes -> regular o axes d ->
  get_cset o d = Ok c -> cs_length (snd c) = Ok n -> n = verts o d /\ cs_values (snd c) = coords o d.
Proof.
  intros Ne Ca [K F] G H. apply get_cset_of in G.
  assert (V : cs_values (snd c) = coords o d) by (unfold coords; rewrite G; destruct c; reflexivity).
  split; [|exact V]. unfold cs_length, cs_axes in H. rewrite V in H. pose proof (for_length _ _ F _ _ _ H) as R.
  rewrite K, Ca in R. destruct axes; [congruence|exact R].
Qed.
Lemma topo_length_of o d t : get_topo o d = Ok t -> topo_length (snd t) = elems o d /\ t_elems (snd t) = cells o d.
Proof. intros H. apply get_topo_of in H. unfold elems, cells, topo_length. rewrite H. destruct t. split; reflexivity. Qed.
Lemma sizes_of o axes d p : axes <> [] -> axes_of axes = axes -> regular o axes d -> sizes o d = Ok p -> p = (verts o d, elems o d).
Proof.
  intros Ne Ca R H. unfold sizes in H. ob H t Et. ob H c Ec. ob H n En. injection H as <-.
  destruct (cs_length_of _ _ _ _ _ Ne Ca R Ec En) as [-> _]. destruct (topo_length_of _ _ _ Et) as [-> _]. reflexivity.
Qed.

(** * The fields of one domain *)
Definition vx := L "vertex".
Definition el := L "element".
Definition known (d : dom) (KV KE : list str) (n : str) : Prop :=
  forall f, field_of d n = Some f ->
    (f_assoc f = Some vx -> In n KV) /\ (f_assoc f = Some el -> In n KE) /\
    (forall l, f_vals f = VMc l -> NoDup (map fst l)).
Definition field_step (d : dom) (voff nv eoff ne : nat) (n : str) (s s' : table * table) : Prop :=
  match field_of d n with
  | None => mget (fst s') n = mget (fst s) n /\ mget (snd s') n = mget (snd s) n
  | Some f =>
      (f_assoc f = Some vx -> forall a, writes (column (fst s) n a) (column (fst s') n a) voff nv (part (f_vals f) a)) /\
      (f_assoc f = Some el -> forall a, writes (column (snd s) n a) (column (snd s') n a) eoff ne (part (f_vals f) a))
  end.
Lemma fields_loop d fs voff nv eoff ne : d_fields d = Some fs -> forall names s s', NoDup names ->
  Forall (known d (map fst (fst s)) (map fst (snd s))) names ->
  for_ names (fun n s =>
    match mget fs n with
    | None => Ok s
    | Some f =>
        do a <- need (f_assoc f);
        if str_eqb a (L "vertex") then do vt <- append (fst s) n (f_vals f) voff nv; Ok (vt, snd s)
        else if str_eqb a (L "element") then do et <- append (snd s) n (f_vals f) eoff ne; Ok (fst s, et)
        else Ok s
    end) s = Ok s' ->
  map fst (fst s') = map fst (fst s) /\ map fst (snd s') = map fst (snd s) /\
  (forall k, ~ In k names -> mget (fst s') k = mget (fst s) k /\ mget (snd s') k = mget (snd s) k) /\
  (forall n, In n names -> field_step d voff nv eoff ne n s s').
Proof.
  intros Hf. induction names as [|n names IH]; intros s s' ND Kn H.
  - injection H as <-. split; [reflexivity|]. split; [reflexivity|]. split; [auto|]. intros n [].
  - rewrite for_cons in H. ob H s1 E1. inversion_clear ND as [|? ? Hn ND']. inversion_clear Kn as [|? ? K1 Kn'].
    assert (Q : map fst (fst s1) = map fst (fst s) /\ map fst (snd s1) = map fst (snd s) /\
                (forall k, k <> n -> mget (fst s1) k = mget (fst s) k /\ mget (snd s1) k = mget (snd s) k) /\
                field_step d voff nv eoff ne n s s1).
    { unfold known, field_step in *. unfold field_of, fields_of in *. rewrite Hf in *. destruct (mget fs n) as [f|].
      2:{ injection E1 as <-. auto 8. }
      destruct (K1 f eq_refl) as (KV & KE & KN). ob E1 a Ea. apply need_ok in Ea.
      destruct (str_eqb a (L "vertex")) eqn:A1; [|destruct (str_eqb a (L "element")) eqn:A2].
      - apply str_eqb_eq in A1. subst a. ob E1 vt Ev. injection E1 as <-. cbn [fst snd].
        destruct (append_ok _ _ _ _ _ _ (KV Ea) KN Ev) as [[Hk Ho] Hw].
        split; [exact Hk|]. split; [reflexivity|]. split; [intros k Hk'; split; [exact (Ho k Hk')|reflexivity]|].
        split; [intros _; exact Hw|]. intros C. rewrite C in Ea. discriminate Ea.
      - apply str_eqb_eq in A2. subst a. ob E1 et Ev. injection E1 as <-. cbn [fst snd].
        destruct (append_ok _ _ _ _ _ _ (KE Ea) KN Ev) as [[Hk Ho] Hw].
        split; [reflexivity|]. split; [exact Hk|]. split; [intros k Hk'; split; [reflexivity|exact (Ho k Hk')]|].
        split; [intros C; rewrite C in Ea; discriminate Ea|]. intros _; exact Hw.
      - injection E1 as <-. split; [reflexivity|]. split; [reflexivity|]. split; [auto|].
        split; intros C; rewrite C in Ea; injection Ea as <-; rewrite str_eqb_refl in *; discriminate. }
    destruct Q as (Q1 & Q2 & Q3 & Q4). rewrite <- Q1, <- Q2 in Kn'. destruct (IH _ _ ND' Kn' H) as (R1 & R2 & R3 & R4).
    split; [congruence|]. split; [congruence|]. split.
    + intros k Hk. cbn in Hk. destruct (R3 k ltac:(tauto)) as [-> ->]. apply Q3. intros ->. tauto.
    + intros k [<-|Hk].
      * destruct (R3 n Hn) as [X1 X2]. unfold field_step in *. unfold column in *. rewrite X1, X2. exact Q4.
      * assert (Nk : k <> n) by (intros ->; tauto). destruct (Q3 k Nk) as [X1 X2]. specialize (R4 k Hk).
        unfold field_step in *. unfold column in *. rewrite X1, X2 in R4. exact R4.
Qed.
