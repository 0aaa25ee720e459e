(** Lemmas for C65: flatten succeeds on whole meshes. *)
From Coq Require Import ZArith Floats.SpecFloat Lia List.
From Verif Require Import Base DType SpecTree Mem Node Number ArrayOps Json B64Json ValueJson NumConv FloatText MeshConv MeshFlat MeshFlatSpec MeshFlatFacts MeshFlatSingle MeshFlatRun MeshFlatAlloc MeshFlatMain MeshFlatCols.
Import ListNotations.

(** * Types and lengths *)
Definition sk_col (c : col) : tid * nat := (c_ty c, length (c_vals c)).
Definition vmap {A B} (f : A -> B) (m : list (str * A)) : list (str * B) := map (fun p => (fst p, f (snd p))) m.
Definition sk (v : vals) : (tid * nat) + list (str * (tid * nat)) :=
  match v with VArr c => inl (sk_col c) | VMc cs => inr (vmap sk_col cs) end.
Lemma mget_vmap {A B} (f : A -> B) m k : mget (vmap f m) k = match mget m k with Some v => Some (f v) | None => None end.
Proof. induction m as [|[k' v] m IH]; cbn; [reflexivity|]. destruct (str_eqb k k'); [reflexivity|exact IH]. Qed.
Lemma vmap_mset {A B} (f : A -> B) m k u v : mget m k = Some u -> f u = f v -> vmap f (mset m k v) = vmap f m.
Proof.
  intros H E. induction m as [|[k' w] m IH]; cbn in *; [discriminate|]. destruct (str_eqb k k').
  - cbn. injection H as ->. rewrite <- E. reflexivity.
  - cbn. f_equal. exact (IH H).
Qed.
Lemma splice_sk c off ws : off + length ws <= length (c_vals c) -> sk_col (splice c off ws) = sk_col c.
Proof. intros H. unfold sk_col. rewrite splice_length by exact H. reflexivity. Qed.

Lemma omapM_total {A B} (f : A -> outcome B) l : (forall x, In x l -> exists y, f x = Ok y) -> exists ys, omapM f l = Ok ys /\ length ys = length l.
Proof.
  induction l as [|x l IH]; intros H; [exists []; auto|]. destruct (H x (or_introl eq_refl)) as [y Hy].
  destruct (IH (fun x Hx => H x (or_intror Hx))) as (ys & Hs & Hl). exists (y :: ys). cbn [omapM]. rewrite Hy. cbn [obind]. rewrite Hs. cbn. auto.
Qed.
(** a loop keeps an invariant that lets each step succeed *)
Lemma for_total {A S} (Inv : S -> Prop) (body : A -> S -> outcome S) l : (forall x s, In x l -> Inv s -> exists s', body x s = Ok s' /\ Inv s') ->
  forall s, Inv s -> exists s', for_ l body s = Ok s' /\ Inv s'.
Proof.
  induction l as [|x l IH]; intros H s I; [exists s; auto|]. rewrite for_cons. destruct (H x s (or_introl eq_refl) I) as (s1 & E & I1). rewrite E. cbn [obind].
  exact (IH (fun y s Hy => H y s (or_intror Hy)) s1 I1).
Qed.

(** * append_data *)
Definition fitcol (k : tid * nat) (off n : nat) (s : col) : Prop :=
  off + n <= snd k /\ numeric (fst k) = true /\ numeric (c_ty s) = true /\ n <= length (c_vals s) /\ Forall (castable (fst k)) (c_vals s).
Lemma cast_total t v : castable t v -> exists w, cast t v = Ok w.
Proof. intros [F|[z ->]]; [|eexists; reflexivity]. destruct v as [z|x]; cbn [cast]; [eexists; reflexivity|]. rewrite F. eexists; reflexivity. Qed.
Lemma t_array s d off n : fitcol (sk_col d) off n s -> exists d', append_array s d off n = Ok d' /\ sk_col d' = sk_col d.
Proof.
  intros (H1 & H2 & H3 & H4 & H5). cbn [sk_col fst snd] in *. unfold append_array.
  destruct (Nat.ltb _ _) eqn:E; [apply Nat.ltb_lt in E; lia|]. rewrite H2, H3. cbn [andb negb].
  destruct (omapM_total (fun i => do v <- slot (c_vals s) i; cast (c_ty d) v) (seq 0 n)) as (ws & Ew & Lw).
  { intros i Hi. apply in_seq in Hi. destruct (nth_error (c_vals s) i) as [v|] eqn:N; [|apply nth_error_None in N; lia].
    unfold slot. rewrite N. cbn [obind]. apply cast_total. rewrite Forall_forall in H5. exact (H5 v (nth_error_In _ _ N)). }
  rewrite Ew. cbn [obind]. eexists. split; [reflexivity|]. apply splice_sk. rewrite Lw, seq_length. exact H1.
Qed.
Lemma t_mc off n src ks : (forall a s, In (a, s) src -> exists k, mget ks a = Some k /\ fitcol k off n s) ->
  forall dst, vmap sk_col dst = ks -> exists dst', append_mc src dst off n = Ok dst' /\ vmap sk_col dst' = ks.
Proof.
  intros H dst Hd. unfold append_mc. refine (for_total (fun dst => vmap sk_col dst = ks) _ src _ dst Hd).
  intros [a s] d Hi Hk. destruct (H a s Hi) as (k & Hg & Hf). rewrite <- Hk, mget_vmap in Hg. cbn [fst snd].
  destruct (mget d a) as [c|] eqn:Ec; [|discriminate]. injection Hg as <-. cbn [need obind].
  destruct (t_array _ _ _ _ Hf) as (c' & E & Es). rewrite E. cbn [obind]. eexists. split; [reflexivity|].
  rewrite <- Hk. apply (vmap_mset _ _ _ c); [exact Ec|congruence].
Qed.
Definition fitvals (k : (tid * nat) + list (str * (tid * nat))) (off n : nat) (src : vals) : Prop :=
  match src, k with
  | VArr s, inl c => fitcol c off n s
  | VMc [], _ => True
  | VMc l, inr ks => forall a s, In (a, s) l -> exists k, mget ks a = Some k /\ fitcol k off n s
  | _, _ => False
  end.
Lemma t_vals src d off n : fitvals (sk d) off n src -> exists d', append_vals src d off n = Ok d' /\ sk d' = sk d.
Proof.
  destruct src as [s|l]; destruct d as [c|ks]; cbn [fitvals sk]; intros H.
  - destruct (t_array _ _ _ _ H) as (d' & E & Es). cbn [append_vals]. rewrite E. cbn [obind]. eexists. split; [reflexivity|]. cbn [sk]. congruence.
  - contradiction.
  - destruct l; [|contradiction]. eexists. split; reflexivity.
  - assert (H' : forall a s, In (a, s) l -> exists k, mget (vmap sk_col ks) a = Some k /\ fitcol k off n s) by (destruct l; [intros a s []|exact H]).
    destruct (t_mc off n l _ H' ks eq_refl) as (d' & E & Es). exists (VMc d'). split; [|cbn [sk]; congruence].
    cbn [append_vals]. destruct l; rewrite E; reflexivity.
Qed.
Lemma t_append tb n src off m k : mget (vmap sk tb) n = Some k -> fitvals k off m src ->
  exists tb', append tb n src off m = Ok tb' /\ vmap sk tb' = vmap sk tb.
Proof.
  rewrite mget_vmap. intros H F. destruct (mget tb n) as [d|] eqn:E; [|discriminate]. injection H as <-.
  unfold append, touch. rewrite E. rewrite E. cbn [need obind]. destruct (t_vals _ _ _ _ F) as (d' & Ed & Es). rewrite Ed. cbn [obind].
  eexists. split; [reflexivity|]. apply (vmap_mset _ _ _ d); [exact E|congruence].
Qed.

(** * Centers *)
Lemma real_total v : exists x, real v = Ok x.
Proof. unfold real. destruct v; cbn; eexists; reflexivity. Qed.
Lemma t_center c e : (forall i, In i e -> i < length (c_vals c)) -> exists m, center c e = Ok m.
Proof.
  intros H. unfold center.
  destruct (for_total (fun _ : spec_float => True) (fun i s => do v <- slot (c_vals c) i; do x <- real v; Ok (dadd s x)) e) with (s := S754_zero false) as (s & E & _).
  - intros i s Hi _. destruct (nth_error (c_vals c) i) as [v|] eqn:N; [|apply nth_error_None in N; specialize (H i Hi); lia].
    unfold slot. rewrite N. cbn [obind]. destruct (real_total v) as [x ->]. cbn [obind]. eauto.
  - exact I.
  - rewrite E. cbn [obind]. destruct (real_total (NI (Z.of_nat (length e)))) as [x ->]. cbn [obind]. eauto.
Qed.
Lemma vmap_set_comp (cs : list (str * col)) i c d : nth_error cs i = Some d -> sk_col (snd d) = sk_col c -> vmap sk_col (set_comp cs i c) = vmap sk_col cs.
Proof.
  intros H E. unfold set_comp. rewrite H. destruct d as [k d]. cbn [snd] in E. revert i H. induction cs as [|p cs IH]; intros i H; [destruct i; discriminate|].
  destruct i as [|i]; cbn in *.
  - injection H as ->. cbn. rewrite E. reflexivity.
  - f_equal. exact (IH i H).
Qed.
Lemma axes_len l : length (axes_of l) <= 3.
Proof.
  unfold axes_of. set (g := has _). assert (Q : forall b, length (filter g b) <= length b) by (induction b; cbn; [lia|]; destruct (g a); cbn; lia).
  destruct (_ || _)%bool; [exact (Q spherical_axes)|]. destruct (g _); [etransitivity; [exact (Q cylindrical_axes)|cbn; lia]|].
  destruct (_ || _)%bool; [exact (Q cartesian_axes)|]. destruct (_ || _)%bool; [exact (Q logical_axes)|]. cbn. lia.
Qed.
Lemma widest_same t l x : numeric t = true -> l <> [] -> Forall (fun u => u = t) l -> widest l x -> x = t.
Proof.
  intros N Ne F [(a & b & -> & _)|[G _]].
  - apply Forall_app in F. destruct F as [_ F]. inversion F. assumption.
  - destruct l; [congruence|]. inversion F. inversion G. congruence.
Qed.
Lemma t_centers t cs tb off NE axes ty : mget (vmap sk tb) ec = Some (inr (map (fun a => (a, (FLOAT64, NE))) axes)) ->
  map fst cs = axes -> axes <> [] -> length axes <= 3 -> numeric ty = true -> Forall (fun c => c_ty (snd c) = ty) cs ->
  (forall c e i, In c cs -> In e (t_elems t) -> In i e -> i < length (c_vals (snd c))) -> off + length (t_elems t) <= NE ->
  exists tb', centers t cs tb off = Ok tb' /\ vmap sk tb' = vmap sk tb.
Proof.
  intros Hk Ka Ne L3 Nt Ty Ix Le. unfold centers. fold ec. rewrite mget_vmap in Hk. destruct (mget tb ec) as [v|] eqn:Ev; [|discriminate].
  injection Hk as Hk. destruct v as [c|out]; [discriminate|]. cbn [sk] in Hk. injection Hk as Hk.
  assert (Lo : length out = length axes) by (apply (f_equal (@length _)) in Hk; unfold vmap in Hk; rewrite !map_length in Hk; exact Hk).
  destruct out as [|o0 out0]; [destruct axes; [congruence|discriminate]|]. remember (o0 :: out0) as out eqn:Eo.
  assert (S0 : slot out 0 = Ok o0) by (subst; reflexivity). rewrite S0. cbn [obind].
  assert (All : forall i p, nth_error out i = Some p -> sk_col (snd p) = (FLOAT64, NE)).
  { intros i p Hp. assert (X : nth_error (vmap sk_col out) i = Some (fst p, sk_col (snd p))) by (unfold vmap; rewrite nth_error_map, Hp; reflexivity).
    rewrite Hk, nth_error_map in X. destruct (nth_error axes i); [|discriminate]. cbn in X. congruence. }
  assert (T0 : is_float (c_ty (snd o0)) = true) by (pose proof (All 0 o0 ltac:(subst; reflexivity)) as X; unfold sk_col in X; injection X as -> _; reflexivity).
  rewrite T0. cbn [negb]. cbv zeta.
  assert (Et : elem_type (map (fun c => c_ty (snd c)) cs) = ty).
  { apply (widest_same ty (map (fun c => c_ty (snd c)) cs)); [exact Nt| | |apply elem_type_widest].
    - intros E. apply Ne. rewrite <- Ka. destruct cs; [reflexivity|discriminate].
    - rewrite Forall_map. exact Ty. }
  rewrite Et. assert (Fb : forallb (fun c : str * col => if tid_eq_dec (c_ty (snd c)) ty then true else false) cs = true).
  { apply forallb_forall. intros c Hc. rewrite Forall_forall in Ty. rewrite (Ty c Hc). destruct (tid_eq_dec ty ty); congruence. }
  rewrite Fb. cbn [negb]. assert (Lc : length cs = length axes) by (rewrite <- Ka; symmetry; apply map_length).
  destruct (Nat.ltb 3 (length cs)) eqn:E3; [apply Nat.ltb_lt in E3; lia|].
  match goal with |- exists tb', obind (for_ ?l ?b ?s) _ = _ /\ _ => assert (X : exists out', for_ l b s = Ok out' /\ vmap sk_col out' = vmap sk_col out); [apply (for_total (fun o1 => vmap sk_col o1 = vmap sk_col out) b l)|destruct X as (out' & E & Es)] end.
  - intros i o1 Hi Ho. apply in_seq in Hi. destruct (nth_error cs i) as [c|] eqn:Ec; [|apply nth_error_None in Ec; lia].
    assert (L1 : length o1 = length out) by (apply (f_equal (@length _)) in Ho; unfold vmap in Ho; rewrite !map_length in Ho; exact Ho).
    destruct (nth_error o1 i) as [d|] eqn:Ed; [|apply nth_error_None in Ed; lia]. unfold slot. rewrite Ec, Ed. cbn [obind].
    assert (Kd : sk_col (snd d) = (FLOAT64, NE)).
    { assert (X : nth_error (vmap sk_col o1) i = Some (fst d, sk_col (snd d))) by (unfold vmap; rewrite nth_error_map, Ed; reflexivity).
      rewrite Ho in X. unfold vmap in X. rewrite nth_error_map in X. destruct (nth_error out i) as [p|] eqn:Ep; [|discriminate]. cbn in X.
      rewrite <- (All i p Ep). congruence. }
    destruct (omapM_total (center (snd c)) (t_elems t)) as (ws & Ew & Lw).
    { intros e He. apply t_center. intros j Hj. exact (Ix c e j (nth_error_In _ _ Ec) He Hj). }
    rewrite Ew. cbn [obind]. unfold sk_col in Kd. injection Kd as Kt Kl. rewrite Kt. destruct (tid_eq_dec FLOAT64 FLOAT64); [|congruence].
    unfold overwrite. destruct (Nat.ltb (length (c_vals (snd d))) (off + length ws)) eqn:Eb; [apply Nat.ltb_lt in Eb; lia|]. cbn [obind]. eexists. split; [reflexivity|].
    rewrite <- Ho. apply (vmap_set_comp _ _ _ d Ed). symmetry. apply splice_sk. apply Nat.ltb_ge in Eb. exact Eb.
  - reflexivity.
  - rewrite E. cbn [obind]. eexists. split; [reflexivity|]. apply (vmap_mset _ _ _ (VMc out)); [exact Ev|]. cbn [sk]. congruence.
Qed.

(** * Ids *)
Lemma t_range tb n off zs N : mget (vmap sk tb) n = Some (inl (INT64, N)) -> off + length zs <= N ->
  exists tb', set_range tb n off zs = Ok tb' /\ vmap sk tb' = vmap sk tb.
Proof.
  rewrite mget_vmap. intros H Le. unfold set_range. destruct (mget tb n) as [[c|]|] eqn:E; try discriminate H. cbn [sk] in H. unfold sk_col in H. injection H as Ht Hl.
  rewrite Ht. cbn [numeric is_int is_float orb negb]. change (numeric INT64) with true. cbn [negb].
  destruct (omapM_total (fun z => cast INT64 (NI z)) zs) as (ws & Ew & Lw); [intros z _; eexists; reflexivity|].
  rewrite Ew. cbn [obind]. unfold overwrite. destruct (Nat.ltb _ _) eqn:Eb; [apply Nat.ltb_lt in Eb; lia|]. cbn [obind]. eexists. split; [reflexivity|].
  apply (vmap_mset _ _ _ (VArr c)); [exact E|]. cbn [sk]. f_equal. symmetry. apply splice_sk. apply Nat.ltb_ge in Eb. exact Eb.
Qed.
Lemma t_ids tb ids off n id N : off + n <= N ->
  (In ids (map fst tb) -> mget (vmap sk tb) ids = Some (inl (INT64, N)) /\ mget (vmap sk tb) (L "domain_id") = Some (inl (INT64, N))) ->
  exists tb', set_ids tb ids off n id = Ok tb' /\ vmap sk tb' = vmap sk tb.
Proof.
  intros Le H. unfold set_ids. destruct (mget tb (L "domain_id")) as [v|] eqn:Ed; [|eauto]. destruct (mget tb ids) as [w|] eqn:Ei; [|eauto].
  destruct (H (mget_key _ _ _ Ei)) as [H1 H2]. destruct (t_range tb _ off (repeat id n) N H2) as (tb1 & E1 & S1); [rewrite repeat_length; exact Le|].
  rewrite E1. cbn [obind]. rewrite <- S1 in H1. destruct (t_range tb1 ids off (map Z.of_nat (seq 0 n)) N H1) as (tb2 & E2 & S2); [rewrite map_length, seq_length; exact Le|].
  exists tb2. split; [exact E2|congruence].
Qed.

(** * What is found *)
Lemma vmap_keys {A B} (f : A -> B) m : map fst (vmap f m) = map fst m.
Proof. unfold vmap. rewrite map_map. reflexivity. Qed.
Lemma topo_get o d t : topo_of o d = Some t -> get_topo o d = Ok t.
Proof.
  unfold get_topo, topo_of. destruct (o_topo o) as [|x n].
  - destruct (d_topos d); cbn; congruence.
  - destruct (mget (d_topos d) (x :: n)); [|discriminate]. cbn. intros H. injection H as <-. reflexivity.
Qed.
Lemma cset_get o d c : cset_of o d = Some c -> get_cset o d = Ok c.
Proof.
  unfold get_cset, cset_of. destruct (topo_of o d) as [[tn t]|] eqn:E; [|discriminate]. rewrite (topo_get _ _ _ E). cbn [obind snd].
  destruct (mget _ _); [|discriminate]. cbn. intros H. injection H as <-. reflexivity.
Qed.
Lemma cs_length_total o axes d c : axes <> [] -> axes_of axes = axes -> regular o axes d -> cset_of o d = Some c -> cs_length (snd c) = Ok (verts o d).
Proof.
  intros Ne Ca Rg E. assert (V : cs_values (snd c) = coords o d) by (unfold coords; rewrite E; destruct c; reflexivity).
  assert (X : exists n, cs_length (snd c) = Ok n).
  { unfold cs_length, cs_axes. rewrite V. destruct Rg as [K _]. rewrite K, Ca.
    destruct (for_total (fun _ : nat => True) (fun a _ => do v <- need (mget (coords o d) a); Ok (length (c_vals v))) axes) with (s := 1) as (n & En & _); [|exact I|eauto].
    intros a s Ha _. rewrite <- K in Ha. destruct (key_mget _ _ Ha) as [v Hv]. rewrite Hv. cbn. eauto. }
  destruct X as [n Hn]. destruct (cs_length_of _ _ _ _ _ Ne Ca Rg (cset_get _ _ _ E) Hn) as [-> _]. exact Hn.
Qed.
Lemma fresh_total o t n : numeric t = true -> exists c, fresh o t n = Ok c.
Proof.
  intros N. unfold fresh, fill. unfold numeric in N. destruct (is_float t) eqn:Ef.
  - destruct (o_float o); cbn [cast]; rewrite ?Ef; cbn [obind]; eauto.
  - rewrite Bool.orb_false_r in N. rewrite N. destruct (Z.eqb _ _); cbn [obind cast]; eauto.
Qed.
Lemma alloc_comp_total o n N ty l tb : numeric ty = true -> exists tb', for_ l (alloc_comp o n N ty) tb = Ok tb'.
Proof.
  intros Nt. destruct (for_total (fun _ : table => True) (alloc_comp o n N ty) l) with (s := tb) as (tb' & E & _); [|exact I|eauto].
  intros a s _ _. unfold alloc_comp. destruct (fresh_total o ty N Nt) as [c ->]. cbn. eauto.
Qed.
Lemma firsts_in n l : In n (firsts l) -> In n l.
Proof.
  unfold firsts. change (fun acc n => if existsb (str_eqb n) acc then acc else acc ++ [n]) with first_step.
  assert (G : forall l acc, In n (fold_left first_step l acc) -> In n acc \/ In n l).
  { clear. induction l as [|m l IH]; intros acc H; [left; exact H|]. cbn [fold_left] in H. destruct (IH _ H) as [X|X]; [|right; right; exact X].
    unfold first_step in X. destruct (existsb _ acc); [left; exact X|]. apply in_app_or in X. destruct X as [X|[<-|[]]]; [left; exact X|right; left; reflexivity]. }
  intros H. destruct (G _ _ H) as [[]|X]. exact X.
Qed.
Lemma chosen_in o tn ds n : In n (chosen o tn ds) -> exists d f, In d ds /\ field_of d n = Some f.
Proof.
  unfold chosen. destruct (o_names o) as [|n0 ns].
  - intros H. apply firsts_in, in_concat in H. destruct H as (l & Hl & Hn). apply in_map_iff in Hl. destruct Hl as (d & <- & Hd).
    apply in_map_iff in Hn. destruct Hn as (nf & <- & Hf). apply filter_In in Hf. destruct Hf as [Hf _].
    destruct (key_mget (fields_of d) (fst nf) (in_map fst _ _ Hf)) as [f Hg]. exists d, f. auto.
  - intros H. apply filter_In in H. destruct H as [_ H]. apply existsb_exists in H. destruct H as (d & Hd & Hf). destruct (field_of d n) as [f|] eqn:E; [eauto|discriminate].
Qed.
Lemma mget_in {V} (m : list (str * V)) k v : mget m k = Some v -> In (k, v) m.
Proof. intros H. destruct (mget_nth _ _ _ H) as [i Hi]. exact (nth_error_In _ _ Hi). Qed.

Section Total.
Variables (o : opts) (tn cs : str) (axes : list str) (ds : list dom).
Hypothesis F : fits o tn cs axes ds.
Hypothesis Wh : whole o tn ds.
Lemma dom_found d : In d ds -> exists t c, topo_of o d = Some t /\ cset_of o d = Some c.
Proof.
  intros Hd. destruct (good _ _ _ _ _ F d Hd) as [[K _] _]. destruct F as [_ [Ne _] _ _ _ _ _]. unfold coords in K.
  destruct (cset_of o d) as [c|] eqn:Ec; [|cbn in K; congruence]. unfold cset_of in Ec. destruct (topo_of o d) as [[n t]|]; [|discriminate]. eauto.
Qed.
Lemma supported_total d n f : In d ds -> In (n, f) (fields_of d) -> exists b, supported true tn f = Ok b.
Proof.
  intros Hd Hf. unfold supported. destruct (wh_place _ _ _ Wh d n f Hd Hf) as [X|X].
  - destruct (f_topo f); [eauto|congruence].
  - rewrite X. destruct (f_topo f); eauto.
Qed.
Lemma t_fields : exists names, fields_to_flatten o tn ds = Ok names.
Proof.
  unfold fields_to_flatten. destruct (o_names o) as [|n0 ns].
  - destruct (for_total (fun _ : list str => True) (fun d acc =>
        do fs <- need (d_fields d);
        for_ fs (fun nf acc =>
          if existsb (str_eqb (fst nf)) acc then Ok acc
          else do b <- supported true tn (snd nf); Ok (if b then acc ++ [fst nf] else acc)) acc) ds) with (s := @nil str) as (r & E & _); [|exact I|eauto].
    intros d acc Hd _. pose proof (wh_fields _ _ _ Wh d Hd) as Nf. destruct (d_fields d) as [fs|] eqn:Ef; [|congruence]. cbn [need obind].
    match goal with |- exists s', for_ ?l ?b ?s = _ /\ _ => apply (for_total (fun _ : list str => True) b l) end; [|exact I].
    intros [n f] acc1 Hn _. cbn [fst snd]. destruct (existsb _ _); [eauto|].
    destruct (supported_total d n f Hd) as [b Hb]; [unfold fields_of; rewrite Ef; exact Hn|]. rewrite Hb. cbn. eauto.
  - destruct (for_total (fun _ : list str => True) (fun n acc => do b <- find_named tn ds n; Ok (if b then acc ++ [n] else acc)) (n0 :: ns)) with (s := @nil str) as (r & E & _); [|exact I|eauto].
    intros n acc _ _. assert (G : exists b, find_named tn ds n = Ok b).
    { pose proof supported_total as Sp. clear F Wh. revert Sp. induction ds as [|d ds' IH]; intros Sp; [eexists; reflexivity|]. cbn [find_named].
      destruct (mget (fields_list d) n) as [f|] eqn:Ef; [|exact (IH (fun d' n' f' H => Sp d' n' f' (or_intror H)))].
      destruct (Sp d n f (or_introl eq_refl) (mget_in _ _ _ Ef)) as [b Hb]. rewrite Hb. cbn [obind]. destruct b; [eauto|].
      exact (IH (fun d' n' f' H => Sp d' n' f' (or_intror H))). }
    destruct G as [b ->]. cbn. eauto.
Qed.
Lemma t_reference n : exists r, reference tn ds n = Ok r.
Proof.
  pose proof (wh_fields _ _ _ Wh) as Nf. clear F Wh. induction ds as [|d ds' IH]; [eexists; reflexivity|]. cbn [reference].
  pose proof (Nf d (or_introl eq_refl)) as N. destruct (d_fields d) as [fs|]; [|congruence]. cbn [need obind].
  assert (R : exists r, reference tn ds' n = Ok r) by (apply IH; intros d' H; apply Nf; right; exact H).
  destruct (mget fs n) as [f|]; [|exact R]. unfold supported. destruct (f_topo f); [|destruct (f_matset f); cbn; exact R].
  cbn [obind]. destruct (_ && _)%bool; [eauto|exact R].
Qed.
Lemma t_allocate nv ne s : exists s', allocate o tn ds (chosen o tn ds) nv ne s = Ok s'.
Proof.
  unfold allocate. match goal with |- exists s', for_ ?l ?b ?s = _ => destruct (for_total (fun _ : table * table => True) b l) with (s := s) as (r & E & _); [|exact I|eauto] end.
  intros n s1 Hn _. destruct (t_reference n) as [r Hr]. rewrite Hr. cbn [obind].
  apply reference_first in Hr; [|intros d f Hd Hf; exact (proj1 (fit_fields _ _ _ _ _ F n d f Hn Hd Hf))].
  destruct (chosen_in _ _ _ _ Hn) as (d & f & Hd & Hf). destruct (first_field_some _ _ _ _ Hd Hf) as [g Hg]. subst r. rewrite Hg. cbn [need obind].
  destruct (first_field_in _ _ _ Hg) as (d' & Hd' & Hf').
  assert (Nt : numeric (elem_type (leaves_of (f_vals g))) = true) by exact (widest_numeric _ _ (elem_type_widest _)).
  assert (Al : forall tb N, exists tb', alloc_as o tb n N (elem_type (leaves_of (f_vals g))) (f_vals g) = Ok tb').
  { intros tb N. unfold alloc_as. destruct (f_vals g) as [c|l] eqn:Ev.
    - unfold alloc. destruct (fresh_total o (elem_type (leaves_of (VArr c))) N Nt) as [x ->]. cbn. eauto.
    - apply alloc_comp_total. exact Nt. }
  destruct (wh_assoc _ _ _ Wh n d' g Hn Hd' Hf') as [As|As]; rewrite As; cbn [need obind]; cbv zeta.
  - rewrite str_eqb_refl. destruct (Al (fst s1) nv) as [tb ->]. cbn. eauto.
  - change (str_eqb (L "element") (L "vertex")) with false. cbn iota. rewrite str_eqb_refl. destruct (Al (snd s1) ne) as [tb ->]. cbn. eauto.
Qed.
Lemma t_prepare : exists p, prepare o ds = Ok p.
Proof.
  destruct F as [Ft [Ax1 Ax2] Fc _ _ _ _]. unfold prepare.
  destruct Ft as (d0 & H0 & (t0 & Ht0) & (c0 & Hc0)). destruct ds as [|d0' ds'] eqn:Ed; [discriminate|]. injection H0 as ->. rewrite <- Ed in *.
  assert (C : exists i, collect o ds = Ok i).
  { unfold collect. destruct (omapM_total (sizes o) ds) as (ss & Es & _).
    - intros d Hd. destruct (dom_found d Hd) as (t & c & Ht & Hc). unfold sizes. rewrite (topo_get _ _ _ Ht), (cset_get _ _ _ Hc). cbn [obind].
      rewrite Forall_forall in Fc. rewrite (cs_length_total o axes d c Ax1 Ax2 (Fc d Hd) Hc). cbn. eauto.
    - rewrite Es. cbn [obind]. rewrite Ed. rewrite (cset_get _ _ _ Hc0). cbn. eauto. }
  destruct C as [i Ci]. rewrite Ci. cbn [obind]. cbv zeta.
  destruct (collect_ok _ _ _ _ Ax1 Ax2 Fc Ci) as (_ & _ & _ & _ & _ & d1 & c1 & _ & _ & Ty).
  assert (Nt : numeric (i_type i) = true) by (rewrite Ty; exact (widest_numeric _ _ (elem_type_widest _))).
  destruct (alloc_comp_total o (i_cset i) (list_sum (i_verts i)) (i_type i) (i_axes i) [] Nt) as [v1 E1].
  destruct (alloc_comp_total o (L "element_centers") (list_sum (i_elems i)) FLOAT64 (i_axes i) [] eq_refl) as [v2 E2].
  assert (P1 : exists vt, (if o_verts o then for_ (i_axes i) (alloc_comp o (i_cset i) (list_sum (i_verts i)) (i_type i)) [] else Ok []) = Ok vt) by (destruct (o_verts o); eauto).
  assert (P2 : exists et, (if o_centers o then for_ (i_axes i) (alloc_comp o (L "element_centers") (list_sum (i_elems i)) FLOAT64) [] else Ok []) = Ok et) by (destruct (o_centers o); eauto).
  destruct P1 as [vt ->]. destruct P2 as [et ->]. cbn [obind]. 
  destruct t_fields as [names Hn]. pose proof (fields_chosen _ _ _ _ Hn) as En. subst names.
  destruct (t_allocate (list_sum (i_verts i)) (list_sum (i_elems i)) (vt, et)) as [s1 A1].
  assert (Ad : forall tb ids N, exists tb', add_ids o tb ids N = Ok tb').
  { intros tb ids N. unfold add_ids, alloc. destruct (_ && _)%bool; [|eauto]. destruct (fresh_total o INT64 N eq_refl) as [c ->]. cbn. eauto. }
  destruct (Ad (fst s1) (L "vertex_id") (list_sum (i_verts i))) as [v3 A3]. destruct (Ad (snd s1) (L "element_id") (list_sum (i_elems i))) as [v4 A4].
  rewrite (topo_get _ _ _ Ht0). rewrite Ed in *. cbn [obind fst]. rewrite Hn. cbn [obind]. rewrite A1. cbn [obind]. rewrite A3. cbn [obind]. rewrite A4. cbn. eauto.
Qed.

(** * The tables as they are allocated *)
Variables (s0 : table * table) (ids : list Z).
Hypothesis P : prep o tn cs axes ds s0 ids.
Lemma made_sk t N c : made o t N (Some c) -> sk_col c = (t, N).
Proof. intros (v & _ & H). injection H as ->. unfold sk_col. cbn. rewrite repeat_length. reflexivity. Qed.
Lemma made_none t N : ~ made o t N None.
Proof. intros (v & _ & H). discriminate H. Qed.
Lemma column_mc tb n a t N : made o t N (column tb n (Some a)) -> exists ks, mget (vmap sk tb) n = Some (inr ks) /\ mget ks a = Some (t, N).
Proof.
  unfold column. rewrite mget_vmap. destruct (mget tb n) as [[c|l]|]; cbn [part]; intros H; [destruct (made_none _ _ H)| |destruct (made_none _ _ H)].
  destruct (mget l a) as [c|] eqn:E; [|destruct (made_none _ _ H)]. exists (vmap sk_col l). split; [reflexivity|]. rewrite mget_vmap, E. f_equal. exact (made_sk _ _ _ H).
Qed.
Lemma column_arr tb n t N : made o t N (column tb n None) -> mget (vmap sk tb) n = Some (inl (t, N)).
Proof.
  unfold column. rewrite mget_vmap. destruct (mget tb n) as [[c|l]|]; cbn [part]; intros H; [|destruct (made_none _ _ H)|destruct (made_none _ _ H)].
  cbn [sk]. do 2 f_equal. exact (made_sk _ _ _ H).
Qed.
Lemma ready_fit l n c k off N : k = (elem_type l, N) -> ready l n c -> off + n <= N -> fitcol k off n c.
Proof.
  intros -> (H1 & H2 & H3) Le. unfold fitcol. cbn [fst snd]. split; [exact Le|]. split; [exact (widest_numeric _ _ (elem_type_widest l))|].
  split; [exact H1|]. split; [exact H2|]. apply H3. apply elem_type_widest.
Qed.
Lemma k_coords d off : In d ds -> o_verts o = true -> off + verts o d <= total (verts o) ds ->
  exists k, mget (vmap sk (fst s0)) cs = Some k /\ fitvals k off (verts o d) (VMc (coords o d)).
Proof.
  intros Hd Ov Le. pose proof (pr_coords _ _ _ _ _ _ _ P Ov) as Pc. destruct F as [_ [Ax1 _] Fc _ _ _ _].
  destruct axes as [|a0 ax] eqn:Ea; [congruence|]. rewrite <- Ea in *.
  destruct (column_mc _ _ _ _ _ (Pc a0 ltac:(rewrite Ea; left; reflexivity))) as (ks & Hk & _). exists (inr ks). split; [exact Hk|].
  assert (G : forall a c, In (a, c) (coords o d) -> exists k, mget ks a = Some k /\ fitcol k off (verts o d) c).
  { intros a c Hc. rewrite Forall_forall in Fc. destruct (Fc d Hd) as [Kd _]. assert (Ha : In a axes) by (rewrite <- Kd; exact (in_map fst _ _ Hc)).
    destruct (column_mc _ _ _ _ _ (Pc a Ha)) as (ks' & Hk' & Hg). rewrite Hk in Hk'. injection Hk' as <-.
    eexists. split; [exact Hg|]. apply (ready_fit _ _ _ _ _ _ eq_refl (wh_coords _ _ _ Wh d a c Hd Hc) Le). }
  cbn [fitvals]. destruct (coords o d); [exact I|exact G].
Qed.
Lemma k_field tb size a n d f off : a = vx /\ size = verts o /\ tb = fst s0 \/ a = el /\ size = elems o /\ tb = snd s0 ->
  In n (chosen o tn ds) -> In d ds -> field_of d n = Some f -> f_assoc f = Some a -> off + size d <= total size ds ->
  exists k, mget (vmap sk tb) n = Some k /\ fitvals k off (size d) (f_vals f).
Proof.
  intros C Hn Hd Hf Ha Le. destruct (first_field_some _ _ _ _ Hd Hf) as [g Hg].
  destruct (fit_fields _ _ _ _ _ F n d f Hn Hd Hf) as (_ & As & _). specialize (As g Hg).
  pose proof (wh_values _ _ _ Wh n d f g Hn Hd Hf Hg) as V.
  destruct (good _ _ _ _ _ F d Hd) as [_ Kn]. rewrite Forall_forall in Kn. specialize (Kn n Hn f Hf). destruct Kn as (Kv & Ke & _).
  assert (Sz : size_by o f d = size d).
  { unfold size_by. rewrite Ha. destruct C as [(-> & -> & _)|(-> & -> & _)]; reflexivity. }
  assert (M : forall b c, part (f_vals g) b = Some c -> made o (elem_type (leaves_of (f_vals g))) (total size ds) (column tb n b)).
  { destruct (pr_fields _ _ _ _ _ _ _ P n g Hn Hg) as [Mv Me]. destruct C as [(-> & -> & ->)|(-> & -> & ->)]; [apply Mv|apply Me]; congruence. }
  assert (Some0 : exists k, mget (vmap sk tb) n = Some k).
  { apply key_mget. rewrite vmap_keys. destruct (pr_shape _ _ _ _ _ _ _ P) as (S1 & S2 & _).
    destruct C as [(-> & -> & ->)|(-> & -> & ->)]; [rewrite S1; apply Kv; exact Ha|rewrite S2; apply Ke; exact Ha]. }
  rewrite Sz in V. destruct (f_vals f) as [c|l]; destruct (f_vals g) as [c'|l'] eqn:Eg; try contradiction.
  - exists (inl (elem_type (leaves_of (VArr c')), total size ds)). split; [exact (column_arr _ _ _ _ (M None c' eq_refl))|].
    exact (ready_fit _ _ _ _ _ _ eq_refl V Le).
  - destruct Some0 as [k Hk]. exists k. split; [exact Hk|].
    assert (G : forall b c, In (b, c) l -> exists ks q, k = inr ks /\ mget ks b = Some q /\ fitcol q off (size d) c).
    { intros b c Hc. destruct (V b c Hc) as [Hb R]. destruct (key_mget _ _ Hb) as [c1 Hc1].
      destruct (column_mc _ _ _ _ _ (M (Some b) c1 Hc1)) as (ks & Hk' & Hq). rewrite Hk in Hk'. injection Hk' as ->.
      exists ks. eexists. split; [reflexivity|]. split; [exact Hq|]. exact (ready_fit _ _ _ _ _ _ eq_refl R Le). }
    destruct l as [|[b0 c0] l]; [exact I|]. cbn [fitvals]. destruct (G b0 c0 (or_introl eq_refl)) as (ks & _ & -> & _).
    intros b c Hc. destruct (G b c Hc) as (ks' & q & E & H). injection E as <-. exists q. exact H.
Qed.
Lemma k_centers : o_centers o = true -> mget (vmap sk (snd s0)) ec = Some (inr (map (fun a => (a, (FLOAT64, total (elems o) ds))) axes)).
Proof.
  intros Oc. destruct (pr_shape _ _ _ _ _ _ _ P) as (_ & _ & _ & Ck). destruct (Ck Oc) as (out & H1 & H2).
  rewrite mget_vmap, H1. cbn [sk]. do 2 f_equal. pose proof (pr_centers _ _ _ _ _ _ _ P Oc) as Pc.
  assert (ND : NoDup axes) by (destruct F as [_ [_ Ax2] _ _ _ _ _]; rewrite <- Ax2; apply nodup_axes).
  assert (G : forall a c, In (a, c) out -> sk_col c = (FLOAT64, total (elems o) ds)).
  { intros a c Hc. assert (Ha : In a axes) by (rewrite <- H2; exact (in_map fst _ _ Hc)). specialize (Pc a Ha). unfold column in Pc. rewrite H1 in Pc. cbn [part] in Pc.
    assert (Em : mget out a = Some c).
    { rewrite <- H2 in ND. clear -ND Hc. induction out as [|[k v] out IH]; [destruct Hc|]. cbn. inversion ND as [|? ? Hx ND']; subst. destruct Hc as [E|Hc].
      - injection E as -> ->. rewrite str_eqb_refl. reflexivity.
      - destruct (str_eqb a k) eqn:E; [|exact (IH ND' Hc)]. apply str_eqb_eq in E. subst k. destruct Hx. exact (in_map fst _ _ Hc). }
    rewrite Em in Pc. exact (made_sk _ _ _ Pc). }
  rewrite <- H2. unfold vmap. rewrite map_map. apply map_ext_in. intros [a c] Hc. cbn [fst snd]. rewrite (G a c Hc). reflexivity.
Qed.

Definition kept (s : table * table) : Prop := vmap sk (fst s) = vmap sk (fst s0) /\ vmap sk (snd s) = vmap sk (snd s0).
Lemma t_single d id voff eoff s : In d ds -> kept s -> voff + verts o d <= total (verts o) ds -> eoff + elems o d <= total (elems o) ds ->
  exists s', single o (chosen o tn ds) d id voff eoff s = Ok s' /\ kept s'.
Proof.
  intros Hd [Kv Ke] Lv Le. destruct s as [vt et]. cbn [fst snd] in Kv, Ke. unfold single.
  destruct (dom_found d Hd) as (t & c & Ht & Hc). rewrite (topo_get _ _ _ Ht), (cset_get _ _ _ Hc). cbn [obind]. cbv zeta.
  destruct (good _ _ _ _ _ F d Hd) as [Rg _]. pose proof (fit_axes _ _ _ _ _ F) as [Ax1 Ax2].
  rewrite (cs_length_total o axes d c Ax1 Ax2 Rg Hc). cbn [obind].
  assert (Vc : cs_values (snd c) = coords o d) by (unfold coords; rewrite Hc; destruct c; reflexivity).
  assert (Vt : t_elems (snd t) = cells o d) by (unfold cells; rewrite Ht; destruct t; reflexivity).
  assert (Vn : topo_length (snd t) = elems o d) by (unfold topo_length; rewrite Vt; reflexivity).
  rewrite Vc, Vn. destruct (pr_shape _ _ _ _ _ _ _ P) as (S1 & S2 & S3 & _).
  assert (Q1 : exists vt1, (if o_verts o then match vt with [] => UB | (k, v) :: _ => do v' <- append_vals (VMc (coords o d)) v voff (verts o d); Ok (mset vt k v') end else Ok vt) = Ok vt1
     /\ vmap sk vt1 = vmap sk (fst s0)).
  { destruct (o_verts o) eqn:Ov; [|eauto]. assert (Hh : hd_error (map fst vt) = Some cs).
    { rewrite <- (S3 eq_refl), <- S1, <- (vmap_keys sk vt), Kv, vmap_keys. reflexivity. }
    destruct vt as [|[k v] vt']; [discriminate|]. cbn in Hh. injection Hh as ->.
    destruct (k_coords d voff Hd Ov Lv) as (q & Hq & Fq). rewrite <- Kv, mget_vmap in Hq. cbn [mget] in Hq. rewrite str_eqb_refl in Hq. injection Hq as <-.
    destruct (t_vals _ _ _ _ Fq) as (v' & Ev & Es). rewrite Ev. cbn [obind]. eexists. split; [reflexivity|]. rewrite <- Kv.
    apply (vmap_mset _ _ _ v); [cbn; rewrite str_eqb_refl; reflexivity|congruence]. }
  destruct Q1 as (vt1 & E1 & K1). rewrite E1. cbn [obind].
  assert (Q2 : exists et1, (if o_centers o then centers (snd t) (coords o d) et eoff else Ok et) = Ok et1 /\ vmap sk et1 = vmap sk (snd s0)).
  { destruct (o_centers o) eqn:Oc; [|eauto]. pose proof (k_centers Oc) as Kc. rewrite <- Ke in Kc. destruct Rg as [Kd Ld].
    assert (Ty : exists ty, numeric ty = true /\ Forall (fun c => c_ty (snd c) = ty) (coords o d)).
    { destruct (coords o d) as [|[a0 c0] l] eqn:El; [cbn in Kd; congruence|]. exists (c_ty c0). split.
      - destruct (wh_coords _ _ _ Wh d a0 c0 Hd) as (N & _); [rewrite El; left; reflexivity|exact N].
      - rewrite Forall_forall. intros x Hx. apply (wh_same _ _ _ Wh d x (a0, c0) Hd Oc); rewrite El; [exact Hx|left; reflexivity]. }
    destruct Ty as (ty & Nt & Fty).
    destruct (t_centers (snd t) (coords o d) et eoff (total (elems o) ds) axes ty Kc Kd Ax1) as (et1 & Ee & Es); [rewrite <- Ax2; apply axes_len|exact Nt|exact Fty| | |].
    - intros c1 e i Hc1 He Hi. rewrite Forall_forall in Ld. rewrite (Ld c1 Hc1). rewrite Vt in He. exact (wh_cells _ _ _ Wh d e i Hd He Hi).
    - rewrite Vt. exact Le.
    - rewrite Ee. eexists. split; [reflexivity|congruence]. }
  destruct Q2 as (et1 & E2 & K2). rewrite E2. cbn [obind].
  destruct (t_ids vt1 (L "vertex_id") voff (verts o d) id (total (verts o) ds) Lv) as (vt2 & E3 & K3).
  { rewrite K1, <- (vmap_keys sk vt1), K1, vmap_keys, S1. intros Hi. destruct (pr_vid _ _ _ _ _ _ _ P Hi) as [M1 M2]. split; apply column_arr; assumption. }
  rewrite E3. cbn [obind].
  destruct (t_ids et1 (L "element_id") eoff (elems o d) id (total (elems o) ds) Le) as (et2 & E4 & K4).
  { rewrite K2, <- (vmap_keys sk et1), K2, vmap_keys, S2. intros Hi. destruct (pr_eid _ _ _ _ _ _ _ P Hi) as [M1 M2]. split; apply column_arr; assumption. }
  rewrite E4. cbn [obind]. pose proof (wh_fields _ _ _ Wh d Hd) as Nf. destruct (d_fields d) as [fs|] eqn:Ef; [|congruence]. cbn [need obind].
  match goal with |- exists s', for_ ?l ?b ?s = _ /\ _ => apply (for_total kept b l) end; [|split; cbn [fst snd]; congruence].
  intros n s Hn [Ks1 Ks2]. destruct (mget fs n) as [f|] eqn:Eg; [|exists s; split; [reflexivity|split; assumption]].
  assert (Hf : field_of d n = Some f) by (unfold field_of, fields_of; rewrite Ef; exact Eg).
  destruct (wh_assoc _ _ _ Wh n d f Hn Hd Hf) as [As|As]; rewrite As; cbn [need obind].
  - rewrite str_eqb_refl. destruct (k_field (fst s0) (verts o) vx n d f voff) as (k & Hk & Fk); [left; auto|assumption..|].
    rewrite <- Ks1 in Hk. destruct (t_append _ _ _ _ _ _ Hk Fk) as (tb' & Ea & Es). rewrite Ea. cbn [obind]. eexists. split; [reflexivity|]. split; cbn [fst snd]; congruence.
  - change (str_eqb (L "element") (L "vertex")) with false. cbn iota. rewrite str_eqb_refl.
    destruct (k_field (snd s0) (elems o) el n d f eoff) as (k & Hk & Fk); [right; auto|assumption..|].
    rewrite <- Ks2 in Hk. destruct (t_append _ _ _ _ _ _ Hk Fk) as (tb' & Ea & Es). rewrite Ea. cbn [obind]. eexists. split; [reflexivity|]. split; cbn [fst snd]; congruence.
Qed.
Lemma t_domains : forall l is voff eoff s, incl l ds -> kept s -> voff + total (verts o) l <= total (verts o) ds -> eoff + total (elems o) l <= total (elems o) ds ->
  exists s', domains o (chosen o tn ds) l is (map (verts o) l) (map (elems o) l) voff eoff s = Ok s'.
Proof.
  induction l as [|d l IH]; intros is voff eoff s Hi Hk Lv Le; [eexists; reflexivity|]. cbn [map domains]. destruct is as [|id is]; [eexists; reflexivity|].
  unfold total in Lv, Le. cbn [map list_sum fold_right] in Lv, Le. fold (list_sum (map (verts o) l)) (total (verts o) l) in Lv. fold (list_sum (map (elems o) l)) (total (elems o) l) in Le.
  fold (total (verts o) ds) in Lv. fold (total (elems o) ds) in Le.
  destruct (t_single d id voff eoff s) as (s1 & E & K1); [apply Hi; left; reflexivity|exact Hk|lia|lia|]. rewrite E. cbn [obind].
  apply IH; [intros x Hx; apply Hi; right; exact Hx|exact K1|lia|lia].
Qed.
End Total.

Lemma flat_total o tn cs axes ds : fits o tn cs axes ds -> whole o tn ds -> exists s, flatten o ds = Ok s.
Proof.
  intros F W. destruct (t_prepare _ _ _ _ _ F W) as [[[i names] s0] Ep]. rewrite flatten_prepare, Ep. cbn [obind fst snd].
  destruct (prepare_prep _ _ _ _ _ _ _ _ F Ep) as (-> & Iv & Ie & P). rewrite Iv, Ie.
  apply (t_domains _ _ _ _ _ F W s0 _ P); [apply incl_refl|split; reflexivity|lia|lia].
Qed.
