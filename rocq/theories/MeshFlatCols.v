(** Lemmas for C65: the columns when all domains have been read. *)
From Coq Require Import ZArith Floats.SpecFloat Lia List.
From Verif Require Import Base DType SpecTree Mem Node Number ArrayOps Json B64Json ValueJson ArrayOpsFacts NumConv FloatText MeshConv MeshFlat MeshFlatSpec MeshFlatFacts MeshFlatSingle MeshFlatRun MeshFlatAlloc MeshFlatMain.
Import ListNotations.

Lemma first_field_some ds n d f : In d ds -> field_of d n = Some f -> exists g, first_field ds n = Some g.
Proof.
  induction ds as [|d' ds IH]; [intros []|]. intros I E. cbn [first_field]. destruct (field_of d' n) as [g|] eqn:X; [eauto|].
  destruct I as [->|I]; [congruence|]. exact (IH I E).
Qed.
Lemma good o tn cs axes ds : fits o tn cs axes ds -> forall d, In d ds ->
  regular o axes d /\ Forall (known d (kv o tn cs ds) (ke o tn ds)) (chosen o tn ds).
Proof.
  intros [_ _ Fc _ _ _ Ff] d Hd. split; [rewrite Forall_forall in Fc; exact (Fc d Hd)|]. rewrite Forall_forall. intros n Hn f Hf.
  destruct (Ff n d f Hn Hd Hf) as (_ & Fa & Fk). destruct (first_field_some _ _ _ _ Hd Hf) as [g Hg]. specialize (Fa g Hg).
  split; [|split; [|exact Fk]].
  - intros E. apply in_id_columns. apply in_or_app. right. apply filter_In. split; [exact Hn|]. unfold of_assoc. rewrite Hg, Fa, E. reflexivity.
  - intros E. apply in_id_columns. apply in_or_app. right. apply filter_In. split; [exact Hn|]. unfold of_assoc. rewrite Hg, Fa, E. reflexivity.
Qed.
Section Cols.
Variables (o : opts) (tn cs : str) (axes : list str) (ds : list dom) (s0 s : table * table) (ids : list Z).
Hypothesis F : fits o tn cs axes ds.
Hypothesis St : start o tn cs axes ds s0 s ids.
Lemma run_col (X : table * table -> option col) (vertex : bool) ty (W : dom -> Z -> option (list number) -> Prop) :
  made o ty (total (rows_of o vertex) ds) (X s0) ->
  (forall d id voff eoff s s' c, In d ds -> shape o cs axes (kv o tn cs ds) (ke o tn ds) s ->
     effects o cs (chosen o tn ds) (kv o tn cs ds) (ke o tn ds) d id voff eoff s s' ->
     X s = Some c -> c_ty c = ty ->
     exists w, W d id w /\ wr (X s) (X s') (if vertex then voff else eoff) w /\ (forall ws, w = Some ws -> length ws = rows_of o vertex d)) ->
  exists c, X s = Some c /\ c_ty c = ty /\ length (c_vals c) = total (rows_of o vertex) ds /\
    forall before d after, ds = before ++ d :: after ->
      exists w id, id_of ds (length before) = Some id /\ W d id w /\
        forall j, j < rows_of o vertex d ->
        nth_error (c_vals c) (total (rows_of o vertex) before + j) =
        match w with Some ws => nth_error ws j | None => match fill o ty with Ok v => Some v | _ => None end end.
Proof.
  intros (v & Hv & Hx) Eff. destruct F as [_ [Ax1 Ax2] _ Fcs Fn Fo _]. destruct St as [Sh Rn [Il Ii] _ _ _ _ _].
  destruct (domains_col o cs axes (chosen o tn ds) Ax1 Ax2 (chosen_nodup o tn ds Fn) Fo Fcs (kv o tn cs ds) (ke o tn ds) X vertex ty W ds
    (good o tn cs axes ds F) Eff ds ids 0 0 s0 s _ (incl_refl ds) Il Sh Hx eq_refl Rn) as (_ & c & C1 & C2 & C3 & C4).
  exists c. split; [exact C1|]. split; [exact C2|]. split; [rewrite C3; cbn; apply repeat_length|].
  intros a d b E. assert (La : length a < length ds) by (rewrite E, app_length; cbn; lia).
  assert (Hid : exists id, nth_error ids (length a) = Some id).
  { destruct (nth_error ids (length a)) as [id|] eqn:N; [eauto|]. apply nth_error_None in N. lia. }
  destruct Hid as [id Hid]. destruct (proj2 C4 a d b id E Hid) as (w & W1 & W2 & W3). exists w, id.
  split; [rewrite <- Ii by exact La; exact Hid|]. split; [exact W1|]. intros j Hj. specialize (W3 j Hj).
  replace ((if vertex then 0 else 0) + total (rows_of o vertex) a + j) with (total (rows_of o vertex) a + j) in W3 by (destruct vertex; reflexivity).
  rewrite W3. destruct w; [reflexivity|]. rewrite Hv. cbn [c_vals].
  assert (Lt : total (rows_of o vertex) a + j < total (rows_of o vertex) ds).
  { rewrite E. unfold total. rewrite map_app. cbn [map]. rewrite list_sum_app. cbn [list_sum fold_right]. change (fold_right Nat.add 0) with list_sum. lia. }
  revert Lt. generalize (total (rows_of o vertex) a + j). generalize (total (rows_of o vertex) ds). clear.
  induction n as [|n IH]; intros i Hi; [lia|]. destruct i; [reflexivity|]. cbn. apply IH. lia.
Qed.
Lemma casts_row t (src : col) n ws j : casts t src n ws -> j < n -> row_ok o t (Some src) j (nth_error ws j).
Proof. intros [_ C] Hj. destruct (C j Hj) as (v & w & H1 & H2 & H3). exists v, w. auto. Qed.
Lemma fill_row t j : numeric t = true -> made o t 0 (Some (Col t [])) -> row_ok o t None j (match fill o t with Ok v => Some v | _ => None end).
Proof. intros N (v & Hv & _). rewrite Hv. exists v. split; [exact (fill_fill_of _ _ _ N Hv)|reflexivity]. Qed.
(** columns copied from arrays of the domains *)
Lemma copied (X : table * table -> option col) (vertex : bool) ty (src : dom -> option col) : numeric ty = true ->
  made o ty (total (rows_of o vertex) ds) (X s0) ->
  (forall d id voff eoff s s', In d ds ->
     effects o cs (chosen o tn ds) (kv o tn cs ds) (ke o tn ds) d id voff eoff s s' ->
     writes (X s) (X s') (if vertex then voff else eoff) (rows_of o vertex d) (src d)) ->
  column_ok o ds (rows_of o vertex) (X s) ty src.
Proof.
  intros N M Eff.
  destruct (run_col X vertex ty (fun d _ w => source ty (src d) (rows_of o vertex d) w) M) as (c & C1 & C2 & C3 & C4).
  { intros d id voff eoff s1 s1' c Hd _ E Hc Ht. specialize (Eff d id voff eoff s1 s1' Hd E).
    destruct (writes_wr _ _ _ _ _ ty Eff) as (w & W1 & W2).
    - intros d0 E0. rewrite Hc in E0. injection E0 as <-. exact Ht.
    - exists w. split; [exact W2|]. split; [exact W1|]. intros ws ->. destruct (src d); [|discriminate W2]. destruct W2 as (ws' & [= <-] & [L _]). exact L. }
  exists c. split; [exact C1|]. split; [exact C2|]. split; [exact C3|]. intros a d b j E Hj.
  destruct (C4 a d b E) as (w & id & _ & W & R). rewrite (R j Hj). destruct (src d) as [sc|] eqn:Es.
  - destruct W as (ws & -> & C). exact (casts_row _ _ _ _ _ C Hj).
  - cbn [source] in W. subst w. apply fill_row; [exact N|]. destruct M as (v & Hv & _). exists v. split; [exact Hv|reflexivity].
Qed.
Lemma col_coords a : o_verts o = true -> In a axes ->
  column_ok o ds (verts o) (column (fst s) cs (Some a)) (elem_type (coord_leaves o ds)) (fun d => mget (coords o d) a).
Proof.
  intros Ov Ha. apply (copied (fun s => column (fst s) cs (Some a)) true).
  - exact (widest_numeric _ _ (elem_type_widest _)).
  - exact (st_coords _ _ _ _ _ _ _ _ St Ov a Ha).
  - intros d id voff eoff s1 s1' Hd (E & _). exact (E Ov a).
Qed.
Lemma field_effect n f d (vertex : bool) : In n (chosen o tn ds) -> first_field ds n = Some f ->
  f_assoc f = Some (if vertex then vx else el : str) -> In d ds -> forall a id voff eoff s1 s1',
  effects o cs (chosen o tn ds) (kv o tn cs ds) (ke o tn ds) d id voff eoff s1 s1' ->
  writes (column (if vertex then fst s1 else snd s1) n a) (column (if vertex then fst s1' else snd s1') n a)
    (if vertex then voff else eoff) (rows_of o vertex d) (field_part d n a).
Proof.
  intros Hn Hf As Hd a id voff eoff s1 s1' (_ & _ & _ & _ & E). specialize (E n Hn). unfold field_step, field_part in *.
  destruct (field_of d n) as [g|] eqn:Eg.
  - destruct F as [_ _ _ _ _ _ Ff]. destruct (Ff n d g Hn Hd Eg) as (_ & Fa & _). specialize (Fa f Hf). rewrite Fa in As.
    destruct vertex; [exact (proj1 E As a)|exact (proj2 E As a)].
  - cbn [writes]. unfold column. destruct E as [E1 E2]. destruct vertex; [rewrite E1|rewrite E2]; reflexivity.
Qed.
Lemma col_fields n f a c (vertex : bool) : In n (chosen o tn ds) -> first_field ds n = Some f ->
  f_assoc f = Some (if vertex then vx else el : str) -> part (f_vals f) a = Some c ->
  column_ok o ds (rows_of o vertex) (column (if vertex then fst s else snd s) n a) (elem_type (leaves_of (f_vals f))) (fun d => field_part d n a).
Proof.
  intros Hn Hf As Hp. apply (copied (fun s => column (if vertex then fst s else snd s) n a) vertex).
  - exact (widest_numeric _ _ (elem_type_widest _)).
  - destruct (st_fields _ _ _ _ _ _ _ _ St n f Hn Hf) as [M1 M2]. destruct vertex; [exact (M1 As a c Hp)|exact (M2 As a c Hp)].
  - intros d id voff eoff s1 s1' Hd E. exact (field_effect n f d vertex Hn Hf As Hd a id voff eoff s1 s1' E).
Qed.
Lemma col_centers a : o_centers o = true -> In a axes ->
  column_by ds (elems o) (column (snd s) ec (Some a)) FLOAT64
    (fun d _ j w => exists c e, mget (coords o d) a = Some c /\ nth_error (cells o d) j = Some e /\ mean_of c e w).
Proof.
  intros Oc Ha.
  destruct (run_col (fun s => column (snd s) ec (Some a)) false FLOAT64
    (fun d _ w => exists c ws, w = Some ws /\ mget (coords o d) a = Some c /\ center_rows c (cells o d) ws)
    (st_centers _ _ _ _ _ _ _ _ St Oc a Ha)) as (c & C1 & C2 & C3 & C4).
  { intros d id voff eoff s1 s1' c Hd _ (_ & E & _) Hc Ht. destruct (good _ _ _ _ _ F d Hd) as [[K _] _].
    rewrite <- K in Ha. destruct (key_mget _ _ Ha) as [src Hs]. destruct (E Oc a src Hs) as (d0 & ws & H1 & H2 & H3 & H4 & H5).
    exists (Some ws). split; [exists src, ws; auto|]. split; [exists d0; auto|]. intros ws' [= <-]. unfold rows_of, elems.
    clear -H3. induction H3; cbn; congruence. }
  exists c. split; [exact C1|]. split; [exact C2|]. split; [exact C3|]. intros b d e j E Hj.
  destruct (C4 b d e E) as (w & id & _ & (src & ws & -> & Hs & Hc) & R). specialize (R j Hj). unfold rows_of in R. cbn beta iota in R.
  change (total (fun d : dom => elems o d)) with (total (elems o)) in R.
  destruct (nth_error (cells o d) j) as [x|] eqn:Ex; [|apply nth_error_None in Ex; unfold elems in Hj; lia].
  assert (Q : exists w, nth_error ws j = Some w /\ mean_of src x w).
  { clear -Hc Ex. revert j Ex. induction Hc as [|e0 w0 es ws Hm Hc IH]; intros [|j] Ex; cbn in Ex; try discriminate; [injection Ex as <-; exists w0; auto|exact (IH j Ex)]. }
  destruct Q as (w & Hw & Hm). exists w. split; [rewrite <- Hw; exact R|]. exists src, x. auto.
Qed.
(** the columns of ids *)
Lemma col_ids (vertex : bool) n (zs : dom -> Z -> list Z) :
  made o INT64 (total (rows_of o vertex) ds) (column (if vertex then fst s0 else snd s0) n None) ->
  (forall d id, length (zs d id) = rows_of o vertex d) ->
  (forall d id voff eoff s s', In d ds -> effects o cs (chosen o tn ds) (kv o tn cs ds) (ke o tn ds) d id voff eoff s s' ->
     ids_written (if vertex then fst s else snd s) (if vertex then fst s' else snd s') n (if vertex then voff else eoff) (zs d id)) ->
  column_by ds (rows_of o vertex) (column (if vertex then fst s else snd s) n None) INT64
    (fun d k j w => exists id z, id_of ds k = Some id /\ nth_error (zs d id) j = Some z /\ cast INT64 (NI z) = Ok w).
Proof.
  intros M Lz Eff.
  destruct (run_col (fun s => column (if vertex then fst s else snd s) n None) vertex INT64
    (fun d id w => exists ws, w = Some ws /\ Forall2 (fun z w => cast INT64 (NI z) = Ok w) (zs d id) ws) M) as (c & C1 & C2 & C3 & C4).
  { intros d id voff eoff s1 s1' c Hd _ E Hc Ht. destruct (Eff d id voff eoff s1 s1' Hd E) as (c0 & ws & H1 & H2 & H3 & H4).
    rewrite H1 in Hc. injection Hc as <-. rewrite Ht in H2. exists (Some ws). split; [exists ws; auto|]. split; [exists c0; auto|].
    intros ws' [= <-]. rewrite <- (Lz d id). clear -H2. induction H2; cbn; congruence. }
  exists c. split; [exact C1|]. split; [exact C2|]. split; [exact C3|]. intros b d e j E Hj.
  destruct (C4 b d e E) as (w & id & Hid & (ws & -> & Hc) & R). specialize (R j Hj).
  rewrite <- (Lz d id) in Hj. destruct (nth_error (zs d id) j) as [z|] eqn:Ez; [|apply nth_error_None in Ez; lia].
  assert (Q : exists w, nth_error ws j = Some w /\ cast INT64 (NI z) = Ok w).
  { clear -Hc Ez. revert j Ez. induction Hc as [|e0 w0 es ws Hm Hc IH]; intros [|j] Ez; cbn in Ez; try discriminate; [injection Ez as <-; exists w0; auto|exact (IH j Ez)]. }
  destruct Q as (w & Hw & Hm). exists w. split; [rewrite R; exact Hw|]. exists id, z. auto.
Qed.
End Cols.

(** * The theorems *)
Lemma flat_columns o tn cs axes ds vt et : fits o tn cs axes ds -> flatten o ds = Ok (vt, et) ->
  map fst vt = kv o tn cs ds /\ map fst et = ke o tn ds.
Proof.
  intros F H. destruct (flatten_start _ _ _ _ _ _ F H) as (s0 & ids & St).
  destruct F as [Ft [Ax1 Ax2] Fc Fcs Fn Fo Ff] eqn:EF. destruct St as [Sh Rn [Il Ii] _ _ _ _ _].
  assert (G : forall ds0 ids voff eoff s s', incl ds0 ds -> shape o cs axes (kv o tn cs ds) (ke o tn ds) s ->
    domains o (chosen o tn ds) ds0 ids (map (verts o) ds0) (map (elems o) ds0) voff eoff s = Ok s' ->
    shape o cs axes (kv o tn cs ds) (ke o tn ds) s').
  { induction ds0 as [|d ds0 IH]; intros ids0 voff eoff s s' Hi S H0; [destruct ids0; cbn in H0; injection H0 as <-; exact S|].
    destruct ids0 as [|id ids0]; [cbn in H0; injection H0 as <-; exact S|]. cbn [map domains] in H0. ob H0 s1 E.
    destruct (good _ _ _ _ _ F d (Hi d (or_introl eq_refl))) as [Rg Kn].
    destruct (single_ok o cs axes _ Ax1 Ax2 (chosen_nodup o tn ds Fn) Fo Fcs _ _ _ _ _ _ _ _ Rg Kn S E) as [S1 _].
    exact (IH _ _ _ _ _ (fun x Hx => Hi x (or_intror Hx)) S1 H0). }
  destruct (G ds ids 0 0 s0 (vt, et) (incl_refl ds) Sh Rn) as (K1 & K2 & _). split; assumption.
Qed.
Lemma flat_coords o tn cs axes ds vt et a : fits o tn cs axes ds -> flatten o ds = Ok (vt, et) -> o_verts o = true -> In a axes ->
  exists t, widest (coord_leaves o ds) t /\ column_ok o ds (verts o) (column vt cs (Some a)) t (fun d => mget (coords o d) a).
Proof.
  intros F H Ov Ha. destruct (flatten_start _ _ _ _ _ _ F H) as (s0 & ids & St).
  exists (elem_type (coord_leaves o ds)). split; [apply elem_type_widest|]. exact (col_coords _ _ _ _ _ _ _ _ F St a Ov Ha).
Qed.
Lemma flat_fields o tn cs axes ds vt et n f a c : fits o tn cs axes ds -> flatten o ds = Ok (vt, et) ->
  In n (chosen o tn ds) -> first_field ds n = Some f -> part (f_vals f) a = Some c ->
  exists t, widest (leaves_of (f_vals f)) t /\
    (f_assoc f = Some (L "vertex") -> column_ok o ds (verts o) (column vt n a) t (fun d => field_part d n a)) /\
    (f_assoc f = Some (L "element") -> column_ok o ds (elems o) (column et n a) t (fun d => field_part d n a)).
Proof.
  intros F H Hn Hf Hp. destruct (flatten_start _ _ _ _ _ _ F H) as (s0 & ids & St).
  exists (elem_type (leaves_of (f_vals f))). split; [apply elem_type_widest|]. split; intros As.
  - exact (col_fields _ _ _ _ _ _ _ _ F St n f a c true Hn Hf As Hp).
  - exact (col_fields _ _ _ _ _ _ _ _ F St n f a c false Hn Hf As Hp).
Qed.
Lemma flat_centers o tn cs axes ds vt et a : fits o tn cs axes ds -> flatten o ds = Ok (vt, et) -> o_centers o = true -> In a axes ->
  column_by ds (elems o) (column et (L "element_centers") (Some a)) FLOAT64
    (fun d _ j w => exists c e, mget (coords o d) a = Some c /\ nth_error (cells o d) j = Some e /\ mean_of c e w).
Proof.
  intros F H Oc Ha. destruct (flatten_start _ _ _ _ _ _ F H) as (s0 & ids & St). exact (col_centers _ _ _ _ _ _ _ _ F St a Oc Ha).
Qed.
Lemma cast_int64 z w : int64 z -> cast INT64 (NI z) = Ok w -> w = NI z.
Proof. intros R [= <-]. f_equal. apply conv_id; [reflexivity|]. unfold int64 in R. unfold in_type. cbn. lia. Qed.
Lemma in_vid o tn cs axes ds : fits o tn cs axes ds -> In (L "vertex_id") (kv o tn cs ds) -> In (L "domain_id") (kv o tn cs ds).
Proof.
  intros [_ _ _ Fcs _ Fo _]. unfold kv, id_columns. set (l := names0 _ cs ++ filter _ _).
  assert (N : ~ In (L "vertex_id") l).
  { unfold l. rewrite in_app_iff. intros [X|X].
    - unfold names0 in X. destruct (o_verts o); [|destruct X]. destruct X as [X|[]]. apply Fcs. rewrite X. right. left. reflexivity.
    - apply filter_In in X. destruct X as [X _]. apply (Fo _ X). cbn. auto 8. }
  clearbody l. destruct (o_info o); [|contradiction]. destruct l; [auto|]. intros _. apply in_or_app. right. left. reflexivity.
Qed.
Lemma in_eid o tn cs axes ds : fits o tn cs axes ds -> In (L "element_id") (ke o tn ds) -> In (L "domain_id") (ke o tn ds).
Proof.
  intros [_ _ _ Fcs _ Fo _]. unfold ke, id_columns. set (l := names0 _ ec ++ filter _ _).
  assert (N : ~ In (L "element_id") l).
  { unfold l. rewrite in_app_iff. intros [X|X].
    - unfold names0 in X. destruct (o_centers o); [|destruct X]. destruct X as [X|[]]. discriminate X.
    - apply filter_In in X. destruct X as [X _]. apply (Fo _ X). cbn. auto 8. }
  clearbody l. destruct (o_info o); [|contradiction]. destruct l; [auto|]. intros _. apply in_or_app. right. left. reflexivity.
Qed.

Lemma by_impl ds size c t (P Q : dom -> nat -> nat -> number -> Prop) : (forall d k j w, j < size d -> P d k j w -> Q d k j w) ->
  column_by ds size c t P -> column_by ds size c t Q.
Proof.
  intros PQ (c0 & C1 & C2 & C3 & C4). exists c0. split; [exact C1|]. split; [exact C2|]. split; [exact C3|]. intros a d b j E Hj.
  destruct (C4 a d b j E Hj) as (w & W1 & W2). exists w. split; [exact W1|exact (PQ _ _ _ _ Hj W2)].
Qed.
Lemma nth_repeat {A} (x : A) n j : j < n -> nth_error (repeat x n) j = Some x.
Proof. revert j. induction n as [|n IH]; intros j H; [lia|]. destruct j; [reflexivity|]. cbn. apply IH. lia. Qed.
Lemma nth_ids n j : j < n -> nth_error (map Z.of_nat (seq 0 n)) j = Some (Z.of_nat j).
Proof.
  intros H. rewrite nth_error_map, (nth_error_nth' _ 0) by (rewrite seq_length; exact H). rewrite seq_nth by exact H. reflexivity.
Qed.
Lemma flat_ids o tn cs axes ds vt et : fits o tn cs axes ds -> flatten o ds = Ok (vt, et) ->
  (In (L "vertex_id") (map fst vt) -> column_by ds (verts o) (column vt (L "domain_id") None) INT64 (domain_row ds) /\
     column_by ds (verts o) (column vt (L "vertex_id") None) INT64 local_row) /\
  (In (L "element_id") (map fst et) -> column_by ds (elems o) (column et (L "domain_id") None) INT64 (domain_row ds) /\
     column_by ds (elems o) (column et (L "element_id") None) INT64 local_row).
Proof.
  intros F H. destruct (flat_columns _ _ _ _ _ _ _ F H) as [-> ->]. destruct (flatten_start _ _ _ _ _ _ F H) as (s0 & ids & St). split; intros Hi.
  - pose proof (in_vid _ _ _ _ _ F Hi) as Hd. destruct (st_vid _ _ _ _ _ _ _ _ St Hi) as [M1 M2]. split.
    + refine (by_impl _ _ _ _ _ _ _ (col_ids o tn cs axes ds s0 (vt, et) ids F St true (L "domain_id") (fun d id => repeat id (verts o d)) M1 _ _)).
      * intros d k j w Hj (id & z & E1 & E2 & E3). exists id. split; [exact E1|]. rewrite nth_repeat in E2 by exact Hj. injection E2 as <-. intros R. exact (cast_int64 _ _ R E3).
      * intros d id. apply repeat_length.
      * intros d id voff eoff s s' _ (_ & _ & E & _). exact (proj1 (E Hi Hd)).
    + refine (by_impl _ _ _ _ _ _ _ (col_ids o tn cs axes ds s0 (vt, et) ids F St true (L "vertex_id") (fun d _ => map Z.of_nat (seq 0 (verts o d))) M2 _ _)).
      * intros d k j w Hj (id & z & E1 & E2 & E3). rewrite nth_ids in E2 by exact Hj. injection E2 as <-. intros R. exact (cast_int64 _ _ R E3).
      * intros d id. rewrite map_length, seq_length. reflexivity.
      * intros d id voff eoff s s' _ (_ & _ & E & _). exact (proj2 (E Hi Hd)).
  - pose proof (in_eid _ _ _ _ _ F Hi) as Hd. destruct (st_eid _ _ _ _ _ _ _ _ St Hi) as [M1 M2]. split.
    + refine (by_impl _ _ _ _ _ _ _ (col_ids o tn cs axes ds s0 (vt, et) ids F St false (L "domain_id") (fun d id => repeat id (elems o d)) M1 _ _)).
      * intros d k j w Hj (id & z & E1 & E2 & E3). exists id. split; [exact E1|]. rewrite nth_repeat in E2 by exact Hj. injection E2 as <-. intros R. exact (cast_int64 _ _ R E3).
      * intros d id. apply repeat_length.
      * intros d id voff eoff s s' _ (_ & _ & _ & E & _). exact (proj1 (E Hi Hd)).
    + refine (by_impl _ _ _ _ _ _ _ (col_ids o tn cs axes ds s0 (vt, et) ids F St false (L "element_id") (fun d _ => map Z.of_nat (seq 0 (elems o d))) M2 _ _)).
      * intros d k j w Hj (id & z & E1 & E2 & E3). rewrite nth_ids in E2 by exact Hj. injection E2 as <-. intros R. exact (cast_int64 _ _ R E3).
      * intros d id. rewrite map_length, seq_length. reflexivity.
      * intros d id voff eoff s s' _ (_ & _ & _ & E & _). exact (proj2 (E Hi Hd)).
Qed.
