(** Lemmas for C65: one domain, and all domains after one another. *)
From Coq Require Import ZArith Floats.SpecFloat Lia List.
From Verif Require Import Base DType SpecTree Mem Node Number ArrayOps Json B64Json ValueJson NumConv FloatText MeshConv MeshFlat MeshFlatSpec MeshFlatFacts MeshFlatSingle.
Import ListNotations.

Lemma nodup_filter {A} (f : A -> bool) l : NoDup l -> NoDup (filter f l).
Proof.
  induction 1 as [|x l Hx ND IH]; cbn; [constructor|]. destruct (f x); [|exact IH]. constructor; [|exact IH].
  intros I. apply filter_In in I. tauto.
Qed.
Lemma nodup_axes l : NoDup (axes_of l).
Proof.
  unfold axes_of. apply nodup_filter.
  destruct (_ || _)%bool; [unfold spherical_axes|destruct (has _ _); [unfold cylindrical_axes|destruct (_ || _)%bool; [unfold cartesian_axes|destruct (_ || _)%bool; [unfold logical_axes|]]]];
  repeat (constructor; [cbn; intuition discriminate|]); constructor.
Qed.

Lemma ok_inj {A} (x y : A) : Ok x = Ok y -> x = y.
Proof. congruence. Qed.

Section Single.
Variables (o : opts) (cs : str) (axes names : list str).
Hypothesis Ax1 : axes <> [].
Hypothesis Ax2 : axes_of axes = axes.
Hypothesis Nn : NoDup names.
Hypothesis Own : forall n, In n names -> ~ In n (own cs).
Hypothesis Cs : ~ In cs [L "domain_id"; L "vertex_id"].
Variables KV KE : list str.
Definition shape (s : table * table) : Prop :=
  map fst (fst s) = KV /\ map fst (snd s) = KE /\ (o_verts o = true -> hd_error KV = Some cs) /\
  (o_centers o = true -> center_keys (snd s) axes).
Definition effects (d : dom) (id : Z) (voff eoff : nat) (s s' : table * table) : Prop :=
  (o_verts o = true -> forall a, writes (column (fst s) cs (Some a)) (column (fst s') cs (Some a)) voff (verts o d) (mget (coords o d) a)) /\
  (o_centers o = true -> forall a c, mget (coords o d) a = Some c ->
     center_written (cells o d) c (column (snd s) ec (Some a)) (column (snd s') ec (Some a)) eoff) /\
  (In (L "vertex_id") KV -> In (L "domain_id") KV ->
     ids_written (fst s) (fst s') (L "domain_id") voff (repeat id (verts o d)) /\
     ids_written (fst s) (fst s') (L "vertex_id") voff (map Z.of_nat (seq 0 (verts o d)))) /\
  (In (L "element_id") KE -> In (L "domain_id") KE ->
     ids_written (snd s) (snd s') (L "domain_id") eoff (repeat id (elems o d)) /\
     ids_written (snd s) (snd s') (L "element_id") eoff (map Z.of_nat (seq 0 (elems o d)))) /\
  (forall n, In n names -> field_step d voff (verts o d) eoff (elems o d) n s s').
Lemma ids_keep tb1 tb2 tb3 tb4 n off zs : ids_written tb2 tb3 n off zs ->
  mget tb2 n = mget tb1 n -> mget tb4 n = mget tb3 n -> ids_written tb1 tb4 n off zs.
Proof.
  intros (c & ws & H1 & H2 & H3 & H4) E1 E2. exists c, ws. unfold column in *. rewrite E2. rewrite <- E1. auto.
Qed.
Lemma single_ok d id voff eoff s s' : regular o axes d -> Forall (known d KV KE) names -> shape s ->
  single o names d id voff eoff s = Ok s' -> shape s' /\ effects d id voff eoff s s'.
Proof.
  intros Rg Kn (S1 & S2 & S3 & S4) H. destruct s as [vt et]. cbn [fst snd] in *. unfold single in H.
  ob H t Et. ob H c Ec. ob H nv Ev. destruct (cs_length_of _ _ _ _ _ Ax1 Ax2 Rg Ec Ev) as [-> Vc]. rewrite Vc in H.
  destruct (topo_length_of _ _ _ Et) as [Te Tc]. rewrite Te in H.
  ob H vt1 E1. ob H et1 E2. ob H vt2 E3. ob H et2 E4. ob H fs E5. apply need_ok in E5.
  destruct s' as [vt3 et3].
  assert (N1 : L "vertex_id" <> L "domain_id") by discriminate. assert (N2 : L "element_id" <> L "domain_id") by discriminate.
  assert (Ck : cs <> L "domain_id" /\ cs <> L "vertex_id") by (cbn in Cs; split; intros E; rewrite E in Cs; apply Cs; auto).
  (* coordinates *)
  assert (P1 : map fst vt1 = KV /\ (forall k, k <> cs -> mget vt1 k = mget vt k) /\
    (o_verts o = true -> forall a, writes (column vt cs (Some a)) (column vt1 cs (Some a)) voff (verts o d) (mget (coords o d) a))).
  { destruct (o_verts o) eqn:Ov.
    - assert (Q : exists v v', mget vt cs = Some v /\ append_vals (VMc (coords o d)) v voff (verts o d) = Ok v' /\ vt1 = mset vt cs v').
      { destruct vt as [|[k v] vt']; [discriminate|]. specialize (S3 eq_refl). rewrite <- S1 in S3. cbn in S3. injection S3 as ->.
        ob E1 v' Ea. exists v, v'. split; [cbn [mget]; rewrite str_eqb_refl; reflexivity|]. split; [exact Ea|]. symmetry. exact (ok_inj _ _ E1). }
      destruct Q as (v & v' & Hv & Ea & ->). pose proof (mget_key _ _ _ Hv) as Ki.
      split; [rewrite <- S1; exact (mset_keys _ _ _ Ki)|].
      split; [intros k Hk; apply mget_mset_other; exact Hk|]. intros _ a. unfold column. rewrite Hv, mget_mset_same.
      refine (append_vals_ok (VMc (coords o d)) v voff _ v' _ Ea (Some a)).
      intros l [= <-]. destruct Rg as [-> _]. rewrite <- Ax2. apply nodup_axes.
    - injection E1 as <-. split; [exact S1|]. split; [reflexivity|discriminate]. }
  destruct P1 as (A1 & A2 & A3).
  (* centers *)
  assert (P2 : map fst et1 = KE /\ (forall k, k <> ec -> mget et1 k = mget et k) /\
    (o_centers o = true -> center_keys et1 axes /\ forall a c, mget (coords o d) a = Some c ->
       center_written (cells o d) c (column et ec (Some a)) (column et1 ec (Some a)) eoff)).
  { destruct (o_centers o) eqn:Oc.
    - destruct Rg as [Rk _]. assert (ND : NoDup axes) by (rewrite <- Ax2; apply nodup_axes).
      destruct (centers_ok _ _ _ _ _ _ (S4 eq_refl) Rk ND E2) as ([B1 B2] & B3 & B4).
      split; [congruence|]. split; [exact B2|]. intros _. split; [exact B3|]. rewrite <- Tc. exact B4.
    - injection E2 as <-. split; [exact S2|]. split; [reflexivity|discriminate]. }
  destruct P2 as (B1 & B2 & B3).
  destruct (set_ids_ok _ _ _ _ _ _ N1 E3) as (C1 & C2 & C3).
  destruct (set_ids_ok _ _ _ _ _ _ N2 E4) as (D1 & D2 & D3).
  rewrite A1 in C1, C3. rewrite B1 in D1, D3.
  assert (Kn' : Forall (known d (map fst (fst (vt2, et2))) (map fst (snd (vt2, et2)))) names).
  { cbn [fst snd]. rewrite C1, D1. exact Kn. }
  destruct (fields_loop d fs voff _ eoff _ E5 names _ _ Nn Kn' H) as (F1 & F2 & F3 & F4). cbn [fst snd] in *.
  assert (Ow : forall n, In n (own cs) -> ~ In n names) by (intros n Hn Hi; exact (Own n Hi Hn)).
  assert (O1 : ~ In cs names) by (apply Ow; left; reflexivity).
  assert (O2 : ~ In ec names) by (apply Ow; right; left; reflexivity).
  assert (O3 : ~ In (L "domain_id") names) by (apply Ow; right; right; left; reflexivity).
  assert (O4 : ~ In (L "vertex_id") names) by (apply Ow; right; right; right; left; reflexivity).
  assert (O5 : ~ In (L "element_id") names) by (apply Ow; right; right; right; right; left; reflexivity).
  split.
  - split; [cbn; congruence|]. split; [cbn; congruence|]. split; [exact S3|]. cbn [snd]. intros Oc. destruct (B3 Oc) as [(out & X & Y) _].
    exists out. split; [|exact Y]. rewrite (proj2 (F3 ec O2)). rewrite D2 by discriminate. exact X.
  - split; [|split; [|split; [|split]]]; cbn [fst snd].
    + intros Ov a. specialize (A3 Ov a). unfold column in *. rewrite (proj1 (F3 cs O1)), C2 by tauto. exact A3.
    + intros Oc a c0 Hc. specialize (proj2 (B3 Oc) a c0 Hc). unfold column. rewrite (proj2 (F3 ec O2)), D2 by discriminate. auto.
    + intros I1 I2. destruct (C3 I1 I2) as [X Y]. split.
      * refine (ids_keep vt vt1 vt2 vt3 _ _ _ X _ (proj1 (F3 _ O3))). apply A2. intros E. apply (proj1 Ck). symmetry. exact E.
      * refine (ids_keep vt vt1 vt2 vt3 _ _ _ Y _ (proj1 (F3 _ O4))). apply A2. intros E. apply (proj2 Ck). symmetry. exact E.
    + intros I1 I2. destruct (D3 I1 I2) as [X Y]. split.
      * refine (ids_keep et et1 et2 et3 _ _ _ X _ (proj2 (F3 _ O3))). apply B2. discriminate.
      * refine (ids_keep et et1 et2 et3 _ _ _ Y _ (proj2 (F3 _ O5))). apply B2. discriminate.
    + intros n Hn. specialize (F4 n Hn). specialize (Own n Hn).
      assert (Nc : n <> cs) by (intros ->; apply Own; left; reflexivity).
      assert (Ne : n <> ec) by (intros ->; apply Own; right; left; reflexivity).
      assert (Nd : n <> L "domain_id") by (intros ->; apply Own; right; right; left; reflexivity).
      assert (Nv : n <> L "vertex_id") by (intros ->; apply Own; right; right; right; left; reflexivity).
      assert (Ni : n <> L "element_id") by (intros ->; apply Own; right; right; right; right; left; reflexivity).
      unfold field_step in *. unfold column in *. cbn [fst snd] in *.
      rewrite C2, A2 in F4 by assumption. rewrite D2, B2 in F4 by assumption. exact F4.
Qed.

(** * All domains *)
Section Column.
(** a column, the offsets that go with it, and what a domain writes to it *)
Variables (X : table * table -> option col) (vertex : bool) (ty : tid).
Variable W : dom -> Z -> option (list number) -> Prop.
Definition rows_of (d : dom) : nat := if vertex then verts o d else elems o d.
Variable D : list dom.
Hypothesis Good : forall d, In d D -> regular o axes d /\ Forall (known d KV KE) names.
Hypothesis Eff : forall d id voff eoff s s' c, In d D -> shape s -> effects d id voff eoff s s' ->
  X s = Some c -> c_ty c = ty ->
  exists w, W d id w /\ wr (X s) (X s') (if vertex then voff else eoff) w /\ (forall ws, w = Some ws -> length ws = rows_of d).
Lemma domains_col : forall ds ids voff eoff s s' c, incl ds D -> length ids = length ds -> shape s -> X s = Some c -> c_ty c = ty ->
  domains o names ds ids (map (verts o) ds) (map (elems o) ds) voff eoff s = Ok s' ->
  shape s' /\ exists c', X s' = Some c' /\ c_ty c' = ty /\ length (c_vals c') = length (c_vals c) /\
    let off := if vertex then voff else eoff in
    (forall r, r < off -> nth_error (c_vals c') r = nth_error (c_vals c) r) /\
    forall a d b id, ds = a ++ d :: b -> nth_error ids (length a) = Some id ->
      exists w, W d id w /\ (forall ws, w = Some ws -> length ws = rows_of d) /\
        forall j, j < rows_of d ->
        nth_error (c_vals c') (off + total rows_of a + j) =
        match w with Some ws => nth_error ws j | None => nth_error (c_vals c) (off + total rows_of a + j) end.
Proof.
  induction ds as [|d ds IH]; intros ids voff eoff s s' c Hi Hl Sh Hc Ht H.
  - destruct ids; cbn in H; injection H as <-; (split; [exact Sh|]); exists c; (split; [exact Hc|]); (split; [exact Ht|]); (split; [reflexivity|]);
    (split; [reflexivity|]); intros a d b id E; destruct a; discriminate.
  - destruct ids as [|id ids]; [discriminate|]. cbn [map domains] in H. ob H s1 E1.
    assert (Id : In d D) by (apply Hi; left; reflexivity). destruct (Good d Id) as [Rg Kn].
    destruct (single_ok _ _ _ _ _ _ Rg Kn Sh E1) as [Sh1 Ef].
    destruct (Eff _ _ _ _ _ _ _ Id Sh Ef Hc Ht) as (w & Hw & Hwr & Hwl).
    assert (Q : exists c1, X s1 = Some c1 /\ c_ty c1 = ty /\ length (c_vals c1) = length (c_vals c) /\
       (forall r, (r < (if vertex then voff else eoff) \/ (if vertex then voff else eoff) + rows_of d <= r) -> nth_error (c_vals c1) r = nth_error (c_vals c) r) /\
       forall j, j < rows_of d -> nth_error (c_vals c1) ((if vertex then voff else eoff) + j) =
         match w with Some ws => nth_error ws j | None => nth_error (c_vals c) ((if vertex then voff else eoff) + j) end).
    { set (off := if vertex then voff else eoff) in *. destruct w as [ws|]; cbn [wr] in Hwr.
      - destruct Hwr as (c0 & Ec0 & Le & Ec1). rewrite Hc in Ec0. injection Ec0 as <-. specialize (Hwl ws eq_refl).
        exists (splice c off ws). split; [exact Ec1|]. split; [exact Ht|]. split; [exact (splice_length _ _ _ Le)|]. split.
        + intros r Hr. rewrite splice_nth by exact Le. destruct (Nat.ltb r off) eqn:L1; [reflexivity|]. apply Nat.ltb_ge in L1.
          destruct (Nat.ltb r (off + length ws)) eqn:L2; [|reflexivity]. apply Nat.ltb_lt in L2. lia.
        + intros j Hj. rewrite splice_nth by exact Le. destruct (Nat.ltb (off + j) off) eqn:L1; [apply Nat.ltb_lt in L1; lia|].
          destruct (Nat.ltb (off + j) (off + length ws)) eqn:L2; [|apply Nat.ltb_ge in L2; lia]. f_equal. lia.
      - exists c. rewrite Hwr. auto. }
    destruct Q as (c1 & Q1 & Q2 & Q3 & Q4 & Q5).
    assert (Hi' : incl ds D) by (intros x Hx; apply Hi; right; exact Hx).
    injection Hl as Hl. destruct (IH ids _ _ _ _ _ Hi' Hl Sh1 Q1 Q2 H) as (Sh' & c' & R1 & R2 & R3 & R4).
    assert (Of : (if vertex then voff + verts o d else eoff + elems o d) = (if vertex then voff else eoff) + rows_of d) by (unfold rows_of; destruct vertex; reflexivity).
    rewrite Of in R4. cbv zeta in *. set (off := if vertex then voff else eoff) in *. clearbody off. destruct R4 as [R4 R5].
    split; [exact Sh'|]. exists c'. split; [exact R1|]. split; [exact R2|]. split; [congruence|]. split.
    + intros r Hr. rewrite R4 by lia. apply Q4. left. exact Hr.
    + intros [|d0 a] d1 b id1 E Hid.
      * cbn in E. injection E as <- <-. cbn in Hid. injection Hid as <-. exists w. split; [exact Hw|]. split; [exact Hwl|].
        intros j Hj. unfold total. cbn [map list_sum fold_right]. rewrite Nat.add_0_r. rewrite R4 by lia. apply Q5. exact Hj.
      * cbn in E. injection E as <- E. cbn in Hid. destruct (R5 _ _ _ _ E Hid) as (w1 & W1 & W2 & W3). exists w1. split; [exact W1|]. split; [exact W2|].
        intros j Hj. specialize (W3 j Hj). unfold total in *. cbn [map list_sum fold_right] in *.
        change (fold_right Nat.add 0 (map rows_of a)) with (list_sum (map rows_of a)) in *.
        replace (off + (rows_of d + list_sum (map rows_of a)) + j) with (off + rows_of d + list_sum (map rows_of a) + j) by lia.
        rewrite W3. destruct w1; [reflexivity|]. apply Q4. right. lia.
Qed.
End Column.
End Single.
