(** Specification of element rows, points and centroids, and facts about the model. *)
From Coq Require Import Sorting.Sorted.
From Verif Require Import Base DType SpecTree Mem Node Number NodeFacts ArrayOps ArrayOpsFacts O2M O2MFacts MatSetFacts Silo SiloFacts SpecSetFacts MeshConv MeshConvFacts MeshElem.
Local Open Scope Z_scope.
Import ListNotations.

(** ---- specification ---- *)
(** points per element of the fixed shapes (docs/sphinx/blueprint_mesh.rst) *)
Definition points_of (name : str) : option nat :=
  if str_eqb name (L "point") then Some 1%nat else if str_eqb name (L "line") then Some 2%nat
  else if str_eqb name (L "tri") then Some 3%nat else if str_eqb name (L "quad") then Some 4%nat
  else if str_eqb name (L "tet") then Some 4%nat else if str_eqb name (L "pyramid") then Some 5%nat
  else if str_eqb name (L "wedge") then Some 6%nat else if str_eqb name (L "hex") then Some 8%nat else None.
(** where each row starts when the rows are laid out one after another *)
Definition starts (rows : list (list Z)) : list Z := map (fun k => zlen (concat (firstn k rows))) (seq 0 (length rows)).
(** a list of lists is what elements/connectivity and elements/sizes describe *)
Record has_rows (t : topo) (rows : list (list Z)) : Prop := {
  hr_conn : t_conn t = concat rows;
  hr_size : match points_of (t_shape t) with
            | Some n => Forall (fun r => length r = n) rows
            | None => (t_shape t = L "polygonal" \/ t_shape t = L "polyhedral") /\ t_sizes t = map zlen rows
            end }.
Record has_faces (t : topo) (faces : list (list Z)) : Prop := {
  hf_shape : t_shape t = L "polyhedral";
  hf_conn : t_sub_conn t = concat faces;
  hf_size : t_sub_sizes t = map zlen faces }.
(** the type of generated offsets *)
Definition offset_type (t : topo) : tid := find_widest int_defaults (t_leaves t).
(** ascending, without repetition, the same members *)
Definition set_of (l r : list Z) : Prop := StronglySorted Z.lt l /\ forall x, In x l <-> In x r.
(** first occurrences *)
Fixpoint firsts (seen l : list Z) : list Z :=
  match l with
  | [] => []
  | x :: r => if existsb (Z.eqb x) seen then firsts seen r else x :: firsts (x :: seen) r
  end.
Definition distinct (l : list Z) : list Z := firsts [] l.
Definition face (faces : list (list Z)) (f : Z) : list Z := nth (Z.to_nat f) faces [].
Section Mean.
Context {F : Type}.
Variables (fadd fmul : F -> F -> F) (f0 : F) (finv : nat -> F).
(** sum of the coordinates of the points, times the inverse of their number *)
Definition mean (coords : list F) (ids : list Z) : F :=
  fmul (fold_left (fun s id => fadd s (nth (Z.to_nat id) coords f0)) ids f0) (finv (length ids)).
End Mean.

(** ---- shapes ---- *)
Lemma shape_fixed name n : points_of name = Some n ->
  exists i s e, shape_of name = Ok (Some (i, s, e)) /\ s_indices s = Z.of_nat n /\ is_polygonal s e = false /\ is_polyhedral s e = false /\ (0 < n <= 8)%nat.
Proof.
  unfold points_of. intros E.
  repeat match type of E with
  | (if str_eqb ?a ?b then _ else _) = _ => destruct (str_eqb_spec a b) as [H|_];
      [subst name; injection E as <-; eexists _, _, _; split; [vm_compute; reflexivity|]; repeat split; cbn; lia|]
  end. discriminate.
Qed.
Lemma shape_polygonal : exists i s e, shape_of (L "polygonal") = Ok (Some (i, s, e)) /\ is_polygonal s e = true /\ is_polyhedral s e = false.
Proof. eexists _, _, _. split; [vm_compute; reflexivity|]. split; reflexivity. Qed.
Lemma shape_polyhedral : exists i s e, shape_of (L "polyhedral") = Ok (Some (i, s, e)) /\ is_polygonal s e = false /\ is_polyhedral s e = true.
Proof. eexists _, _, _. split; [vm_compute; reflexivity|]. split; reflexivity. Qed.

(** ---- offsets ---- *)
Lemma zlen_app {A} (a b : list A) : zlen (a ++ b) = zlen a + zlen b.
Proof. unfold zlen. rewrite app_length. lia. Qed.
Lemma running_starts rows : forall s, running s (map zlen rows) = map (fun x => s + x) (starts rows).
Proof.
  unfold starts. induction rows as [|r rows IH]; intros s; [reflexivity|]. cbn [map running length seq firstn concat]. change (zlen (@nil Z)) with 0. rewrite Z.add_0_r. f_equal.
  rewrite IH, <- seq_shift, !map_map. apply map_ext. intros k. cbn [firstn concat]. rewrite zlen_app. lia.
Qed.
Lemma running_starts0 rows : running 0 (map zlen rows) = starts rows.
Proof. rewrite running_starts. rewrite <- (map_id (starts rows)) at 2. apply map_ext. intros; lia. Qed.
Lemma starts_len rows : length (starts rows) = length rows.
Proof. unfold starts. rewrite map_length, seq_length. reflexivity. Qed.
Lemma starts_nth rows k : (k < length rows)%nat -> nth_error (starts rows) k = Some (zlen (concat (firstn k rows))).
Proof. intros H. unfold starts. rewrite nth_error_map, (nth_error_nth' _ 0%nat) by (rewrite seq_length; exact H). rewrite seq_nth by exact H. reflexivity. Qed.
Lemma firstn_concat_le (rows : list (list Z)) k : zlen (concat (firstn k rows)) <= zlen (concat rows).
Proof. rewrite <- (firstn_skipn k rows) at 2. rewrite concat_app, zlen_app. unfold zlen. lia. Qed.
Lemma starts_in rows x : In x (starts rows) -> 0 <= x <= zlen (concat rows).
Proof. unfold starts. intros I. apply in_map_iff in I. destruct I as (k & <- & _). split; [unfold zlen; lia|apply firstn_concat_le]. Qed.
Lemma conv_offset t x : is_int t = true -> 0 <= x <= int_max t -> conv t x = x.
Proof.
  intros I H. apply conv_id; [exact I|]. unfold in_type. split; [|lia].
  unfold int_min. destruct (is_signed t); [|lia]. assert (0 <= 2 ^ (bits t - 1)) by (apply Z.pow_nonneg; lia). lia.
Qed.
Lemma conv_starts t rows : is_int t = true -> Forall (fun x => x <= int_max t) (starts rows) -> map (conv t) (starts rows) = starts rows.
Proof.
  intros I H. rewrite <- (map_id (starts rows)) at 2. apply map_ext_in. intros x Hx. apply conv_offset; [exact I|].
  rewrite Forall_forall in H. specialize (H x Hx). apply starts_in in Hx. lia.
Qed.
Lemma starts_fixed n rows : Forall (fun r => length r = n) rows -> starts rows = map (fun k => Z.of_nat k * Z.of_nat n) (seq 0 (length rows)).
Proof.
  intros F. unfold starts. apply map_ext_in. intros k I. apply in_seq in I. unfold zlen.
  rewrite (concat_len n) by (apply Forall_forall; intros x Hx; rewrite Forall_forall in F; apply F; apply (In_nth_error) in Hx; destruct Hx as [j Hj];
    rewrite <- (firstn_skipn k rows); apply in_or_app; left; eapply nth_error_In; exact Hj).
  rewrite firstn_length. rewrite Nat.min_l by lia. lia.
Qed.

Theorem offsets_law t rows de ds : has_rows t rows -> t_shape t <> L "polyhedral" -> t_offs t = None ->
  Forall (fun x => x <= int_max (offset_type t)) (starts rows) -> gen_offsets de ds t = Ok (starts rows, []).
Proof.
  intros [Hc Hs] NP No B. unfold gen_offsets. fold (offset_type t). assert (I : is_int (offset_type t) = true) by apply int_type_ok.
  destruct (points_of (t_shape t)) as [n|] eqn:Ep.
  - destruct (shape_fixed _ _ Ep) as (i & s & e & Es & Ei & Eg & Eh & Ln). rewrite Es. cbn [obind]. rewrite Eg, Eh, No, Ei.
    replace (_ <=? 0) with false by lia. rewrite <- (conv_starts _ _ I B). rewrite (starts_fixed n rows Hs). do 2 f_equal. rewrite map_map.
    replace (Z.quot (zlen (t_conn t)) (Z.of_nat n)) with (Z.of_nat (length rows)).
    { rewrite zseq_nat, map_map. reflexivity. }
    rewrite Hc. unfold zlen. rewrite (concat_len n) by exact Hs. rewrite Nat2Z.inj_mul, Z.mul_comm, Z.quot_mul by lia. reflexivity.
  - destruct Hs as [[Ep'|Ep'] Hs]; [|congruence]. destruct shape_polygonal as (i & s & e & Es & Eg & Eh). rewrite Ep', Es. cbn [obind]. rewrite Eh, No, Eg, Hs, running_starts0, (conv_starts _ _ I B). reflexivity.
Qed.
Theorem offsets_poly t rows faces : has_rows t rows -> has_faces t faces -> t_offs t = None \/ t_offs t = Some (starts rows) -> t_sub_offs t = None \/ t_sub_offs t = Some (starts faces) ->
  offsets_inline t = Ok (starts rows, starts faces).
Proof.
  intros [Hc Hs] [Sh Fc Fs] Ho Hso. unfold offsets_inline, gen_offsets. rewrite Sh in *. cbn in Hs. destruct Hs as [_ Hs].
  destruct shape_polyhedral as (i & s & e & Es & Eg & Eh). rewrite Es. cbn [obind]. rewrite Eh, Hs, Fs, !running_starts0.
  destruct Ho as [-> | ->], Hso as [-> | ->]; reflexivity.
Qed.
Theorem offsets_poly_new t rows faces : has_rows t rows -> has_faces t faces ->
  (t_offs t = None /\ t_sub_offs t = None) \/ (t_offs t = Some (starts rows) /\ t_sub_offs t = Some (starts faces)) ->
  offsets_new t = Ok (starts rows, starts faces).
Proof.
  intros [Hc Hs] [Sh Fc Fs] Ho. unfold offsets_new, gen_offsets. rewrite Sh in *. cbn in Hs. destruct Hs as [_ Hs].
  destruct shape_polyhedral as (i & s & e & Es & Eg & Eh). rewrite Es. cbn [obind]. rewrite Eh, Hs, Fs, !running_starts0.
  destruct Ho as [[-> ->]|[-> ->]]; reflexivity.
Qed.
(** either generated, where they fit, or already there *)
Definition offsets_fit (t : topo) (rows : list (list Z)) : Prop :=
  t_offs t = Some (starts rows) \/ (t_offs t = None /\ Forall (fun x => x <= int_max (offset_type t)) (starts rows)).
Lemma offsets_any t rows de ds : has_rows t rows -> t_shape t <> L "polyhedral" -> offsets_fit t rows ->
  exists ds', gen_offsets de ds t = Ok (starts rows, ds').
Proof.
  intros H NP [O|[O B]]; [|exists []; apply offsets_law; assumption]. destruct H as [Hc Hs]. unfold gen_offsets.
  destruct (points_of (t_shape t)) as [n|] eqn:Ep.
  - destruct (shape_fixed _ _ Ep) as (i & s & e & Es & Ei & Eg & Eh & Ln). rewrite Es. cbn [obind]. rewrite Eh, O. eauto.
  - destruct Hs as [[Ep'|Ep'] Hs]; [|congruence]. destruct shape_polygonal as (i & s & e & Es & Eg & Eh). rewrite Ep', Es. cbn [obind]. rewrite Eh, O. eauto.
Qed.

(** ---- rows ---- *)
Lemma slice_row rows k r : nth_error rows k = Some r -> slice (concat rows) (zlen (concat (firstn k rows))) (zlen r) = Ok r.
Proof.
  intros E. unfold slice. apply omapM_nth; [unfold zseq; rewrite map_length, seq_length; unfold zlen; lia|].
  intros i x y Ex Ey. unfold zlen in Ex. rewrite zseq_nat in Ex. rewrite nth_error_map in Ex.
  pose proof (nth_error_Some_lt _ _ _ Ey) as Li. rewrite (nth_error_nth' _ 0%nat) in Ex by (rewrite seq_length; exact Li). rewrite seq_nth in Ex by exact Li. cbn in Ex. injection Ex as <-.
  unfold at_, zlen. rewrite <- Nat2Z.inj_add, znth_nat. rewrite (concat_at _ _ _ _ E Li), Ey. reflexivity.
Qed.
Lemma at_starts rows k r : nth_error rows k = Some r -> at_ (starts rows) (Z.of_nat k) = Ok (zlen (concat (firstn k rows))).
Proof. intros E. apply nth_error_Some_lt in E. unfold at_. rewrite znth_nat, starts_nth by exact E. reflexivity. Qed.
Lemma at_lens (rows : list (list Z)) k r : nth_error rows k = Some r -> at_ (map zlen rows) (Z.of_nat k) = Ok (zlen r).
Proof. intros E. unfold at_. rewrite znth_nat, nth_error_map, E. reflexivity. Qed.

Lemma omapM_comp {A B C} (g : A -> B) (f : B -> outcome C) l : omapM f (map g l) = omapM (fun x => f (g x)) l.
Proof. induction l as [|x l IH]; [reflexivity|]. cbn [map]. rewrite !omapM_cons, IH. reflexivity. Qed.

(** ---- sets ---- *)
Lemma sins_in x l y : In y (sins x l) <-> y = x \/ In y l.
Proof.
  induction l as [|z l IH]; cbn [sins In]; [intuition|].
  destruct (Z.ltb_spec x z); [cbn [In]; intuition|]. destruct (Z.eqb_spec x z); [subst; cbn [In]; intuition|]. cbn [In]. rewrite IH. intuition.
Qed.
Lemma sins_sorted x l : StronglySorted Z.lt l -> StronglySorted Z.lt (sins x l).
Proof.
  induction 1 as [|z l S IH F]; cbn [sins]; [constructor; constructor|].
  destruct (Z.ltb_spec x z); [constructor; [constructor; assumption|]|].
  - constructor; [assumption|]. eapply Forall_impl; [|exact F]. cbn. intros; lia.
  - destruct (Z.eqb_spec x z); [constructor; assumption|]. constructor; [exact IH|]. apply Forall_forall. intros y I. apply sins_in in I. rewrite Forall_forall in F.
    destruct I as [->|I]; [lia|apply F, I].
Qed.
Lemma to_set_ok l : set_of (to_set l) l.
Proof.
  unfold to_set. assert (K : forall s, StronglySorted Z.lt s -> StronglySorted Z.lt (fold_left (fun s x => sins x s) l s) /\
    forall y, In y (fold_left (fun s x => sins x s) l s) <-> In y s \/ In y l).
  { induction l as [|x l IH]; intros s S; cbn [fold_left]; [split; [exact S|]; cbn; intuition|].
    destruct (IH (sins x s) (sins_sorted x s S)) as [A B]. split; [exact A|]. intros y. rewrite B, sins_in. cbn [In]. intuition. }
  destruct (K [] (SSorted_nil _)) as [A B]. split; [exact A|]. intros y. rewrite B. cbn. intuition.
Qed.

(** ---- points ---- *)
Theorem points_law fuel t rows k r : has_rows t rows -> t_shape t <> L "polyhedral" -> offsets_fit t rows -> nth_error rows k = Some r ->
  points fuel t (Z.of_nat k) false = Ok r /\ exists u, points fuel t (Z.of_nat k) true = Ok u /\ set_of u r.
Proof.
  intros H NP O E. destruct (offsets_any t rows (or_empty (t_offs t)) (or_empty (t_sub_offs t)) H NP O) as [ds' G].
  assert (K : exists i s e, shape_of (t_shape t) = Ok (Some (i, s, e)) /\ is_polyhedral s e = false /\
    (if is_polygonal s e then at_ (t_sizes t) (Z.of_nat k) else Ok (s_indices s)) = Ok (zlen r)).
  { destruct H as [Hc Hs]. destruct (points_of (t_shape t)) as [n|] eqn:Ep.
    - destruct (shape_fixed _ _ Ep) as (i & s & e & Es & Ei & Eg & Eh & Ln). exists i, s, e. rewrite Eg, Ei. repeat split; [exact Es|exact Eh|]. unfold zlen.
      rewrite Forall_forall in Hs. rewrite (Hs r) by (eapply nth_error_In; exact E). reflexivity.
    - destruct Hs as [[Ep'|Ep'] Hs]; [|congruence]. destruct shape_polygonal as (i & s & e & Es & Eg & Eh). exists i, s, e. rewrite Ep', Eg, Hs. repeat split; [exact Es|exact Eh|]. apply at_lens, E. }
  destruct K as (i & s & e & Es & Eh & En). unfold points, offsets_inline. rewrite Es, G. cbn [obind]. rewrite Eh, (at_starts _ _ _ E). cbn [obind]. rewrite En. cbn [obind].
  rewrite (hr_conn _ _ H), (slice_row _ _ _ E). cbn [obind]. split; [reflexivity|]. eexists. split; [reflexivity|]. apply to_set_ok.
Qed.

Lemma many_row conn sizes offs i o n : at_ sizes (Z.of_nat i) = Ok (Z.of_nat n) -> at_ offs (Z.of_nat i) = Ok o -> forall m k fuel, (k + m = n)%nat -> (m < fuel)%nat ->
  many_loop fuel (rel_of conn sizes offs) (Z.of_nat i, Z.of_nat k) = Ok (map (fun j => o + Z.of_nat j) (seq k m), (Z.of_nat i, Z.of_nat n)).
Proof.
  intros Es Eo.
  assert (Li : (i < length sizes)%nat). { unfold at_ in Es. rewrite znth_nat in Es. destruct (nth_error sizes i) eqn:E; [|discriminate]. apply nth_error_Some_lt in E. exact E. }
  assert (En : elements_many (rel_of conn sizes offs) (Z.of_nat i) = Ok (Z.of_nat n)).
  { unfold elements_many, elements_one, rel_of. cbn [o_sizes obind]. replace (_ <? _) with true by (unfold zlen; lia). exact Es. }
  induction m as [|m IH]; intros k fuel E F; (destruct fuel as [|f]; [lia|]); cbn [many_loop has_next]; unfold has_next_many; cbn [fst snd]; rewrite En; cbn [obind].
  - replace (_ <? _) with false by lia. cbn. do 3 f_equal. lia.
  - replace (_ <? _) with true by lia. cbn [next obind fst snd]. unfold it_index_at. cbn [rel_of o_offsets o_indices]. rewrite Eo. cbn [obind].
    replace (Z.of_nat k + 1) with (Z.of_nat (S k)) by lia. rewrite IH by lia. cbn [obind seq map]. do 3 f_equal. lia.
Qed.
Lemma group_row rows fuel k r : nth_error rows k = Some r -> (length r < fuel)%nat ->
  group_values fuel (concat rows) (map zlen rows) (starts rows) (Z.of_nat k) = Ok r.
Proof.
  intros E F. unfold group_values. cbn [to_ obind]. unfold to_front. cbn [fst].
  pose proof (at_lens _ _ _ E) as A. pose proof (at_starts _ _ _ E) as B. unfold zlen at 2 in A.
  rewrite (many_row (concat rows) (map zlen rows) (starts rows) k _ (length r) A B (length r) 0 fuel eq_refl F : many_loop fuel _ (Z.of_nat k, 0) = _).
  cbn [obind]. rewrite <- (slice_row rows k r E). unfold slice, zlen. rewrite zseq_nat, <- (map_map Z.of_nat (fun j => _ + j)). rewrite omapM_comp. reflexivity.
Qed.
Lemma at_face faces f : 0 <= f < zlen faces -> nth_error faces (Z.to_nat f) = Some (face faces f).
Proof. unfold zlen. intros H. apply nth_error_nth'. lia. Qed.
Theorem points_poly fuel t rows faces k r uq : has_rows t rows -> has_faces t faces ->
  t_offs t = None \/ t_offs t = Some (starts rows) -> t_sub_offs t = None \/ t_sub_offs t = Some (starts faces) ->
  nth_error rows k = Some r -> Forall (fun f => 0 <= f < zlen faces) r -> (length r < fuel)%nat -> Forall (fun l => (length l < fuel)%nat) faces ->
  exists u, points fuel t (Z.of_nat k) uq = Ok u /\ set_of u (flat_map (face faces) r).
Proof.
  intros H Hf O So E Fr L1 L2. unfold points. rewrite (offsets_poly t rows faces H Hf O So). destruct H as [Hc Hs], Hf as [Sh Fc Fs]. rewrite Sh in *. cbn in Hs. destruct Hs as [_ Hs].
  destruct shape_polyhedral as (i & s & e & Es & Eg & Eh). rewrite Es. cbn [obind]. rewrite Eh, Hc, Hs, Fc, Fs, (group_row rows fuel k r E L1). cbn [obind].
  destruct (to_set_ok r) as [_ Sr].
  rewrite (omapM_nth _ (to_set r) (map (face faces) (to_set r))).
  - cbn [obind]. eexists. split; [reflexivity|]. destruct (to_set_ok (concat (map (face faces) (to_set r)))) as [A B]. split; [exact A|]. intros x. rewrite B.
    rewrite <- flat_map_concat_map, !in_flat_map. split; intros (f & I & J); exists f; (split; [apply Sr, I|exact J]).
  - apply map_length.
  - intros j f y Ej Ey. rewrite nth_error_map, Ej in Ey. cbn in Ey. injection Ey as <-. rewrite Forall_forall in Fr. specialize (Fr f (proj1 (Sr f) (nth_error_In _ _ Ej))).
    pose proof (at_face faces f Fr) as Ef. rewrite <- (Z2Nat.id f) at 1 by lia. apply group_row; [exact Ef|]. rewrite Forall_forall in L2. apply L2. eapply nth_error_In. exact Ef.
Qed.

(** ---- unique_mask ---- *)
Definition hits (v : list Z) (ps : list (nat * nat)) (r : nat) : nat :=
  length (filter (fun p => Nat.eqb (snd p) r && (nth (fst p) v 0 =? nth (snd p) v 0)) ps).
Lemma hits_cons v p ps r : hits v (p :: ps) r = ((if Nat.eqb (snd p) r && (nth (fst p) v 0%Z =? nth (snd p) v 0%Z)%Z then 1 else 0) + hits v ps r)%nat.
Proof. unfold hits. cbn [filter]. destruct (_ && _); reflexivity. Qed.
Lemma mask_loop v ps : (forall p, In p ps -> (fst p < length v)%nat /\ (snd p < length v)%nat) -> forall m b, length m = length v ->
  exists m' b', for_ ps (mask_step v) (m, b) = Ok (m', b') /\ length m' = length v /\
    (forall r, (r < length v)%nat -> nth r m' 0 = nth r m 0 - Z.of_nat (hits v ps r)) /\
    (b' = true <-> b = true \/ exists p, In p ps /\ nth (fst p) v 0 = nth (snd p) v 0).
Proof.
  induction ps as [|[l r0] ps IH]; intros R m b Lm.
  - exists m, b. cbn. repeat split; [exact Lm|intros; lia|tauto|intros [H|(p & [] & _)]; exact H].
  - destruct (R (l, r0) (or_introl eq_refl)) as [R1 R2]. cbn [fst snd] in R1, R2. assert (R' : forall p, In p ps -> (fst p < length v)%nat /\ (snd p < length v)%nat) by (intros p I; apply R; right; exact I).
    cbn [for_]. unfold mask_step at 1. cbn [fst snd]. rewrite (nth_error_nth' v 0 R1), (nth_error_nth' v 0 R2). cbn [deref obind].
    destruct (Z.eqb_spec (nth l v 0) (nth r0 v 0)) as [E|E].
    + rewrite (nth_error_nth' m 0) by lia. cbn [deref obind].
      destruct (IH R' (set_nth m r0 (nth r0 m 0 - 1)) true) as (m' & b' & Ef & Lm' & Hm & Hb); [rewrite set_nth_len; exact Lm|].
      exists m', b'. split; [exact Ef|]. split; [exact Lm'|]. split.
      * intros r Hr. rewrite (Hm r Hr), hits_cons. cbn [fst snd]. destruct (Nat.eqb_spec r0 r) as [->|N].
        -- rewrite (nth_error_nth _ _ _ (set_nth_same m r (nth r m 0 - 1) ltac:(lia))). replace (_ =? _) with true by lia. cbn [andb]. lia.
        -- cbn [andb]. assert (X : nth r (set_nth m r0 (nth r0 m 0 - 1)) 0 = nth r m 0) by (rewrite !nth_default_eq_nth || idtac; apply nth_error_nth; rewrite set_nth_diff by congruence; apply nth_error_nth'; lia). rewrite X. lia.
      * split; [intros _; right; exists (l, r0); split; [left; reflexivity|exact E]|]. intros _. apply Hb. left. reflexivity.
    + cbn [obind]. destruct (IH R' m b Lm) as (m' & b' & Ef & Lm' & Hm & Hb). exists m', b'. split; [exact Ef|]. split; [exact Lm'|]. split.
      * intros r Hr. rewrite (Hm r Hr), hits_cons. cbn [fst snd]. replace (nth l v 0 =? nth r0 v 0) with false by lia. rewrite andb_false_r. lia.
      * rewrite Hb. split; [intros [H|(p & I & H)]; [left; exact H|right; exists p; split; [right; exact I|exact H]]|].
        intros [H|(p & [<-|I] & H)]; [left; exact H|contradiction|right; exists p; split; assumption].
Qed.
(** the tables hold, for every r < n, the pairs (0, r), ..., (r-1, r) *)
Definition tables_ok (n : nat) : bool :=
  forallb (fun p => (fst p <? snd p)%nat && (snd p <? n)%nat) (mask_pairs n) &&
  forallb (fun r => if list_eq_dec Nat.eq_dec (map fst (filter (fun p => Nat.eqb (snd p) r) (mask_pairs n))) (seq 0 r) then true else false) (seq 0 n).
Lemma tables_all n : (n <= 8)%nat -> tables_ok n = true.
Proof. intros H. do 9 (destruct n as [|n]; [vm_compute; reflexivity|]). lia. Qed.
Lemma tables_pairs n p : (n <= 8)%nat -> In p (mask_pairs n) -> (fst p < snd p)%nat /\ (snd p < n)%nat.
Proof. intros H I. pose proof (tables_all n H) as T. apply andb_prop in T. destruct T as [T _]. rewrite forallb_forall in T. specialize (T p I). apply andb_prop in T. destruct T. split; apply Nat.ltb_lt; assumption. Qed.
Lemma tables_row n r : (n <= 8)%nat -> (r < n)%nat -> map fst (filter (fun p => Nat.eqb (snd p) r) (mask_pairs n)) = seq 0 r.
Proof.
  intros H R. pose proof (tables_all n H) as T. apply andb_prop in T. destruct T as [_ T]. rewrite forallb_forall in T. specialize (T r ltac:(apply in_seq; lia)).
  destruct (list_eq_dec _ _ _) as [E|]; [exact E|discriminate].
Qed.
Lemma map_nth_seq (v : list Z) r : (r <= length v)%nat -> map (fun l => nth l v 0) (seq 0 r) = firstn r v.
Proof.
  intros H. apply nth_error_ext'. intros i. rewrite nth_error_map. destruct (Nat.lt_ge_cases i r) as [C|C].
  - rewrite (nth_error_nth' _ 0%nat) by (rewrite seq_length; exact C). rewrite seq_nth by exact C. cbn [option_map Nat.add]. rewrite nth_error_firstn' by exact C. symmetry. apply nth_error_nth'. lia.
  - rewrite !(proj2 (nth_error_None _ _)); [reflexivity| |]; rewrite ?firstn_length, ?seq_length; lia.
Qed.
Lemma hits_count v r : (length v <= 8)%nat -> (r < length v)%nat -> hits v (mask_pairs (length v)) r = count_occ Z.eq_dec (firstn r v) (nth r v 0).
Proof.
  intros H R. rewrite <- (map_nth_seq v r) by lia. rewrite <- (tables_row (length v) r H R). unfold hits.
  induction (mask_pairs (length v)) as [|p ps IH]; [reflexivity|]. cbn [filter]. destruct (Nat.eqb_spec (snd p) r) as [E|E]; cbn [andb]; [|exact IH].
  subst r. cbn [map count_occ]. destruct (Z.eqb_spec (nth (fst p) v 0) (nth (snd p) v 0)) as [Q|Q]; (destruct (Z.eq_dec _ _); [|]); cbn [length]; try congruence; rewrite IH; reflexivity.
Qed.

(** ---- first occurrences ---- *)
Lemma existsb_In x l : existsb (Z.eqb x) l = true <-> In x l.
Proof. rewrite existsb_exists. split; [intros (y & I & E); apply Z.eqb_eq in E; subst; exact I|intros I; exists x; split; [exact I|apply Z.eqb_refl]]. Qed.
Lemma firsts_ext l : forall s s', (forall x, In x s <-> In x s') -> firsts s l = firsts s' l.
Proof.
  induction l as [|x l IH]; intros s s' H; [reflexivity|]. cbn [firsts].
  assert (E : existsb (Z.eqb x) s = existsb (Z.eqb x) s') by (apply Bool.eq_iff_eq_true; rewrite !existsb_In; apply H). rewrite E.
  destruct (existsb _ s'); [apply IH, H|]. f_equal. apply IH. intros y. cbn [In]. rewrite (H y). reflexivity.
Qed.
Lemma firsts_keep l : forall m pre, length m = length l ->
  (forall i, (i < length l)%nat -> (nth i m 0 <> 0) <-> ~ In (nth i l 0) (pre ++ firstn i l)) ->
  map fst (filter (fun im => negb (snd im =? 0)) (combine l m)) = firsts pre l.
Proof.
  induction l as [|x l IH]; intros m pre Lm H; destruct m as [|y m]; try discriminate; [reflexivity|]. cbn [combine filter snd firsts].
  pose proof (H 0%nat ltac:(cbn; lia)) as H0. cbn [nth firstn] in H0. rewrite app_nil_r in H0.
  assert (T : forall pre', (forall z, In z pre' <-> In z (pre ++ [x])) -> map fst (filter (fun im => negb (snd im =? 0)) (combine l m)) = firsts pre' l).
  { intros pre' Hp. apply IH; [cbn in Lm; lia|]. intros i Hi. rewrite (H (S i) ltac:(cbn; lia)). cbn [nth firstn]. rewrite !in_app_iff. rewrite Hp. rewrite in_app_iff. cbn [In]. tauto. }
  destruct (existsb (Z.eqb x) pre) eqn:Ex.
  - apply existsb_In in Ex. replace (y =? 0) with true by (destruct (Z.eqb_spec y 0); [reflexivity|tauto]). cbn [negb]. apply T. intros z. rewrite in_app_iff. cbn [In]. split; [tauto|]. intros [?|[<-|[]]]; assumption.
  - assert (Nx : ~ In x pre) by (intros I; apply existsb_In in I; congruence). replace (y =? 0) with false by (destruct (Z.eqb_spec y 0); [tauto|reflexivity]). cbn [negb map fst]. f_equal.
    apply T. intros z. rewrite in_app_iff. cbn [In]. tauto.
Qed.
Lemma firsts_nodup l : forall pre, NoDup l -> (forall x, In x l -> ~ In x pre) -> firsts pre l = l.
Proof.
  induction l as [|x l IH]; intros pre N H; [reflexivity|]. cbn [firsts]. inversion_clear N. destruct (existsb _ pre) eqn:E; [apply existsb_In in E; destruct (H x (or_introl eq_refl) E)|].
  f_equal. apply IH; [assumption|]. intros y I [<-|J]; [contradiction|]. apply (H y); [right; exact I|exact J].
Qed.
Lemma push_all l : forall ids, fold_left push_new l ids = ids ++ firsts ids l.
Proof.
  induction l as [|x l IH]; intros ids; cbn [fold_left firsts]; [rewrite app_nil_r; reflexivity|]. unfold push_new at 2. destruct (existsb _ ids) eqn:E; [apply IH|].
  rewrite IH, <- app_assoc. cbn [app]. do 2 f_equal. apply firsts_ext. intros y. rewrite in_app_iff. cbn [In]. tauto.
Qed.
Lemma firsts_app l1 : forall pre l2, firsts pre (l1 ++ l2) = firsts pre l1 ++ firsts (pre ++ l1) l2.
Proof.
  induction l1 as [|x l1 IH]; intros pre l2; cbn [firsts app]; [rewrite app_nil_r; reflexivity|]. destruct (existsb _ pre) eqn:E.
  - rewrite IH. f_equal. apply firsts_ext. intros y. apply existsb_In in E. rewrite !in_app_iff. cbn [In]. split; [tauto|]. intros [?|[<-|?]]; tauto.
  - rewrite IH. cbn [app]. do 2 f_equal. apply firsts_ext. intros y. cbn [In app]. rewrite !in_app_iff. cbn [In]. tauto.
Qed.
(** what [distinct] is: every member once, in order of first appearance *)
Lemma firsts_in l : forall pre x, In x (firsts pre l) <-> In x l /\ ~ In x pre.
Proof.
  induction l as [|y l IH]; intros pre x; cbn [firsts]; [cbn; tauto|]. destruct (existsb _ pre) eqn:E.
  - rewrite IH. apply existsb_In in E. cbn [In]. split; [tauto|]. intros [[<-|I] N]; tauto.
  - cbn [In]. rewrite IH. cbn [In]. assert (~ In y pre) by (intros I; apply existsb_In in I; congruence). split.
    + intros [<-|[I N]]; tauto.
    + intros [[->|I] N]; [tauto|]. destruct (Z.eq_dec y x); tauto.
Qed.
Lemma firsts_NoDup l : forall pre, NoDup (firsts pre l).
Proof.
  induction l as [|y l IH]; intros pre; cbn [firsts]; [constructor|]. destruct (existsb _ pre); [apply IH|]. constructor; [|apply IH]. rewrite firsts_in. cbn [In]. tauto.
Qed.
Lemma distinct_ok l : NoDup (distinct l) /\ forall x, In x (distinct l) <-> In x l.
Proof. unfold distinct. split; [apply firsts_NoDup|]. intros x. rewrite firsts_in. cbn. tauto. Qed.

Lemma count_firstn r v x : (count_occ Z.eq_dec (firstn r v) x <= count_occ Z.eq_dec v x)%nat.
Proof. rewrite <- (firstn_skipn r v) at 2. rewrite count_occ_app. lia. Qed.
Lemma count_before r v : (r < length v)%nat -> (count_occ Z.eq_dec (firstn r v) (nth r v 0%Z) < count_occ Z.eq_dec v (nth r v 0%Z))%nat.
Proof.
  intros H. pose proof (count_occ_app Z.eq_dec (firstn r v) (skipn r v) (nth r v 0)) as Q. rewrite firstn_skipn in Q. rewrite Q. clear Q. destruct (skipn r v) as [|y w] eqn:E; [apply (f_equal (@length Z)) in E; rewrite skipn_length in E; cbn in E; lia|].
  assert (y = nth r v 0). { pose proof (nth_error_skipn' r v 0) as K. rewrite E, Nat.add_0_r in K. cbn in K. symmetry. apply nth_error_nth. congruence. }
  subst y. cbn [count_occ]. destruct (Z.eq_dec _ _); [lia|congruence].
Qed.
Lemma nth_repeat_in {A} (x d : A) n i : (i < n)%nat -> nth i (repeat x n) d = x.
Proof. revert i. induction n as [|n IH]; intros [|i] H; cbn; try lia; [reflexivity|]. apply IH. lia. Qed.
Theorem used_law v : (length v <= 8)%nat -> (forall x, (count_occ Z.eq_dec v x <= 2)%nat) -> used_ids v = Ok (distinct v).
Proof.
  intros L C. unfold used_ids, unique_mask.
  destruct (mask_loop v (mask_pairs (length v))) with (m := repeat 1 (length v)) (b := false) as (m & b & E & Lm & Hm & Hb).
  { intros p I. destruct (tables_pairs _ p L I). lia. }
  { apply repeat_length. }
  rewrite E. cbn [obind]. f_equal. assert (K : forall i, (i < length v)%nat -> nth i m 0 <> 0 <-> ~ In (nth i v 0) (firstn i v)).
  { intros i Hi. rewrite (Hm i Hi), (hits_count v i L Hi), nth_repeat_in by exact Hi. pose proof (count_before i v Hi). specialize (C (nth i v 0)).
    rewrite (count_occ_In Z.eq_dec). lia. }
  destruct b; [apply (firsts_keep v m []); [exact Lm|exact K]|]. symmetry. apply firsts_nodup; [|tauto].
  apply (NoDup_nth v 0). intros i j Hi Hj Q. destruct (Nat.lt_trichotomy i j) as [T|[T|T]]; [|exact T|].
  - exfalso. assert (false = true) as X; [|discriminate]. apply Hb. right. pose proof (tables_row (length v) j L Hj) as R. assert (I : In i (seq 0 j)) by (apply in_seq; lia). rewrite <- R in I.
    apply in_map_iff in I. destruct I as ([a c] & Ea & I). apply filter_In in I. destruct I as [I J]. cbn [fst snd] in *. apply Nat.eqb_eq in J. subst. exists (i, j). split; [exact I|exact Q].
  - exfalso. assert (false = true) as X; [|discriminate]. apply Hb. right. pose proof (tables_row (length v) i L Hi) as R. assert (I : In j (seq 0 i)) by (apply in_seq; lia). rewrite <- R in I.
    apply in_map_iff in I. destruct I as ([a c] & Ea & I). apply filter_In in I. destruct I as [I J]. cbn [fst snd] in *. apply Nat.eqb_eq in J. subst. exists (j, i). split; [exact I|symmetry; exact Q].
Qed.

(** ---- centroids ---- *)
Section CentroidFacts.
Context {F : Type}.
Variables (fadd fmul : F -> F -> F) (f0 : F) (finv : nat -> F).
Lemma axis_law coords ids : Forall (fun id => 0 <= id < zlen coords) ids -> axis_mean fadd fmul f0 finv coords ids = Ok (mean fadd fmul f0 finv coords ids).
Proof.
  intros H. unfold axis_mean, mean. rewrite (omapM_nth _ ids (map (fun id => nth (Z.to_nat id) coords f0) ids)).
  - cbn [obind]. do 2 f_equal. generalize f0 at 2 4. induction ids as [|x ids IH]; intros s; [reflexivity|]. cbn [map fold_left]. apply IH. inversion H; assumption.
  - apply map_length.
  - intros i x y Ex Ey. rewrite nth_error_map, Ex in Ey. cbn in Ey. injection Ey as <-. rewrite Forall_forall in H. specialize (H x (nth_error_In _ _ Ex)). unfold zlen in H.
    unfold znth. replace (x <? 0) with false by lia. rewrite (nth_error_nth' _ f0) by lia. reflexivity.
Qed.
Lemma axes_law (coords : list (list F)) ids : Forall (fun c => Forall (fun id => 0 <= id < zlen c) ids) coords ->
  omapM (fun c => axis_mean fadd fmul f0 finv c ids) coords = Ok (map (fun c => mean fadd fmul f0 finv c ids) coords).
Proof.
  intros H. apply omapM_nth; [apply map_length|]. intros i c y Ec Ey. rewrite nth_error_map, Ec in Ey. cbn in Ey. injection Ey as <-. apply axis_law. rewrite Forall_forall in H. apply H. eapply nth_error_In; exact Ec.
Qed.
Lemma in_range_distinct (coords : list (list F)) r : Forall (fun c => Forall (fun id => 0 <= id < zlen c) r) coords ->
  Forall (fun c => Forall (fun id => 0 <= id < zlen c) (distinct r)) coords.
Proof. intros H. eapply Forall_impl; [|exact H]. intros c Hc. apply Forall_forall. intros x I. rewrite Forall_forall in Hc. apply Hc. apply distinct_ok, I. Qed.
(** an element of one to eight points, none more than twice *)
Definition tame (r : list Z) : Prop := (1 <= length r <= 8)%nat /\ forall x, (count_occ Z.eq_dec r x <= 2)%nat.
Theorem centroids_law coords t rows : has_rows t rows -> t_shape t <> L "polyhedral" -> offsets_fit t rows ->
  Forall tame rows -> Forall (fun r => Forall (fun c => Forall (fun id => 0 <= id < zlen c) r) coords) rows ->
  centroids fadd fmul f0 finv coords t = Ok (map (fun r => map (fun c => mean fadd fmul f0 finv c (distinct r)) coords) rows).
Proof.
  intros H NP O T R. destruct (offsets_any t rows [] [] H NP O) as [ds' G].
  assert (K : exists i s e, shape_of (t_shape t) = Ok (Some (i, s, e)) /\ is_polyhedral s e = false /\
    forall k r, nth_error rows k = Some r -> (if is_polygonal s e then at_ (t_sizes t) (Z.of_nat k) else Ok (s_indices s)) = Ok (zlen r)).
  { destruct H as [Hc Hs]. destruct (points_of (t_shape t)) as [n|] eqn:Ep.
    - destruct (shape_fixed _ _ Ep) as (i & s & e & Es & Ei & Eg & Eh & Ln). exists i, s, e. rewrite Eg, Ei. repeat split; [exact Es|exact Eh|]. intros k r E. unfold zlen.
      rewrite Forall_forall in Hs. rewrite (Hs r) by (eapply nth_error_In; exact E). reflexivity.
    - destruct Hs as [[Ep'|Ep'] Hs]; [|congruence]. destruct shape_polygonal as (i & s & e & Es & Eg & Eh). exists i, s, e. rewrite Ep', Eg, Hs. repeat split; [exact Es|exact Eh|]. intros k r E. apply at_lens, E. }
  destruct K as (i & s & e & Es & Eh & En). unfold centroids, offsets_new. rewrite Es, G. cbn [obind]. rewrite Eh.
  apply omapM_nth; [rewrite map_length; unfold zseq, zlen; rewrite map_length, seq_length, starts_len; lia|].
  intros k x y Ex Ey. rewrite nth_error_map in Ey. destruct (nth_error rows k) as [r|] eqn:E; [|discriminate]. cbn in Ey. injection Ey as <-.
  unfold zlen in Ex. rewrite zseq_nat, nth_error_map, starts_len in Ex. pose proof (nth_error_Some_lt _ _ _ E) as Lk. rewrite (nth_error_nth' _ 0%nat) in Ex by (rewrite seq_length; exact Lk). rewrite seq_nth in Ex by exact Lk. cbn in Ex. injection Ex as <-.
  rewrite (at_starts _ _ _ E). cbn [obind]. rewrite (En k r E). cbn [obind]. rewrite Forall_forall in T, R. specialize (T r (nth_error_In _ _ E)). specialize (R r (nth_error_In _ _ E)). destruct T as [T1 T2].
  unfold centroid. replace (zlen r <=? 0) with false by (unfold zlen; lia). rewrite (hr_conn _ _ H), (slice_row _ _ _ E). cbn [obind]. rewrite used_law by (lia || exact T2). cbn [obind].
  apply axes_law, in_range_distinct, R.
Qed.
Lemma faces_walk t faces row : has_faces t faces -> Forall (fun f => 0 <= f < zlen faces) row -> forall base conn, t_conn t = conn -> (forall i f, nth_error row i = Some f -> at_ conn (base + Z.of_nat i) = Ok f) ->
  for_ (zseq (zlen row)) (fun fi ids => face_ids t (starts faces) (base + fi) ids) [] = Ok (distinct (flat_map (face faces) row)).
Proof.
  intros [Sh Fc Fs] R base conn Ec A. unfold zlen. rewrite zseq_nat, for_map.
  assert (K : forall todo pre, row = pre ++ todo ->
    for_ (seq (length pre) (length todo)) (fun x ids => face_ids t (starts faces) (base + Z.of_nat x) ids) (distinct (flat_map (face faces) pre)) = Ok (distinct (flat_map (face faces) row))).
  { induction todo as [|f todo IH]; intros pre E.
    - rewrite app_nil_r in E. subst row. reflexivity.
    - cbn [length seq for_]. assert (Ef : nth_error row (length pre) = Some f) by (rewrite E, nth_error_app2, Nat.sub_diag by lia; reflexivity).
      unfold face_ids at 1. rewrite Ec, (A _ _ Ef). cbn [obind]. rewrite Forall_forall in R. pose proof (R f (nth_error_In _ _ Ef)) as Rf.
      pose proof (at_face faces f Rf) as Eface. rewrite Fs, Fc. pose proof (at_starts _ _ _ Eface) as A1. pose proof (at_lens _ _ _ Eface) as A2. rewrite Z2Nat.id in A1, A2 by lia. rewrite A1. cbn [obind]. rewrite A2. cbn [obind]. rewrite (slice_row _ _ _ Eface). cbn [obind].
      rewrite push_all. specialize (IH (pre ++ [f])). rewrite app_length in IH. cbn [length] in IH. rewrite Nat.add_1_r in IH. rewrite <- IH by (rewrite <- app_assoc; exact E). f_equal.
      rewrite flat_map_app. cbn [flat_map]. rewrite app_nil_r. unfold distinct at 3. rewrite firsts_app. cbn [app]. unfold distinct at 1. f_equal. apply firsts_ext. intros y. apply distinct_ok. }
  apply (K row [] eq_refl).
Qed.
Theorem centroids_poly coords t rows faces : has_rows t rows -> has_faces t faces ->
  (t_offs t = None /\ t_sub_offs t = None) \/ (t_offs t = Some (starts rows) /\ t_sub_offs t = Some (starts faces)) ->
  Forall (Forall (fun f => 0 <= f < zlen faces)) rows ->
  Forall (fun l => Forall (fun c => Forall (fun id => 0 <= id < zlen c) l) coords) faces ->
  centroids fadd fmul f0 finv coords t = Ok (map (fun r => map (fun c => mean fadd fmul f0 finv c (distinct (flat_map (face faces) r))) coords) rows).
Proof.
  intros H Hf O R Rf. unfold centroids. rewrite (offsets_poly_new t rows faces H Hf O). pose proof H as [Hc Hs]. pose proof Hf as [Sh Fc Fs]. rewrite Sh in Hs |- *. cbn in Hs. destruct Hs as [_ Hs].
  destruct shape_polyhedral as (i & s & e & Es & Eg & Eh). rewrite Es. cbn [obind]. rewrite Eh.
  apply omapM_nth; [rewrite map_length; unfold zseq, zlen; rewrite map_length, seq_length, starts_len; lia|].
  intros k x y Ex Ey. rewrite nth_error_map in Ey. destruct (nth_error rows k) as [r|] eqn:E; [|discriminate]. cbn in Ey. injection Ey as <-.
  unfold zlen in Ex. rewrite zseq_nat, nth_error_map, starts_len in Ex. pose proof (nth_error_Some_lt _ _ _ E) as Lk. rewrite (nth_error_nth' _ 0%nat) in Ex by (rewrite seq_length; exact Lk). rewrite seq_nth in Ex by exact Lk. cbn in Ex. injection Ex as <-.
  unfold centroid_poly. rewrite (at_starts _ _ _ E). cbn [obind]. rewrite Hs, (at_lens _ _ _ E). cbn [obind]. rewrite Forall_forall in R. pose proof (R r (nth_error_In _ _ E)) as Rr.
  rewrite (faces_walk t faces r Hf Rr (zlen (concat (firstn k rows))) (concat rows) Hc).
  - cbn [obind]. apply axes_law, in_range_distinct. apply Forall_forall. intros c Ic. apply Forall_forall. intros id I. apply in_flat_map in I. destruct I as (f & If & I). rewrite Forall_forall in Rr. pose proof (at_face faces f (Rr f If)) as Ef.
    rewrite Forall_forall in Rf. specialize (Rf _ (nth_error_In _ _ Ef)). rewrite Forall_forall in Rf. specialize (Rf c Ic). rewrite Forall_forall in Rf. apply Rf, I.
  - intros j f Ej. unfold at_, zlen. rewrite <- Nat2Z.inj_add, znth_nat, (concat_at _ _ _ _ E (nth_error_Some_lt _ _ _ Ej)), Ej. reflexivity.
Qed.
End CentroidFacts.

(** ---- stream topologies ---- *)
(** groups of elements of one stream id each, one group after another *)
Definition stream_types_ok (types : list (Z * str)) (groups : list (Z * list (list Z))) : Prop :=
  NoDup (map fst types) /\
  Forall (fun g => exists name n, In (fst g, name) types /\ In name [L "line"; L "tri"; L "quad"; L "tet"] /\
                   points_of name = Some n /\ Forall (fun r => length r = n) (snd g)) groups.
Lemma stream_points_ok types sid name n : NoDup (map fst types) -> In (sid, name) types -> In name [L "line"; L "tri"; L "quad"; L "tet"] -> points_of name = Some n ->
  stream_points types sid = Z.of_nat n.
Proof.
  intros N I Nm E. unfold stream_points. generalize 0.
  assert (V : exists i s, name_index name shape_names 0 = Some i /\ nth_error shape_table i = Some s /\ s_count s = Z.of_nat n).
  { cbn [In] in Nm. destruct Nm as [<-|[<-|[<-|[<-|[]]]]]; vm_compute in E; injection E as <-; eexists _, _; repeat split; vm_compute; reflexivity. }
  destruct V as (i & s & V1 & V2 & V3).
  induction types as [|[k m] types IH]; [destruct I|]. intros z. cbn [fold_left fst snd]. inversion_clear N. destruct I as [Q|I].
  - injection Q as -> ->. rewrite Z.eqb_refl, V1, V2, V3. clear - H. induction types as [|[k m] types IH]; [reflexivity|]. cbn [fold_left fst snd].
    cbn in H. replace (k =? sid) with false by lia. apply IH. tauto.
  - destruct (Z.eqb_spec k sid) as [->|]; [|apply IH; assumption]. exfalso. apply H. apply (in_map fst) in I. exact I.
Qed.
Theorem stream_law types groups : stream_types_ok types groups ->
  stream_by_counts types 0 (map (fun g => (fst g, zlen (snd g))) groups) = starts (flat_map snd groups).
Proof.
  intros [N G]. assert (K : forall o, stream_by_counts types o (map (fun g => (fst g, zlen (snd g))) groups) = map (fun x => o + x) (starts (flat_map snd groups))).
  { induction G as [|[sid rows] groups (name & n & I & Nm & E & R) G IH]; intros o; [reflexivity|]. cbn [map stream_by_counts fst snd flat_map] in *.
    rewrite (stream_points_ok types sid name n N I Nm E), IH. replace (Z.max 0 (zlen rows)) with (zlen rows) by (unfold zlen; lia).
    unfold starts at 2. rewrite app_length, seq_app, !map_app. f_equal.
    - unfold zlen at 1. rewrite zseq_nat, !map_map. apply map_ext_in. intros k Hk. apply in_seq in Hk. pose proof (starts_fixed n rows R) as Q. unfold starts in Q.
      rewrite firstn_app. replace (k - length rows)%nat with 0%nat by lia. cbn [firstn]. rewrite app_nil_r.
      apply (f_equal (fun l => nth_error l k)) in Q. rewrite !nth_error_map, (nth_error_nth' _ 0%nat) in Q by (rewrite seq_length; lia). rewrite seq_nth in Q by lia. cbn [option_map Nat.add] in Q. injection Q as Q. rewrite Q. reflexivity.
    - unfold starts. rewrite !map_map. cbn [Nat.add]. rewrite <- (Nat.add_0_r (length rows)) at 1. generalize 0%nat as a. generalize (length (flat_map snd groups)) as m. intros m.
      induction m as [|m IHm]; intros a; [reflexivity|]. cbn [seq map]. rewrite <- Nat.add_succ_r, <- IHm. f_equal. rewrite firstn_app. rewrite (firstn_all2 rows) by lia. replace (length rows + a - length rows)%nat with a by lia.
      rewrite concat_app, zlen_app. unfold zlen. rewrite (concat_len n rows) by exact R. lia. }
  rewrite K. rewrite <- (map_id (starts _)) at 2. apply map_ext. intros; lia.
Qed.

(** ---- faces ---- *)
(** the directed edges around a face *)
Definition edges (f : list Z) : list (Z * Z) := combine f (tl f ++ firstn 1 f).
(** every edge is used by two faces, once in each direction *)
Definition closed (faces : list (list Z)) : Prop :=
  NoDup (flat_map edges faces) /\ forall a b, In (a, b) (flat_map edges faces) -> In (b, a) (flat_map edges faces).
(** corners of the reference elements (docs/sphinx/blueprint_mesh.rst, element windings) *)
Definition corners (name : str) : list (Z * Z * Z) :=
  if str_eqb name (L "tet") then [(0, 0, 0); (1, 0, 0); (0, 1, 0); (0, 0, 1)]
  else if str_eqb name (L "hex") then [(0, 0, 0); (1, 0, 0); (1, 1, 0); (0, 1, 0); (0, 0, 1); (1, 0, 1); (1, 1, 1); (0, 1, 1)]
  else if str_eqb name (L "wedge") then [(0, 0, 0); (1, 0, 0); (0, 1, 0); (0, 0, 1); (1, 0, 1); (0, 1, 1)]
  else if str_eqb name (L "pyramid") then [(0, 0, 0); (1, 0, 0); (1, 1, 0); (0, 1, 0); (0, 0, 1)]
  else [].
Definition det (a b c : Z * Z * Z) : Z :=
  let '(ax, ay, az) := a in let '(bx, by_, bz) := b in let '(cx, cy, cz) := c in
  ax * (by_ * cz - bz * cy) - ay * (bx * cz - bz * cx) + az * (bx * cy - by_ * cx).
Definition minus (a b : Z * Z * Z) : Z * Z * Z := let '(ax, ay, az) := a in let '(bx, by_, bz) := b in (ax - bx, ay - by_, az - bz).
Definition corner (ps : list (Z * Z * Z)) (i : Z) : Z * Z * Z := nth (Z.to_nat i) ps (0, 0, 0).
(** seen from outside, a face runs counterclockwise: nothing of the element lies on the
    side its first three corners point to, and what is in the plane of the face is on it *)
Definition outward (ps : list (Z * Z * Z)) (f : list Z) : Prop :=
  exists a b c r, f = a :: b :: c :: r /\ forall i, 0 <= i < zlen ps ->
    let d := det (minus (corner ps b) (corner ps a)) (minus (corner ps c) (corner ps a)) (minus (corner ps i) (corner ps a)) in
    d <= 0 /\ (d = 0 <-> In i f).
(** the faces of a shape *)
Definition shape_faces (name : str) : outcome (list (list Z)) :=
  do sh <- shape_of name;
  match sh with Some (i, s, e) => omapM (fun f => get_face i s e (Z.to_nat f)) (zseq (num_faces i s)) | None => UB end.
Definition closedb (fs : list (list Z)) : bool :=
  let es := flat_map edges fs in
  forallb (fun e => existsb (fun e' => (fst e' =? snd e) && (snd e' =? fst e)) es) es &&
  (fix nd l := match l with [] => true | e :: r => negb (existsb (fun e' => (fst e' =? fst e) && (snd e' =? snd e)) r) && nd r end) es.
Lemma closedb_ok fs : closedb fs = true -> closed fs.
Proof.
  unfold closedb, closed. generalize (flat_map edges fs). intros es H. apply andb_prop in H. destruct H as [H1 H2]. split.
  - clear H1. induction es as [|[a b] es IH]; constructor; apply andb_prop in H2; destruct H2 as [A B]; [|apply IH, B]. intros I. apply negb_true_iff in A.
    assert (X : existsb (fun e' => (fst e' =? fst (a, b)) && (snd e' =? snd (a, b))) es = true) by (apply existsb_exists; exists (a, b); cbn; rewrite !Z.eqb_refl; auto). congruence.
  - intros a b I. rewrite forallb_forall in H1. specialize (H1 _ I). apply existsb_exists in H1. destruct H1 as ([c d] & J & E). cbn in E. apply andb_prop in E. destruct E as [E1 E2]. apply Z.eqb_eq in E1, E2. subst. exact J.
Qed.
Definition outwardb (ps : list (Z * Z * Z)) (f : list Z) : bool :=
  match f with
  | a :: b :: c :: r => forallb (fun i => let d := det (minus (corner ps b) (corner ps a)) (minus (corner ps c) (corner ps a)) (minus (corner ps i) (corner ps a)) in
      (d <=? 0) && Bool.eqb (d =? 0) (existsb (Z.eqb i) f)) (zseq (zlen ps))
  | _ => false
  end.
Lemma outwardb_ok ps f : outwardb ps f = true -> outward ps f.
Proof.
  destruct f as [|a [|b [|c r]]]; try discriminate. cbn [outwardb]. intros H. exists a, b, c, r. split; [reflexivity|]. intros i Hi. rewrite forallb_forall in H. specialize (H i (proj2 (in_zseq _ i) Hi)). cbv zeta in *.
  apply andb_prop in H. destruct H as [H1 H2]. apply Bool.eqb_prop in H2. rewrite <- existsb_In, <- H2, Z.eqb_eq. split; [apply Z.leb_le, H1|reflexivity].
Qed.
Theorem faces_law name n : In name [L "tet"; L "hex"; L "wedge"; L "pyramid"] -> points_of name = Some n ->
  exists fs, shape_faces name = Ok fs /\ closed fs /\ Forall (outward (corners name)) fs /\ length (corners name) = n /\
             (forall i, 0 <= i < Z.of_nat n <-> In i (concat fs)).
Proof.
  assert (U : forall m fs, (forallb (fun i => existsb (Z.eqb i) (concat fs)) (zseq (Z.of_nat m)) && forallb (fun i => (0 <=? i) && (i <? Z.of_nat m)) (concat fs)) = true -> forall i, 0 <= i < Z.of_nat m <-> In i (concat fs)).
  { intros m fs H i. apply andb_prop in H. destruct H as [A B]. rewrite forallb_forall in A, B. split; intros K; [apply existsb_In, A, in_zseq, K|]. specialize (B i K). lia. }
  assert (V : forall ps fs, forallb (outwardb ps) fs = true -> Forall (outward ps) fs).
  { intros ps fs H. apply Forall_forall. intros f I. rewrite forallb_forall in H. apply outwardb_ok, H, I. }
  cbn [In]. intros [<-|[<-|[<-|[<-|[]]]]] E; vm_compute in E; injection E as <-; eexists;
    (split; [vm_compute; reflexivity|]; split; [apply closedb_ok; vm_compute; reflexivity|]; split; [apply V; vm_compute; reflexivity|]; split; [reflexivity|apply U; vm_compute; reflexivity]).
Qed.

(** ---- beyond eight points the comparison runs off the end ---- *)
Theorem mask_over v : (8 < length v)%nat -> unique_mask v = UB.
Proof.
  intros H. unfold unique_mask, mask_pairs. replace (_ <=? 8)%nat with false by (symmetry; apply Nat.leb_gt; exact H).
  destruct (length v) as [|n] eqn:Ln; [lia|]. cbn [seq flat_map]. rewrite for_app. rewrite Nat.sub_0_r, (seq_S n 1), map_app, for_app.
  destruct (mask_loop v (map (pair 0%nat) (seq 1 n))) with (m := repeat 1 (S n)) (b := false) as (m & b & E & _).
  { intros p I. apply in_map_iff in I. destruct I as (k & <- & I). apply in_seq in I. cbn. lia. }
  { rewrite repeat_length. lia. }
  rewrite E. cbn [obind map for_]. unfold mask_step at 1. cbn [fst snd]. rewrite (nth_error_nth' v 0) by lia. cbn [deref obind].
  rewrite (proj2 (nth_error_None v _)) by lia. reflexivity.
Qed.
Theorem centroid_over {F} (fadd fmul : F -> F -> F) f0 finv coords t rows k r : has_rows t rows -> t_shape t = L "polygonal" -> offsets_fit t rows ->
  nth_error rows k = Some r -> (8 < length r)%nat -> centroid fadd fmul f0 finv coords (t_conn t) (zlen (concat (firstn k rows))) (zlen r) = UB.
Proof.
  intros [Hc _] _ _ E H. unfold centroid. replace (zlen r <=? 0) with false by (unfold zlen; lia). rewrite Hc, (slice_row _ _ _ E). cbn [obind]. unfold used_ids. rewrite (mask_over r H). reflexivity.
Qed.
