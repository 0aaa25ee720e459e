(** Specification and facts for the mesh conversions. *)
From Coq Require Import Permutation.
From Verif Require Import Base DType SpecTree Mem Node Number NodeFacts ArrayOps ArrayOpsFacts MatSetFacts SiloFacts SchemaInv MeshConv.
Local Open Scope Z_scope.

(** ---- specification ---- *)
(** a grid has dims_0 * dims_1 * ... places; the first axis runs fastest *)
Fixpoint places (dims : list Z) : Z := match dims with [] => 1 | n :: r => n * places r end.
Fixpoint grid_index (dims idx : list Z) : Z :=
  match dims, idx with n :: dims', i :: idx' => i + n * grid_index dims' idx' | _, _ => 0 end.
Definition in_grid (dims idx : list Z) : Prop := Forall2 (fun n i => 0 <= i < n) dims idx.
(** the corner points of a cell in the order of a line, a quad, a hexahedron: around the
    lower face, then around the upper one *)
Definition corners (cell : list Z) : list (list Z) :=
  match cell with
  | [i] => [[i]; [i + 1]]
  | [i; j] => [[i; j]; [i + 1; j]; [i + 1; j + 1]; [i; j + 1]]
  | [i; j; k] => [[i; j; k]; [i + 1; j; k]; [i + 1; j + 1; k]; [i; j + 1; k];
                  [i; j; k + 1]; [i + 1; j; k + 1]; [i + 1; j + 1; k + 1]; [i; j + 1; k + 1]]
  | _ => []
  end.
(** the w numbers from place w*e on *)
Definition row {A} (w : nat) (l : list A) (e : Z) : list A := firstn w (skipn (w * Z.to_nat e) l).

Section Spec.
Context {F : Type} (fadd fmul : F -> F -> F) (fofz : Z -> F) (f0 f1 : F) (cast : tid -> tid -> F -> F).
(** number d of axis ax is x, of type t *)
Definition scalar_at (o : option (list (str * (tid * F)))) (k : str) (dflt x : F) : Prop :=
  match o with
  | None => x = dflt
  | Some es => exists t v, mget es k = Some (t, v) /\ x = cast t FLOAT64 v
  end.
Definition coordinate (b : base) (c : @cset F) (ax : str) (d : Z) (t : tid) (x : F) : Prop :=
  match b with
  | Rectilinear => exists vs, mget (c_values c) ax = Some (t, vs) /\ nth_error vs (Z.to_nat d) = Some x
  | _ => exists o s, scalar_at (c_origin c) ax f0 o /\ scalar_at (c_spacing c) ("d"%char :: ax) f1 s /\
                     t = FLOAT64 /\ x = fadd o (fmul (fofz d) s)
  end.
(** the number of points along axis number i, called ax *)
Definition axis_len (b : base) (c : @cset F) (i : nat) (ax : str) (n : Z) : Prop :=
  match b with
  | Rectilinear => exists t vs, mget (c_values c) ax = Some (t, vs) /\ n = Z.of_nat (length vs)
  | _ => exists l, nth_error logical_axes i = Some l /\ mget (c_dims c) l = Some n
  end.
(** the points along each axis, in the order of the axes *)
Definition grid_dims (b : base) (c : @cset F) (lens : list Z) : Prop :=
  length lens = length (axes b c) /\
  (forall i ax n, nth_error (axes b c) i = Some ax -> nth_error lens i = Some n -> axis_len b c i ax n) /\
  Forall (fun n => 0 <= n) lens.
(** every axis has an origin and a spacing if the set has any *)
Definition scalars_ok (o : option (list (str * (tid * F)))) (k : str) : Prop :=
  match o with None => True | Some es => mget es k <> None end.
Definition coords_ok (b : base) (c : @cset F) : Prop :=
  match b with
  | Rectilinear => True
  | _ => forall ax, In ax (axes b c) -> scalars_ok (c_origin c) ax /\ scalars_ok (c_spacing c) ("d"%char :: ax)
  end.
End Spec.

(** ---- grids ---- *)
Lemma grid_nonneg dims idx : in_grid dims idx -> 0 <= grid_index dims idx < places dims.
Proof. induction 1 as [|n i dims idx H _ IH]; cbn [grid_index places]; [lia|]. nia. Qed.
Lemma places_nonneg dims : Forall (fun n => 0 <= n) dims -> 0 <= places dims.
Proof. induction 1; cbn [places]; nia. Qed.
Lemma places_app a b : places (a ++ b) = places a * places b.
Proof. induction a as [|x a IH]; cbn [app places]; [lia|]. rewrite IH. ring. Qed.
Lemma grid_app a a' b b' : length a = length a' -> grid_index (a ++ b) (a' ++ b') = grid_index a a' + places a * grid_index b b'.
Proof.
  revert a'. induction a as [|x a IH]; intros [|y a'] E; cbn in E; try discriminate; cbn [app grid_index places]; [lia|]. rewrite IH by lia. ring.
Qed.
Lemma in_grid_split dims : forall idx i n, in_grid dims idx -> nth_error dims i = Some n ->
  exists d1 d2 i1 d i2, dims = d1 ++ n :: d2 /\ idx = i1 ++ d :: i2 /\ length d1 = i /\ length i1 = i /\
    in_grid d1 i1 /\ 0 <= d < n /\ in_grid d2 i2.
Proof.
  induction dims as [|m dims IH]; intros idx i n H E; [destruct i; discriminate|].
  inversion H as [|? x ? idx' H1 H2 E1 E2]. subst. destruct i as [|i].
  - cbn in E. injection E as <-. exists [], dims, [], x, idx'. repeat split; auto; try lia. constructor.
  - cbn in E. destruct (IH idx' i n H2 E) as (d1 & d2 & i1 & d & i2 & -> & -> & L1 & L2 & G1 & G & G2).
    exists (m :: d1), d2, (x :: i1), d, i2. cbn. repeat split; auto; try lia. constructor; assumption.
Qed.
Lemma grid_onto dims : Forall (fun n => 0 <= n) dims -> forall p, 0 <= p < places dims -> exists idx, in_grid dims idx /\ grid_index dims idx = p.
Proof.
  induction 1 as [|n dims H _ IH]; intros p P; cbn [places] in P.
  - exists []. split; [constructor|]. cbn. lia.
  - assert (0 < n) by (destruct (Z.eq_dec n 0); [subst n; lia|lia]). destruct (IH (p / n)) as (idx & G & E).
    + split; [apply Z.div_pos; lia|]. apply Z.div_lt_upper_bound; lia.
    + exists (p mod n :: idx). split; [constructor; [apply Z.mod_pos_bound; lia|exact G]|]. cbn [grid_index]. rewrite E.
      pose proof (Z.div_mod p n ltac:(lia)). lia.
Qed.
Lemma grid_inj dims : forall a b, in_grid dims a -> in_grid dims b -> grid_index dims a = grid_index dims b -> a = b.
Proof.
  induction dims as [|n dims IH]; intros a b Ha Hb E; inversion Ha; inversion Hb; subst; [reflexivity|].
  cbn [grid_index] in E. assert (y = y0 /\ grid_index dims l' = grid_index dims l'0) as [-> E'].
  { assert (grid_index dims l' = grid_index dims l'0) by nia. split; [nia|assumption]. }
  f_equal. apply IH; assumption.
Qed.

Lemma Forall2_len {A B} {R : A -> B -> Prop} {l m} : Forall2 R l m -> length l = length m.
Proof. induction 1; cbn; congruence. Qed.
Lemma nth_error_Some_lt {A} (l : list A) i x : nth_error l i = Some x -> (i < length l)%nat.
Proof. intros E. apply nth_error_Some. congruence. Qed.

(** ---- loops of writes ---- *)
Lemma for_app {A S} (body : A -> S -> outcome S) l1 l2 s : for_ (l1 ++ l2) body s = do s' <- for_ l1 body s; for_ l2 body s'.
Proof. revert s. induction l1 as [|x l1 IH]; intros s; cbn [app for_ obind]; [reflexivity|]. destruct (body x s); cbn [obind]; [apply IH|reflexivity..]. Qed.
Lemma for_flat {A B S} (f : A -> list B) (body : B -> S -> outcome S) l s :
  for_ l (fun x => for_ (f x) body) s = for_ (flat_map f l) body s.
Proof. revert s. induction l as [|x l IH]; intros s; cbn [flat_map for_]; [reflexivity|]. rewrite for_app. destruct (for_ (f x) body s); cbn [obind]; [apply IH|reflexivity..]. Qed.
Lemma for_map {A B S} (f : A -> B) (body : B -> S -> outcome S) l s : for_ (map f l) body s = for_ l (fun x => body (f x)) s.
Proof. revert s. induction l as [|x l IH]; intros s; cbn [map for_]; [reflexivity|]. destruct (body (f x) s); cbn [obind]; [apply IH|reflexivity..]. Qed.
Lemma for_ext {A S} (b1 b2 : A -> S -> outcome S) l s : (forall x s, In x l -> b1 x s = b2 x s) -> for_ l b1 s = for_ l b2 s.
Proof.
  revert s. induction l as [|x l IH]; intros s H; cbn [for_]; [reflexivity|]. rewrite (H x s) by (left; reflexivity).
  destruct (b2 x s); cbn [obind]; [|reflexivity..]. apply IH. intros y s' I. apply H. right. exact I.
Qed.
Definition puts {A} (w : list (Z * A)) (a : list (option A)) : outcome (list (option A)) := for_ w (fun ov => put (fst ov) (snd ov)) a.
Lemma puts_ok {A} (w : list (Z * A)) : forall a, (forall o v, In (o, v) w -> 0 <= o < Z.of_nat (length a)) ->
  exists a', puts w a = Ok a' /\ length a' = length a /\
    (forall p, ~ In p (map fst w) -> 0 <= p -> nth_error a' (Z.to_nat p) = nth_error a (Z.to_nat p)) /\
    (forall p v, In (p, v) w -> (forall v', In (p, v') w -> v' = v) -> nth_error a' (Z.to_nat p) = Some (Some v)).
Proof.
  induction w as [|[o u] w IH]; intros a R.
  - exists a. repeat split. intros p v [].
  - pose proof (R o u (or_introl eq_refl)) as Ro. unfold puts in *. cbn [for_ fst snd]. unfold put at 1. replace ((0 <=? o) && (o <? Z.of_nat (length a))) with true by lia. cbn [obind].
    destruct (IH (set_nth a (Z.to_nat o) (Some u))) as (a' & E & Le & K & W).
    { intros o' v' I. rewrite set_nth_len. apply (R o' v'). right. exact I. }
    exists a'. rewrite set_nth_len in Le. split; [exact E|]. split; [exact Le|]. split.
    + intros p N P. rewrite K; [|intros I; apply N; right; exact I|exact P]. apply set_nth_diff. intros Q. apply N. left. cbn. lia.
    + intros p v I U. destruct (in_dec Z.eq_dec p (map fst w)) as [J|J].
      * apply in_map_iff in J. destruct J as ([p' v''] & <- & J). cbn in *. assert (v'' = v) by (apply U; right; exact J). subst v''.
        apply W; [exact J|]. intros v' I'. apply U. right. exact I'.
      * destruct I as [I|I]; [|exfalso; apply J; apply in_map_iff; exists (p, v); split; [reflexivity|exact I]]. injection I as -> ->.
        rewrite K by (try exact J; lia). apply set_nth_same. lia.
Qed.
Lemma in_zseq n d : In d (zseq n) <-> 0 <= d < n.
Proof.
  unfold zseq. rewrite in_map_iff. split.
  - intros (k & <- & I). apply in_seq in I. lia.
  - intros H. exists (Z.to_nat d). split; [lia|]. apply in_seq. lia.
Qed.
Lemma radix3 bs n bi d b bi' d' b' : 0 <= bi < bs -> 0 <= d < n -> 0 <= bi' < bs -> 0 <= d' < n ->
  d * bs + b * bs * n + bi = d' * bs + b' * bs * n + bi' -> d = d'.
Proof.
  intros H1 H2 H3 H4 E. assert (bi + bs * (d + n * b) = bi' + bs * (d' + n * b')) as E1 by nia.
  assert (d + n * b = d' + n * b') as E2 by nia. assert (b = b') by nia. nia.
Qed.
Lemma fill_ok {A} (bs bc n : Z) (val : Z -> outcome A) g a :
  0 <= bs -> 0 <= bc -> 0 <= n -> Z.of_nat (length a) = bs * n * bc ->
  (forall d, 0 <= d < n -> val d = Ok (g d)) ->
  exists a', fill_axis bs bc n val a = Ok a' /\ length a' = length a /\
    (forall bi d b, 0 <= bi < bs -> 0 <= d < n -> 0 <= b < bc -> nth_error a' (Z.to_nat (bi + bs * (d + n * b))) = Some (Some (g d))).
Proof.
  intros Hs Hc Hn Le V.
  set (wr := flat_map (fun d => flat_map (fun b => map (fun bi => (d * bs + b * bs * n + bi, g d)) (zseq bs)) (zseq bc)) (zseq n)).
  assert (IW : forall p v, In (p, v) wr <-> exists d b bi, 0 <= d < n /\ 0 <= b < bc /\ 0 <= bi < bs /\ p = d * bs + b * bs * n + bi /\ v = g d).
  { intros p v. unfold wr. rewrite in_flat_map. split.
    - intros (d & I & J). apply in_zseq in I. apply in_flat_map in J. destruct J as (b & Ib & J). apply in_zseq in Ib. apply in_map_iff in J. destruct J as (bi & E & Ibi). apply in_zseq in Ibi.
      injection E as <- <-. exists d, b, bi. auto 10.
    - intros (d & b & bi & I & Ib & Ibi & -> & ->). exists d. split; [apply in_zseq; exact I|]. apply in_flat_map. exists b. split; [apply in_zseq; exact Ib|].
      apply in_map_iff. exists bi. split; [reflexivity|apply in_zseq; exact Ibi]. }
  destruct (puts_ok wr a) as (a' & E & La & _ & W).
  { intros o v I. apply IW in I. destruct I as (d & b & bi & Id & Ib & Ibi & -> & _). rewrite Le.
    assert (d * bs + bi < bs * n) by nia. assert (b * (bs * n) + bs * n <= bs * n * bc) by nia. nia. }
  exists a'. split.
  - rewrite <- E. unfold puts, wr, fill_axis. rewrite <- for_flat. apply for_ext. intros d s Id. apply in_zseq in Id. rewrite <- for_flat. apply for_ext. intros b s' _.
    rewrite for_map. apply for_ext. intros bi s'' _. rewrite V by exact Id. reflexivity.
  - split; [exact La|]. intros bi d b I1 I2 I3. apply W.
    + apply IW. exists d, b, bi. repeat split; try lia.
    + intros v' I. apply IW in I. destruct I as (d' & b' & bi' & Id & Ib & Ibi & E' & ->). f_equal. symmetry. eapply (radix3 bs n bi d b bi' d' b'); try lia.
Qed.

(** ---- axes ---- *)
Lemma omapM_nth {A B} (f : A -> outcome B) l : forall ys, length ys = length l ->
  (forall i x y, nth_error l i = Some x -> nth_error ys i = Some y -> f x = Ok y) -> omapM f l = Ok ys.
Proof.
  induction l as [|x l IH]; intros [|y ys] E H; try discriminate; [reflexivity|]. rewrite omapM_cons, (H 0%nat x y) by reflexivity. cbn [obind].
  rewrite (IH ys) by (try (cbn in E; lia); intros i; apply (H (S i))). reflexivity.
Qed.
Lemma omapM_make {A B} (f : A -> outcome B) (Q : nat -> B -> Prop) l :
  (forall i x, nth_error l i = Some x -> exists y, f x = Ok y /\ Q i y) ->
  exists ys, omapM f l = Ok ys /\ length ys = length l /\ forall i y, nth_error ys i = Some y -> Q i y.
Proof.
  revert Q. induction l as [|x l IH]; intros Q H; [exists []; repeat split; intros [|i] y E; discriminate|].
  destruct (H 0%nat x eq_refl) as (y & Ey & Qy). destruct (IH (fun i => Q (S i))) as (ys & E & Le & K); [intros i x' Ex; apply (H (S i)); exact Ex|].
  exists (y :: ys). rewrite omapM_cons, Ey. cbn [obind]. rewrite E. cbn [obind length]. repeat split; [lia|]. intros [|i] z Ez; cbn in Ez; [injection Ez as <-; exact Qy|apply K; exact Ez].
Qed.
Lemma numbered_nth {A} (l : list A) : forall i x, nth_error (numbered l) i = Some x <-> (fst x = i /\ nth_error l i = Some (snd x)).
Proof.
  unfold numbered. assert (G : forall l k i (x : nat * A), nth_error (combine (seq k (length l)) l) i = Some x <-> (fst x = (k + i)%nat /\ nth_error l i = Some (snd x))); [|intros i x; apply (G l 0%nat)].
  clear. induction l as [|y l IH]; intros k i [j x].
  - cbn. destruct i; split; [discriminate|intros [_ E]; discriminate|discriminate|intros [_ E]; discriminate].
  - destruct i as [|i]; cbn [seq length combine nth_error].
    + cbn. split; [intros E; injection E as <- <-; split; [lia|reflexivity]|intros [-> E]; injection E as ->; f_equal; f_equal; lia].
    + rewrite IH. cbn. rewrite Nat.add_succ_r. reflexivity.
Qed.
Lemma numbered_len {A} (l : list A) : length (numbered l) = length l.
Proof. unfold numbered. rewrite combine_length, seq_length. lia. Qed.
Lemma fold_places l : forall a, fold_left Z.mul l a = a * places l.
Proof. induction l as [|x l IH]; intros a; cbn [fold_left places]; [lia|]. rewrite IH. ring. Qed.
Lemma block_size_ok lens i : block_size lens i = places (firstn i lens).
Proof.
  unfold block_size, numbered. assert (G : forall lens k a, fold_left (fun a jl => a * (if (fst jl <? i)%nat then snd jl else 1)) (combine (seq k (length lens)) lens) a = a * places (firstn (i - k) lens)).
  { clear. induction lens as [|n lens IH]; intros k a; cbn [length seq combine fold_left firstn]; [destruct (i - k)%nat; cbn; lia|].
    rewrite IH. cbn [fst snd]. destruct (Nat.ltb_spec k i).
    - replace (i - k)%nat with (S (i - S k)) by lia. cbn [firstn places]. ring.
    - replace (i - k)%nat with 0%nat by lia. replace (i - S k)%nat with 0%nat by lia. cbn. lia. }
  rewrite G, Nat.sub_0_r. lia.
Qed.
Lemma block_count_ok lens i : block_count lens i = places (skipn (S i) lens).
Proof.
  unfold block_count, numbered. assert (G : forall lens k a, fold_left (fun a jl => a * (if (i <? fst jl)%nat then snd jl else 1)) (combine (seq k (length lens)) lens) a = a * places (skipn (S i - k) lens)).
  { clear. induction lens as [|n lens IH]; intros k a; cbn [length seq combine fold_left]; [destruct (S i - k)%nat; cbn; lia|].
    rewrite IH. cbn [fst snd]. destruct (Nat.ltb_spec i k).
    - replace (S i - k)%nat with 0%nat by lia. replace (S i - S k)%nat with 0%nat by lia. cbn [skipn places]. ring.
    - replace (S i - k)%nat with (S (S i - S k)) by lia. cbn [skipn]. lia. }
  rewrite G, Nat.sub_0_r. lia.
Qed.

Lemma dim_lens_ok {F} b (c : @cset F) lens : grid_dims b c lens -> dim_lens b c = Ok lens.
Proof.
  intros (Le & D & _). unfold dim_lens. apply omapM_nth; [rewrite numbered_len; exact Le|]. intros i [j ax] n E N. apply numbered_nth in E. cbn in E. destruct E as [-> E].
  cbn [fst snd]. specialize (D i ax n E N). unfold dim_len. destruct b; cbn [axis_len] in D.
  - destruct D as (l & -> & M). cbn [deref obind]. unfold need. rewrite M. reflexivity.
  - destruct D as (t & vs & M & ->). unfold need. rewrite M. reflexivity.
  - destruct D as (l & -> & M). cbn [deref obind]. unfold need. rewrite M. reflexivity.
Qed.
Section Coords.
Context {F : Type} (fadd fmul : F -> F -> F) (fofz : Z -> F) (f0 f1 : F) (cast : tid -> tid -> F -> F).
Notation coordinate := (coordinate fadd fmul fofz f0 f1 cast).
Notation to_explicit := (to_explicit fadd fmul fofz f0 f1 cast).
Notation to_rectilinear := (to_rectilinear fadd fmul fofz f0 f1 cast).

Lemma scalar_get (o : option (list (str * (tid * F)))) k dflt : scalars_ok o k ->
  exists x, scalar_at cast o k dflt x /\ (match o with Some es => do x <- need es k; Ok (cast (fst x) FLOAT64 (snd x)) | None => Ok dflt end) = Ok x.
Proof.
  destruct o as [es|]; cbn [scalars_ok scalar_at]; [|intros _; exists dflt; split; reflexivity]. intros N. unfold need. destruct (mget es k) as [[t v]|] eqn:E; [|congruence].
  exists (cast t FLOAT64 v). split; [exists t, v; split; reflexivity|reflexivity].
Qed.
Lemma axis_value_ok b (c : @cset F) ax i n d : b <> Structured -> coords_ok b c -> nth_error (axes b c) i = Some ax -> axis_len b c i ax n -> 0 <= d < n ->
  exists t x, coordinate b c ax d t x /\ axis_value fadd fmul fofz f0 f1 cast b c ax d = Ok (cast t (float_type c) x).
Proof.
  intros NB C E A D. destruct b; [|clear C|congruence].
  - cbn [coords_ok] in C. destruct (C ax (nth_error_In _ _ E)) as [Co Cs]. destruct (scalar_get _ _ f0 Co) as (o & So & Eo). destruct (scalar_get _ _ f1 Cs) as (s & Ss & Es).
    exists FLOAT64, (fadd o (fmul (fofz d) s)). split; [exists o, s; auto|]. unfold axis_value, origin_at, spacing_at. rewrite Eo. cbn [obind]. rewrite Es. reflexivity.
  - destruct A as (t & vs & M & ->). assert (Hd : exists x, nth_error vs (Z.to_nat d) = Some x).
    { destruct (nth_error vs (Z.to_nat d)) eqn:Q; [eauto|]. apply nth_error_None in Q. lia. }
    destruct Hd as (x & Hx). exists t, x. split; [exists vs; split; assumption|]. unfold axis_value, need. rewrite M. cbn [obind fst snd]. unfold znth. replace (d <? 0) with false by lia. rewrite Hx. reflexivity.
Qed.
Lemma coordinate_fun b (c : @cset F) ax d t x t' x' : coordinate b c ax d t x -> coordinate b c ax d t' x' -> t = t' /\ x = x'.
Proof.
  assert (S : forall o k df y y', scalar_at cast o k df y -> scalar_at cast o k df y' -> y = y').
  { intros [es|] k df y y'; cbn; [|congruence]. intros (t0 & v & M & ->) (t1 & v1 & M1 & ->). rewrite M in M1. congruence. }
  destruct b; cbn [MeshConvFacts.coordinate].
  - intros (o & s & A & B & -> & ->) (o' & s' & A' & B' & -> & ->). rewrite (S _ _ _ _ _ A A'), (S _ _ _ _ _ B B'). split; reflexivity.
  - intros (vs & A & B) (vs' & A' & B'). rewrite A in A'. injection A' as -> ->. rewrite B in B'. injection B' as ->. split; reflexivity.
  - intros (o & s & A & B & -> & ->) (o' & s' & A' & B' & -> & ->). rewrite (S _ _ _ _ _ A A'), (S _ _ _ _ _ B B'). split; reflexivity.
Qed.

(** every grid point gets the numbers of its place on each axis *)
Theorem explicit_law b c lens : b <> Structured -> grid_dims b c lens -> coords_ok b c ->
  exists vs, to_explicit b c = Ok (float_type c, vs) /\ map fst vs = axes b c /\
    forall i ax vals, nth_error vs i = Some (ax, vals) ->
      Z.of_nat (length vals) = places lens /\ (forall v, In v vals -> v <> None) /\
      forall idx d, in_grid lens idx -> nth_error idx i = Some d ->
        exists t x, coordinate b c ax d t x /\ nth_error vals (Z.to_nat (grid_index lens idx)) = Some (Some (cast t (float_type c) x)).
Proof.
  intros NB G C. pose proof G as (Le & D & NN). unfold MeshConv.to_explicit. rewrite (dim_lens_ok b c lens G). cbn [obind]. rewrite fold_places, Z.mul_1_l.
  pose proof (places_nonneg lens NN) as PN. replace (places lens <? 0) with false by lia.
  set (len := places lens) in *.
  destruct (omapM_make (fun ia => explicit_axis fadd fmul fofz f0 f1 cast b c lens len (fst ia) (snd ia))
    (fun i y => nth_error (axes b c) i = Some (fst y) /\ Z.of_nat (length (snd y)) = len /\
       forall idx d, in_grid lens idx -> nth_error idx i = Some d ->
        exists t x, coordinate b c (fst y) d t x /\ nth_error (snd y) (Z.to_nat (grid_index lens idx)) = Some (Some (cast t (float_type c) x)))
    (numbered (axes b c))) as (vs & E & Lv & K).
  { intros i [j ax] Ei. apply numbered_nth in Ei. cbn in Ei. destruct Ei as [-> Ei]. cbn [fst snd].
    assert (exists n, nth_error lens i = Some n) as (n & En).
    { destruct (nth_error lens i) eqn:Q; [eauto|]. apply nth_error_None in Q. assert (nth_error (axes b c) i <> None) as Q' by congruence. apply nth_error_Some in Q'. lia. }
    pose proof (D i ax n Ei En) as A. unfold explicit_axis. rewrite En. cbn [deref obind]. rewrite block_size_ok, block_count_ok.
    destruct (nth_error_split _ _ En) as (d1 & d2 & Hl & L1).
    assert (F1 : firstn i lens = d1) by (rewrite Hl, <- L1, firstn_app, firstn_all, Nat.sub_diag; cbn; apply app_nil_r).
    assert (F2 : skipn (S i) lens = d2).
    { rewrite Hl. rewrite <- L1. clear. induction d1 as [|x d1 IH]; [reflexivity|]. exact IH. }
    rewrite F1, F2.
    assert (N1 : Forall (fun n => 0 <= n) d1 /\ 0 <= n /\ Forall (fun n => 0 <= n) d2).
    { rewrite Hl in NN. apply Forall_app in NN. destruct NN as [N1 N2]. inversion N2. auto. }
    destruct N1 as (N1 & Hn & N2). pose proof (places_nonneg _ N1). pose proof (places_nonneg _ N2).
    assert (V : exists g, forall d, 0 <= d < n -> axis_value fadd fmul fofz f0 f1 cast b c ax d = Ok (g d)).
    { destruct (Z.eq_dec n 0) as [->|]; [|destruct (axis_value_ok b c ax i n 0 NB C Ei A ltac:(lia)) as (t0 & x0 & _ & Ex)].
      - destruct (axis_value fadd fmul fofz f0 f1 cast b c ax 0) as [v| | |]; [exists (fun _ => v); lia|exists (fun _ => f0); lia..].
      - exists (fun d => match axis_value fadd fmul fofz f0 f1 cast b c ax d with Ok v => v | _ => f0 end). intros d Hd.
        destruct (axis_value_ok b c ax i n d NB C Ei A Hd) as (t & x & _ & ->). reflexivity. }
    destruct V as (g & V).
    destruct (fill_ok (places d1) (places d2) n (axis_value fadd fmul fofz f0 f1 cast b c ax) g (repeat None (Z.to_nat len)) ltac:(lia) ltac:(lia) Hn) as (a & Ea & La & Wa).
    { rewrite repeat_length. unfold len. rewrite Hl, places_app. cbn [places]. lia. }
    { exact V. }
    exists (ax, a). rewrite Ea. cbn [obind fst snd]. split; [reflexivity|]. split; [exact Ei|]. split; [rewrite La, repeat_length; lia|].
    intros idx d Gi Ed. destruct (in_grid_split lens idx i n Gi En) as (e1 & e2 & i1 & d' & i2 & Hl' & Hi & Q1 & Q2 & G1 & Gd & G2).
    assert (d' = d) as ->. { rewrite Hi, <- Q2, nth_error_app2, Nat.sub_diag in Ed by lia. cbn in Ed. congruence. }
    assert (e1 = d1 /\ e2 = d2) as [-> ->].
    { rewrite Hl in Hl'. rewrite <- F1. assert (Q : firstn i lens = e1) by (rewrite Hl, Hl', <- Q1, firstn_app, firstn_all, Nat.sub_diag; cbn; apply app_nil_r).
      split; [congruence|]. rewrite <- Q, F1 in Hl'. apply app_inv_head in Hl'. congruence. }
    destruct (axis_value_ok b c ax i n d NB C Ei A Gd) as (t & x & Cx & Ex). exists t, x. split; [exact Cx|].
    rewrite V in Ex by exact Gd. injection Ex as <-.
    assert (GI : grid_index lens idx = grid_index d1 i1 + places d1 * (d + n * grid_index d2 i2)).
    { rewrite Hl, Hi, grid_app by congruence. reflexivity. }
    rewrite GI. apply Wa; [apply grid_nonneg; exact G1|exact Gd|apply grid_nonneg; exact G2]. }
  rewrite E. cbn [obind]. exists vs. split; [reflexivity|]. split.
  - rewrite numbered_len in Lv. apply nth_ext with (d := []) (d' := []); [rewrite map_length; exact Lv|]. intros i Hi. rewrite map_length in Hi.
    destruct (nth_error vs i) as [y|] eqn:Q; [|apply nth_error_None in Q; lia]. pose proof (K i y Q) as (K1 & _).
    rewrite (nth_error_nth (axes b c) i [] K1). apply (map_nth_error fst) in Q. apply nth_error_nth. exact Q.
  - intros i ax vals Q. pose proof (K i _ Q) as (K1 & K2 & K3). cbn [fst snd] in *. split; [exact K2|]. split; [|exact K3].
    intros v I. apply In_nth_error in I. destruct I as (p & Ep). assert (Hp : (p < length vals)%nat) by (apply nth_error_Some; congruence).
    destruct (grid_onto lens NN (Z.of_nat p)) as (idx & Gi & Gp); [unfold len in K2; lia|].
    assert (exists d, nth_error idx i = Some d) as (d & Ed).
    { destruct (nth_error idx i) eqn:Qd; [eauto|]. apply nth_error_None in Qd. pose proof (Forall2_len Gi) as FL. apply nth_error_Some_lt in K1. lia. }
    destruct (K3 idx d Gi Ed) as (t & x & _ & W). rewrite Gp, Nat2Z.id, Ep in W. congruence.
Qed.
End Coords.

(** ---- cells ---- *)
Lemma corners_in ed cell : in_grid ed cell -> (1 <= length ed <= 3)%nat ->
  Forall (in_grid (map (fun n => n + 1) ed)) (corners cell) /\ length (corners cell) = (2 ^ length ed)%nat.
Proof.
  intros G L. destruct ed as [|a [|b [|c [|? ?]]]]; cbn [length] in L; try lia;
  repeat match goal with H : in_grid (_ :: _) _ |- _ => inversion H; subst; clear H | H : Forall2 _ (_ :: _) _ |- _ => inversion H; subst; clear H | H : Forall2 _ [] _ |- _ => inversion H; subst; clear H end;
  (split; [|reflexivity]); unfold in_grid; cbn [map corners]; repeat constructor; lia.
Qed.
Lemma id_to_ijk_ok a b c i j k : 0 <= i < a -> 0 <= j < b -> 0 <= k < c -> id_to_ijk (i + a * (j + b * k)) (a, b, c) = Ok (i, j, k).
Proof.
  intros Hi Hj Hk. unfold id_to_ijk. assert (P : 0 < a * b) by nia. replace ((a * b =? 0) || (a =? 0)) with false by lia.
  set (e := i + a * (j + b * k)). assert (0 <= e) by (unfold e; assert (0 <= b * k) by nia; nia).
  assert (Q : Z.quot e (a * b) = k).
  { rewrite Z.quot_div_nonneg by lia. symmetry. apply Z.div_unique with (r := i + a * j); [left; nia|unfold e; ring]. }
  assert (R : Z.rem e (a * b) = i + a * j).
  { rewrite Z.rem_mod_nonneg by lia. symmetry. apply Z.mod_unique with (q := k); [left; nia|unfold e; ring]. }
  rewrite Q, R.
  assert (Q' : Z.quot (i + a * j) a = j).
  { rewrite Z.quot_div_nonneg by nia. symmetry. apply Z.div_unique with (r := i); [left; lia|ring]. }
  assert (R' : Z.rem (i + a * j) a = i).
  { rewrite Z.rem_mod_nonneg by nia. symmetry. apply Z.mod_unique with (q := j); [left; lia|ring]. }
  rewrite Q', R', Z.quot_1_r. reflexivity.
Qed.
Lemma cell_ids_ok t ed cell : is_int t = true -> (1 <= length ed <= 3)%nat -> in_grid ed cell -> places (map (fun n => n + 1) ed) - 1 <= int_max t ->
  cell_ids (length ed) t ed (grid_index ed cell) = Ok (map (grid_index (map (fun n => n + 1) ed)) (corners cell)).
Proof.
  intros T L G P. destruct (corners_in ed cell G L) as [CI _].
  assert (CV : forall q x, In q (corners cell) -> x = grid_index (map (fun n => n + 1) ed) q -> conv t x = x).
  { intros q x I ->. apply conv_id; [exact T|]. rewrite Forall_forall in CI. pose proof (grid_nonneg _ _ (CI q I)). unfold in_type. split; [|lia].
    unfold int_min. destruct (is_signed t); [|lia]. assert (0 <= 2 ^ (bits t - 1)) by (apply Z.pow_nonneg; lia). lia. }
  clear CI P. unfold cell_ids.
  destruct ed as [|a [|b [|c [|? ?]]]]; cbn [length] in L; try lia;
  repeat match goal with H : in_grid (_ :: _) _ |- _ => inversion H; subst; clear H | H : Forall2 _ (_ :: _) _ |- _ => inversion H; subst; clear H | H : Forall2 _ [] _ |- _ => inversion H; subst; clear H end.
  - cbn [pad3 nth grid_index length]. replace (y + a * 0) with (y + a * (0 + 1 * 0)) by ring. rewrite id_to_ijk_ok by lia. cbn [obind]. f_equal.
    change (zseq (2 ^ Z.of_nat 1)) with [0; 1]. change (map (fun q => Z.to_nat (2 + 4 * q)) (zseq ((2 ^ Z.of_nat 1 + 1) / 4))) with (@nil nat). cbn [fold_left map corners]. cbn [ijk_to_id].
    change (bit 1 0 0) with 0; change (bit 1 1 0) with 1; change (bit 1 0 1) with 0; change (bit 1 1 1) with 0; change (bit 1 0 2) with 0; change (bit 1 1 2) with 0.
    cbn [corners map] in CV.
    repeat match goal with |- _ :: _ = _ :: _ => f_equal end.
    + rewrite (CV [y]); [|cbn; tauto|]; cbn [grid_index]; ring.
    + rewrite (CV [y + 1]); [|cbn; tauto|]; cbn [grid_index]; ring.
  - cbn [pad3 nth grid_index length]. replace (y + a * (y0 + b * 0)) with (y + a * (y0 + b * 0)) by ring. rewrite id_to_ijk_ok by lia. cbn [obind]. f_equal.
    change (zseq (2 ^ Z.of_nat 2)) with [0; 1; 2; 3]. change (map (fun q => Z.to_nat (2 + 4 * q)) (zseq ((2 ^ Z.of_nat 2 + 1) / 4))) with [2%nat]. cbn [fold_left map corners]. cbn [ijk_to_id].
    cbn [swap_at set_nth nth].
    repeat match goal with |- context [bit 2 ?v ?d] => let r := eval vm_compute in (bit 2 v d) in change (bit 2 v d) with r end.
    cbn [corners map] in CV.
    repeat match goal with |- _ :: _ = _ :: _ => f_equal end.
    + rewrite (CV [y; y0]); [|cbn; tauto|]; cbn [grid_index]; ring.
    + rewrite (CV [y + 1; y0]); [|cbn; tauto|]; cbn [grid_index]; ring.
    + rewrite (CV [y + 1; y0 + 1]); [|cbn; tauto|]; cbn [grid_index]; ring.
    + rewrite (CV [y; y0 + 1]); [|cbn; tauto|]; cbn [grid_index]; ring.
  - cbn [pad3 nth grid_index length]. replace (y + a * (y0 + b * (y1 + c * 0))) with (y + a * (y0 + b * y1)) by ring. rewrite id_to_ijk_ok by lia. cbn [obind]. f_equal.
    change (zseq (2 ^ Z.of_nat 3)) with [0; 1; 2; 3; 4; 5; 6; 7]. change (map (fun q => Z.to_nat (2 + 4 * q)) (zseq ((2 ^ Z.of_nat 3 + 1) / 4))) with [2%nat; 6%nat]. cbn [fold_left map corners]. cbn [ijk_to_id].
    cbn [swap_at set_nth nth].
    repeat match goal with |- context [bit 3 ?v ?d] => let r := eval vm_compute in (bit 3 v d) in change (bit 3 v d) with r end.
    cbn [corners map] in CV.
    repeat match goal with |- _ :: _ = _ :: _ => f_equal end.
    + rewrite (CV [y; y0; y1]); [|cbn; tauto|]; cbn [grid_index]; ring.
    + rewrite (CV [y + 1; y0; y1]); [|cbn; tauto|]; cbn [grid_index]; ring.
    + rewrite (CV [y + 1; y0 + 1; y1]); [|cbn; tauto|]; cbn [grid_index]; ring.
    + rewrite (CV [y; y0 + 1; y1]); [|cbn; tauto|]; cbn [grid_index]; ring.
    + rewrite (CV [y; y0; y1 + 1]); [|cbn; tauto|]; cbn [grid_index]; ring.
    + rewrite (CV [y + 1; y0; y1 + 1]); [|cbn; tauto|]; cbn [grid_index]; ring.
    + rewrite (CV [y + 1; y0 + 1; y1 + 1]); [|cbn; tauto|]; cbn [grid_index]; ring.
    + rewrite (CV [y; y0 + 1; y1 + 1]); [|cbn; tauto|]; cbn [grid_index]; ring.
Qed.
Lemma concat_row {A} (w : nat) (rows : list (list A)) : Forall (fun r => length r = w) rows -> forall e r, nth_error rows e = Some r ->
  firstn w (skipn (w * e) (concat rows)) = r /\ length (concat rows) = (w * length rows)%nat.
Proof.
  induction 1 as [|x rows Hx F IH]; intros e r E; [destruct e; discriminate|]. cbn [concat length].
  assert (LC : length (concat rows) = (w * length rows)%nat).
  { clear - F. induction F as [|y rows Hy F IH]; [cbn; lia|]. cbn [concat length]. rewrite app_length, IH, Hy. lia. }
  rewrite app_length, LC. split; [|lia]. destruct e as [|e]; cbn in E.
  - injection E as ->. rewrite Nat.mul_0_r. cbn [skipn]. rewrite <- Hx, firstn_app, firstn_all, Nat.sub_diag. cbn. apply app_nil_r.
  - rewrite skipn_app, skipn_all2 by lia. cbn [app]. replace (w * S e - length x)%nat with (w * e)%nat by lia. apply IH. exact E.
Qed.
Lemma concat_len {A} (w : nat) (rows : list (list A)) : Forall (fun r => length r = w) rows -> length (concat rows) = (w * length rows)%nat.
Proof. induction 1 as [|y rows Hy F IH]; [cbn; lia|]. cbn [concat length]. rewrite app_length, IH, Hy. lia. Qed.
Lemma pad3_places ed : (1 <= length ed <= 3)%nat -> (let '(a, b, c) := pad3 ed in a * b * c) = places ed.
Proof. intros L. destruct ed as [|a [|b [|c [|? ?]]]]; cbn [length] in L; try lia; unfold pad3; cbn [nth places]; ring. Qed.

Theorem connectivity_law t ed : is_int t = true -> (1 <= length ed <= 3)%nat -> Forall (fun n => 0 <= n) ed ->
  places (map (fun n => n + 1) ed) - 1 <= int_max t ->
  exists ids, connectivity (length ed) t ed = Ok ids /\ Z.of_nat (length ids) = Z.of_nat (2 ^ length ed) * places ed /\
    forall cell, in_grid ed cell -> row (2 ^ length ed) ids (grid_index ed cell) = map (grid_index (map (fun n => n + 1) ed)) (corners cell).
Proof.
  intros T L N P. unfold connectivity. pose proof (pad3_places ed L) as PP. destruct (pad3 ed) as [[a b] c] eqn:EP. rewrite PP.
  pose proof (places_nonneg _ N) as PN.
  assert (Z0 : forall i e, nth_error (zseq (places ed)) i = Some e -> e = Z.of_nat i /\ 0 <= e < places ed).
  { intros i e E. pose proof (nth_error_In _ _ E) as I. apply in_zseq in I. split; [|exact I]. unfold zseq in E. rewrite nth_error_map in E.
    destruct (nth_error (seq 0 (Z.to_nat (places ed))) i) eqn:Q; [|discriminate]. cbn in E. injection E as <-.
    pose proof (nth_error_Some_lt _ _ _ Q) as Lt. rewrite seq_length in Lt. apply nth_error_nth with (d := 0%nat) in Q. rewrite seq_nth in Q by exact Lt. lia. }
  destruct (omapM_make (cell_ids (length ed) t ed)
    (fun i y => length y = (2 ^ length ed)%nat /\ forall cell, in_grid ed cell -> grid_index ed cell = Z.of_nat i -> y = map (grid_index (map (fun n => n + 1) ed)) (corners cell))
    (zseq (places ed))) as (ys & E & Ly & K).
  { intros i e Ei. destruct (Z0 i e Ei) as [-> R]. destruct (grid_onto ed N (Z.of_nat i) R) as (cell & G & Gi). exists (map (grid_index (map (fun n => n + 1) ed)) (corners cell)).
    rewrite <- Gi. split; [apply cell_ids_ok; assumption|]. split; [rewrite map_length; apply corners_in; assumption|].
    intros cell' G' E'. rewrite (grid_inj ed cell' cell G' G E'). reflexivity. }
  rewrite E. cbn [obind]. exists (concat ys). split; [reflexivity|].
  assert (FW : Forall (fun r => length r = (2 ^ length ed)%nat) ys).
  { apply Forall_forall. intros r I. apply In_nth_error in I. destruct I as (i & I). apply (K i r I). }
  assert (LZ : length ys = Z.to_nat (places ed)) by (rewrite Ly; unfold zseq; rewrite map_length, seq_length; reflexivity).
  split.
  - rewrite (concat_len _ _ FW), LZ. lia.
  - intros cell G. pose proof (grid_nonneg _ _ G) as R. unfold row. destruct (nth_error ys (Z.to_nat (grid_index ed cell))) as [r|] eqn:Q; [|apply nth_error_None in Q; lia].
    destruct (concat_row _ ys FW _ r Q) as [-> _]. apply (K _ _ Q); [exact G|]. lia.
Qed.

(** ---- types ---- *)
Lemma float_type_ok {F} (c : @cset F) :
  float_type c = if existsb (fun t => match t with FLOAT64 => true | _ => false end) (float_leaves c) then FLOAT64 else FLOAT32.
Proof.
  unfold float_type, find_widest. generalize (float_leaves c). intros l.
  assert (G : forall l w, (w = None \/ w = Some FLOAT32 \/ w = Some FLOAT64) ->
    match fold_left (wider float_defaults) l w with Some t => t | None => FLOAT32 end =
    if existsb (fun t => match t with FLOAT64 => true | _ => false end) l then FLOAT64 else match w with Some t => t | None => FLOAT32 end).
  { clear. induction l as [|t l IH]; intros w H; cbn [fold_left existsb]; [reflexivity|]. rewrite IH.
    - destruct H as [->|[->| ->]]; destruct t; cbn; try reflexivity; destruct (existsb _ l); reflexivity.
    - destruct H as [->|[->| ->]]; destruct t; cbn; auto. }
  apply (G l None). left. reflexivity.
Qed.
(** the widest integer type of the leaves, int32 if there is none *)
Lemma int_type_ok leaves : let t := find_widest int_defaults leaves in is_int t = true /\
  ((t = INT32 /\ Forall (fun u => is_int u = false) leaves) \/
   (In t leaves /\ Forall (fun u => is_int u = true -> default_bytes u <= default_bytes t) leaves)).
Proof.
  unfold find_widest.
  assert (FI : forall u, existsb (family u) int_defaults = is_int u) by (intros u; destruct u; reflexivity).
  assert (PB : forall u, is_int u = true -> 0 < default_bytes u) by (intros u; destruct u; cbn; try discriminate; lia).
  assert (G : forall l w done, (w = None /\ Forall (fun u => is_int u = false) done \/
      exists t, w = Some t /\ is_int t = true /\ In t done /\ Forall (fun u => is_int u = true -> default_bytes u <= default_bytes t) done) ->
    let w' := fold_left (wider int_defaults) l w in
    (w' = None /\ Forall (fun u => is_int u = false) (done ++ l) \/
      exists t, w' = Some t /\ is_int t = true /\ In t (done ++ l) /\ Forall (fun u => is_int u = true -> default_bytes u <= default_bytes t) (done ++ l))).
  { induction l as [|u l IH]; intros w done H; cbn [fold_left]; [rewrite app_nil_r; exact H|].
    replace (done ++ u :: l) with ((done ++ [u]) ++ l) by (rewrite <- app_assoc; reflexivity). apply IH. unfold wider. rewrite FI.
    destruct (is_int u) eqn:IU; cbn [andb].
    - right. destruct H as [[-> H]|(t & -> & IT & I & H)].
      + pose proof (PB u IU). replace (0 <? default_bytes u) with true by lia. exists u. split; [reflexivity|]. split; [exact IU|]. split; [apply in_or_app; right; left; reflexivity|].
        apply Forall_app. split; [|constructor; [lia|constructor]]. eapply Forall_impl; [|exact H]. cbn. congruence.
      + destruct (Z.ltb_spec (default_bytes t) (default_bytes u)) as [Q|Q].
        * exists u. split; [reflexivity|]. split; [exact IU|]. split; [apply in_or_app; right; left; reflexivity|].
          apply Forall_app. split; [|constructor; [lia|constructor]]. eapply Forall_impl; [|exact H]. cbn. intros v Hv Iv. specialize (Hv Iv). lia.
        * exists t. split; [reflexivity|]. split; [exact IT|]. split; [apply in_or_app; left; exact I|]. apply Forall_app. split; [exact H|constructor; [intros _; lia|constructor]].
    - destruct H as [[-> H]|(t & -> & IT & I & H)].
      + left. split; [reflexivity|]. apply Forall_app. split; [exact H|constructor; [exact IU|constructor]].
      + right. exists t. split; [reflexivity|]. split; [exact IT|]. split; [apply in_or_app; left; exact I|]. apply Forall_app. split; [exact H|constructor; [congruence|constructor]]. }
  specialize (G leaves None []). cbn [app] in G. cbn zeta in *. destruct G as [[-> H]|(t & -> & IT & I & H)]; [left; split; [reflexivity|constructor]|..]; cbn [hd int_defaults]; auto.
Qed.

(** ---- axes ---- *)
Lemma str_eqb_true a b : str_eqb a b = true <-> a = b.
Proof. destruct (str_eqb_spec a b); split; congruence. Qed.
Lemma has_In ns n : has ns n = true <-> In n ns.
Proof.
  unfold has. rewrite existsb_exists. split.
  - intros (x & I & E). apply str_eqb_true in E. subst. exact I.
  - intros I. exists n. split; [exact I|]. apply str_eqb_true. reflexivity.
Qed.
Lemma has_same ns ns' : (forall n, In n ns <-> In n ns') -> forall n, has ns n = has ns' n.
Proof. intros H n. apply Bool.eq_true_iff_eq. rewrite !has_In. apply H. Qed.
Lemma filter_len {A} (f : A -> bool) l : (length (filter f l) <= length l)%nat.
Proof. induction l as [|x l IH]; cbn; [lia|]. destruct (f x); cbn; lia. Qed.
Lemma axes_le names : (length (axes_of names) <= 3)%nat.
Proof.
  unfold axes_of. match goal with |- context [filter _ ?b] => assert (length b <= 3)%nat; [|etransitivity; [apply filter_len|assumption]] end.
  repeat match goal with |- context [if ?b then _ else _] => destruct b end; cbn; lia.
Qed.
Lemma axes_same names names' : (forall n, In n names <-> In n names') -> axes_of names = axes_of names'.
Proof.
  intros H. assert (K : forall n, has (map strip_d names) n = has (map strip_d names') n).
  { apply has_same. intros n. rewrite !in_map_iff. split; intros (x & E & I); exists x; (split; [exact E|]); apply H; exact I. }
  unfold axes_of. rewrite !K. apply filter_ext. exact K.
Qed.
Lemma axes_system sys names : In sys [spherical_axes; cylindrical_axes; cartesian_axes; logical_axes] ->
  (forall n, In n names -> In (strip_d n) sys) -> axes_of names = filter (has (map strip_d names)) sys.
Proof.
  intros S H. unfold axes_of. set (ns := map strip_d names) in *.
  assert (K : forall n, has sys n = false -> has ns n = false).
  { intros n E. destruct (has ns n) eqn:Q; [|reflexivity]. apply has_In in Q. unfold ns in Q. apply in_map_iff in Q. destruct Q as (x & <- & I).
    apply H in I. apply has_In in I. congruence. }
  cbn [In] in S. destruct S as [<-|[<-|[<-|[<-|[]]]]];
  repeat match goal with |- context [has ns ?n] =>
    first [rewrite (K n) by reflexivity | let Q := fresh in destruct (has ns n) eqn:Q] end;
  cbn [orb filter spherical_axes cylindrical_axes cartesian_axes logical_axes];
  repeat match goal with E : has ns ?n = _ |- context [has ns ?n] => rewrite E end;
  repeat match goal with |- context [has ns ?n] => rewrite (K n) by reflexivity end; reflexivity.
Qed.
(** a child of this name gives the axis: x or dx *)
Definition gives_axis (n a : str) : Prop := n = a \/ n = "d"%char :: a.
Definition axis_systems : list (list str) := [[L "r"; L "theta"; L "phi"]; [L "z"; L "r"]; [L "x"; L "y"; L "z"]; [L "i"; L "j"; L "k"]].
Lemma axes_given sys names : In sys axis_systems -> (forall n, In n names -> exists a, In a sys /\ gives_axis n a) ->
  exists f, axes_of names = filter f sys /\ forall a, In a sys -> (f a = true <-> exists n, In n names /\ gives_axis n a).
Proof.
  intros S H.
  assert (D : forall a, In a sys -> strip_d a = a /\ strip_d ("d"%char :: a) = a).
  { cbn [axis_systems In] in S. intros a I. destruct S as [<-|[<-|[<-|[<-|[]]]]]; cbn [In] in I; repeat (destruct I as [<-|I]; [split; reflexivity|]); destruct I. }
  assert (E : axes_of names = filter (has (map strip_d names)) sys).
  { apply axes_system; [exact S|]. intros n I. destruct (H n I) as (a & A & [-> | ->]); [rewrite (proj1 (D a A))|rewrite (proj2 (D a A))]; exact A. }
  exists (has (map strip_d names)). split; [exact E|]. intros a A. rewrite has_In, in_map_iff. split.
  - intros (n & X & I). exists n. split; [exact I|]. destruct (H n I) as (b & B & [-> | ->]).
    + left. rewrite (proj1 (D b B)) in X. exact X.
    + right. rewrite (proj2 (D b B)) in X. congruence.
  - intros (n & I & [-> | ->]); [exists a|exists ("d"%char :: a)]; (split; [apply D, A|exact I]).
Qed.
Lemma axes_nodup names : NoDup (axes_of names).
Proof.
  unfold axes_of. apply NoDup_filter. repeat match goal with |- context [if ?b then _ else _] => destruct b end;
  repeat constructor; cbn; intuition discriminate.
Qed.
Lemma axes_idem names : axes_of (axes_of names) = axes_of names.
Proof.
  unfold axes_of at 2 3. set (ns := map strip_d names). clearbody ns.
  repeat match goal with |- context [has ns ?n] => let Q := fresh in destruct (has ns n) eqn:Q end;
  cbn [orb filter spherical_axes cylindrical_axes cartesian_axes logical_axes];
  repeat match goal with E : has ns ?n = _ |- context [has ns ?n] => rewrite E end;
  repeat match goal with |- context [has ns ?n] => let Q := fresh in destruct (has ns n) eqn:Q end; reflexivity.
Qed.
Lemma nth_error_firstn' {A} n (l : list A) : forall m, (m < n)%nat -> nth_error (firstn n l) m = nth_error l m.
Proof. revert n. induction l as [|x l IH]; intros n m H; [rewrite firstn_nil; reflexivity|]. destruct n; [lia|]. destruct m; [reflexivity|]. cbn. apply IH. lia. Qed.
Lemma nth_error_skipn' {A} n : forall (l : list A) m, nth_error (skipn n l) m = nth_error l (n + m).
Proof. induction n as [|n IH]; intros l m; [reflexivity|]. destruct l as [|x l]; [destruct m; reflexivity|]. apply IH. Qed.
Lemma nth_error_ext' {A} (l : list A) : forall m, (forall i, nth_error l i = nth_error m i) -> l = m.
Proof.
  induction l as [|x l IH]; intros [|y m] H; [reflexivity|specialize (H 0%nat); discriminate..|]. pose proof (H 0%nat) as E. cbn in E. injection E as ->. f_equal. apply IH. intros i. apply (H (S i)).
Qed.
Lemma in_grid_nonneg dims idx i d : in_grid dims idx -> nth_error idx i = Some d -> 0 <= d.
Proof. intros G. revert i. induction G as [|n x dims idx H _ IH]; intros [|i] E; try discriminate; cbn in E; [injection E as <-; lia|eapply IH; exact E]. Qed.

(** ---- whole conversions ---- *)
Lemma places_pos dims : Forall (fun n => 0 < n) dims -> 0 < places dims.
Proof. induction 1; cbn [places]; nia. Qed.
Lemma numbered_fst {A} (l : list A) i x : nth_error (numbered l) i = Some x -> fst x = i /\ nth_error l i = Some (snd x).
Proof. apply numbered_nth. Qed.
Section Cells.
Context {F : Type}.
Theorem structured_law b (c : @cset F) lens leaves : grid_dims b c lens -> b <> Structured ->
  let t := find_widest int_defaults leaves in
  Forall (fun n => 1 <= n <= int_max t) lens ->
  to_structured b c leaves = Ok (t, map (fun n => n - 1) lens).
Proof.
  intros G _ t B. unfold to_structured. rewrite (dim_lens_ok _ _ _ G). cbn [obind]. fold t. f_equal. f_equal. apply map_ext_in. intros n I.
  rewrite Forall_forall in B. specialize (B n I). apply conv_id; [apply int_type_ok|]. unfold in_type. split; [|lia].
  unfold int_min. destruct (is_signed t); [|lia]. assert (0 <= 2 ^ (bits t - 1)) by (apply Z.pow_nonneg; lia). lia.
Qed.

(** the cells along each axis *)
Definition cell_dims (b : base) (c : @cset F) (sdims : list (str * Z)) (ed : list Z) : Prop :=
  match b with
  | Structured => length ed = length (axes b c) /\
      forall i n, nth_error ed i = Some n -> exists l, nth_error logical_axes i = Some l /\ mget sdims l = Some n
  | _ => exists lens, grid_dims b c lens /\ ed = map (fun n => n - 1) lens
  end.
Lemma edims_ok b (c : @cset F) sdims ed : cell_dims b c sdims ed -> Forall (fun n => 0 <= n < 2 ^ 31 - 1) ed -> edims b c sdims = Ok ed.
Proof.
  intros H B. assert (CI : forall n, 0 <= n < 2 ^ 31 -> conv INT32 n = n).
  { intros n Hn. apply conv_id; [reflexivity|]. unfold in_type, int_min, int_max. cbn. lia. }
  destruct b; cbn [cell_dims edims] in *.
  - destruct H as (lens & G & ->). rewrite (dim_lens_ok _ _ _ G). cbn [obind]. f_equal. apply map_ext_in. intros n I.
    rewrite Forall_forall in B. specialize (B (n - 1) (in_map _ _ _ I)). rewrite CI by lia. reflexivity.
  - destruct H as (lens & G & ->). rewrite (dim_lens_ok _ _ _ G). reflexivity.
  - destruct H as (Le & H). apply omapM_nth; [rewrite numbered_len; exact Le|]. intros i [j ax] n E N. apply numbered_fst in E. cbn in E. destruct E as [-> _]. cbn [fst].
    destruct (H i n N) as (l & -> & M). cbn [deref obind]. unfold need. rewrite M. cbn [obind]. rewrite CI; [reflexivity|].
    rewrite Forall_forall in B. specialize (B n (nth_error_In _ _ N)). lia.
Qed.
Lemma cell_dims_len b c sdims ed : cell_dims b c sdims ed -> length ed = length (axes b c).
Proof. destruct b; cbn [cell_dims]; [intros (lens & (L & _) & ->); rewrite map_length; exact L..|intros [L _]; exact L]. Qed.
Theorem unstructured_law b (c : @cset F) sdims leaves ed :
  let t := find_widest int_defaults leaves in let pts := map (fun n => n + 1) ed in
  cell_dims b c sdims ed -> Forall (fun n => 0 <= n < 2 ^ 31 - 1) ed -> ed <> [] -> places pts - 1 <= int_max t ->
  exists ids, to_unstructured b c sdims leaves = Ok (t, ids) /\
    Z.of_nat (length ids) = Z.of_nat (2 ^ length ed) * places ed /\
    forall cell, in_grid ed cell -> row (2 ^ length ed) ids (grid_index ed cell) = map (grid_index pts) (corners cell).
Proof.
  intros t pts H B N P. unfold to_unstructured. rewrite (edims_ok b c sdims ed H B). cbn [obind]. rewrite <- (cell_dims_len b c sdims ed H).
  assert (L : (1 <= length ed <= 3)%nat).
  { split; [destruct ed; [congruence|cbn; lia]|]. rewrite (cell_dims_len b c sdims ed H). apply axes_le. }
  destruct (connectivity_law t ed) as (ids & E & Li & R); [apply int_type_ok|exact L|eapply Forall_impl; [|exact B]; cbn; lia|exact P|].
  fold t. rewrite E. cbn [obind]. exists ids. auto.
Qed.

End Cells.
Section Whole.
Context {F : Type} (fadd fmul : F -> F -> F) (fofz : Z -> F) (f0 f1 : F) (cast : tid -> tid -> F -> F).
Notation coordinate := (coordinate fadd fmul fofz f0 f1 cast).
Notation to_explicit := (to_explicit fadd fmul fofz f0 f1 cast).
Notation to_rectilinear := (to_rectilinear fadd fmul fofz f0 f1 cast).

Theorem rectilinear_law (c : @cset F) lens : grid_dims Uniform c lens -> coords_ok Uniform c ->
  exists vs, to_rectilinear c = Ok (float_type c, vs) /\ map fst vs = axes Uniform c /\
    forall i ax vals, nth_error vs i = Some (ax, vals) ->
      nth_error lens i = Some (Z.of_nat (length vals)) /\
      forall d v, nth_error vals d = Some v -> exists x, coordinate Uniform c ax (Z.of_nat d) FLOAT64 x /\ v = cast FLOAT64 (float_type c) x.
Proof.
  intros G C. pose proof G as (Le & D & NN). unfold MeshConv.to_rectilinear.
  destruct (omapM_make (fun ia => rect_axis fadd fmul fofz f0 f1 cast c (fst ia) (snd ia))
    (fun i y => nth_error (axes Uniform c) i = Some (fst y) /\ nth_error lens i = Some (Z.of_nat (length (snd y))) /\
       forall d v, nth_error (snd y) d = Some v -> exists x, coordinate Uniform c (fst y) (Z.of_nat d) FLOAT64 x /\ v = cast FLOAT64 (float_type c) x)
    (numbered (axes Uniform c))) as (vs & E & Lv & K).
  { intros i [j ax] Ei. apply numbered_fst in Ei. cbn in Ei. destruct Ei as [-> Ei]. cbn [fst snd].
    assert (exists n, nth_error lens i = Some n) as (n & En).
    { destruct (nth_error lens i) eqn:Q; [eauto|]. apply nth_error_None in Q. apply nth_error_Some_lt in Ei. lia. }
    pose proof (D i ax n Ei En) as A. cbn [axis_len] in A. destruct A as (l & El & Ml).
    assert (Hn : 0 <= n) by (rewrite Forall_forall in NN; apply NN; eapply nth_error_In; exact En).
    destruct (C ax (nth_error_In _ _ Ei)) as [Co Cs]. destruct (scalar_get cast _ _ f0 Co) as (o & So & Eo). destruct (scalar_get cast _ _ f1 Cs) as (s & Ss & Es).
    unfold rect_axis, origin_at, spacing_at. rewrite Eo. cbn [obind]. rewrite Es. cbn [obind dim_len]. rewrite El. cbn [deref obind]. unfold need. rewrite Ml. cbn [obind].
    eexists. split; [reflexivity|]. cbn [fst snd]. split; [exact Ei|]. split.
    - rewrite map_length. unfold zseq. rewrite map_length, seq_length, Z2Nat.id by exact Hn. exact En.
    - intros d v Ev. rewrite nth_error_map in Ev. destruct (nth_error (zseq n) d) as [z|] eqn:Q; [|discriminate]. cbn in Ev. injection Ev as <-.
      assert (z = Z.of_nat d) as ->.
      { unfold zseq in Q. rewrite nth_error_map in Q. destruct (nth_error (seq 0 (Z.to_nat n)) d) eqn:Q'; [|discriminate]. cbn in Q. injection Q as <-.
        pose proof (nth_error_Some_lt _ _ _ Q') as Lt. rewrite seq_length in Lt. apply nth_error_nth with (d := 0%nat) in Q'. rewrite seq_nth in Q' by exact Lt. lia. }
      exists (fadd o (fmul (fofz (Z.of_nat d)) s)). split; [exists o, s; auto|reflexivity]. }
  rewrite E. cbn [obind]. exists vs. split; [reflexivity|]. rewrite numbered_len in Lv. split.
  - apply nth_ext with (d := []) (d' := []); [rewrite map_length; exact Lv|]. intros i Hi. rewrite map_length in Hi.
    destruct (nth_error vs i) as [y|] eqn:Q; [|apply nth_error_None in Q; lia]. pose proof (K i y Q) as (K1 & _).
    rewrite (nth_error_nth (axes Uniform c) i [] K1). apply (map_nth_error fst) in Q. apply nth_error_nth. exact Q.
  - intros i ax vals Q. pose proof (K i _ Q) as (K1 & K2 & K3). cbn [fst snd] in *. split; assumption.
Qed.

(** the corners of every cell have the coordinates of their places on the axes *)
Theorem cells_law b (c : @cset F) lens leaves :
  let t := find_widest int_defaults leaves in let ed := map (fun n => n - 1) lens in
  b <> Structured -> grid_dims b c lens -> coords_ok b c -> lens <> [] -> Forall (fun n => 1 <= n < 2 ^ 31) lens -> places lens - 1 <= int_max t ->
  exists ids vs, to_unstructured b c [] leaves = Ok (t, ids) /\ to_explicit b c = Ok (float_type c, vs) /\ map fst vs = axes b c /\
    Forall (fun p => 0 <= p < places lens) ids /\
    forall cell m q, in_grid ed cell -> nth_error (corners cell) m = Some q ->
      exists p, nth_error ids (2 ^ length ed * Z.to_nat (grid_index ed cell) + m) = Some p /\
        forall i ax vals d, nth_error vs i = Some (ax, vals) -> nth_error q i = Some d ->
          exists ty x, coordinate b c ax d ty x /\ nth_error vals (Z.to_nat p) = Some (Some (cast ty (float_type c) x)).
Proof.
  intros t ed NB G C NE B P.
  assert (PE : map (fun n => n + 1) ed = lens).
  { unfold ed. rewrite map_map. rewrite <- (map_id lens) at 2. apply map_ext. intros; lia. }
  destruct (unstructured_law b c [] leaves ed) as (ids & E & Li & R).
  { destruct b; cbn [cell_dims]; [exists lens; auto..|congruence]. }
  { unfold ed. apply Forall_forall. intros n I. apply in_map_iff in I. destruct I as (m & <- & I). rewrite Forall_forall in B. specialize (B m I). lia. }
  { unfold ed. destruct lens; [congruence|discriminate]. }
  { fold t. rewrite PE. exact P. }
  fold t in E. rewrite PE in R. destruct (explicit_law fadd fmul fofz f0 f1 cast b c lens NB G C) as (vs & Ev & Nv & V).
  assert (N0 : Forall (fun n => 0 <= n) ed) by (unfold ed; apply Forall_forall; intros n I; apply in_map_iff in I; destruct I as (m & <- & I); rewrite Forall_forall in B; specialize (B m I); lia).
  assert (LE : (1 <= length ed <= 3)%nat).
  { unfold ed. rewrite map_length. destruct G as (L & _). split; [destruct lens; [congruence|cbn; lia]|]. rewrite L. apply axes_le. }
  assert (AT : forall cell m q, in_grid ed cell -> nth_error (corners cell) m = Some q ->
    nth_error ids (2 ^ length ed * Z.to_nat (grid_index ed cell) + m) = Some (grid_index lens q) /\ in_grid lens q).
  { intros cell m q Gc Q. destruct (corners_in ed cell Gc LE) as [CI CL]. rewrite PE in CI. split.
    - pose proof (R cell Gc) as RR. unfold row in RR. pose proof (nth_error_Some_lt _ _ _ Q) as Lt. rewrite CL in Lt.
      assert (X : nth_error (firstn (2 ^ length ed) (skipn (2 ^ length ed * Z.to_nat (grid_index ed cell)) ids)) m = Some (grid_index lens q)) by (rewrite RR, nth_error_map, Q; reflexivity).
      rewrite nth_error_firstn' in X by exact Lt. rewrite nth_error_skipn' in X. exact X.
    - rewrite Forall_forall in CI. apply CI. eapply nth_error_In. exact Q. }
  exists ids, vs. split; [exact E|]. split; [exact Ev|]. split; [exact Nv|]. split.
  - apply Forall_forall. intros p I. apply In_nth_error in I. destruct I as (k & I). pose proof (nth_error_Some_lt _ _ _ I) as Lt.
    set (w := (2 ^ length ed)%nat) in *. assert (W : (w <> 0)%nat) by (unfold w; apply Nat.pow_nonzero; lia).
    pose proof (Nat.div_mod_eq k w) as DM. pose proof (Nat.mod_upper_bound k w W) as MB.
    destruct (grid_onto ed N0 (Z.of_nat (k / w))) as (cell & Gc & Ge).
    { clear - DM MB Lt Li W. revert DM MB. generalize (k / w)%nat (k mod w)%nat. intros a r DM MB. split; [lia|]. assert (Z.of_nat k < Z.of_nat w * places ed) by lia. nia. }
    destruct (corners_in ed cell Gc LE) as [_ CL]. fold w in CL. destruct (nth_error (corners cell) (k mod w)) as [q|] eqn:Q; [|apply nth_error_None in Q; lia].
    destruct (AT cell _ q Gc Q) as [A1 A2]. rewrite Ge, Nat2Z.id, <- DM, I in A1. injection A1 as ->. apply grid_nonneg. exact A2.
  - intros cell m q Gc Q. destruct (AT cell m q Gc Q) as [A1 A2]. exists (grid_index lens q). split; [exact A1|].
    intros i ax vals d Vi Di. destruct (V i ax vals Vi) as (_ & _ & V3). apply (V3 q d A2 Di).
Qed.

(** by way of the rectilinear form: the same points *)
Definition rect_set (t : tid) (vs : list (str * list F)) : @cset F :=
  {| c_dims := []; c_origin := None; c_spacing := None; c_values := map (fun kv => (fst kv, (t, snd kv))) vs |}.
Theorem routes_agree c lens : grid_dims Uniform c lens -> coords_ok Uniform c -> axes Uniform c <> [] ->
  (forall t x, cast t t x = x) ->
  exists t vs, to_rectilinear c = Ok (t, vs) /\ to_explicit Rectilinear (rect_set t vs) = to_explicit Uniform c.
Proof.
  intros G C NE CI. pose proof (axes_nodup _ : NoDup (axes Uniform c)) as ND. destruct (rectilinear_law c lens G C) as (vs & E & Nv & V). exists (float_type c), vs. split; [exact E|].
  set (r := rect_set (float_type c) vs).
  assert (NR : map fst (c_values r) = map fst vs) by (unfold r; cbn; rewrite map_map; reflexivity).
  assert (AX : axes Rectilinear r = axes Uniform c).
  { unfold axes at 1. rewrite NR, Nv. unfold axes. apply axes_idem. }
  assert (TR : float_type r = float_type c).
  { unfold r. rewrite float_type_ok. cbn [float_leaves rect_set c_origin c_spacing c_values app]. rewrite map_map. cbn [fst snd].
    assert (vs <> []) by (intros ->; rewrite <- Nv in NE; apply NE; reflexivity). destruct vs as [|kv vs']; [congruence|].
    pose proof (float_type_ok c) as Q. destruct (existsb _ (float_leaves c)); rewrite Q; [reflexivity|]. cbn.
    clear. induction vs' as [|x vs' IH]; [reflexivity|exact IH]. }
  assert (MV : forall i ax vals, nth_error vs i = Some (ax, vals) -> mget (c_values r) ax = Some (float_type c, vals)).
  { intros i ax vals Q. apply mget_Some_In_nodup; [rewrite NR, Nv; exact ND|]. apply in_map_iff. exists (ax, vals). split; [reflexivity|]. eapply nth_error_In. exact Q. }
  assert (GR : grid_dims Rectilinear r lens).
  { pose proof G as (L & _ & NN). split; [rewrite AX; exact L|]. split; [|exact NN]. intros i ax n Ax En. rewrite AX in Ax.
    rewrite <- Nv in Ax. rewrite nth_error_map in Ax. destruct (nth_error vs i) as [[a vals]|] eqn:Q; [|discriminate]. cbn in Ax. injection Ax as ->.
    destruct (V i ax vals Q) as [V1 _]. rewrite En in V1. injection V1 as ->. exists (float_type c), vals. split; [eapply MV; exact Q|reflexivity]. }
  destruct (explicit_law fadd fmul fofz f0 f1 cast Rectilinear r lens ltac:(discriminate) GR I) as (v1 & E1 & N1 & V1).
  destruct (explicit_law fadd fmul fofz f0 f1 cast Uniform c lens ltac:(discriminate) G C) as (v2 & E2 & N2 & V2).
  rewrite E1, E2, TR. f_equal. f_equal. rewrite TR in V1.
  assert (LL : length v1 = length v2) by (rewrite <- (map_length fst v1), <- (map_length fst v2), N1, N2, AX; reflexivity).
  apply nth_error_ext'. intros i. destruct (nth_error v1 i) as [[a1 x1]|] eqn:Q1; [|apply nth_error_None in Q1; symmetry; apply nth_error_None; lia].
  destruct (nth_error v2 i) as [[a2 x2]|] eqn:Q2; [|apply nth_error_None in Q2; apply nth_error_Some_lt in Q1; lia].
  assert (a1 = a2) as ->.
  { apply (map_nth_error fst) in Q1, Q2. cbn in Q1, Q2. rewrite N1, AX in Q1. rewrite N2 in Q2. congruence. }
  destruct (V1 i a2 x1 Q1) as (L1 & _ & W1). destruct (V2 i a2 x2 Q2) as (L2 & _ & W2). f_equal. f_equal.
  pose proof G as (Lg & _ & NN). apply nth_error_ext'. intros p. destruct (lt_dec p (length x1)) as [Lp|Lp].
  - destruct (grid_onto lens NN (Z.of_nat p) ltac:(lia)) as (idx & Gi & Gp).
    assert (exists d, nth_error idx i = Some d) as (d & Ed).
    { destruct (nth_error idx i) eqn:Qd; [eauto|]. apply nth_error_None in Qd. pose proof (Forall2_len Gi) as FL. apply nth_error_Some_lt in Q2.
      assert (length v2 = length (axes Uniform c)) by (rewrite <- N2, map_length; reflexivity). lia. }
    destruct (W1 idx d Gi Ed) as (t1 & y1 & C1 & R1). destruct (W2 idx d Gi Ed) as (t2 & y2 & C2 & R2). rewrite Gp, Nat2Z.id in R1, R2. rewrite R1, R2. f_equal. f_equal.
    assert (exists vals, nth_error vs i = Some (a2, vals)) as (vals & Qv).
    { apply (map_nth_error fst) in Q2. cbn in Q2. rewrite N2, <- Nv, nth_error_map in Q2. destruct (nth_error vs i) as [[a vals]|]; [|discriminate]. cbn in Q2. injection Q2 as ->. eauto. }
    cbn [MeshConvFacts.coordinate] in C1. destruct C1 as (ws & M1 & X1). rewrite (MV _ _ _ Qv) in M1. injection M1 as <- <-.
    destruct (V i a2 vals Qv) as [_ V3]. destruct (V3 _ _ X1) as (x & Cx & ->). 
    assert (0 <= d) by (eapply in_grid_nonneg; eassumption). rewrite Z2Nat.id in Cx by lia.
    destruct (coordinate_fun fadd fmul fofz f0 f1 cast Uniform c a2 d _ _ _ _ Cx C2) as [<- <-]. apply CI.
  - rewrite !(proj2 (nth_error_None _ _)) by lia. reflexivity.
Qed.
End Whole.
