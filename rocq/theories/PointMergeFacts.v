(** Specification of the joining of coordinate sets and facts about the model. *)
From Coq Require Import Permutation QArith Floats.SpecFloat.
From Verif Require Import Base DType SpecTree Mem Node Number NodeFacts ArrayOps ArrayOpsFacts O2M O2MFacts MatSetFacts MeshConv MeshConvFacts MeshElemFacts KdTree KdTreeFacts PointMerge.
From Coq Require Import Lqa.
Local Open Scope Z_scope.
Import ListNotations.

(** ---- specification ---- *)
(** the square of the distance *)
Fixpoint square (p q : list Q) : Q :=
  match p, q with x :: p, y :: q => ((x - y) * (x - y) + square p q)%Q | _, _ => 0%Q end.
Definition near (tol : Q) (p q : list Q) : Prop := (square p q <= tol * tol)%Q.
(** points, one by one, and the number of a new point for each: every point is near its new
    point; each new point is one of the points, and has its number; new points are not near
    each other *)
Record merged (tol : Q) (all : list (list Q)) (ids : list Z) (new : list (list Q)) : Prop := {
  m_len : length ids = length all;
  m_near : forall k p i, nth_error all k = Some p -> nth_error ids k = Some i -> exists q, znth new i = Some q /\ near tol p q;
  m_from : forall i q, znth new i = Some q -> exists k, nth_error all k = Some q /\ nth_error ids k = Some i;
  m_apart : forall i j p q, i <> j -> znth new i = Some p -> znth new j = Some q -> ~ near tol p q }.
(** all points equal, or not near *)
Definition same (p q : list Q) : Prop := Forall2 Qeq p q.
Definition separate (tol : Q) (all : list (list Q)) : Prop := forall p q, In p all -> In q all -> near tol p q -> same p q.

(** an explicit cartesian set, by one to three columns of the same length; its points with
    three coordinates *)
Definition plain (cols : list (list Q)) : Prop :=
  (1 <= length cols <= 3)%nat /\ exists n, Forall (fun c => length c = n) cols.
Definition explicit (cols : list (list Q)) : source := Explicit (combine [L "x"; L "y"; L "z"] cols).
Definition points (cols : list (list Q)) : list (list Q) :=
  map (fun k => map (fun c => nth k c 0%Q) cols ++ repeat 0%Q (3 - length cols)) (seq 0 (length (hd [] cols))).
(** the columns x, y, z of points *)
Definition columns (dim : nat) (ps : list (list Q)) : list (str * list Q) :=
  combine [L "x"; L "y"; L "z"] (map (fun i => map (fun p => nth i p 0%Q) ps) (seq 0 dim)).
(** point k of set a; its number *)
Definition point_of (sets : list (list (list Q))) (a k : nat) (p : list Q) : Prop :=
  exists c, nth_error sets a = Some c /\ nth_error (points c) k = Some p.
Definition id_of (maps : list (list Z)) (a k : nat) (i : Z) : Prop :=
  exists m, nth_error maps a = Some m /\ nth_error m k = Some i.
(** two sets have a point in common *)
Definition touching (sets : list (list (list Q))) : Prop :=
  exists a b k l p q, a <> b /\ point_of sets a k p /\ point_of sets b l q /\ same p q.

(** ---- distances and boxes ---- *)
Local Open Scope Q_scope.
Lemma sqr_nonneg a : 0 <= a * a.
Proof. destruct (Qlt_le_dec a 0) as [H|H]; [setoid_replace (a * a) with ((- a) * (- a)) by ring; apply Qmult_le_0_compat; lra|apply Qmult_le_0_compat; assumption]. Qed.
Lemma sqr_lt t a : 0 <= t -> t < a -> t * t < a * a.
Proof. intros H G. assert (P : 0 < (a - t) * (a + t)) by (apply Qmult_lt_0_compat; lra). setoid_replace ((a - t) * (a + t)) with (a * a - t * t) in P by ring. lra. Qed.
Lemma square_nonneg p : forall q, 0 <= square p q.
Proof. induction p as [|x p IH]; intros [|y q]; cbn [square]; try apply Qle_refl. specialize (IH q). pose proof (sqr_nonneg (x - y)). lra. Qed.
Lemma square_sym p : forall q, square p q == square q p.
Proof. induction p as [|x p IH]; intros [|y q]; cbn [square]; try reflexivity. rewrite (IH q). ring. Qed.
Lemma near_sym tol p q : near tol p q -> near tol q p.
Proof. unfold near. rewrite square_sym. tauto. Qed.
Lemma square_same p q : same p q -> square p q == 0.
Proof. induction 1 as [|x y p q E R IH]; cbn [square]; [reflexivity|]. rewrite IH, E. ring. Qed.
Lemma near_same tol p q : 0 <= tol -> same p q -> near tol p q.
Proof. intros T S. unfold near. rewrite (square_same p q S). apply sqr_nonneg. Qed.
Lemma vdist2_square p q : vdist2 exact p q == square p q.
Proof.
  unfold vdist2. cbn [zero exact]. enough (G : forall s, fold_left (fun s xy => let d := sub exact (snd xy) (fst xy) in add exact s (mul exact d d)) (combine p q) s == s + square p q) by (rewrite G; ring).
  revert q. induction p as [|x p IH]; intros [|y q] s; cbn [combine fold_left square]; try ring. rewrite IH. cbn [sub add mul exact fst snd]. ring.
Qed.
Lemma near_model tol p q : le exact (vdist2 exact p q) (mul exact tol tol) = true <-> near tol p q.
Proof. cbn [le mul exact]. rewrite Qle_bool_iff, vdist2_square. reflexivity. Qed.
Definition within (p : list Q) (b : box (F := Q)) : Prop := Forall2 (fun x mm => fst mm <= x /\ x <= snd mm) p b.
Lemma within_len p b : within p b -> length p = length b.
Proof. induction 1; cbn; congruence. Qed.
Lemma contains_ok p : forall b, length p = length b -> (contains exact p b = true <-> within p b).
Proof.
  unfold contains. induction p as [|x p IH]; intros [|mm b] E; try discriminate; [cbn; split; [constructor|reflexivity]|]. injection E as E. specialize (IH b E).
  cbn [combine forallb]. cbn [le exact fst snd]. split.
  - intros H. apply andb_true_iff in H. destruct H as [A B]. apply andb_true_iff in A, B. destruct A as [A1 A2], B as [B1 B2]. apply Qle_bool_iff in A1, B1. constructor; [split; assumption|]. apply IH. cbn [le exact] in *. rewrite A2, B2. reflexivity.
  - intros W. inversion W; subst. match goal with H : Forall2 _ p b |- _ => apply IH in H; apply andb_true_iff in H; destruct H as [C1 C2] end. destruct H2 as [D1 D2]. apply Qle_bool_iff in D1, D2. rewrite D1, D2. cbn [andb]. cbn [le exact] in C1, C2. rewrite C1, C2. reflexivity.
Qed.
Lemma near_each tol p : forall q, length p = length q -> 0 <= tol -> near tol p q -> Forall2 (fun x y => y - tol <= x /\ x <= y + tol) p q.
Proof.
  unfold near. induction p as [|x p IH]; intros [|y q] E T N; try discriminate; [constructor|]. injection E as E. cbn [square] in N.
  pose proof (square_nonneg p q) as S. pose proof (sqr_nonneg (x - y)) as R. constructor; [|apply IH; [exact E|exact T|lra]].
  split; apply Qnot_lt_le; intros C.
  - pose proof (sqr_lt tol (y - x) T). setoid_replace ((x - y) * (x - y)) with ((y - x) * (y - x)) in N by ring. assert (tol < y - x) by lra. specialize (H H0). lra.
  - pose proof (sqr_lt tol (x - y) T). assert (tol < x - y) by lra. specialize (H H0). lra.
Qed.
Lemma within_tol tol p q b : 0 <= tol -> length p = length b -> within q b -> near tol p q -> contains_tol exact p b tol = true.
Proof.
  intros T E W N. unfold contains_tol. pose proof (within_len q b W) as E'. apply contains_ok; [rewrite map_length; exact E|]. unfold within.
  pose proof (near_each tol p q (eq_trans E (eq_sym E')) T N) as A. clear N E E'. revert p A. induction W as [|y mm q b H W IH]; intros p A; inversion A; subst; [constructor|]. cbn [map]. constructor; [|apply IH; assumption].
  cbn [fst snd sub add exact]. split; lra.
Qed.
Lemma min_le a b : min_ exact a b <= a /\ min_ exact a b <= b.
Proof. unfold min_. destruct (lt exact b a) eqn:E; [apply exact_lt in E|apply exact_ltf in E]; split; lra. Qed.
Lemma max_le a b : a <= max_ exact a b /\ b <= max_ exact a b.
Proof. unfold max_. destruct (lt exact a b) eqn:E; [apply exact_lt in E|apply exact_ltf in E]; split; lra. Qed.
Lemma grow_len p b : length p = length b -> length (grow exact p b) = length b.
Proof. intros E. unfold grow. rewrite map_length, combine_length, E. apply Nat.min_id. Qed.
Lemma grow_in p : forall b, length p = length b -> within p (grow exact p b).
Proof. induction p as [|x p IH]; intros [|mm b] E; try discriminate; [constructor|]. injection E as E. unfold grow. cbn [combine map]. constructor; [|apply IH; exact E]. cbn [fst snd]. split; [apply min_le|apply max_le]. Qed.
Lemma grow_keeps p q b : length p = length b -> within q b -> within q (grow exact p b).
Proof. intros E W. revert p E. induction W as [|y mm q b H W IH]; intros [|x p] E; try discriminate; [constructor|]. injection E as E. unfold grow. cbn [combine map]. constructor; [|apply IH; exact E]. cbn [fst snd]. pose proof (min_le (fst mm) x). pose proof (max_le (snd mm) x). lra. Qed.

(** ---- the tree ---- *)
Section Tree.
Variable lowest : Q.
Variable sort : (Z -> Z -> bool) -> list Z -> list Z.
Hypothesis St : sorts sort.
Variable N : nat.
Fixpoint entries (t : kd (F := Q)) : list (list Q * Z) :=
  match t with Leaf _ ps => ps | Split _ _ _ l r => entries l ++ entries r end.
Fixpoint inv (t : kd (F := Q)) : Prop :=
  length (bb t) = N /\ Forall (fun q => within (fst q) (bb t)) (entries t) /\ match t with Leaf _ _ => True | Split _ _ _ l r => inv l /\ inv r end.
Lemma inv_bb t : inv t -> length (bb t) = N /\ Forall (fun q => within (fst q) (bb t)) (entries t).
Proof. destruct t; cbn [inv]; tauto. Qed.
Lemma filled_inv ps : Forall (fun q => length (fst q) = N) ps -> inv (filled exact lowest N ps) /\ entries (filled exact lowest N ps) = ps.
Proof.
  intros L. split; [|reflexivity]. unfold filled. cbn [inv bb entries].
  assert (G : forall (ps : list (list Q * Z)) b, length b = N -> Forall (fun q => length (fst q) = N) ps ->
     length (fold_left (fun b p => grow exact (fst p) b) ps b) = N /\ Forall (fun q => within (fst q) (fold_left (fun b p => grow exact (fst p) b) ps b)) ps /\
     forall q, within q b -> within q (fold_left (fun b p => grow exact (fst p) b) ps b)).
  { clear ps L. induction ps as [|p ps IH]; intros b E L; cbn [fold_left]; [split; [exact E|split; [constructor|tauto]]|]. inversion_clear L.
    destruct (IH (grow exact (fst p) b)) as (A & B & C); [rewrite grow_len; congruence|assumption|]. split; [exact A|]. split.
    - constructor; [|exact B]. apply C, grow_in. congruence.
    - intros q W. apply C, grow_keeps; [congruence|exact W]. }
  destruct (G ps (no_box exact lowest N)) as (A & B & _); [apply repeat_length|exact L|]. split; [exact A|]. split; [exact B|exact I].
Qed.
Lemma filter_perm {A} (f : A -> bool) l : Permutation (filter f l ++ filter (fun x => negb (f x)) l) l.
Proof. induction l as [|x l IH]; [constructor|]. cbn [filter]. destruct (f x); cbn [negb]; [cbn [app]; constructor; exact IH|]. rewrite <- Permutation_middle. constructor. exact IH. Qed.
Lemma split_ok n b ps p x : (2 <= n)%nat -> length ps = n -> length b = N -> length p = N -> Forall (fun q => within (fst q) b) (ps ++ [(p, x)]) ->
  exists t, split exact lowest sort n b ps p x = Ok t /\ inv t /\ bb t = b /\ Permutation (entries t) ((p, x) :: ps).
Proof.
  intros Hn Ln Lb Lp W. unfold split. set (d := widest _ _ _). set (f := fun i j : Z => _). set (at_i := fun i : Z => match znth ps i with Some q => co exact (fst q) d | None => zero exact end). set (scratch := sort f _).
  assert (Pm : Permutation (zseq (Z.of_nat n)) scratch).
  { apply St. change f with (fun i j => lt exact (at_i i) (at_i j)). repeat split; intros a; intros.
    - apply exact_ltf, Qle_refl.
    - apply exact_lt in H2, H3. apply exact_lt. lra.
    - apply exact_lt in H2. destruct (Qlt_le_dec (at_i a) (at_i c)); [left|right]; apply exact_lt; lra. }
  assert (Ls : length scratch = n) by (rewrite <- (Permutation_length Pm), length_zseq; lia).
  assert (G : forall m, (0 <= m < Z.of_nat n)%Z -> exists i q, znth scratch m = Some i /\ znth ps i = Some q).
  { intros m Hm. destruct (znth scratch m) as [i|] eqn:E; [|exfalso; unfold znth in E; replace (m <? 0)%Z with false in E by lia; apply nth_error_None in E; lia].
    exists i. assert (I : In i (zseq (Z.of_nat n))). { apply (Permutation_in _ (Permutation_sym Pm)). unfold znth in E. destruct (m <? 0)%Z; [discriminate|]. eapply nth_error_In; exact E. }
    apply in_zseq in I. destruct (znth ps i) as [q|] eqn:E2; [exists q; tauto|]. exfalso. unfold znth in E2. replace (i <? 0)%Z with false in E2 by lia. apply nth_error_None in E2. lia. }
  rewrite Ls. assert (D : (1 <= n / 2 < n)%nat) by (pose proof (Nat.div_str_pos n 2); pose proof (Nat.div_lt n 2); lia).
  destruct (G (Z.of_nat (n / 2))%Z) as (i1 & q1 & E1 & E1'); [lia|]. rewrite E1. cbn [deref obind]. rewrite E1'. cbn [deref obind].
  destruct (G (Z.of_nat (n / 2) - 1)%Z) as (i0 & q0 & E0 & E0'); [lia|]. rewrite E0. cbn [deref obind]. rewrite E0'. cbn [deref obind].
  set (med := if lt exact (co exact (fst q0) d) (co exact p d) && lt exact (co exact p d) (co exact (fst q1) d) then co exact p d else co exact (fst q1) d). set (isl := fun q : list Q * Z => lt exact (co exact (fst q) d) med). set (all := ps ++ [(p, x)]) in *.
  assert (Lall : Forall (fun q => length (fst q) = N) all) by (eapply Forall_impl; [|exact W]; intros q Wq; cbn beta in Wq; rewrite (within_len _ _ Wq); exact Lb).
  assert (Hf : forall g, Forall (fun q => length (fst q) = N) (filter g all)) by (intros g; apply Forall_forall; intros q I; apply filter_In in I; rewrite Forall_forall in Lall; apply Lall; tauto).
  rewrite Lp. eexists. split; [reflexivity|]. destruct (filled_inv _ (Hf isl)) as [I1 En1]. destruct (filled_inv _ (Hf (fun q => negb (isl q)))) as [I2 En2].
  assert (Pe : Permutation (filter isl all ++ filter (fun q => negb (isl q)) all) ((p, x) :: ps)) by (rewrite filter_perm; unfold all; symmetry; apply Permutation_cons_append).
  split; [|split; [reflexivity|exact Pe]].
  cbn [inv bb]. split; [exact Lb|]. split; [|split; assumption]. apply Forall_forall. intros q I. rewrite Forall_forall in W. apply W. apply (Permutation_in _ (filter_perm isl all)). exact I.
Qed.
Lemma insert_ok n p x : (2 <= n)%nat -> length p = N -> forall t, inv t -> exists t', insert exact lowest sort n p x t = Ok t' /\ inv t' /\ bb t' = grow exact p (bb t) /\ Permutation (entries t') ((p, x) :: entries t).
Proof.
  intros Hn Lp. induction t as [b ps|b d s l IHl r IHr]; intros I; cbn [insert].
  - destruct I as (Lb & W & _). cbn [bb entries] in *.
    assert (W' : Forall (fun q => within (fst q) (grow exact p b)) (ps ++ [(p, x)])).
    { apply Forall_app. split; [eapply Forall_impl; [|exact W]; intros q Wq; apply grow_keeps; [congruence|exact Wq]|]. constructor; [|constructor]. apply grow_in. congruence. }
    destruct (Nat.eqb_spec (length ps) n) as [E|_].
    + destruct (split_ok n (grow exact p b) ps p x Hn E) as (t & Et & It & Bt & Pt); [rewrite grow_len; congruence|exact Lp|exact W'|]. exists t. tauto.
    + eexists. split; [reflexivity|]. cbn [inv bb entries]. repeat split; [rewrite grow_len; congruence|exact W'|]. symmetry. apply Permutation_cons_append.
  - destruct I as (Lb & W & Il & Ir). cbn [bb entries] in *.
    assert (K : forall es, Permutation es ((p, x) :: entries l ++ entries r) -> Forall (fun q => within (fst q) (grow exact p b)) es).
    { intros es Pe. apply Forall_forall. intros q Iq. apply (Permutation_in _ Pe) in Iq. destruct Iq as [<-|Iq]; [apply grow_in; cbn [fst]; congruence|]. apply grow_keeps; [congruence|]. rewrite Forall_forall in W. apply W. exact Iq. }
    destruct (lt exact _ s).
    + destruct (IHl Il) as (l' & E & I' & B' & P'). rewrite E. cbn [obind]. eexists. split; [reflexivity|]. cbn [inv bb entries].
      assert (Pe : Permutation (entries l' ++ entries r) ((p, x) :: entries l ++ entries r)) by (rewrite P'; reflexivity).
      repeat split; try assumption; [rewrite grow_len; congruence|apply K; exact Pe].
    + destruct (IHr Ir) as (r' & E & I' & B' & P'). rewrite E. cbn [obind]. eexists. split; [reflexivity|]. cbn [inv bb entries].
      assert (Pe : Permutation (entries l ++ entries r') ((p, x) :: entries l ++ entries r)) by (rewrite P'; symmetry; apply Permutation_middle).
      repeat split; try assumption; [rewrite grow_len; congruence|apply K; exact Pe].
Qed.
(** a search finds the number of a point that is near, and finds one if there is one *)
Definition answers (tol : Q) (p : list Q) (es : list (list Q * Z)) (r : option Z) : Prop :=
  match r with
  | Some x => exists q, In (q, x) es /\ near tol p q
  | None => forall q x, In (q, x) es -> ~ near tol p q
  end.
Lemma find_in_ok tol p : 0 <= tol -> length p = N -> forall t, inv t -> answers tol p (entries t) (find_in exact p tol t).
Proof.
  intros T Lp. induction t as [b ps|b d s l IHl r IHr]; intros I.
  - cbn [find_in entries]. pose proof (find_In (fun q => le exact (vdist2 exact p (fst q)) (mul exact tol tol)) ps) as H.
    destruct (find _ ps) as [[q x]|]; cbn [option_map snd answers]; cbn [fst] in H.
    + exists q. destruct H as [A B]. split; [exact A|]. apply near_model. exact B.
    + intros q x Iq Nq. apply near_model in Nq. specialize (H _ Iq). cbn [fst] in H. congruence.
  - destruct I as (Lb & W & Il & Ir). specialize (IHl Il). specialize (IHr Ir). cbn [find_in entries].
    assert (Out : forall t, inv t -> contains_tol exact p (bb t) tol = false -> answers tol p (entries t) None).
    { intros t It C q x Iq Nq. destruct (inv_bb t It) as [Lt Wt]. rewrite Forall_forall in Wt. specialize (Wt _ Iq). cbn [fst] in Wt. rewrite (within_tol tol p q (bb t) T) in C; [discriminate|congruence|exact Wt|exact Nq]. }
    assert (Both : forall a c : option Z, answers tol p (entries l) a -> answers tol p (entries r) c ->
        answers tol p (entries l ++ entries r) (match a with Some x => Some x | None => c end) /\ answers tol p (entries l ++ entries r) (match c with Some x => Some x | None => a end)).
    { assert (Un : forall u v w : list (list Q * Z), (forall e, In e w <-> In e u \/ In e v) -> forall a c : option Z, answers tol p u a -> answers tol p v c -> answers tol p w (match a with Some x => Some x | None => c end)).
      { intros u v w Iw [a|] c; cbn [answers]; intros A C; [destruct A as (q & A1 & A2); exists q; split; [apply Iw; tauto|exact A2]|].
        destruct c as [c|]; cbn [answers] in *; [destruct C as (q & A1 & A2); exists q; split; [apply Iw; tauto|exact A2]|]. intros q x Iq. apply Iw in Iq. destruct Iq; [eapply A|eapply C]; eassumption. }
      intros a c A C. split; [apply (Un (entries l) (entries r))|apply (Un (entries r) (entries l))]; try assumption; intros e; rewrite in_app_iff; tauto. }
    destruct (contains_tol exact p (bb l) tol) eqn:Cl; destruct (contains_tol exact p (bb r) tol) eqn:Cr; cbn [andb].
    + destruct (Both _ _ IHl IHr). destruct (contains exact p (bb l)); assumption.
    + pose proof (Out r Ir Cr) as Or. destruct (Both _ _ IHl Or) as [A _]. destruct (find_in exact p tol l); exact A.
    + pose proof (Out l Il Cl) as Ol. destruct (Both _ _ Ol IHr) as [A _]. exact A.
    + exact (proj1 (Both _ _ (Out l Il Cl) (Out r Ir Cr))).
Qed.
Definition entries_root (t : option (kd (F := Q))) : list (list Q * Z) := match t with None => [] | Some t => entries t end.
Definition inv_root (t : option (kd (F := Q))) : Prop := match t with None => True | Some t => inv t end.
Lemma find_root_ok tol p t : 0 <= tol -> length p = N -> inv_root t -> answers tol p (entries_root t) (find_root exact p tol t).
Proof.
  intros T Lp I. destruct t as [t|]; cbn [find_root entries_root inv_root] in *; [|intros q x []].
  destruct (contains_tol exact p (bb t) tol) eqn:C; [apply find_in_ok; assumption|].
  intros q x Iq Nq. destruct (inv_bb t I) as [Lt Wt]. rewrite Forall_forall in Wt. specialize (Wt _ Iq). cbn [fst] in Wt. rewrite (within_tol tol p q (bb t) T) in C; [discriminate|congruence|exact Wt|exact Nq].
Qed.
Lemma insert_root_ok n p x t : (2 <= n)%nat -> length p = N -> inv_root t -> exists t', insert_root exact lowest sort n p x t = Ok t' /\ inv t' /\ Permutation (entries t') ((p, x) :: entries_root t).
Proof.
  intros Hn Lp I. destruct t as [t|]; cbn [insert_root entries_root inv_root] in *.
  - destruct (insert_ok n p x Hn Lp t I) as (t' & E & It & _ & Pt). exists t'. tauto.
  - destruct (filled_inv [(p, x)]) as [A B]; [constructor; [exact Lp|constructor]|]. rewrite Lp. eexists. split; [reflexivity|]. split; [exact A|]. rewrite B. reflexivity.
Qed.
(** any sequence of insertions, then a search *)
Fixpoint inserts (n : nat) (ps : list (list Q * Z)) (t : option (kd (F := Q))) : outcome (option (kd (F := Q))) :=
  match ps with
  | [] => Ok t
  | p :: r => do t' <- insert_root exact lowest sort n (fst p) (snd p) t; inserts n r (Some t')
  end.
Theorem tree_law n ps tol p : (2 <= n)%nat -> Forall (fun q => length (fst q) = N) ps -> length p = N -> 0 <= tol ->
  exists t, inserts n ps None = Ok t /\ answers tol p ps (find_root exact p tol t).
Proof.
  intros Hn L Lp T. assert (G : forall ps t, inv_root t -> Forall (fun q => length (fst q) = N) ps -> exists t', inserts n ps t = Ok t' /\ inv_root t' /\ Permutation (entries_root t') (ps ++ entries_root t)).
  { clear ps L. induction ps as [|q ps IH]; intros t It L; [exists t; split; [reflexivity|split; [exact It|reflexivity]]|]. inversion_clear L. cbn [inserts].
    destruct (insert_root_ok n (fst q) (snd q) t Hn H It) as (t1 & E & I1 & P1). rewrite E. cbn [obind]. destruct (IH (Some t1) I1 H0) as (t2 & E2 & I2 & P2). exists t2. split; [exact E2|]. split; [exact I2|].
    rewrite P2. cbn [entries_root]. rewrite P1. rewrite <- surjective_pairing. symmetry. apply Permutation_middle. }
  destruct (G ps None I L) as (t & E & It & P). exists t. split; [exact E|]. pose proof (find_root_ok tol p t T Lp It) as A. cbn [entries_root] in P. rewrite app_nil_r in P.
  destruct (find_root exact p tol t) as [x|]; cbn [answers] in *.
  - destruct A as (q & A1 & A2). exists q. split; [exact (Permutation_in _ P A1)|exact A2].
  - intros q x Iq. apply (A q x). exact (Permutation_in _ (Permutation_sym P) Iq).
Qed.

(** ---- merging ---- *)
Local Open Scope Z_scope.
Definition sound (s : found (F := Q)) : Prop :=
  inv_root (f_tree s) /\ forall q i, In (q, i) (entries_root (f_tree s)) <-> znth (f_new s) i = Some q.
Lemma znth_app_last {A} (l : list A) x i : znth (l ++ [x]) i = (if i =? Z.of_nat (length l) then Some x else znth l i).
Proof.
  unfold znth. destruct (Z.ltb_spec i 0) as [H|H]; [replace (i =? Z.of_nat (length l)) with false by lia; reflexivity|].
  destruct (Z.eqb_spec i (Z.of_nat (length l))) as [E|E].
  - rewrite nth_error_app2 by lia. replace (Z.to_nat i - length l)%nat with 0%nat by lia. reflexivity.
  - destruct (Nat.lt_ge_cases (Z.to_nat i) (length l)) as [C|C]; [apply nth_error_app1; exact C|]. rewrite (proj2 (nth_error_None l (Z.to_nat i)) C). apply nth_error_None. rewrite app_length. cbn [length]. lia.
Qed.
Lemma nth_app_last {A} (l : list A) x k y : nth_error (l ++ [x]) k = Some y <-> nth_error l k = Some y \/ (k = length l /\ y = x).
Proof.
  destruct (Nat.lt_ge_cases k (length l)) as [C|C].
  - rewrite nth_error_app1 by exact C. split; [tauto|intros [H|[H _]]; [exact H|lia]].
  - rewrite nth_error_app2 by exact C. rewrite (proj2 (nth_error_None l k) C). destruct (k - length l)%nat as [|m] eqn:E.
    + cbn [nth_error]. split; [intros H; injection H as ->; right; split; [lia|reflexivity]|intros [H|[_ ->]]; [discriminate|reflexivity]].
    + cbn [nth_error]. destruct m; cbn [nth_error]; (split; [discriminate|intros [H|[H _]]; [discriminate|lia]]).
Qed.
Lemma merge_point_ok n tol p s all ids : (2 <= n)%nat -> (0 <= tol)%Q -> length p = N -> sound s -> merged tol all ids (f_new s) ->
  exists s' i, merge_point exact lowest sort n tol p s = Ok (s', i) /\ sound s' /\ merged tol (all ++ [p]) (ids ++ [i]) (f_new s').
Proof.
  intros Hn T Lp [It En] M. unfold merge_point. pose proof (find_root_ok tol p (f_tree s) T Lp It) as A.
  assert (R : forall i, merged tol all ids (f_new s) -> (exists q, znth (f_new s) i = Some q /\ near tol p q) -> merged tol (all ++ [p]) (ids ++ [i]) (f_new s)).
  { intros i [M1 M2 M3 M4] H. split.
    - rewrite !app_length. cbn [length]. lia.
    - intros k q j Ek Ej. apply nth_app_last in Ek, Ej. destruct Ek as [Ek|[Ek ->]], Ej as [Ej|[Ej ->]]; [apply (M2 k); assumption| | |exact H]; [apply nth_error_Some_lt in Ek; lia|apply nth_error_Some_lt in Ej; lia].
    - intros j q E. destruct (M3 j q E) as (k & K1 & K2). exists k. rewrite !nth_app_last. tauto.
    - exact M4. }
  destruct (find_root exact p tol (f_tree s)) as [j|]; cbn [answers] in A.
  - destruct A as (q & A1 & A2). apply En in A1. exists s, j. split; [reflexivity|]. split; [split; assumption|]. apply R; [exact M|]. exists q. tauto.
  - destruct (insert_root_ok n p (Z.of_nat (length (f_new s))) (f_tree s) Hn Lp It) as (t & E & I' & P). rewrite E. cbn [obind]. eexists _, _. split; [reflexivity|]. cbn [f_new f_tree].
    assert (Nw : forall i q, znth (f_new s) i = Some q -> 0 <= i < Z.of_nat (length (f_new s))).
    { intros i q H. unfold znth in H. destruct (Z.ltb_spec i 0); [discriminate|]. apply nth_error_Some_lt in H. lia. }
    split; [split; [exact I'|]|].
    + intros q i. cbn [f_tree f_new entries_root]. rewrite znth_app_last. split.
      * intros Iq. apply (Permutation_in _ P) in Iq. destruct Iq as [Iq|Iq]; [injection Iq as <- <-; rewrite Z.eqb_refl; reflexivity|]. apply En in Iq. specialize (Nw _ _ Iq). replace (i =? Z.of_nat (length (f_new s))) with false by lia. exact Iq.
      * intros H. apply (Permutation_in _ (Permutation_sym P)). destruct (Z.eqb_spec i (Z.of_nat (length (f_new s)))) as [Ei|]; [subst i; injection H as ->; left; reflexivity|right; apply En; exact H].
    + destruct M as [M1 M2 M3 M4]. split.
      * rewrite !app_length. cbn [length]. lia.
      * intros k q j Ek Ej. apply nth_app_last in Ek, Ej. rewrite znth_app_last. destruct Ek as [Ek|[Ek ->]], Ej as [Ej|[Ej ->]]; [|apply nth_error_Some_lt in Ek; lia|apply nth_error_Some_lt in Ej; lia|].
        -- destruct (M2 k q j Ek Ej) as (q' & H1 & H2). specialize (Nw _ _ H1). replace (j =? Z.of_nat (length (f_new s))) with false by lia. exists q'. tauto.
        -- rewrite Z.eqb_refl. exists p. split; [reflexivity|]. apply near_same; [exact T|]. clear. unfold same. induction p; constructor; [reflexivity|assumption].
      * intros i q H. rewrite znth_app_last in H. destruct (Z.eqb_spec i (Z.of_nat (length (f_new s)))) as [Ei|]; [subst i|].
        -- injection H as ->. exists (length all). rewrite !nth_app_last. split; right; [tauto|]. split; [lia|reflexivity].
        -- destruct (M3 i q H) as (k & K1 & K2). exists k. rewrite !nth_app_last. tauto.
      * assert (Far : forall i q, znth (f_new s) i = Some q -> ~ near tol p q) by (intros i q H; apply (A q i), En; exact H).
        intros i j q r D Hi Hj. rewrite znth_app_last in Hi, Hj. destruct (Z.eqb_spec i (Z.of_nat (length (f_new s)))) as [Ei|Ei], (Z.eqb_spec j (Z.of_nat (length (f_new s)))) as [Ej|Ej].
        -- lia.
        -- injection Hi as <-. eapply Far; exact Hj.
        -- injection Hj as <-. intros C. apply near_sym in C. eapply Far; [exact Hi|exact C].
        -- exact (M4 i j q r D Hi Hj).
Qed.
Lemma merge_set_ok n tol (Hn : (2 <= n)%nat) (T : (0 <= tol)%Q) : forall ps s all ids, Forall (fun p => length p = N) ps -> sound s -> merged tol all ids (f_new s) ->
  exists s' is, merge_set exact lowest sort n tol ps s = Ok (s', is) /\ length is = length ps /\ sound s' /\ merged tol (all ++ ps) (ids ++ is) (f_new s').
Proof.
  induction ps as [|p ps IH]; intros s all ids L Ss M; cbn [merge_set].
  - eexists _, _. split; [reflexivity|]. rewrite !app_nil_r. tauto.
  - inversion_clear L. destruct (merge_point_ok n tol p s all ids Hn T H Ss M) as (s1 & i & E & S1 & M1). rewrite E. cbn [obind fst snd].
    destruct (IH s1 _ _ H0 S1 M1) as (s2 & is & E2 & L2 & S2 & M2). rewrite E2. cbn [obind fst snd]. eexists _, _. split; [reflexivity|]. rewrite <- !app_assoc in M2. cbn [app length] in *. rewrite L2. tauto.
Qed.
Lemma merge_sets_ok n tol (Hn : (2 <= n)%nat) (T : (0 <= tol)%Q) : forall sets s all ids, Forall (Forall (fun p => length p = N)) sets -> sound s -> merged tol all ids (f_new s) ->
  exists s' ms, merge_sets exact lowest sort n tol sets s = Ok (s', ms) /\ Forall2 (fun ps is => length is = length ps) sets ms /\ sound s' /\ merged tol (all ++ concat sets) (ids ++ concat ms) (f_new s').
Proof.
  induction sets as [|ps sets IH]; intros s all ids L Ss M; cbn [merge_sets].
  - eexists _, _. split; [reflexivity|]. cbn [concat]. rewrite !app_nil_r. split; [constructor|tauto].
  - inversion_clear L. destruct (merge_set_ok n tol Hn T ps s all ids H Ss M) as (s1 & is & E & L1 & S1 & M1). rewrite E. cbn [obind fst snd].
    destruct (IH s1 _ _ H0 S1 M1) as (s2 & ms & E2 & L2 & S2 & M2). rewrite E2. cbn [obind fst snd]. eexists _, _. split; [reflexivity|]. rewrite <- !app_assoc in M2. cbn [concat]. split; [constructor; assumption|]. split; [exact S2|exact M2].
Qed.
Theorem merge_law n tol sets : (2 <= n)%nat -> (0 <= tol)%Q -> Forall (Forall (fun p => length p = N)) sets ->
  exists s ms, merge_sets exact lowest sort n tol sets nothing = Ok (s, ms) /\ Forall2 (fun ps is => length is = length ps) sets ms /\ merged tol (concat sets) (concat ms) (f_new s).
Proof.
  intros Hn T L. destruct (merge_sets_ok n tol Hn T sets nothing [] [] L) as (s & ms & E & L2 & _ & M).
  - split; [exact I|]. intros q i. cbn [f_tree f_new nothing entries_root]. split; [intros []|]. unfold znth. destruct (i <? 0); [discriminate|]. destruct (Z.to_nat i); discriminate.
  - assert (Z0 : forall i, znth (f_new (F := Q) nothing) i = None) by (intros i; unfold znth; cbn [f_new nothing]; destruct (i <? 0); [reflexivity|]; destruct (Z.to_nat i); reflexivity).
    split; [reflexivity| | |]; [intros k p i H; destruct k; discriminate|intros i q H; rewrite Z0 in H; discriminate|intros i j p q _ H; rewrite Z0 in H; discriminate].
  - exists s, ms. tauto.
Qed.
End Tree.
(** what merging means for points that are equal or apart *)
Lemma same_refl p : same p p.
Proof. induction p; constructor; [reflexivity|assumption]. Qed.
Lemma same_sym p q : same p q -> same q p.
Proof. induction 1; constructor; [symmetry; assumption|assumption]. Qed.
Lemma same_trans p : forall q r, same p q -> same q r -> same p r.
Proof. induction p as [|x p IH]; intros q r A B; inversion A; subst; inversion B; subst; constructor; [etransitivity; eassumption|eapply IH; eassumption]. Qed.
Theorem merged_separate tol all ids new k1 k2 p q i j : (0 <= tol)%Q -> merged tol all ids new -> separate tol all ->
  nth_error all k1 = Some p -> nth_error all k2 = Some q -> nth_error ids k1 = Some i -> nth_error ids k2 = Some j -> (i = j <-> same p q).
Proof.
  intros T [M1 M2 M3 M4] Sp Ep Eq Ei Ej. destruct (M2 k1 p i Ep Ei) as (p' & P1 & P2). destruct (M2 k2 q j Eq Ej) as (q' & Q1 & Q2).
  assert (Ip : In p' all) by (destruct (M3 i p' P1) as (k & K & _); eapply nth_error_In; exact K). assert (Iq : In q' all) by (destruct (M3 j q' Q1) as (k & K & _); eapply nth_error_In; exact K).
  apply nth_error_In in Ep, Eq. pose proof (Sp p p' Ep Ip P2) as Sp'. pose proof (Sp q q' Eq Iq Q2) as Sq'. split.
  - intros ->. rewrite P1 in Q1. injection Q1 as ->. eapply same_trans; [exact Sp'|]. apply same_sym. exact Sq'.
  - intros S. destruct (Z.eq_dec i j) as [|D]; [assumption|]. exfalso. apply (M4 i j p' q' D P1 Q1). apply near_same; [exact T|]. eapply same_trans; [apply same_sym; exact Sp'|]. eapply same_trans; [exact S|exact Sq'].
Qed.

(** ---- the whole ---- *)
Local Open Scope Z_scope.
Lemma omapM_pure {A B} (f : A -> outcome B) (h : A -> B) l : (forall x, In x l -> f x = Ok (h x)) -> omapM f l = Ok (map h l).
Proof. induction l as [|x l IH]; intros H; [reflexivity|]. rewrite omapM_cons, (H x (or_introl eq_refl)). cbn [obind]. rewrite IH by (intros y I; apply H; right; exact I). reflexivity. Qed.
Lemma plain_cases cols : plain cols -> (exists c1, cols = [c1]) \/ (exists c1 c2, cols = [c1; c2] /\ length c2 = length c1) \/ (exists c1 c2 c3, cols = [c1; c2; c3] /\ length c2 = length c1 /\ length c3 = length c1).
Proof.
  intros [H (n & A)]. destruct cols as [|c1 [|c2 [|c3 [|c4 cols]]]]; cbn [length] in H; try lia.
  - left. eexists. reflexivity.
  - right. left. inversion_clear A. inversion_clear H1. exists c1, c2. split; [reflexivity|congruence].
  - right. right. inversion_clear A. inversion_clear H1. inversion_clear H3. exists c1, c2, c3. split; [reflexivity|split; congruence].
Qed.
Lemma column_at (c : list Q) n i : length c = n -> In i (zseq (Z.of_nat n)) -> deref (znth c i) = Ok (nth (Z.to_nat i) c 0%Q).
Proof.
  intros E I. apply in_zseq in I. unfold znth. replace (i <? 0) with false by lia. rewrite (nth_error_nth' c 0%Q) by lia. reflexivity.
Qed.
Section Whole.
Variable lowest : Q.
Variable sort : (Z -> Z -> bool) -> list Z -> list Z.
Hypothesis St : sorts sort.
Variables (to_xyz to_rtp : list Q -> list Q) (fofz : Z -> Q) (ftrunc : Q -> Z).
Lemma plain_source cols : plain cols ->
  length (axes_of (src_names (explicit cols))) = length cols /\
  src_extents exact lowest fofz ftrunc (explicit cols) = Ok (map (minmax exact lowest) cols) /\
  coordsys (src_names (explicit cols)) = Cartesian /\
  obind (src_values exact fofz (explicit cols)) (iterate exact) = Ok (points cols).
Proof.
  assert (G : forall cs (h : nat -> list Q) n, (forall i, In i (zseq (Z.of_nat n)) -> row exact cs i = Ok (h (Z.to_nat i))) -> omapM (row exact cs) (zseq (Z.of_nat n)) = Ok (map h (seq 0 n))).
  { intros cs h n H. rewrite (omapM_pure _ _ _ H), zseq_nat, map_map. f_equal. apply map_ext. intros k. rewrite Nat2Z.id. reflexivity. }
  intros P. apply plain_cases in P. destruct P as [(c1 & ->)|[(c1 & c2 & -> & E2)|(c1 & c2 & c3 & -> & E2 & E3)]]; (split; [reflexivity|]); (split; [reflexivity|]); (split; [reflexivity|]); cbn [explicit src_values combine obind].
  - transitivity (omapM (row exact [Some c1; None; None]) (zseq (Z.of_nat (length c1)))); [reflexivity|]. apply G. intros i I. unfold row. cbn [omapM]. rewrite (column_at c1 _ i eq_refl I). reflexivity.
  - transitivity (omapM (row exact [Some c1; Some c2; None]) (zseq (Z.of_nat (length c1)))); [reflexivity|]. apply G. intros i I. unfold row. cbn [omapM]. rewrite (column_at c1 _ i eq_refl I), (column_at c2 _ i E2 I). reflexivity.
  - transitivity (omapM (row exact [Some c1; Some c2; Some c3]) (zseq (Z.of_nat (length c1)))); [reflexivity|]. apply G. intros i I. unfold row. cbn [omapM]. rewrite (column_at c1 _ i eq_refl I), (column_at c2 _ i E2 I), (column_at c3 _ i E3 I). reflexivity.
Qed.
(** a point lies in the box of its set *)
Lemma minmax_bounds c x : In x c -> (fst (minmax exact lowest c) <= x)%Q /\ (x <= snd (minmax exact lowest c))%Q.
Proof.
  unfold minmax. set (f := fun b x => _). assert (G : forall c b, (fst (fold_left f c b) <= fst b)%Q /\ (snd b <= snd (fold_left f c b))%Q /\ forall x, In x c -> (fst (fold_left f c b) <= x)%Q /\ (x <= snd (fold_left f c b))%Q).
  { clear c x. induction c as [|y c IH]; intros b; [split; [apply Qle_refl|]; split; [apply Qle_refl|]; intros x []|]. cbn [fold_left]. destruct (IH (f b y)) as (A & B & C).
    pose proof (min_le (fst b) y) as M1. pose proof (max_le (snd b) y) as M2. change (min_ exact (fst b) y) with (fst (f b y)) in M1. change (max_ exact (snd b) y) with (snd (f b y)) in M2.
    split; [lra|]. split; [lra|]. intros x [->|I]; [lra|apply C; exact I]. }
  apply G.
Qed.
Lemma point_in_box cols p : plain cols -> In p (points cols) -> within p (pad exact (map (minmax exact lowest) cols)).
Proof.
  intros P I. unfold points in I. apply in_map_iff in I. destruct I as (k & <- & I). apply in_seq in I.
  assert (B : forall c, length c = length (hd [] cols) -> let mm := minmax exact lowest c in (fst mm <= nth k c 0)%Q /\ (nth k c 0 <= snd mm)%Q) by (intros c E; apply minmax_bounds, nth_In; lia).
  apply plain_cases in P. destruct P as [(c1 & ->)|[(c1 & c2 & -> & E2)|(c1 & c2 & c3 & -> & E2 & E3)]]; cbn [hd] in B; unfold pad; cbn [map app length Nat.sub repeat firstn];
    repeat (constructor; [first [apply B; congruence|cbn; split; apply Qle_refl]|]); constructor.
Qed.
Lemma box_meet p q a b : within p (pad exact a) -> within q (pad exact b) -> same p q -> overlap exact a b = true.
Proof.
  unfold overlap. generalize (pad exact a) (pad exact b). clear a b. intros a b A B S. revert a b A B. induction S as [|x y p q E S IH]; intros a b A B; inversion A; subst; inversion B; subst; [reflexivity|].
  cbn [combine forallb]. rewrite IH by assumption. rewrite andb_true_r. cbn [le exact]. apply andb_true_iff. split; apply Qle_bool_iff; cbn [fst snd]; lra.
Qed.
Lemma zsum_zero (l : list Z) : Forall (fun x => 0 <= x) l -> zsum l = 0 -> forall x, In x l -> x = 0.
Proof.
  intros H. assert (P : forall l, Forall (fun x => 0 <= x) l -> 0 <= zsum l) by (induction 1; cbn [zsum]; lia).
  induction H as [|y l Hy H IH]; cbn [zsum]; intros E x I; [destruct I|]. specialize (P l H). destruct I as [<-|I]; [lia|apply IH; [lia|exact I]].
Qed.
Lemma in_numbered {A} (l : list A) a x : nth_error l a = Some x -> In (a, x) (numbered l).
Proof.
  intros E. apply (nth_error_In _ a). unfold numbered. enough (G : forall o, nth_error (combine (seq o (length l)) l) a = Some ((o + a)%nat, x)) by apply (G 0%nat).
  revert a E. induction l as [|y l IH]; intros [|a] E o; try discriminate; cbn [length seq combine nth_error] in *; [injection E as ->; rewrite Nat.add_0_r; reflexivity|]. rewrite (IH a E). do 2 f_equal. lia.
Qed.
Lemma not_overlapping exts a b x y : overlapping exact exts = 0 -> a <> b -> nth_error exts a = Some x -> nth_error exts b = Some y -> overlap exact x y = false.
Proof.
  intros Z0 D Ea Eb. unfold overlapping in Z0. apply zsum_zero with (x := if overlap exact x y then 1 else 0) in Z0.
  - destruct (overlap exact x y); [discriminate|reflexivity].
  - apply Forall_forall. intros z I. apply in_concat in I. destruct I as (r & R & I). apply in_map_iff in R. destruct R as (u & <- & _). apply in_map_iff in I. destruct I as (v & <- & _). destruct (_ =? _)%nat; [lia|]. destruct (overlap _ _ _); lia.
  - apply in_concat. eexists. split; [apply in_map_iff; exists (a, x); split; [reflexivity|apply in_numbered; exact Ea]|]. apply in_map_iff. exists (b, y). cbn [fst snd]. split; [|apply in_numbered; exact Eb]. rewrite (proj2 (Nat.eqb_neq a b) D). reflexivity.
Qed.
(** appended sets *)
Lemma append_len (sets : list (list (list Q))) : forall id, Forall2 (fun ps is => length is = length ps) sets (append_sets id sets).
Proof. induction sets as [|ps sets IH]; intros id; cbn [append_sets]; constructor; [rewrite map_length, length_zseq; lia|apply IH]. Qed.
Lemma append_nth (sets : list (list (list Q))) : forall id K i, nth_error (concat (append_sets id sets)) K = Some i -> i = id + Z.of_nat K.
Proof.
  induction sets as [|ps sets IH]; intros id K i E; cbn [append_sets concat] in E; [destruct K; discriminate|].
  assert (Ln : length (map (Z.add id) (zseq (Z.of_nat (length ps)))) = length ps) by (rewrite map_length, length_zseq; lia).
  destruct (Nat.lt_ge_cases K (length ps)) as [C|C].
  - rewrite nth_error_app1 in E by lia. rewrite zseq_nat, map_map, nth_error_map, (nth_error_nth' _ 0%nat) in E by (rewrite seq_length; lia). rewrite seq_nth in E by lia. cbn in E. injection E as <-. reflexivity.
  - rewrite nth_error_app2 in E by lia. rewrite Ln in E. apply IH in E. lia.
Qed.
Lemma concat_length2 {A B} (sets : list (list A)) (ms : list (list B)) : Forall2 (fun ps is => length is = length ps) sets ms -> length (concat ms) = length (concat sets).
Proof. induction 1; cbn [concat]; [reflexivity|]. rewrite !app_length. lia. Qed.
Lemma concat_both {A B} (sets : list (list A)) (ms : list (list B)) : Forall2 (fun ps is => length is = length ps) sets ms ->
  forall a s m k p i, nth_error sets a = Some s -> nth_error ms a = Some m -> nth_error s k = Some p -> nth_error m k = Some i ->
  exists K, nth_error (concat sets) K = Some p /\ nth_error (concat ms) K = Some i.
Proof.
  induction 1 as [|ps is sets ms E F IH]; intros [|a] s m k p i Es Em Ep Ei; try discriminate; cbn [nth_error concat] in *.
  - injection Es as ->. injection Em as ->. exists k. rewrite !nth_error_app1 by (apply nth_error_Some_lt in Ep, Ei; lia). tauto.
  - destruct (IH a s m k p i Es Em Ep Ei) as (K & A1 & A2). exists (length ps + K)%nat. rewrite !nth_error_app2 by lia. rewrite E. replace (length ps + K - length ps)%nat with K by lia. tauto.
Qed.
(** places in different sets are different *)
Lemma append_apart (sets : list (list (list Q))) : forall id a b m n k l i j, a <> b -> nth_error (append_sets id sets) a = Some m -> nth_error (append_sets id sets) b = Some n -> nth_error m k = Some i -> nth_error n l = Some j -> i <> j.
Proof.
  assert (Lo : forall (sets : list (list (list Q))) id a m k i, nth_error (append_sets id sets) a = Some m -> nth_error m k = Some i -> id <= i).
  { clear sets. induction sets as [|ps sets IH]; intros id [|a] m k i Em Ei; try discriminate; cbn [append_sets nth_error] in Em; [|apply IH with (k := k) (i := i) in Em; [lia|exact Ei]].
    injection Em as <-. apply nth_error_In, in_map_iff in Ei. destruct Ei as (z & <- & I). apply in_zseq in I. lia. }
  induction sets as [|ps sets IH]; intros id [|a] [|b] m n k l i j D Em En Ei Ej; try discriminate; cbn [append_sets nth_error] in *; [congruence| | |].
  - injection Em as <-. apply nth_error_In, in_map_iff in Ei. destruct Ei as (z & <- & I). apply in_zseq in I. pose proof (Lo _ _ _ _ _ _ En Ej). lia.
  - injection En as <-. apply nth_error_In, in_map_iff in Ej. destruct Ej as (z & <- & I). apply in_zseq in I. pose proof (Lo _ _ _ _ _ _ Em Ei). lia.
  - apply (IH (id + Z.of_nat (length ps)) a b m n k l i j); auto.
Qed.
Lemma output_ok dim new : (dim <= 3)%nat -> output exact dim Cartesian new = Ok (columns dim new).
Proof. intros H. destruct dim as [|[|[|[|dim]]]]; [reflexivity|reflexivity|reflexivity|reflexivity|lia]. Qed.
Lemma points_len cols p : plain cols -> In p (points cols) -> length p = 3%nat.
Proof. intros [P _] I. unfold points in I. apply in_map_iff in I. destruct I as (k & <- & _). rewrite app_length, map_length, repeat_length. lia. Qed.
Theorem execute_law tol sets : (0 <= tol)%Q -> (2 <= length sets)%nat -> Forall plain sets ->
  exists maps new,
    execute exact lowest sort to_xyz to_rtp fofz ftrunc tol (map (fun c => Some (explicit c)) sets) = Ok (Merged (columns (fold_left Nat.max (map (@length _) sets) 0%nat) new) maps) /\
    Forall2 (fun c m => length m = length (points c)) sets maps /\
    (forall a k p i, point_of sets a k p -> id_of maps a k i -> exists q, znth new i = Some q /\ near tol p q) /\
    (forall i q, znth new i = Some q -> exists a k, point_of sets a k q /\ id_of maps a k i) /\
    (touching sets -> merged tol (concat (map points sets)) (concat maps) new) /\
    (separate tol (concat (map points sets)) -> forall a b k l p q i j, a <> b -> point_of sets a k p -> point_of sets b l q -> id_of maps a k i -> id_of maps b l j -> (i = j <-> same p q)).
Proof.
  intros T Ln P. unfold execute. set (srcs := map (fun c => Some (explicit c)) sets).
  assert (Fl : flat_map (fun o => match o with Some s => [s] | None => [] end) srcs = map explicit sets) by (unfold srcs; clear; induction sets as [|c sets IH]; [reflexivity|cbn; f_equal; exact IH]).
  assert (Dm : map (fun s => length (axes_of (src_names s))) (map explicit sets) = map (@length _) sets) by (rewrite map_map; apply map_ext_in; intros c I; rewrite Forall_forall in P; apply plain_source; apply P; exact I).
  assert (D3 : (fold_left Nat.max (map (@length _) sets) 0 <= 3)%nat).
  { assert (G : forall l a, (a <= 3)%nat -> Forall (fun c : list (list Q) => (length c <= 3)%nat) l -> (fold_left Nat.max (map (@length _) l) a <= 3)%nat). { induction l as [|c l IH]; intros a A F; cbn; [exact A|]. inversion_clear F. apply IH; [lia|assumption]. }
    apply G; [lia|]. eapply Forall_impl; [|exact P]. intros c [Pc _]. lia. }
  assert (Ex : omapM (src_extents exact lowest fofz ftrunc) (map explicit sets) = Ok (map (map (minmax exact lowest)) sets)).
  { rewrite omapM_comp. apply omapM_pure. intros c I. rewrite Forall_forall in P. apply plain_source, P, I. }
  assert (Sy : map (fun s => coordsys (src_names s)) (map explicit sets) = map (fun _ => Cartesian) sets) by (rewrite map_map; apply map_ext_in; intros c I; rewrite Forall_forall in P; apply plain_source, P, I).
  assert (Va : omapM (src_values exact fofz) (map explicit sets) = Ok (map (combine [L "x"; L "y"; L "z"]) sets)) by (rewrite omapM_comp; apply omapM_pure; reflexivity).
  assert (It : omapM (iterate exact) (map (combine [L "x"; L "y"; L "z"]) sets) = Ok (map points sets)).
  { rewrite omapM_comp. apply omapM_pure. intros c I. rewrite Forall_forall in P. destruct (plain_source c (P c I)) as (_ & _ & _ & H). exact H. }
  assert (Ou : out_of (map (fun _ => Cartesian) sets) = Some Cartesian) by (destruct sets; [cbn in Ln; lia|reflexivity]).
  assert (Mv : map (fun sp : system * list (list Q) => if sys_eqb (fst sp) Cartesian || sys_eqb (fst sp) Logical then snd sp else map (translate to_xyz to_rtp (fst sp) Cartesian) (snd sp)) (combine (map (fun _ => Cartesian) sets) (map points sets)) = map points sets).
  { clear. induction sets as [|c sets IH]; [reflexivity|]. cbn [map combine fst snd sys_eqb orb]. f_equal. exact IH. }
  assert (Pt : forall maps, Forall2 (fun c m => length m = length (points c)) sets maps -> forall a k p i, point_of sets a k p -> id_of maps a k i -> exists K, nth_error (concat (map points sets)) K = Some p /\ nth_error (concat maps) K = Some i).
  { intros maps F a k p i (c & C1 & C2) (m & M1 & M2). apply (concat_both (map points sets) maps) with (a := a) (s := points c) (m := m) (k := k); [|rewrite nth_error_map, C1; reflexivity|assumption..].
    clear -F. induction F; constructor; assumption. }
  assert (Tp : forall maps, Forall2 (fun c m => length m = length (points c)) sets maps -> forall K p i, nth_error (concat (map points sets)) K = Some p -> nth_error (concat maps) K = Some i -> exists a k, point_of sets a k p /\ id_of maps a k i).
  { clear. intros maps F. induction F as [|c m sets maps E F IH]; intros K p i Ep Ei; [destruct K; discriminate|]. cbn [map concat] in *. destruct (Nat.lt_ge_cases K (length m)) as [C|C].
    - rewrite nth_error_app1 in Ep by lia. rewrite nth_error_app1 in Ei by lia. exists 0%nat, K. split; [exists c|exists m]; split; (reflexivity || assumption).
    - rewrite nth_error_app2 in Ep by lia. rewrite nth_error_app2 in Ei by lia. rewrite <- E in Ep. destruct (IH _ _ _ Ep Ei) as (a & k & (c' & A1 & A2) & (m' & B1 & B2)). exists (S a), k. split; [exists c'|exists m']; split; assumption. }
  assert (No : overlapping exact (map (map (minmax exact lowest)) sets) = 0 -> forall a b k l p q, a <> b -> point_of sets a k p -> point_of sets b l q -> ~ same p q).
  { intros Z0 a b k l p q D (c & C1 & C2) (d & D1 & D2) S. assert (O : overlap exact (map (minmax exact lowest) c) (map (minmax exact lowest) d) = false) by (apply (not_overlapping _ a b _ _ Z0 D); rewrite nth_error_map; [rewrite C1|rewrite D1]; reflexivity).
    rewrite (box_meet p q) in O; [discriminate| | |exact S]; apply point_in_box; try (rewrite Forall_forall in P; apply P; eapply nth_error_In; eassumption); eapply nth_error_In; eassumption. }
  rewrite Fl, Dm. rewrite Ex. cbn [obind]. rewrite Sy, Va. cbn [obind]. rewrite Ou, It. cbn [obind]. rewrite Mv.
  assert (Two : match srcs with [] | [None] => Ok Untouched | [Some s] => Ok (Wrapped s) | _ => (if overlapping exact (map (map (minmax exact lowest)) sets) =? 0 then do vs <- output exact (fold_left Nat.max (map (@length _) sets) 0%nat) Cartesian (concat (map points sets)); Ok (Merged vs (append_sets 0 (map points sets))) else do r <- merge_sets exact lowest sort 32 tol (map points sets) nothing; do vs <- output exact (fold_left Nat.max (map (@length _) sets) 0%nat) Cartesian (f_new (fst r)); Ok (Merged vs (snd r))) end = (if overlapping exact (map (map (minmax exact lowest)) sets) =? 0 then do vs <- output exact (fold_left Nat.max (map (@length _) sets) 0%nat) Cartesian (concat (map points sets)); Ok (Merged vs (append_sets 0 (map points sets))) else do r <- merge_sets exact lowest sort 32 tol (map points sets) nothing; do vs <- output exact (fold_left Nat.max (map (@length _) sets) 0%nat) Cartesian (f_new (fst r)); Ok (Merged vs (snd r)))).
  { unfold srcs. destruct sets as [|c1 [|c2 sets]]; cbn [length] in Ln; [lia|lia|]. reflexivity. }
  rewrite Two. clear Two.
  destruct (Z.eqb_spec (overlapping exact (map (map (minmax exact lowest)) sets)) 0) as [Z0|Z0].
  - rewrite output_ok by exact D3. cbn [obind]. eexists _, _. split; [reflexivity|].
    pose proof (append_len (map points sets) 0) as F. assert (F' : Forall2 (fun c m => length m = length (points c)) sets (append_sets 0 (map points sets))).
    { revert F. generalize (append_sets 0 (map points sets)). clear. induction sets as [|c sets IH]; intros ms F; inversion F; subst; constructor; [assumption|apply IH; assumption]. }
    split; [exact F'|]. split; [|split; [|split]].
    + intros a k p i Hp Hi. destruct (Pt _ F' a k p i Hp Hi) as (K & K1 & K2). apply append_nth in K2. exists p. split; [|apply near_same; [exact T|apply same_refl]]. subst i. unfold znth. replace (0 + Z.of_nat K <? 0) with false by lia. replace (Z.to_nat (0 + Z.of_nat K)) with K by lia. exact K1.
    + intros i q E. unfold znth in E. destruct (Z.ltb_spec i 0); [discriminate|]. pose proof (nth_error_Some_lt _ _ _ E) as Lt. rewrite <- (concat_length2 _ _ F) in Lt. destruct (nth_error (concat (append_sets 0 (map points sets))) (Z.to_nat i)) as [j|] eqn:Ej; [|apply nth_error_None in Ej; lia].
      pose proof (append_nth _ _ _ _ Ej) as Eq. replace j with i in Ej by lia. exact (Tp _ F' _ _ _ E Ej).
    + intros (a & b & k & l & p & q & D & A & B & S). exfalso. exact (No Z0 a b k l p q D A B S).
    + intros Sp a b k l p q i j D Hp Hq (m & M1 & M2) (n & N1 & N2). split; [intros ->; exfalso; exact (append_apart _ _ _ _ _ _ _ _ _ _ D M1 N1 M2 N2 eq_refl)|]. intros S. exfalso. exact (No Z0 a b k l p q D Hp Hq S).
  - destruct (merge_law lowest sort St 3 32 tol (map points sets)) as (s & ms & E & F & M); [lia|exact T| |].
    { apply Forall_forall. intros ps I. apply in_map_iff in I. destruct I as (c & <- & I). apply Forall_forall. intros p Ip. apply (points_len c); [|exact Ip]. rewrite Forall_forall in P. apply P. exact I. }
    rewrite E. cbn [obind fst snd]. rewrite output_ok by exact D3. cbn [obind]. eexists _, _. split; [reflexivity|].
    assert (F' : Forall2 (fun c m => length m = length (points c)) sets ms).
    { revert F. generalize ms. clear. induction sets as [|c sets IH]; intros ms F; inversion F; subst; constructor; [assumption|apply IH; assumption]. }
    split; [exact F'|]. split; [|split; [|split]].
    + intros a k p i Hp Hi. destruct (Pt _ F' a k p i Hp Hi) as (K & K1 & K2). exact (m_near _ _ _ _ M K p i K1 K2).
    + intros i q Hq. destruct (m_from _ _ _ _ M i q Hq) as (K & K1 & K2). exact (Tp _ F' K q i K1 K2).
    + intros _. exact M.
    + intros Sp a b k l p q i j D Hp Hq Hi Hj. destruct (Pt _ F' a k p i Hp Hi) as (K & K1 & K2). destruct (Pt _ F' b l q j Hq Hj) as (K' & K1' & K2'). exact (merged_separate tol _ _ _ K K' p q i j T M Sp K1 K1' K2 K2').
Qed.
End Whole.
