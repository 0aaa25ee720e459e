(** Node::diff and Node::diff_compatible on whole trees. *)
From Coq Require Import ZArith Floats.SpecFloat.
From Verif Require Import Base DType SpecTree Mem MemFacts Node SpecNode NodeFacts NodeCompact NodeSet NodeSerial Number NumberFacts NodeDiff DiffFacts.
Local Open Scope Z_scope.

(** [view m n v]: v is what node n holds; its strings are laid out plainly and terminated *)
Definition view (m : mem) (n : node) (v : tree leafval) : Prop :=
  nvalue m n = Ok v /\ Forall (fun l => sane (snd l)) (nleaves n) /\ Forall terminated (tleaves v).

Lemma view_leaf : forall m h d w, view m (NLeaf h d) w -> exists u, w = TLeaf u /\ sane d /\ terminated u /\ leaf_value m (h_data h) d = Ok u.
Proof.
  intros m h d w (E & S & T). cbn [nvalue] in E. destruct (leaf_value m (h_data h) d) as [u| | |] eqn:L; try discriminate E. injection E as <-.
  exists u. cbn in S, T. apply Forall_inv in S. apply Forall_inv in T. auto.
Qed.
Lemma view_obj : forall m h es w, view m (NObj h es) w -> exists vs, w = TObj vs /\ Forall2 (fun e x => fst x = fst e /\ view m (snd e) (snd x)) es vs.
Proof.
  intros m h es w (E & S & T). cbn [nvalue] in E. destruct (omapM _ es) as [vs| | |] eqn:O in E; try discriminate E. injection E as <-.
  exists vs. split; [reflexivity|]. cbn [nleaves tleaves] in S, T. apply omapM_Ok in O. induction O as [|[k c] [k' v] es vs H O IH]; [constructor|].
  cbn [flat_map fst snd] in *. apply Forall_app in S. apply Forall_app in T. destruct S as [S1 S2], T as [T1 T2].
  destruct (nvalue m c) as [x| | |] eqn:N; try discriminate H. injection H as <- <-. constructor; [|apply IH; assumption].
  split; [reflexivity|]. repeat split; assumption.
Qed.
Lemma view_list : forall m h ks w, view m (NLst h ks) w -> exists vs, w = TList vs /\ Forall2 (view m) ks vs.
Proof.
  intros m h ks w (E & S & T). cbn [nvalue] in E. destruct (omapM _ ks) as [vs| | |] eqn:O in E; try discriminate E. injection E as <-.
  exists vs. split; [reflexivity|]. cbn [nleaves tleaves] in S, T. apply omapM_Ok in O. induction O as [|c v es vs H O IH]; [constructor|].
  cbn [flat_map] in *. apply Forall_app in S. apply Forall_app in T. destruct S as [S1 S2], T as [T1 T2].
  constructor; [repeat split; assumption|]. apply IH; assumption.
Qed.
Lemma view_get : forall m es vs k, Forall2 (fun e x => fst x = fst e /\ view m (snd e) (snd x)) es vs ->
  match mget es k, mget vs k with Some c, Some v => In (k, c) es /\ In (k, v) vs /\ view m c v | None, None => True | _, _ => False end.
Proof.
  intros m es vs k F. induction F as [|[a c] [b v] es vs [E V] F IH]; [exact I|]. cbn [fst snd] in *. subst b. cbn [mget].
  destruct (str_eqb_spec k a) as [->|N]; [cbn; auto|]. destruct (mget es k), (mget vs k); try exact IH. cbn. tauto.
Qed.

Section Tree.
Variable mach : endian.
Variable m : mem.
Variable eps : spec_float.
Notation diff := (ndiff mach m eps false).
Notation diffc := (ndiff_compatible mach m eps false).
Notation la := (leaf_alike mach eps).
Notation lw := (leaf_within mach eps).

(** the loops of the object cases *)
Definition extra_loop (f : node -> node -> outcome bool) (es' : list (str * node)) : list (str * node) -> outcome bool :=
  fix extra l := match l with
  | [] => Ok false
  | (k, c) :: r => do x <- match mget es' k with None => Ok true | Some c' => f c c' end; do y <- extra r; Ok (x || y)
  end.
Definition missing_loop (f : node -> node -> outcome bool) (es : list (str * node)) : list (str * node) -> outcome bool :=
  fix missing l' := match l' with
  | [] => Ok false
  | (k, c') :: r => do x <- match mget es k with None => Ok true | Some c => f c c' end; do y <- missing r; Ok (x || y)
  end.
Lemma find_mget : forall es k c', (fix find l := match l with
                             | [] => Ok true
                             | (k2, c) :: r2 => if str_eqb k k2 then diff c c' else find r2
                             end) es = match mget es k with None => Ok true | Some c => diff c c' end.
Proof. intros es k c'. induction es as [|[a c] r IH]; [reflexivity|]. cbn [mget]. destruct (str_eqb k a); [reflexivity|]. exact IH. Qed.
Lemma diff_obj : forall h es h' es', diff (NObj h es) (NObj h' es') =
  do r1 <- extra_loop diff es' es; do r2 <- missing_loop diff es es'; Ok (r1 || r2).
Proof.
  intros h es h' es'. cbn [ndiff]. fold (extra_loop diff es'). destruct (extra_loop diff es' es); try reflexivity. cbn [obind].
  match goal with |- obind (?f es') _ = _ => enough (X : forall l, f l = missing_loop diff es l) by (rewrite X; reflexivity) end.
  induction l as [|[k c'] r IH]; [reflexivity|]. cbn [missing_loop]. rewrite find_mget. destruct (mget es k) as [c|].
  - destruct (diff c c'); try reflexivity. cbn [obind]. rewrite IH. reflexivity.
  - cbn [obind]. rewrite IH. reflexivity.
Qed.
Definition good_on (f : node -> node -> outcome bool) (P : tree leafval -> tree leafval -> Prop) (c : node) : Prop :=
  forall b va vb r, view m c va -> view m b vb -> f c b = Ok r -> (r = false <-> P va vb).
Lemma extra_law : forall f P es' vs', Forall2 (fun e x => fst x = fst e /\ view m (snd e) (snd x)) es' vs' ->
  forall es vs r, Forall (fun e => good_on f P (snd e)) es -> Forall2 (fun e x => fst x = fst e /\ view m (snd e) (snd x)) es vs ->
  extra_loop f es' es = Ok r -> (r = false <-> forall k a, In (k, a) vs -> exists b, mget vs' k = Some b /\ P a b).
Proof.
  intros f P es' vs' F' es vs r G F. revert r. induction F as [|[k c] [k2 v] es vs [E V] F IH]; intros r X.
  - cbn in X. injection X as <-. split; [intros _ k a []|reflexivity].
  - cbn [fst snd] in *. subst k2. cbn [extra_loop] in X. fold (extra_loop f es') in X. pose proof (view_get m es' vs' k F') as M.
    destruct (mget es' k) as [c'|].
    + destruct (mget vs' k) as [v'|] eqn:Ev; [|contradiction]. destruct M as (_ & _ & V').
      destruct (f c c') as [x| | |] eqn:Fx; try discriminate X. cbn [obind] in X. destruct (extra_loop f es' es) as [y| | |] eqn:Ly; try discriminate X. cbn [obind] in X. injection X as <-.
      rewrite orb_false. pose proof (Forall_inv G) as Gc. cbn [snd] in Gc. rewrite (Gc c' v v' x V V' Fx). rewrite (IH (Forall_inv_tail G) y eq_refl). split.
      * intros [A B] k0 a [I|I]; [|apply B; exact I]. injection I as <- <-. exists v'. split; [exact Ev|exact A].
      * intros A. split; [|intros k0 a I; apply A; right; exact I]. destruct (A k v (or_introl eq_refl)) as (b & Eb & Pb). congruence.
    + destruct (mget vs' k) as [v'|] eqn:Ev; [contradiction|]. cbn [obind] in X. destruct (extra_loop f es' es) as [y| | |]; try discriminate X. cbn [obind orb] in X. injection X as <-.
      split; [discriminate|]. intros A. destruct (A k v (or_introl eq_refl)) as (b & Eb & _). congruence.
Qed.
Lemma missing_law : forall f P es vs, Forall (fun e => good_on f P (snd e)) es -> Forall2 (fun e x => fst x = fst e /\ view m (snd e) (snd x)) es vs ->
  forall es' vs' r, Forall2 (fun e x => fst x = fst e /\ view m (snd e) (snd x)) es' vs' ->
  missing_loop f es es' = Ok r -> (r = false <-> forall k b, In (k, b) vs' -> exists a, mget vs k = Some a /\ P a b).
Proof.
  intros f P es vs G F es' vs' r F'. revert r. induction F' as [|[k c'] [k2 v'] es' vs' [E V'] F' IH]; intros r X.
  - cbn in X. injection X as <-. split; [intros _ k a []|reflexivity].
  - cbn [fst snd] in *. subst k2. cbn [missing_loop] in X. fold (missing_loop f es) in X. pose proof (view_get m es vs k F) as M.
    destruct (mget es k) as [c|].
    + destruct (mget vs k) as [v|] eqn:Ev; [|contradiction]. destruct M as (Ic & _ & V).
      destruct (f c c') as [x| | |] eqn:Fx; try discriminate X. cbn [obind] in X. destruct (missing_loop f es es') as [y| | |] eqn:Ly; try discriminate X. cbn [obind] in X. injection X as <-.
      rewrite orb_false. pose proof (proj1 (Forall_forall _ _) G _ Ic) as Gc. cbn [snd] in Gc. rewrite (Gc c' v v' x V V' Fx). rewrite (IH y eq_refl). split.
      * intros [A B] k0 a [I|I]; [|apply B; exact I]. injection I as <- <-. exists v. split; [exact Ev|exact A].
      * intros A. split; [|intros k0 a I; apply A; right; exact I]. destruct (A k v' (or_introl eq_refl)) as (b & Eb & Pb). congruence.
    + destruct (mget vs k) as [v|] eqn:Ev; [contradiction|]. cbn [obind] in X. destruct (missing_loop f es es') as [y| | |]; try discriminate X. cbn [obind orb] in X. injection X as <-.
      split; [discriminate|]. intros A. destruct (A k v' (or_introl eq_refl)) as (b & Eb & _). congruence.
Qed.

Theorem diff_law : forall a b va vb r, view m a va -> view m b vb -> diff a b = Ok r -> (r = false <-> alike la va vb).
Proof.
  induction a as [h d|h es IH|h ks IH] using node_ind'; intros b va vb r Va Vb E.
  - apply view_leaf in Va. destruct Va as (u & -> & Sd & Tu & Lu). destruct b as [h' d'|h' es'|h' ks'].
    + apply view_leaf in Vb. destruct Vb as (v & -> & Sd' & Tv & Lv). cbn [ndiff] in E.
      rewrite (leaf_diff_law mach m eps h d h' d' u v r Sd Sd' Lu Lv Tu Tv E). split; [intros R; constructor; exact R|intros R; inversion R; assumption].
    + apply view_obj in Vb. destruct Vb as (vs & -> & _). cbn in E. injection E as <-. split; [discriminate|intros R; inversion R].
    + apply view_list in Vb. destruct Vb as (vs & -> & _). cbn in E. injection E as <-. split; [discriminate|intros R; inversion R].
  - apply view_obj in Va. destruct Va as (vs & -> & F). destruct b as [h' d'|h' es'|h' ks'].
    + apply view_leaf in Vb. destruct Vb as (v & -> & _). cbn in E. injection E as <-. split; [discriminate|intros R; inversion R].
    + apply view_obj in Vb. destruct Vb as (vs' & -> & F'). rewrite diff_obj in E.
      destruct (extra_loop diff es' es) as [r1| | |] eqn:L1; try discriminate E. cbn [obind] in E.
      destruct (missing_loop diff es es') as [r2| | |] eqn:L2; try discriminate E. cbn [obind] in E. injection E as <-. rewrite orb_false.
      rewrite (extra_law diff (alike la) es' vs' F' es vs r1 IH F L1), (missing_law diff (alike la) es vs IH F es' vs' r2 F' L2). split.
      * intros [A B]. constructor; assumption.
      * intros R. inversion R; subst. split; assumption.
    + apply view_list in Vb. destruct Vb as (v & -> & _). cbn in E. injection E as <-. split; [discriminate|intros R; inversion R].
  - apply view_list in Va. destruct Va as (vs & -> & F). destruct b as [h' d'|h' es'|h' ks'].
    + apply view_leaf in Vb. destruct Vb as (v & -> & _). cbn in E. injection E as <-. split; [discriminate|intros R; inversion R].
    + apply view_obj in Vb. destruct Vb as (v & -> & _). cbn in E. injection E as <-. split; [discriminate|intros R; inversion R].
    + apply view_list in Vb. destruct Vb as (vs' & -> & F'). cbn [ndiff] in E.
      assert (Q : r = false <-> Forall2 (alike la) vs vs').
      { clear h h'. revert ks' vs' F' r E. induction F as [|c v ks vs V F IHF]; intros ks' vs' F' r E; destruct F' as [|c' v' ks' vs' V' F'].
        - injection E as <-. split; [intros _; constructor|reflexivity].
        - injection E as <-. split; [discriminate|intros R; inversion R].
        - injection E as <-. split; [discriminate|intros R; inversion R].
        - destruct (diff c c') as [x| | |] eqn:Dx; try discriminate E. cbn [obind] in E.
          match type of E with (obind ?t _ = _) => destruct t as [y| | |] eqn:Ly; try discriminate E end. cbn [obind] in E. injection E as <-.
          rewrite orb_false, (Forall_inv IH c' v v' x V V' Dx), (IHF (Forall_inv_tail IH) ks' vs' F' y Ly). split.
          + intros [A B]. constructor; assumption.
          + intros R. inversion R; subst. split; assumption. }
      rewrite Q. split; [intros R; constructor; exact R|intros R; inversion R; assumption].
Qed.
Theorem diff_compatible_law : forall a b va vb r, view m a va -> view m b vb -> diffc a b = Ok r -> (r = false <-> within lw va vb).
Proof.
  induction a as [h d|h es IH|h ks IH] using node_ind'; intros b va vb r Va Vb E.
  - apply view_leaf in Va. destruct Va as (u & -> & Sd & Tu & Lu). destruct b as [h' d'|h' es'|h' ks'].
    + apply view_leaf in Vb. destruct Vb as (v & -> & Sd' & Tv & Lv). cbn [ndiff_compatible] in E.
      rewrite (leaf_diff_compatible_law mach m eps h d h' d' u v r Sd Sd' Lu Lv Tu Tv E). split; [intros R; constructor; exact R|intros R; inversion R; assumption].
    + apply view_obj in Vb. destruct Vb as (vs & -> & _). cbn in E. injection E as <-. split; [discriminate|intros R; inversion R].
    + apply view_list in Vb. destruct Vb as (vs & -> & _). cbn in E. injection E as <-. split; [discriminate|intros R; inversion R].
  - apply view_obj in Va. destruct Va as (vs & -> & F). destruct b as [h' d'|h' es'|h' ks'].
    + apply view_leaf in Vb. destruct Vb as (v & -> & _). cbn in E. injection E as <-. split; [discriminate|intros R; inversion R].
    + apply view_obj in Vb. destruct Vb as (vs' & -> & F'). cbn [ndiff_compatible] in E. fold (extra_loop diffc es') in E.
      rewrite (extra_law diffc (within lw) es' vs' F' es vs r IH F E). split.
      * intros A. constructor; assumption.
      * intros R. inversion R; subst. assumption.
    + apply view_list in Vb. destruct Vb as (v & -> & _). cbn in E. injection E as <-. split; [discriminate|intros R; inversion R].
  - apply view_list in Va. destruct Va as (vs & -> & F). destruct b as [h' d'|h' es'|h' ks'].
    + apply view_leaf in Vb. destruct Vb as (v & -> & _). cbn in E. injection E as <-. split; [discriminate|intros R; inversion R].
    + apply view_obj in Vb. destruct Vb as (v & -> & _). cbn in E. injection E as <-. split; [discriminate|intros R; inversion R].
    + apply view_list in Vb. destruct Vb as (vs' & -> & F'). cbn [ndiff_compatible] in E.
      assert (Q : r = false <-> exists ys zs, vs' = ys ++ zs /\ Forall2 (within lw) vs ys).
      { clear h h'. revert ks' vs' F' r E. induction F as [|c v ks vs V F IHF]; intros ks' vs' F' r E.
        - injection E as <-. split; [intros _; exists [], vs'; split; [reflexivity|constructor]|reflexivity].
        - destruct F' as [|c' v' ks' vs' V' F'].
          + injection E as <-. split; [discriminate|intros (ys & zs & X & R); inversion R; subst; discriminate X].
          + destruct (diffc c c') as [x| | |] eqn:Dx; try discriminate E. cbn [obind] in E.
            match type of E with (obind ?t _ = _) => destruct t as [y| | |] eqn:Ly; try discriminate E end. cbn [obind] in E. injection E as <-.
            rewrite orb_false, (Forall_inv IH c' v v' x V V' Dx), (IHF (Forall_inv_tail IH) ks' vs' F' y Ly). split.
            * intros [A (ys & zs & -> & B)]. exists (v' :: ys), zs. split; [reflexivity|]. constructor; assumption.
            * intros (ys & zs & X & R). inversion R as [|? u ? us Ru Rr]; subst. cbn [app] in X. injection X as -> ->. split; [exact Ru|]. exists us, zs. split; [reflexivity|exact Rr]. }
      rewrite Q. split; [intros (ys & zs & -> & R); constructor; exact R|intros R; inversion R; subst; eauto].
Qed.
End Tree.
