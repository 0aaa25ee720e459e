(** Lines and points of solids: looking edges up. *)
From Verif Require Import Base DType Node NodeFacts SchemaInv O2M MeshElem MeshElemFacts TopoMeta TopoMetaSpec TopoMetaFacts TopoMetaBack TopoMetaGen TopoMetaLines.
From Coq Require Import ZArith Lia Permutation Sorting.Sorted.
Local Open Scope Z_scope.
Import ListNotations.

(** ---- binary search ---- *)
Lemma ss_nth {A} (R : A -> A -> Prop) l : StronglySorted R l -> forall i j x y, (i < j)%nat -> nth_error l i = Some x -> nth_error l j = Some y -> R x y.
Proof.
  induction 1 as [|a l S IH F]; intros [|i] [|j] x y Lt Hx Hy; try lia; try discriminate; cbn in *.
  - injection Hx as <-. rewrite Forall_forall in F. apply F. exact (nth_error_In _ _ Hy).
  - apply (IH i j); [lia|assumption|assumption].
Qed.
Lemma search_law ks key id : StronglySorted (fun x y : Z * Z => fst x <= fst y) ks -> (forall x, In x ks -> fst x = key -> snd x = id) ->
  forall fuel left right p, (right - left + 1 < Z.of_nat fuel) -> 0 <= left -> right < zlen ks -> nth_error ks p = Some (key, id) -> left <= Z.of_nat p <= right ->
  search fuel ks key left right = Ok id.
Proof.
  intros S U. induction fuel as [|fuel IH]; intros left right p Hf Hl Hr Hp Hb; [lia|]. cbn [search].
  rewrite (proj2 (Z.leb_le left right)) by lia.
  assert (Hm : left <= (left + right) / 2 <= right) by (split; [apply Z.div_le_lower_bound|apply Z.div_le_upper_bound]; lia).
  set (m := (left + right) / 2) in *. clearbody m. unfold znth. rewrite (proj2 (Z.ltb_ge m 0)) by lia.
  destruct (nth_error ks (Z.to_nat m)) as [x|] eqn:E; [|apply nth_error_None in E; unfold zlen in Hr; lia]. cbn [deref obind].
  destruct (Z.ltb_spec (fst x) key) as [L1|L1].
  - apply (IH _ _ p); try lia; [exact Hp|]. split; [|lia]. destruct (Z.le_gt_cases (m + 1) (Z.of_nat p)) as [Q|Q]; [exact Q|]. exfalso.
    destruct (Nat.eq_dec p (Z.to_nat m)) as [Q'|Q']; [rewrite <- Q', Hp in E; injection E as <-; cbn in L1; lia|].
    pose proof (ss_nth _ _ S p (Z.to_nat m) (key, id) x ltac:(lia) Hp E) as Q2. cbn in Q2. lia.
  - destruct (Z.ltb_spec key (fst x)) as [L2|L2].
    + apply (IH _ _ p); try lia; [exact Hp|]. split; [lia|]. destruct (Z.le_gt_cases (Z.of_nat p) (m - 1)) as [Q|Q]; [exact Q|]. exfalso.
      destruct (Nat.eq_dec p (Z.to_nat m)) as [Q'|Q']; [rewrite <- Q', Hp in E; injection E as <-; cbn in L2; lia|].
      pose proof (ss_nth _ _ S (Z.to_nat m) p x (key, id) ltac:(lia) E Hp) as Q2. cbn in Q2. lia.
    + f_equal. apply U; [exact (nth_error_In _ _ E)|lia].
Qed.
Lemma key_down a b : exists f, edge_key a b = hash f /\ Permutation [a; b] f /\ StronglySorted Z.ge f.
Proof.
  unfold edge_key. destruct (Z.ltb_spec a b).
  - exists [b; a]. split; [reflexivity|]. split; [constructor|]. repeat constructor. lia.
  - exists [a; b]. split; [reflexivity|]. split; [reflexivity|]. repeat constructor. lia.
Qed.
Lemma ge_unique_z : forall l l', Permutation l l' -> StronglySorted Z.ge l -> StronglySorted Z.ge l' -> l = l'.
Proof.
  intros l l' P S S'. assert (E : map Z.opp l = map Z.opp l').
  { apply sorted_unique_z; [apply Permutation_map; exact P| |]; apply ss_map; (eapply ss_weaken; [|eassumption]); cbv beta; intros; lia. }
  clear - E. revert l' E. induction l as [|x r IH]; intros [|y r'] E; try discriminate; [reflexivity|]. injection E as E1 E2. f_equal; [lia|apply IH; exact E2].
Qed.
Lemma key_perm a b c d : Permutation [a; b] [c; d] -> edge_key a b = edge_key c d.
Proof.
  intro P. destruct (key_down a b) as [f [-> [Pf Sf]]], (key_down c d) as [g [-> [Pg Sg]]]. f_equal. apply ge_unique_z; [|exact Sf|exact Sg].
  exact (Permutation_trans (Permutation_sym Pf) (Permutation_trans P Pg)).
Qed.

(** ---- tables ---- *)
Definition pt (el : list Z) (i : Z) : Z := nth (Z.to_nat i) el 0.
Lemma zparts_of s el : map (map (pt el)) (zparts s) = parts_of s el.
Proof. unfold zparts, parts_of. rewrite map_map. apply map_ext. intro f. rewrite map_map. apply map_ext. intro i. unfold pt. rewrite Nat2Z.id. reflexivity. Qed.
Lemma edges_local s el : edges_of s el = map (map (pt el)) (concat (map cycle (zparts s))).
Proof. unfold edges_of. rewrite <- zparts_of, concat_map, !map_map. f_equal. apply map_ext. intro f. apply cycle_map. Qed.
Definition same2 (e : list Z) (t : Z * Z) : bool := match e with [a; b] => ((a =? fst t) && (b =? snd t)) || ((a =? snd t) && (b =? fst t)) | _ => false end.
Lemma same2_perm e t : same2 e t = true -> Permutation e [fst t; snd t].
Proof.
  destruct e as [|a [|b [|c e]]]; try discriminate. cbn. intro H. apply Bool.orb_true_iff in H. destruct H as [H|H]; apply Bool.andb_true_iff in H; destruct H as [A B]; apply Z.eqb_eq in A, B; subst; [reflexivity|constructor].
Qed.
Definition table_ok (s : solid) : bool :=
  forallb (fun t => existsb (fun e => same2 e t) (concat (map cycle (zparts s))) && (0 <=? fst t) && (fst t <? Z.of_nat (corners s)) && (0 <=? snd t) && (snd t <? Z.of_nat (corners s))) (template (zparts s)) &&
  forallb (fun e => existsb (same2 e) (template (zparts s))) (concat (map cycle (zparts s))) &&
  (length (template (zparts s)) =? edge_count s)%nat.
Lemma tables_ok s : table_ok s = true.
Proof. destruct s; vm_compute; reflexivity. Qed.
Lemma template_edge s t : In t (template (zparts s)) -> (exists e, In e (concat (map cycle (zparts s))) /\ Permutation e [fst t; snd t]) /\ 0 <= fst t < Z.of_nat (corners s) /\ 0 <= snd t < Z.of_nat (corners s).
Proof.
  intro I. pose proof (tables_ok s) as T. unfold table_ok in T. rewrite !Bool.andb_true_iff in T. destruct T as [[T _] _]. rewrite forallb_forall in T. specialize (T _ I).
  rewrite !Bool.andb_true_iff in T. destruct T as [[[[T1 T2] T3] T4] T5]. apply existsb_exists in T1. destruct T1 as [e [Ie Se]].
  split; [exists e; split; [exact Ie|apply same2_perm; exact Se]|]. rewrite Z.leb_le, Z.ltb_lt in *. auto.
Qed.
Lemma edge_template s e : In e (concat (map cycle (zparts s))) -> exists t, In t (template (zparts s)) /\ Permutation e [fst t; snd t].
Proof.
  intro I. pose proof (tables_ok s) as T. unfold table_ok in T. rewrite !Bool.andb_true_iff in T. destruct T as [[_ T] _]. rewrite forallb_forall in T. specialize (T _ I).
  apply existsb_exists in T. destruct T as [t [It St]]. exists t. split; [exact It|apply same2_perm; exact St].
Qed.
Lemma template_length s : length (template (zparts s)) = edge_count s.
Proof. pose proof (tables_ok s) as T. unfold table_ok in T. rewrite !Bool.andb_true_iff in T. destruct T as [_ T]. apply Nat.eqb_eq. exact T. Qed.
Lemma point_order_perm s : solid_dim s = 3 -> Permutation (point_order (zparts s)) (zseq (Z.of_nat (corners s))).
Proof. intro D. symmetry. destruct s; try discriminate D; eapply Permutation_trans; try apply (isort_perm Z.ltb (point_order (zparts _))); vm_compute; reflexivity. Qed.

Lemma omapM_zex {A B} (f : Z -> outcome B) (Q : A -> B -> Prop) (l : list A) :
  (forall i a, nth_error l i = Some a -> exists b, f (Z.of_nat i) = Ok b /\ Q a b) -> exists bs, omapM f (zseq (zlen l)) = Ok bs /\ Forall2 Q l bs.
Proof.
  intro H. unfold zseq, zlen. rewrite Nat2Z.id.
  assert (G : forall l' s, (forall i a, nth_error l' i = Some a -> exists b, f (Z.of_nat (s + i)) = Ok b /\ Q a b) -> exists bs, omapM f (map Z.of_nat (seq s (length l'))) = Ok bs /\ Forall2 Q l' bs).
  { clear. induction l' as [|a r IH]; intros s H; [exists []; split; [reflexivity|constructor]|]. cbn [length seq map omapM].
    destruct (H 0%nat a eq_refl) as [b [H0 Q0]]. rewrite Nat.add_0_r in H0. rewrite H0. cbn [obind].
    destruct (IH (Datatypes.S s)) as [bs [E F]]. { intros i c Ec. specialize (H (Datatypes.S i) c Ec). rewrite <- Nat.add_succ_comm in H. exact H. }
    rewrite E. cbn [obind]. exists (b :: bs). split; [reflexivity|]. constructor; assumption. }
  apply (G l 0%nat). exact H.
Qed.
Lemma omapM_ex {A B} (f : A -> outcome B) (Q : A -> B -> Prop) (l : list A) : (forall a, In a l -> exists b, f a = Ok b /\ Q a b) -> exists bs, omapM f l = Ok bs /\ Forall2 Q l bs.
Proof.
  induction l as [|a r IH]; intro H; [exists []; split; [reflexivity|constructor]|]. destruct (H a (or_introl eq_refl)) as [b [E Q0]]. cbn [omapM]. rewrite E. cbn [obind].
  destruct IH as [bs [E' F]]; [intros c I; apply H; right; exact I|]. rewrite E'. exists (b :: bs). split; [reflexivity|constructor; assumption].
Qed.
Lemma f2_in_l {A B} (R : A -> B -> Prop) l m : Forall2 R l m -> forall a, In a l -> exists b, In b m /\ R a b.
Proof. induction 1; intros c I; [contradiction|]. destruct I as [<-|I]; [exists y; split; [left; reflexivity|assumption]|]. destruct (IHForall2 c I) as [b [J K]]. exists b. split; [right; exact J|exact K]. Qed.
Lemma f2_in_r {A B} (R : A -> B -> Prop) l m : Forall2 R l m -> forall b, In b m -> exists a, In a l /\ R a b.
Proof. induction 1; intros c I; [contradiction|]. destruct I as [<-|I]; [exists x; split; [left; reflexivity|assumption]|]. destruct (IHForall2 c I) as [b [J K]]. exists b. split; [right; exact J|exact K]. Qed.
Lemma f2_nth {A B} (R : A -> B -> Prop) l m : Forall2 R l m -> forall i a b, nth_error l i = Some a -> nth_error m i = Some b -> R a b.
Proof. induction 1; intros [|i] a b Ha Hb; cbn in *; try discriminate; [congruence|]. apply (IHForall2 i); assumption. Qed.
Lemma f2_length {A B} (R : A -> B -> Prop) l m : Forall2 R l m -> length l = length m.
Proof. induction 1; cbn; auto. Qed.
Lemma f2_impl {A B} (R R' : A -> B -> Prop) l m : (forall a b, R a b -> R' a b) -> Forall2 R l m -> Forall2 R' l m.
Proof. intros H F. induction F; constructor; auto. Qed.
Lemma perm_map2 (g : Z -> Z) e a b : Permutation e [a; b] -> Permutation (map g e) [g a; g b].
Proof. intro P. change [g a; g b] with (map g [a; b]). apply Permutation_map. exact P. Qed.

(** which line an edge is *)
Section S.
Variable srt : forall A : Type, (A -> A -> bool) -> list A -> list A.
Hypothesis Hs : sorts srt.

Lemma edge_keys_law lines : (forall d, In d lines -> exists a b, d = [a; b]) -> exists ks, edge_keys srt lines = Ok ks /\
  StronglySorted (fun x y : Z * Z => fst x <= fst y) ks /\ length ks = length lines /\
  (forall x, In x ks <-> exists k a b, nth_error lines k = Some [a; b] /\ x = (edge_key a b, Z.of_nat k)).
Proof.
  intro Two. unfold edge_keys.
  set (kf := fun li : list Z * Z => match fst li with [a; b] => (edge_key a b, snd li) | _ => (0, 0) end).
  assert (E : omapM (fun li : list Z * Z => match fst li with [a; b] => Ok (edge_key a b, snd li) | _ => UB end) (combine lines (zseq (zlen lines))) = Ok (map kf (combine lines (zseq (zlen lines))))).
  { rewrite <- (map_id (combine lines (zseq (zlen lines)))) at 1. apply omapM_map_list. intros [d i] I. apply in_combine_l in I. destruct (Two d I) as [a [b ->]]. reflexivity. }
  rewrite E. cbn [obind]. set (l := map kf _). destruct (Hs _ first_ltb l weak_first) as [P S]. exists (srt _ first_ltb l). split; [reflexivity|]. split; [|split].
  - eapply ss_weaken; [|exact S]. intros x y H. apply Z.ltb_ge in H. exact H.
  - rewrite (Permutation_length P). unfold l. rewrite map_length, combine_length, zlen_seq. lia.
  - intro x. assert (Ix : In x (srt _ first_ltb l) <-> In x l) by (split; apply Permutation_in; [exact P|symmetry; exact P]). rewrite Ix. unfold l. rewrite in_map_iff. split.
    + intros [[d i] [Ek I]]. apply In_nth_error in I. destruct I as [k Hk].
      assert (Hd : nth_error lines k = Some d /\ nth_error (zseq (zlen lines)) k = Some i).
      { clear - Hk. revert Hk. generalize (zseq (zlen lines)). revert k. induction lines as [|y r IH]; intros [|k] [|z zs] H; try discriminate; cbn in *; [injection H as -> ->; auto|]. apply IH. exact H. }
      destruct Hd as [Hd Hi]. destruct (Two d (nth_error_In _ _ Hd)) as [a [b ->]]. exists k, a, b. split; [exact Hd|]. rewrite <- Ek. cbn. f_equal.
      assert (Hl : (k < length lines)%nat) by (apply nth_error_Some; congruence).
      pose proof (zseq_nth (zlen lines) (Z.of_nat k)) as Q. rewrite Nat2Z.id in Q. rewrite Q in Hi by (unfold zlen; lia). congruence.
    + intros [k [a [b [Hk ->]]]]. exists ([a; b], Z.of_nat k). split; [reflexivity|].
      assert (Hl : (k < length lines)%nat) by (apply nth_error_Some; congruence).
      pose proof (zseq_nth (zlen lines) (Z.of_nat k)) as Q. rewrite Nat2Z.id in Q. specialize (Q ltac:(unfold zlen; lia)).
      clear - Hk Q. apply (nth_error_In _ k). revert Hk Q. generalize (zseq (zlen lines)) (Z.of_nat k). revert k. induction lines as [|y r IH]; intros [|k] [|z zs] w H Hw; try discriminate; cbn in *; [congruence|]. apply IH; assumption.
Qed.
Lemma lookup_law lines ks a b k d es : (forall d, In d lines -> exists a b, d = [a; b]) -> edge_keys srt lines = Ok ks ->
  (forall i i' d d', nth_error lines i = Some d -> nth_error lines i' = Some d' -> Permutation d d' -> i = i') ->
  told_apart_down es -> (forall d, In d lines -> In d es) -> In [a; b] es ->
  nth_error lines k = Some d -> Permutation [a; b] d -> lookup_edge ks a b = Ok (Z.of_nat k).
Proof.
  intros Two Ek Once T Inc Iab Hk P. destruct (edge_keys_law lines Two) as [ks' [Ek' [So [Le Mem]]]]. rewrite Ek' in Ek. injection Ek as ->.
  destruct (Two d (nth_error_In _ _ Hk)) as [c [e ->]].
  assert (Im : In (edge_key a b, Z.of_nat k) ks) by (apply Mem; exists k, c, e; split; [exact Hk|]; rewrite (key_perm a b c e P); reflexivity).
  apply In_nth_error in Im. destruct Im as [p Hp]. assert (Lp : (p < length ks)%nat) by (apply nth_error_Some; congruence).
  unfold lookup_edge. apply (search_law ks (edge_key a b) (Z.of_nat k) So) with (p := p); try (unfold zlen; lia); [|exact Hp].
  intros x Ix Ex. apply Mem in Ix. destruct Ix as [k' [a' [b' [Hk' ->]]]]. cbn in *. f_equal.
  destruct (key_down a' b') as [f [Ef [Pf Sf]]], (key_down a b) as [g [Eg [Pg Sg]]]. rewrite Ef, Eg in Ex.
  pose proof (T _ _ _ _ (Inc _ (nth_error_In _ _ Hk')) Iab Pf Pg Sf Sg Ex) as Pq.
  exact (Once k' k _ _ Hk' Hk (Permutation_trans Pq P)).
Qed.

Lemma cycle_faces s els f e : In f (concat (map (parts_of s) els)) -> In e (cycle f) -> In e (concat (map (edges_of s) els)).
Proof.
  intros I J. apply in_concat in I. destruct I as [l [I K]]. apply in_map_iff in I. destruct I as [el [<- I]].
  apply in_concat. exists (edges_of s el). split; [apply in_map; exact I|]. unfold edges_of. apply in_concat. exists (cycle f). split; [apply in_map; exact K|exact J].
Qed.

Lemma solid_lines s els : solid_hyp s els -> exists d2 r2 d1 r1, faces_of srt (solid_shape s) (solid_emb s) (concat els) = Ok (d2, r2) /\
  lines_of_faces srt (solid_shape s) d2 = Ok (d1, r1) /\ numbered (concat (map (parts_of s) els)) d2 r2 /\ numbered (concat (map cycle d2)) d1 r1 /\
  (forall e, In e (concat (map (edges_of s) els)) -> exists i, is_line d1 e i) /\ (forall d, In d d1 -> In d (concat (map (edges_of s) els))).
Proof.
  intros [D F Tf Tl Td Fl]. rewrite faces_of_law by exact F. destruct (embedded_law srt Hs _ Tf) as [d2 [r2 [E2 N2]]]. exists d2, r2. rewrite E2.
  assert (Fd : Forall (fun x => length x = corners (face_kind s)) d2).
  { apply Forall_forall. intros f I. apply (numbered_incl _ _ _ _ N2) in I. apply in_concat in I. destruct I as [l [I J]]. apply in_map_iff in I. destruct I as [el [<- I]].
    exact (parts_length s el f J D). }
  rewrite lines_of_faces_law by assumption.
  assert (Inc : forall e, In e (concat (map cycle d2)) -> In e (concat (map (edges_of s) els))).
  { intros e I. apply in_concat in I. destruct I as [l [I J]]. apply in_map_iff in I. destruct I as [f [<- I]]. exact (cycle_faces s els f e (numbered_incl _ _ _ _ N2 I) J). }
  destruct (embedded_law srt Hs _ (told_incl _ _ Inc Tl)) as [d1 [r1 [E1 N1]]]. exists d1, r1. rewrite E1. split; [reflexivity|]. split; [reflexivity|]. split; [exact N2|]. split; [exact N1|]. split.
  - intros e I. apply in_concat in I. destruct I as [l [I J]]. apply in_map_iff in I. destruct I as [el [<- I]]. unfold edges_of in J. apply in_concat in J. destruct J as [c [J K]].
    apply in_map_iff in J. destruct J as [f [<- J]].
    assert (If : In f (concat (map (parts_of s) els))) by (apply in_concat; exists (parts_of s el); split; [apply in_map; exact I|exact J]).
    destruct (In_nth_error _ _ If) as [j Hj]. destruct (n_ref _ _ _ N2 j f Hj) as [i [g [_ [Hg Pg]]]]. apply nth_error_In in Hg.
    destruct (Fl f g e If (numbered_incl _ _ _ _ N2 Hg) Pg K) as [e' [Ie' Pe]].
    assert (Ie : In e' (concat (map cycle d2))) by (apply in_concat; exists (cycle g); split; [apply in_map; exact Hg|exact Ie']).
    destruct (In_nth_error _ _ Ie) as [q Hq]. destruct (n_ref _ _ _ N1 q e' Hq) as [k [d [_ [Hd Pd]]]].
    exists (Z.of_nat k), k, d. split; [reflexivity|]. split; [exact Hd|]. exact (Permutation_trans Pe Pd).
  - intros d I. apply Inc. exact (numbered_incl _ _ _ _ N1 I).
Qed.

Lemma elem_lines_law s els d1 : solid_hyp s els -> (forall e, In e (concat (map (edges_of s) els)) -> exists i, is_line d1 e i) -> (forall d, In d d1 -> In d (concat (map (edges_of s) els))) ->
  (forall i i' d d', nth_error d1 i = Some d -> nth_error d1 i' = Some d' -> Permutation d d' -> i = i') ->
  exists rows, elem_lines srt (Z.of_nat (corners s)) (zparts s) (concat els) d1 = Ok (concat rows) /\
   Forall2 (fun el row => length row = edge_count s /\ (forall i, In i row -> exists e, In e (edges_of s el) /\ is_line d1 e i) /\ (forall e, In e (edges_of s el) -> exists i, In i row /\ is_line d1 e i)) els rows.
Proof.
  intros H All Inc Once. pose proof (sh_len _ _ H) as F.
  assert (Two : forall d, In d d1 -> exists a b, d = [a; b]).
  { intros d I. apply Inc in I. apply in_concat in I. destruct I as [l [I J]]. apply in_map_iff in I. destruct I as [el [<- I]]. unfold edges_of in J. apply in_concat in J. destruct J as [c [J K]].
    apply in_map_iff in J. destruct J as [f [<- J]]. exact (cycle_two f d K). }
  unfold elem_lines. destruct (edge_keys_law d1 Two) as [ks [Ek _]]. rewrite Ek. cbn [obind].
  rewrite (nelem_law _ els (proj1 (solid_corners s)) F).
  destruct (omapM_zex (fun e => omapM (fun t => do a <- at_ (concat els) (e * Z.of_nat (corners s) + fst t); do b <- at_ (concat els) (e * Z.of_nat (corners s) + snd t); lookup_edge ks a b) (template (zparts s)))
    (fun el row => Forall2 (fun t i => is_line d1 [pt el (fst t); pt el (snd t)] i) (template (zparts s)) row) els) as [rows [Er Fr]].
  { intros i el Hi. apply omapM_ex. intros t It. destruct (template_edge s t It) as [[e [Ie Pe]] [B1 B2]].
    assert (A1 : at_ (concat els) (Z.of_nat i * Z.of_nat (corners s) + fst t) = Ok (pt el (fst t))) by (rewrite <- (Z2Nat.id (fst t)) at 1 by lia; apply at_concat; [exact F|exact Hi|lia]).
    assert (A2 : at_ (concat els) (Z.of_nat i * Z.of_nat (corners s) + snd t) = Ok (pt el (snd t))) by (rewrite <- (Z2Nat.id (snd t)) at 1 by lia; apply at_concat; [exact F|exact Hi|lia]).
    rewrite A1, A2. cbn [obind].
    assert (Ig : In (map (pt el) e) (concat (map (edges_of s) els))).
    { apply in_concat. exists (edges_of s el). split; [apply in_map; exact (nth_error_In _ _ Hi)|]. rewrite edges_local. apply in_map. exact Ie. }
    destruct (All _ Ig) as [j [k [d [-> [Hk Pk]]]]]. exists (Z.of_nat k).
    pose proof (perm_map2 (pt el) e _ _ Pe) as Pm.
    assert (Pd : Permutation [pt el (fst t); pt el (snd t)] d) by (exact (Permutation_trans (Permutation_sym Pm) Pk)).
    split; [|exists k, d; auto].
    apply (lookup_law d1 ks _ _ k d ([pt el (fst t); pt el (snd t)] :: concat (map (edges_of s) els)) Two Ek Once); [|intros x Ix; right; apply Inc; exact Ix|left; reflexivity|exact Hk|exact Pd].
    (* the added edge has the points of one that is there *)
    intros f g f' g' If Ig' Pf Pg Sf Sg Eh.
    assert (Rep : forall x, In x ([pt el (fst t); pt el (snd t)] :: concat (map (edges_of s) els)) -> exists y, In y (concat (map (edges_of s) els)) /\ Permutation x y).
    { intros x [<-|Ix]; [exists (map (pt el) e); split; [exact Ig|symmetry; exact Pm]|exists x; split; [exact Ix|reflexivity]]. }
    destruct (Rep f If) as [y [Iy Py]], (Rep g Ig') as [z [Iz Pz]].
    pose proof (sh_down _ _ H y z f' g' Iy Iz (Permutation_trans (Permutation_sym Py) Pf) (Permutation_trans (Permutation_sym Pz) Pg) Sf Sg Eh) as Q.
    exact (Permutation_trans Py (Permutation_trans Q (Permutation_sym Pz))). }
  exists rows. rewrite Er. split; [reflexivity|]. eapply f2_impl; [|exact Fr]. cbv beta. intros el row Fe. split; [|split].
  - rewrite <- (f2_length _ _ _ Fe). apply template_length.
  - intros i Ii. destruct (f2_in_r _ _ _ Fe i Ii) as [t [It [k [d [-> [Hk Pk]]]]]]. destruct (template_edge s t It) as [[e [Ie Pe]] _].
    exists (map (pt el) e). split; [rewrite edges_local; apply in_map; exact Ie|]. exists k, d. split; [reflexivity|]. split; [exact Hk|]. exact (Permutation_trans (perm_map2 (pt el) e _ _ Pe) Pk).
  - intros e Ie. rewrite edges_local in Ie. apply in_map_iff in Ie. destruct Ie as [e0 [<- Ie]]. destruct (edge_template s e0 Ie) as [t [It Pt]].
    destruct (f2_in_l _ _ _ Fe t It) as [i [Ii [k [d [-> [Hk Pk]]]]]]. exists (Z.of_nat k). split; [exact Ii|]. exists k, d. split; [reflexivity|]. split; [exact Hk|].
    exact (Permutation_trans (perm_map2 (pt el) e0 _ _ Pt) Pk).
Qed.

Theorem generate_solid_lines s els n : solid_hyp s els -> exists faces frefs ds refs up down rows back,
  generate srt (solid_name s) (concat els) [] None n 1 = Ok (mkG ds up down) /\
  numbered (concat (map (parts_of s) els)) faces frefs /\ numbered (concat (map cycle faces)) ds refs /\
  (forall d, In d ds -> In d (concat (map (edges_of s) els))) /\ (forall e, In e (concat (map (edges_of s) els)) -> exists d, In d ds /\ Permutation e d) /\
  Forall2 (fun el row => length row = edge_count s /\ (forall i, In i row -> exists e, In e (edges_of s el) /\ is_line ds e i) /\ (forall e, In e (edges_of s el) -> exists i, In i row /\ is_line ds e i)) els rows /\
  holds up rows /\ holds down back /\ parents rows (Z.of_nat (length ds)) back.
Proof.
  intro H. destruct (solid_lines s els H) as [d2 [r2 [d1 [r1 [E2 [E1 [N2 [N1 [All Inc]]]]]]]]].
  destruct (elem_lines_law s els d1 H All Inc (n_once _ _ _ N1)) as [rows [Er Fr]].
  pose proof (sh_len _ _ H) as F. pose proof (sh_dim _ _ H) as D.
  assert (Fl : Forall (fun r : list Z => length r = edge_count s) rows) by (apply Forall_forall; intros r I; destruct (f2_in_r _ _ _ Fr r I) as [el [_ [L _]]]; exact L).
  assert (Hh : holds (single (zlen (template (zparts s))) (zlen els) (concat rows)) rows).
  { unfold zlen. rewrite template_length, (f2_length _ _ _ Fr). apply (holds_single (edge_count s)). exact Fl. }
  assert (Rg : Forall (fun c => 0 <= c < zlen d1) (concat rows)).
  { apply Forall_forall. intros c I. apply in_concat in I. destruct I as [row [I J]]. destruct (f2_in_r _ _ _ Fr row I) as [el [_ [_ [A _]]]]. destruct (A c J) as [e [_ [k [d [-> [Hk _]]]]]].
    assert (k < length d1)%nat by (apply nth_error_Some; congruence). unfold zlen. lia. }
  destruct (with_back_law srt Hs (zlen d1) d1 rows _ (Zle_0_nat _) Hh Rg) as [b [back [Eb [Hb Pb]]]].
  exists d2, r2, d1, r1, (single (zlen (template (zparts s))) (zlen els) (concat rows)), b, rows, back.
  split; [|split; [exact N2|split; [exact N1|split; [exact Inc|split; [|auto 10]]]]].
  - destruct (solid_shape_of s) as [i Ei]. unfold generate. rewrite Ei. cbn [obind]. unfold gen_table.
    destruct (solid_consts s) as [Cd [Ci Cc]]. rewrite (whole s els F). cbn [negb]. rewrite Ci, (nelem_law _ els (proj1 (solid_corners s)) F), Cd, D.
    cbn [Z.ltb Z.eqb Z.compare Pos.compare Pos.compare_cont Pos.eqb]. rewrite E2. cbn [obind fst snd]. rewrite E1. cbn [obind fst snd]. rewrite solid_faces. cbn [obind]. rewrite Er. cbn [obind]. exact Eb.
  - intros e I. destruct (All e I) as [i [k [d [-> [Hk Pk]]]]]. exists d. split; [exact (nth_error_In _ _ Hk)|exact Pk].
Qed.

Lemma elem_points_law s els : solid_dim s = 3 -> Forall (fun el => length el = corners s) els ->
  elem_points (Z.of_nat (corners s)) (zparts s) (concat els) = Ok (concat (map (fun el => map (pt el) (point_order (zparts s))) els)).
Proof.
  intros D F. unfold elem_points. rewrite (nelem_law _ els (proj1 (solid_corners s)) F).
  rewrite (omapM_zseq _ (fun el => map (pt el) (point_order (zparts s))) els); [reflexivity|].
  intros i el Hi. rewrite <- (map_id (point_order (zparts s))) at 1. apply omapM_map_list. intros j Ij.
  eapply Permutation_in in Ij; [|apply point_order_perm; exact D]. apply in_zseq in Ij.
  rewrite <- (Z2Nat.id j) at 1 by lia. apply at_concat; [exact F|exact Hi|lia].
Qed.
Lemma points_perm s el : solid_dim s = 3 -> length el = corners s -> Permutation (map (pt el) (point_order (zparts s))) el.
Proof.
  intros D L. eapply Permutation_trans; [apply Permutation_map; apply point_order_perm; exact D|].
  unfold zseq. rewrite Nat2Z.id, map_map, <- L. replace (map (fun x => pt el (Z.of_nat x)) (seq 0 (length el))) with el; [reflexivity|].
  apply list_ext. intro i. rewrite nth_error_map. destruct (Nat.lt_ge_cases i (length el)) as [Lt|Ge].
  - rewrite (nth_error_nth' el 0 Lt), (nth_error_nth' (seq 0 (length el)) 0%nat) by (rewrite seq_length; exact Lt). rewrite seq_nth by exact Lt. cbn. unfold pt. rewrite Nat2Z.id. reflexivity.
  - rewrite (proj2 (nth_error_None el i) Ge). rewrite (proj2 (nth_error_None (seq 0 (length el)) i)) by (rewrite seq_length; exact Ge). reflexivity.
Qed.
Theorem generate_solid_points s els n : solid_hyp s els -> 0 <= n -> Forall (Forall (fun x => 0 <= x < n)) els -> exists up down rows back,
  generate srt (solid_name s) (concat els) [] None n 0 = Ok (mkG (map (fun i => [i]) (zseq n)) up down) /\
  Forall2 (fun el row => Permutation row el) els rows /\ holds up rows /\ holds down back /\ parents rows n back.
Proof.
  intros H Hn R. destruct (solid_lines s els H) as [d2 [r2 [d1 [r1 [E2 [E1 [N2 [N1 [All Inc]]]]]]]]].
  destruct (elem_lines_law s els d1 H All Inc (n_once _ _ _ N1)) as [rows0 [Er _]].
  pose proof (sh_len _ _ H) as F. pose proof (sh_dim _ _ H) as D.
  set (rows := map (fun el => map (pt el) (point_order (zparts s))) els).
  assert (Fr : Forall2 (fun el row => Permutation row el) els rows).
  { unfold rows. clear - F D. induction F as [|el r Fe F IH]; cbn; constructor; [apply points_perm; assumption|exact IH]. }
  assert (Fl : Forall (fun r : list Z => length r = corners s) rows).
  { apply Forall_forall. intros r I. destruct (f2_in_r _ _ _ Fr r I) as [el [Ie P]]. rewrite (Permutation_length P). rewrite Forall_forall in F. apply F. exact Ie. }
  assert (Hh : holds (single (Z.of_nat (corners s)) (zlen els) (concat rows)) rows).
  { unfold zlen. rewrite (f2_length _ _ _ Fr). apply holds_single. exact Fl. }
  assert (Rg : Forall (fun c => 0 <= c < n) (concat rows)).
  { apply Forall_forall. intros c I. apply in_concat in I. destruct I as [row [I J]]. destruct (f2_in_r _ _ _ Fr row I) as [el [Ie P]].
    rewrite Forall_forall in R. specialize (R _ Ie). rewrite Forall_forall in R. apply R. eapply Permutation_in; [exact P|exact J]. }
  destruct (with_back_law srt Hs n (point_rows n) rows _ Hn Hh Rg) as [b [back [Eb [Hb Pb]]]].
  exists (single (Z.of_nat (corners s)) (zlen els) (concat rows)), b, rows, back.
  split; [|auto 10].
  destruct (solid_shape_of s) as [i Ei]. unfold generate. rewrite Ei. cbn [obind]. unfold gen_table.
  destruct (solid_consts s) as [Cd [Ci Cc]]. rewrite (whole s els F). cbn [negb]. rewrite Ci, (nelem_law _ els (proj1 (solid_corners s)) F), Cd, D.
  cbn [Z.ltb Z.eqb Z.compare Pos.compare Pos.compare_cont Pos.eqb]. rewrite E2. cbn [obind fst snd]. rewrite E1. cbn [obind fst snd]. rewrite solid_faces. cbn [obind]. rewrite Er. cbn [obind].
  rewrite elem_points_law by assumption. cbn [obind]. exact Eb.
Qed.

(** points of triangles, quads and lines *)
Theorem generate_flat_points s els n : solid_dim s = 2 -> Forall (fun el => length el = corners s) els -> 0 <= n -> Forall (Forall (fun x => 0 <= x < n)) els -> exists up down back,
  generate srt (solid_name s) (concat els) [] None n 0 = Ok (mkG (map (fun i => [i]) (zseq n)) up down) /\ holds up els /\ holds down back /\ parents els n back.
Proof.
  intros D F Hn R.
  assert (Hh : holds (single (Z.of_nat (corners s)) (zlen els) (concat els)) els) by (apply holds_single; exact F).
  destruct (with_back_law srt Hs n (point_rows n) els _ Hn Hh (proj2 (Forall_concat _ _) R)) as [b [back [Eb [Hb Pb]]]].
  exists (single (Z.of_nat (corners s)) (zlen els) (concat els)), b, back. split; [|auto].
  destruct (solid_shape_of s) as [i Ei]. unfold generate. rewrite Ei. cbn [obind]. unfold gen_table.
  destruct (solid_consts s) as [Cd [Ci Cc]]. rewrite (whole s els F). cbn [negb]. rewrite Ci, (nelem_law _ els (proj1 (solid_corners s)) F), Cd, D.
  cbn [Z.ltb Z.eqb Z.compare Pos.compare Pos.compare_cont Pos.eqb]. rewrite faces_of_law by exact F.
  destruct (embedded_total srt Hs (concat (map (parts_of s) els))) as [d [r [E _]]]. rewrite E. cbn [obind]. exact Eb.
Qed.
Theorem generate_line_points els n : Forall (fun el => length el = 2%nat) els -> 0 <= n -> Forall (Forall (fun x => 0 <= x < n)) els -> exists up down back,
  generate srt (L "line") (concat els) [] None n 0 = Ok (mkG (map (fun i => [i]) (zseq n)) up down) /\ holds up els /\ holds down back /\ parents els n back.
Proof.
  intros F Hn R. assert (Hh : holds (single 2 (zlen els) (concat els)) els) by (apply (holds_single 2); exact F).
  destruct (with_back_law srt Hs n (point_rows n) els _ Hn Hh (proj2 (Forall_concat _ _) R)) as [b [back [Eb [Hb Pb]]]].
  exists (single 2 (zlen els) (concat els)), b, back. split; [|auto].
  change (generate srt (L "line") (concat els) [] None n 0) with
    (if negb (zlen (concat els) mod 2 =? 0) then UB else with_back srt n (point_rows n) (single 2 (Z.quot (zlen (concat els)) 2) (concat els))).
  rewrite (zlen_concat 2 els F). change (Z.of_nat 2) with 2. rewrite Z.mul_comm, Z_mod_mult, Z.quot_mul by lia. exact Eb.
Qed.
End S.
