(** Material sets: specification and facts. *)
From Coq Require Import Lia Permutation.
From Verif Require Import Base Node NodeDiff NodeFacts O2M O2MFacts O2MCompact MatSet.
Local Open Scope Z_scope.

(** * Specification: how much of a material an element holds

    Each function gives the value that a representation assigns to material [k] in
    element [e]; 0 where the representation has no entry, [None] for an unknown material
    or element.  Written for values [vals] in place of the volume fractions, so that
    they also give the meaning of a field's matset_values. *)
Section Spec.
Context {V : Type}.
Variable zero : V.

Definition cell (o : option V) : V := match o with Some v => v | None => zero end.
Definition full_at (f : full) (k : str) (e : nat) : option V :=
  match mget f k with Some c => nth_error c e | None => None end.
(** (material id, value) of the slots of element [e] *)
Definition uslots (u : uni (V:=V)) (vals : list V) (e : nat) : list (Z * V) :=
  map (fun p => (nth (Z.to_nat p) (u_ids u) 0, nth (Z.to_nat p) vals zero)) (group (u_rel u) e).
Definition uni_at (u : uni) (vals : list V) (k : str) (e : nat) : option V :=
  match mget (u_map u) k with
  | Some id => if (e <? ones (u_rel u))%nat then Some (cell (zget (uslots u vals e) id)) else None
  | None => None
  end.
(** [n] elements *)
Definition sbm_at (n : nat) (eids : list (str * list Z)) (vals : list (str * list V)) (k : str) (e : nat) : option V :=
  match mget eids k, mget vals k with
  | Some es, Some vs => if (e <? n)%nat then Some (cell (zget (combine es vs) (Z.of_nat e))) else None
  | _, _ => None
  end.

(** Proper material sets over [n] elements *)
Definition valid_full (n : nat) (f : full (V:=V)) : Prop :=
  NoDup (map fst f) /\ Forall (fun c => length (snd c) = n) f.
Record valid_uni (n : nat) (u : uni (V:=V)) : Prop := {
  vu_rel : valid (u_rel u);
  vu_ones : ones (u_rel u) = n;
  vu_count : (u_offsets u <> None /\ (u_offsets u = Some [] -> u_indices u = None)) \/
             (u_offsets u = None /\ u_indices u <> None);
  vu_names : NoDup (map fst (u_map u));
  vu_numbers : NoDup (map snd (u_map u));
  vu_ids : forall e, (e < n)%nat ->
    NoDup (map fst (uslots u (u_vals u) e)) /\ incl (map fst (uslots u (u_vals u) e)) (map snd (u_map u)) }.
Record valid_sbm (n : nat) (eids : list (str * list Z)) (vals : list (str * list V)) : Prop := {
  vs_names : NoDup (map fst eids) /\ NoDup (map fst vals);
  vs_same : forall k, In k (map fst vals) <-> In k (map fst eids);
  vs_len : forall k es vs, mget eids k = Some es -> mget vals k = Some vs -> length es = length vs;
  vs_once : Forall (fun c => NoDup (snd c)) eids;
  vs_range : Forall (fun c => Forall (fun e => 0 <= e < Z.of_nat n) (snd c)) eids }.
(** every element holds some material *)
Definition all_filled (n : nat) (eids : list (str * list Z)) : Prop :=
  forall e, (e < n)%nat -> exists k es, In (k, es) eids /\ In (Z.of_nat e) es.

(** A volume fraction counts when it exceeds a small bound. *)
Variable above : V -> bool.
Definition cut (v : V) : V := if above v then v else zero.
(** value of [vals] where the volume fraction counts *)
Definition masked (f vals : full) (k : str) (e : nat) : option V :=
  match full_at f k e, full_at vals k e with
  | Some v, Some w => Some (if above v then w else zero)
  | _, _ => None
  end.
(** material [k] occurs in some element *)
Definition occurs (n : nat) (u : uni (V:=V)) (k : str) : Prop :=
  exists e id, (e < n)%nat /\ mget (u_map u) k = Some id /\ In id (map fst (uslots u (u_vals u) e)).
End Spec.

(** * Lists and maps *)
Lemma get_nat {A} (l : list A) i : get l (Z.of_nat i) = deref (nth_error l i).
Proof. unfold get. rewrite znth_nat. reflexivity. Qed.
Lemma get_in {A} (l : list A) p d : 0 <= p < Z.of_nat (length l) -> get l p = Ok (nth (Z.to_nat p) l d).
Proof. intros H. rewrite <- (Z2Nat.id p) at 1 by lia. rewrite get_nat, (nth_error_nth' l d) by lia. reflexivity. Qed.
Lemma zget_In {A} (l : list (Z * A)) k v : zget l k = Some v -> In (k, v) l.
Proof.
  induction l as [|[k' v'] r IH]; cbn [zget]; [discriminate|]. destruct (Z.eqb_spec k k') as [-> |N]; intros E.
  - injection E as ->. left; reflexivity.
  - right; auto.
Qed.
Lemma zget_nodup {A} (l : list (Z * A)) k v : NoDup (map fst l) -> In (k, v) l -> zget l k = Some v.
Proof.
  induction l as [|[k' v'] r IH]; cbn [zget map fst]; intros N I; [destruct I|destruct I as [E|I]].
  - injection E as -> ->. rewrite Z.eqb_refl. reflexivity.
  - inversion_clear N as [|? ? N1 N2]. destruct (Z.eqb_spec k k') as [-> |]; [|auto].
    exfalso. apply N1. apply (in_map fst) in I. exact I.
Qed.
Lemma zget_None {A} (l : list (Z * A)) k : zget l k = None <-> ~ In k (map fst l).
Proof.
  induction l as [|[k' v'] r IH]; cbn [zget map fst In]; [tauto|]. destruct (Z.eqb_spec k k') as [-> |N].
  - split; [discriminate|]. intros H. exfalso. apply H. auto.
  - rewrite IH. intuition congruence.
Qed.
(** A map with these entries and no others *)
Lemma zget_char {A} (l : list (Z * A)) k o : NoDup (map fst l) -> (forall v, In (k, v) l <-> o = Some v) -> zget l k = o.
Proof.
  intros N H. destruct o as [v|].
  - apply zget_nodup; [exact N|]. apply H. reflexivity.
  - apply zget_None. intros I. apply in_map_iff in I. destruct I as ([k' v] & E & I). cbn in E. subst k'.
    apply H in I. discriminate.
Qed.
Lemma mget_iff {A} (l : list (str * A)) k v : NoDup (map fst l) -> mget l k = Some v <-> In (k, v) l.
Proof. intros N. split; [apply mget_In|apply mget_Some_In_nodup; exact N]. Qed.
Lemma insert_perm {A} (x : str * A) l : Permutation (insert_name x l) (x :: l).
Proof.
  induction l as [|y r IH]; cbn [insert_name]; [reflexivity|]. destruct (str_leb (fst x) (fst y)); [reflexivity|].
  rewrite IH. apply perm_swap.
Qed.
Lemma by_name_perm {A} (l : list (str * A)) : Permutation (by_name l) l.
Proof.
  induction l as [|x l IH]; [reflexivity|]. cbn [by_name fold_right]. rewrite insert_perm. constructor. exact IH.
Qed.
Lemma mget_perm {A} (l l' : list (str * A)) k : Permutation l l' -> NoDup (map fst l) -> mget l k = mget l' k.
Proof.
  intros P N. assert (N' : NoDup (map fst l')) by (eapply Permutation_NoDup; [apply Permutation_map, P|exact N]).
  destruct (mget l' k) as [v|] eqn:E.
  - apply mget_iff; [exact N|]. apply mget_In in E. apply Permutation_in with l'; [symmetry; exact P|exact E].
  - apply mget_None_notin. apply mget_None_notin in E. intros I. apply E.
    eapply Permutation_in; [apply Permutation_map, P|exact I].
Qed.
Lemma mget_by_name {A} (l : list (str * A)) k : NoDup (map fst l) -> mget (by_name l) k = mget l k.
Proof. intros N. symmetry. apply mget_perm; [symmetry; apply by_name_perm|exact N]. Qed.
Lemma by_name_nodup {A} (l : list (str * A)) : NoDup (map fst l) -> NoDup (map fst (by_name l)).
Proof. intros N. eapply Permutation_NoDup; [apply Permutation_map; symmetry; apply by_name_perm|exact N]. Qed.
(** the order depends on the names only *)
Lemma insert_keys {A B} (x : str * A) (y : str * B) l : fst x = fst y -> forall l', map fst l = map fst l' ->
  map fst (insert_name x l) = map fst (insert_name y l').
Proof.
  intros E. induction l as [|a l IH]; intros [|b l'] M; try discriminate M; cbn [insert_name map]; [rewrite E; reflexivity|].
  cbn [map] in M. injection M as M1 M2. rewrite E, M1. destruct (str_leb (fst y) (fst b)); cbn [map]; [congruence|].
  rewrite (IH l' M2), M1. reflexivity.
Qed.
Lemma by_name_keys {A B} (l : list (str * A)) : forall (l' : list (str * B)), map fst l = map fst l' -> map fst (by_name l) = map fst (by_name l').
Proof.
  induction l as [|a l IH]; intros [|b l'] M; try discriminate M; [reflexivity|]. cbn [map] in M. injection M as M1 M2.
  cbn [by_name fold_right]. apply insert_keys; [exact M1|]. apply IH, M2.
Qed.
Lemma vput_ok {A} (l : list A) e v : (e < length l)%nat -> vput l (Z.of_nat e) v = Ok (set_nth l e v).
Proof. intros H. unfold vput, zlen. replace (_ && _) with true by lia. rewrite Nat2Z.id. reflexivity. Qed.
Lemma set_nth_len {A} (l : list A) : forall e v, length (set_nth l e v) = length l.
Proof. induction l as [|x l IH]; intros [|e] v; cbn [set_nth length]; auto. Qed.
Lemma set_nth_same {A} (l : list A) : forall e v, (e < length l)%nat -> nth_error (set_nth l e v) e = Some v.
Proof. induction l as [|x l IH]; intros [|e] v H; cbn [set_nth length nth_error] in *; try lia; [reflexivity|]. apply IH. lia. Qed.
Lemma set_nth_diff {A} (l : list A) : forall e e' v, e <> e' -> nth_error (set_nth l e v) e' = nth_error l e'.
Proof. induction l as [|x l IH]; intros [|e] [|e'] v H; cbn [set_nth nth_error]; try congruence. apply IH. congruence. Qed.
Lemma nth_set_diff {A} (l : list A) : forall e e' v d, e <> e' -> nth e' (set_nth l e v) d = nth e' l d.
Proof. induction l as [|x l IH]; intros [|e] [|e'] v d H; cbn [set_nth nth]; try congruence. apply IH. congruence. Qed.
Lemma NoDup_app_intro {A} (a b : list A) : NoDup a -> NoDup b -> (forall x, In x a -> ~ In x b) -> NoDup (a ++ b).
Proof.
  induction a as [|x a IH]; intros Na Nb D; cbn [app]; [exact Nb|]. inversion_clear Na as [|? ? N1 N2]. constructor.
  - rewrite in_app_iff. intros [I|I]; [exact (N1 I)|exact (D x (or_introl eq_refl) I)].
  - apply IH; [exact N2|exact Nb|]. intros y I. apply D. right. exact I.
Qed.
Lemma zseq_nat n : zseq (Z.of_nat n) = map Z.of_nat (seq 0 n).
Proof. unfold zseq. rewrite Nat2Z.id. reflexivity. Qed.
Lemma omapM_seq {A B} (f : Z -> outcome B) (g : nat -> A) (h : A -> B) n :
  (forall i, (i < n)%nat -> f (Z.of_nat i) = Ok (h (g i))) -> omapM f (zseq (Z.of_nat n)) = Ok (map (fun i => h (g i)) (seq 0 n)).
Proof.
  intros H. rewrite zseq_nat. apply omapM_Ok.
  assert (G : forall s m, (s + m <= n)%nat -> Forall2 (fun x y => f x = Ok y) (map Z.of_nat (seq s m)) (map (fun i => h (g i)) (seq s m))).
  { intros s m. revert s. induction m as [|m IH]; intros s Hs; [constructor|]. cbn [seq map]. constructor; [apply H; lia|apply IH; lia]. }
  apply G. lia.
Qed.
Lemma omapM_nat {B} (f : Z -> outcome B) (h : nat -> B) n :
  (forall i, (i < n)%nat -> f (Z.of_nat i) = Ok (h i)) -> omapM f (zseq (Z.of_nat n)) = Ok (map h (seq 0 n)).
Proof. intros H. exact (omapM_seq f (fun i => i) h n H). Qed.
Lemma nth_map_seq {A} (h : nat -> A) n i d : (i < n)%nat -> nth i (map h (seq 0 n)) d = h i.
Proof. intros H. rewrite nth_indep with (d' := h 0%nat) by (rewrite map_length, seq_length; exact H). rewrite map_nth, seq_nth by exact H. reflexivity. Qed.

(** * Rows packed one after the other *)
Lemma offsets_len s : forall o, length (offsets_from o s) = length s.
Proof. induction s as [|x s IH]; intros o; cbn [offsets_from length]; [reflexivity|]. rewrite IH. reflexivity. Qed.
Lemma offsets_nth s : forall o i, (i < length s)%nat -> nth i (offsets_from o s) 0 = o + zsum (firstn i s).
Proof.
  induction s as [|x s IH]; intros o [|i] H; cbn [offsets_from length nth firstn zsum] in *; try lia. rewrite IH by lia. lia.
Qed.
Lemma sizes_sum {A} (rows : list (list A)) : zsum (map zlen rows) = zlen (concat rows).
Proof. unfold zlen. induction rows as [|r rows IH]; [reflexivity|]. cbn [map zsum concat]. rewrite app_length, IH. lia. Qed.
Lemma concat_nth {A} (rows : list (list A)) : forall i k d, (i < length rows)%nat -> (k < length (nth i rows []))%nat ->
  nth (length (concat (firstn i rows)) + k) (concat rows) d = nth k (nth i rows []) d /\
  (length (concat (firstn i rows)) + k < length (concat rows))%nat.
Proof.
  induction rows as [|r rows IH]; intros [|i] k d Hi Hk; cbn [length nth firstn concat] in *; try lia.
  - split; [apply app_nth1; exact Hk|rewrite app_length; lia].
  - rewrite !app_length. destruct (IH i k d ltac:(lia) Hk) as [A1 A2]. split; [|lia].
    rewrite app_nth2 by lia. rewrite <- A1. f_equal. lia.
Qed.
Section Rows.
Context {V : Type}.
Variable zero : V.
Variable mm : list (str * Z).
Variable rows : list (list (Z * V)).
Definition packed : uni :=
  mkUni mm (map snd (concat rows)) (map fst (concat rows)) (Some (map zlen rows)) None (Some (offsets_from 0 (map zlen rows))).
Lemma packed_ones : ones (u_rel packed) = length rows.
Proof. unfold ones. cbn [u_rel packed o_sizes u_sizes]. apply map_length. Qed.
Lemma packed_size i : (i < length rows)%nat -> group_size (u_rel packed) i = length (nth i rows []).
Proof.
  intros H. unfold group_size. cbn [u_rel packed o_sizes u_sizes].
  change 0 with (zlen (@nil (Z * V))). rewrite map_nth. unfold zlen. lia.
Qed.
Lemma packed_pos i k : (i < length rows)%nat -> position (u_rel packed) i k = Z.of_nat (length (concat (firstn i rows)) + k).
Proof.
  intros H. unfold position, group_start. cbn [u_rel packed o_offsets u_offsets o_indices u_indices].
  rewrite offsets_nth by (rewrite map_length; exact H). rewrite firstn_map, sizes_sum. unfold zlen. lia.
Qed.
Lemma packed_valid : valid (u_rel packed).
Proof.
  constructor.
  - discriminate.
  - intros s E. injection E as <-. apply Forall_map, Forall_forall. intros r _. unfold zlen. lia.
  - intros o E. injection E as <-. rewrite offsets_len, map_length. symmetry. apply packed_ones.
  - discriminate.
  - intros i k Hi Hk. rewrite packed_ones in Hi. rewrite packed_size in Hk by exact Hi.
    destruct (concat_nth rows i k (0, zero) Hi Hk) as [_ B].
    assert (P : 0 <= group_start (u_rel packed) i).
    { unfold group_start. cbn [u_rel packed o_offsets u_offsets]. rewrite offsets_nth by (rewrite map_length; exact Hi).
      rewrite firstn_map, sizes_sum. unfold zlen. lia. }
    split; [lia|]. split; [intros x E; discriminate E|]. constructor; [|constructor].
    rewrite packed_pos by exact Hi. cbn [snd packed u_ids]. unfold zlen. rewrite map_length. lia.
Qed.
Lemma nth_pair (l : list (Z * V)) j : (nth j (map fst l) 0, nth j (map snd l) zero) = nth j l (0, zero).
Proof. revert j. induction l as [|[a b] l IH]; intros [|j]; cbn [map nth fst snd]; auto. Qed.
(** also for other values of the same shape *)
Lemma packed_slots rows' i : map (map fst) rows' = map (map fst) rows -> (i < length rows)%nat ->
  uslots zero packed (map snd (concat rows')) i = nth i rows' [].
Proof.
  intros M H.
  assert (Ln : length rows' = length rows) by (apply (f_equal (@length _)) in M; rewrite !map_length in M; exact M).
  assert (Mn : forall j, map fst (nth j rows' []) = map fst (nth j rows [])).
  { intros j. change (@nil (Z * V)) with (@nil (Z * V)). rewrite <- !(map_nth (map fst)). cbn [map]. rewrite M. reflexivity. }
  assert (Mc : map fst (concat rows') = map fst (concat rows)) by (rewrite !concat_map, M; reflexivity).
  assert (Fl : length (concat (firstn i rows')) = length (concat (firstn i rows))).
  { rewrite <- (map_length fst (concat (firstn i rows'))), <- (map_length fst (concat (firstn i rows))), !concat_map, <- !firstn_map, M. reflexivity. }
  unfold uslots, group. rewrite packed_size by exact H. rewrite map_map.
  assert (Li : length (nth i rows' []) = length (nth i rows [])) by (rewrite <- (map_length fst (nth i rows' [])), Mn, map_length; reflexivity).
  apply nth_ext with (d := (0, zero)) (d' := (0, zero)); [rewrite map_length, seq_length; symmetry; exact Li|].
  intros k Hk. rewrite map_length, seq_length in Hk. rewrite nth_map_seq by exact Hk.
  rewrite packed_pos by exact H. rewrite Nat2Z.id. cbn [packed u_ids].
  destruct (concat_nth rows' i k (0, zero) ltac:(lia) ltac:(lia)) as [A _]. rewrite Fl in A.
  rewrite <- Mc, nth_pair. exact A.
Qed.
End Rows.

(** * Full to sparse by element *)
Lemma number_In {A} (l : list A) : forall a i x, In (i, x) (number_from a l) <-> exists j, i = a + Z.of_nat j /\ nth_error l j = Some x.
Proof.
  induction l as [|y l IH]; intros a i x; cbn [number_from In].
  - split; [tauto|]. intros (j & _ & E). destruct j; discriminate E.
  - rewrite IH. split.
    + intros [E|(j & E1 & E2)].
      * injection E as <- <-. exists 0%nat. split; [lia|reflexivity].
      * exists (S j). split; [lia|exact E2].
    + intros ([|j] & E1 & E2).
      * left. cbn in E2. injection E2 as ->. f_equal. lia.
      * right. exists j. split; [lia|exact E2].
Qed.
Lemma number_fst {A} (l : list A) : forall a, NoDup (map fst (number_from a l)).
Proof.
  induction l as [|y l IH]; intros a; cbn [number_from map fst]; constructor; [|apply IH].
  intros I. apply in_map_iff in I. destruct I as ([i x] & E & I). cbn in E. subst i. apply number_In in I. destruct I as (j & E & _). lia.
Qed.
Lemma number_map_fst {A B} (l : list A) (l' : list B) : length l = length l' -> forall a, map fst (number_from a l) = map fst (number_from a l').
Proof. revert l'. induction l as [|y l IH]; intros [|y' l'] E a; try discriminate E; [reflexivity|]. cbn [number_from map fst]. rewrite (IH l') by (cbn in E; congruence). reflexivity. Qed.

Section Facts.
Context {V : Type}.
Variable zero : V.
Variable above : V -> bool.
Notation full := (@full V).
Notation uni := (@uni V).
Notation sbm := (@sbm V).


Fixpoint picked (cols : list (Z * (list V * list V))) (e : nat) : list (Z * V) :=
  match cols with
  | [] => []
  | (id, (vf, fv)) :: r =>
      match nth_error vf e, nth_error fv e with
      | Some v, Some w => if above v then (id, w) :: picked r e else picked r e
      | _, _ => picked r e
      end
  end.
Definition tall (n : nat) (c : Z * (list V * list V)) : Prop := length (fst (snd c)) = n /\ length (snd (snd c)) = n.
Lemma nth_error_in {A} (l : list A) e : (e < length l)%nat -> exists v, nth_error l e = Some v.
Proof. intros H. destruct (nth_error l e) as [v|] eqn:E; [eauto|]. apply nth_error_None in E. lia. Qed.
Lemma pick_ok n cols e : Forall (tall n) cols -> (e < n)%nat -> pick above cols (Z.of_nat e) = Ok (picked cols e).
Proof.
  intros F He. induction F as [|[id [vf fv]] cols [L1 L2] F IH]; [reflexivity|]. cbn [fst snd] in L1, L2.
  destruct (nth_error_in vf e) as [v Ev]; [lia|]. destruct (nth_error_in fv e) as [w Ew]; [lia|].
  cbn [pick picked]. rewrite !get_nat, Ev, Ew. cbn [deref obind]. rewrite IH. cbn [obind]. destruct (above v); reflexivity.
Qed.
Lemma picked_In cols e id w : In (id, w) (picked cols e) <->
  exists vf fv v, In (id, (vf, fv)) cols /\ nth_error vf e = Some v /\ nth_error fv e = Some w /\ above v = true.
Proof.
  induction cols as [|[i [vf fv]] cols IH]; cbn [picked In].
  - split; [tauto|]. intros (? & ? & ? & [] & _).
  - assert (X : forall P : Prop, (exists vf0 fv0 v, ((i, (vf, fv)) = (id, (vf0, fv0)) \/ In (id, (vf0, fv0)) cols) /\ nth_error vf0 e = Some v /\ nth_error fv0 e = Some w /\ above v = true) <->
      ((i = id /\ exists v, nth_error vf e = Some v /\ nth_error fv e = Some w /\ above v = true) \/ In (id, w) (picked cols e))).
    { intros _. rewrite IH. split.
      - intros (a & b & v & [E|I] & R); [|right; exists a, b, v; tauto]. injection E as -> -> ->. left. eauto.
      - intros [(-> & v & R)|(a & b & v & I & R)]; [exists vf, fv, v|exists a, b, v]; tauto. }
    rewrite (X True). clear X. destruct (nth_error vf e) as [v|] eqn:Ev.
    2:{ split; [tauto|]. intros [(_ & v & E & _)|I]; [discriminate E|exact I]. }
    destruct (nth_error fv e) as [w'|] eqn:Ew.
    2:{ split; [tauto|]. intros [(_ & v' & _ & E & _)|I]; [discriminate E|exact I]. }
    destruct (above v) eqn:Ea; cbn [In].
    + split.
      * intros [E|I]; [|tauto]. injection E as <- <-. left. split; [reflexivity|]. exists v. tauto.
      * intros [(-> & v' & E1 & E2 & _)|I]; [|tauto]. injection E2 as ->. tauto.
    + split; [tauto|]. intros [(_ & v' & E1 & _ & E)|I]; [|exact I]. injection E1 as <-. congruence.
Qed.
Lemma picked_nodup cols e : NoDup (map fst cols) -> NoDup (map fst (picked cols e)).
Proof.
  induction cols as [|[i [vf fv]] cols IH]; cbn [picked map fst]; intros N; [constructor|].
  inversion_clear N as [|? ? N1 N2]. specialize (IH N2).
  destruct (nth_error vf e) as [v|]; [|exact IH]. destruct (nth_error fv e) as [w|]; [|exact IH].
  destruct (above v); [|exact IH]. cbn [map fst]. constructor; [|exact IH]. intros I. apply N1.
  apply in_map_iff in I. destruct I as ([j x] & E & I). cbn in E. subst j. apply picked_In in I. destruct I as (a & b & _ & I & _).
  apply (in_map fst) in I. exact I.
Qed.
Lemma picked_fst n cols e : Forall (tall n) cols -> map fst (picked cols e) = map fst (picked (map (fun c => (fst c, (fst (snd c), fst (snd c)))) cols) e).
Proof.
  intros F. induction F as [|[i [vf fv]] cols [L1 L2] F IH]; [reflexivity|]. cbn [fst snd map picked] in *.
  destruct (nth_error vf e) as [v|] eqn:Ev; [|exact IH].
  destruct (nth_error_in fv e) as [w Ew]. { assert (e < length vf)%nat by (apply nth_error_Some; congruence). lia. }
  rewrite Ew. destruct (above v); cbn [map fst]; [f_equal|]; exact IH.
Qed.

(** the columns of matset and field side by side *)
Definition side (f vals : full) : list (list V * list V) := map (fun p => (snd (fst p), snd (snd p))) (combine f vals).
Lemma in_step_ok f : forall vals, map fst f = map fst vals -> in_step f vals = Ok (side f vals).
Proof.
  induction f as [|[k c] f IH]; intros [|[k' w] vals] E; try discriminate E; [reflexivity|]. cbn [map fst] in E. injection E as <- E.
  cbn [in_step]. rewrite str_eqb_refl, (IH _ E). reflexivity.
Qed.
Lemma side_self f : side f f = map (fun c => (snd c, snd c)) f.
Proof. unfold side. induction f as [|[k c] f IH]; [reflexivity|]. cbn [combine map fst snd]. rewrite IH. reflexivity. Qed.
Lemma side_nth f : forall vals j k c w, nth_error f j = Some (k, c) -> nth_error vals j = Some (k, w) -> nth_error (side f vals) j = Some (c, w).
Proof.
  unfold side. induction f as [|x f IH]; intros [|y vals] [|j] k c w E1 E2; try discriminate; cbn [nth_error combine map fst snd] in *.
  - injection E1 as ->. injection E2 as ->. reflexivity.
  - eauto.
Qed.
Lemma side_length f vals : map fst f = map fst vals -> length (side f vals) = length f.
Proof. intros E. apply (f_equal (@length _)) in E. rewrite !map_length in E. unfold side. rewrite map_length, combine_length. lia. Qed.
Lemma side_tall n f vals a : valid_full n f -> valid_full n vals -> Forall (tall n) (number_from a (side f vals)).
Proof.
  intros [_ F1] [_ F2]. apply Forall_forall. intros [i [c w]] I. apply number_In in I. destruct I as (j & _ & E).
  apply nth_error_In in E. unfold side in E. apply in_map_iff in E. destruct E as ([[k c'] [k' w']] & E & I). cbn in E. injection E as -> ->.
  split; cbn [fst snd].
  - apply in_combine_l in I. rewrite Forall_forall in F1. apply (F1 _ I).
  - apply in_combine_r in I. rewrite Forall_forall in F2. apply (F2 _ I).
Qed.
Definition rows (n : nat) (f vals : full) : list (list (Z * V)) := map (picked (number_from 0 (side f vals))) (seq 0 n).
Lemma rows_length n f vals : length (rows n f vals) = n.
Proof. unfold rows. rewrite map_length, seq_length. reflexivity. Qed.
Lemma rows_nth n f vals e : (e < n)%nat -> nth e (rows n f vals) [] = picked (number_from 0 (side f vals)) e.
Proof. intros H. unfold rows. apply nth_map_seq, H. Qed.
Lemma rows_fst n f vals : valid_full n f -> valid_full n vals -> map fst f = map fst vals -> map (map fst) (rows n f vals) = map (map fst) (rows n f f).
Proof.
  intros F1 F2 E. unfold rows. rewrite !map_map. apply map_ext. intros e. rewrite (picked_fst n) by (apply side_tall; assumption).
  f_equal. f_equal. clear F1 F2. generalize 0. unfold side. revert vals E.
  induction f as [|x f IH]; intros [|y vals] E a; try discriminate E; [reflexivity|]. cbn [map] in E. injection E as _ E.
  cbn [combine map number_from fst snd]. rewrite (IH _ E). reflexivity.
Qed.
Definition named (f : full) : list (str * Z) := map (fun c => (fst (snd c), fst c)) (number_from 0 f).
Lemma named_fst_from (f : full) : forall a, map fst (map (fun c : Z * (str * list V) => (fst (snd c), fst c)) (number_from a f)) = map fst f.
Proof. induction f as [|[k c] f IH]; intros a; [reflexivity|]. cbn [number_from map fst snd]. rewrite IH. reflexivity. Qed.
Lemma named_fst f : map fst (named f) = map fst f.
Proof. apply named_fst_from. Qed.
Lemma named_snd f : map snd (named f) = map fst (number_from 0 f).
Proof. unfold named. rewrite map_map. reflexivity. Qed.
Lemma named_get f k j c : NoDup (map fst f) -> nth_error f j = Some (k, c) -> mget (named f) k = Some (Z.of_nat j).
Proof.
  intros N E. apply mget_iff; [rewrite named_fst; exact N|]. unfold named. apply in_map_iff. exists (Z.of_nat j, (k, c)). split; [reflexivity|].
  apply number_In. exists j. split; [lia|exact E].
Qed.
Definition uni_of (n : nat) (f : full) : uni := packed (named f) (rows n f f).

Lemma uni_of_valid n f : valid_full n f -> valid_uni zero n (uni_of n f).
Proof.
  intros F. constructor.
  - apply packed_valid. exact zero.
  - unfold uni_of. rewrite packed_ones. apply rows_length.
  - left. split; [discriminate|reflexivity].
  - cbn. rewrite named_fst. apply F.
  - cbn. rewrite named_snd. apply number_fst.
  - intros e He. unfold uni_of. cbn [u_vals packed]. rewrite packed_slots by (reflexivity || (rewrite rows_length; exact He)).
    rewrite rows_nth by exact He. split.
    + apply picked_nodup, number_fst.
    + intros i I. cbn [u_map packed]. rewrite named_snd. apply in_map_iff in I. destruct I as ([i' w] & E & I). cbn in E. subst i'.
      apply picked_In in I. destruct I as (a & b & v & I & _). apply (in_map fst) in I. cbn [fst] in I.
      erewrite number_map_fst; [exact I|]. symmetry. apply side_length. reflexivity.
Qed.
Lemma full_to_uni_ok n f : valid_full n f -> f <> [] -> full_to_uni above f = Ok (uni_of n f).
Proof.
  intros F N. unfold full_to_uni. destruct f as [|[k c] f]; [congruence|]. cbn [first_len obind].
  assert (Lc : zlen c = Z.of_nat n). { destruct F as [_ F]. inversion_clear F as [|? ? F1 _]. cbn in F1. unfold zlen. lia. }
  rewrite Lc, <- side_self. erewrite omapM_nat; [|intros i Hi; apply (pick_ok n); [apply side_tall; exact F|exact Hi]]. reflexivity.
Qed.
Lemma full_to_uni_field_ok n f vals : valid_full n f -> valid_full n vals -> map fst f = map fst vals -> f <> [] ->
  full_to_uni_field above f vals = Ok (map snd (concat (rows n f vals))).
Proof.
  intros F1 F2 E N. unfold full_to_uni_field. rewrite in_step_ok by exact E. cbn [obind].
  destruct f as [|[k c] f]; [congruence|]. cbn [first_len obind].
  assert (Lc : zlen c = Z.of_nat n). { destruct F1 as [_ F]. inversion_clear F as [|? ? F1 _]. cbn in F1. unfold zlen. lia. }
  rewrite Lc. erewrite omapM_nat; [|intros i Hi; apply (pick_ok n); [apply side_tall; assumption|exact Hi]]. reflexivity.
Qed.
Lemma uni_of_at n f vals k e : valid_full n f -> valid_full n vals -> map fst f = map fst vals ->
  uni_at zero (uni_of n f) (map snd (concat (rows n f vals))) k e = masked zero above f vals k e.
Proof.
  intros F1 F2 E. unfold uni_at. cbn [u_map uni_of packed]. destruct (mget f k) as [c|] eqn:Ec.
  2:{ assert (M : mget (named f) k = None) by (apply mget_None_notin; rewrite named_fst; apply mget_None_notin; exact Ec).
      rewrite M. unfold masked, full_at. rewrite Ec. reflexivity. }
  pose proof (mget_In _ _ _ Ec) as I. apply In_nth_error in I. destruct I as [j Ej].
  rewrite (named_get f k j c) by (exact Ej || apply F1).
  assert (W : exists w, nth_error vals j = Some (k, w)).
  { assert (M : nth_error (map fst vals) j = Some k) by (rewrite <- E; apply (map_nth_error fst) in Ej; exact Ej).
    destruct (nth_error vals j) as [[k' w]|] eqn:Ew.
    - apply (map_nth_error fst) in Ew. cbn in Ew. rewrite M in Ew. injection Ew as ->. eauto.
    - apply nth_error_None in Ew. assert (nth_error (map fst vals) j <> None) by congruence. apply nth_error_Some in H. rewrite map_length in H. lia. }
  destruct W as [w Ew].
  assert (Mw : mget vals k = Some w) by (apply mget_iff; [apply F2|eapply nth_error_In; exact Ew]).
  assert (Lc : length c = n). { destruct F1 as [_ F]. rewrite Forall_forall in F. apply (F (k, c)). eapply nth_error_In; exact Ej. }
  assert (Lw : length w = n). { destruct F2 as [_ F]. rewrite Forall_forall in F. apply (F (k, w)). eapply nth_error_In; exact Ew. }
  unfold uni_of. rewrite packed_ones, rows_length. unfold masked, full_at. rewrite Ec, Mw.
  destruct (Nat.ltb_spec e n) as [He|He].
  2:{ rewrite (proj2 (nth_error_None c e)) by lia. reflexivity. }
  destruct (nth_error_in c e) as [v Ev]; [lia|]. destruct (nth_error_in w e) as [x Ex]; [lia|]. rewrite Ev, Ex. f_equal.
  rewrite packed_slots, rows_nth by ((apply rows_fst; assumption) || (rewrite rows_length; exact He) || exact He).
  erewrite (zget_char _ _ (if above v then Some x else None)).
  - destruct (above v); reflexivity.
  - apply picked_nodup, number_fst.
  - intros y. rewrite picked_In. split.
    + intros (a & b & v' & I & E1 & E2 & E3). apply number_In in I. destruct I as (j' & Ej' & I).
      assert (j' = j) by lia. subst j'. rewrite (side_nth f vals j k c w Ej Ew) in I. injection I as -> ->.
      rewrite Ev in E1. injection E1 as <-. rewrite E3. congruence.
    + intros Y. destruct (above v) eqn:Ea; [|discriminate Y]. injection Y as <-. exists c, w, v.
      split; [|tauto]. apply number_In. exists j. split; [lia|apply (side_nth f vals j k c w Ej Ew)].
Qed.
Lemma masked_self f k e : masked zero above f f k e = option_map (cut zero above) (full_at f k e).
Proof. unfold masked. destruct (full_at f k e); reflexivity. Qed.
Theorem full_to_uni_law n f : valid_full n f -> f <> [] -> exists u, full_to_uni above f = Ok u /\
  valid_uni zero n u /\ map fst (u_map u) = map fst f /\
  (forall k e, uni_at zero u (u_vals u) k e = option_map (cut zero above) (full_at f k e)) /\
  (forall vals, valid_full n vals -> map fst f = map fst vals -> exists w, full_to_uni_field above f vals = Ok w /\
     length w = length (u_ids u) /\ forall k e, uni_at zero u w k e = masked zero above f vals k e).
Proof.
  intros F N. exists (uni_of n f). split; [apply full_to_uni_ok; assumption|]. split; [apply uni_of_valid, F|].
  split; [apply named_fst|]. split.
  - intros k e. rewrite <- masked_self. apply uni_of_at; auto.
  - intros vals F2 E. exists (map snd (concat (rows n f vals))). split; [apply full_to_uni_field_ok; assumption|]. split.
    + cbn [uni_of packed u_ids]. rewrite map_length, <- (map_length fst (concat (rows n f vals))), !concat_map, (rows_fst n f vals F F2 E). reflexivity.
    + intros k e. apply uni_of_at; assumption.
Qed.

(** * Sparse by element to the others *)
Lemma zget_zset {A} (m : list (Z * A)) k v k' : zget (zset m k v) k' = if k' =? k then Some v else zget m k'.
Proof.
  induction m as [|[a b] m IH]; cbn [zset zget]; [reflexivity|].
  destruct (Z.eqb_spec k a) as [-> |N1]; cbn [zget].
  - destruct (k' =? a); reflexivity.
  - destruct (Z.ltb_spec k a); cbn [zget].
    + reflexivity.
    + rewrite IH. destruct (Z.eqb_spec k' a), (Z.eqb_spec k' k); try reflexivity. congruence.
Qed.
Lemma zset_In {A} (m : list (Z * A)) k v x : In x (zset m k v) -> x = (k, v) \/ In x m.
Proof.
  induction m as [|[a b] m IH]; cbn [zset In]; [intuition congruence|].
  destruct (Z.eqb_spec k a) as [-> |]; cbn [In]; [intuition congruence|]. destruct (k <? a); cbn [In]; intuition congruence.
Qed.
Lemma reverse_get_from m : forall acc id, NoDup (map snd m) ->
  zget (fold_left (fun acc (c : str * Z) => zset acc (snd c) (fst c)) m acc) id =
  match zget (map (fun c => (snd c, fst c)) m) id with Some k => Some k | None => zget acc id end.
Proof.
  induction m as [|[k i] m IH]; intros acc id N; cbn [fold_left map zget fst snd]; [reflexivity|].
  inversion_clear N as [|? ? N1 N2]. rewrite IH by exact N2. rewrite zget_zset.
  destruct (Z.eqb_spec id i) as [-> |N]; [|reflexivity].
  assert (E : zget (map (fun c : str * Z => (snd c, fst c)) m) i = None).
  { apply zget_None. rewrite map_map. cbn [fst]. exact N1. }
  rewrite E. reflexivity.
Qed.
Lemma reverse_get m id k : NoDup (map snd m) -> zget (reverse_map m) id = Some k <-> In (k, id) m.
Proof.
  intros N. unfold reverse_map. rewrite reverse_get_from by exact N.
  assert (N' : NoDup (map fst (map (fun c : str * Z => (snd c, fst c)) m))) by (rewrite map_map; exact N).
  split.
  - destruct (zget _ id) as [k'|] eqn:E; [|discriminate]. intros X. injection X as ->. apply zget_In in E. apply in_map_iff in E.
    destruct E as ([a b] & E & I). cbn in E. injection E as -> ->. exact I.
  - intros I. rewrite (zget_nodup _ id k N'); [reflexivity|]. apply in_map_iff. exists (k, id). split; [reflexivity|exact I].
Qed.
Lemma reverse_In m id k : In (id, k) (reverse_map m) -> In (k, id) m.
Proof.
  unfold reverse_map. assert (G : forall acc, In (id, k) (fold_left (fun acc (c : str * Z) => zset acc (snd c) (fst c)) m acc) -> In (k, id) m \/ In (id, k) acc).
  { induction m as [|[k' i'] m IH]; intros acc I; cbn [fold_left] in I; [tauto|]. apply IH in I. destruct I as [I|I]; [left; right; exact I|].
    apply zset_In in I. destruct I as [E|I]; [|tauto]. cbn in E. injection E as -> ->. left; left; reflexivity. }
  intros I. apply G in I. destruct I as [I|[]]. exact I.
Qed.
Lemma name_of_id m k id : NoDup (map snd m) -> In (k, id) m -> name_of (reverse_map m) id = k.
Proof. intros N I. unfold name_of. rewrite (proj2 (reverse_get m id k N) I). reflexivity. Qed.

Definition slots (n : nat) (u : uni) (vals : list V) : list (Z * (Z * V)) :=
  concat (map (fun e => map (fun s => (Z.of_nat e, s)) (uslots zero u vals e)) (seq 0 n)).
Lemma slots_In n u vals e id v : In (e, (id, v)) (slots n u vals) <-> exists i, e = Z.of_nat i /\ (i < n)%nat /\ In (id, v) (uslots zero u vals i).
Proof.
  unfold slots. rewrite in_concat. split.
  - intros (l & I & J). apply in_map_iff in I. destruct I as (i & <- & I). apply in_seq in I. apply in_map_iff in J. destruct J as (s & E & J).
    injection E as <- ->. exists i. repeat split; [lia|exact J].
  - intros (i & -> & H & J). eexists. split; [apply in_map_iff; exists i; split; [reflexivity|apply in_seq; lia]|].
    apply in_map_iff. exists (id, v). split; [reflexivity|exact J].
Qed.
Lemma uni_count n u : valid_uni zero n u -> ix_size (u_rel u) (-1) = Ok (Z.of_nat n).
Proof.
  intros [Vr Vo Vc _ _ _]. destruct (o_offsets (u_rel u)) as [[|o os]|] eqn:Eo.
  - cbn in Eo. unfold ix_size. cbn [Z.eqb Pos.eqb]. cbn [u_rel o_offsets o_indices]. rewrite Eo. cbn [present].
    destruct Vc as [[_ X]|[X _]]; [|congruence]. rewrite (X Eo). cbn [present]. pose proof (v_offsets _ Vr [] Eo) as E. rewrite <- Vo, <- E. reflexivity.
  - rewrite ix_count_law; [rewrite Vo; reflexivity|exact Vr|]. left. eexists. split; [exact Eo|discriminate].
  - rewrite ix_count_law; [rewrite Vo; reflexivity|exact Vr|]. right. split; [exact Eo|].
    destruct Vc as [[X _]|[_ X]]; [exfalso; apply X; exact Eo|exact X].
Qed.
Lemma slots_of_ok n u vals e : valid_uni zero n u -> length vals = length (u_ids u) -> (e < n)%nat ->
  slots_of u vals (Z.of_nat e) = Ok (map (fun s => (Z.of_nat e, s)) (uslots zero u vals e)).
Proof.
  intros Vu Lv He. pose proof (vu_rel _ _ _ Vu) as Vr. pose proof (vu_ones _ _ _ Vu) as Vo. unfold slots_of.
  rewrite ix_size_law by (exact Vr || lia). cbn [obind]. unfold uslots, group. rewrite !map_map. apply omapM_nat.
  intros k Hk. unfold slot. rewrite ix_index_law by (exact Vr || exact Hk || lia). cbn [obind].
  destruct (v_in _ Vr e k ltac:(lia) Hk) as (_ & _ & B). inversion_clear B as [|? ? B1 _]. cbn [snd u_rel o_data] in B1. unfold zlen in B1.
  set (p := position _ e k) in *. rewrite (get_in vals p zero) by lia. cbn [obind]. rewrite (get_in (u_ids u) p 0) by lia. reflexivity.
Qed.
Lemma all_slots_ok n u vals : valid_uni zero n u -> length vals = length (u_ids u) -> all_slots u vals = Ok (slots n u vals).
Proof.
  intros Vu Lv. unfold all_slots. rewrite (uni_count n u Vu). cbn [obind]. erewrite omapM_nat; [cbn [obind]; reflexivity|].
  intros e He. apply (slots_of_ok n); assumption.
Qed.
(** the ids of a slot do not depend on the values *)
Lemma uslots_fst u vals vals' e : map fst (uslots zero u vals e) = map fst (uslots zero u vals' e).
Proof. unfold uslots. rewrite !map_map. reflexivity. Qed.
Lemma uslots_nodup n u vals e : valid_uni zero n u -> (e < n)%nat -> NoDup (map fst (uslots zero u vals e)).
Proof. intros Vu He. rewrite (uslots_fst u vals (u_vals u)). apply (vu_ids _ _ _ Vu e He). Qed.
Lemma uslots_known n u vals e id v : valid_uni zero n u -> (e < n)%nat -> In (id, v) (uslots zero u vals e) -> exists k, In (k, id) (u_map u).
Proof.
  intros Vu He I. apply (in_map fst) in I. rewrite (uslots_fst u vals (u_vals u)) in I. apply (vu_ids _ _ _ Vu e He) in I.
  apply in_map_iff in I. destruct I as ([k i] & E & I). cbn in E. subst i. eauto.
Qed.

(** writing the slots into the arrays *)
Section Put.
Variable rm : list (Z * str).
Variable n : nat.
Definition sname (s : Z * (Z * V)) : str := name_of rm (fst (snd s)).
Lemma mset_keys_same {A} (m : list (str * A)) k v : In k (map fst m) -> map fst (mset m k v) = map fst m.
Proof.
  induction m as [|[a b] m IH]; cbn [map fst In mset]; [tauto|]. intros I. destruct (str_eqb_spec k a) as [-> |N]; [reflexivity|].
  cbn [map fst]. rewrite IH; [reflexivity|]. destruct I as [E|I]; [congruence|exact I].
Qed.
Lemma put_fold l : forall acc, valid_full n acc ->
  Forall (fun s => (exists e, fst s = Z.of_nat e /\ (e < n)%nat) /\ In (sname s) (map fst acc)) l ->
  exists r, ofold (put_full rm) l acc = Ok r /\ valid_full n r /\ map fst r = map fst acc /\
    (forall k e, (forall id v, In (Z.of_nat e, (id, v)) l -> name_of rm id <> k) -> full_at r k e = full_at acc k e) /\
    (NoDup (map (fun s => (fst s, sname s)) l) -> forall e id v, In (Z.of_nat e, (id, v)) l -> full_at r (name_of rm id) e = Some v).
Proof.
  induction l as [|[z [id v]] l IH]; intros acc Va F; cbn [ofold].
  - exists acc. split; [reflexivity|]. split; [exact Va|]. split; [reflexivity|]. split; [reflexivity|]. intros _ ? ? ? [].
  - inversion_clear F as [|? ? [(e & Ez & He) K] F']. cbn in Ez. subst z. unfold sname in K. cbn [fst snd] in K.
    set (k := name_of rm id) in *. destruct (mget acc k) as [c|] eqn:Ec; [|exfalso; apply mget_None_notin in Ec; exact (Ec K)].
    assert (Lc : length c = n). { destruct Va as [_ A]. rewrite Forall_forall in A. apply (A (k, c)), mget_In, Ec. }
    unfold put_full at 1. cbn [fst snd]. fold k. rewrite Ec, vput_ok by lia. cbn [obind].
    set (acc' := mset acc k (set_nth c e v)).
    assert (Ek : map fst acc' = map fst acc) by (apply mset_keys_same; exact K).
    assert (Va' : valid_full n acc').
    { split; [rewrite Ek; apply Va|]. apply Forall_forall. intros [k' c'] I.
      assert (M : mget acc' k' = Some c') by (apply mget_iff; [rewrite Ek; apply Va|exact I]). unfold acc' in M. rewrite mget_mset in M.
      destruct (str_eqb k' k).
      - injection M as <-. cbn [snd]. rewrite set_nth_len. exact Lc.
      - destruct Va as [_ A]. rewrite Forall_forall in A. apply (A (k', c')), mget_In, M. }
    destruct (IH acc' Va') as (r & R & Vr & Rk & R1 & R2).
    { eapply Forall_impl; [|exact F']. intros s [A B]. split; [exact A|rewrite Ek; exact B]. }
    exists r. split; [exact R|]. split; [exact Vr|]. split; [congruence|]. split.
    + intros k' e' Q. rewrite R1 by (intros; apply (Q id0 v0); right; assumption). unfold full_at, acc'. rewrite mget_mset.
      destruct (str_eqb_spec k' k) as [-> |Nk]; [|reflexivity]. rewrite Ec. apply set_nth_diff. intros <-.
      apply (Q id v); [left; reflexivity|reflexivity].
    + intros Nd e' id' v' [E|I].
      * injection E as E -> ->. apply Nat2Z.inj in E. subst e'. fold k. rewrite R1.
        -- unfold full_at, acc'. rewrite mget_mset_same. apply set_nth_same. lia.
        -- intros id0 v0 I Ek0. cbn [map] in Nd. inversion_clear Nd as [|? ? N1 _]. apply N1. apply in_map_iff.
           exists (Z.of_nat e, (id0, v0)). split; [|exact I]. unfold sname. cbn [fst snd]. rewrite Ek0. reflexivity.
      * apply R2; [|exact I]. inversion_clear Nd. assumption.
Qed.
End Put.
Lemma slots_pairs n u vals : valid_uni zero n u -> NoDup (map (fun s => (fst s, sname (reverse_map (u_map u)) s)) (slots n u vals)).
Proof.
  intros Vu. unfold slots. rewrite concat_map, map_map.
  assert (G : forall m s, (s + m <= n)%nat -> NoDup (concat (map (fun e => map (fun s => (fst s, sname (reverse_map (u_map u)) s)) (map (fun s => (Z.of_nat e, s)) (uslots zero u vals e))) (seq s m)))).
  { induction m as [|m IH]; intros s Hs; [constructor|]. cbn [seq map concat]. apply NoDup_app_intro.
    - rewrite map_map. cbn [fst]. pose proof (uslots_nodup n u vals s Vu ltac:(lia)) as N.
      pose proof (fun id v => uslots_known n u vals s id v Vu ltac:(lia)) as K.
      induction (uslots zero u vals s) as [|[id v] l IHl]; cbn [map] in *; constructor.
      + inversion_clear N as [|? ? N1 N2]. intros I. apply in_map_iff in I. destruct I as ([id' v'] & E & I). injection E as E.
        unfold sname in E. cbn [fst snd] in E. destruct (K id v ltac:(left; reflexivity)) as [k Kk]. destruct (K id' v' ltac:(right; exact I)) as [k' Kk'].
        rewrite (name_of_id _ k id (vu_numbers _ _ _ Vu) Kk), (name_of_id _ k' id' (vu_numbers _ _ _ Vu) Kk') in E. subst k'.
        assert (id = id'). { pose proof (mget_Some_In_nodup _ _ _ (vu_names _ _ _ Vu) Kk). pose proof (mget_Some_In_nodup _ _ _ (vu_names _ _ _ Vu) Kk'). congruence. }
        subst id'. apply N1. apply (in_map fst) in I. exact I.
      + inversion_clear N. apply IHl; [assumption|]. intros id' v' I. apply (K id' v'). right. exact I.
    - apply IH. lia.
    - intros x I J. apply in_map_iff in I. destruct I as (p & <- & I). apply in_map_iff in I. destruct I as (q & <- & I). cbn [fst] in J.
      apply in_concat in J. destruct J as (l & Jl & J). apply in_map_iff in Jl. destruct Jl as (e & <- & Je). apply in_seq in Je.
      apply in_map_iff in J. destruct J as (p' & E & J). apply in_map_iff in J. destruct J as (q' & <- & J). cbn [fst] in E. injection E as E _. lia. }
  apply G. lia.
Qed.
Lemma start_spec (rm : list (Z * str)) n : forall acc : full, valid_full n acc ->
  let r := fold_left (fun acc c => mset acc (snd c) (repeat zero n)) rm acc in
  valid_full n r /\ (forall k, In k (map fst r) <-> In k (map fst acc) \/ In k (map snd rm)) /\
  (forall k c, mget r k = Some c -> mget acc k = Some c \/ c = repeat zero n).
Proof.
  induction rm as [|[i k] rm IH]; intros acc Va; cbn [fold_left].
  - split; [exact Va|]. split; [intros; cbn; tauto|auto].
  - assert (Va' : valid_full n (mset acc (snd (i, k)) (repeat zero n))).
    { split; [apply nodup_mset, Va|]. apply Forall_forall. intros [k' c'] I.
      assert (M : mget (mset acc k (repeat zero n)) k' = Some c') by (apply mget_iff; [apply nodup_mset, Va|exact I]). rewrite mget_mset in M.
      destruct (str_eqb k' k).
      - injection M as <-. apply repeat_length.
      - destruct Va as [_ A]. rewrite Forall_forall in A. apply (A (k', c')), mget_In, M. }
    destruct (IH _ Va') as (A & B & C). split; [exact A|]. split.
    + intros k'. rewrite B, in_keys_mset. cbn [map snd In]. intuition congruence.
    + intros k' c' M. apply C in M. destruct M as [M|M]; [|tauto]. cbn [snd] in M. rewrite mget_mset in M.
      destruct (str_eqb k' k); [|tauto]. injection M as <-. tauto.
Qed.
Lemma valid_by_name n (f : full) : valid_full n f -> valid_full n (by_name f).
Proof.
  intros [N F]. split; [apply by_name_nodup, N|]. rewrite Forall_forall in *. intros c I. apply F.
  eapply Permutation_in; [apply by_name_perm|exact I].
Qed.
Lemma full_at_by_name (f : full) k e : NoDup (map fst f) -> full_at (by_name f) k e = full_at f k e.
Proof. intros N. unfold full_at. rewrite mget_by_name by exact N. reflexivity. Qed.
Lemma nth_repeat_error {A} (x : A) n i : (i < n)%nat -> nth_error (repeat x n) i = Some x.
Proof. revert i. induction n as [|n IH]; intros [|i] H; cbn [repeat nth_error]; try lia; [reflexivity|]. apply IH. lia. Qed.
Theorem uni_to_full_law n u vals : valid_uni zero n u -> length vals = length (u_ids u) -> exists f,
  uni_to_full zero u vals = Ok f /\ valid_full n f /\ (forall k, In k (map fst f) <-> In k (map fst (u_map u))) /\
  forall k e, full_at f k e = uni_at zero u vals k e.
Proof.
  intros Vu Lv. unfold uni_to_full. rewrite (uni_count n u Vu). cbn [obind]. rewrite (all_slots_ok n) by assumption. cbn [obind]. rewrite Nat2Z.id.
  destruct (start_spec (reverse_map (u_map u)) n []) as (S1 & S2 & S3); [split; constructor|].
  set (start := fold_left _ (reverse_map (u_map u)) []) in *.
  assert (Sk : forall k, In k (map fst start) <-> In k (map fst (u_map u))).
  { intros k. rewrite S2. split.
    - intros [[]|I]. apply in_map_iff in I. destruct I as ([i k'] & E & I). cbn in E. subst k'. apply reverse_In in I. apply (in_map fst) in I. exact I.
    - intros I. right. apply in_map_iff in I. destruct I as ([k' i] & E & I). cbn in E. subst k'.
      apply (reverse_get _ _ _ (vu_numbers _ _ _ Vu)) in I. apply zget_In in I. apply (in_map snd) in I. exact I. }
  assert (NK : forall s, In s (slots n u vals) -> exists e k, fst s = Z.of_nat e /\ (e < n)%nat /\ In (k, fst (snd s)) (u_map u) /\ name_of (reverse_map (u_map u)) (fst (snd s)) = k).
  { intros [z [id v]] I. apply slots_In in I. destruct I as (e & -> & He & I). destruct (uslots_known n u vals e id v Vu He I) as [k K].
    exists e, k. cbn [fst snd]. repeat split; [exact He|exact K|]. apply name_of_id; [apply Vu|exact K]. }
  destruct (put_fold (reverse_map (u_map u)) n (slots n u vals) start S1) as (r & R & Vr & Rk & R1 & R2).
  { apply Forall_forall. intros s I. destruct (NK s I) as (e & k & E1 & E2 & E3 & E4). split; [eauto|]. unfold sname. rewrite E4. apply Sk.
    apply (in_map fst) in E3. exact E3. }
  specialize (R2 (slots_pairs n u vals Vu)). rewrite R. cbn [obind]. exists (by_name r).
  split; [reflexivity|]. split; [apply valid_by_name, Vr|]. split.
  { intros k. rewrite <- Sk, <- Rk. split; apply Permutation_in; [|symmetry]; apply Permutation_map, by_name_perm. }
  intros k e. rewrite full_at_by_name by apply Vr. unfold uni_at. destruct (mget (u_map u) k) as [id|] eqn:Ek.
  2:{ unfold full_at. assert (M : mget r k = None); [|rewrite M; reflexivity]. apply mget_None_notin. rewrite Rk, Sk. apply mget_None_notin, Ek. }
  apply mget_In in Ek. assert (Nk := name_of_id _ k id (vu_numbers _ _ _ Vu) Ek). rewrite (vu_ones _ _ _ Vu).
  destruct (Nat.ltb_spec e n) as [He|He].
  2:{ unfold full_at. destruct (mget r k) as [c|] eqn:Ec; [|reflexivity]. apply nth_error_None. destruct Vr as [_ A]. rewrite Forall_forall in A.
      apply mget_In in Ec. specialize (A _ Ec). cbn in A. lia. }
  destruct (zget (uslots zero u vals e) id) as [v|] eqn:Z; cbn [cell].
  - apply zget_In in Z. rewrite <- Nk. apply R2. apply slots_In. exists e. auto.
  - rewrite R1.
    + unfold full_at. assert (I : In k (map fst start)) by (apply Sk; apply (in_map fst) in Ek; exact Ek).
      destruct (mget start k) as [c|] eqn:Ec; [|exfalso; apply mget_None_notin in Ec; exact (Ec I)].
      apply S3 in Ec. destruct Ec as [Ec| ->]; [discriminate Ec|]. apply nth_repeat_error, He.
    + intros id' v' I N'. apply slots_In in I. destruct I as (i & E & Hi & I). apply Nat2Z.inj in E. subst i.
      destruct (uslots_known n u vals e id' v' Vu He I) as [k' K']. rewrite (name_of_id _ k' id' (vu_numbers _ _ _ Vu) K') in N'. subst k'.
      assert (id' = id). { pose proof (mget_Some_In_nodup _ _ _ (vu_names _ _ _ Vu) Ek). pose proof (mget_Some_In_nodup _ _ _ (vu_names _ _ _ Vu) K'). congruence. }
      subst id'. apply zget_None in Z. apply Z. apply (in_map fst) in I. exact I.
Qed.

Lemma push_fold {S A} (nm : S -> str) (g : S -> A) l : forall acc k,
  mget (fold_left (fun acc s => push acc (nm s) (g s)) l acc) k =
  match filter (fun s => str_eqb (nm s) k) l with
  | [] => mget acc k
  | F => Some (or_nil (mget acc k) ++ map g F)
  end.
Proof.
  induction l as [|s l IH]; intros acc k; cbn [fold_left filter]; [reflexivity|]. rewrite IH. unfold push. rewrite mget_mset.
  destruct (str_eqb_spec k (nm s)) as [-> |N].
  - rewrite str_eqb_refl. destruct (filter _ l) as [|x F]; cbn [map or_nil]; [reflexivity|]. rewrite <- app_assoc. reflexivity.
  - destruct (str_eqb_spec (nm s) k); [congruence|]. reflexivity.
Qed.
Lemma push_nodup {S A} (nm : S -> str) (g : S -> A) l : forall acc, NoDup (map fst acc) -> NoDup (map fst (fold_left (fun acc s => push acc (nm s) (g s)) l acc)).
Proof. induction l as [|s l IH]; intros acc N; cbn [fold_left]; [exact N|]. apply IH. unfold push. apply nodup_mset, N. Qed.

Definition of_name (n : nat) (u : uni) (vals : list V) (k : str) : list (Z * (Z * V)) :=
  filter (fun s => str_eqb (name_of (reverse_map (u_map u)) (fst (snd s))) k) (slots n u vals).
Lemma of_name_In n u vals k e v : valid_uni zero n u ->
  (exists id, In (e, (id, v)) (of_name n u vals k)) <->
  exists i id, e = Z.of_nat i /\ (i < n)%nat /\ mget (u_map u) k = Some id /\ In (id, v) (uslots zero u vals i).
Proof.
  intros Vu. unfold of_name. split.
  - intros (id & I). apply filter_In in I. destruct I as [I N]. cbn [fst snd] in N. apply slots_In in I. destruct I as (i & -> & Hi & I).
    destruct (uslots_known n u vals i id v Vu Hi I) as [k' K]. rewrite (name_of_id _ k' id (vu_numbers _ _ _ Vu) K) in N.
    destruct (str_eqb_spec k' k) as [E|]; [|discriminate N]. subst k'. exists i, id. repeat split; [exact Hi| |exact I].
    apply mget_Some_In_nodup; [apply Vu|exact K].
  - intros (i & id & -> & Hi & K & I). exists id. apply filter_In. split; [apply slots_In; eauto|]. cbn [fst snd].
    rewrite (name_of_id _ k id (vu_numbers _ _ _ Vu) (mget_In _ _ _ K)). apply str_eqb_refl.
Qed.
Lemma of_name_once n u vals k : valid_uni zero n u -> NoDup (map fst (of_name n u vals k)).
Proof.
  intros Vu. pose proof (slots_pairs n u vals Vu) as N. unfold of_name. induction (slots n u vals) as [|s l IH]; [constructor|].
  cbn [map] in N. inversion_clear N as [|? ? N1 N2]. cbn [filter]. destruct (str_eqb_spec (name_of (reverse_map (u_map u)) (fst (snd s))) k) as [E|E]; [|auto].
  cbn [map]. constructor; [|auto]. intros I. apply N1. apply in_map_iff in I. destruct I as (s' & E' & I). apply filter_In in I. destruct I as [I K].
  apply in_map_iff. exists s'. split; [|exact I]. rewrite E'. f_equal. unfold sname.
  destruct (str_eqb_spec (name_of (reverse_map (u_map u)) (fst (snd s'))) k); congruence.
Qed.
Lemma of_name_occurs n u vals k : valid_uni zero n u -> of_name n u vals k <> [] <-> occurs zero n u k.
Proof.
  intros Vu. split.
  - intros H. destruct (of_name n u vals k) as [|[e [id v]] F] eqn:E; [congruence|].
    destruct (proj1 (of_name_In n u vals k e v Vu)) as (i & id' & -> & Hi & K & I); [exists id; rewrite E; left; reflexivity|].
    exists i, id'. repeat split; [exact Hi|exact K|]. apply (in_map fst) in I. rewrite (uslots_fst u vals (u_vals u)) in I. exact I.
  - intros (e & id & He & K & I) E. rewrite (uslots_fst u (u_vals u) vals) in I. apply in_map_iff in I. destruct I as ([id' v] & E' & I). cbn in E'. subst id'.
    destruct (proj2 (of_name_In n u vals k (Z.of_nat e) v Vu)) as [id' I']; [exists e, id; auto|]. rewrite E in I'. exact I'.
Qed.
Lemma combine_maps {S A B} (f : S -> A) (g : S -> B) l : combine (map f l) (map g l) = map (fun s => (f s, g s)) l.
Proof. induction l as [|s l IH]; [reflexivity|]. cbn [map combine]. rewrite IH. reflexivity. Qed.
Theorem uni_to_sbm_law n u vals : valid_uni zero n u -> length vals = length (u_ids u) -> exists b,
  uni_to_sbm u vals = Ok b /\ valid_sbm n (s_eids b) (s_vals b) /\
  (forall k, In k (map fst (s_eids b)) <-> occurs zero n u k) /\
  (forall k e, occurs zero n u k -> sbm_at zero n (s_eids b) (s_vals b) k e = uni_at zero u vals k e).
Proof.
  intros Vu Lv. unfold uni_to_sbm. rewrite (all_slots_ok n) by assumption. cbn [obind]. eexists. split; [reflexivity|].
  cbn [s_eids s_vals]. set (nm := fun s : Z * (Z * V) => name_of (reverse_map (u_map u)) (fst (snd s))).
  set (me := fold_left _ (slots n u vals) (@nil (str * list Z))). set (mv := fold_left _ (slots n u vals) (@nil (str * list V))).
  assert (Ne : NoDup (map fst me)) by (apply (push_nodup nm fst); constructor).
  assert (Nv : NoDup (map fst mv)) by (apply (push_nodup nm (fun s => snd (snd s))); constructor).
  assert (Ge : forall k, mget (by_name me) k = match of_name n u vals k with [] => None | F => Some (map fst F) end).
  { intros k. rewrite mget_by_name by exact Ne. unfold me. rewrite (push_fold nm fst). fold (of_name n u vals k). reflexivity. }
  assert (Gv : forall k, mget (by_name mv) k = match of_name n u vals k with [] => None | F => Some (map (fun s => snd (snd s)) F) end).
  { intros k. rewrite mget_by_name by exact Nv. unfold mv. rewrite (push_fold nm (fun s => snd (snd s))). reflexivity. }
  assert (Ke : forall k, In k (map fst (by_name me)) <-> of_name n u vals k <> []).
  { intros k. specialize (Ge k). destruct (of_name n u vals k).
    - apply mget_None_notin in Ge. split; [intros I; exfalso; exact (Ge I)|congruence].
    - apply mget_In in Ge. apply (in_map fst) in Ge. split; [discriminate|intros _; exact Ge]. }
  assert (Kv : forall k, In k (map fst (by_name mv)) <-> of_name n u vals k <> []).
  { intros k. specialize (Gv k). destruct (of_name n u vals k).
    - apply mget_None_notin in Gv. split; [intros I; exfalso; exact (Gv I)|congruence].
    - apply mget_In in Gv. apply (in_map fst) in Gv. split; [discriminate|intros _; exact Gv]. }
  apply by_name_nodup in Ne. apply by_name_nodup in Nv. split; [|split].
  - constructor.
    + split; assumption.
    + intros k. rewrite Ke, Kv. reflexivity.
    + intros k es vs E1 E2. rewrite Ge in E1. rewrite Gv in E2. destruct (of_name n u vals k); [discriminate|]. injection E1 as <-. injection E2 as <-.
      cbn [length]. rewrite !map_length. reflexivity.
    + apply Forall_forall. intros [k es] I. apply (mget_Some_In_nodup _ _ _ Ne) in I. rewrite Ge in I. pose proof (of_name_once n u vals k Vu) as O.
      destruct (of_name n u vals k); [discriminate|]. injection I as <-. exact O.
    + apply Forall_forall. intros [k es] I. apply (mget_Some_In_nodup _ _ _ Ne) in I. rewrite Ge in I.
      assert (E : es = map fst (of_name n u vals k)) by (destruct (of_name n u vals k); [discriminate|injection I as <-; reflexivity]). subst es. cbn [snd].
      apply Forall_forall. intros z J. apply in_map_iff in J. destruct J as ([z' [id v]] & Ez & J). cbn in Ez. subst z'.
      destruct (proj1 (of_name_In n u vals k z v Vu)) as (i & id' & -> & Hi & _); [eauto|]. lia.
  - intros k. rewrite Ke. apply of_name_occurs, Vu.
  - intros k e Oc. pose proof (proj2 (of_name_occurs n u vals k Vu) Oc) as NE. destruct Oc as (_ & id & _ & K & _).
    unfold sbm_at, uni_at. rewrite Ge, Gv, K, (vu_ones _ _ _ Vu).
    destruct (of_name n u vals k) as [|x F] eqn:EF; [congruence|]. rewrite <- EF. destruct (Nat.ltb_spec e n) as [He|]; [|reflexivity]. f_equal. f_equal. rewrite combine_maps.
    apply zget_char.
    + rewrite map_map. cbn [fst]. apply of_name_once, Vu.
    + intros v. rewrite in_map_iff. split.
      * intros ([z [id' w]] & E & I). cbn [fst snd] in E. injection E as -> ->.
        destruct (proj1 (of_name_In n u vals k (Z.of_nat e) v Vu)) as (i & id2 & E & Hi & K2 & J); [eauto|]. apply Nat2Z.inj in E. subst i.
        rewrite K in K2. injection K2 as <-. apply zget_nodup; [apply (uslots_nodup n); assumption|exact J].
      * intros Z. apply zget_In in Z. destruct (proj2 (of_name_In n u vals k (Z.of_nat e) v Vu)) as [id' I]; [exists e, id; auto|].
        exists (Z.of_nat e, (id', v)). split; [reflexivity|exact I].
Qed.
(** the element ids do not depend on the values *)
Lemma uni_to_sbm_eids n u vals vals' b b' : valid_uni zero n u -> length vals = length (u_ids u) -> length vals' = length (u_ids u) ->
  uni_to_sbm u vals = Ok b -> uni_to_sbm u vals' = Ok b' -> s_eids b = s_eids b'.
Proof.
  intros Vu L1 L2. unfold uni_to_sbm. rewrite !(all_slots_ok n) by assumption. cbn [obind]. intros E1 E2. injection E1 as <-. injection E2 as <-. cbn [s_eids].
  f_equal.
  assert (M : map (fun s : Z * (Z * V) => (fst s, fst (snd s))) (slots n u vals) = map (fun s => (fst s, fst (snd s))) (slots n u vals')).
  { unfold slots. rewrite !concat_map, !map_map. f_equal. apply map_ext. intros e. rewrite !map_map. unfold uslots. rewrite !map_map. reflexivity. }
  revert M. generalize (slots n u vals') (@nil (str * list Z)). induction (slots n u vals) as [|s l IH]; intros [|s' l'] acc M; try discriminate M; [reflexivity|].
  cbn [map] in M. injection M as M1 M2 M. cbn [fold_left]. rewrite M1, M2. apply IH, M.
Qed.

(** * Full to sparse by material *)
Fixpoint sifted (i : nat) (vf fv : list V) : list (Z * V) :=
  match vf with
  | [] => []
  | v :: r => if above v then (Z.of_nat i, nth i fv zero) :: sifted (S i) r fv else sifted (S i) r fv
  end.
Lemma sift_ok vf fv : forall i, (i + length vf <= length fv)%nat -> sift above (Z.of_nat i) vf fv = Ok (sifted i vf fv).
Proof.
  induction vf as [|v r IH]; intros i H; [reflexivity|]. cbn [length] in H. cbn [sift sifted].
  replace (Z.of_nat i + 1) with (Z.of_nat (S i)) by lia. rewrite IH by lia. cbn [obind].
  destruct (above v); [|reflexivity]. rewrite (get_in fv _ zero) by lia. rewrite Nat2Z.id. reflexivity.
Qed.
Lemma sifted_In vf fv : forall i z w, In (z, w) (sifted i vf fv) <->
  exists j v, z = Z.of_nat (i + j) /\ nth_error vf j = Some v /\ above v = true /\ w = nth (i + j) fv zero.
Proof.
  induction vf as [|v r IH]; intros i z w; cbn [sifted].
  - split; [intros []|]. intros (j & v & _ & E & _). destruct j; discriminate E.
  - assert (X : In (z, w) (sifted (S i) r fv) <-> exists j v', z = Z.of_nat (i + S j) /\ nth_error r j = Some v' /\ above v' = true /\ w = nth (i + S j) fv zero).
    { rewrite IH. split; intros (j & v' & A); exists j, v'; replace (i + S j)%nat with (S i + j)%nat in * by lia; exact A. }
    split.
    + intros H. assert (D : (above v = true /\ (z, w) = (Z.of_nat i, nth i fv zero)) \/ In (z, w) (sifted (S i) r fv)).
      { destruct (above v); [destruct H as [H|H]; [left; split; [reflexivity|congruence]|right; exact H]|right; exact H]. }
      destruct D as [[A E]|I].
      * injection E as -> ->. exists 0%nat, v. rewrite Nat.add_0_r. repeat split; auto.
      * apply X in I. destruct I as (j & v' & A). exists (S j), v'. exact A.
    + intros ([|j] & v' & -> & E & A & ->).
      * cbn in E. injection E as ->. rewrite A, Nat.add_0_r. left. reflexivity.
      * assert (I : In (Z.of_nat (i + S j), nth (i + S j) fv zero) (sifted (S i) r fv)) by (apply X; exists j, v'; auto).
        destruct (above v); [right|]; exact I.
Qed.
Lemma sifted_nodup vf fv : forall i, NoDup (map fst (sifted i vf fv)).
Proof.
  induction vf as [|v r IH]; intros i; cbn [sifted]; [constructor|]. destruct (above v); [|apply IH]. cbn [map fst]. constructor; [|apply IH].
  intros I. apply in_map_iff in I. destruct I as ([z w] & E & I). cbn in E. subst z. apply sifted_In in I. destruct I as (j & _ & E & _). lia.
Qed.
Lemma sifted_fst vf fv fv' : forall i, map fst (sifted i vf fv) = map fst (sifted i vf fv').
Proof. induction vf as [|v r IH]; intros i; cbn [sifted]; [reflexivity|]. destruct (above v); cbn [map fst]; [f_equal|]; apply IH. Qed.
Lemma combine_split {A B} (l : list (A * B)) : combine (map fst l) (map snd l) = l.
Proof. rewrite combine_maps. induction l as [|[a b] l IH]; [reflexivity|]. cbn [map fst snd]. rewrite IH. reflexivity. Qed.

Definition sieved (f vals : full) : list (str * list (Z * V)) :=
  map (fun p => (fst (fst p), sifted 0 (snd (fst p)) (snd (snd p)))) (combine f vals).
Definition eids_of (f : full) : list (str * list Z) := map (fun c => (fst c, map fst (snd c))) (sieved f f).
Definition vals_of (f vals : full) : full := map (fun c => (fst c, map snd (snd c))) (sieved f vals).
Lemma sieved_keys f : forall vals, map fst f = map fst vals -> map fst (sieved f vals) = map fst f.
Proof.
  unfold sieved. induction f as [|x f IH]; intros [|y vals] E; try discriminate E; [reflexivity|]. cbn [combine map fst] in *. injection E as _ E.
  rewrite (IH _ E). reflexivity.
Qed.
Lemma sieved_get f : forall vals k c w, map fst f = map fst vals -> mget f k = Some c -> mget vals k = Some w -> mget (sieved f vals) k = Some (sifted 0 c w).
Proof.
  unfold sieved. induction f as [|[k1 c1] f IH]; intros [|[k2 w2] vals] k c w E E1 E2; try discriminate. cbn [combine map fst snd mget] in *. injection E as -> E.
  destruct (str_eqb k k2); [congruence|]. apply IH; assumption.
Qed.
Lemma eids_keys f : map fst (eids_of f) = map fst f.
Proof. unfold eids_of. rewrite map_map. cbn [fst]. apply sieved_keys. reflexivity. Qed.
Lemma vals_keys f vals : map fst f = map fst vals -> map fst (vals_of f vals) = map fst f.
Proof. intros E. unfold vals_of. rewrite map_map. cbn [fst]. apply sieved_keys, E. Qed.
Lemma mget_map_val {A B} (g : A -> B) (l : list (str * A)) k : mget (map (fun c => (fst c, g (snd c))) l) k = option_map g (mget l k).
Proof. induction l as [|[a b] l IH]; [reflexivity|]. cbn [map fst snd mget]. destruct (str_eqb k a); [reflexivity|exact IH]. Qed.
Lemma full_to_sbm_ok n f : valid_full n f -> full_to_sbm above f = Ok (mkSbm (vals_of f f) (eids_of f)).
Proof.
  intros [_ F]. unfold full_to_sbm. assert (E : omapM (fun c : str * list V => do s <- sift above 0 (snd c) (snd c); Ok (fst c, s)) f = Ok (sieved f f)).
  { unfold sieved. induction f as [|[k c] f IH]; [reflexivity|]. inversion_clear F. rewrite omapM_cons. cbn [fst snd]. change 0 with (Z.of_nat 0) at 1. rewrite sift_ok by lia. cbn [obind].
    rewrite IH by assumption. reflexivity. }
  rewrite E. reflexivity.
Qed.
Lemma full_to_sbm_field_ok n f : forall vals, valid_full n f -> valid_full n vals -> map fst f = map fst vals -> full_to_sbm_field above f vals = Ok (vals_of f vals).
Proof.
  intros vals [_ F1] [_ F2]. revert vals F2. unfold vals_of, sieved. induction f as [|[k c] f IH]; intros [|[k' w] vals] F2 E; try discriminate E; [reflexivity|].
  cbn [map fst] in E. injection E as <- E. inversion_clear F1 as [|? ? L1 F1']. inversion_clear F2 as [|? ? L2 F2']. cbn [fst snd] in L1, L2.
  cbn [full_to_sbm_field]. rewrite str_eqb_refl. change 0 with (Z.of_nat 0). rewrite sift_ok by lia. cbn [obind]. rewrite IH by assumption. reflexivity.
Qed.
Lemma mget_same_keys {A B} (l : list (str * A)) (l' : list (str * B)) k a : map fst l = map fst l' -> mget l k = Some a -> exists b, mget l' k = Some b.
Proof.
  intros E M. destruct (mget l' k) as [b|] eqn:Eb; [eauto|]. apply mget_None_notin in Eb. exfalso. apply Eb. rewrite <- E. apply mget_In in M.
  apply (in_map fst) in M. exact M.
Qed.
Lemma sieved_at n f vals k e : valid_full n f -> valid_full n vals -> map fst f = map fst vals ->
  sbm_at zero n (eids_of f) (vals_of f vals) k e = masked zero above f vals k e.
Proof.
  intros F1 F2 E. unfold sbm_at, masked, full_at. destruct (mget f k) as [c|] eqn:Ec.
  2:{ assert (M : mget (eids_of f) k = None) by (apply mget_None_notin; rewrite eids_keys; apply mget_None_notin; exact Ec). rewrite M. reflexivity. }
  destruct (mget_same_keys _ _ _ _ E Ec) as [w Ew]. unfold eids_of, vals_of. rewrite !mget_map_val.
  rewrite (sieved_get f f k c c eq_refl Ec Ec), (sieved_get f vals k c w E Ec Ew), Ew. cbn [option_map].
  assert (Lc : length c = n). { destruct F1 as [_ F]. rewrite Forall_forall in F. apply (F (k, c)), mget_In, Ec. }
  assert (Lw : length w = n). { destruct F2 as [_ F]. rewrite Forall_forall in F. apply (F (k, w)), mget_In, Ew. }
  destruct (Nat.ltb_spec e n) as [He|He].
  2:{ rewrite (proj2 (nth_error_None c e)) by lia. reflexivity. }
  destruct (nth_error_in c e) as [v Ev]; [lia|]. destruct (nth_error_in w e) as [x Ex]; [lia|]. rewrite Ev, Ex. f_equal.
  rewrite (sifted_fst c c w), combine_split. erewrite (zget_char _ _ (if above v then Some x else None)).
  - destruct (above v); reflexivity.
  - apply sifted_nodup.
  - intros y. rewrite sifted_In. cbn [Nat.add]. split.
    + intros (j & v' & Ej & E1 & E2 & ->). apply Nat2Z.inj in Ej. subst j. rewrite Ev in E1. injection E1 as <-. rewrite E2.
      f_equal. symmetry. apply nth_error_nth. exact Ex.
    + intros Y. destruct (above v) eqn:Ea; [|discriminate Y]. injection Y as <-. exists e, v. repeat split; [exact Ev|exact Ea|]. symmetry. apply nth_error_nth. exact Ex.
Qed.
Lemma sieved_valid n f vals : valid_full n f -> valid_full n vals -> map fst f = map fst vals -> valid_sbm n (eids_of f) (vals_of f vals).
Proof.
  intros F1 F2 E. constructor.
  - rewrite eids_keys, vals_keys by exact E. split; apply F1.
  - intros k. rewrite eids_keys, vals_keys by exact E. reflexivity.
  - intros k es vs M1 M2. unfold eids_of, vals_of in M1, M2. rewrite mget_map_val in M1. rewrite mget_map_val in M2.
    assert (I : In k (map fst f)). { rewrite <- (sieved_keys f f eq_refl). destruct (mget (sieved f f) k) as [s|] eqn:Es; [|discriminate M1]. apply mget_In in Es. apply (in_map fst) in Es. exact Es. }
    destruct (mget f k) as [c|] eqn:Ec; [|exfalso; apply mget_None_notin in Ec; exact (Ec I)].
    destruct (mget_same_keys _ _ _ _ E Ec) as [w Ew].
    rewrite (sieved_get f f k c c eq_refl Ec Ec) in M1. rewrite (sieved_get f vals k c w E Ec Ew) in M2. injection M1 as <-. injection M2 as <-.
    rewrite (sifted_fst c c w), !map_length. reflexivity.
  - apply Forall_forall. intros [k es] I. unfold eids_of in I. rewrite in_map_iff in I. destruct I as ([k' s] & Ek & I). injection Ek as -> <-. cbn [snd].
    unfold sieved in I. apply in_map_iff in I. destruct I as (p & Ep & _). injection Ep as _ <-. apply sifted_nodup.
  - apply Forall_forall. intros [k es] I. unfold eids_of in I. rewrite in_map_iff in I. destruct I as ([k' s] & Ek & I). injection Ek as -> <-. cbn [snd].
    unfold sieved in I. apply in_map_iff in I. destruct I as (p & Ep & I). injection Ep as _ <-. apply Forall_forall. intros z J. apply in_map_iff in J.
    destruct J as ([z' w] & Ez & J). cbn in Ez. subst z'. apply sifted_In in J. destruct J as (j & v & -> & Ej & _). cbn [Nat.add].
    assert (j < length (snd (fst p)))%nat by (apply nth_error_Some; congruence).
    destruct p as [c1 c2]. apply in_combine_l in I. destruct F1 as [_ F]. rewrite Forall_forall in F. specialize (F _ I). cbn [fst] in H. lia.
Qed.
Theorem full_to_sbm_law n f : valid_full n f -> exists b, full_to_sbm above f = Ok b /\
  valid_sbm n (s_eids b) (s_vals b) /\ map fst (s_eids b) = map fst f /\
  (forall k e, sbm_at zero n (s_eids b) (s_vals b) k e = option_map (cut zero above) (full_at f k e)) /\
  (forall vals, valid_full n vals -> map fst f = map fst vals -> exists w, full_to_sbm_field above f vals = Ok w /\
     valid_sbm n (s_eids b) w /\ forall k e, sbm_at zero n (s_eids b) w k e = masked zero above f vals k e).
Proof.
  intros F. eexists. split; [apply (full_to_sbm_ok n), F|]. cbn [s_eids s_vals]. split; [apply sieved_valid; auto|]. split; [apply eids_keys|]. split.
  - intros k e. rewrite sieved_at by auto. apply masked_self.
  - intros vals F2 E. exists (vals_of f vals). split; [apply (full_to_sbm_field_ok n); assumption|]. split; [apply sieved_valid; assumption|].
    intros k e. apply sieved_at; assumption.
Qed.

(** * Sparse by material to the others *)
Lemma rep_fold1 (eids : list (str * list Z)) : forall acc, NoDup (map fst eids) ->
  let r := fold_left (fun acc c => mset acc (fst c) (snd c, @nil V)) eids acc in
  forall k, mget r k = match mget eids k with Some es => Some (es, []) | None => mget acc k end.
Proof.
  induction eids as [|[a es] eids IH]; intros acc N; cbn [fold_left]; [reflexivity|]. cbn [map fst] in N. inversion_clear N as [|? ? N1 N2].
  intros k. cbv zeta in IH. rewrite IH by exact N2. cbn [mget fst snd]. rewrite mget_mset. destruct (str_eqb_spec k a) as [E|]; [|reflexivity]. subst k.
  apply mget_None_notin in N1. rewrite N1. reflexivity.
Qed.
Lemma rep_fold1_keys (eids : list (str * list Z)) : forall acc, NoDup (map fst acc ++ map fst eids) ->
  map fst (fold_left (fun acc c => mset acc (fst c) (snd c, @nil V)) eids acc) = map fst acc ++ map fst eids.
Proof.
  induction eids as [|[a es] eids IH]; intros acc N; cbn [fold_left map fst]; [rewrite app_nil_r; reflexivity|]. cbn [map fst snd] in *.
  assert (Na : ~ In a (map fst acc)). { intros I. apply NoDup_remove_2 in N. apply N. apply in_or_app. left. exact I. }
  assert (E : map fst (mset acc a (es, @nil V)) = map fst acc ++ [a]).
  { clear -Na. induction acc as [|[b x] acc IH]; [reflexivity|]. cbn [mset map fst In] in *. destruct (str_eqb_spec a b) as [->|]; [exfalso; auto|].
    cbn [map fst app]. rewrite IH by tauto. reflexivity. }
  rewrite IH; rewrite E, <- app_assoc; [reflexivity|exact N].
Qed.
Lemma rep_fold2 (vals : list (str * list V)) : forall acc : list (str * (list Z * list V)), NoDup (map fst vals) ->
  forall k, mget (fold_left (fun acc c => mset acc (fst c) (fst (match mget acc (fst c) with Some p => p | None => ([], []) end), snd c)) vals acc) k =
  match mget vals k with Some vs => Some (fst (match mget acc k with Some p => p | None => ([], []) end), vs) | None => mget acc k end.
Proof.
  induction vals as [|[a vs] vals IH]; intros acc N k; cbn [fold_left]; [reflexivity|]. cbn [map fst] in N. inversion_clear N as [|? ? N1 N2].
  rewrite IH by exact N2. cbn [mget fst snd]. rewrite mget_mset. destruct (str_eqb_spec k a) as [E|]; [|reflexivity]. subst k.
  apply mget_None_notin in N1. rewrite N1. reflexivity.
Qed.
Lemma rep_fold2_keys (vals : list (str * list V)) : forall acc : list (str * (list Z * list V)), incl (map fst vals) (map fst acc) ->
  map fst (fold_left (fun acc c => mset acc (fst c) (fst (match mget acc (fst c) with Some p => p | None => ([], []) end), snd c)) vals acc) = map fst acc.
Proof.
  induction vals as [|[a vs] vals IH]; intros acc I; cbn [fold_left]; [reflexivity|]. cbn [map fst snd] in *.
  assert (E : forall v, map fst (mset acc a v) = map fst acc) by (intros v; apply mset_keys_same, I; left; reflexivity).
  rewrite IH; [apply E|]. rewrite E. intros x J. apply I. right. exact J.
Qed.
Section Rep.
Variable n : nat.
Variable eids : list (str * list Z).
Variable vals : list (str * list V).
Hypothesis B : valid_sbm n eids vals.
Lemma rep_keys : map fst (sbm_rep eids vals) = map fst eids.
Proof.
  unfold sbm_rep. rewrite rep_fold2_keys; rewrite rep_fold1_keys by apply (vs_names _ _ _ B); [reflexivity|]. intros k I. apply (vs_same _ _ _ B), I.
Qed.
Lemma rep_get k : mget (sbm_rep eids vals) k = match mget eids k, mget vals k with Some es, Some vs => Some (es, vs) | _, _ => None end.
Proof.
  unfold sbm_rep. rewrite rep_fold2 by apply (vs_names _ _ _ B). rewrite rep_fold1 by apply (vs_names _ _ _ B). cbn [mget].
  destruct (mget vals k) as [vs|] eqn:Ev.
  - destruct (mget eids k) as [es|] eqn:Ee; [reflexivity|]. exfalso. apply mget_None_notin in Ee. apply Ee. apply (vs_same _ _ _ B).
    apply mget_In in Ev. apply (in_map fst) in Ev. exact Ev.
  - destruct (mget eids k) as [es|] eqn:Ee; [|reflexivity]. exfalso. apply mget_None_notin in Ev. apply Ev. apply (vs_same _ _ _ B).
    apply mget_In in Ee. apply (in_map fst) in Ee. exact Ee.
Qed.
Definition rep := by_name (sbm_rep eids vals).
Lemma rep_nodup : NoDup (map fst rep).
Proof. apply by_name_nodup. rewrite rep_keys. apply (vs_names _ _ _ B). Qed.
Lemma rep_mget k : mget rep k = match mget eids k, mget vals k with Some es, Some vs => Some (es, vs) | _, _ => None end.
Proof. unfold rep. rewrite mget_by_name by (rewrite rep_keys; apply (vs_names _ _ _ B)). apply rep_get. Qed.
Lemma rep_In k es vs : In (k, (es, vs)) rep <-> mget eids k = Some es /\ mget vals k = Some vs.
Proof.
  rewrite <- mget_iff by apply rep_nodup. rewrite rep_mget. destruct (mget eids k), (mget vals k); intuition congruence.
Qed.
Definition pairs (c : str * (list Z * list V)) : list (Z * V) := combine (fst (snd c)) (snd (snd c)).
Lemma map_fst_combine {A C} (a : list A) : forall b : list C, length a = length b -> map fst (combine a b) = a.
Proof. induction a as [|x a IH]; intros [|y b] E; try discriminate E; [reflexivity|]. cbn [combine map fst]. rewrite IH by (cbn in E; congruence). reflexivity. Qed.
Lemma rep_pairs c : In c rep -> length (fst (snd c)) = length (snd (snd c)) /\ NoDup (map fst (pairs c)) /\ Forall (fun p => 0 <= fst p < Z.of_nat n) (pairs c).
Proof.
  destruct c as [k [es vs]]. intros I. apply rep_In in I. destruct I as [E1 E2]. cbn [fst snd]. unfold pairs. cbn [fst snd].
  pose proof (vs_len _ _ _ B _ _ _ E1 E2) as Ln. apply mget_In in E1. split; [exact Ln|]. rewrite map_fst_combine by exact Ln. split.
  - pose proof (vs_once _ _ _ B) as O. rewrite Forall_forall in O. apply (O _ E1).
  - pose proof (vs_range _ _ _ B) as R. rewrite Forall_forall in R. specialize (R _ E1). cbn [snd] in R. rewrite Forall_forall in R.
    apply Forall_forall. intros [e v] I. apply R. apply in_combine_l in I. exact I.
Qed.
Lemma entries_ok (es : list Z) (vs : list V) : forall i, (i + length vs <= length es)%nat -> entries (Z.of_nat i) es vs = Ok (combine (skipn i es) vs).
Proof.
  induction vs as [|v vs IH]; intros i H; cbn [entries].
  - destruct (skipn i es); reflexivity.
  - cbn [length] in H. rewrite get_nat. destruct (nth_error_in es i) as [e Ee]; [lia|]. rewrite Ee. cbn [deref obind].
    replace (Z.of_nat i + 1) with (Z.of_nat (S i)) by lia. rewrite IH by lia. cbn [obind].
    assert (S : skipn i es = e :: skipn (S i) es). { clear -Ee. revert i Ee. induction es as [|x es IH]; intros [|i] E; try discriminate E; cbn [nth_error] in E.
      - injection E as ->. reflexivity. - cbn [skipn]. apply IH, E. }
    rewrite S. reflexivity.
Qed.
Lemma rep_entries c : In c rep -> entries 0 (fst (snd c)) (snd (snd c)) = Ok (pairs c).
Proof. intros I. destruct (rep_pairs c I) as [E _]. change 0 with (Z.of_nat 0). rewrite entries_ok by lia. reflexivity. Qed.
Hypothesis C : all_filled n eids.
Lemma num_elems_n : num_elems eids = Z.of_nat n.
Proof.
  unfold num_elems, zlen. f_equal. rewrite <- (seq_length n 0), <- (map_length Z.of_nat (seq 0 n)). apply Permutation_length.
  apply NoDup_Permutation.
  - apply NoDup_nodup.
  - apply FinFun.Injective_map_NoDup; [exact Nat2Z.inj|apply seq_NoDup].
  - intros z. rewrite nodup_In, in_concat, in_map_iff. split.
    + intros (es & I & J). apply in_map_iff in I. destruct I as ([k es'] & E & I). cbn in E. subst es'.
      pose proof (vs_range _ _ _ B) as R. rewrite Forall_forall in R. specialize (R _ I). cbn [snd] in R. rewrite Forall_forall in R. specialize (R _ J).
      exists (Z.to_nat z). split; [lia|]. apply in_seq. lia.
    + intros (e & <- & I). apply in_seq in I. destruct (C e ltac:(lia)) as (k & es & J1 & J2). exists es. split; [|exact J2].
      apply (in_map snd) in J1. exact J1.
Qed.
Lemma col_fold l : forall acc : list V, Forall (fun p => 0 <= fst p < Z.of_nat (length acc)) l -> NoDup (map fst l) ->
  exists r, ofold (fun acc p => vput acc (fst p) (snd p)) l acc = Ok r /\ length r = length acc /\
  forall e, nth_error r e = match zget l (Z.of_nat e) with Some v => Some v | None => nth_error acc e end.
Proof.
  induction l as [|[z v] l IH]; intros acc F N; cbn [ofold].
  - exists acc. auto.
  - inversion_clear F as [|? ? F1 F2]. cbn [fst snd map] in *. inversion_clear N as [|? ? N1 N2].
    destruct (Z_of_nat_complete z ltac:(lia)) as [i ->]. rewrite vput_ok by lia. cbn [obind].
    destruct (IH (set_nth acc i v)) as (r & R & Lr & Rn); [rewrite set_nth_len; exact F2|exact N2|]. exists r. split; [exact R|].
    rewrite set_nth_len in Lr. split; [exact Lr|]. intros e. rewrite Rn. cbn [zget]. destruct (Z.eqb_spec (Z.of_nat e) (Z.of_nat i)) as [E|E].
    + apply Nat2Z.inj in E. subst e. rewrite (proj2 (zget_None l (Z.of_nat i)) N1). apply set_nth_same. lia.
    + destruct (zget l (Z.of_nat e)); [reflexivity|]. apply set_nth_diff. congruence.
Qed.
Lemma column_ok c : In c rep -> exists col, column zero (Z.of_nat n) (fst (snd c)) (snd (snd c)) = Ok col /\ length col = n /\
  forall e, (e < n)%nat -> nth_error col e = Some (cell zero (zget (pairs c) (Z.of_nat e))).
Proof.
  intros I. unfold column. rewrite rep_entries by exact I. cbn [obind]. rewrite Nat2Z.id. destruct (rep_pairs c I) as (_ & N & F).
  destruct (col_fold (pairs c) (repeat zero n)) as (r & R & Lr & Rn); [rewrite repeat_length; exact F|exact N|]. rewrite repeat_length in Lr.
  exists r. split; [exact R|]. split; [exact Lr|]. intros e He. rewrite Rn. destruct (zget _ _); [reflexivity|]. cbn [cell]. apply nth_repeat_error, He.
Qed.
Theorem sbm_to_full_law : exists f, sbm_to_full zero eids vals = Ok f /\ valid_full n f /\ (forall k, In k (map fst f) <-> In k (map fst eids)) /\
  forall k e, full_at f k e = sbm_at zero n eids vals k e.
Proof.
  unfold sbm_to_full. rewrite num_elems_n. fold rep.
  assert (G : forall l, incl l rep -> exists f, omapM (fun c => do col <- column zero (Z.of_nat n) (fst (snd c)) (snd (snd c)); Ok (fst c, col)) l = Ok f /\
    map fst f = map fst l /\ Forall (fun c => length (snd c) = n) f /\
    forall k e, full_at f k e = match mget l k with Some p => if (e <? n)%nat then Some (cell zero (zget (pairs (k, p)) (Z.of_nat e))) else None | None => None end).
  { induction l as [|[k p] l IH]; intros I; [exists []; repeat split; constructor|]. rewrite omapM_cons. cbn [fst].
    destruct (column_ok (k, p) (I _ (or_introl eq_refl))) as (col & Ec & Lc & Nc). rewrite Ec. cbn [obind].
    destruct IH as (f & Ef & Kf & Ff & Af); [intros x J; apply I; right; exact J|]. rewrite Ef. cbn [obind]. eexists. split; [reflexivity|].
    split; [cbn [map fst]; rewrite Kf; reflexivity|]. split; [constructor; [exact Lc|exact Ff]|]. intros k' e. unfold full_at in *. cbn [mget].
    destruct (str_eqb_spec k' k) as [E|]; [|apply Af]. subst k'. destruct (Nat.ltb_spec e n) as [He|He]; [apply Nc, He|]. apply nth_error_None. lia. }
  destruct (G rep (incl_refl _)) as (f & Ef & Kf & Ff & Af). exists f. split; [exact Ef|]. split; [split; [rewrite Kf; apply rep_nodup|exact Ff]|]. split.
  - intros k. rewrite Kf. unfold rep. rewrite <- rep_keys. split; apply Permutation_in; [|symmetry]; apply Permutation_map, by_name_perm.
  - intros k e. rewrite Af, rep_mget. unfold sbm_at. destruct (mget eids k), (mget vals k); reflexivity.
Qed.

(** rows of an element *)
Definition row (ids : list (str * Z)) (l : list (str * (list Z * list V))) (e : nat) : list (Z * V) :=
  concat (map (fun c => match zget (pairs c) (Z.of_nat e) with
                        | Some v => [(match mget ids (fst c) with Some i => i | None => 0 end, v)]
                        | None => [] end) l).
Lemma add_fold (id : Z) (l : list (Z * V)) : forall rows, Forall (fun p => 0 <= fst p < Z.of_nat (length rows)) l -> NoDup (map fst l) ->
  exists r, ofold (fun rows p => add_row rows (fst p) (id, snd p)) l rows = Ok r /\ length r = length rows /\
  forall e, nth e r [] = nth e rows [] ++ match zget l (Z.of_nat e) with Some v => [(id, v)] | None => [] end.
Proof.
  induction l as [|[z v] l IH]; intros rows F N; cbn [ofold].
  - exists rows. split; [reflexivity|]. split; [reflexivity|]. intros e. rewrite app_nil_r. reflexivity.
  - inversion_clear F as [|? ? F1 F2]. cbn [fst snd map] in *. inversion_clear N as [|? ? N1 N2].
    destruct (Z_of_nat_complete z ltac:(lia)) as [i ->]. unfold add_row at 1. rewrite (get_in rows _ []) by exact F1. rewrite Nat2Z.id. cbn [obind].
    rewrite vput_ok by lia. cbn [obind].
    destruct (IH (set_nth rows i (nth i rows [] ++ [(id, v)]))) as (r & R & Lr & Rn); [rewrite set_nth_len; exact F2|exact N2|]. exists r. split; [exact R|].
    rewrite set_nth_len in Lr. split; [exact Lr|]. intros e. rewrite Rn. cbn [zget]. destruct (Z.eqb_spec (Z.of_nat e) (Z.of_nat i)) as [E|E].
    + apply Nat2Z.inj in E. subst e. rewrite (proj2 (zget_None l (Z.of_nat i)) N1). rewrite app_nil_r. apply nth_error_nth. apply set_nth_same. lia.
    + f_equal. apply nth_set_diff. congruence.
Qed.
Definition rows_step (ids : list (str * Z)) (rows : list (list (Z * V))) (c : str * (list Z * list V)) :=
  do l <- entries 0 (fst (snd c)) (snd (snd c));
  ofold (fun rows p => add_row rows (fst p) (match mget ids (fst c) with Some i => i | None => 0 end, snd p)) l rows.
Lemma rows_fold ids l : incl l rep -> forall rows, length rows = n -> exists r, ofold (rows_step ids) l rows = Ok r /\ length r = n /\
  forall e, nth e r [] = nth e rows [] ++ row ids l e.
Proof.
  induction l as [|c l IH]; intros I rows Ln; cbn [ofold].
  - exists rows. split; [reflexivity|]. split; [exact Ln|]. intros e. cbn. rewrite app_nil_r. reflexivity.
  - assert (Ic : In c rep) by (apply I; left; reflexivity). unfold rows_step at 1. rewrite rep_entries by exact Ic. cbn [obind].
    destruct (rep_pairs c Ic) as (_ & N & F).
    destruct (add_fold (match mget ids (fst c) with Some i => i | None => 0 end) (pairs c) rows) as (r1 & R1 & L1 & N1); [rewrite Ln; exact F|exact N|].
    rewrite R1. cbn [obind]. destruct (IH ltac:(intros x J; apply I; right; exact J) r1 ltac:(congruence)) as (r & R & Lr & Nr).
    exists r. split; [exact R|]. split; [exact Lr|]. intros e. rewrite Nr, N1, <- app_assoc. reflexivity.
Qed.
Definition rows_by (ids : list (str * Z)) : list (list (Z * V)) := map (row ids rep) (seq 0 n).
Lemma sbm_rows_ok ids : sbm_rows eids vals ids = Ok (rows_by ids).
Proof.
  unfold sbm_rows. rewrite num_elems_n, Nat2Z.id. fold rep.
  destruct (rows_fold ids rep (incl_refl _) (repeat [] n)) as (r & R & Lr & Nr); [apply repeat_length|].
  unfold rows_step in R. rewrite R. f_equal. apply nth_ext with (d := []) (d' := []).
  - unfold rows_by. rewrite map_length, seq_length. exact Lr.
  - intros e He. rewrite Lr in He. unfold rows_by. rewrite nth_map_seq by exact He. rewrite Nr, nth_repeat. reflexivity.
Qed.
Lemma row_In ids e i v : In (i, v) (row ids rep e) <->
  exists k es vs, mget eids k = Some es /\ mget vals k = Some vs /\ i = match mget ids k with Some i => i | None => 0 end /\ zget (combine es vs) (Z.of_nat e) = Some v.
Proof.
  unfold row. rewrite in_concat. split.
  - intros (l & I & J). apply in_map_iff in I. destruct I as ([k [es vs]] & <- & I). unfold pairs in J. cbn [fst snd] in J.
    destruct (zget (combine es vs) (Z.of_nat e)) as [v'|] eqn:E; [|destruct J]. destruct J as [J|[]]. injection J as <- <-.
    apply rep_In in I. destruct I as [E1 E2]. exists k, es, vs. auto.
  - intros (k & es & vs & E1 & E2 & -> & E). eexists. split; [apply in_map_iff; exists (k, (es, vs)); split; [reflexivity|apply rep_In; auto]|].
    unfold pairs. cbn [fst snd]. rewrite E. left. reflexivity.
Qed.
Lemma named_in k es : mget eids k = Some es -> exists i, mget (named vals) k = Some i.
Proof.
  intros E. destruct (mget (named vals) k) as [i|] eqn:Ei; [eauto|]. exfalso. apply mget_None_notin in Ei. apply Ei. rewrite named_fst.
  apply (vs_same _ _ _ B). apply mget_In in E. apply (in_map fst) in E. exact E.
Qed.
Lemma named_inj k k' i : mget (named vals) k = Some i -> mget (named vals) k' = Some i -> k = k'.
Proof.
  intros E E'. apply mget_In in E, E'. assert (N : NoDup (map snd (named vals))) by (rewrite named_snd; apply number_fst).
  clear -E E' N. induction (named vals) as [|[a j] l IH]; [destruct E|]. cbn [map snd] in N. inversion_clear N as [|? ? N1 N2].
  destruct E as [E|E], E' as [E'|E'].
  - congruence.
  - injection E as -> ->. exfalso. apply N1. apply (in_map snd) in E'. exact E'.
  - injection E' as -> ->. exfalso. apply N1. apply (in_map snd) in E. exact E.
  - auto.
Qed.
Lemma row_nodup e : NoDup (map fst (row (named vals) rep e)).
Proof.
  unfold row. assert (G : forall l, incl l rep -> NoDup (map fst l) -> NoDup (map fst (concat (map (fun c => match zget (pairs c) (Z.of_nat e) with
      | Some v => [(match mget (named vals) (fst c) with Some i => i | None => 0 end, v)] | None => [] end) l)))).
  { induction l as [|[k [es vs]] l IH]; intros I N; [constructor|]. cbn [map fst] in N. inversion_clear N as [|? ? N1 N2].
    assert (IHl := IH ltac:(intros x J; apply I; right; exact J) N2). cbn [map concat]. destruct (zget (pairs (k, (es, vs))) (Z.of_nat e)) as [v|]; [|exact IHl].
    cbn [app map fst]. constructor; [|exact IHl]. intros J. apply in_map_iff in J. destruct J as ([i w] & E & J). cbn [fst] in E.
    apply in_concat in J. destruct J as (x & J1 & J2). apply in_map_iff in J1. destruct J1 as ([k' [es' vs']] & <- & J1). cbn [fst] in J2.
    destruct (zget (pairs (k', (es', vs'))) (Z.of_nat e)) as [v'|]; [|destruct J2]. destruct J2 as [J2|[]]. injection J2 as J2 _.
    pose proof (I _ (or_introl eq_refl)) as I1. pose proof (I _ (or_intror J1)) as I2. apply rep_In in I1, I2.
    destruct (named_in k es (proj1 I1)) as [a Ea]. destruct (named_in k' es' (proj1 I2)) as [a' Ea']. rewrite Ea in E. rewrite Ea' in J2.
    assert (k = k') by (eapply named_inj; [exact Ea|congruence]). subst k'. apply N1. apply (in_map fst) in J1. exact J1. }
  apply G; [apply incl_refl|apply rep_nodup].
Qed.
Lemma row_snd ids ids' : map snd (concat (rows_by ids)) = map snd (concat (rows_by ids')).
Proof.
  unfold rows_by. rewrite !concat_map, !map_map. f_equal. apply map_ext. intros e. unfold row. rewrite !concat_map, !map_map. f_equal. apply map_ext.
  intros c. destruct (zget _ _); reflexivity.
Qed.
End Rep.

(** the values of a material set and of a field with the same element ids *)
Lemma rows_same n eids vals vals' ids : valid_sbm n eids vals -> valid_sbm n eids vals' ->
  map (map fst) (rows_by n eids vals' ids) = map (map fst) (rows_by n eids vals ids).
Proof.
  intros B B'. unfold rows_by. rewrite !map_map. apply map_ext. intros e. unfold row. rewrite !concat_map, !map_map. f_equal.
  assert (K : map fst (rep eids vals') = map fst (rep eids vals)).
  { apply by_name_keys. rewrite !(rep_keys n) by assumption. reflexivity. }
  assert (I : incl (rep eids vals) (rep eids vals)) by apply incl_refl. assert (I' : incl (rep eids vals') (rep eids vals')) by apply incl_refl.
  revert K I I'. generalize (rep eids vals) at 1 2 4. generalize (rep eids vals') at 1 2 4.
  induction l as [|[k' [es' vs']] l' IH]; intros [|[k [es vs]] l] K I I'; try discriminate K; [reflexivity|]. cbn [map fst] in K. injection K as K1 K. subst k'.
  cbn [map]. f_equal; [|apply IH; [exact K| |]; intros x J; [apply I|apply I']; right; exact J].
  pose proof (I _ (or_introl eq_refl)) as J. pose proof (I' _ (or_introl eq_refl)) as J'. apply (rep_In n eids vals B) in J. apply (rep_In n eids vals' B') in J'.
  destruct J as [E1 E2], J' as [E1' E2']. rewrite E1 in E1'. injection E1' as <-. unfold pairs. cbn [fst snd].
  pose proof (vs_len _ _ _ B _ _ _ E1 E2) as Ln. pose proof (vs_len _ _ _ B' _ _ _ E1 E2') as Ln'.
  destruct (zget (combine es vs') (Z.of_nat e)) as [v'|] eqn:Z', (zget (combine es vs) (Z.of_nat e)) as [v|] eqn:Z; try reflexivity; exfalso.
  - apply zget_None in Z. apply Z. rewrite map_fst_combine by exact Ln. apply zget_In in Z'. apply in_combine_l in Z'. exact Z'.
  - apply zget_None in Z'. apply Z'. rewrite map_fst_combine by exact Ln'. apply zget_In in Z. apply in_combine_l in Z. exact Z.
Qed.
Definition sbm_uni (n : nat) (eids : list (str * list Z)) (vals : list (str * list V)) : uni := packed (named vals) (rows_by n eids vals (named vals)).
Lemma sbm_uni_slots n eids vals vals' e : valid_sbm n eids vals -> valid_sbm n eids vals' -> (e < n)%nat ->
  uslots zero (sbm_uni n eids vals) (map snd (concat (rows_by n eids vals' []))) e = row (named vals) (rep eids vals') e.
Proof.
  intros B B' He. unfold sbm_uni. rewrite (row_snd n eids vals' [] (named vals)). rewrite packed_slots.
  - unfold rows_by. apply nth_map_seq, He.
  - apply rows_same; assumption.
  - unfold rows_by. rewrite map_length, seq_length. exact He.
Qed.
Lemma sbm_uni_ones n eids vals : ones (u_rel (sbm_uni n eids vals)) = n.
Proof. unfold sbm_uni. rewrite packed_ones. unfold rows_by. rewrite map_length, seq_length. reflexivity. Qed.
Lemma sbm_uni_at n eids vals vals' k e : valid_sbm n eids vals -> valid_sbm n eids vals' ->
  uni_at zero (sbm_uni n eids vals) (map snd (concat (rows_by n eids vals' []))) k e = sbm_at zero n eids vals' k e.
Proof.
  intros B B'. unfold uni_at, sbm_at. rewrite sbm_uni_ones. cbn [sbm_uni packed u_map]. destruct (mget eids k) as [es|] eqn:Ee.
  2:{ assert (M : mget (named vals) k = None); [|rewrite M; reflexivity]. apply mget_None_notin. rewrite named_fst. intros I. apply (vs_same _ _ _ B) in I.
      apply mget_None_notin in Ee. exact (Ee I). }
  destruct (named_in n eids vals B k es Ee) as [i Ei]. rewrite Ei.
  assert (V' : exists vs, mget vals' k = Some vs).
  { destruct (mget vals' k) as [vs|] eqn:Ev; [eauto|]. exfalso. apply mget_None_notin in Ev. apply Ev. apply (vs_same _ _ _ B'). apply mget_In in Ee.
    apply (in_map fst) in Ee. exact Ee. }
  destruct V' as [vs Ev]. rewrite Ev. destruct (Nat.ltb_spec e n) as [He|]; [|reflexivity]. f_equal. f_equal.
  fold (sbm_uni n eids vals). rewrite sbm_uni_slots by assumption. apply zget_char.
  - assert (R := row_nodup n eids vals B e).
    assert (S : map fst (row (named vals) (rep eids vals') e) = map fst (row (named vals) (rep eids vals) e)).
    { pose proof (rows_same n eids vals vals' (named vals) B B') as S. apply (f_equal (fun x => nth e x [])) in S. unfold rows_by in S.
      rewrite !map_map in S. rewrite !nth_map_seq in S by exact He. exact S. }
    rewrite S. exact R.
  - intros v. rewrite (row_In n eids vals' B'). split.
    + intros (k' & es' & vs' & E1 & E2 & E3 & E4). destruct (named_in n eids vals B k' es' E1) as [i' Ei']. rewrite Ei' in E3. subst i'.
      assert (k = k') by (eapply (named_inj vals); eassumption). subst k'. rewrite Ee in E1. injection E1 as <-. rewrite Ev in E2. injection E2 as <-. exact E4.
    + intros Z. exists k, es, vs. rewrite Ei. auto.
Qed.
Theorem sbm_to_uni_law n eids vals : valid_sbm n eids vals -> all_filled n eids -> exists u, sbm_to_uni eids vals = Ok u /\
  valid_uni zero n u /\ map fst (u_map u) = map fst vals /\
  (forall k e, uni_at zero u (u_vals u) k e = sbm_at zero n eids vals k e) /\
  (forall vals', valid_sbm n eids vals' -> exists w, sbm_to_uni_field eids vals' = Ok w /\ length w = length (u_ids u) /\
     forall k e, uni_at zero u w k e = sbm_at zero n eids vals' k e).
Proof.
  intros B C. exists (sbm_uni n eids vals). unfold sbm_to_uni. rewrite (sbm_rows_ok n eids vals B C). split; [reflexivity|].
  assert (Uv : u_vals (sbm_uni n eids vals) = map snd (concat (rows_by n eids vals []))) by apply row_snd. split; [|split; [|split]].
  - constructor.
    + apply packed_valid. exact zero.
    + apply sbm_uni_ones.
    + left. split; [discriminate|reflexivity].
    + cbn. rewrite named_fst. apply (vs_names _ _ _ B).
    + cbn. rewrite named_snd. apply number_fst.
    + intros e He. rewrite Uv, sbm_uni_slots by assumption. split; [apply (row_nodup n); exact B|].
      intros i I. apply in_map_iff in I. destruct I as ([i' v] & E & I). cbn in E. subst i'. apply (row_In n eids vals B) in I.
      destruct I as (k & es & vs & E1 & _ & E & _). destruct (named_in n eids vals B k es E1) as [i' Ei]. rewrite Ei in E. subst i'.
      apply mget_In in Ei. apply (in_map snd) in Ei. exact Ei.
  - cbn. apply named_fst.
  - intros k e. rewrite Uv. apply sbm_uni_at; assumption.
  - intros vals' B'. exists (map snd (concat (rows_by n eids vals' []))). split; [|split].
    + unfold sbm_to_uni_field. rewrite (sbm_rows_ok n eids vals' B' C). reflexivity.
    + cbn [sbm_uni packed u_ids]. rewrite (row_snd n eids vals' [] (named vals)), map_length, <- (map_length fst (concat (rows_by n eids vals' (named vals)))), !concat_map, (rows_same n eids vals vals' _ B B'). reflexivity.
    + intros k e. apply sbm_uni_at; assumption.
Qed.
Theorem round_trip n f : valid_full n f -> f <> [] ->
  (forall e, (e < n)%nat -> exists k v, full_at f k e = Some v /\ above v = true) ->
  (exists u f', full_to_uni above f = Ok u /\ uni_to_full zero u (u_vals u) = Ok f' /\
     forall k e, full_at f' k e = option_map (cut zero above) (full_at f k e)) /\
  (exists b f', full_to_sbm above f = Ok b /\ sbm_to_full zero (s_eids b) (s_vals b) = Ok f' /\
     forall k e, full_at f' k e = option_map (cut zero above) (full_at f k e)) /\
  (exists b u f', full_to_sbm above f = Ok b /\ sbm_to_uni (s_eids b) (s_vals b) = Ok u /\ uni_to_full zero u (u_vals u) = Ok f' /\
     forall k e, full_at f' k e = option_map (cut zero above) (full_at f k e)).
Proof.
  intros F N A.
  assert (C : all_filled n (eids_of f)).
  { intros e He. destruct (A e He) as (k & v & E & Ea). unfold full_at in E. destruct (mget f k) as [c|] eqn:Ec; [|discriminate E].
    exists k, (map fst (sifted 0 c c)). split.
    - apply mget_In. unfold eids_of. rewrite mget_map_val, (sieved_get f f k c c eq_refl Ec Ec). reflexivity.
    - apply in_map_iff. exists (Z.of_nat e, nth e c zero). split; [reflexivity|]. apply sifted_In. exists e, v. auto. }
  split; [|split].
  - destruct (full_to_uni_law n f F N) as (u & E1 & Vu & _ & At & _).
    assert (Lv : length (u_vals u) = length (u_ids u)).
    { rewrite (full_to_uni_ok n f F N) in E1. injection E1 as <-. cbn. rewrite !map_length. reflexivity. }
    destruct (uni_to_full_law n u _ Vu Lv) as (f' & E2 & _ & _ & At'). exists u, f'. split; [exact E1|]. split; [exact E2|].
    intros k e. rewrite At', At. reflexivity.
  - destruct (full_to_sbm_law n f F) as (b & E1 & Vb & _ & At & _). rewrite (full_to_sbm_ok n f F) in E1. injection E1 as <-. cbn [s_eids s_vals] in *.
    destruct (sbm_to_full_law n _ _ Vb C) as (f' & E2 & _ & _ & At'). eexists. exists f'. split; [apply (full_to_sbm_ok n), F|]. split; [exact E2|].
    intros k e. rewrite At', At. reflexivity.
  - destruct (full_to_sbm_law n f F) as (b & E1 & Vb & _ & At & _). rewrite (full_to_sbm_ok n f F) in E1. injection E1 as <-. cbn [s_eids s_vals] in *.
    destruct (sbm_to_uni_law n _ _ Vb C) as (u & E2 & Vu & _ & At2 & _).
    assert (Lv : length (u_vals u) = length (u_ids u)).
    { unfold sbm_to_uni in E2. rewrite (sbm_rows_ok n _ _ Vb C) in E2. injection E2 as <-. cbn. rewrite !map_length. reflexivity. }
    destruct (uni_to_full_law n u _ Vu Lv) as (f' & E3 & _ & _ & At'). eexists. exists u, f'. split; [apply (full_to_sbm_ok n), F|]. split; [exact E2|]. split; [exact E3|].
    intros k e. rewrite At', At2, At. reflexivity.
Qed.
End Facts.
