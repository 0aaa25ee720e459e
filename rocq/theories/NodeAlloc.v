(** Node::set(const Schema&): allocation of a whole hierarchy in one buffer. *)
From Verif Require Import Base DType SpecTree Mem MemFacts Node SpecNode NodeFacts NodeCompact NodeSet NodeEndian NodeUpdate NodeMerge.
Local Open Scope Z_scope.

(** ---- specification ---- *)
(** A leaf descriptor whose elements lie at non-negative addresses, growing. *)
Definition laid_out (d : dtype) : Prop :=
  dt_id d = EMPTY /\ std_leaf d \/
  (dt_id d <> EMPTY /\ dt_id d <> OBJECT /\ dt_id d <> LIST /\
   0 <= dt_n d /\ 0 <= dt_off d /\ 0 <= dt_stride d /\ std_leaf d).
(** All zero bytes. *)
Definition leaf_zero (d : dtype) : leafval :=
  match dt_id d with
  | EMPTY => None
  | t => Some (t, dt_endian d, repeat (repeat zero_byte (Z.to_nat (default_bytes t))) (Z.to_nat (dt_n d)))
  end.
(** No byte belongs to two leaves, nor to two elements of one leaf. *)
Definition disjoint_leaves (t : tree dtype) : Prop :=
  ForallOrdPairs (fun d e => forall i j b, occupies d i b -> ~ occupies e j b) (tleaves t) /\
  Forall (fun d => forall i j b, occupies d i b -> occupies d j b -> i = j) (tleaves t).

(** ---- facts ---- *)
Lemma laid_out_spec d : laid_out d -> dt_id d = EMPTY \/
  (is_data (dt_id d) = true /\ 0 <= dt_n d /\ 0 <= dt_off d /\ 0 <= dt_stride d /\ dt_ebytes d = default_bytes (dt_id d)).
Proof.
  intros [[E _]|(A & B & C & D & E & F & G)]; [left; exact E|right]. split; [|auto].
  destruct (dt_id d); try reflexivity; congruence.
Qed.
Lemma max_ge x l : In x l -> x <= fold_right Z.max 0 l.
Proof. induction l as [|y l IH]; [intros []|]. intros [->|I]; cbn [fold_right]; [lia|]. specialize (IH I). lia. Qed.
Lemma max_nonneg l : 0 <= fold_right Z.max 0 l.
Proof. induction l as [|y l IH]; cbn [fold_right]; lia. Qed.
Lemma tspanned_leaf t d : In d (tleaves t) -> spanned_bytes d <= tspanned t.
Proof.
  destruct t as [a|es|ts]; unfold tspanned.
  - intros [->|[]]. lia.
  - intros I. apply max_ge. apply in_map. exact I.
  - intros I. apply max_ge. apply in_map. exact I.
Qed.
Lemma occ_in_bounds t d i j : In d (tleaves t) -> laid_out d -> 0 <= i < dt_n d -> 0 <= j < default_bytes (dt_id d) ->
  0 <= eaddr d i + j < tspanned t.
Proof.
  intros I L Hi Hj. pose proof (tspanned_leaf t d I) as S. unfold spanned_bytes in S.
  destruct (laid_out_spec d L) as [E|(A & B & C & D & E)]; [rewrite E in Hj; cbn in Hj; lia|].
  unfold eaddr. rewrite E in S. nia.
Qed.

Lemma leaf_touches_occ p d q : laid_out d -> leaf_touches q (Some p, d) ->
  exists i, occupies d i (snd q - snd p) /\ fst q = fst p.
Proof.
  intros L (p' & i & j & Ep & Hi & Hj & ->). cbn [fst snd] in *. injection Ep as <-. exists i. cbn [padd fst snd]. split; [|reflexivity].
  destruct (laid_out_spec d L) as [E|(A & B & C & D & E)]; [rewrite E in Hj; cbn in Hj; lia|].
  unfold occupies, eaddr. rewrite E. lia.
Qed.
Lemma separate_walk t p own : Forall laid_out (tleaves t) -> disjoint_leaves t -> separate (walk t (Some p) own).
Proof.
  intros L [D E]. unfold separate. rewrite nleaves_walk. split.
  - induction D as [|d l F D IH]; cbn [map]; [constructor|]. inversion L as [|? ? Ld Ll]; subst. inversion E; subst.
    constructor; [|apply IH; assumption]. apply Forall_forall. intros x I. apply in_map_iff in I. destruct I as (e & <- & I).
    rewrite Forall_forall in F, Ll. intros q [T T'].
    destruct (leaf_touches_occ p d q Ld T) as (i & O & _). destruct (leaf_touches_occ p e q (Ll e I) T') as (j & O' & _).
    exact (F e I i j _ O O').
  - apply Forall_forall. intros x I. apply in_map_iff in I. destruct I as (d & <- & I). cbn [snd]. rewrite Forall_forall in E, L.
    specialize (E d I). destruct (laid_out_spec d (L d I)) as [Em|(A & B & C & G & H)].
    + right. rewrite Em. cbn [default_bytes]. lia.
    + destruct (Z.le_gt_cases (dt_n d) 1) as [N|N]; [left; exact N|]. right.
      destruct (Z.le_gt_cases (default_bytes (dt_id d)) (Z.abs (dt_stride d))) as [S|S]; [exact S|].
      pose proof (is_data_pos _ A). assert (0 = 1); [|lia]. apply (E 0 1 (dt_off d + dt_stride d)); unfold occupies; lia.
Qed.
Lemma private_walk_false t : forall data, private (walk t data false).
Proof.
  induction t as [d|es IH|ts IH] using tree_ind''; intros data; cbn [walk].
  - exact I.
  - apply private_obj. rewrite map_map. cbn [snd]. split.
    + intros i j a b q _ _ Hb _. apply nth_error_In in Hb. apply in_map_iff in Hb. destruct Hb as (e & <- & _).
      unfold owned_blocks. rewrite owns_walk_false. intros [].
    + apply Forall_forall. intros c I. apply in_map_iff in I. destruct I as (e & <- & I). rewrite Forall_forall in IH. apply IH; exact I.
  - apply private_lst. split.
    + intros i j a b q _ _ Hb _. apply nth_error_In in Hb. apply in_map_iff in Hb. destruct Hb as (e & <- & _).
      unfold owned_blocks. rewrite owns_walk_false. intros [].
    + apply Forall_forall. intros c I. apply in_map_iff in I. destruct I as (e & <- & I). rewrite Forall_forall in IH. apply IH; exact I.
Qed.
Lemma private_walk t data own : private (walk t data own).
Proof. destruct own; [|apply private_walk_false]. pose proof (private_walk_false t data) as H. destruct t; exact H. Qed.

Lemma nth_error_repeat {A} (x : A) n i : (i < n)%nat -> nth_error (repeat x n) i = Some x.
Proof. revert i. induction n as [|n IH]; intros [|i] H; cbn; try lia; [reflexivity|apply IH; lia]. Qed.
Lemma load_zero m b n p : nth_error m (fst p) = Some (Some (repeat zero_byte (Z.to_nat b))) ->
  0 <= snd p -> 0 <= n -> snd p + n <= b -> load m p n = Ok (repeat zero_byte (Z.to_nat n)).
Proof.
  intros E P N B. unfold load. destruct (Z.eqb_spec n 0) as [->|NZ]; [reflexivity|]. unfold mem, block in *. rewrite E, repeat_length.
  replace ((0 <=? snd p) && (0 <=? n) && (snd p + n <=? Z.of_nat (Z.to_nat b))) with true by lia. f_equal.
  apply list_ext.
  - rewrite length_sub_range, repeat_length; [reflexivity|]. rewrite repeat_length. lia.
  - intros i H. rewrite length_sub_range in H by (rewrite repeat_length; lia).
    rewrite (nth_error_sub_range _ _ _ _ H), !nth_error_repeat by lia. reflexivity.
Qed.
Lemma leaf_zero_data d : is_data (dt_id d) = true ->
  leaf_zero d = Some (dt_id d, dt_endian d, repeat (repeat zero_byte (Z.to_nat (default_bytes (dt_id d)))) (Z.to_nat (dt_n d))).
Proof. unfold leaf_zero. destruct (dt_id d); reflexivity || discriminate. Qed.
Lemma value_zero m b t : forall own, nth_error m b = Some (Some (repeat zero_byte (Z.to_nat (tspanned t)))) ->
  Forall laid_out (tleaves t) -> nvalue m (walk t (Some (b, 0)) own) = Ok (tmap leaf_zero t).
Proof.
  intros own E L. set (tot := tspanned t) in *.
  assert (X : forall d, In d (tleaves t) -> laid_out d /\ (forall i j, 0 <= i < dt_n d -> 0 <= j < default_bytes (dt_id d) -> 0 <= eaddr d i + j < tot)).
  { intros d I. rewrite Forall_forall in L. split; [apply L; exact I|]. intros i j. apply occ_in_bounds; auto. }
  clearbody tot. clear L. revert own. induction t as [d|es IH|ts IH] using tree_ind''; intros own; cbn [walk tmap].
  - apply nvalue_leaf. eexists. split; [reflexivity|]. cbn [h_data]. destruct (X d ltac:(left; reflexivity)) as [L B].
    destruct (laid_out_spec d L) as [Em|(Da & P & Q & R & S)].
    { unfold leaf_zero. rewrite Em. apply leaf_value_empty; exact Em. }
    pose proof (is_data_pos _ Da) as Pos. rewrite (leaf_zero_data d Da).
    apply leaf_value_data; [exact Da|exact P|]. split; [rewrite repeat_length; lia|].
    intros i Hi. eexists. split; [apply nth_error_repeat; lia|]. unfold leaf_elem. cbn [opadd option_map oload].
    pose proof (B i 0 Hi ltac:(lia)). pose proof (B i (default_bytes (dt_id d) - 1) Hi ltac:(lia)).
    apply (load_zero m tot); cbn [padd fst snd]; [exact E|lia..].
  - apply nvalue_obj. eexists. split; [reflexivity|]. rewrite Forall_forall in IH. 
    assert (Y : forall e, In e es -> forall own, nvalue m (walk (snd e) (Some (b, 0)) own) = Ok (tmap leaf_zero (snd e))).
    { intros e I. apply IH; [exact I|]. intros d J. apply X. cbn [tleaves]. apply in_flat_map. exists e. split; assumption. }
    clear IH X. induction es as [|e es IHe]; cbn [map]; constructor.
    + split; [reflexivity|]. apply Y. left; reflexivity.
    + apply IHe. intros x I. apply Y. right; exact I.
  - apply nvalue_lst. eexists. split; [reflexivity|]. rewrite Forall_forall in IH.
    assert (Y : forall e, In e ts -> forall own, nvalue m (walk e (Some (b, 0)) own) = Ok (tmap leaf_zero e)).
    { intros e I. apply IH; [exact I|]. intros d J. apply X. cbn [tleaves]. apply in_flat_map. exists e. split; assumption. }
    clear IH X. induction ts as [|e es IHe]; cbn [map]; constructor.
    + apply Y. left; reflexivity.
    + apply IHe. intros x I. apply Y. right; exact I.
Qed.

(** ---- law ---- *)
Lemma free_step' m n m1 : good m n -> nfree m n = Ok m1 -> freed m m1 (owned_blocks n) ->
  step m (fun _ => False) (ob n) m1 (TK []) (OK_ []).
Proof.
  intros G E Fr. pose proof (free_step m n m1 G E Fr) as [A B C D F H K]. constructor; auto.
  - intros q X. destruct (TK_nil q X).
  - intros q _ N _. rewrite (freed_rd _ _ _ _ Fr). destruct (in_dec Nat.eq_dec (fst q) (owned_blocks n)); [contradiction|reflexivity].
Qed.
Lemma set_schema_law m dest t :
  healthy m dest -> Forall laid_out (tleaves t) -> 0 <= tspanned t ->
  (forall d, t = TLeaf d -> dt_id d <> EMPTY) ->
  exists m' dest', nset_schema m dest t = Ok (m', dest') /\ nschema dest' = t /\ nvalue m' dest' = Ok (tmap leaf_zero t) /\ (exists b, dest' = walk t (Some (b, 0)) true /\ (length m <= b)%nat /\    exists l, nth_error m' b = Some (Some l) /\ Z.of_nat (length l) = tspanned t) /\ step m (fun _ => False) (ob dest) m' (touches dest') (ob dest') /\ (disjoint_leaves t -> healthy m' dest').
Proof.
  intros H L S R. pose proof (proj1 (healthy_good _ _) H) as G. unfold nset_schema.
  destruct (nfree_ok m dest (good_owned _ _ G)) as (m1 & E1 & Fr). rewrite E1. cbn [obind]. unfold nalloc.
  rewrite alloc_ok by exact S. cbn [obind h_data h_own]. eexists _, _. split; [reflexivity|].
  pose proof (free_step' m dest m1 G E1 Fr) as St. destruct Fr as [Ln _].
  set (blk := repeat zero_byte (Z.to_nat (tspanned t))). set (b := length m1).
  assert (Nb : nth_error (m1 ++ [Some blk]) b = Some (Some blk)).
  { unfold b. rewrite nth_error_app2 by lia. rewrite Nat.sub_diag. reflexivity. }
  assert (Rem : match t with TLeaf d => is_empty d = false | _ => True end).
  { destruct t as [d| |]; try exact I. unfold is_empty. specialize (R d eq_refl). destruct (tid_eqb (dt_id d) EMPTY) eqn:X; [|reflexivity]. apply tid_eqb_eq in X. contradiction. }
  assert (Ow : owns (walk t (Some (b, 0)) true) = [(b, 0)]).
  { rewrite owns_walk. destruct t; [rewrite Rem|..]; reflexivity. }
  split; [apply nschema_walk|]. split; [apply value_zero; assumption|]. split; [|split].
  - exists b. split; [reflexivity|]. split; [unfold b; lia|]. exists blk. split; [exact Nb|]. unfold blk. rewrite repeat_length. lia.
  - apply (step_trans _ _ _ m1 (TK []) (OK_ [])); [exact St|]. constructor.
    + rewrite app_length. lia.
    + intros q T. right. apply touches_walk in T. destruct T as (p & d & i & j & Ep & _ & _ & _ & ->). injection Ep as <-. cbn [padd fst]. unfold b. lia.
    + intros x X. right. change (In x (map fst (owns (walk t (Some (b, 0)) true)))) in X. rewrite Ow in X. destruct X as [<-|[]]. cbn [fst]. unfold b. lia.
    + intros q Hq _ _. unfold rd. rewrite nth_error_app1 by exact Hq. reflexivity.
    + intros x [l X] _. exists l. rewrite nth_error_app1; [exact X|]. apply nth_error_Some. congruence.
    + intros x Hx [l X]. exists l. rewrite nth_error_app1 in X by exact Hx. exact X.
    + intros x X [O|Hx]; [destruct (OK_nil x O)|]. apply live_lt in X. rewrite app_length in X. cbn [length] in X.
      change (In x (map fst (owns (walk t (Some (b, 0)) true)))). rewrite Ow. left. cbn [fst]. unfold b. lia.
  - intros D. split; [|split; [|split; [|split]]].
    + change (owned_ok (m1 ++ [Some blk]) (walk t (Some (b, 0)) true)). split; unfold owned_blocks; rewrite Ow; repeat constructor; [exists blk; exact Nb|intros []].
    + apply tidy_walk. exact Rem.
    + apply separate_walk; assumption.
    + rewrite nschema_walk. apply Forall_forall. intros d I. rewrite Forall_forall in L. destruct (L d I) as [[_ X]|X]; [exact X|apply X].
    + apply private_walk.
Qed.
