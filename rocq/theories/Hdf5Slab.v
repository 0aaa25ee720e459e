(** Writing part of an array in an HDF5 file (options offset and stride). *)
From Verif Require Import Base DType SpecTree Mem Node SpecNode NodeFacts IOHandleFacts MatSet MatSetFacts Hdf5 Hdf5Spec Hdf5Facts Hdf5Hist.
Local Open Scope Z_scope.
Import ListNotations.

(** * Specification *)
(** What is at a path: nothing that stands in the way, then nothing or an object. *)
Fixpoint slot (g : hobj) (p : list str) : option (option hobj) :=
  match p with
  | [] => Some (Some g)
  | k :: p' => match g with
               | HGroup _ ls => match mget ls k with Some u => slot u p' | None => Some None end
               | _ => None
               end
  end.
(** Neither path leads through the other. *)
Fixpoint apart (p q : list str) : Prop :=
  match p, q with
  | a :: p', b :: q' => a <> b \/ apart p' q'
  | _, _ => False
  end.
(** [new] is [old] with [es] at [off], [off + st], ...; zeros where there was nothing. *)
Definition spread (off st : Z) (z : list byte) (es old new : list (list byte)) : Prop :=
  Z.of_nat (length new) = Z.max (Z.of_nat (length old)) (off + (Z.of_nat (length es) - 1) * st + 1) /\
  (forall i x, nth_error es i = Some x -> nth_error new (Z.to_nat (off + Z.of_nat i * st)) = Some x) /\
  (forall j, (j < length new)%nat -> (forall i, (i < length es)%nat -> Z.of_nat j <> off + Z.of_nat i * st) ->
     nth_error new j = Some (nth j old z)).

Section Machine.
  Variable mach : endian.
  Hypothesis Hm : mach <> DEFAULT_E.

  (** * One path *)
  Lemma path_check o p l : Forall plain_name p -> forall g r, slot g p = Some r ->
    match r with Some h => c_leaf mach o l h = Ok true | None => True end -> c_node mach o (at_path p (TLeaf l)) g = Ok true.
  Proof.
    intros P. induction P as [|k p Pk P IH]; intros g r S C; cbn [slot] in S.
    - injection S as <-. exact C.
    - destruct g as [|ft es u|b ls]; try discriminate. cbn [at_path fold_right c_node map fst snd].
      rewrite open_plain by exact Pk. cbn [obind c_all]. destruct (mget ls k) as [u|]; [|reflexivity].
      change (c_node mach o (fold_right (fun k u => TObj [(k, u)]) (TLeaf l) p) u) with (c_node mach o (at_path p (TLeaf l)) u). rewrite (IH u r S C). reflexivity.
  Qed.
  Lemma slot_empty p b : p <> [] -> slot (HGroup b []) p = Some None.
  Proof. destruct p; [congruence|reflexivity]. Qed.
  Lemma find_empty b q : q <> [] -> h_find (HGroup b []) q = None.
  Proof. destruct q; [congruence|reflexivity]. Qed.
  Lemma path_write o t e es p x mv : Forall plain_name p -> p <> [] -> forall g r, slot g p = Some r ->
    w_leaf mach o t e es r = (Some x, mv, Ok tt) ->
    exists b' ls', w_children mach o (at_path p (TLeaf (Some (t, e, es)))) g = (HGroup b' ls', Ok tt) /\ h_find (HGroup b' ls') p = Some x /\
      forall q, apart p q -> h_find (HGroup b' ls') q = h_find g q.
  Proof.
    intros P. induction P as [|k p Pk P IH]; intros NE g r S W; [congruence|]. clear NE.
    cbn [slot] in S. destruct g as [|? ? ?|b ls]; try discriminate. cbn [at_path fold_right]. cbn [w_children map mark fst snd w_seq].
    rewrite put_plain by exact Pk. destruct p as [|k2 p].
    - cbn [fold_right w_kid].
      assert (r = mget ls k) as -> by (destruct (mget ls k); cbn [slot] in S; injection S as <-; reflexivity). rewrite W.
      assert (Q : forall k', mget (if mv then mdel ls k ++ [(k, x)] else mset ls k x) k' = if str_eqb k' k then Some x else mget ls k').
      { intros k'. destruct mv; [|apply mget_mset]. clear. induction ls as [|[k1 u] ls IHl]; cbn [mdel].
        - cbn. destruct (str_eqb_spec k' k); reflexivity.
        - destruct (str_eqb_spec k k1) as [->|N1]; cbn [app mget].
          + rewrite IHl. destruct (str_eqb_spec k' k1); reflexivity.
          + destruct (str_eqb_spec k' k1) as [->|]; [|exact IHl]. destruct (str_eqb_spec k1 k); [congruence|reflexivity]. }
      eexists _, _. split; [reflexivity|]. cbn [h_find]. rewrite Q, str_eqb_refl. split; [reflexivity|].
      intros q A. destruct q as [|k' q]; [destruct A|]. cbn [apart h_find] in *. destruct A as [A|[]]. rewrite Q.
      destruct (str_eqb_spec k' k); [congruence|reflexivity].
    - assert (NE : k2 :: p <> []) by discriminate. cbn [fold_right w_kid].
      change (TObj [(k2, fold_right (fun k u => TObj [(k, u)]) (TLeaf (Some (t, e, es))) p)]) with (at_path (k2 :: p) (TLeaf (Some (t, e, es)))).
      assert (G : forall u, (mget ls k = Some u \/ (mget ls k = None /\ u = HGroup false [])) -> slot u (k2 :: p) = Some r ->
        exists b' ls', (let (g', s) := w_children mach o (at_path (k2 :: p) (TLeaf (Some (t, e, es)))) u in
            (HGroup false (mset ls k g'), s)) = (HGroup b' ls', Ok tt) /\ h_find (HGroup b' ls') (k :: k2 :: p) = Some x /\
          forall q, apart (k :: k2 :: p) q -> h_find (HGroup b' ls') q = h_find (HGroup b ls) q).
      { intros u Hu Su. destruct (IH NE u r Su W) as (b1 & l1 & E & F & A). rewrite E. eexists _, _. split; [reflexivity|].
        cbn [h_find]. rewrite mget_mset_same. split; [exact F|]. intros q Aq. destruct q as [|k' q]; [destruct Aq|]. cbn [apart h_find] in *.
        rewrite mget_mset. destruct (str_eqb_spec k' k) as [->|N1]; [|reflexivity]. destruct Aq as [Aq|Aq]; [congruence|].
        rewrite (A q Aq). destruct Hu as [->|[-> ->]]; [reflexivity|]. rewrite find_empty; [reflexivity|]. destruct q; [destruct Aq|discriminate]. }
      destruct (mget ls k) as [u|] eqn:M.
      + destruct u as [|? ? ?|b2 ls2]; [discriminate S|discriminate S|].
        destruct (G _ (or_introl eq_refl) S) as (b' & l' & E & R). 
        destruct (w_children mach o (at_path (k2 :: p) (TLeaf (Some (t, e, es)))) (HGroup b2 ls2)) as [g' s'] eqn:E1.
        cbn iota beta in E |- *. injection E as <- <- ->. eexists _, _. split; [reflexivity|exact R].
      + destruct (G (HGroup false []) (or_intror (conj eq_refl eq_refl))) as (b' & l' & E & R); [injection S as <-; reflexivity|].
        destruct (w_children mach o (at_path (k2 :: p) (TLeaf (Some (t, e, es)))) (HGroup false [])) as [g' s'] eqn:E1.
        cbn iota beta in E |- *. injection E as <- <- ->. eexists _, _. split; [reflexivity|exact R].
  Qed.

  (** * What one write leaves in a dataset *)
  Lemma spread_slab off st t (es old : list elem) : 0 <= off -> 1 <= st -> es <> [] ->
    spread off st (zero_elem t) es old
      (map (slab_at off st t es old) (seq 0 (Z.to_nat (Z.max (Z.of_nat (length old)) (off + Z.of_nat (length es) + (Z.of_nat (length es) - 1) * (st - 1)))))).
  Proof.
    intros O S N. assert (Ln : 0 < Z.of_nat (length es)) by (destruct es; [congruence|cbn [length]; lia]).
    set (n := Z.of_nat (length es)) in *.
    assert (D : off + n + (n - 1) * (st - 1) = off + (n - 1) * st + 1) by lia. rewrite D.
    assert (P : 0 <= (n - 1) * st) by (apply Z.mul_nonneg_nonneg; lia).
    set (dim := Z.max (Z.of_nat (length old)) (off + (n - 1) * st + 1)) in *.
    assert (Nth : forall j, (j < Z.to_nat dim)%nat -> nth_error (map (slab_at off st t es old) (seq 0 (Z.to_nat dim))) j = Some (slab_at off st t es old j)).
    { intros j H. apply map_nth_error. rewrite (nth_error_nth' _ 0%nat) by (rewrite seq_length; exact H). rewrite seq_nth by exact H. reflexivity. }
    split; [|split].
    - rewrite map_length, seq_length. unfold dim. lia.
    - intros i x Hi. assert (B : (i < length es)%nat) by (apply nth_error_Some; congruence).
      assert (M : Z.of_nat i * st <= (n - 1) * st) by (apply Z.mul_le_mono_nonneg_r; lia).
      assert (M0 : 0 <= Z.of_nat i * st) by (apply Z.mul_nonneg_nonneg; lia).
      rewrite Nth by (unfold dim; lia). f_equal. unfold slab_at. rewrite Z2Nat.id by lia.
      replace (off + Z.of_nat i * st - off) with (Z.of_nat i * st) by lia. rewrite Z.mod_mul, Z.div_mul by lia. rewrite Nat2Z.id.
      replace (off <=? off + Z.of_nat i * st) with true by lia. fold n. replace (Z.of_nat i <? n) with true by lia. cbn [andb Z.eqb].
      apply nth_error_nth. exact Hi.
    - intros j H F. rewrite map_length, seq_length in H. rewrite Nth by exact H. f_equal. unfold slab_at.
      destruct ((off <=? Z.of_nat j) && ((Z.of_nat j - off) mod st =? 0) && ((Z.of_nat j - off) / st <? Z.of_nat (length es))) eqn:E; [|reflexivity].
      exfalso. apply andb_prop in E. destruct E as [E E3]. apply andb_prop in E. destruct E as [E1 E2].
      assert (Q : 0 <= (Z.of_nat j - off) / st) by (apply Z.div_pos; lia).
      apply (F (Z.to_nat ((Z.of_nat j - off) / st))); [lia|]. rewrite Z2Nat.id by exact Q.
      pose proof (Z.div_mod (Z.of_nat j - off) st ltac:(lia)). lia.
  Qed.
  Lemma reorder_length a b (es : list elem) : length (reorder a b es) = length es.
  Proof. unfold reorder. destruct (endian_eqb a b); [reflexivity|apply map_length]. Qed.
  Lemma zero_rev t : rev (zero_elem t) = zero_elem t.
  Proof. destruct t; reflexivity. Qed.
  Lemma spread_reorder a b off st t es old new : spread off st (zero_elem t) es old new ->
    spread off st (zero_elem t) (reorder a b es) (reorder a b old) (reorder a b new).
  Proof.
    intros (L1 & F1 & F2). unfold reorder. destruct (endian_eqb a b); [split; auto|]. split; [|split]; rewrite ?map_length.
    - exact L1.
    - intros i x H. rewrite nth_error_map in H. destruct (nth_error es i) as [y|] eqn:E; [|discriminate]. injection H as <-.
      apply map_nth_error. apply F1, E.
    - intros j H F. rewrite (map_nth_error _ _ _ (F2 j H F)). rewrite <- (map_nth (@rev byte)), zero_rev. reflexivity.
  Qed.
  Lemma reorder_same a (es : list elem) : reorder a a es = es.
  Proof. unfold reorder. rewrite endian_eqb_refl. reflexivity. Qed.
  Lemma reorder_nth a b (data : list elem) j : nth j (reorder a b data) [] = (if endian_eqb a b then nth j data [] else rev (nth j data [])).
  Proof. unfold reorder. destruct (endian_eqb a b); [reflexivity|]. change (@nil byte) with (rev (@nil byte)) at 1. apply map_nth. Qed.
  Lemma reorder_map a b (data : list elem) (f : nat -> nat) l :
    reorder a b (map (fun i => nth (f i) data []) l) = map (fun i => nth (f i) (reorder a b data) []) l.
  Proof.
    transitivity (map (fun i => if endian_eqb a b then nth (f i) data [] else rev (nth (f i) data [])) l).
    - unfold reorder. destruct (endian_eqb a b); [reflexivity|apply map_map].
    - apply map_ext. intros i. symmetry. apply reorder_nth.
  Qed.

  (** The elements of a leaf, or of a dataset, in the order of the machine *)
  Definition machine_elems (t : tid) (e : endian) (es : list elem) : list elem :=
    reorder (snd (ftype_of mach t e)) (snd (ftype_of mach t mach)) es.
  Lemma order_of t e es : Some (t, snd (ftype_of mach t mach), machine_elems t e es) = in_machine_order mach (Some (t, e, es)).
  Proof.
    unfold machine_elems. rewrite <- (order_stored mach Hm). cbn [stored]. change (if tid_eqb t CHAR8_STR then DEFAULT_E else resolve mach e) with (snd (ftype_of mach t e)).
    apply r_order; [exact Hm|]. unfold ftype_of. cbn [snd stored]. destruct (tid_eqb t CHAR8_STR); [reflexivity|]. rewrite (resolve_idem mach Hm). reflexivity.
  Qed.
  (** reading what is there with an offset, a stride and a size *)
  Lemma r_part t e off st (data es : list elem) z old : 0 <= off -> 1 <= st -> es <> [] -> spread off st z es old (machine_elems t e data) ->
    r_dset mach (mkR (Some off) (Some st) (Some (Z.of_nat (length es)))) (ftype_of mach t e) data fresh =
    Ok (TLeaf (Some (t, snd (ftype_of mach t mach), es))).
  Proof.
    intros O S N (L1 & F1 & _). assert (Ln : 0 < Z.of_nat (length es)) by (destruct es; [congruence|cbn [length]; lia]).
    unfold machine_elems in L1. rewrite reorder_length in L1.
    unfold r_dset. cbn [r_off r_str r_size or_else]. replace (st =? 0) with false by lia.
    assert (R : readsize (mkR (Some off) (Some st) (Some (Z.of_nat (length es)))) (Z.of_nat (length data)) = Z.of_nat (length es)).
    { unfold readsize. cbn [r_off r_str r_size or_else]. replace (Z.of_nat (length es) =? 0) with false by lia. reflexivity. }
    rewrite R. replace (Z.of_nat (length es) <? 0) with false by lia.
    replace ((0 <? Z.of_nat (length es)) && _) with false.
    2:{ symmetry. replace (off <? 0) with false by lia. replace (st <? 0) with false by lia. cbn [orb].
        replace (Z.of_nat (length data) <=? _) with false by lia. apply andb_false_r. }
    rewrite Nat2Z.id. change (fst (ftype_of mach t e)) with t. rewrite (reorder_map _ _ data (fun i => Z.to_nat (off + Z.of_nat i * st))).
    fold (machine_elems t e data). cbn [fst fresh]. do 4 f_equal.
    apply nth_ext with (d := nth (Z.to_nat (off + Z.of_nat 0 * st)) (machine_elems t e data) []) (d' := []); [rewrite map_length, seq_length; reflexivity|].
    intros j H. rewrite map_length, seq_length in H. rewrite (map_nth (fun i => nth (Z.to_nat (off + Z.of_nat i * st)) (machine_elems t e data) [])).
    rewrite seq_nth by exact H. cbn [Nat.add]. destruct (nth_error es j) as [x|] eqn:E; [|apply nth_error_None in E; lia].
    rewrite (nth_error_nth _ _ _ E). apply nth_error_nth. apply F1, E.
  Qed.

  (** * The write *)
  Definition in_file (r : option hobj) (t : tid) (e : endian) (old : list elem) : Prop :=
    match r with
    | Some (HDset ft d _) => ft = ftype_of mach t e /\ d = old
    | Some _ => False
    | None => old = []
    end.
  (** a fixed dataset is not written over with another number of elements *)
  Definition not_short (r : option hobj) (off st : Z) (es : list elem) : Prop :=
    match r with Some (HDset _ d false) => off <> 0 \/ st <> 1 \/ length d = length es | _ => True end.
  Lemma snd_ftype_mach t : snd (ftype_of mach (fst (ftype_of mach t mach)) mach) = snd (ftype_of mach t mach).
  Proof. reflexivity. Qed.
  Lemma spread_fixed t es (old : list elem) : length old = length es -> es <> [] -> spread 0 1 (zero_elem t) es old es.
  Proof.
    intros L1 N. assert (0 < Z.of_nat (length es)) by (destruct es; [congruence|cbn [length]; lia]). split; [lia|split].
    - intros i x H'. replace (Z.to_nat (0 + Z.of_nat i * 1)) with i by lia. exact H'.
    - intros j Hj F. exfalso. apply (F j Hj). lia.
  Qed.
  Lemma w_dset_slab o t e es old unl off st : es <> [] -> off = or_else (w_off o) 0 -> st = or_else (w_str o) 1 -> 0 <= off -> 1 <= st ->
    off + (Z.of_nat (length es) - 1) * st + 1 < 2 ^ 64 -> not_short (Some (HDset (ftype_of mach t e) old unl)) off st es ->
    exists e1 data x mv, w_dset mach o t e es (ftype_of mach t e) old unl = (Some (HDset (ftype_of mach t e1) data x), mv, Ok tt) /\
      spread off st (zero_elem t) (machine_elems t e es) (machine_elems t e old) (machine_elems t e1 data).
  Proof.
    intros N EO ES O S B C. unfold w_dset. rewrite <- EO, <- ES. replace (st =? 0) with false by lia. rewrite ftype_eqb_refl. cbn [negb].
    assert (Ln : 0 < Z.of_nat (length es)) by (destruct es; [congruence|cbn [length]; lia]).
    assert (P : 0 <= (Z.of_nat (length es) - 1) * st) by (apply Z.mul_nonneg_nonneg; lia).
    replace ((off + Z.of_nat (length es) + (Z.of_nat (length es) - 1) * (st - 1) <? 0) || (2 ^ 64 <=? off + Z.of_nat (length es) + (Z.of_nat (length es) - 1) * (st - 1))) with false
      by (rewrite Z.mul_sub_distr_l, Z.mul_1_r; lia).
    destruct unl; cbn [negb andb].
    - exists e. eexists _, _, _. split; [reflexivity|]. unfold machine_elems. apply spread_reorder. apply spread_slab; assumption.
    - destruct ((off =? 0) && (st =? 1)) eqn:E.
      + assert (off = 0) by lia. assert (st = 1) by lia. subst off st. rewrite H, H0 in *. cbn [not_short] in C.
        assert (L1 : length old = length es) by (destruct C as [C|[C|C]]; [lia|lia|exact C]).
        rewrite L1, Nat.ltb_irrefl, firstn_all. exists e. eexists _, _, _. split; [reflexivity|]. unfold machine_elems. apply spread_reorder. apply spread_fixed; assumption.
      + exists mach. eexists _, _, _. split; [reflexivity|].
        change (fst (ftype_of mach t e)) with t. unfold machine_elems at 3. rewrite reorder_same. fold (machine_elems t e es). fold (machine_elems t e old).
        replace (length es) with (length (machine_elems t e es)) by apply reorder_length. replace (length old) with (length (machine_elems t e old)) by apply reorder_length.
        apply spread_slab; [exact O|exact S|]. intros Q. apply (f_equal (@length _)) in Q. unfold machine_elems in Q. rewrite reorder_length in Q. cbn in Q. lia.
  Qed.
  Lemma machine_zeros t e (es : list elem) : machine_elems t e (map (fun _ => zero_elem t) es) = map (fun _ => zero_elem t) es.
  Proof. unfold machine_elems, reorder. destruct (endian_eqb _ _); [reflexivity|]. rewrite map_map. apply map_ext. intros _. apply zero_rev. Qed.
  Lemma nth_zeros t (es : list elem) j : nth j (map (fun _ => zero_elem t) es) (zero_elem t) = zero_elem t.
  Proof. revert j. induction es as [|x es IH]; intros [|j]; cbn; auto. Qed.
  Lemma w_leaf_slab o t e es r old off st : in_file r t e old -> es <> [] -> off = or_else (w_off o) 0 -> st = or_else (w_str o) 1 -> 0 <= off -> 1 <= st ->
    off + (Z.of_nat (length es) - 1) * st + 1 < 2 ^ 64 -> not_short r off st es ->
    exists e1 data x mv, w_leaf mach o t e es r = (Some (HDset (ftype_of mach t e1) data x), mv, Ok tt) /\
      spread off st (zero_elem t) (machine_elems t e es) (machine_elems t e old) (machine_elems t e1 data).
  Proof.
    intros F N EO ES O S B C. destruct r as [[|ft d unl|b ls]|]; cbn [in_file w_leaf] in *; [destruct F| |destruct F|].
    - destruct F as [F1 F2]. subst ft d. apply w_dset_slab; assumption.
    - subst old. set (z := map (fun _ => zero_elem t) es). set (unl := unlimited _ _ _).
      destruct (w_dset_slab o t e es z unl off st) as (e1 & data & x & mv & E & Sp); auto.
      { unfold not_short. destruct unl; [exact I|]. right. right. apply map_length. }
      rewrite E. exists e1, data, x, mv. split; [reflexivity|]. unfold z in Sp. rewrite machine_zeros in Sp. destruct Sp as (L1 & F1 & F2).
      assert (P : Z.of_nat (length es) - 1 <= (Z.of_nat (length es) - 1) * st).
      { assert (0 < Z.of_nat (length es)) by (destruct es; [congruence|cbn [length]; lia]). nia. }
      split; [|split; [exact F1|]].
      + rewrite L1. unfold machine_elems. rewrite !reorder_length, map_length. cbn [length]. lia.
      + intros j Hj Fj. rewrite (F2 j Hj Fj). rewrite nth_zeros. unfold machine_elems, reorder. destruct (endian_eqb _ _); destruct j; reflexivity.
  Qed.
  Lemma c_leaf_slab o t e es r old : in_file r t e old ->
    (r = None \/ given (w_off o) = true \/ given (w_str o) = true \/ length es = length old \/ exists ft d, r = Some (HDset ft d true)) ->
    match r with Some h => c_leaf mach o (Some (t, e, es)) h = Ok true | None => True end.
  Proof.
    intros F H. destruct r as [[|ft d unl|b ls]|]; cbn [in_file c_leaf] in *; [destruct F| |destruct F|exact I]. destruct F as [F1 F2]. subst ft d. rewrite ftype_eqb_refl. cbn [andb]. f_equal.
    destruct H as [H|[H|[H|[H|(ft & d & H)]]]]; [discriminate| | | |].
    - rewrite H. destruct unl; reflexivity.
    - rewrite H. destruct unl, (given (w_off o)); reflexivity.
    - rewrite H, Nat.eqb_refl, !orb_true_r. reflexivity.
    - injection H as _ _ ->. reflexivity.
  Qed.
  Theorem slab o f p t e es r old :
    let off := or_else (w_off o) 0 in let st := or_else (w_str o) 1 in
    Forall plain_name p -> p <> [] -> slot f p = Some r -> in_file r t e old -> es <> [] -> 0 <= off -> 1 <= st ->
    off + (Z.of_nat (length es) - 1) * st + 1 < 2 ^ 64 -> not_short r off st es ->
    given (w_off o) = true \/ given (w_str o) = true ->
    exists f', h_write mach o f p (TLeaf (Some (t, e, es))) = (f', Ok tt) /\
      h_read mach (mkR (Some off) (Some st) (Some (Z.of_nat (length es)))) f' p fresh = Ok (TLeaf (in_machine_order mach (Some (t, e, es)))) /\
      (exists new, h_read mach all_of_it f' p fresh = Ok (TLeaf (Some (t, snd (ftype_of mach t mach), new))) /\
         spread off st (zero_elem t) (machine_elems t e es) (machine_elems t e old) new) /\
      (forall q, apart p q -> h_find f' q = h_find f q).
  Proof.
    intros off st P NE Sl F N O S B C G.
    destruct (w_leaf_slab o t e es r old off st F N eq_refl eq_refl O S B C) as (e1 & data & x & mv & W & Sp).
    destruct (path_write o t e es p _ mv P NE f r Sl W) as (b' & ls' & E & Fi & A).
    exists (HGroup b' ls'). unfold h_write. rewrite (path_check o p _ P f r Sl).
    2:{ apply (c_leaf_slab o t e es r old F). destruct G as [G|G]; auto. }
    split; [|split; [|split; [|exact A]]].
    - unfold w_tree. destruct p as [|k p]; [congruence|]. exact E.
    - unfold h_read. rewrite Fi. cbn [r_node]. rewrite <- order_of.
      replace (length es) with (length (machine_elems t e es)) by apply reorder_length.
      eapply r_part; [exact O|exact S| |exact Sp]. intros Q. apply (f_equal (@length _)) in Q. unfold machine_elems in Q. rewrite reorder_length in Q. destruct es; [congruence|discriminate Q].
    - unfold h_read. rewrite Fi. cbn [r_node]. eexists. split; [|exact Sp]. unfold ftype_of at 1. rewrite r_whole. reflexivity.
  Qed.
End Machine.
