(** Conversions between numeric types: what they read and write in memory (C59). *)
From Coq Require Import ZArith Lia.
From Verif Require Import Base DType SpecTree Mem MemFacts Node NodeFacts SpecNode NodeCompact NodeSet NodeEndian NodeUpdate NodeMerge NodeSetArray.
From Verif Require Import Number NumberFacts NodeDiff DiffFacts DiffMore ArrayOps ArrayOpsFacts FloatText RoundFacts NumConv NumConvFacts.
Local Open Scope Z_scope.

Section Memory.
Variable mach : endian.
Lemma put_number_ok : forall m h d es i v, numeric (dt_id d) = true -> elems_apart (dt_n d) (default_bytes (dt_id d)) (dt_stride d) ->
  holds m (h_data h) d es -> 0 <= i < dt_n d ->
  exists m', put_number mach m h d i v = Ok m' /\ same_shape m m' /\
    holds m' (h_data h) d (set_nth es (Z.to_nat i) (number_bytes mach (dt_id d) v)) /\
    (forall q, ~ leaf_touches q (h_data h, d) -> rd m' q = rd m q).
Proof.
  intros m h d es i v D Ap H Hi. pose proof (numeric_data _ D) as Da. pose proof (is_data_pos _ Da) as P. set (nb := default_bytes (dt_id d)) in *.
  destruct (holds_rd m (h_data h) d es i 0 Da H Hi ltac:(fold nb; lia)) as (p & bs & Ep & Eb & _ & _). set (bs' := number_bytes mach (dt_id d) v).
  assert (Lb : Z.of_nat (length bs') = nb) by (unfold bs'; rewrite number_bytes_length; fold nb; lia).
  destruct (store_ok m (padd p (eaddr d i)) bs') as (m' & E).
  { rewrite Lb. intros j Hj. destruct (holds_rd m (h_data h) d es i j Da H Hi Hj) as (p' & ? & Ep' & _ & _ & _ & R). rewrite Ep in Ep'. injection Ep' as <-. rewrite padd_padd. exact R. }
  exists m'. assert (EI : element_index d i = Ok (eaddr d i)).
  { unfold element_index. destruct (Z.ltb_spec 0 i) as [X|X]; [|reflexivity]. destruct (Z.eqb_spec (dt_stride d) 0) as [S|S]; [|reflexivity]. exfalso. destruct Ap as [A|A]; lia. }
  split; [unfold put_number; rewrite EI; cbn [obind]; rewrite Ep; exact E|]. split; [exact (store_same_shape _ _ _ _ E)|].
  assert (V : forall j, 0 <= j < nb -> rd m' (padd p (eaddr d i + j)) = nth_error bs' (Z.to_nat j)).
  { intros j Hj. rewrite (rd_store _ _ _ _ (padd p (eaddr d i + j)) E), Lb. unfold padd. cbn [fst snd]. rewrite Nat.eqb_refl. cbn [andb].
    replace ((snd p + eaddr d i <=? snd p + (eaddr d i + j)) && (snd p + (eaddr d i + j) <? snd p + eaddr d i + nb)) with true by lia. f_equal. lia. }
  assert (Fr : forall q, ~ in_range_of (padd p (eaddr d i)) nb q -> rd m' q = rd m q).
  { intros q Nq. rewrite (rd_store _ _ _ _ q E), Lb. rewrite in_range_of_b in Nq.
    destruct ((fst q =? fst (padd p (eaddr d i)))%nat && (snd (padd p (eaddr d i)) <=? snd q) && (snd q <? snd (padd p (eaddr d i)) + nb)) eqn:B; [|reflexivity]. exfalso. apply Nq. lia. }
  split.
  - split; [rewrite length_set_nth; apply H|]. intros a Ha. destruct (Z.eq_dec a i) as [->|Ne].
    + exists bs'. split; [apply nth_error_set_nth_same; apply nth_error_Some; congruence|]. unfold leaf_elem. rewrite Ep. cbn [opadd option_map oload]. fold nb.
      destruct (load_ok m' (padd p (eaddr d i)) nb ltac:(lia)) as (b2 & E2 & L2 & V2).
      { intros j Hj. rewrite padd_padd, V by lia. apply nth_error_Some. lia. }
      rewrite E2. f_equal. apply list_ext; [lia|]. intros j Hj. replace j with (Z.to_nat (Z.of_nat j)) by lia. rewrite V2 by lia. rewrite padd_padd, V by lia. reflexivity.
    + destruct (proj2 H a Ha) as (b & Eb' & La). exists b. split; [rewrite nth_error_set_nth_other by lia; exact Eb'|].
      apply (leaf_elem_move m m' (h_data h) (h_data h) d d a b eq_refl Da La). intros p' j Ep' Hj. exists p'. split; [exact Ep'|]. rewrite Ep in Ep'. injection Ep' as <-.
      apply Fr. intros R. apply Ne. unfold eaddr in *.
      apply (elems_apart_disjoint (padd p (dt_off d)) (dt_n d) nb (dt_stride d) a i (padd p (dt_off d + dt_stride d * a + j)) Ap); auto.
      * exists j. split; [exact Hj|]. rewrite !padd_padd. f_equal. lia.
      * rewrite padd_padd. exact R.
  - intros q Nq. apply Fr. intros (j & Hj & ->). apply Nq. exists p, i, j. cbn [fst snd]. rewrite padd_padd. auto.
Qed.

Lemma shows_n_holds m h d vs : shows_n mach m h d vs -> numeric (dt_id d) = true /\ 0 <= dt_n d /\ exists es, holds m (h_data h) d es /\ vs = map (read_number mach (dt_id d)) es.
Proof.
  intros (D & es & E & X). destruct (leaf_value_inv _ _ _ _ E) as [[T _]|(_ & Hn & es' & Y & H)]; [rewrite T in D; discriminate D|]. injection Y as <-. eauto 6.
Qed.
Lemma holds_shows_n m h d es : numeric (dt_id d) = true -> 0 <= dt_n d -> holds m (h_data h) d es -> shows_n mach m h d (map (read_number mach (dt_id d)) es).
Proof. intros D Hn H. split; [exact D|]. exists es. split; [|reflexivity]. apply leaf_value_data; auto using numeric_data. Qed.
Lemma shows_n_length m h d vs : shows_n mach m h d vs -> Z.of_nat (length vs) = dt_n d.
Proof. intros S. destruct (shows_n_holds _ _ _ _ S) as (D & Hn & es & [L _] & ->). rewrite map_length, L. lia. Qed.
Lemma shows_n_has m h d vs : shows_n mach m h d vs -> Forall (has (dt_id d)) vs.
Proof.
  intros S. destruct (shows_n_holds _ _ _ _ S) as (D & Hn & es & H & ->). apply Forall_forall. intros x I. apply in_map_iff in I. destruct I as (b & <- & I).
  apply read_has; [exact D|]. apply In_nth_error in I. destruct I as (k & K). assert (Hk : (k < length es)%nat) by (apply nth_error_Some; congruence). destruct H as [L H].
  pose proof (is_data_pos _ (numeric_data _ D)) as P.
  destruct (holds_rd m (h_data h) d es (Z.of_nat k) 0 (numeric_data _ D) (conj L H) ltac:(lia) ltac:(lia)) as (p & bs & _ & Eb & Lb & _).
  rewrite Nat2Z.id, K in Eb. injection Eb as <-. exact Lb.
Qed.
Lemma get_number_ok m h d vs i : no_repeat d -> shows_n mach m h d vs -> 0 <= i < dt_n d -> exists v, nth_error vs (Z.to_nat i) = Some v /\ get_number mach m h d i = Ok v.
Proof.
  intros N S Hi. destruct (shows_n_holds _ _ _ _ S) as (D & Hn & es & H & ->). destruct S as (_ & es' & E & X).
  destruct (view_read m h d es' N (numeric_data _ D) E) as (R & H' & _). apply omapM_Ok in R. rewrite Forall2_nth in R. destruct R as [_ R].
  destruct (R (Z.to_nat i) i (zseq_nth _ _ Hi)) as (b & Eb & Rb). rewrite X. exists (read_number mach (dt_id d) b). split; [apply map_nth_error; exact Eb|].
  unfold get_number. rewrite Rb. reflexivity.
Qed.
Lemma set_nth_map {A B} (f : A -> B) l i x : map f (set_nth l i x) = set_nth (map f l) i (f x).
Proof. revert i. induction l as [|a l IH]; intros [|i]; cbn [set_nth map]; try reflexivity. rewrite IH. reflexivity. Qed.
Lemma assigned_refl m h d vs : shows_n mach m h d vs -> assigned_n mach m m h d vs.
Proof. intros S. split; [apply same_shape_refl|]. split; [exact S|reflexivity]. Qed.
Lemma assigned_trans m m1 m2 h d vs ws : assigned_n mach m m1 h d vs -> assigned_n mach m1 m2 h d ws -> assigned_n mach m m2 h d ws.
Proof. intros (A & B & C) (A' & B' & C'). split; [eapply same_shape_trans; eauto|]. split; [exact B'|]. intros q N. rewrite (C' q N). apply C. exact N. Qed.
Lemma put_number_law m h d vs i v : elems_apart (dt_n d) (default_bytes (dt_id d)) (dt_stride d) -> shows_n mach m h d vs -> has (dt_id d) v -> 0 <= i < dt_n d ->
  exists m', put_number mach m h d i v = Ok m' /\ assigned_n mach m m' h d (set_nth vs (Z.to_nat i) v).
Proof.
  intros Ap S Hv Hi. destruct (shows_n_holds _ _ _ _ S) as (D & Hn & es & H & ->). destruct (put_number_ok m h d es i v D Ap H Hi) as (m' & E & Sh & H' & F).
  exists m'. split; [exact E|]. split; [exact Sh|]. split; [|exact F]. rewrite <- (number_round_trip mach (dt_id d) v Hv) at 1. rewrite <- set_nth_map. apply holds_shows_n; assumption.
Qed.

(** element *)
Theorem element_law m t h d vs i v : numeric t = true -> no_repeat d -> shows_n mach m h d vs -> 0 <= i -> nth_error vs (Z.to_nat i) = Some v ->
  (convertible t v -> exists w, acc_element mach m t h d i = Ok w /\ converted t v w) /\ (~ convertible t v -> acc_element mach m t h d i = UB).
Proof.
  intros T N S Hi V. assert (Hi' : 0 <= i < dt_n d). { rewrite <- (shows_n_length _ _ _ _ S). assert (Z.to_nat i < length vs)%nat by (apply nth_error_Some; congruence). lia. }
  destruct (get_number_ok m h d vs i N S Hi') as (v' & V' & G). rewrite V in V'. injection V' as <-. unfold acc_element. destruct S as (D & _). rewrite D, G. cbn [obind].
  split; [apply cast_law; exact T|apply cast_undefined].
Qed.
(** set *)
Theorem set_law m h d vs i v : elems_apart (dt_n d) (default_bytes (dt_id d)) (dt_stride d) -> shows_n mach m h d vs -> 0 <= i < Z.of_nat (length vs) -> convertible (dt_id d) v ->
  exists m' w, acc_set mach m h d i v = Ok m' /\ converted (dt_id d) v w /\ assigned_n mach m m' h d (set_nth vs (Z.to_nat i) w).
Proof.
  intros Ap S Hi C. rewrite (shows_n_length _ _ _ _ S) in Hi. destruct (cast_law (dt_id d) v (proj1 S) C) as (w & Ew & K).
  destruct (put_number_law m h d vs i w Ap S (proj1 K) Hi) as (m' & E & A). exists m', w. unfold acc_set. rewrite (proj1 S), Ew. auto.
Qed.
(** loops over the elements 0, 1, ... *)
Lemma skipn_step {A} (l : list A) k x : nth_error l k = Some x -> skipn k l = x :: skipn (S k) l.
Proof. revert k. induction l as [|a l IH]; intros [|k] H; try discriminate H; [injection H as ->; reflexivity|]. cbn [skipn]. apply IH. exact H. Qed.
Lemma set_nth_app {A} (a : list A) x b y : set_nth (a ++ x :: b) (length a) y = (a ++ [y]) ++ b.
Proof. induction a as [|z a IH]; cbn [app length set_nth]; [reflexivity|]. rewrite IH. reflexivity. Qed.
Lemma put_all_law h d w : elems_apart (dt_n d) (default_bytes (dt_id d)) (dt_stride d) -> has (dt_id d) w -> forall rest m ds,
  shows_n mach m h d (ds ++ rest) ->
  exists m', put_all mach m h d w (map (fun j => Z.of_nat (length ds) + Z.of_nat j) (seq 0 (length rest))) = Ok m' /\ assigned_n mach m m' h d (ds ++ repeat w (length rest)).
Proof.
  intros Ap Hw. induction rest as [|x rest IH]; intros m ds S; cbn [length seq map put_all repeat].
  - exists m. split; [reflexivity|]. apply assigned_refl. exact S.
  - pose proof (shows_n_length _ _ _ _ S) as Ls. rewrite app_length in Ls. cbn [length] in Ls. rewrite Z.add_0_r.
    destruct (put_number_law m h d _ (Z.of_nat (length ds)) w Ap S Hw ltac:(lia)) as (m1 & E1 & A1). rewrite E1. cbn [obind]. rewrite Nat2Z.id, set_nth_app in A1.
    destruct (IH m1 (ds ++ [w]) (proj1 (proj2 A1))) as (m2 & E2 & A2). rewrite app_length in E2. cbn [length] in E2.
    rewrite <- seq_shift, map_map. rewrite (map_ext _ (fun j => Z.of_nat (length ds + 1) + Z.of_nat j)) by (intros j; lia). exists m2. split; [exact E2|].
    rewrite <- app_assoc in A2. eapply assigned_trans; eauto.
Qed.
Lemma zseq_len n k : n = Z.of_nat k -> zseq n = map (fun j => 0 + Z.of_nat j) (seq 0 k).
Proof. intros ->. unfold zseq. rewrite Nat2Z.id. apply map_ext. intros j. lia. Qed.
Theorem fill_all_law m h d vs v : elems_apart (dt_n d) (default_bytes (dt_id d)) (dt_stride d) -> shows_n mach m h d vs -> convertible (dt_id d) v ->
  exists m' w, acc_fill mach m h d v = Ok m' /\ converted (dt_id d) v w /\ assigned_n mach m m' h d (repeat w (length vs)).
Proof.
  intros Ap S C. destruct (cast_law (dt_id d) v (proj1 S) C) as (w & Ew & K). destruct (put_all_law h d w Ap (proj1 K) vs m [] S) as (m' & E & A).
  exists m', w. unfold acc_fill. rewrite (proj1 S), Ew. cbn [obind]. rewrite (zseq_len (dt_n d) (length vs)) by (symmetry; eapply shows_n_length; eauto). auto.
Qed.
Lemma shows_n_frame m m' h d vs : shows_n mach m h d vs -> (forall q, leaf_touches q (h_data h, d) -> rd m' q = rd m q) -> shows_n mach m' h d vs.
Proof.
  intros S F. destruct (shows_n_holds _ _ _ _ S) as (D & Hn & es & H & ->). apply holds_shows_n; [exact D|exact Hn|].
  apply (holds_frame m m' (h_data h) d es (numeric_data _ D) H F).
Qed.
(** the array conversion, destination and source apart *)
Lemma conv_elems_law h d h' d' : elems_apart (dt_n d) (default_bytes (dt_id d)) (dt_stride d) -> no_repeat d' -> leaves_apart (h_data h, d) (h_data h', d') ->
  forall rest src m ds done, length ds = length done -> Forall (convertible (dt_id d)) src ->
  shows_n mach m h d (ds ++ rest) -> shows_n mach m h' d' (done ++ src) -> (length rest <= length src)%nat ->
  exists m' ws, conv_elems mach m h d h' d' (map (fun j => Z.of_nat (length ds) + Z.of_nat j) (seq 0 (length rest))) = Ok m' /\
    assigned_n mach m m' h d (ds ++ ws) /\ Forall2 (converted (dt_id d)) (firstn (length rest) src) ws /\ shows_n mach m' h' d' (done ++ src).
Proof.
  intros Ap N Lp. induction rest as [|x rest IH]; intros src m ds dn L C S S' Le; cbn [length seq map conv_elems firstn].
  - exists m, []. split; [reflexivity|]. split; [apply assigned_refl; exact S|]. split; [constructor|exact S'].
  - destruct src as [|v src]; [cbn in Le; lia|]. inversion C as [|? ? Cv C']; subst. cbn [length] in Le.
    pose proof (shows_n_length _ _ _ _ S) as Ls. rewrite app_length in Ls. cbn [length] in Ls. pose proof (shows_n_length _ _ _ _ S') as Ls'. rewrite app_length in Ls'. cbn [length] in Ls'. rewrite Z.add_0_r.
    destruct (get_number_ok m h' d' _ (Z.of_nat (length ds)) N S' ltac:(lia)) as (v' & V' & G). rewrite Nat2Z.id, L, nth_error_app2, Nat.sub_diag in V' by lia. injection V' as <-.
    rewrite G. cbn [obind]. destruct (cast_law (dt_id d) v (proj1 S) Cv) as (w & Ew & K). rewrite Ew. cbn [obind].
    destruct (put_number_law m h d _ (Z.of_nat (length ds)) w Ap S (proj1 K) ltac:(lia)) as (m1 & E1 & A1). rewrite E1. cbn [obind]. rewrite Nat2Z.id, set_nth_app in A1.
    assert (S1 : shows_n mach m1 h' d' ((dn ++ [v]) ++ src)).
    { rewrite <- app_assoc. apply (shows_n_frame m m1 h' d' _ S'). intros q Tq. apply A1. intros T. apply (Lp q). auto. }
    destruct (IH src m1 (ds ++ [w]) (dn ++ [v]) ltac:(rewrite !app_length; cbn; lia) C' (proj1 (proj2 A1)) S1 ltac:(lia)) as (m2 & ws & E2 & A2 & F2 & S2). rewrite app_length in E2. cbn [length] in E2.
    rewrite <- seq_shift, map_map. rewrite (map_ext _ (fun j => Z.of_nat (length ds + 1) + Z.of_nat j)) by (intros j; lia). exists m2, (w :: ws). split; [exact E2|].
    rewrite <- app_assoc in A2. split; [eapply assigned_trans; eauto|]. split; [constructor; assumption|]. rewrite <- app_assoc in S2. exact S2.
Qed.

(** to_T_array *)
Theorem to_array_law m t hs ds dest vs v0 : numeric t = true -> healthy m dest -> nvalue m dest = Ok v0 ->
  shows_n mach m hs ds vs -> no_repeat ds -> Forall (convertible t) vs -> exact_or_new dest t (dt_n ds) ->
  (forall q, touches (NLeaf hs ds) q -> ~ touches dest q /\ ~ ob dest (fst q)) ->
  exists m' h d ws, to_array mach m t (NLeaf hs ds) dest = Ok (m', NLeaf h d) /\ dt_id d = t /\ dt_endian d = init_endian dest t (dt_n ds) /\
    shows_n mach m' h d ws /\ Forall2 (converted t) vs ws /\ shows_n mach m' hs ds vs /\
    healthy m' (NLeaf h d) /\ step m (touches dest) (ob dest) m' (touches (NLeaf h d)) (ob (NLeaf h d)).
Proof.
  intros T H Ev S N C Ex Dj. apply healthy_good in H. pose proof (shows_n_length _ _ _ _ S) as Ls.
  assert (I : exists m1 h d es, ninit m dest (dt_simple t (dt_n ds)) = Ok (m1, NLeaf h d) /\ dt_id d = t /\ dt_n d = dt_n ds /\ dt_endian d = init_endian dest t (dt_n ds) /\
              good m1 (NLeaf h d) /\ leaf_value m1 (h_data h) d = Ok (Some (t, dt_endian d, es)) /\ step m (touches dest) (ob dest) m1 (touches (NLeaf h d)) (ob (NLeaf h d)) /\
              shows_n mach m1 hs ds vs /\ (forall q, leaf_touches q (h_data hs, ds) -> ~ leaf_touches q (h_data h, d))).
  { unfold init_endian. destruct (dt_compatible (n_dtype dest) (dt_simple t (dt_n ds))) eqn:K.
    - destruct (compat_leaf dest t (dt_n ds) (numeric_data _ T) K) as (h & d & -> & Ht & Hb & Hle). apply nvalue_leaf in Ev. destruct Ev as (lv & -> & Ed).
      destruct (leaf_value_inv _ _ _ _ Ed) as [[T' _]|(D' & Hn' & es0 & -> & Hh')]. { rewrite Ht in T'. rewrite T' in T. discriminate T. }
      exists m, h, d, es0. unfold ninit. rewrite K. split; [reflexivity|]. split; [exact Ht|]. split; [exact (Ex K)|]. split; [reflexivity|]. split; [exact H|]. rewrite Ht in Ed. split; [exact Ed|].
      split; [apply step_refl; intros b; apply (good_live _ _ _ H)|]. split; [exact S|]. intros q Tq Tq'. apply (proj1 (Dj q ltac:(apply touches_leaf; exact Tq))). apply touches_leaf. exact Tq'.
    - destruct (ninit_fresh m dest t (dt_n ds) H (numeric_data _ T) ltac:(lia) K) as (m1 & es & E1 & G1 & V1 & S1 & X1). cbv zeta in *.
      exists m1, (mkH (Some (length m, 0)) true), (dt_simple t (dt_n ds)), es. split; [exact E1|]. split; [reflexivity|]. split; [reflexivity|]. split; [reflexivity|]. split; [exact G1|]. split; [exact V1|]. split; [exact S1|].
      assert (Lt : forall q, leaf_touches q (h_data hs, ds) -> (fst q < length m)%nat).
      { intros q Tq. destruct S as (D & es' & El & _). apply rd_lt. apply (nvalue_readable (NLeaf hs ds) m (TLeaf (Some (dt_id ds, dt_endian ds, es')))); [apply nvalue_leaf; eauto|apply touches_leaf; exact Tq]. }
      split.
      + apply (shows_n_frame m m1 hs ds vs S). intros q Tq. destruct (Dj q ltac:(apply touches_leaf; exact Tq)) as [A B]. apply (st_frame _ _ _ _ _ _ S1); auto.
      + intros q Tq (p & i & j & Ep & _ & _ & Eq). injection Ep as <-. specialize (Lt q Tq). rewrite Eq in Lt. cbn in Lt. lia. }
  destruct I as (m1 & h & d & es & E1 & Ht & Hn & En & G1 & V1 & S1 & Sv & Ap).
  unfold to_array. cbn [n_dtype]. rewrite E1. cbn [obind]. rewrite (proj1 S).
  set (xs := map (read_number mach (dt_id d)) es). assert (Sx : shows_n mach m1 h d xs) by (split; [rewrite Ht; exact T|]; exists es; rewrite Ht at 1; split; [exact V1|reflexivity]).
  pose proof (shows_n_length _ _ _ _ Sx) as Lx. pose proof G1 as (_ & _ & _ & Ea & _).
  destruct (conv_elems_law h d hs ds Ea N ltac:(intros q [A B]; exact (Ap q B A)) xs vs m1 [] [] eq_refl ltac:(rewrite Ht; exact C) Sx Sv ltac:(lia)) as (m2 & ws & E2 & A2 & F2 & S2).
  rewrite (zseq_len (dt_n d) (length xs)) by lia. cbn [length app] in E2. change (Z.of_nat 0) with 0 in E2. rewrite E2. cbn [obind].
  exists m2, h, d, ws. split; [reflexivity|]. split; [exact Ht|]. split; [exact En|]. split; [apply A2|]. split; [rewrite firstn_all2 in F2 by lia; rewrite Ht in F2; exact F2|]. split; [exact S2|].
  destruct A2 as (Sh & _ & F). split.
  - apply healthy_good. apply (good_keep m1 m2 _ G1). intros b _. apply (same_shape_live m1 m2 b Sh).
  - apply (step_trans _ _ _ _ _ _ _ _ _ S1). pose proof (proj1 Sh) as Len. constructor; auto; try lia.
    + intros q _ _ Nt. apply F. intros X. apply Nt. apply touches_leaf. exact X.
    + intros b Lv _. apply (same_shape_live m1 m2 b Sh). exact Lv.
    + intros b _ Lv. apply (same_shape_live m1 m2 b Sh). exact Lv.
    + intros b Lv [X|X]; [exact X|]. apply live_lt in Lv. lia.
Qed.
(** to_T *)
Theorem to_scalar_law m t h d v vs : numeric t = true -> shows_n mach m h d (v :: vs) ->
  (convertible t v -> exists w, to_scalar mach m t (NLeaf h d) = Ok w /\ converted t v w) /\ (~ convertible t v -> to_scalar mach m t (NLeaf h d) = UB).
Proof.
  intros T S. pose proof (shows_n_length _ _ _ _ S) as Ls. cbn [length] in Ls. destruct (shows_n_holds _ _ _ _ S) as (D & Hn & es & H & X).
  assert (G : get_number mach m h d 0 = Ok v).
  { destruct (proj2 H 0 ltac:(lia)) as (bs & E0 & R). destruct es as [|b es]; [discriminate X|]. injection X as X _. injection E0 as <-. unfold get_number, elem_read, element_index. cbn [Z.ltb Z.compare andb obind].
    unfold leaf_elem, eaddr in R. rewrite R. cbn [obind]. congruence. }
  cbn [to_scalar]. rewrite D, G. cbn [obind]. split; [apply cast_law; exact T|apply cast_undefined].
Qed.
End Memory.
