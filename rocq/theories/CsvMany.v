(** Many tables, written to a directory and read back. *)
From Coq Require Import ZArith Lia FinFun Permutation Sorting.Sorted Floats.SpecFloat.
From Verif Require Import Base DType Mem Number ArrayOps Codec Json JsonSpec JsonSchema FloatText Node NodeFacts MatSet HistFacts Csv CsvFacts CsvNum.
Local Open Scope nat_scope.

(** * Sorting by index *)
Definition upto {A} (a b : Z * A) : Prop := (fst a <= fst b)%Z.
Lemma insert_perm {A} (x : Z * A) l : Permutation (insert_by x l) (x :: l).
Proof.
  induction l as [|y r IH]; cbn [insert_by]; [reflexivity|]. destruct (Z.ltb _ _); [reflexivity|].
  eapply perm_trans; [apply perm_skip, IH|]. apply perm_swap.
Qed.
Lemma insert_sorted {A} (x : Z * A) l : StronglySorted upto l -> StronglySorted upto (insert_by x l).
Proof.
  induction 1 as [|y r S' IH F]; cbn [insert_by]; [repeat constructor|]. destruct (Z.ltb_spec (fst x) (fst y)).
  - constructor; [constructor; assumption|]. constructor; [unfold upto; lia|]. eapply Forall_impl; [|exact F]. unfold upto. intros; lia.
  - constructor; [exact IH|]. rewrite Forall_forall in *. intros z I. apply (Permutation_in _ (insert_perm x r)) in I.
    destruct I as [<-|I]; [exact H|exact (F z I)].
Qed.
Lemma sort_spec {A} (l : list (Z * A)) : forall acc, StronglySorted upto acc ->
  StronglySorted upto (fold_left (fun a x => insert_by x a) l acc) /\ Permutation (fold_left (fun a x => insert_by x a) l acc) (l ++ acc).
Proof.
  induction l as [|x l IH]; intros acc S'; cbn [fold_left app]; [split; [exact S'|reflexivity]|].
  destruct (IH _ (insert_sorted x acc S')) as [H1 H2]. split; [exact H1|].
  eapply perm_trans; [exact H2|]. eapply perm_trans; [apply Permutation_app_head, insert_perm|]. symmetry. apply Permutation_middle.
Qed.
Lemma sorted_unique {A} (l l' : list (Z * A)) : StronglySorted upto l -> StronglySorted upto l' -> Permutation l l' ->
  NoDup (map fst l) -> l = l'.
Proof.
  revert l'. induction l as [|x l IH]; intros l' S1 S2 P D.
  - apply Permutation_nil in P. congruence.
  - destruct l' as [|y l']; [apply Permutation_sym, Permutation_nil in P; discriminate|].
    assert (E : x = y).
    { assert (Ix : In x (y :: l')) by (apply (Permutation_in _ P); left; reflexivity).
      assert (Iy : In y (x :: l)) by (apply (Permutation_in _ (Permutation_sym P)); left; reflexivity).
      destruct Iy as [|Iy]; [assumption|]. destruct Ix as [|Ix]; [congruence|].
      inversion_clear S1 as [|? ? _ F1]. inversion_clear S2 as [|? ? _ F2]. rewrite Forall_forall in F1, F2.
      specialize (F1 _ Iy). specialize (F2 _ Ix). unfold upto in *.
      cbn [map] in D. inversion_clear D as [|? ? D1 _]. elim D1. replace (fst x) with (fst y) by lia. apply in_map, Iy. }
    subst y. f_equal. inversion_clear S1. inversion_clear S2. inversion_clear D. apply IH; try assumption.
    exact (Permutation_cons_inv P).
Qed.
Lemma sort_perm {A} (l l' : list (Z * A)) : StronglySorted upto l -> NoDup (map fst l) -> Permutation l l' -> sort_by l' = l.
Proof.
  intros S' D P. destruct (sort_spec l' [] (SSorted_nil _)) as [H1 H2]. rewrite app_nil_r in H2.
  symmetry. apply sorted_unique; [exact S'|exact H1| |exact D]. eapply perm_trans; [exact P|]. symmetry. exact H2.
Qed.

(** * File names *)
(** a path to a directory, ending in a slash, without the words table_list_ *)
Definition good_dir (dir : str) : Prop :=
  (exists d, dir = d ++ [slash]) /\ forall a b, dir <> a ++ table_list_prefix ++ b.
Lemma prefix_iff w s : prefix_of w s = true <-> exists r, s = w ++ r.
Proof.
  unfold prefix_of. destruct (str_eqb_spec (firstn (length w) s) w) as [E|E].
  - split; [|reflexivity]. intros _. exists (skipn (length w) s). rewrite <- E at 1. symmetry. apply firstn_skipn.
  - split; [discriminate|]. intros (r & ->). elim E. rewrite firstn_app, firstn_all, Nat.sub_diag. apply app_nil_r.
Qed.
Lemma find_some w s i : find_str w s = Some i -> prefix_of w (skipn i s) = true.
Proof.
  revert i. induction s as [|c r IH]; intros i; cbn [find_str]; destruct (prefix_of w _) eqn:E; intros H.
  - inversion H; subst. exact E.
  - discriminate.
  - inversion H; subst. exact E.
  - destruct (find_str w r) as [j|]; [|discriminate]. inversion H; subst. cbn [skipn]. apply IH. reflexivity.
Qed.
Lemma find_after w b : prefix_of w b = true -> forall a,
  (forall i, i < length a -> prefix_of w (skipn i (a ++ b)) = false) -> find_str w (a ++ b) = Some (length a).
Proof.
  intros P. induction a as [|c a IH]; intros H.
  - cbn [app length]. destruct b; cbn [find_str]; rewrite P; reflexivity.
  - pose proof (H 0 ltac:(cbn; lia)) as H0. cbn [skipn app] in H0. cbn [app find_str]. rewrite H0.
    rewrite IH; [reflexivity|]. intros i I. apply (H (S i)). cbn. lia.
Qed.
Lemma prefix_no_slash : ~ In slash table_list_prefix.
Proof. vm_compute. intuition discriminate. Qed.
Lemma dir_skip dir b i : good_dir dir -> i < length dir -> prefix_of table_list_prefix (skipn i (dir ++ b)) = false.
Proof.
  intros ((d & ->) & N) I. destruct (prefix_of _ _) eqn:E; [|reflexivity]. exfalso. apply prefix_iff in E. destruct E as (r & E).
  rewrite app_length in I. cbn [length] in I.
  rewrite <- app_assoc in E. rewrite skipn_app in E. replace (i - length d) with 0 in E by lia. cbn [skipn] in E.
  destruct (le_gt_dec (length table_list_prefix) (length (skipn i d))) as [C|C].
  - assert (Q : skipn i d = table_list_prefix ++ skipn (length table_list_prefix) (skipn i d)).
    { pose proof (f_equal (firstn (length table_list_prefix)) E) as F.
      rewrite firstn_app, (firstn_app _ table_list_prefix), firstn_all, Nat.sub_diag in F.
      replace (length table_list_prefix - length (skipn i d)) with 0 in F by lia. rewrite !firstn_O, !app_nil_r in F.
      rewrite <- (firstn_skipn (length table_list_prefix) (skipn i d)) at 1. rewrite F. reflexivity. }
    apply (N (firstn i d) (skipn (length table_list_prefix) (skipn i d) ++ [slash])).
    rewrite <- (firstn_skipn i d) at 1. rewrite Q at 1. rewrite <- !app_assoc. reflexivity.
  - apply prefix_no_slash.
    assert (Q : nth_error table_list_prefix (length (skipn i d)) = Some slash).
    { rewrite <- (nth_error_app1 _ r) by exact C. rewrite <- E. rewrite nth_error_app2, Nat.sub_diag by lia. reflexivity. }
    exact (nth_error_In _ _ Q).
Qed.
Lemma find_in_dir dir r : good_dir dir -> find_str table_list_prefix (dir ++ table_list_prefix ++ r) = Some (length dir).
Proof. intros G. apply find_after; [apply prefix_iff; exists r; reflexivity|]. intros i I. apply dir_skip; assumption. Qed.
Lemma rfind_app w b i : rfind_str w b = Some i -> forall a, rfind_str w (a ++ b) = Some (length a + i).
Proof.
  intros H. induction a as [|c a IH]; [exact H|]. cbn [app rfind_str]. rewrite IH. reflexivity.
Qed.
Lemma prefix_head d w c r : c <> d -> prefix_of (d :: w) (c :: r) = false.
Proof. intros N. destruct (prefix_of (d :: w) (c :: r)) eqn:E; [|reflexivity]. apply prefix_iff in E. destruct E as (x & E). inversion E. congruence. Qed.
Lemma rfind_index s : Forall digit s -> rfind_str table_list_prefix (table_list_prefix ++ s ++ csv_ext) = Some 0.
Proof.
  intros D.
  assert (N : rfind_str table_list_prefix (s ++ csv_ext) = None).
  { induction D as [|c s C _ IH]; [reflexivity|]. cbn [app rfind_str]. rewrite IH.
    change table_list_prefix with ("t"%char :: L "able_list_") at 1. rewrite prefix_head; [reflexivity|].
    intros ->. vm_compute in C. intuition discriminate. }
  assert (U : forall c r, c <> "t"%char -> rfind_str table_list_prefix r = None -> rfind_str table_list_prefix (c :: r) = None).
  { intros c r C R. cbn [rfind_str]. rewrite R. change table_list_prefix with ("t"%char :: L "able_list_") at 1. rewrite prefix_head; [reflexivity|exact C]. }
  assert (T : rfind_str table_list_prefix (L "able_list_" ++ s ++ csv_ext) = None).
  { cbn [L list_ascii_of_string app].
    do 7 (apply U; [discriminate|]).
    assert (R : rfind_str table_list_prefix ("_"%char :: s ++ csv_ext) = None) by (apply U; [discriminate|exact N]).
    cbn [rfind_str] in R |- *. rewrite N in *. destruct (prefix_of table_list_prefix ("_"%char :: s ++ csv_ext)); [discriminate|].
    replace (prefix_of table_list_prefix ("t"%char :: "_"%char :: s ++ csv_ext)) with false; [reflexivity|].
    symmetry. destruct (prefix_of _ _) eqn:E; [|reflexivity]. apply prefix_iff in E. destruct E as (x & E). discriminate E. }
  change (table_list_prefix ++ s ++ csv_ext) with ("t"%char :: (L "able_list_" ++ s ++ csv_ext)).
  cbn [rfind_str]. rewrite T.
  replace (prefix_of table_list_prefix ("t"%char :: L "able_list_" ++ s ++ csv_ext)) with true; [reflexivity|].
  symmetry. apply prefix_iff. exists (s ++ csv_ext). reflexivity.
Qed.
Lemma index_file i : exists s, digits s /\ dec_of s = Z.of_nat i /\ file_of_index i = table_list_prefix ++ s ++ csv_ext.
Proof.
  destruct (show_Z_text (Z.of_nat i)) as (s & D & V & E). exists s. split; [exact D|]. split; [lia|].
  unfold file_of_index. rewrite E. destruct (Z.ltb_spec (Z.of_nat i) 0); [lia|]. reflexivity.
Qed.
Lemma take_digits_app s r : Forall digit s -> (forall c u, r = c :: u -> num_char c = false) -> take_digits (s ++ r) = (s, r).
Proof.
  intros D N. unfold take_digits. induction D as [|c s C _ IH].
  - destruct r as [|c u]; [reflexivity|]. cbn [app take_while]. rewrite (N c u eq_refl). reflexivity.
  - cbn [app take_while]. assert (Q : num_char c = true) by (apply (digit_cases c (fun c => num_char c = true)); [reflexivity..|exact C]).
    rewrite Q, IH. reflexivity.
Qed.
Lemma index_read dir i : (Z.of_nat i < 2 ^ 31)%Z -> index_text (after_prefix (dir ++ file_of_index i)) = Z.of_nat i.
Proof.
  intros B. destruct (index_file i) as (s & (N & D) & V & ->). unfold after_prefix.
  rewrite (rfind_app _ _ 0 (rfind_index s D)), Nat.add_0_r.
  rewrite skipn_app. rewrite skipn_all2 by lia. replace (length dir + length table_list_prefix - length dir) with (length table_list_prefix) by lia.
  cbn [app]. rewrite skipn_app, skipn_all, Nat.sub_diag. cbn [skipn app]. unfold index_text.
  rewrite take_digits_app; [|exact D|intros c u E; inversion E; reflexivity].
  destruct s; [congruence|]. rewrite V. unfold int_max32. lia.
Qed.
Lemma ends_ok a : ends_with csv_ext (a ++ csv_ext) = true.
Proof.
  unfold ends_with. rewrite app_length. replace (length a + length csv_ext - length csv_ext) with (length a) by lia.
  rewrite skipn_app, skipn_all, Nat.sub_diag. cbn [skipn app]. rewrite str_eqb_refl.
  apply Nat.leb_le. lia.
Qed.
Lemma file_inj i j : file_of_index i = file_of_index j -> i = j.
Proof.
  intros H. destruct (index_file i) as (s & _ & V & E), (index_file j) as (s' & _ & V' & E').
  rewrite E, E' in H. apply app_inv_head in H. apply app_inv_tail in H. subst. lia.
Qed.

(** * Writing the files *)
Lemma write_files ns : forall vs txts d, NoDup (map fst d ++ ns) -> length ns = length vs ->
  Forall2 (fun v s => write_table v = Ok s) vs txts ->
  ofold write_file (combine ns vs) d = Ok (d ++ combine ns txts).
Proof.
  induction ns as [|k ns IH]; intros [|v vs] txts d D E H; try discriminate.
  - cbn. rewrite app_nil_r. reflexivity.
  - inversion H as [|? s ? txts' H1 H2]; subst. cbn [combine ofold]. unfold write_file at 1. cbn [fst snd]. rewrite H1. cbn [obind].
    rewrite mset_end by (exact (notin_mid _ _ _ D)).
    rewrite (IH vs txts'); [rewrite <- app_assoc; reflexivity| |cbn in E; lia|exact H2].
    rewrite map_app. cbn [map fst]. rewrite <- app_assoc. exact D.
Qed.
Definition good (t : tid) (v : values) : Prop := exists n, good_table t n v.
Lemma round_trip t v : good t v -> exists s x, write_csv v = Ok s /\ write_table v = Ok s /\ read_table t s = Ok x /\ table_back t v x.
Proof.
  intros (n & G). destruct (table_round_trip _ _ _ G) as (s & x & W & R & B). exists s, x. split; [exact W|]. split; [|split; assumption].
  unfold write_csv in W. rewrite (verify_ok _ _ _ G) in W. exact W.
Qed.
Lemma round_trips t vs : Forall (good t) vs -> exists txts xs,
  Forall2 (fun v s => write_table v = Ok s) vs txts /\ Forall2 (fun s x => read_table t s = Ok x) txts xs /\ Forall2 (table_back t) vs xs.
Proof.
  induction 1 as [|v vs G _ (txts & xs & H1 & H2 & H3)]; [exists [], []; repeat constructor|].
  destruct (round_trip _ _ G) as (s & x & _ & W & R & B). exists (s :: txts), (x :: xs). repeat constructor; assumption.
Qed.
Lemma all_verified t vs : Forall (fun e : str * values => good t (snd e)) vs -> forallb (fun e => verify_values (snd e)) vs = true.
Proof.
  intros H. apply forallb_forall. intros e I. rewrite Forall_forall in H. destruct (H e I) as (n & G). exact (verify_ok _ _ _ G).
Qed.
Lemma write_verified t ts d : named ts <> [] -> Forall (fun e : str * values => good t (snd e)) (named ts) ->
  write_csv_many ts d = write_many ts d.
Proof.
  intros N H. apply all_verified in H. unfold write_csv_many. destruct (named ts); [congruence|]. rewrite H. reflexivity.
Qed.
Lemma map_snd_combine {A B} (a : list A) : forall (b : list B), length a = length b -> map snd (combine a b) = b.
Proof. induction a as [|x a IH]; intros [|y b] E; try discriminate; [reflexivity|]. cbn. f_equal. apply IH. cbn in E. lia. Qed.
Lemma map_fst_combine {A B} (a : list A) : forall (b : list B), length a = length b -> map fst (combine a b) = a.
Proof. induction a as [|x a IH]; intros [|y b] E; try discriminate; [reflexivity|]. cbn. f_equal. apply IH. cbn in E. lia. Qed.

Theorem list_round_trip t dir vs : good_dir dir -> vs <> [] -> (Z.of_nat (length vs) <= 2 ^ 31)%Z -> Forall (good t) vs ->
  exists files, write_csv_many (KList vs) [] = Ok files /\
  forall found, Permutation files found ->
    exists xs, read_many t dir found = Ok (TList xs) /\ Forall2 (table_back t) vs xs.
Proof.
  intros GD NE B H. destruct (round_trips _ _ H) as (txts & xs & H1 & H2 & H3).
  pose proof (Forall2_len _ _ _ H1) as L1.
  set (ns := map file_of_index (seq 0 (length vs))).
  assert (LN : length ns = length vs) by (unfold ns; rewrite map_length, seq_length; reflexivity).
  assert (MS : map snd (named (KList vs)) = vs) by (cbn [named]; apply map_snd_combine; rewrite map_length, seq_length; reflexivity).
  exists (combine ns txts). split.
  - rewrite (write_verified t).
    + unfold write_many. rewrite MS. cbn [file_names]. apply (write_files ns vs txts []); [|exact LN|exact H1].
      cbn [map app]. unfold ns. apply Injective_map_NoDup; [intros i j; apply file_inj|apply seq_NoDup].
    + intros E. rewrite E in MS. cbn in MS. congruence.
    + rewrite Forall_forall in *. intros e I. apply H. rewrite <- MS. apply in_map, I.
  - intros found P. exists xs. split; [|exact H3]. unfold read_many.
    assert (FN : forall e, In e found -> exists i, i < length vs /\ fst e = file_of_index i).
    { intros [k s] I. apply (Permutation_in _ (Permutation_sym P)) in I. apply in_combine_l in I. unfold ns in I.
      apply in_map_iff in I. destruct I as (i & <- & I). apply in_seq in I. exists i. split; [lia|reflexivity]. }
    replace (existsb _ found) with false.
    2:{ symmetry. destruct (existsb _ found) eqn:E; [|reflexivity]. apply existsb_exists in E. destruct E as (e & I & E). cbv beta in E.
        destruct (FN e I) as (i & _ & F). destruct (index_file i) as (s & _ & _ & FI). 
        assert (LF : 4 <= length (fst e)) by (rewrite F, FI, !app_length; cbn; lia).
        apply Nat.ltb_lt in E. rewrite app_length in E. unfold str in *. lia. }
    assert (FE : filter (fun e => ends_with csv_ext (dir ++ fst e)) found = found).
    { clear P. induction found as [|e found IH]; [reflexivity|]. cbn [filter].
      destruct (FN e (or_introl eq_refl)) as (i & _ & F). destruct e as [k u]. cbn [fst] in *. subst k.
      destruct (index_file i) as (s & _ & _ & FI). rewrite FI at 1. rewrite !app_assoc, ends_ok. f_equal. apply IH. intros e' I. apply FN. right. exact I. }
    rewrite FE. clear FE.
    replace (forallb _ found) with true.
    2:{ symmetry. apply forallb_forall. intros e I. destruct (FN e I) as (i & _ & F). destruct (index_file i) as (s & _ & _ & FI).
        destruct e as [k u]. cbn [fst] in *. subst k. rewrite FI, find_in_dir by exact GD. apply Nat.eqb_refl. }
    set (key := fun e : str * str => (index_text (after_prefix (dir ++ fst e)), snd e)).
    set (ord := combine (map Z.of_nat (seq 0 (length vs))) txts).
    assert (K : map key (combine ns txts) = ord).
    { unfold ord, ns. assert (X : forall i, In i (seq 0 (length vs)) -> (Z.of_nat i < 2 ^ 31)%Z) by (intros i I; apply in_seq in I; lia).
      rewrite L1 in *. clear - X. revert X. generalize (seq 0 (length txts)) as q. intros q. revert txts.
      induction q as [|i q IH]; intros txts X; [reflexivity|]. destruct txts as [|s txts]; [reflexivity|]. cbn [map combine]. f_equal.
      - unfold key. cbn [fst snd]. rewrite index_read by (apply X; left; reflexivity). reflexivity.
      - apply IH. intros j J. apply X. right. exact J. }
    assert (FO : map fst ord = map Z.of_nat (seq 0 (length vs))).
    { unfold ord. apply map_fst_combine. rewrite map_length, seq_length. exact L1. }
    rewrite (sort_perm ord).
    + assert (R : omapM (fun e : Z * str => read_table t (snd e)) ord = Ok xs).
      { assert (SO : map snd ord = txts) by (unfold ord; apply map_snd_combine; rewrite map_length, seq_length; exact L1).
        clear - SO H2. clearbody ord. revert txts SO xs H2. induction ord as [|e ord IH]; intros txts SO xs H2; cbn [map] in SO; subst.
        - inversion H2. reflexivity.
        - inversion H2; subst. rewrite omapM_cons. rewrite H1. cbn [obind]. rewrite (IH _ eq_refl _ H4). reflexivity. }
      unfold key in R. rewrite R. reflexivity.
    + assert (SS : forall m a (l : list str), StronglySorted upto (combine (map Z.of_nat (seq a m)) l)).
      { induction m as [|m IH]; intros a l; [constructor|]. destruct l as [|s l]; [constructor|]. cbn [seq map combine]. constructor; [apply IH|].
        apply Forall_forall. intros [z u] I. apply in_combine_l in I. apply in_map_iff in I. destruct I as (j & <- & I). apply in_seq in I.
        unfold upto. cbn [fst]. lia. }
      apply SS.
    + rewrite FO. apply Injective_map_NoDup; [intros i j; lia|apply seq_NoDup].
    + rewrite <- K. apply Permutation_map, P.
Qed.

(** * Named tables *)
Definition good_file (k : str) : Prop := k <> [] /\ ~ In slash k /\ forall r, k <> "."%char :: r.
Lemma good_path k : good_file k -> path_of k = Ok [k].
Proof.
  intros (N & S' & D). unfold path_of. rewrite pieces_none by exact S'. cbn [filter].
  destruct (str_eqb_spec k []); [congruence|]. cbn [negb existsb].
  destruct (str_eqb_spec (L "..") k) as [E|]; [elim (D (L ".")); rewrite <- E; reflexivity|]. reflexivity.
Qed.
Lemma not_list dir k : good_dir dir -> (forall r, k <> table_list_prefix ++ r) ->
  match find_str table_list_prefix (dir ++ k ++ csv_ext) with Some i => Nat.eqb i (length dir) | None => false end = false.
Proof.
  intros G N. destruct (find_str _ _) as [i|] eqn:E; [|reflexivity]. apply Nat.eqb_neq. intros ->.
  apply find_some in E. rewrite skipn_app, skipn_all, Nat.sub_diag in E. cbn [skipn app] in E. apply prefix_iff in E. destruct E as (r & E).
  destruct (le_gt_dec (length table_list_prefix) (length k)) as [C|C].
  - apply (N (skipn (length table_list_prefix) k)).
    pose proof (f_equal (firstn (length table_list_prefix)) E) as F.
    rewrite firstn_app, (firstn_app _ table_list_prefix), firstn_all, Nat.sub_diag in F.
    replace (length table_list_prefix - length k) with 0 in F by lia. rewrite !firstn_O, !app_nil_r in F.
    rewrite <- (firstn_skipn (length table_list_prefix) k) at 1. rewrite F. reflexivity.
  - assert (Q : nth_error table_list_prefix (length k) = Some "."%char).
    { rewrite <- (nth_error_app1 _ r) by exact C. rewrite <- E. rewrite nth_error_app2, Nat.sub_diag by lia. reflexivity. }
    apply nth_error_In in Q. vm_compute in Q. intuition discriminate.
Qed.
Theorem object_round_trip t dir (ts : list (str * values)) : good_dir dir -> NoDup (map fst ts) ->
  Forall (fun e => good_file (fst e) /\ good t (snd e)) ts ->
  Exists (fun e => forall r, fst e <> table_list_prefix ++ r) ts ->
  exists files, write_csv_many (KObj ts) [] = Ok files /\
  forall found, Permutation files found ->
    exists ks, read_many t dir found = Ok (TObj ks) /\ Permutation (map fst ts) (map fst ks) /\
      forall k v, In (k, v) ts -> exists x, mget ks k = Some x /\ table_back t v x.
Proof.
  intros GD ND H EX.
  assert (NM : named (KObj ts) = ts).
  { cbn [named]. rewrite <- (map_id ts) at 2. apply map_ext_in. intros [k v] I. rewrite Forall_forall in H. destruct (H _ I) as ((_ & S' & _) & _).
    cbn [fst snd] in *. f_equal. unfold obj_name, has_char. destruct (existsb (Ascii.eqb slash) k) eqn:E; [|reflexivity].
    apply existsb_exists in E. destruct E as (c & I' & E). apply Ascii.eqb_eq in E. subst. contradiction. }
  assert (HV : Forall (good t) (map snd ts)) by (apply Forall_map; eapply Forall_impl; [|exact H]; intros e E; apply E).
  destruct (round_trips _ _ HV) as (txts & xs & H1 & H2 & H3).
  set (ns := map (fun e : str * values => fst e ++ csv_ext) ts).
  assert (L1 : length ts = length txts) by (rewrite <- (Forall2_len _ _ _ H1), map_length; reflexivity).
  exists (combine ns txts). split.
  - rewrite (write_verified t); rewrite ?NM; [|intros ->; inversion EX|eapply Forall_impl; [|exact H]; intros e E; apply E].
    unfold write_many. cbn [file_names]. rewrite NM. apply (write_files ns (map snd ts) txts []); [|unfold ns; rewrite !map_length; reflexivity|exact H1].
    cbn [map app]. unfold ns. rewrite <- (map_map fst (fun k : str => k ++ csv_ext)).
    apply Injective_map_NoDup; [intros a b E; exact (app_inv_tail _ _ _ E)|exact ND].
  - intros found P. 
    (* what was found: the name, the text, and what is read from it *)
    assert (X : exists ks, Forall2 (fun e k => fst e = fst k ++ csv_ext /\ read_table t (snd e) = Ok (snd k)) (combine ns txts) ks /\
                map fst ks = map fst ts /\ (forall k v, In (k, v) ts -> exists x, In (k, x) ks /\ table_back t v x)).
    { unfold ns. clear - H1 H2 H3 . exists (combine (map fst ts) xs). revert txts xs H1 H2 H3.
      induction ts as [|[k v] ts IH]; intros txts xs H1 H2 H3; cbn [map] in *.
      - inversion H1; subst. inversion H2; subst. repeat split; [constructor|intros ? ? []].
      - inversion H1 as [|? s ? txts' A1 A2]; subst. inversion H2 as [|? x ? xs' B1 B2]; subst. inversion_clear H3 as [|? ? ? ? C1 C2].
        destruct (IH _ _ A2 B2 C2) as (I1 & I2 & I3). cbn [combine map fst snd]. repeat split.
        + constructor; [split; [reflexivity|exact B1]|exact I1].
        + f_equal. exact I2.
        + intros k' v' [E|I]; [inversion E; subst; exists x; split; [left; reflexivity|exact C1]|].
          destruct (I3 k' v' I) as (x' & J & T). exists x'. split; [right; exact J|exact T]. }
    destruct X as (ks0 & F0 & K0 & T0).
    destruct (Permutation_Forall2 P F0) as (ks & PK & F).
    exists ks.
    assert (NK : NoDup (map fst ks)) by (apply (Permutation_NoDup (Permutation_map fst PK)); rewrite K0; exact ND).
    split; [|split].
    + unfold read_many.
      assert (FN : forall e, In e found -> exists k, fst e = k ++ csv_ext).
      { clear - F. intros e I. induction F as [|e' k found ks [E _] _ IH]; [destruct I|].
        destruct I as [<-|I]; [exists (fst k); exact E|apply IH, I]. }
      replace (existsb _ found) with false.
      2:{ symmetry. destruct (existsb _ found) eqn:E; [|reflexivity]. apply existsb_exists in E. destruct E as (e & I & E). cbv beta in E.
          destruct (FN e I) as (k & FI). 
          assert (LF : 4 <= length (fst e)) by (rewrite FI, !app_length; cbn; lia).
          apply Nat.ltb_lt in E. rewrite app_length in E. unfold str in *. lia. }
      assert (FE : filter (fun e => ends_with csv_ext (dir ++ fst e)) found = found).
      { clear - FN. induction found as [|e found IH]; [reflexivity|]. cbn [filter].
        destruct (FN e (or_introl eq_refl)) as (k & FI). destruct e as [k' u]. cbn [fst] in *. subst k'. rewrite !app_assoc, ends_ok. f_equal. apply IH. intros e' I. apply FN. right. exact I. }
      rewrite FE. clear FE.
      replace (forallb _ found) with false.
      2:{ symmetry. destruct (forallb _ found) eqn:E; [|reflexivity]. exfalso. rewrite forallb_forall in E.
          apply Exists_exists in EX. destruct EX as (e & I & N).
          assert (I' : In (fst e ++ csv_ext) ns) by (unfold ns; apply (in_map (fun e : str * values => fst e ++ csv_ext)), I).
          rewrite <- (map_fst_combine ns txts) in I' by (unfold ns; rewrite map_length; exact L1).
          apply in_map_iff in I'. destruct I' as (e' & E' & I'). apply (Permutation_in _ P) in I'. specialize (E _ I'). cbv beta in E. rewrite E' in E.
          rewrite not_list in E by assumption. discriminate. }
      assert (GK : Forall good_file (map fst ks)).
      { rewrite Forall_forall in *. intros k I. apply (Permutation_in _ (Permutation_sym (Permutation_map fst PK))) in I. rewrite K0 in I.
        apply in_map_iff in I. destruct I as (e & <- & I). apply H, I. }
      match goal with |- obind (ofold ?f found []) _ = _ => set (f0 := f) end.
      assert (R : forall acc, NoDup (map fst acc ++ map fst ks) -> ofold f0 found acc = Ok (acc ++ ks)).
      { clear - F GK. induction F as [|e k found ks [E R] _ IH]; intros acc D; [cbn; rewrite app_nil_r; reflexivity|].
        cbn [map] in GK. inversion_clear GK as [|? ? G1 G2]. destruct e as [ke u], k as [kk xk]. cbn [fst snd] in *. subst ke. cbn [ofold]. unfold f0 at 1. cbn [fst snd].
        rewrite app_length. replace (length kk + length csv_ext - 4) with (length kk) by (cbn; lia).
        rewrite firstn_app, firstn_all, Nat.sub_diag. cbn [firstn]. rewrite app_nil_r.
        rewrite good_path by exact G1. cbn [obind]. rewrite R. cbn [obind]. cbn [map] in D.
        rewrite mset_end by (exact (notin_mid _ _ _ D)). rewrite (IH G2).
        - rewrite <- app_assoc. reflexivity.
        - rewrite map_app. cbn [map fst]. rewrite <- app_assoc. exact D. }
      pose proof (R [] NK) as R0. cbn [app] in R0. match goal with |- obind ?a _ = _ => replace a with (Ok ks) end. reflexivity.
    + rewrite <- K0. apply Permutation_map, PK.
    + intros k v I. destruct (T0 k v I) as (x & J & T). exists x. split; [|exact T].
      apply mget_Some_In_nodup; [exact NK|]. exact (Permutation_in _ PK J).
Qed.
