(** Lines of polygons, lines and points of solids. *)
From Verif Require Import Base DType Node NodeFacts SchemaInv O2M MeshElem MeshElemFacts TopoMeta TopoMetaSpec TopoMetaFacts TopoMetaBack TopoMetaGen.
From Coq Require Import ZArith Lia Permutation Sorting.Sorted.
Local Open Scope Z_scope.
Import ListNotations.

(** a sort: insertion *)
Fixpoint ins {A} (lt : A -> A -> bool) (x : A) (l : list A) : list A := match l with [] => [x] | y :: r => if lt y x then y :: ins lt x r else x :: l end.
Definition isort (A : Type) (lt : A -> A -> bool) (l : list A) : list A := fold_right (ins lt) [] l.
Lemma ins_perm {A} lt (x : A) l : Permutation (ins lt x l) (x :: l).
Proof. induction l as [|y r IH]; cbn; [reflexivity|]. destruct (lt y x); [|reflexivity]. rewrite IH. constructor. Qed.
Lemma isort_perm {A} lt (l : list A) : Permutation (isort A lt l) l.
Proof. induction l as [|x r IH]; cbn; [constructor|]. rewrite ins_perm. constructor. exact IH. Qed.
Lemma isort_sorts : sorts isort.
Proof.
  intros A lt l [As Tr]. split; [apply isort_perm|]. induction l as [|x r IH]; cbn; [constructor|].
  change (fold_right (ins lt) [] r) with (isort A lt r). induction IH as [|y s Ss IHs F]; cbn; [repeat constructor|].
  destruct (lt y x) eqn:E.
  - constructor; [exact IHs|]. apply Forall_forall. intros z I. eapply Permutation_in in I; [|apply ins_perm]. destruct I as [<-|I]; [apply As; exact E|].
    rewrite Forall_forall in F. apply F. exact I.
  - constructor; [constructor; assumption|]. constructor; [exact E|]. eapply Forall_impl; [|exact F]. intros z H. cbv beta in *. exact (Tr x y z E H).
Qed.

(** ---- cycles ---- *)
Lemma nth_snoc_cycle (p : list Z) a r : p = a :: r -> forall i, (i < length p)%nat -> nth i (r ++ [a]) 0 = nth ((i + 1) mod length p) p 0.
Proof.
  intros -> i Hi. cbn [length] in *. destruct (Nat.eq_dec i (length r)) as [->|N].
  - rewrite app_nth2, Nat.sub_diag by lia. replace (length r + 1)%nat with (Datatypes.S (length r)) by lia. rewrite Nat.mod_same by lia. reflexivity.
  - rewrite app_nth1 by lia. rewrite Nat.mod_small by lia. replace (i + 1)%nat with (Datatypes.S i) by lia. reflexivity.
Qed.
Lemma length_cycle p : length (cycle p) = length p.
Proof. destruct p as [|a r]; [reflexivity|]. unfold cycle. rewrite map_length, combine_length, app_length. cbn [length]. lia. Qed.
Lemma nth_cycle p i : (i < length p)%nat -> nth_error (cycle p) i = Some [nth i p 0; nth ((i + 1) mod length p) p 0].
Proof.
  intro Hi. destruct p as [|a r]; [cbn in Hi; lia|]. unfold cycle. rewrite nth_error_map.
  assert (Lc : length (a :: r) = length (r ++ [a])) by (rewrite app_length; cbn; lia).
  rewrite (nth_error_nth' _ (0, 0)) by (rewrite combine_length, <- Lc; lia). rewrite combine_nth by exact Lc. cbn [option_map fst snd].
  rewrite (nth_snoc_cycle (a :: r) a r eq_refl i Hi). reflexivity.
Qed.
Lemma cycle_two p e : In e (cycle p) -> exists a b, e = [a; b].
Proof. destruct p as [|x r]; [contradiction|]. unfold cycle. intro I. apply in_map_iff in I. destruct I as [[a b] [<- _]]. exists a, b. reflexivity. Qed.
Lemma cycle_map (g : Z -> Z) p : cycle (map g p) = map (map g) (cycle p).
Proof.
  destruct p as [|a r]; [reflexivity|]. unfold cycle. cbn [map]. rewrite map_map.
  change (g a :: map g r) with (map g (a :: r)). change [g a] with (map g [a]). rewrite <- map_app.
  generalize (a :: r) (r ++ [a]). clear. induction l as [|x l IH]; intros [|y m]; cbn; auto. f_equal. apply IH.
Qed.
Lemma sort2_perm a b : Permutation [a; b] (sort2 [a; b]) /\ StronglySorted Z.le (sort2 [a; b]).
Proof.
  cbn. destruct (Z.ltb_spec b a).
  - split; [constructor|]. repeat constructor. lia.
  - split; [reflexivity|]. repeat constructor. lia.
Qed.
Lemma told_incl fs gs : (forall f, In f gs -> In f fs) -> told_apart fs -> told_apart gs.
Proof. intros I T f g f' g' If Ig. apply T; apply I; assumption. Qed.
Lemma told_down_incl fs gs : (forall f, In f gs -> In f fs) -> told_apart_down fs -> told_apart_down gs.
Proof. intros I T f g f' g' If Ig. apply T; apply I; assumption. Qed.

(** ---- lines of polygons ---- *)
Lemma fill_from {A} (xs : list A) : forall pre arr, length arr = length xs ->
  fill (pre ++ arr) (combine (map Z.of_nat (seq (length pre) (length xs))) xs) = Ok (pre ++ xs).
Proof.
  induction xs as [|x r IH]; intros pre [|a arr] H; try discriminate; [reflexivity|]. cbn [length seq map combine fill].
  rewrite znth_of_nat, nth_error_app2, Nat.sub_diag by lia. cbn [nth_error deref obind]. rewrite Nat2Z.id.
  assert (Es : set_nth (pre ++ a :: arr) (length pre) x = (pre ++ [x]) ++ arr).
  { rewrite <- app_assoc. cbn [app]. clear. induction pre as [|y p IH]; cbn; [reflexivity|]. f_equal. exact IH. }
  rewrite Es. specialize (IH (pre ++ [x]) arr). rewrite app_length in IH. cbn [length] in IH. rewrite Nat.add_1_r in IH. rewrite IH by (cbn in H; lia).
  rewrite <- app_assoc. reflexivity.
Qed.
Lemma fill_law {A} (xs arr : list A) : length arr = length xs -> fill arr (combine (zseq (zlen xs)) xs) = Ok xs.
Proof. intro H. pose proof (fill_from xs [] arr H) as F. unfold zseq, zlen. rewrite Nat2Z.id. exact F. Qed.
Lemma poly_edges_law conn off p : slice conn off (zlen p) = Ok p -> zlen p <= 32 ->
  poly_edges conn (zlen p) off = Ok (combine (map (fun i => off + i) (zseq (zlen p))) (cycle p)).
Proof.
  intros Sl Hp. unfold poly_edges. rewrite Z.gtb_ltb. rewrite (proj2 (Z.ltb_ge 32 (zlen p))) by lia. unfold slice in Sl. rewrite Sl. cbn [obind].
  set (l := combine (map (fun i => off + i) (zseq (zlen p))) (cycle p)).
  assert (Ll : length l = length p) by (unfold l; rewrite combine_length, map_length, zlen_seq, length_cycle; lia).
  rewrite <- (map_id l). replace (zlen p) with (zlen l) by (unfold zlen; rewrite Ll; reflexivity).
  apply omapM_zseq. intros i [o e] H.
  assert (Hi : (i < length p)%nat) by (rewrite <- Ll; apply nth_error_Some; congruence).
  unfold l in H. assert (Hl : length (map (fun j => off + j) (zseq (zlen p))) = length (cycle p)) by (rewrite map_length, zlen_seq, length_cycle; reflexivity).
  rewrite (nth_error_nth' _ (off + 0, [])) in H by (rewrite combine_length, <- Hl, map_length, zlen_seq; lia).
  rewrite combine_nth in H by exact Hl. injection H as Ho He.
  rewrite (map_nth (fun j => off + j) (zseq (zlen p)) 0 i) in Ho.
  assert (Ei : nth i (zseq (zlen p)) 0 = Z.of_nat i).
  { pose proof (zseq_nth (zlen p) (Z.of_nat i)) as Q. rewrite Nat2Z.id in Q. apply nth_error_nth. apply Q. unfold zlen. lia. }
  rewrite Ei in Ho. rewrite (nth_error_nth _ _ _ (nth_cycle p i Hi)) in He. subst o e. unfold at_. rewrite znth_of_nat.
  rewrite (nth_error_nth' p 0 Hi). cbn [deref obind].
  replace (zlen l) with (Z.of_nat (length p)) by (unfold zlen; rewrite Ll; reflexivity).
  replace ((Z.of_nat i + 1) mod Z.of_nat (length p)) with (Z.of_nat ((i + 1) mod length p)) by (rewrite Nat2Z.inj_mod; f_equal; lia).
  rewrite znth_of_nat. rewrite (nth_error_nth' p 0) by (apply Nat.mod_upper_bound; lia). reflexivity.
Qed.
Lemma edges_law polys : Forall (fun p : list Z => zlen p <= 32) polys -> exists es,
  omapM (fun e => do s <- at_ (map zlen polys) e; do o <- at_ (running 0 (map zlen polys)) e; poly_edges (concat polys) s o) (zseq (zlen (map zlen polys))) = Ok es /\
  concat es = combine (zseq (zlen (concat (map cycle polys)))) (concat (map cycle polys)).
Proof.
  intro F. set (row := fun k : nat => let p := nth k polys [] in combine (map (fun i => zlen (concat (firstn k polys)) + i) (zseq (zlen p))) (cycle p)).
  exists (map row (seq 0 (length polys))). split.
  - replace (zlen (map zlen polys)) with (zlen (seq 0 (length polys))) by (unfold zlen; rewrite map_length, seq_length; reflexivity).
    apply omapM_zseq. intros i k H. assert (Hi : (i < length polys)%nat) by (rewrite <- (seq_length (length polys) 0); apply nth_error_Some; congruence).
    rewrite (nth_error_nth' _ 0%nat) in H by (rewrite seq_length; exact Hi). rewrite seq_nth in H by exact Hi. injection H as <-. cbn [plus].
    unfold at_. rewrite !znth_of_nat. rewrite running_starts0, starts_nth by exact Hi. rewrite nth_error_map. rewrite (nth_error_nth' polys [] Hi). cbn [option_map deref obind].
    apply poly_edges_law; [apply slice_row; apply nth_error_nth'; exact Hi|]. rewrite Forall_forall in F. apply F. apply nth_In. exact Hi.
  - assert (G : forall post pre, polys = pre ++ post ->
      concat (map row (seq (length pre) (length post))) = combine (map (fun i => zlen (concat pre) + i) (zseq (zlen (concat (map cycle post))))) (concat (map cycle post))).
    { induction post as [|p post IH]; intros pre E; [reflexivity|]. cbn [length seq map concat].
      specialize (IH (pre ++ [p])). rewrite app_length in IH. cbn [length] in IH. rewrite Nat.add_1_r in IH. rewrite IH by (rewrite <- app_assoc; exact E).
      unfold row at 1. replace (nth (length pre) polys []) with p by (rewrite E, app_nth2, Nat.sub_diag by lia; reflexivity).
      replace (firstn (length pre) polys) with pre by (rewrite E, firstn_app, Nat.sub_diag, firstn_all; cbn; rewrite app_nil_r; reflexivity).
      rewrite concat_app. cbn [concat]. rewrite app_nil_r. rewrite !zlen_app.
      assert (Zc : zlen (cycle p) = zlen p) by (unfold zlen; rewrite length_cycle; reflexivity). rewrite Zc.
      assert (Zp : zseq (zlen p + zlen (concat (map cycle post))) = zseq (zlen p) ++ map (fun i => zlen p + i) (zseq (zlen (concat (map cycle post))))).
      { unfold zseq, zlen. rewrite Z2Nat.inj_add, !Nat2Z.id by lia. rewrite seq_app, map_app. f_equal. rewrite map_map.
        generalize (length (concat (map cycle post))). clear. intro k. cbn [plus]. rewrite <- (Nat.add_0_r (length p)) at 1. generalize 0%nat. induction k as [|k IHk]; intro s; [reflexivity|].
        cbn [seq map]. f_equal; [lia|]. rewrite <- Nat.add_succ_r. apply IHk. }
      rewrite Zp, map_app, map_map.
      assert (Ca : forall (a1 a2 : list Z) (b1 b2 : list (list Z)), length a1 = length b1 -> combine (a1 ++ a2) (b1 ++ b2) = combine a1 b1 ++ combine a2 b2).
      { clear. induction a1; intros a2 [|b b1] b2 H; cbn in *; try discriminate; auto. f_equal. apply IHa1. lia. }
      rewrite Ca by (rewrite map_length, zlen_seq, length_cycle; reflexivity). f_equal. f_equal. apply map_ext. intro i. lia. }
    specialize (G polys [] eq_refl). cbn [length] in G. rewrite G. f_equal. cbn [concat]. change (zlen []) with 0. rewrite <- (map_id (zseq _)) at 2. apply map_ext. intro. lia.
Qed.
Lemma zsum_lengths polys : zsum (map zlen polys) = zlen (concat (map cycle polys)).
Proof.
  induction polys as [|p r IH]; [reflexivity|]. cbn [map concat]. rewrite zlen_app. unfold zsum in *. cbn [fold_right]. rewrite IH. unfold zlen at 3. rewrite length_cycle. reflexivity.
Qed.

Section S.
Variable srt : forall A : Type, (A -> A -> bool) -> list A -> list A.
Hypothesis Hs : sorts srt.

Lemma poly_lines_law polys : Forall (fun p => zlen p <= 32) polys -> told_apart (concat (map cycle polys)) ->
  exists d refs, poly_lines srt (concat polys) (map zlen polys) (running 0 (map zlen polys)) = Ok (d, refs) /\ numbered (concat (map cycle polys)) d refs.
Proof.
  intros F T. unfold poly_lines. destruct (edges_law polys F) as [es [E1 E2]]. rewrite E1. cbn [obind]. rewrite zsum_lengths, E2. set (E := concat (map cycle polys)) in *.
  set (key := fun f => hash (sort2 f)).
  assert (Em : map (fun ie : Z * list Z => (fst ie, (hash (sort2 (snd ie)), fst ie))) (combine (zseq (zlen E)) E) = combine (zseq (zlen E)) (combine (map key E) (zseq (zlen E)))).
  { generalize (zseq (zlen E)). clear. induction E as [|x r IH]; intros [|z zs]; cbn; auto. f_equal. apply IH. }
  rewrite Em.
  assert (Lk : length (combine (map key E) (zseq (zlen E))) = length E) by (rewrite combine_length, map_length, zlen_seq; lia).
  pose proof (fill_law (combine (map key E) (zseq (zlen E))) (map (fun _ => (0, 0)) (zseq (zlen E)))) as F1. rewrite Lk, map_length, zlen_seq in F1. specialize (F1 eq_refl).
  assert (Lz : zlen (combine (map key E) (zseq (zlen E))) = zlen E) by (change (Z.of_nat (length (combine (map key E) (zseq (zlen E)))) = zlen E); rewrite Lk; reflexivity).
  rewrite Lz in F1. rewrite F1. cbn [obind].
  rewrite (fill_law E) by (rewrite map_length, zlen_seq; reflexivity). cbn [obind].
  assert (Two : forall f, In f E -> exists a b, f = [a; b]).
  { intros f I. unfold E in I. apply in_concat in I. destruct I as [l [I J]]. apply in_map_iff in I. destruct I as [p [<- I]]. exact (cycle_two p f J). }
  destruct (keyed_law srt Hs E key) as [pu [U [us [d [refs [A [B [C [D N]]]]]]]]].
  { intros f g If Ig. destruct (Two f If) as [a [b ->]], (Two g Ig) as [c [e ->]]. unfold key. destruct (sort2_perm a b) as [P1 S1], (sort2_perm c e) as [P2 S2]. split.
    - intro Eh. exact (T _ _ _ _ If Ig P1 P2 S1 S2 Eh).
    - intro P. f_equal. apply sorted_unique_z; [|exact S1|exact S2]. exact (Permutation_trans (Permutation_sym P1) (Permutation_trans P P2)). }
  rewrite A. subst pu. exists d, refs. split; [|exact N].
  assert (Eo : omapM (fun eu : Z * Z => do f <- deref (znth E (fst eu)); Ok (f, snd eu)) (combine (zseq (zlen E)) us) = Ok (combine E us)).
  { assert (G : forall post pre us', E = pre ++ post -> length us' = length post ->
      omapM (fun eu : Z * Z => do f <- deref (znth E (fst eu)); Ok (f, snd eu)) (combine (map Z.of_nat (seq (length pre) (length post))) us') = Ok (combine post us')).
    { induction post as [|x post IH]; intros pre [|u us'] Ee Lu; try discriminate; [reflexivity|]. cbn [length seq map combine omapM fst snd].
      rewrite znth_of_nat, Ee, nth_error_app2, Nat.sub_diag by lia. cbn [nth_error deref obind]. rewrite <- Ee.
      specialize (IH (pre ++ [x]) us'). rewrite app_length in IH. cbn [length] in IH. rewrite Nat.add_1_r in IH. rewrite IH; [reflexivity| |cbn in Lu; lia]. rewrite <- app_assoc. exact Ee. }
    unfold zseq, zlen. rewrite Nat2Z.id. apply (G E [] us eq_refl C). }
  rewrite Eo. cbn [obind]. exact D.
Qed.

(** polygons of at most 32 points stored one after the other *)
Definition polygons_given (polys : list (list Z)) (given : option (list Z)) : Prop := given = None \/ given = Some (starts polys).
Lemma given_offsets polys given : polygons_given polys given -> match given with Some o => o | None => running 0 (map zlen polys) end = running 0 (map zlen polys).
Proof. intros [->| ->]; [reflexivity|]. symmetry. apply running_starts0. Qed.
Lemma holds_running (polys rows : list (list Z)) : Forall2 (fun p r => length p = length r) polys rows -> holds (mkM (concat rows) (map zlen polys) (running 0 (map zlen polys))) rows.
Proof.
  intro F. assert (E : map zlen polys = map (fun r => Z.of_nat (length r)) rows) by (clear - F; induction F as [|p r ps rs E F IH]; cbn; [reflexivity|]; unfold zlen at 1; rewrite E, IH; reflexivity).
  rewrite E. split; [reflexivity|]. split; [reflexivity|]. cbn [m_offsets]. split; [rewrite length_running, map_length; reflexivity|].
  intros i o H. apply running_law in H. lia.
Qed.
Lemma split_like (ps : list (list Z)) : forall l : list Z, length l = length (concat ps) -> exists rows, concat rows = l /\ Forall2 (fun p r : list Z => length p = length r) ps rows.
Proof.
  induction ps as [|p r IH]; intros l H.
  - destruct l; [|discriminate]. exists []. split; [reflexivity|constructor].
  - cbn in H. rewrite app_length in H. destruct (IH (skipn (length p) l)) as [rows [A B]]; [rewrite skipn_length; lia|].
    exists (firstn (length p) l :: rows). cbn. rewrite A, firstn_skipn. split; [reflexivity|]. constructor; [rewrite firstn_length; lia|exact B].
Qed.
Lemma gen_polygonal conn sizes given n dst : generate srt (L "polygonal") conn sizes given n dst = gen_polygons srt conn sizes given n dst.
Proof. reflexivity. Qed.
Theorem generate_polygon_lines polys given n : Forall (fun p => (length p <= 32)%nat) polys -> polygons_given polys given -> told_apart (concat (map cycle polys)) ->
  exists ds up down rows back, generate srt (L "polygonal") (concat polys) (map zlen polys) given n 1 = Ok (mkG ds up down) /\
    numbered (concat (map cycle polys)) ds (concat rows) /\ Forall2 (fun p r => length p = length r) polys rows /\
    holds up rows /\ holds down back /\ parents rows (Z.of_nat (length ds)) back.
Proof.
  intros F G T. rewrite gen_polygonal. unfold gen_polygons. rewrite (given_offsets polys given G). cbn [Z.ltb Z.eqb Z.compare Pos.compare Pos.compare_cont Pos.eqb].
  assert (F' : Forall (fun p : list Z => zlen p <= 32) polys) by (eapply Forall_impl; [|exact F]; unfold zlen; cbv beta; intros; lia).
  destruct (poly_lines_law polys F' T) as [d [refs [E N]]]. rewrite E. cbn [obind fst snd].
  destruct (split_like polys refs) as [rows [Er Fr]].
  { rewrite (n_len _ _ _ N). clear. induction polys as [|p r IH]; [reflexivity|]. cbn [map concat]. rewrite !app_length, length_cycle, IH. reflexivity. }
  assert (Rg : Forall (fun c => 0 <= c < zlen d) (concat rows)) by (rewrite Er; exact (numbered_range _ _ _ N)).
  pose proof (holds_running polys rows Fr) as Hh. rewrite Er in Hh.
  destruct (with_back_law srt Hs (zlen d) d rows _ (Zle_0_nat _) Hh Rg) as [b [back [Eb [Hb Pb]]]].
  exists d, (mkM refs (map zlen polys) (running 0 (map zlen polys))), b, rows, back. rewrite Er. auto 10.
Qed.
Lemma poly_lines_total polys : Forall (fun p => zlen p <= 32) polys ->
  exists d refs, poly_lines srt (concat polys) (map zlen polys) (running 0 (map zlen polys)) = Ok (d, refs).
Proof.
  intros F. unfold poly_lines. destruct (edges_law polys F) as [es [E1 E2]]. rewrite E1. cbn [obind]. rewrite zsum_lengths, E2. set (E := concat (map cycle polys)) in *.
  set (key := fun f => hash (sort2 f)).
  assert (Em : map (fun ie : Z * list Z => (fst ie, (hash (sort2 (snd ie)), fst ie))) (combine (zseq (zlen E)) E) = combine (zseq (zlen E)) (combine (map key E) (zseq (zlen E)))).
  { generalize (zseq (zlen E)). clear. induction E as [|x r IH]; intros [|z zs]; cbn; auto. f_equal. apply IH. }
  rewrite Em.
  assert (Lk : length (combine (map key E) (zseq (zlen E))) = length E) by (rewrite combine_length, map_length, zlen_seq; lia).
  pose proof (fill_law (combine (map key E) (zseq (zlen E))) (map (fun _ => (0, 0)) (zseq (zlen E)))) as F1. rewrite Lk, map_length, zlen_seq in F1. specialize (F1 eq_refl).
  assert (Lz : zlen (combine (map key E) (zseq (zlen E))) = zlen E) by (change (Z.of_nat (length (combine (map key E) (zseq (zlen E)))) = zlen E); rewrite Lk; reflexivity).
  rewrite Lz in F1. rewrite F1. cbn [obind].
  rewrite (fill_law E) by (rewrite map_length, zlen_seq; reflexivity). cbn [obind].
  destruct (unique_law srt Hs (map key E)) as [h [U [Eu [Rg _]]]].
  assert (El : zlen (map key E) = zlen E) by (unfold zlen; rewrite map_length; reflexivity). rewrite El in Eu. rewrite Eu.
  set (us := map h (map key E)) in *. assert (Lu : length us = length E) by (unfold us; rewrite !map_length; reflexivity).
  assert (Eo : omapM (fun eu : Z * Z => do f <- deref (znth E (fst eu)); Ok (f, snd eu)) (combine (zseq (zlen E)) us) = Ok (combine E us)).
  { assert (G : forall post pre us', E = pre ++ post -> length us' = length post ->
      omapM (fun eu : Z * Z => do f <- deref (znth E (fst eu)); Ok (f, snd eu)) (combine (map Z.of_nat (seq (length pre) (length post))) us') = Ok (combine post us')).
    { induction post as [|x post IH]; intros pre [|u us'] Ee Lu'; try discriminate; [reflexivity|]. cbn [length seq map combine omapM fst snd].
      rewrite znth_of_nat, Ee, nth_error_app2, Nat.sub_diag by lia. cbn [nth_error deref obind]. rewrite <- Ee.
      specialize (IH (pre ++ [x]) us'). rewrite app_length in IH. cbn [length] in IH. rewrite Nat.add_1_r in IH. rewrite IH; [reflexivity| |cbn in Lu'; lia]. rewrite <- app_assoc. exact Ee. }
    unfold zseq, zlen. rewrite Nat2Z.id. apply (G E [] us eq_refl Lu). }
  rewrite Eo. cbn [obind].
  pose proof (emit_firsts U (combine E us) [] (fresh_order U)) as Et. cbn [length] in Et. change (Z.of_nat 0) with 0 in Et. rewrite Et.
  - destruct (firsts [] (combine E us)) as [[d ks] refs]. exists d, refs. reflexivity.
  - apply Forall_forall. intros [f u] I. cbn. apply in_combine_r in I. unfold us in I. apply in_map_iff in I. destruct I as [a [<- I]]. apply Rg. exact I.
  - apply fresh_place.
  - unfold fresh_order. rewrite map_length, length_zseq. reflexivity.
Qed.
Lemma f2_refl (l : list (list Z)) : Forall2 (fun p r : list Z => length p = length r) l l.
Proof. induction l; constructor; auto. Qed.
Theorem generate_polygon_points polys given n : Forall (fun p => (length p <= 32)%nat) polys -> polygons_given polys given -> 0 <= n -> Forall (Forall (fun x => 0 <= x < n)) polys ->
  exists up down back, generate srt (L "polygonal") (concat polys) (map zlen polys) given n 0 = Ok (mkG (map (fun i => [i]) (zseq n)) up down) /\
    holds up polys /\ holds down back /\ parents polys n back.
Proof.
  intros F G Hn R. rewrite gen_polygonal. unfold gen_polygons. rewrite (given_offsets polys given G). cbn [Z.ltb Z.eqb Z.compare Pos.compare Pos.compare_cont Pos.eqb].
  assert (F' : Forall (fun p : list Z => zlen p <= 32) polys) by (eapply Forall_impl; [|exact F]; unfold zlen; cbv beta; intros; lia).
  destruct (poly_lines_total polys F') as [d [refs E]]. rewrite E. cbn [obind].
  assert (Rg : Forall (fun c => 0 <= c < n) (concat polys)) by (apply Forall_concat; exact R).
  destruct (with_back_law srt Hs n (point_rows n) polys _ Hn (holds_running polys polys (f2_refl polys)) Rg) as [b [back [Eb [Hb Pb]]]].
  exists (mkM (concat polys) (map zlen polys) (running 0 (map zlen polys))), b, back. split; [exact Eb|]. split; [apply holds_running; apply f2_refl|]. auto.
Qed.
End S.
