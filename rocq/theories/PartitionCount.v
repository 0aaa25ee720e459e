From Coq Require Import ZArith Lia Permutation Sorting.Sorted.
From Verif Require Import Base Node NodeFacts Partition PartitionSpec PartitionFacts PartitionInit.
Local Open Scope Z_scope.

(** ** Selections that can be divided *)
Definition tidy (d : dom) (s : sel) : Prop :=
  match s with
  | SLog _ _ => sound d s
  | SExp ids => ids <> [] /\ Forall (fun i => 0 <= i < d_n d) ids
  | SRng rs => exists a b, rs = [(a, b)] /\ 0 <= a <= b /\ b < d_n d
  | SFld _ _ => False
  end.
Lemma length_flat_map {A B} (f : A -> list B) n l : (forall x, In x l -> Z.of_nat (length (f x)) = n) -> Z.of_nat (length (flat_map f l)) = Z.of_nat (length l) * n.
Proof. induction l as [|x l IH]; intros H; [reflexivity|]. cbn [flat_map length]. rewrite app_length, Nat2Z.inj_add, IH by (intros y I; apply H; right; exact I). rewrite (H x) by (left; reflexivity). lia. Qed.
Lemma length_box g s e : 0 <= cells c0 s e -> 0 <= cells c1 s e -> 0 <= cells c2 s e -> Z.of_nat (length (box g s e)) = cells c0 s e * cells c1 s e * cells c2 s e.
Proof.
  intros A B C. unfold box. rewrite (length_flat_map _ (cells c1 s e * cells c0 s e)).
  - rewrite length_zrange. unfold cells in *. rewrite Z.max_r by lia. ring.
  - intros k _. rewrite (length_flat_map _ (cells c0 s e)); [rewrite length_zrange; unfold cells in *; rewrite Z.max_r by lia; reflexivity|]. intros j _. rewrite map_length, length_zrange. unfold cells in *. lia.
Qed.
Lemma tidy_facts d s : tidy d s -> 1 <= slen d s /\ Z.of_nat (length (sel_ids d s)) = slen d s /\ dest s = -1.
Proof.
  destruct s as [s e|ids|rs|f v]; cbn [tidy].
  - intros (g & G & A & B & C & _). cbn [slen sel_ids dest]. rewrite G. split; [assert (H0 : 1 <= cells c0 s e) by (unfold cells; lia); assert (H1 : 1 <= cells c1 s e) by (unfold cells; lia); assert (H2 : 1 <= cells c2 s e) by (unfold cells; lia); assert (1 <= cells c0 s e * cells c1 s e) by nia; nia|]. split; [|reflexivity]. apply length_box; unfold cells; lia.
  - intros [N F]. cbn [slen sel_ids dest]. rewrite Forall_forall in F. rewrite filter_all by (intros x I; apply Z.ltb_lt; apply F, I). split; [destruct ids; [congruence|cbn [length]; lia]|split; reflexivity].
  - intros (a & b & -> & A & B). cbn [slen sel_ids dest fold_left fst snd flat_map]. rewrite app_nil_r. rewrite filter_all by (intros x I; apply in_zrange in I; apply Z.ltb_lt; lia). rewrite length_zrange. split; [lia|]. split; [lia|reflexivity].
  - contradiction.
Qed.
Lemma tidy_split d s : tidy d s -> 2 <= slen d s -> exists a b, split_sel d s = [a; b] /\ tidy d a /\ tidy d b /\ slen d a + slen d b = slen d s.
Proof.
  destruct s as [s e|ids|rs|f v]; cbn [tidy].
  - intros H L. cbn [split_sel]. assert (N : split_log s e <> []) by (apply split_log_some; cbn [slen] in L; lia).
    destruct (split_log_ok d s e H N) as (a & b & E & Sa & Sb & _ & La & Lb & Lab). exists a, b. split; [exact E|]. split; [|split; [|exact Lab]].
    + unfold split_log in E. destruct (1 <? _); [|discriminate]. destruct (_ =? 0); [|destruct (_ =? 1)]; injection E as <- _; exact Sa.
    + unfold split_log in E. destruct (1 <? _); [|discriminate]. destruct (_ =? 0); [|destruct (_ =? 1)]; injection E as _ <-; exact Sb.
  - intros [N F] L. cbn [split_sel slen] in *. unfold split_exp. set (h := (length ids / 2)%nat).
    assert (H : (1 <= h < length ids)%nat) by (unfold h; split; [apply Nat.div_le_lower_bound; lia|apply Nat.div_lt; lia]). clearbody h.
    assert (I1 : forall x, In x (firstn h ids) -> In x ids) by (intros x I; rewrite <- (firstn_skipn h ids); apply in_or_app; left; exact I).
    assert (I2 : forall x, In x (skipn h ids) -> In x ids) by (intros x I; rewrite <- (firstn_skipn h ids); apply in_or_app; right; exact I).
    rewrite Forall_forall in F. rewrite !filter_all by (intros x I; apply Z.ltb_lt, F; auto). eexists _, _. split; [reflexivity|].
    pose proof (firstn_length h ids) as F1. pose proof (skipn_length h ids) as F2. cbn [tidy slen]. split; [|split].
    + split; [intros E; rewrite E in F1; cbn in F1; lia|]. apply Forall_forall. intros x I. apply F, I1, I.
    + split; [intros E; rewrite E in F2; cbn in F2; lia|]. apply Forall_forall. intros x I. apply F, I2, I.
    + rewrite F1, F2. lia.
  - intros (a & b & -> & A & B) L. cbn [slen fold_left fst snd] in L. cbn [split_sel]. destruct (split_one a b ltac:(lia) ltac:(lia)) as (m & M & ->). eexists _, _. split; [reflexivity|]. cbn [tidy slen fold_left fst snd]. split; [|split].
    + exists a, m. split; [reflexivity|]. lia.
    + exists (m + 1), b. split; [reflexivity|]. lia.
    + lia.
  - contradiction.
Qed.

(** ** The largest *)
Section Largest.
Variable doms : list dom.
Notation size := (fun s => slen (sel_dom doms s) (s_what s)).
Lemma largest_none ss : forall i best at_, (forall x, In x ss -> size x <= best) -> largest doms i best at_ ss = at_.
Proof.
  induction ss as [|s ss IH]; intros i best at_ H; [reflexivity|]. cbn [largest]. destruct (Z.ltb_spec best (size s)) as [L|L]; [specialize (H s (or_introl eq_refl)); cbn beta in *; lia|]. apply IH. intros x I. apply H. right. exact I.
Qed.
Lemma largest_some ss : forall i best at_, (exists x, In x ss /\ best < size x) -> exists j s, largest doms i best at_ ss = Some (i + j)%nat /\ nth_error ss j = Some s /\ (forall x, In x ss -> size x <= size s).
Proof.
  induction ss as [|s ss IH]; intros i best at_ (x & I & B); [contradiction|]. cbn [largest]. destruct (Z.ltb_spec best (size s)) as [L|L].
  - destruct (Forall_Exists_dec (fun y => size y <= size s) (fun y => Z_le_dec (size y) (size s)) ss) as [F|E].
    + rewrite largest_none by (apply Forall_forall; exact F). exists 0%nat, s. split; [f_equal; lia|]. split; [reflexivity|]. intros y [<-|J]; [lia|]. rewrite Forall_forall in F. exact (F y J).
    + apply Exists_exists in E. destruct E as (y & J & N). destruct (IH (S i) (size s) (Some i)) as (j & s' & E & Nj & M); [exists y; split; [exact J|lia]|]. exists (S j), s'. split; [rewrite E; f_equal; lia|]. split; [exact Nj|]. intros z [<-|K]; [|exact (M z K)]. specialize (M y J). cbn beta in *. lia.
  - destruct I as [<-|I]; [lia|]. destruct (IH (S i) best at_) as (j & s' & E & Nj & M); [exists x; split; assumption|]. exists (S j), s'. split; [rewrite E; f_equal; lia|]. split; [exact Nj|]. intros z [<-|K]; [|exact (M z K)]. specialize (M x I). cbn beta in *. lia.
Qed.
Definition all_tidy (ss : list selection) : Prop := Forall (fun s => tidy (sel_dom doms s) (s_what s)) ss.
Definition sizes (ss : list selection) : Z := fold_right (fun s n => size s + n) 0 ss.
Lemma sizes_app a b : sizes (a ++ b) = sizes a + sizes b.
Proof. induction a as [|x a IH]; [reflexivity|]. cbn [app sizes fold_right]. fold (sizes (a ++ b)) (sizes a). rewrite IH. lia. Qed.
Lemma some_two ss : all_tidy ss -> Z.of_nat (length ss) < sizes ss -> exists x, In x ss /\ 1 < size x.
Proof.
  induction 1 as [|s ss T F IH]; intros L; [cbn in L; lia|]. cbn [sizes fold_right length] in L. fold (sizes ss) in L. destruct (Z_lt_le_dec 1 (size s)) as [H|H]; [exists s; split; [left; reflexivity|exact H]|].
  destruct IH as (x & I & B); [cbn beta in *; lia|]. exists x. split; [right; exact I|exact B].
Qed.
Lemma tidy_targets ss : all_tidy ss -> count_targets ss = Z.of_nat (length ss).
Proof.
  intros T. unfold count_targets. assert (E : forall l, all_tidy l -> filter is_free (map (fun s => dest (s_what s)) l) = map (fun s => dest (s_what s)) l /\ filter (fun x => negb (is_free x)) (map (fun s => dest (s_what s)) l) = []).
  { clear. intros l T. induction T as [|s l T F [I1 I2]]; [split; reflexivity|]. cbn [map filter]. destruct (tidy_facts _ _ T) as (_ & _ & D). rewrite I1, I2, D. split; reflexivity. }
  destruct (E ss T) as [-> ->]. rewrite map_length. cbn. lia.
Qed.
Lemma split_count target : forall fuel ss, all_tidy ss -> ss <> [] -> target <= sizes ss -> target - Z.of_nat (length ss) < Z.of_nat fuel -> 1 <= Z.of_nat fuel ->
  exists ss', split_loop fuel doms target ss = Ok ss' /\ all_tidy ss' /\ Z.of_nat (length ss') = Z.max target (Z.of_nat (length ss)).
Proof.
  induction fuel as [|k IH]; intros ss T N H F F1; [cbn in F1; lia|]. cbn [split_loop]. rewrite tidy_targets by exact T.
  destruct (Z.eqb_spec (Z.of_nat (length ss)) 0) as [Z0|Z0]; [destruct ss; [congruence|cbn [length] in Z0; lia]|].
  destruct (Z.ltb_spec (Z.of_nat (length ss)) target) as [L|L]; [|exists ss; split; [reflexivity|]; split; [exact T|lia]].
  destruct (some_two ss T ltac:(lia)) as (x & I & B). destruct (largest_some ss 0 0 None) as (j & s & -> & Nj & M); [exists x; split; [exact I|cbn beta in *; lia]|]. cbn [Nat.add]. rewrite Nj.
  assert (Ts : tidy (sel_dom doms s) (s_what s)) by (unfold all_tidy in T; rewrite Forall_forall in T; apply T; eapply nth_error_In; exact Nj).
  destruct (tidy_split _ _ Ts) as (a & b & -> & Ta & Tb & E); [specialize (M x I); cbn beta in *; lia|]. cbn [map app].
  pose proof (at_place ss j s Nj) as Es. set (l1 := firstn j ss) in *. set (l2 := skipn (S j) ss) in *. clearbody l1 l2. subst ss. unfold all_tidy in T. apply Forall_app in T. destruct T as [T1 T2]. inversion T2 as [|? ? _ T3]; subst.
  rewrite app_length in *. cbn [length] in *. rewrite sizes_app in H. cbn [sizes fold_right] in H. fold (sizes l2) in H.
  destruct (IH (l1 ++ mkSel a (Some false) (s_from s) :: mkSel b (Some false) (s_from s) :: l2)) as (ss' & R1 & R2 & R3).
  - apply Forall_app. split; [exact T1|]. constructor; [exact Ta|]. constructor; [exact Tb|exact T3].
  - destruct l1; discriminate.
  - rewrite sizes_app. cbn [sizes fold_right s_what]. fold (sizes l2). change (sel_dom doms (mkSel a (Some false) (s_from s))) with (sel_dom doms s). change (sel_dom doms (mkSel b (Some false) (s_from s))) with (sel_dom doms s). cbn beta in *. lia.
  - rewrite app_length. cbn [length]. lia.
  - lia.
  - exists ss'. split; [exact R1|]. split; [exact R2|]. rewrite app_length in R3. cbn [length] in R3. lia.
Qed.
End Largest.

(** ** The numbers of the output domains *)
Lemma next_one res d : 0 <= d -> (forall x, In x res <-> 0 <= x <= d) -> next_id res d = d + 1.
Proof.
  intros P H. unfold next_id. destruct res as [|y res]; [exfalso; apply (proj2 (H d)); lia|]. cbn [length next_free].
  assert (A : existsb (Z.eqb d) (y :: res) = true) by (apply existsb_exists; exists d; split; [apply H; lia|apply Z.eqb_refl]). rewrite A.
  assert (B : existsb (Z.eqb (d + 1)) (y :: res) = false) by (apply Bool.not_true_is_false; intros E; apply existsb_exists in E; destruct E as (z & I & E); apply Z.eqb_eq in E; apply H in I; lia). rewrite B. reflexivity.
Qed.
Lemma next_res res d : 0 <= d -> (forall x, In x res <-> 0 <= x <= d) -> forall x, In x (d + 1 :: res) <-> 0 <= x <= d + 1.
Proof. intros P H x. cbn [In]. rewrite H. lia. Qed.
Lemma each_numbers dds : Forall (fun x => x = -1) dds -> forall d res, 0 <= d -> (forall x, In x res <-> 0 <= x <= d) -> assign_each d res dds = zrange d (d + Z.of_nat (length dds) - 1).
Proof.
  induction 1 as [|x dds -> F IH]; intros d res P H; [cbn; rewrite zrange_nil by lia; reflexivity|]. cbn [assign_each is_free]. change (-1 =? -1) with true. cbv iota. rewrite next_one by assumption. rewrite (IH (d + 1)); [|lia|apply next_res; assumption].
  cbn [length]. rewrite (zrange_split d d) by lia. replace (zrange d d) with [d]; [cbn [app]; replace (d + 1 + Z.of_nat (length dds) - 1) with (d + Z.of_nat (S (length dds)) - 1) by lia; reflexivity|]. unfold zrange. replace (d - d + 1) with 1 by lia. change (zseq 1) with [0]. cbn [map]. rewrite Z.add_0_r. reflexivity.
Qed.
Definition total (cs : list (Z * Z)) : Z := fold_right (fun c n => fst c + n) 0 cs.
Lemma group_numbers cs : Forall (fun c => 1 <= fst c /\ snd c = -1) cs -> forall d res running remaining len rt, 0 <= d -> (forall x, In x res <-> 0 <= x <= d) ->
  0 <= rt -> rt + 1 <= Z.of_nat (length cs) -> remaining = total cs -> 0 <= running -> (rt = 0 -> running + remaining <= len) ->
  forall v, In v (assign_group d res running remaining len rt cs) <-> d <= v <= d + rt.
Proof.
  induction 1 as [|[n x] cs [N E] F IH]; intros d res running remaining len rt D R T L M U K v; [cbn in L; lia|]. cbn [fst snd] in *. subst x. cbn [assign_group]. change (is_free (-1)) with true. cbv iota.
  cbn [length] in L. unfold total in M. cbn [fold_right fst] in M. fold (total cs) in M.
  assert (Tp : cs <> [] -> 1 <= total cs). { intros Q. destruct F as [|c cs [Fc _] F']; [congruence|]. unfold total. cbn [fold_right]. clear - Fc F'. assert (0 <= fold_right (fun c n => fst c + n) 0 cs) by (induction F' as [|y l [Y _] F IH]; cbn [fold_right]; lia). lia. }
  destruct (Z.eqb_spec (Z.of_nat (length cs)) 0) as [Z0|Z0]; cbn [negb andb].
  - destruct cs; [|cbn [length] in Z0; lia]. cbn [assign_group In]. lia.
  - assert (Q : cs <> []) by (intros ->; apply Z0; reflexivity). specialize (Tp Q).
    destruct (Z.leb_spec len (running + n)) as [A|A]; cbn [orb]; [|destruct (Z.eqb_spec (Z.of_nat (length cs)) rt) as [B|B]].
    + assert (1 <= rt) by (destruct (Z.eq_dec rt 0) as [Er|Er]; [specialize (K Er); lia|lia]).
      cbn [In]. rewrite next_one by assumption. rewrite IH; [lia|lia|apply next_res; assumption|lia|lia|lia|lia|]. intros Er. replace rt with 1 by lia. change (Z.max 1 1) with 1. rewrite Z.div_1_r. lia.
    + cbn [In]. rewrite next_one by assumption. rewrite IH; [lia|lia|apply next_res; assumption|lia|lia|lia|lia|]. intros Er. replace rt with 1 by lia. change (Z.max 1 1) with 1. rewrite Z.div_1_r. lia.
    + cbn [In]. rewrite IH; [lia|assumption|assumption|assumption|lia|lia|lia|]. intros Er. specialize (K Er). lia.
Qed.
Lemma fold_total cs : forall n, fold_left Z.add (map fst cs) n = n + total cs.
Proof. induction cs as [|c cs IH]; intros n; [cbn; lia|]. cbn [map fold_left total fold_right]. fold (total cs). rewrite IH. lia. Qed.
Lemma chunk_numbers target cs : 1 <= target <= Z.of_nat (length cs) -> Forall (fun c => 1 <= fst c /\ snd c = -1) cs ->
  exists ds, map_chunks target (Z.of_nat (length cs)) cs = Ok ds /\ zset ds = zseq target.
Proof.
  intros T F. unfold map_chunks. assert (E : filter (fun x => negb (is_free x)) (map snd cs) = []).
  { apply filter_none. intros x I. apply in_map_iff in I. destruct I as (c & <- & I). rewrite Forall_forall in F. destruct (F c I) as [_ ->]. reflexivity. }
  rewrite E. change (next_id [] 0) with 0. assert (R : forall x, In x [0] <-> 0 <= x <= 0) by (intros x; cbn [In]; lia).
  destruct (Z.eqb_spec (Z.of_nat (length cs)) target) as [H|H].
  - eexists. split; [reflexivity|]. rewrite (each_numbers (map snd cs)); [|apply Forall_forall; intros x I; apply in_map_iff in I; destruct I as (c & <- & I); rewrite Forall_forall in F; apply (F c I)|lia|exact R].
    rewrite map_length. replace (0 + Z.of_nat (length cs) - 1) with (target - 1) by lia. rewrite zrange_0. apply sorted_eq; [apply zset_sorted|apply zseq_sorted|apply zset_in].
  - destruct (Z.ltb_spec target (Z.of_nat (length cs))) as [L|L]; [|lia]. eexists. split; [reflexivity|]. rewrite fold_total, Z.add_0_l. destruct (Z.eqb_spec target 0); [lia|].
    apply sorted_eq; [apply zset_sorted|apply zseq_sorted|]. intros x. rewrite zset_in, in_zseq. rewrite (group_numbers cs F); [lia|lia|exact R|lia|lia|reflexivity|lia|].
    intros E1. replace target with 1 by lia. change (Z.max 1 1) with 1. rewrite Z.div_1_r. lia.
Qed.

(** ** All together *)
Lemma init_one_tidy doms q : divisible doms q -> forall doms' i, (forall k d, nth_error doms' k = Some d -> nth (i + k) doms (mkDom 0 None 0 []) = d) -> (forall d, In d doms' -> In d doms) ->
  all_tidy doms (init_one i doms' q).
Proof.
  intros [Fr Dv]. induction doms' as [|d r IH]; intros i Hn Hi; [constructor|]. cbn [init_one]. assert (IH' : all_tidy doms (init_one (S i) r q)). { apply IH; [|intros x I; apply Hi; right; exact I]. intros k x K. rewrite <- (Hn (S k) x K). f_equal. lia. }
  fold (goes_to q d). destruct (goes_to q d) eqn:Gt; [|exact IH']. assert (Ni : nth i doms (mkDom 0 None 0 []) = d) by (rewrite <- (Hn 0%nat d eq_refl); f_equal; lia). assert (Id : In d doms) by (apply Hi; left; reflexivity).
  destruct (applicable d (q_sel q)) as [s'|] eqn:Ap; [|exact IH']. apply Forall_app. split; [|destruct (q_dom q); [constructor|exact IH']].
  unfold fair in Fr. destruct (q_sel q) as [s e|ids|rs|f v]; cbn [applicable] in Ap.
  - destruct (d_grid d) as [g|] eqn:G; [|discriminate]. destruct ((c0 s <? c0 g) && (c1 s <? c1 g) && (c2 s <? c2 g)) eqn:T; [|discriminate]. injection Ap as <-.
    apply andb_prop in T. destruct T as [T T2]. apply andb_prop in T. destruct T as [T0 T1]. apply Z.ltb_lt in T0, T1, T2. constructor; [|constructor]. unfold sel_dom. cbn [s_from s_what]. rewrite Ni. exists g. cbn [c0 c1 c2 fst snd]. split; [exact G|]. repeat (split; [lia|]). lia.
  - injection Ap as <-. constructor; [|constructor]. unfold sel_dom. cbn [s_from s_what]. rewrite Ni. split; [exact Dv|]. apply Fr; assumption.
  - injection Ap as <-. constructor; [|constructor]. unfold sel_dom. cbn [s_from s_what]. rewrite Ni. destruct Dv as (a & b & -> & Hb). exists a, b. split; [reflexivity|]. destruct Fr as [Fr _]. apply Forall_inv in Fr. cbn [fst snd] in Fr. specialize (Hb d Id Gt). lia.
  - contradiction.
Qed.
Lemma init_all_tidy doms : forall doms' i, (forall k d, nth_error doms' k = Some d -> nth (i + k) doms (mkDom 0 None 0 []) = d) -> Forall (fun d => well_formed d /\ 1 <= d_n d) doms' -> all_tidy doms (init_all i doms').
Proof.
  induction doms' as [|d r IH]; intros i Hn W; [constructor|]. cbn [init_all]. inversion W as [|? ? [Wd Nd] Wr]; subst. constructor; [|apply IH; [|exact Wr]; intros k x K; rewrite <- (Hn (S k) x K); f_equal; lia].
  assert (Ni : nth i doms (mkDom 0 None 0 []) = d) by (rewrite <- (Hn 0%nat d eq_refl); f_equal; lia). unfold sel_dom. cbn [s_from s_what]. rewrite Ni. destruct (all_ids d Wd) as [P Sd]. unfold all_of in *. destruct (d_grid d) as [g|] eqn:G.
  - apply Sd. destruct Wd as (_ & Wg & _). destruct (Wg g G) as (A & B & C & E). cbn [slen]. unfold cells, last_cell. cbn [c0 c1 c2 fst snd]. destruct (Z.ltb_spec 0 (c0 g)); [|lia]. destruct (Z.ltb_spec 0 (c1 g)); [|lia]. destruct (Z.ltb_spec 0 (c2 g)); [|lia]. nia.
  - exists 0, (d_n d - 1). split; [reflexivity|]. lia.
Qed.
Lemma init_tidy doms qs : match qs with Some l => Forall (divisible doms) l | None => Forall (fun d => well_formed d /\ 1 <= d_n d) doms end -> all_tidy doms (initialize doms qs).
Proof.
  intros H. assert (Hn : forall k d, nth_error doms k = Some d -> nth (0 + k) doms (mkDom 0 None 0 []) = d) by (intros k d K; cbn [Nat.add]; apply nth_error_nth; exact K).
  destruct qs as [l|]; cbn [initialize]; [|apply init_all_tidy; assumption]. induction H as [|q l D F IH]; [constructor|]. cbn [flat_map]. apply Forall_app. split; [|exact IH]. apply init_one_tidy; [exact D|exact Hn|auto].
Qed.
Lemma tidy_total doms ss : all_tidy doms ss -> Z.of_nat (length (flat_map (el doms) ss)) = sizes doms ss.
Proof.
  induction 1 as [|s ss T F IH]; [reflexivity|]. cbn [flat_map sizes fold_right]. fold (sizes doms ss). rewrite app_length, Nat2Z.inj_add, IH. f_equal. unfold el. rewrite map_length. apply (tidy_facts _ _ T).
Qed.
Lemma partition_counts doms qs t fuel : mesh_ok doms -> match qs with Some l => Forall (divisible doms) l | None => Forall (fun d => 1 <= d_n d) doms end ->
  1 <= t <= Z.of_nat (length (picked doms qs)) -> t < Z.of_nat fuel ->
  exists out, partition fuel doms qs (Some t) = Ok out /\ map fst out = zseq t /\ Forall (fun o => snd o <> []) out.
Proof.
  intros M Dv T Fu. assert (Fr : match qs with Some l => Forall (fair doms) l | None => True end). { destruct qs as [l|]; [|exact I]. eapply Forall_impl; [|exact Dv]. intros q [Q _]. exact Q. }
  destruct (init_ok doms qs M Fr) as [O P].
  assert (Td : all_tidy doms (initialize doms qs)). { apply init_tidy. destruct qs as [l|]; [exact Dv|]. destruct M as [M _]. rewrite Forall_forall in *. intros d I. split; auto. }
  pose proof (tidy_total doms _ Td) as Tt. rewrite (Permutation_length P) in Tt.
  destruct (split_count doms t fuel (initialize doms qs) Td) as (ss' & E & Td' & L); [intros E; rewrite E in Tt; cbn in Tt; lia|lia|lia|lia|].
  destruct (split_loop_keeps doms t (fun s => mesh_fields doms s M) fuel _ _ O E) as [O' _].
  unfold partition. rewrite E. cbn [obind]. rewrite (tidy_targets doms) by exact Td'. set (cs := map (chunk doms) ss'). set (ch := combine _ _).
  assert (Lc : length ch = length ss') by (unfold ch, cs; rewrite combine_length, !map_length; lia).
  assert (Cn : Forall (fun c => c <> []) cs).
  { unfold cs. apply Forall_forall. intros c I. apply in_map_iff in I. destruct I as (s & <- & I). unfold all_tidy in Td'. rewrite Forall_forall in O', Td'. intros C. pose proof (Permutation_length (chunk_perm doms s (O' s I))) as Q. rewrite C in Q. unfold el in Q. rewrite map_length in Q. destruct (tidy_facts _ _ (Td' s I)) as (F1 & F2 & _). cbn [length] in Q. lia. }
  assert (Fc : Forall (fun c => 1 <= fst c /\ snd c = -1) ch).
  { apply Forall_forall. intros [n x] I. cbn [fst snd]. unfold ch in I. split.
    - apply in_combine_l in I. apply in_map_iff in I. destruct I as (c & <- & I). rewrite Forall_forall in Cn. specialize (Cn c I). destruct c; [congruence|cbn [length]; lia].
    - apply in_combine_r in I. apply in_map_iff in I. destruct I as (s & <- & I). unfold all_tidy in Td'. rewrite Forall_forall in Td'. apply (tidy_facts _ _ (Td' s I)). }
  rewrite <- Lc in L |- *. destruct (chunk_numbers t ch ltac:(lia) Fc) as (ds & D & Z). rewrite D. cbn [obind]. eexists. split; [reflexivity|]. split.
  - rewrite map_map. cbn [fst]. rewrite map_id. exact Z.
  - apply Forall_forall. intros o I. apply in_map_iff in I. destruct I as (v & <- & I). cbn [snd]. apply (proj1 (zset_in _ _)) in I. apply length_map_chunks in D.
    assert (Lcs : length ds = length cs) by (rewrite D, Lc; unfold cs; rewrite map_length; reflexivity). clear - I Lcs Cn; clearbody cs. clear - I Lcs Cn. revert cs Lcs Cn. induction ds as [|x ds IH]; intros [|c cs] Lcs Cn; try contradiction; try discriminate.
    inversion Cn as [|? ? C1 C2]; subst. cbn [combine filter fst]. destruct I as [->|I].
    + rewrite Z.eqb_refl. cbn [flat_map snd]. destruct c; [congruence|discriminate].
    + injection Lcs as Lcs. specialize (IH I cs Lcs C2). destruct (x =? v); [|exact IH]. cbn [flat_map snd]. intros H. apply app_eq_nil in H. apply IH, H.
Qed.
