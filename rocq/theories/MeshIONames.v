From Coq Require Import ZArith Lia Permutation.
From Verif Require Import Base Path PathFacts Json JsonSpec JsonSchema Node NodeFacts SchemaInv MeshIO MeshIOSpec MeshIOFacts.
Local Open Scope Z_scope.

(** * Simple names *)
Definition free (c : ascii) (s : str) : Prop := ~ In c s.
Lemma simple_free s c : simple s -> In c (L "/{}:%") -> free c s.
Proof. intros S I J. destruct (S c J) as [N _]. exact (N I). Qed.
Lemma simple_nul s : simple s -> free "000"%char s.
Proof. intros S J. destruct (S _ J) as [_ N]. congruence. Qed.
Lemma simple_app a b : simple a -> simple b -> simple (a ++ b).
Proof. intros A B c I. apply in_app_iff in I. destruct I; auto. Qed.
Lemma simple_digits s : Forall digit s -> simple s.
Proof.
  intros F c I. rewrite Forall_forall in F. specialize (F c I). unfold digit in F. cbn [L list_ascii_of_string In] in *.
  repeat (destruct F as [<-|F]; [split; [intros X; repeat (destruct X as [X|X]; [discriminate X|]); destruct X|discriminate]|]). destruct F.
Qed.
Lemma simple_pad w z : 0 <= z -> simple (pad w z).
Proof. intros H. apply simple_digits, pad_digits, H. Qed.
Ltac simple_lit := intros c I; cbn [L list_ascii_of_string In] in I; repeat (destruct I as [<-|I]; [split; [intros X; cbn [L list_ascii_of_string In] in X; repeat (destruct X as [X|X]; [discriminate X|]); destruct X|discriminate]|]); destruct I.
Lemma simple_dom i : 0 <= i -> simple (dom_name i).
Proof. intros H. apply simple_app; [simple_lit|apply simple_pad, H]. Qed.
Lemma simple_dot : simple (L "."). Proof. simple_lit. Qed.
Lemma simple_file : simple (L "file_"). Proof. simple_lit. Qed.
Lemma simple_root : simple (L ".root"). Proof. simple_lit. Qed.
Lemma dom_name_ne i : dom_name i <> []. Proof. discriminate. Qed.

(** * Places in a file *)
Lemma split_word t sep : free sep t -> free "000"%char t -> forall s acc, split_vec (t ++ s) sep acc = split_vec s sep (rev t ++ acc).
Proof.
  unfold free. induction t as [|c t IH]; intros H1 H2 s acc; [reflexivity|]. cbn [app split_vec].
  destruct (ascii_dec c "000") as [->|_]; [destruct H2; left; reflexivity|].
  destruct (ascii_dec c sep) as [->|_]; [destruct H1; left; reflexivity|].
  rewrite IH; [|intros I; apply H1; right; exact I|intros I; apply H2; right; exact I]. cbn [rev]. rewrite <- app_assoc. reflexivity.
Qed.
Lemma rev_ne {A} (t : list A) : t <> [] -> rev t <> [].
Proof. intros N E. apply N. apply (f_equal (@rev A)) in E. rewrite rev_involutive in E. exact E. Qed.
Lemma canon_slash p : canon (slash :: p) = canon p.
Proof. reflexivity. Qed.
Lemma canon_one a : a <> [] -> simple a -> canon a = a ++ [slash].
Proof.
  intros N S. unfold canon, split_string_vec. rewrite <- (app_nil_r a) at 1. rewrite split_word; [|apply simple_free with (1 := S); left; reflexivity|apply simple_nul, S].
  rewrite app_nil_r. cbn [split_vec]. pose proof (rev_ne a N) as R. destruct (rev a) as [|x l] eqn:E; [congruence|]. rewrite <- E, rev_involutive. cbn [flat_map]. apply app_nil_r.
Qed.
Lemma canon_app a b : a <> [] -> simple a -> canon (a ++ slash :: b) = a ++ slash :: canon b.
Proof.
  intros N S. unfold canon, split_string_vec. rewrite split_word; [|apply simple_free with (1 := S); left; reflexivity|apply simple_nul, S].
  rewrite app_nil_r. cbn [split_vec]. destruct (ascii_dec slash "000") as [X|_]; [discriminate X|]. destruct (ascii_dec slash slash) as [_|X]; [|congruence].
  pose proof (rev_ne a N) as R. destruct (rev a) as [|x l] eqn:E; [congruence|]. rewrite <- E, rev_involutive. cbn [flat_map]. rewrite <- app_assoc. reflexivity.
Qed.

(** * Joining and splitting *)
Lemma last_app {A} (a b : list A) d : b <> [] -> last (a ++ b) d = last b d.
Proof.
  intros N. induction a as [|x a IH]; [reflexivity|]. cbn [app]. destruct (a ++ b) eqn:E; [apply app_eq_nil in E; tauto|]. cbn [last]. exact IH.
Qed.
Lemma last_free a d : a <> [] -> free slash a -> last a d <> slash.
Proof. intros N F E. apply F. rewrite <- E. apply last_in, N. Qed.
Lemma join_file_eq a b s : b <> [] -> simple b -> join_file_path (a ++ b) s = a ++ b ++ slash :: s.
Proof.
  intros N S. unfold join_file_path. destruct (a ++ b) as [|x l] eqn:E; [apply app_eq_nil in E; tauto|]. rewrite <- E. rewrite last_app by exact N.
  destruct (ascii_dec (last b "000"%char) slash) as [X|_]; [exfalso; revert X; apply last_free; [exact N|apply simple_free with (1 := S); left; reflexivity]|].
  rewrite <- app_assoc. reflexivity.
Qed.
(** what comes before the base name: nothing, or a directory and a slash *)
Definition pre_ok (pre : str) : Prop := pre = [] \/ exists dir, pre = dir ++ [slash] /\ dir <> [] /\ last dir "000"%char <> slash.
Lemma rsplit_pre pre x : pre_ok pre -> free slash x -> fst (rsplit_path (pre ++ x)) = x /\ forall s, s <> [] -> join_path (snd (rsplit_path (pre ++ x))) s = pre ++ s.
Proof.
  intros [->|(dir & -> & N & La)] F.
  - cbn [app]. rewrite rsplit_path_none by exact F. split; [reflexivity|]. intros s _. reflexivity.
  - rewrite <- app_assoc. cbn [app]. rewrite rsplit_path_app by exact F. split; [reflexivity|]. intros s Ns. cbn [snd]. unfold join_path.
    destruct dir as [|x0 dir]; [congruence|]. destruct (ascii_dec (last (x0 :: dir) "000"%char) slash) as [E|_]; [congruence|].
    destruct s as [|c s]; [congruence|]. rewrite <- app_assoc. reflexivity.
Qed.
Lemma find_none c r s : free c s -> find_sub (c :: r) s = None.
Proof.
  unfold free. induction s as [|x s IH]; intros F; [reflexivity|]. cbn [find_sub prefixb]. destruct (ascii_dec c x) as [->|_]; [destruct F; left; reflexivity|].
  rewrite IH by (intros I; apply F; right; exact I). reflexivity.
Qed.
Lemma find_first c r s t : free c s -> prefixb (c :: r) t = true -> find_sub (c :: r) (s ++ t) = Some (length s).
Proof.
  unfold free. induction s as [|x s IH]; intros F P.
  - cbn [app length]. destruct t as [|y t]; [discriminate P|]. cbn [find_sub]. rewrite P. reflexivity.
  - cbn [app find_sub prefixb]. destruct (ascii_dec c x) as [->|_]; [destruct F; left; reflexivity|]. rewrite IH by (assumption || (intros I; apply F; right; exact I)). reflexivity.
Qed.
Lemma split_colon s t : free ":"%char s -> split_string (s ++ L ":/" ++ t) (L ":/") = (s, slash :: t).
Proof.
  intros F. unfold split_string. rewrite (find_first ":" [slash]) by (assumption || reflexivity).
  rewrite firstn_app, Nat.sub_diag, firstn_all, firstn_O, app_nil_r. f_equal.
  rewrite !app_length. cbn [L list_ascii_of_string length app]. match goal with |- context [(?a =? ?b)%nat] => destruct (Nat.eqb_spec a b) as [X|_]; [exfalso; cbn in X; lia|] end.
  rewrite skipn_app, skipn_all2 by lia. replace (length s + 1 - length s)%nat with 1%nat by lia. reflexivity.
Qed.
Lemma not_bad s : free ":"%char s -> snd (split_file_path s [":"%char]) = [].
Proof.
  intros F. unfold split_file_path. assert (D : drive_case s [":"%char] = false).
  { unfold drive_case. destruct s as [|a [|b s]]; try (rewrite ?andb_false_r; reflexivity). cbn [nth]. destruct (ascii_dec b ":") as [->|_]; [destruct F; right; left; reflexivity|]. rewrite !andb_false_r. reflexivity. }
  rewrite D. unfold split_string. rewrite find_none by exact F. reflexivity.
Qed.

(** * Patterns *)
Lemma fmt_lit args s t : free "{"%char s -> free "}"%char s -> fmt args None (s ++ t) = do r <- fmt args None t; Ok (s ++ r).
Proof.
  unfold free. induction s as [|c s IH]; intros A B; [cbn [app]; destruct (fmt args None t); reflexivity|]. cbn [app fmt].
  destruct (Ascii.eqb_spec c "{") as [->|_]; [destruct A; left; reflexivity|]. destruct (Ascii.eqb_spec c "}") as [->|_]; [destruct B; left; reflexivity|].
  rewrite IH by (intros I; solve [apply A; right; exact I|apply B; right; exact I]). destruct (fmt args None t); reflexivity.
Qed.
Lemma fmt_simple args s t : simple s -> fmt args None (s ++ t) = do r <- fmt args None t; Ok (s ++ r).
Proof. intros S. apply fmt_lit; apply simple_free with (1 := S); cbn; tauto. Qed.
Lemma fmt_domain args i t : mget args (L "domain") = Some i -> fmt args None (L "{domain:06d}" ++ t) = do r <- fmt args None t; Ok (pad 6 i ++ r).
Proof.
  intros E. transitivity (do s <- fmt_field args (L "domain:06d"); do r <- fmt args None t; Ok (s ++ r)); [reflexivity|].
  unfold fmt_field. change (split_string (L "domain:06d") [":"%char]) with (L "domain", L "06d"). cbv iota beta. rewrite E. reflexivity.
Qed.
Lemma fmt_file args i t : mget args (L "file") = Some i -> fmt args None (L "{file:06d}" ++ t) = do r <- fmt args None t; Ok (pad 6 i ++ r).
Proof.
  intros E. transitivity (do s <- fmt_field args (L "file:06d"); do r <- fmt args None t; Ok (s ++ r)); [reflexivity|].
  unfold fmt_field. change (split_string (L "file:06d") [":"%char]) with (L "file", L "06d"). cbv iota beta. rewrite E. reflexivity.
Qed.

(** * The map of domains to entries *)
Lemma zmax_zseq k : zmax_list (zseq (Z.of_nat k)) = Z.of_nat k - 1.
Proof.
  unfold zmax_list, zseq. rewrite Nat2Z.id.
  assert (A : forall k a m, m < Z.of_nat a -> fold_left Z.max (map Z.of_nat (seq a k)) m = if (k =? 0)%nat then m else Z.of_nat (a + k) - 1).
  { clear. induction k as [|k IH]; intros a m H; [reflexivity|]. cbn [seq map fold_left]. rewrite IH by lia. destruct k; cbn [Nat.eqb]; lia. }
  rewrite A by lia. destruct k; cbn [Nat.eqb]; lia.
Qed.
Lemma tree_ok n k : forall i acc, (i + k)%nat = n -> length acc = n -> (forall j, (j < i)%nat -> nth_error acc j = Some (Z.of_nat j)) ->
  exists t, dom_to_tree (zseq (Z.of_nat n)) (Z.of_nat i) k acc = Ok t /\ length t = n /\ forall j, (j < n)%nat -> nth_error t j = Some (Z.of_nat j).
Proof.
  induction k as [|k IH]; intros i acc H La A; cbn [dom_to_tree].
  - exists acc. split; [reflexivity|]. split; [exact La|]. intros j Hj. apply A. lia.
  - assert (E : znth (zseq (Z.of_nat n)) (Z.of_nat i) = Some (Z.of_nat i)).
    { rewrite znth_of_nat. pose proof (zseq_nth (Z.of_nat n) (Z.of_nat i) ltac:(lia)) as Q. rewrite Nat2Z.id in Q. exact Q. }
    rewrite E. cbn [deref obind]. rewrite znth_of_nat. destruct (nth_error acc i) as [x|] eqn:X; [|apply nth_error_None in X; lia]. cbn [deref obind].
    replace (Z.of_nat i + 1) with (Z.of_nat (S i)) by lia. rewrite Nat2Z.id. apply IH; [lia|rewrite length_set_nth; exact La|].
    intros j Hj. destruct (Nat.eq_dec i j) as [<-|N]; [apply nth_error_set_nth_same; lia|]. rewrite nth_error_set_nth_other by exact N. apply A. lia.
Qed.
Definition args_of (fs : option (list Z)) (i : Z) : option (list (str * Z)) :=
  match fs with None => Some [(L "domain", i)] | Some l => match znth l i with Some f => Some [(L "file", f); (L "domain", i)] | None => None end end.
Lemma full_path_ok pat fs n i args : 0 <= i < Z.of_nat n -> args_of fs i = Some args -> full_path pat (Some (mkPM fs (zseq (Z.of_nat n)))) i = fmt args None pat.
Proof.
  intros H A. unfold full_path. cbn [pm_domain pm_file]. rewrite zmax_zseq. replace (Z.of_nat n - 1 + 1) with (Z.of_nat n) by lia. rewrite Nat2Z.id.
  destruct (tree_ok n n 0 (map (fun _ => 0) (zseq (Z.of_nat n))) ltac:(lia) ltac:(rewrite map_length, length_zseq; lia) ltac:(intros j Hj; lia)) as (t & E & _ & T).
  change (Z.of_nat 0) with 0 in E. rewrite E. cbn [obind].
  assert (X : znth t i = Some i) by (unfold znth; destruct (Z.ltb_spec i 0); [lia|]; rewrite T by lia; f_equal; lia).
  rewrite X. cbn [deref obind]. assert (Y : znth (zseq (Z.of_nat n)) i = Some i) by (unfold znth; destruct (Z.ltb_spec i 0); [lia|]; apply zseq_nth; lia).
  rewrite Y. cbn [deref obind]. unfold args_of in A. destruct fs as [l|]; [|injection A as <-; reflexivity].
  destruct (znth l i) as [f|]; [|discriminate A]. injection A as <-. reflexivity.
Qed.

(** * The ranges the readers take *)
Lemma first_step n p r : first_of n p (r + 1) = first_of n p r + read_size n p r.
Proof. unfold first_of, read_size. destruct (Z.ltb_spec r (n mod p)); lia. Qed.
Lemma range_start n p k : 0 <= n -> 1 <= p -> fold_left Z.add (map (read_size n p) (zseq (Z.of_nat k))) 0 = first_of n p (Z.of_nat k).
Proof.
  intros Hn Hp. unfold zseq. rewrite Nat2Z.id. induction k as [|k IH].
  - cbn. unfold first_of. pose proof (Z.mod_pos_bound n p ltac:(lia)). lia.
  - rewrite seq_S, !map_app, fold_left_app. rewrite IH. cbn [map fold_left Nat.add]. rewrite <- first_step. f_equal. lia.
Qed.
Lemma ranges_tile n p : 0 <= n -> 1 <= p -> concat (map (read_range n p) (zseq p)) = zseq n.
Proof.
  intros Hn Hp.
  assert (A : forall k, concat (map (read_range n p) (zseq (Z.of_nat k))) = zseq (first_of n p (Z.of_nat k)) /\ 0 <= first_of n p (Z.of_nat k)).
  { induction k as [|k [IH Po]].
    - pose proof (Z.mod_pos_bound n p ltac:(lia)). assert (E : first_of n p (Z.of_nat 0) = 0) by (unfold first_of; lia). rewrite E. split; [reflexivity|lia].
    - assert (Sz : 0 <= read_size n p (Z.of_nat k)) by (unfold read_size; pose proof (Z.div_pos n p); destruct (_ <? _); lia).
      assert (Zs : zseq (Z.of_nat (S k)) = zseq (Z.of_nat k) ++ [Z.of_nat k]) by (unfold zseq; rewrite !Nat2Z.id, seq_S, map_app; reflexivity).
      rewrite Zs, map_app, concat_app, IH. cbn [map concat]. rewrite app_nil_r.
      replace (Z.of_nat (S k)) with (Z.of_nat k + 1) by lia. rewrite first_step. split; [|lia].
      unfold read_range. rewrite range_start by assumption. set (a := first_of n p (Z.of_nat k)) in *. set (b := read_size n p (Z.of_nat k)) in *.
      unfold zseq. rewrite Z2Nat.inj_add by lia. rewrite seq_app, map_app. f_equal. cbn [Nat.add]. rewrite map_map.
      replace (Z.to_nat a) with (Z.to_nat a + 0)%nat by lia. generalize (Z.to_nat b). intros m. generalize 0%nat. revert Po. clearbody a. clear. intros Po.
      induction m as [|m IH]; intros s; [reflexivity|]. cbn [seq map]. f_equal; [lia|]. rewrite IH. do 2 f_equal. lia. }
  specialize (A (Z.to_nat p)). rewrite Z2Nat.id in A by lia. rewrite (proj1 A). f_equal.
  pose proof (Z.mod_pos_bound n p ltac:(lia)). pose proof (Z.div_mod n p). unfold first_of. lia.
Qed.
Lemma omap_list_ok {A B} (f : A -> outcome B) g l : (forall x, In x l -> f x = Ok (g x)) -> omap_list f l = Ok (map g l).
Proof. induction l as [|x l IH]; intros H; [reflexivity|]. cbn [omap_list map]. rewrite H by (left; reflexivity). cbn [obind]. rewrite IH by (intros; apply H; right; assumption). reflexivity. Qed.
