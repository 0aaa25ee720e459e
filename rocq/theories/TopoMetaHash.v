(** Lines between fewer than 256 points have different hashes. *)
From Verif Require Import Base DType Node NodeFacts SchemaInv O2M MeshElem MeshElemFacts TopoMeta TopoMetaSpec TopoMetaFacts TopoMetaBack TopoMetaGen TopoMetaLines.
From Coq Require Import ZArith Lia Permutation Sorting.Sorted Znumtheory.
Local Open Scope Z_scope.
Import ListNotations.

Definition W : Z := 2 ^ 32.
Lemma mul_inj k x y : k mod 2 = 1 -> (x * k) mod W = (y * k) mod W -> x mod W = y mod W.
Proof.
  intros Hk E. assert (D : (W | (x - y) * k)).
  { apply Z.mod_divide; [unfold W; lia|]. rewrite Z.mul_sub_distr_r, Zminus_mod, E, Z.sub_diag. reflexivity. }
  rewrite Z.mul_comm in D. apply Gauss in D.
  - destruct D as [q Hq]. replace x with (y + q * W) by lia. rewrite Z_mod_plus_full. reflexivity.
  - unfold W. change (2 ^ 32) with (2 ^ Z.of_nat 32). generalize 32%nat. induction n as [|n IH].
    + apply rel_prime_1.
    + rewrite Nat2Z.inj_succ, Z.pow_succ_r by lia. apply rel_prime_sym. apply rel_prime_mult; [|apply rel_prime_sym; exact IH].
      apply Zis_gcd_intro; [apply Z.divide_1_l|apply Z.divide_1_l|]. intros z [u Hu] [v Hv].
      exists (u - v * (k / 2)). pose proof (Z.div_mod k 2 ltac:(lia)). nia.
Qed.
Lemma xor_inj s x y : 0 < s -> 0 <= x < W -> 0 <= y < W -> Z.lxor x (Z.shiftr x s) = Z.lxor y (Z.shiftr y s) -> x = y.
Proof.
  intros Hs Bx By E. apply Z.lxor_eq. set (d := Z.lxor x y).
  assert (E' : d = Z.shiftr d s).
  { unfold d. rewrite Z.shiftr_lxor. apply Z.lxor_eq. 
    rewrite <- (Z.lxor_assoc (Z.lxor x y)), (Z.lxor_assoc x y), (Z.lxor_comm y), <- (Z.lxor_assoc x), (Z.lxor_assoc (Z.lxor x _)), E. apply Z.lxor_nilpotent. }
  assert (Nd : 0 <= d) by (apply Z.lxor_nonneg; lia).
  rewrite Z.shiftr_div_pow2 in E' by lia. assert (2 <= 2 ^ s) by (replace s with (Z.succ (s - 1)) by lia; rewrite Z.pow_succ_r by lia; assert (0 < 2 ^ (s - 1)) by (apply Z.pow_pos_nonneg; lia); lia).
  destruct (Z.eq_dec d 0) as [->|N]; [reflexivity|]. exfalso. assert (d / 2 ^ s < d) by (apply Z.div_lt; lia). lia.
Qed.
Lemma xor_range s x : 0 < s -> 0 <= x < W -> 0 <= Z.lxor x (Z.shiftr x s) < W.
Proof.
  intros Hs B. assert (Sn : 0 <= Z.shiftr x s) by (apply Z.shiftr_nonneg; lia). split; [apply Z.lxor_nonneg; lia|].
  assert (Sx : Z.shiftr x s < W).
  { rewrite Z.shiftr_div_pow2 by lia. assert (0 < 2 ^ s) by (apply Z.pow_pos_nonneg; lia). apply Z.div_lt_upper_bound; [lia|]. nia. }
  destruct (Z.eq_dec (Z.lxor x (Z.shiftr x s)) 0) as [->|N]; [unfold W; lia|].
  assert (P : 0 < Z.lxor x (Z.shiftr x s)) by (assert (0 <= Z.lxor x (Z.shiftr x s)) by (apply Z.lxor_nonneg; lia); lia).
  apply Z.log2_lt_pow2; [exact P|]. pose proof (Z.log2_lxor x (Z.shiftr x s) ltac:(lia) Sn) as L.
  assert (Lx : Z.log2 x < 32) by (destruct (Z.eq_dec x 0) as [->|]; [cbn; lia|apply Z.log2_lt_pow2; unfold W in *; lia]).
  assert (Ly : Z.log2 (Z.shiftr x s) < 32) by (destruct (Z.eq_dec (Z.shiftr x s) 0) as [->|]; [cbn; lia|apply Z.log2_lt_pow2; unfold W in *; lia]).
  lia.
Qed.
Lemma mix_range h b : 0 <= mix h b < W.
Proof. unfold mix. apply xor_range; [lia|]. apply Z.mod_pos_bound. unfold W. lia. Qed.
Lemma mix_inj h b h' b' : mix h b = mix h' b' -> (h + b) mod W = (h' + b') mod W.
Proof.
  unfold mix. change (2 ^ 32) with W. intro E. apply xor_inj in E; [|lia| |]; [|apply Z.mod_pos_bound; unfold W; lia|apply Z.mod_pos_bound; unfold W; lia].
  apply mul_inj in E; [exact E|reflexivity].
Qed.
Lemma finish_inj h h' : 0 <= h < W -> 0 <= h' < W -> finish h = finish h' -> h = h'.
Proof.
  intros B B'. unfold finish. change (2 ^ 32) with W. intro E. apply mul_inj in E; [|reflexivity].
  assert (R : forall x, 0 <= Z.lxor ((x * 9) mod W) (Z.shiftr ((x * 9) mod W) 11) < W) by (intro x; apply xor_range; [lia|apply Z.mod_pos_bound; unfold W; lia]).
  rewrite (Z.mod_small _ W (R h)), (Z.mod_small _ W (R h')) in E. apply xor_inj in E; [|lia| |]; [|apply Z.mod_pos_bound; unfold W; lia|apply Z.mod_pos_bound; unfold W; lia].
  apply mul_inj in E; [|reflexivity]. rewrite !Z.mod_small in E by lia. exact E.
Qed.
Lemma finish_range h : 0 <= finish h < W.
Proof. unfold finish. apply Z.mod_pos_bound. unfold W. lia. Qed.
Definition zeros (n : nat) : list Z := repeat 0 n.
Lemma zeros_inj n : forall h h', 0 <= h < W -> 0 <= h' < W -> fold_left mix (zeros n) h = fold_left mix (zeros n) h' -> h = h'.
Proof.
  induction n as [|n IH]; intros h h' B B' E; [exact E|]. cbn in E. apply IH in E; [|apply mix_range|apply mix_range].
  apply mix_inj in E. rewrite !Z.add_0_r, !Z.mod_small in E by assumption. exact E.
Qed.
Definition start : Z := fold_left mix (le_bytes 8 16) 0.
Definition after (a : Z) : Z := fold_left mix (zeros 7) (mix start a).
Fixpoint spread (l : list Z) : bool :=
  match l with [] => true | x :: r => forallb (fun y => (256 <=? Z.abs (x - y)) && (Z.abs (x - y) <=? 4294967296 - 256)) r && spread r end.
Lemma spread_table : spread (map after (zseq 256)) = true.
Proof. vm_compute. reflexivity. Qed.
Lemma fold_cons {A B} (f : A -> B -> A) x l h : fold_left f (x :: l) h = fold_left f l (f h x).
Proof. reflexivity. Qed.
Local Opaque mix finish.
Lemma byte_of a : 0 <= a < 256 -> le_bytes 8 a = a :: zeros 7.
Proof. intro B. cbn [le_bytes]. rewrite Z.mod_small by exact B. rewrite (Z.div_small a 256) by exact B. reflexivity. Qed.
Lemma zeros_range n h : 0 <= h < W -> 0 <= fold_left mix (zeros n) h < W.
Proof. revert h. induction n as [|n IH]; intros h B; [exact B|]. cbn. apply IH. apply mix_range. Qed.
Lemma after_range a : 0 <= after a < W.
Proof. unfold after. exact (zeros_range 7 _ (mix_range start a)). Qed.
Lemma forward a b a' b' : 0 <= a < 256 -> 0 <= b < 256 -> 0 <= a' < 256 -> 0 <= b' < 256 -> hash [a; b] = hash [a'; b'] -> (after a + b) mod W = (after a' + b') mod W.
Proof.
  intros Ba Bb Ba' Bb' E. unfold hash in E. cbn [flat_map] in E. rewrite !app_nil_r, !byte_of in E by assumption. unfold hash_bytes in E.
  change (Z.of_nat (length ((a :: zeros 7) ++ b :: zeros 7))) with 16 in E. change (Z.of_nat (length ((a' :: zeros 7) ++ b' :: zeros 7))) with 16 in E. fold start in E.
  set (B1 := finish (fold_left mix (rev ((a :: zeros 7) ++ b :: zeros 7)) start)) in E. set (B2 := finish (fold_left mix (rev ((a' :: zeros 7) ++ b' :: zeros 7)) start)) in E.
  set (F1 := finish (fold_left mix ((a :: zeros 7) ++ b :: zeros 7) start)) in E. set (F2 := finish (fold_left mix ((a' :: zeros 7) ++ b' :: zeros 7) start)) in E.
  assert (R1 : 0 <= B1 < W) by apply finish_range. assert (R2 : 0 <= B2 < W) by apply finish_range.
  assert (EF : F1 = F2) by (change (2 ^ 32) with W in E; nia). unfold F1, F2 in EF.
  rewrite !fold_left_app, !fold_cons in EF. fold (after a) (after a') in EF.
  apply finish_inj in EF; [|apply zeros_range, mix_range|apply zeros_range, mix_range]. apply zeros_inj in EF; [|apply mix_range|apply mix_range]. exact (mix_inj _ _ _ _ EF).
Qed.
Lemma spread_nth l : spread l = true -> forall i j x y, (i < j)%nat -> nth_error l i = Some x -> nth_error l j = Some y -> 256 <= Z.abs (x - y) <= W - 256.
Proof.
  induction l as [|a l IH]; intros S [|i] [|j] x y Lt Hx Hy; try lia; try discriminate; cbn [spread nth_error] in *; apply Bool.andb_true_iff in S; destruct S as [S1 S2].
  - injection Hx as <-. rewrite forallb_forall in S1. specialize (S1 y (nth_error_In _ _ Hy)). apply Bool.andb_true_iff in S1. rewrite !Z.leb_le in S1. unfold W. lia.
  - apply (IH S2 i j); [lia|assumption|assumption].
Qed.
Lemma after_apart a a' : 0 <= a < 256 -> 0 <= a' < 256 -> a <> a' -> 256 <= Z.abs (after a - after a') <= W - 256.
Proof.
  intros B B' N.
  assert (G : forall x y, 0 <= x < 256 -> 0 <= y < 256 -> x < y -> 256 <= Z.abs (after x - after y) <= W - 256).
  { intros x y Bx By L. apply (spread_nth _ spread_table (Z.to_nat x) (Z.to_nat y)); [lia| |]; rewrite nth_error_map, zseq_nth by lia; reflexivity. }
  destruct (Z.lt_trichotomy a a') as [L|[L|L]]; [apply G; assumption|contradiction|]. specialize (G a' a B' B L). lia.
Qed.
Theorem lines_apart a b a' b' : 0 <= a < 256 -> 0 <= b < 256 -> 0 <= a' < 256 -> 0 <= b' < 256 -> hash [a; b] = hash [a'; b'] -> a = a' /\ b = b'.
Proof.
  intros Ba Bb Ba' Bb' E. apply forward in E; try assumption. pose proof (after_range a) as R. pose proof (after_range a') as R'.
  assert (D : exists q, after a + b - (after a' + b') = q * W).
  { exists ((after a + b) / W - (after a' + b') / W). pose proof (Z.div_mod (after a + b) W ltac:(unfold W; lia)). pose proof (Z.div_mod (after a' + b') W ltac:(unfold W; lia)). lia. }
  destruct D as [q Hq]. assert (q = 0 \/ q = 1 \/ q = -1) by (unfold W in *; lia).
  destruct (Z.eq_dec a a') as [<-|N].
  - split; [reflexivity|]. unfold W in *. lia.
  - exfalso. pose proof (after_apart a a' Ba Ba' N). unfold W in *. lia.
Qed.
Definition small_line (n : Z) (f : list Z) : Prop := exists a b, f = [a; b] /\ 0 <= a < n /\ 0 <= b < n.
Lemma small_perm n f f' : small_line n f -> Permutation f f' -> small_line n f'.
Proof.
  intros [a [b [-> [A B]]]] P. apply Permutation_length_2_inv in P. destruct P as [-> | ->]; [exists a, b|exists b, a]; auto.
Qed.
Theorem small_told fs : Forall (small_line 256) fs -> told_apart fs /\ told_apart_down fs.
Proof.
  intro F. rewrite Forall_forall in F.
  assert (G : forall f g f' g', In f fs -> In g fs -> Permutation f f' -> Permutation g g' -> hash f' = hash g' -> Permutation f g).
  { intros f g f' g' If Ig Pf Pg E. destruct (small_perm _ _ _ (F _ If) Pf) as [a [b [-> [A B]]]], (small_perm _ _ _ (F _ Ig) Pg) as [c [d [-> [C D]]]].
    destruct (lines_apart a b c d A B C D E) as [-> ->]. exact (Permutation_trans Pf (Permutation_sym Pg)). }
  split; intros f g f' g' If Ig Pf Pg _ _ E; exact (G f g f' g' If Ig Pf Pg E).
Qed.

Lemma cycle_small p : Forall (fun x => 0 <= x < 256) p -> Forall (small_line 256) (cycle p).
Proof.
  intro F. destruct p as [|a r]; [constructor|]. unfold cycle. apply Forall_forall. intros e I. apply in_map_iff in I. destruct I as [[x y] [<- I]].
  rewrite Forall_forall in F. pose proof (in_combine_l _ _ _ _ I) as Ix. pose proof (in_combine_r _ _ _ _ I) as Iy. exists x, y. split; [reflexivity|]. split; [apply F; exact Ix|].
  apply F. apply in_app_or in Iy. destruct Iy as [Iy|[<-|[]]]; [right; exact Iy|left; reflexivity].
Qed.
Lemma parts_small s el : solid_dim s = 2 -> length el = corners s -> Forall (fun x => 0 <= x < 256) el -> Forall (small_line 256) (parts_of s el).
Proof.
  intros D Le F. destruct s; try discriminate; cbn in Le.
  - destruct el as [|a [|b [|c [|]]]]; try discriminate. exact (cycle_small [a; b; c] F).
  - destruct el as [|a [|b [|c [|d [|]]]]]; try discriminate. exact (cycle_small [a; b; c; d] F).
Qed.
Lemma flat_small s els : solid_dim s = 2 -> Forall (fun el => length el = corners s) els -> Forall (Forall (fun x => 0 <= x < 256)) els -> told_apart (concat (map (parts_of s) els)).
Proof.
  intros D F R. apply small_told. apply Forall_concat. rewrite Forall_map. rewrite Forall_forall in *. intros el I. apply parts_small; auto.
Qed.
Lemma polys_small polys : Forall (Forall (fun x => 0 <= x < 256)) polys -> told_apart (concat (map cycle polys)).
Proof. intro R. apply small_told. apply Forall_concat. rewrite Forall_map. eapply Forall_impl; [|exact R]. exact cycle_small. Qed.
Section S.
Variable srt : forall A : Type, (A -> A -> bool) -> list A -> list A.
Hypothesis Hs : sorts srt.
Theorem generate_small_lines s els n : solid_dim s = 2 -> Forall (fun el => length el = corners s) els -> Forall (Forall (fun x => 0 <= x < 256)) els ->
  exists ds up down rows back, generate srt (solid_name s) (concat els) [] None n 1 = Ok (mkG ds up down) /\
    numbered (concat (map (parts_of s) els)) ds (concat rows) /\ length rows = length els /\ Forall (fun r => length r = length (parts s)) rows /\
    holds up rows /\ holds down back /\ parents rows (Z.of_nat (length ds)) back.
Proof. intros D F R. destruct (generate_parts srt Hs s els n F (flat_small s els D F R)) as [ds H]. rewrite D in H. exists ds. exact H. Qed.
Theorem generate_small_polygons polys given n : Forall (fun p => (length p <= 32)%nat) polys -> polygons_given polys given -> Forall (Forall (fun x => 0 <= x < 256)) polys ->
  exists ds up down rows back, generate srt (L "polygonal") (concat polys) (map zlen polys) given n 1 = Ok (mkG ds up down) /\
    numbered (concat (map cycle polys)) ds (concat rows) /\ Forall2 (fun p r => length p = length r) polys rows /\
    holds up rows /\ holds down back /\ parents rows (Z.of_nat (length ds)) back.
Proof. intros F G R. exact (generate_polygon_lines srt Hs polys given n F G (polys_small polys R)). Qed.
End S.

(** ---- checking a mesh ---- *)
Lemma edges_small s els : Forall (fun el => length el = corners s) els -> Forall (Forall (fun x => 0 <= x < 256)) els -> Forall (small_line 256) (concat (map (edges_of s) els)).
Proof.
  intros F R. apply Forall_concat. rewrite Forall_map. rewrite Forall_forall in *. intros el I. unfold edges_of. apply Forall_concat. rewrite Forall_map. apply Forall_forall. intros f J. apply cycle_small.
  unfold parts_of in J. apply in_map_iff in J. destruct J as [p [<- Jp]]. apply Forall_forall. intros x K. apply in_map_iff in K. destruct K as [i [<- Ki]].
  specialize (R el I). rewrite Forall_forall in R. apply R. apply nth_In. rewrite (F el I). destruct (solid_corners s) as [_ C]. rewrite Forall_forall in C. specialize (C p Jp). rewrite Forall_forall in C. exact (C i Ki).
Qed.
Definition up (f : list Z) : list Z := isort Z Z.ltb f.
Lemma up_law f : Permutation (up f) f /\ StronglySorted Z.le (up f).
Proof.
  destruct (isort_sorts Z Z.ltb f) as [P S]; [split; intros; rewrite ?Z.ltb_lt, ?Z.ltb_ge in *; lia|]. split; [exact P|]. eapply ss_weaken; [|exact S]. intros x y H. apply Z.ltb_ge in H. exact H.
Qed.
Fixpoint zs_eqb (a b : list Z) : bool := match a, b with [], [] => true | x :: a', y :: b' => (x =? y) && zs_eqb a' b' | _, _ => false end.
Lemma zs_eqb_eq a : forall b, zs_eqb a b = true -> a = b.
Proof. induction a as [|x a IH]; intros [|y b] H; cbn in H; try discriminate; [reflexivity|]. apply Bool.andb_true_iff in H. destruct H as [E H]. apply Z.eqb_eq in E. subst. f_equal. auto. Qed.
Definition apart (fs : list (list Z)) : bool :=
  let ls := map (fun f => (hash (up f), up f)) fs in
  forallb (fun x => forallb (fun y => if fst x =? fst y then zs_eqb (snd x) (snd y) else true) ls) ls.
Lemma apart_told fs : apart fs = true -> told_apart fs.
Proof.
  intros H f g f' g' If Ig Pf Pg Sf Sg E. unfold apart in H. rewrite forallb_forall in H. specialize (H _ (in_map (fun f => (hash (up f), up f)) fs f If)). rewrite forallb_forall in H.
  specialize (H _ (in_map (fun f => (hash (up f), up f)) fs g Ig)). cbn [fst snd] in H. destruct (up_law f) as [P1 S1], (up_law g) as [P2 S2].
  assert (Ef : up f = f') by (apply sorted_unique_z; [exact (Permutation_trans P1 Pf)|exact S1|exact Sf]).
  assert (Eg : up g = g') by (apply sorted_unique_z; [exact (Permutation_trans P2 Pg)|exact S2|exact Sg]).
  rewrite Ef, Eg, E, Z.eqb_refl in H. apply zs_eqb_eq in H. rewrite Pf, Pg, H. reflexivity.
Qed.
Definition untwisted_b (fs : list (list Z)) : bool :=
  forallb (fun f => forallb (fun g => if zs_eqb (up f) (up g) then forallb (fun e => existsb (fun e' => zs_eqb (up e) (up e')) (cycle g)) (cycle f) else true) fs) fs.
Lemma zs_eqb_refl a : zs_eqb a a = true.
Proof. induction a as [|x a IH]; [reflexivity|]. cbn. rewrite Z.eqb_refl. exact IH. Qed.
Lemma untwisted_check fs : untwisted_b fs = true -> untwisted fs.
Proof.
  intros H f g e If Ig P Ie. unfold untwisted_b in H. rewrite forallb_forall in H. specialize (H f If). rewrite forallb_forall in H. specialize (H g Ig).
  destruct (up_law f) as [P1 S1], (up_law g) as [P2 S2].
  assert (E : up f = up g) by (apply sorted_unique_z; [exact (Permutation_trans P1 (Permutation_trans P (Permutation_sym P2)))|exact S1|exact S2]).
  rewrite E, zs_eqb_refl in H. rewrite forallb_forall in H. specialize (H e Ie). apply existsb_exists in H. destruct H as [e' [I' Q]]. exists e'. split; [exact I'|].
  apply zs_eqb_eq in Q. destruct (up_law e) as [Q1 _], (up_law e') as [Q2 _]. rewrite <- Q1, Q. exact Q2.
Qed.
Definition solid_check (s : solid) (els : list (list Z)) : bool :=
  (solid_dim s =? 3) && forallb (fun el => (length el =? corners s)%nat && forallb (fun x => (0 <=? x) && (x <? 256)) el) els &&
  apart (concat (map (parts_of s) els)) && untwisted_b (concat (map (parts_of s) els)).
Lemma solid_checked s els : solid_check s els = true -> solid_hyp s els.
Proof.
  unfold solid_check. rewrite !Bool.andb_true_iff. intros [[[D F] A] U].
  assert (F1 : Forall (fun el => length el = corners s) els).
  { rewrite forallb_forall in F. apply Forall_forall. intros el I. specialize (F el I). apply Bool.andb_true_iff in F. apply Nat.eqb_eq. exact (proj1 F). }
  assert (F2 : Forall (Forall (fun x => 0 <= x < 256)) els).
  { rewrite forallb_forall in F. apply Forall_forall. intros el I. specialize (F el I). apply Bool.andb_true_iff in F. destruct F as [_ F]. rewrite forallb_forall in F. apply Forall_forall. intros x J.
    specialize (F x J). apply Bool.andb_true_iff in F. rewrite Z.leb_le, Z.ltb_lt in F. lia. }
  pose proof (small_told _ (edges_small s els F1 F2)) as [T1 T2].
  constructor; [apply Z.eqb_eq; exact D|exact F1|apply apart_told; exact A|exact T1|exact T2|apply untwisted_check; exact U].
Qed.
