(** Specification and lemmas for array reductions and assignments (C38). *)
From Coq Require Import ZArith Lia Floats.SpecFloat Nnat.
From Verif Require Import Base DType SpecTree Mem MemFacts Node NodeFacts SpecNode Number NumberFacts NodeDiff DiffFacts DiffMore ArrayOps.
Local Open Scope Z_scope.

(** ---- specification ---- *)
(** The leaf behind a view holds the numbers [xs]. *)
Definition shows (mach : endian) (m : mem) (h : hdr) (d : dtype) (xs : list Z) : Prop :=
  is_int (dt_id d) = true /\
  exists es, leaf_value m (h_data h) d = Ok (Some (dt_id d, dt_endian d, es)) /\ xs = map (ivalue mach (dt_id d)) es.
Definition shows_f (mach : endian) (m : mem) (h : hdr) (d : dtype) (xs : list spec_float) : Prop :=
  is_float (dt_id d) = true /\
  exists es, leaf_value m (h_data h) d = Ok (Some (dt_id d, dt_endian d, es)) /\ xs = map (fvalue mach (dt_id d)) es.
(** the numbers of a type; conversion to it keeps a number modulo 2^bits *)
Definition in_type (t : tid) (x : Z) : Prop := int_min t <= x <= int_max t.
Definition converts (t : tid) (x y : Z) : Prop := in_type t y /\ (y - x) mod 2 ^ bits t = 0.
Definition total (xs : list Z) : Z := fold_right Z.add 0 xs.
Definition occurrences (x : Z) (xs : list Z) : Z := Z.of_nat (length (filter (Z.eqb x) xs)).
(** the first elements of [ys] replaced by [xs] *)
Definition overwrite {A} (xs ys : list A) : list A := xs ++ skipn (length xs) ys.

(** ---- numbers and bytes ---- *)
Lemma bits_pos : forall t, is_int t = true -> 8 <= bits t.
Proof. destruct t; intros H; try discriminate H; vm_compute; discriminate. Qed.
Lemma wrap_s_id : forall w x, 0 < w -> - 2 ^ (w - 1) <= x < 2 ^ (w - 1) -> wrap_s w x = x.
Proof.
  intros w x Hw H. unfold wrap_s. assert (2 ^ w = 2 * 2 ^ (w - 1)) by (rewrite <- Z.pow_succ_r by lia; f_equal; lia).
  destruct (Z_lt_le_dec x 0).
  - assert (M : x mod 2 ^ w = x + 2 ^ w) by (symmetry; apply (Z.mod_unique x (2 ^ w) (-1) (x + 2 ^ w)); lia). rewrite M. destruct (Z.ltb_spec (x + 2 ^ w) (2 ^ (w - 1))); lia.
  - rewrite Z.mod_small by lia. destruct (Z.ltb_spec x (2 ^ (w - 1))); lia.
Qed.
Lemma conv_converts : forall t x, is_int t = true -> converts t x (conv t x).
Proof.
  intros t x Ht. pose proof (bits_pos t Ht) as B. unfold converts, in_type, conv, int_min, int_max.
  assert (P : 0 < 2 ^ bits t) by (apply Z.pow_pos_nonneg; lia).
  destruct (is_signed t) eqn:S.
  - split; [pose proof (wrap_s_range (bits t) x ltac:(lia)); lia|]. rewrite Zminus_mod, wrap_s_mod by lia. rewrite Z.sub_diag. apply Z.mod_0_l. lia.
  - unfold wrap_u. pose proof (Z.mod_pos_bound x (2 ^ bits t) P). split; [lia|]. rewrite Zminus_mod, Z.mod_mod by lia. rewrite Z.sub_diag. apply Z.mod_0_l. lia.
Qed.
Lemma conv_id : forall t x, is_int t = true -> in_type t x -> conv t x = x.
Proof.
  intros t x Ht H. pose proof (bits_pos t Ht). unfold in_type, int_min, int_max, conv in *. destruct (is_signed t); [apply wrap_s_id; lia|].
  unfold wrap_u. apply Z.mod_small. lia.
Qed.
Lemma converts_unique : forall t x y z, is_int t = true -> converts t x y -> converts t x z -> y = z.
Proof.
  intros t x y z Ht [R C] [R' C']. pose proof (bits_pos t Ht). unfold in_type, int_min, int_max in *.
  assert (P : 0 < 2 ^ bits t) by (apply Z.pow_pos_nonneg; lia).
  assert (E : 2 ^ bits t = 2 * 2 ^ (bits t - 1)) by (rewrite <- Z.pow_succ_r by lia; f_equal; lia).
  apply Z.mod_divide in C; [|lia]. apply Z.mod_divide in C'; [|lia]. destruct C as (a & A). destruct C' as (b & B).
  destruct (is_signed t); assert (a = b) by nia; subst b; lia.
Qed.
Lemma le_bytes_length : forall n x, length (le_bytes n x) = n.
Proof. induction n as [|n IH]; intros x; cbn [le_bytes length]; [reflexivity|]. rewrite IH. reflexivity. Qed.
Lemma le_bytes_value : forall n x, le_value (le_bytes n x) = x mod 2 ^ (8 * Z.of_nat n).
Proof.
  induction n as [|n IH]; intros x; cbn [le_bytes le_value].
  - change (2 ^ (8 * Z.of_nat 0)) with 1. rewrite Z.mod_1_r. reflexivity.
  - rewrite IH. pose proof (Z.mod_pos_bound x 256 ltac:(lia)). rewrite N_ascii_embedding by lia. rewrite Z2N.id by lia.
    replace (8 * Z.of_nat (S n)) with (8 + 8 * Z.of_nat n) by lia. rewrite Z.pow_add_r by lia. change (2 ^ 8) with 256.
    assert (P : 0 < 2 ^ (8 * Z.of_nat n)) by (apply Z.pow_pos_nonneg; lia). rewrite Z.rem_mul_r by lia. reflexivity.
Qed.
Lemma encode_length : forall mach t x, length (encode mach t x) = Z.to_nat (default_bytes t).
Proof. intros. unfold encode. destruct mach; rewrite ?rev_length; apply le_bytes_length. Qed.
Lemma encode_value : forall mach t x, is_int t = true -> in_type t x -> ivalue mach t (encode mach t x) = x.
Proof.
  intros mach t x Ht H. pose proof (bits_pos t Ht) as B. assert (U : uvalue mach (encode mach t x) = x mod 2 ^ bits t).
  { unfold uvalue, encode. destruct mach; rewrite ?rev_involutive, le_bytes_value; f_equal; f_equal; unfold bits in *; lia. }
  unfold ivalue, svalue. rewrite U, encode_length. replace (8 * Z.of_nat (Z.to_nat (default_bytes t))) with (bits t) by (unfold bits in *; lia).
  unfold in_type, int_min, int_max in H. destruct (is_signed t).
  - unfold wrap_s. rewrite Z.mod_mod by (assert (0 < 2 ^ bits t) by (apply Z.pow_pos_nonneg; lia); lia). apply (wrap_s_id (bits t) x); lia.
  - apply Z.mod_small. lia.
Qed.
Lemma ivalue_in_type : forall mach t bs, is_int t = true -> length bs = Z.to_nat (default_bytes t) -> in_type t (ivalue mach t bs).
Proof.
  intros mach t bs Ht L. pose proof (bits_pos t Ht) as B. unfold in_type, ivalue, int_min, int_max, svalue. pose proof (uvalue_range mach bs) as U. rewrite L in *.
  replace (8 * Z.of_nat (Z.to_nat (default_bytes t))) with (bits t) in * by (unfold bits in *; lia).
  destruct (is_signed t); [pose proof (wrap_s_range (bits t) (uvalue mach bs) ltac:(lia))|]; lia.
Qed.
Lemma int_is_data : forall t, is_int t = true -> is_data t = true.
Proof. destruct t; intros H; try discriminate H; reflexivity. Qed.
Lemma float_is_data : forall t, is_float t = true -> is_data t = true.
Proof. destruct t; intros H; try discriminate H; reflexivity. Qed.

(** ---- reductions ---- *)
Fixpoint reduce_list {A S} (step : S -> A -> outcome S) (l : list A) (s : S) : outcome S :=
  match l with [] => Ok s | v :: r => do s' <- step s v; reduce_list step r s' end.
Lemma reduce_omap : forall {A S} (elem : Z -> outcome A) (step : S -> A -> outcome S) is l s,
  omapM elem is = Ok l -> reduce elem step is s = reduce_list step l s.
Proof.
  intros A S elem step. induction is as [|i is IH]; intros l s H; cbn [omapM] in H; [injection H as <-; reflexivity|].
  cbn [reduce]. destruct (elem i) as [v| | |]; try discriminate H. cbn [obind] in *.
  destruct (omapM elem is) as [l'| | |]; try discriminate H. cbn [obind] in H. injection H as <-. cbn [reduce_list].
  destruct (step s v); cbn [obind]; try reflexivity. apply IH. reflexivity.
Qed.
Lemma omapM_map : forall {A B C} (f : A -> outcome B) (g : B -> C) (h : A -> outcome C) l bs,
  omapM f l = Ok bs -> (forall a b, f a = Ok b -> h a = Ok (g b)) -> omapM h l = Ok (map g bs).
Proof.
  intros A B C f g h. induction l as [|a l IH]; intros bs H F; cbn [omapM] in *; [injection H as <-; reflexivity|].
  destruct (f a) as [b| | |] eqn:E; try discriminate H. cbn [obind] in H. destruct (omapM f l) as [bs'| | |]; try discriminate H. cbn [obind] in H. injection H as <-.
  rewrite (F _ _ E). cbn [obind]. rewrite (IH bs' eq_refl F). reflexivity.
Qed.
Section Reductions.
Variables (mach : endian) (m : mem).
Lemma view_read : forall h d es, no_repeat d -> is_data (dt_id d) = true -> leaf_value m (h_data h) d = Ok (Some (dt_id d, dt_endian d, es)) ->
  omapM (elem_read m h d) (zseq (dt_n d)) = Ok es /\ holds m (h_data h) d es /\ 0 <= dt_n d.
Proof.
  intros h d es N D E. destruct (leaf_value_inv _ _ _ _ E) as [[T _]|(_ & Hn & es' & X & H)]; [rewrite T in D; discriminate D|].
  injection X as <-. split; [|auto]. apply (elems_read_def m h d (dt_n d) es N ltac:(lia)). apply omapM_elems; assumption.
Qed.
Lemma int_view : forall t h d xs, no_repeat d -> shows mach m h d xs -> omapM (int_elem mach m t h d) (zseq (dt_n d)) = Ok (map (conv t) xs).
Proof.
  intros t h d xs N (D & es & E & ->). destruct (view_read h d es N (int_is_data _ D) E) as (R & _).
  rewrite map_map. apply (omapM_map _ _ _ _ _ R). intros i b Eb. unfold int_elem. rewrite D, Eb. reflexivity.
Qed.
Lemma float_view : forall h d xs, no_repeat d -> shows_f mach m h d xs -> omapM (float_elem mach m h d) (zseq (dt_n d)) = Ok xs.
Proof.
  intros h d xs N (D & es & E & ->). destruct (view_read h d es N (float_is_data _ D) E) as (R & _).
  apply (omapM_map _ _ _ _ _ R). intros i b Eb. unfold float_elem. rewrite D, Eb. reflexivity.
Qed.
Lemma shows_in_type : forall h d xs, shows mach m h d xs -> Forall (in_type (dt_id d)) xs.
Proof.
  intros h d xs (D & es & E & ->). destruct (leaf_value_inv _ _ _ _ E) as [[T _]|(Da & Hn & es' & X & H)]; [rewrite T in D; discriminate D|]. injection X as <-.
  apply Forall_forall. intros x I. apply in_map_iff in I. destruct I as (b & <- & I). apply ivalue_in_type; [exact D|].
  destruct (In_nth_error _ _ I) as (k & K). pose proof (is_data_pos _ Da) as P.
  assert (Hk : (k < length es)%nat) by (apply nth_error_Some; congruence). destruct H as [Hl H].
  destruct (holds_rd m (h_data h) d es (Z.of_nat k) 0 Da (conj Hl H) ltac:(lia) ltac:(lia)) as (p & bs & _ & Eb & L & _).
  rewrite Nat2Z.id, K in Eb. injection Eb as <-. exact L.
Qed.
Lemma conv_shows : forall h d xs, shows mach m h d xs -> map (conv (dt_id d)) xs = xs.
Proof.
  intros h d xs S. pose proof (shows_in_type h d xs S) as F. destruct S as (D & _). induction F as [|x xs H F IH]; cbn [map]; [reflexivity|].
  rewrite IH, (conv_id _ _ D H). reflexivity.
Qed.

Lemma min_list : forall xs r, exists s, reduce_list (fun r v => Ok (if v <? r then v else r)) xs r = Ok s /\ (s = r \/ In s xs) /\ s <= r /\ Forall (Z.le s) xs.
Proof.
  induction xs as [|x xs IH]; intros r; cbn [reduce_list obind]; [exists r; auto using Z.le_refl|].
  destruct (IH (if x <? r then x else r)) as (s & E & I & L & F). exists s. split; [exact E|]. destruct (Z.ltb_spec x r); cbn [In].
  - split; [destruct I; auto|]. split; [lia|]. constructor; [exact L|exact F].
  - split; [destruct I; auto|]. split; [exact L|]. constructor; [lia|exact F].
Qed.
Lemma max_list : forall xs r, exists s, reduce_list (fun r v => Ok (if r <? v then v else r)) xs r = Ok s /\ (s = r \/ In s xs) /\ r <= s /\ Forall (fun x => x <= s) xs.
Proof.
  induction xs as [|x xs IH]; intros r; cbn [reduce_list obind]; [exists r; auto using Z.le_refl|].
  destruct (IH (if r <? x then x else r)) as (s & E & I & L & F). exists s. split; [exact E|]. destruct (Z.ltb_spec r x); cbn [In].
  - split; [destruct I; auto|]. split; [lia|]. constructor; [exact L|exact F].
  - split; [destruct I; auto|]. split; [exact L|]. constructor; [lia|exact F].
Qed.
Lemma conv_all_in : forall t xs, is_int t = true -> Forall (in_type t) (map (conv t) xs).
Proof. intros t xs Ht. apply Forall_forall. intros x I. apply in_map_iff in I. destruct I as (y & <- & _). apply (conv_converts t y Ht). Qed.
Theorem min_law : forall t h d xs, is_int t = true -> no_repeat d -> shows mach m h d xs ->
  exists r, arr_min mach m t h d = Ok r /\
    (xs = [] -> r = int_max t) /\ (xs <> [] -> In r (map (conv t) xs) /\ Forall (Z.le r) (map (conv t) xs)).
Proof.
  intros t h d xs Ht N S. unfold arr_min. rewrite (reduce_omap _ _ _ _ _ (int_view t h d xs N S)).
  destruct (min_list (map (conv t) xs) (int_max t)) as (s & E & I & L & F). exists s. split; [exact E|]. split.
  - intros ->. destruct I as [I|[]]. exact I.
  - intros Ne. split; [|exact F]. destruct I as [->|I]; [|exact I]. pose proof (conv_all_in t xs Ht) as C.
    destruct xs as [|x xs]; [congruence|]. cbn [map] in *. inversion F as [|? ? F1 _]; subst. inversion C as [|? ? C1 _]; subst. left. unfold in_type in C1. lia.
Qed.
Theorem max_law : forall t h d xs, is_int t = true -> no_repeat d -> shows mach m h d xs ->
  exists r, arr_max mach m t h d = Ok r /\
    (xs = [] -> r = int_min t) /\ (xs <> [] -> In r (map (conv t) xs) /\ Forall (fun x => x <= r) (map (conv t) xs)).
Proof.
  intros t h d xs Ht N S. unfold arr_max. rewrite (reduce_omap _ _ _ _ _ (int_view t h d xs N S)).
  destruct (max_list (map (conv t) xs) (int_min t)) as (s & E & I & L & F). exists s. split; [exact E|]. split.
  - intros ->. destruct I as [I|[]]. exact I.
  - intros Ne. split; [|exact F]. destruct I as [->|I]; [|exact I]. pose proof (conv_all_in t xs Ht) as C.
    destruct xs as [|x xs]; [congruence|]. cbn [map] in *. inversion F as [|? ? F1 _]; subst. inversion C as [|? ? C1 _]; subst. left. unfold in_type in C1. lia.
Qed.
Lemma count_list : forall x xs r, reduce_list (fun r v => Ok (if v =? x then r + 1 else r)) xs r = Ok (r + occurrences x xs).
Proof.
  intros x. induction xs as [|y xs IH]; intros r; unfold occurrences in *; cbn [reduce_list obind filter]; [f_equal; cbn; lia|].
  rewrite IH. f_equal. rewrite (Z.eqb_sym x y). destruct (y =? x); cbn [length]; lia.
Qed.
Theorem count_law : forall t h d xs x, no_repeat d -> shows mach m h d xs -> arr_count mach m t h d x = Ok (occurrences x (map (conv t) xs)).
Proof. intros t h d xs x N S. unfold arr_count. rewrite (reduce_omap _ _ _ _ _ (int_view t h d xs N S)), count_list. f_equal. Qed.

(** sums *)
Definition checked (t : tid) : bool := match t with INT32 | INT64 => true | _ => false end.
Lemma converts_add : forall t a b c, is_int t = true -> converts t a b -> converts t (a + c) (conv t (b + c)).
Proof.
  intros t a b c Ht [_ C]. destruct (conv_converts t (b + c) Ht) as [R C']. split; [exact R|].
  assert (P : 0 < 2 ^ bits t) by (apply Z.pow_pos_nonneg; pose proof (bits_pos t Ht); lia).
  apply Z.mod_divide in C; [|lia]. apply Z.mod_divide in C'; [|lia]. apply Z.mod_divide; [lia|].
  replace (conv t (b + c) - (a + c)) with ((conv t (b + c) - (b + c)) + (b - a)) by lia. apply Z.divide_add_r; assumption.
Qed.
Lemma sum_wrap : forall t xs a r, is_int t = true -> checked t = false -> converts t a r ->
  exists s, reduce_list (add_to t) xs r = Ok s /\ converts t (a + total xs) s.
Proof.
  intros t. induction xs as [|x xs IH]; intros a r Ht Ck C; cbn [reduce_list total fold_right]; [exists r; rewrite Z.add_0_r; auto|].
  replace (add_to t r x) with (Ok (conv t (r + x))) by (destruct t; try discriminate Ck; reflexivity). cbn [obind].
  destruct (IH (a + x) (conv t (r + x)) Ht Ck (converts_add t a r x Ht C)) as (s & E & H). exists s. split; [exact E|]. rewrite <- Z.add_assoc in H. exact H.
Qed.
(** every partial sum is a number of the type *)
Definition sums_fit (t : tid) (xs : list Z) : Prop := forall k, in_type t (total (firstn k xs)).
Lemma sum_checked : forall t xs r, checked t = true -> (forall k, in_type t (r + total (firstn k xs))) -> reduce_list (add_to t) xs r = Ok (r + total xs).
Proof.
  intros t. induction xs as [|x xs IH]; intros r Ck F; cbn [reduce_list total fold_right]; [rewrite Z.add_0_r; reflexivity|].
  assert (A : add_to t r x = Ok (r + x)).
  { pose proof (F 1%nat) as F1. cbn in F1. rewrite Z.add_0_r in F1. unfold in_type in F1. unfold add_to.
    replace ((int_min t <=? r + x) && (r + x <=? int_max t)) with true by lia. destruct t; try discriminate Ck; reflexivity. }
  rewrite A. cbn [obind]. rewrite IH; [f_equal; unfold total; lia|exact Ck|]. intros k. specialize (F (S k)). cbn [firstn total fold_right] in F.
  replace (r + x + total (firstn k xs)) with (r + (x + fold_right Z.add 0 (firstn k xs))) by (unfold total; lia). exact F.
Qed.
Lemma sum_overflow : forall t xs r k, checked t = true -> in_type t r -> ~ in_type t (r + total (firstn k xs)) -> reduce_list (add_to t) xs r = UB.
Proof.
  intros t. induction xs as [|x xs IH]; intros r k Ck R F.
  - exfalso. apply F. rewrite firstn_nil. cbn [total fold_right]. rewrite Z.add_0_r. exact R.
  - destruct k as [|k]; [exfalso; apply F; cbn [firstn total fold_right]; rewrite Z.add_0_r; exact R|]. cbn [firstn total fold_right] in F. cbn [reduce_list].
    destruct ((int_min t <=? r + x) && (r + x <=? int_max t)) eqn:Q.
    + replace (add_to t r x) with (Ok (r + x)) by (unfold add_to; rewrite Q; destruct t; try discriminate Ck; reflexivity). cbn [obind].
      apply (IH (r + x) k Ck); [unfold in_type; lia|]. intros H. apply F. rewrite Z.add_assoc. exact H.
    + replace (add_to t r x) with (@UB Z) by (unfold add_to; rewrite Q; destruct t; try discriminate Ck; reflexivity). reflexivity.
Qed.
Lemma zero_in_type : forall t, is_int t = true -> in_type t 0.
Proof. destruct t; intros H; try discriminate H; vm_compute; split; discriminate. Qed.
Theorem sum_law : forall t h d xs, is_int t = true -> no_repeat d -> shows mach m h d xs ->
  (checked t = false -> exists s, arr_sum mach m t h d = Ok s /\ converts t (total (map (conv t) xs)) s) /\
  (sums_fit t (map (conv t) xs) -> arr_sum mach m t h d = Ok (total (map (conv t) xs))) /\
  (checked t = true -> ~ sums_fit t (map (conv t) xs) -> ~ exists s, arr_sum mach m t h d = Ok s).
Proof.
  intros t h d xs Ht N S. unfold arr_sum. rewrite (reduce_omap _ _ _ _ _ (int_view t h d xs N S)). pose proof (zero_in_type t Ht) as Z0.
  assert (Z1 : converts t 0 0) by (split; [exact Z0|apply Z.mod_0_l; pose proof (bits_pos t Ht); apply Z.pow_nonzero; lia]).
  split; [|split].
  - intros Ck. exact (sum_wrap t _ 0 0 Ht Ck Z1).
  - intros F. destruct (checked t) eqn:Ck; [exact (sum_checked t _ 0 Ck F)|].
    destruct (sum_wrap t (map (conv t) xs) 0 0 Ht Ck Z1) as (s & E & C). rewrite E. f_equal. apply (converts_unique t _ _ _ Ht C).
    split; [|rewrite Z.add_0_l, Z.sub_diag; apply Z.mod_0_l; pose proof (bits_pos t Ht); apply Z.pow_nonzero; lia].
    specialize (F (length (map (conv t) xs))). rewrite firstn_all in F. exact F.
  - intros Ck F (s & E). apply F. intros k. unfold in_type. destruct (Z_le_gt_dec (int_min t) (total (firstn k (map (conv t) xs)))) as [A|A].
    + destruct (Z_le_gt_dec (total (firstn k (map (conv t) xs))) (int_max t)) as [B|B]; [lia|]. exfalso.
      rewrite (sum_overflow t _ 0 k Ck Z0) in E; [discriminate E|]. unfold in_type. lia.
    + exfalso. rewrite (sum_overflow t _ 0 k Ck Z0) in E; [discriminate E|]. unfold in_type. lia.
Qed.

(** floats *)
Definition not_nan (x : spec_float) : Prop := x <> S754_nan.
(** x <= y, written with the comparison y < x *)
Definition fle (x y : spec_float) : Prop := SFltb y x = false.
Definition key (x : spec_float) : Z * Z * Z :=
  match x with
  | S754_nan => (0, 0, 0)
  | S754_zero _ => (0, 0, 0)
  | S754_infinity s => (if s then -2 else 2, 0, 0)
  | S754_finite s m e => if s then (-1, - e, - Zpos m) else (1, e, Zpos m)
  end.
Definition klt (a b : Z * Z * Z) : Prop :=
  let '(a1, a2, a3) := a in let '(b1, b2, b3) := b in a1 < b1 \/ (a1 = b1 /\ (a2 < b2 \/ (a2 = b2 /\ a3 < b3))).
Lemma ltb_key : forall x y, not_nan x -> not_nan y -> SFltb x y = true <-> klt (key x) (key y).
Proof.
  intros x y X Y. unfold SFltb, SFcompare. destruct x as [s|s| |s m1 e1], y as [s'|s'| |s' m2 e2]; try congruence; try destruct s; try destruct s'; cbn [key klt];
    try (split; intros H; first [discriminate H|reflexivity|lia]).
  - destruct (Z.compare_spec e1 e2); [|split; intros H'; first [discriminate H'|reflexivity|lia]..]. change (Pos.compare_cont Eq m1 m2) with (Pos.compare m1 m2).
    destruct (Pos.compare_spec m1 m2); cbn [CompOpp]; split; intros H'; first [discriminate H'|reflexivity|lia].
  - destruct (Z.compare_spec e1 e2); [|split; intros H'; first [discriminate H'|reflexivity|lia]..]. change (Pos.compare_cont Eq m1 m2) with (Pos.compare m1 m2).
    destruct (Pos.compare_spec m1 m2); split; intros H'; first [discriminate H'|reflexivity|lia].
Qed.
Lemma fle_key : forall x y, not_nan x -> not_nan y -> fle x y <-> ~ klt (key y) (key x).
Proof. intros x y X Y. unfold fle. rewrite <- (ltb_key y x Y X). destruct (SFltb y x); split; congruence. Qed.
Lemma fle_refl : forall x, not_nan x -> fle x x.
Proof. intros x X. apply fle_key; auto. destruct (key x) as [[a b] c]. cbn [klt]. lia. Qed.
Lemma fle_trans : forall x y z, not_nan x -> not_nan y -> not_nan z -> fle x y -> fle y z -> fle x z.
Proof.
  intros x y z X Y Z A B. apply fle_key in A; auto. apply fle_key in B; auto. apply fle_key; auto.
  destruct (key x) as [[a1 a2] a3], (key y) as [[b1 b2] b3], (key z) as [[c1 c2] c3]. cbn [klt] in *. lia.
Qed.
Lemma flt_fle : forall x y, not_nan x -> not_nan y -> SFltb x y = true -> fle x y.
Proof.
  intros x y X Y A. apply ltb_key in A; auto. apply fle_key; auto. destruct (key x) as [[a1 a2] a3], (key y) as [[b1 b2] b3]. cbn [klt] in *. lia.
Qed.
Lemma fmin_list : forall xs r, not_nan r -> Forall not_nan xs -> exists s, reduce_list (fun r v => Ok (if SFltb v r then v else r)) xs r = Ok s /\
  not_nan s /\ (In s xs \/ (s = r /\ Forall (fun x => SFltb x r = false) xs)) /\ fle s r /\ Forall (fle s) xs.
Proof.
  induction xs as [|x xs IH]; intros r R F; cbn [reduce_list obind]; [exists r; auto 6 using fle_refl|]. inversion F as [|? ? Fx F']; subst.
  destruct (SFltb x r) eqn:Q.
  - destruct (IH x Fx F') as (s & E & Ns & I & L & G). exists s. split; [exact E|]. split; [exact Ns|]. cbn [In].
    split; [destruct I as [I|[-> I]]; auto|]. split; [apply (fle_trans s x r); auto using flt_fle|constructor; assumption].
  - destruct (IH r R F') as (s & E & Ns & I & L & G). exists s. split; [exact E|]. split; [exact Ns|]. cbn [In].
    split; [destruct I as [I|[-> I]]; auto|]. split; [exact L|]. constructor; [|exact G]. apply (fle_trans s r x); auto.
Qed.
Lemma fmax_list : forall xs r, not_nan r -> Forall not_nan xs -> exists s, reduce_list (fun r v => Ok (if SFltb r v then v else r)) xs r = Ok s /\
  not_nan s /\ (In s xs \/ (s = r /\ Forall (fun x => SFltb r x = false) xs)) /\ fle r s /\ Forall (fun x => fle x s) xs.
Proof.
  induction xs as [|x xs IH]; intros r R F; cbn [reduce_list obind]; [exists r; auto 6 using fle_refl|]. inversion F as [|? ? Fx F']; subst.
  destruct (SFltb r x) eqn:Q.
  - destruct (IH x Fx F') as (s & E & Ns & I & L & G). exists s. split; [exact E|]. split; [exact Ns|]. cbn [In].
    split; [destruct I as [I|[-> I]]; auto|]. split; [apply (fle_trans r x s); auto using flt_fle|constructor; assumption].
  - destruct (IH r R F') as (s & E & Ns & I & L & G). exists s. split; [exact E|]. split; [exact Ns|]. cbn [In].
    split; [destruct I as [I|[-> I]]; auto|]. split; [exact L|]. constructor; [|exact G]. apply (fle_trans x r s); auto.
Qed.
(** the largest finite number of a float type *)
Definition largest (t : tid) : spec_float := SFmax_float (prec_of t) (emax_of t).
Lemma largest_is : forall t, is_float t = true -> exists p, largest t = S754_finite false p (emax_of t - prec_of t) /\ Zpos p = 2 ^ prec_of t - 1.
Proof. destruct t; intros H; try discriminate H; eexists; (split; [vm_compute; reflexivity|vm_compute; reflexivity]). Qed.
Lemma float_of_bits_bound : forall t x s p e, is_float t = true -> float_of_bits (prec_of t) (emax_of t) (bits t) x = S754_finite s p e ->
  e <= emax_of t - prec_of t /\ Zpos p <= 2 ^ prec_of t - 1.
Proof.
  intros t x s p e Ht. unfold float_of_bits.
  assert (P1 : 0 < 2 ^ (prec_of t - 1)) by (apply Z.pow_pos_nonneg; destruct t; try discriminate Ht; cbn; lia).
  assert (P2 : 0 < 2 ^ (bits t - prec_of t)) by (apply Z.pow_pos_nonneg; destruct t; try discriminate Ht; cbn; lia).
  pose proof (Z.mod_pos_bound x (2 ^ (prec_of t - 1)) P1) as M. pose proof (Z.mod_pos_bound (x / 2 ^ (prec_of t - 1)) (2 ^ (bits t - prec_of t)) P2) as E.
  assert (P3 : 2 ^ prec_of t = 2 * 2 ^ (prec_of t - 1)) by (destruct t; try discriminate Ht; reflexivity).
  assert (P4 : emin (prec_of t) (emax_of t) <= emax_of t - prec_of t /\ 2 ^ (bits t - prec_of t) + emin (prec_of t) (emax_of t) - 3 = emax_of t - prec_of t)
    by (destruct t; try discriminate Ht; vm_compute; split; [discriminate|reflexivity|discriminate|reflexivity]).
  cbv zeta. set (a := x mod 2 ^ (prec_of t - 1)) in *. set (b := (x / 2 ^ (prec_of t - 1)) mod 2 ^ (bits t - prec_of t)) in *. clearbody a b.
  destruct (Z.eqb_spec b (2 ^ (bits t - prec_of t) - 1)); [destruct (a =? 0); discriminate|]. destruct (Z.eqb_spec b 0).
  - destruct a eqn:A; try discriminate. intros H. injection H as <- <- <-. lia.
  - destruct (a + 2 ^ (prec_of t - 1)) eqn:A; try discriminate. intros H. injection H as <- <- <-. lia.
Qed.
Lemma fvalue_largest : forall t bs, is_float t = true -> let x := fvalue mach t bs in
  not_nan x -> x <> S754_infinity false -> SFltb x (largest t) = false -> x = largest t.
Proof.
  intros t bs Ht x N I Q. destruct (largest_is t Ht) as (p & L & P). assert (Nl : not_nan (largest t)) by (rewrite L; discriminate).
  apply (fle_key (largest t) x Nl N) in Q. rewrite L in *. destruct x as [s|s| |s m' e] eqn:X; try (exfalso; destruct s; cbn [key klt] in Q; first [lia|congruence]); try congruence.
  destruct (float_of_bits_bound t _ s m' e Ht X) as (Be & Bm). destruct s; cbn [key klt] in Q; [lia|]. assert (e = emax_of t - prec_of t) by lia. assert (m' = p) by lia. congruence.
Qed.
Lemma fvalue_smallest : forall t bs, is_float t = true -> let x := fvalue mach t bs in
  not_nan x -> x <> S754_infinity true -> SFltb (SFopp (largest t)) x = false -> x = SFopp (largest t).
Proof.
  intros t bs Ht x N I Q. destruct (largest_is t Ht) as (p & L & P). assert (Nl : not_nan (SFopp (largest t))) by (rewrite L; discriminate).
  apply (fle_key x (SFopp (largest t)) N Nl) in Q. rewrite L in *. cbn [SFopp negb] in *. destruct x as [s|s| |s m' e] eqn:X; try (exfalso; destruct s; cbn [key klt] in Q; first [lia|congruence]); try congruence.
  destruct (float_of_bits_bound t _ s m' e Ht X) as (Be & Bm). destruct s; cbn [key klt] in Q; [|lia]. assert (e = emax_of t - prec_of t) by lia. assert (m' = p) by lia. congruence.
Qed.
Theorem fmin_law : forall h d xs, no_repeat d -> shows_f mach m h d xs -> Forall not_nan xs -> Exists (fun x => x <> S754_infinity false) xs ->
  exists r, float_min mach m h d = Ok r /\ In r xs /\ Forall (fle r) xs.
Proof.
  intros h d xs N S F X. unfold float_min. rewrite (reduce_omap _ _ _ _ _ (float_view h d xs N S)). destruct S as (Ht & es & _ & E).
  fold (largest (dt_id d)). assert (Nl : not_nan (largest (dt_id d))) by (destruct (largest_is _ Ht) as (p & L & _); rewrite L; discriminate).
  destruct (fmin_list xs (largest (dt_id d)) Nl F) as (s & R & Ns & I & _ & G). exists s. split; [exact R|]. split; [|exact G].
  destruct I as [I|[-> I]]; [exact I|]. apply Exists_exists in X. destruct X as (x & Ix & Nx). rewrite E in Ix |- *. apply in_map_iff in Ix. destruct Ix as (b & <- & Ib).
  apply in_map_iff. exists b. split; [|exact Ib]. rewrite Forall_forall in I, F. assert (Iy : In (fvalue mach (dt_id d) b) xs) by (rewrite E; apply in_map; exact Ib).
  apply (fvalue_largest (dt_id d) b Ht); auto.
Qed.
Theorem fmax_law : forall h d xs, no_repeat d -> shows_f mach m h d xs -> Forall not_nan xs -> Exists (fun x => x <> S754_infinity true) xs ->
  exists r, float_max mach m h d = Ok r /\ In r xs /\ Forall (fun x => fle x r) xs.
Proof.
  intros h d xs N S F X. unfold float_max. rewrite (reduce_omap _ _ _ _ _ (float_view h d xs N S)). destruct S as (Ht & es & _ & E).
  fold (largest (dt_id d)). assert (Nl : not_nan (SFopp (largest (dt_id d)))) by (destruct (largest_is _ Ht) as (p & L & _); rewrite L; discriminate).
  destruct (fmax_list xs (SFopp (largest (dt_id d))) Nl F) as (s & R & Ns & I & _ & G). exists s. split; [exact R|]. split; [|exact G].
  destruct I as [I|[-> I]]; [exact I|]. apply Exists_exists in X. destruct X as (x & Ix & Nx). rewrite E in Ix |- *. apply in_map_iff in Ix. destruct Ix as (b & <- & Ib).
  apply in_map_iff. exists b. split; [|exact Ib]. rewrite Forall_forall in I, F. assert (Iy : In (fvalue mach (dt_id d) b) xs) by (rewrite E; apply in_map; exact Ib).
  apply (fvalue_smallest (dt_id d) b Ht); auto.
Qed.
End Reductions.

(** ---- assignments ---- *)
Section Assignments.
Variable mach : endian.
Lemma put_elem_ok : forall m h d es i x, is_int (dt_id d) = true -> elems_apart (dt_n d) (default_bytes (dt_id d)) (dt_stride d) ->
  holds m (h_data h) d es -> 0 <= i < dt_n d ->
  exists m', put_elem mach m h d i x = Ok m' /\ same_shape m m' /\
    holds m' (h_data h) d (set_nth es (Z.to_nat i) (encode mach (dt_id d) (conv (dt_id d) x))) /\
    (forall q, ~ leaf_touches q (h_data h, d) -> rd m' q = rd m q).
Proof.
  intros m h d es i x D Ap H Hi. pose proof (int_is_data _ D) as Da. pose proof (is_data_pos _ Da) as P. set (nb := default_bytes (dt_id d)) in *.
  destruct (holds_rd m (h_data h) d es i 0 Da H Hi ltac:(fold nb; lia)) as (p & bs & Ep & Eb & _ & _). set (bs' := encode mach (dt_id d) (conv (dt_id d) x)).
  assert (Lb : Z.of_nat (length bs') = nb) by (unfold bs'; rewrite encode_length; fold nb; lia).
  destruct (store_ok m (padd p (eaddr d i)) bs') as (m' & E).
  { rewrite Lb. intros j Hj. destruct (holds_rd m (h_data h) d es i j Da H Hi Hj) as (p' & ? & Ep' & _ & _ & _ & R). rewrite Ep in Ep'. injection Ep' as <-. rewrite padd_padd. exact R. }
  exists m'. assert (EI : element_index d i = Ok (eaddr d i)).
  { unfold element_index. destruct (Z.ltb_spec 0 i) as [X|X]; [|reflexivity]. destruct (Z.eqb_spec (dt_stride d) 0) as [S|S]; [|reflexivity]. exfalso. destruct Ap as [A|A]; lia. }
  split; [unfold put_elem; rewrite D, EI; cbn [obind]; rewrite Ep; exact E|]. split; [exact (store_same_shape _ _ _ _ E)|].
  assert (V : forall j, 0 <= j < nb -> rd m' (padd p (eaddr d i + j)) = nth_error bs' (Z.to_nat j)).
  { intros j Hj. rewrite (rd_store _ _ _ _ (padd p (eaddr d i + j)) E), Lb. unfold padd. cbn [fst snd]. rewrite Nat.eqb_refl. cbn [andb].
    replace ((snd p + eaddr d i <=? snd p + (eaddr d i + j)) && (snd p + (eaddr d i + j) <? snd p + eaddr d i + nb)) with true by lia. f_equal. lia. }
  assert (Fr : forall q, ~ in_range_of (padd p (eaddr d i)) nb q -> rd m' q = rd m q).
  { intros q Nq. rewrite (rd_store _ _ _ _ q E), Lb. rewrite in_range_of_b in Nq.
    destruct ((fst q =? fst (padd p (eaddr d i)))%nat && (snd (padd p (eaddr d i)) <=? snd q) && (snd q <? snd (padd p (eaddr d i)) + nb)) eqn:B; [|reflexivity]. exfalso. apply Nq. lia. }
  split.
  - split; [rewrite length_set_nth; apply H|]. intros a Ha. destruct (Z.eq_dec a i) as [->|Ne].
    + exists bs'. split; [apply nth_error_set_nth_same; apply nth_error_Some; congruence|]. unfold leaf_elem. rewrite Ep. cbn [opadd option_map oload]. fold nb.
      destruct (load_ok m' (padd p (eaddr d i)) nb ltac:(lia)) as (b2 & E2 & L2 & V2).
      { intros j Hj. rewrite padd_padd, V by lia. apply nth_error_Some. lia. }
      rewrite E2. f_equal. apply list_ext; [lia|]. intros j Hj. replace j with (Z.to_nat (Z.of_nat j)) by lia. rewrite V2 by lia. rewrite padd_padd, V by lia. reflexivity.
    + destruct (proj2 H a Ha) as (b & Eb' & La). exists b. split; [rewrite nth_error_set_nth_other by lia; exact Eb'|].
      apply (leaf_elem_move m m' (h_data h) (h_data h) d d a b eq_refl Da La). intros p' j Ep' Hj. exists p'. split; [exact Ep'|]. rewrite Ep in Ep'. injection Ep' as <-.
      apply Fr. intros R. apply Ne. unfold eaddr in *.
      apply (elems_apart_disjoint (padd p (dt_off d)) (dt_n d) nb (dt_stride d) a i (padd p (dt_off d + dt_stride d * a + j)) Ap); auto.
      * exists j. split; [exact Hj|]. rewrite !padd_padd. f_equal. lia.
      * rewrite padd_padd. exact R.
  - intros q Nq. apply Fr. intros (j & Hj & ->). apply Nq. exists p, i, j. cbn [fst snd]. rewrite padd_padd. auto.
Qed.
(** the byte frame holds even when elements overlap *)
Lemma put_elem_frame : forall m h d i x m', put_elem mach m h d i x = Ok m' -> 0 <= i < dt_n d -> same_shape m m' /\ (forall q, ~ leaf_touches q (h_data h, d) -> rd m' q = rd m q).
Proof.
  intros m h d i x m' E Hi. unfold put_elem in E. destruct (is_int (dt_id d)) eqn:D; [|discriminate E]. unfold element_index in E. destruct ((0 <? i) && (dt_stride d =? 0)); [discriminate E|]. cbn [obind] in E.
  pose proof (is_data_pos _ (int_is_data _ D)) as P. destruct (h_data h) as [p|] eqn:Ep; cbn [opadd option_map ostore] in E.
  - split; [exact (store_same_shape _ _ _ _ E)|]. intros q Nq. rewrite (rd_store _ _ _ _ q E), encode_length.
    match goal with |- (if ?b then _ else _) = _ => destruct b eqn:B end; [|reflexivity]. exfalso. apply Nq. exists p, i, (snd q - snd (padd p (eaddr d i))). cbn [fst snd].
    split; [reflexivity|]. split; [exact Hi|]. unfold padd in *. cbn [fst snd] in *. split; [unfold eaddr in *; lia|]. destruct q as [b o]. cbn [fst snd] in *. f_equal; [|lia]. apply Nat.eqb_eq. lia.
  - pose proof (encode_length mach (dt_id d) (conv (dt_id d) x)) as L. destruct (encode mach (dt_id d) (conv (dt_id d) x)); [cbn in L; lia|discriminate E].
Qed.
Definition splice {A} (i : nat) (ys es : list A) : list A := firstn i es ++ ys ++ skipn (i + length ys) es.
Lemma splice_cons : forall {A} i (y : A) ys es, (i < length es)%nat -> splice (S i) ys (set_nth es i y) = splice i (y :: ys) es.
Proof.
  induction i as [|i IH]; intros y ys [|e es] L; cbn [length] in L; try lia.
  - reflexivity.
  - unfold splice in *. cbn [set_nth firstn skipn length app]. cbn. f_equal. specialize (IH y ys es ltac:(lia)). cbn [length] in IH. exact IH.
Qed.
Lemma put_elems_ok : forall h d xs m es i, is_int (dt_id d) = true -> elems_apart (dt_n d) (default_bytes (dt_id d)) (dt_stride d) ->
  holds m (h_data h) d es -> 0 <= i -> i + Z.of_nat (length xs) <= dt_n d ->
  exists m', put_elems mach m h d i xs = Ok m' /\ same_shape m m' /\
    holds m' (h_data h) d (splice (Z.to_nat i) (map (fun x => encode mach (dt_id d) (conv (dt_id d) x)) xs) es) /\
    (forall q, ~ leaf_touches q (h_data h, d) -> rd m' q = rd m q).
Proof.
  intros h d. induction xs as [|x xs IH]; intros m es i D Ap H Hi Hl; cbn [put_elems map].
  - exists m. split; [reflexivity|]. split; [apply same_shape_refl|]. split; [|reflexivity]. unfold splice. cbn [app length]. rewrite Nat.add_0_r, firstn_skipn. exact H.
  - cbn [length] in Hl. destruct (put_elem_ok m h d es i x D Ap H ltac:(lia)) as (m1 & E1 & S1 & H1 & F1). rewrite E1. cbn [obind].
    destruct (IH m1 _ (i + 1) D Ap H1 ltac:(lia) ltac:(lia)) as (m2 & E2 & S2 & H2 & F2). exists m2. split; [exact E2|]. split; [eapply same_shape_trans; eauto|].
    split; [|intros q Nq; rewrite (F2 q Nq); apply F1; exact Nq]. replace (Z.to_nat (i + 1)) with (S (Z.to_nat i)) in H2 by lia.
    rewrite splice_cons in H2 by (destruct H as [-> _]; lia). exact H2.
Qed.
Lemma put_elems_frame : forall h d xs m i m', put_elems mach m h d i xs = Ok m' -> 0 <= i -> i + Z.of_nat (length xs) <= dt_n d ->
  same_shape m m' /\ (forall q, ~ leaf_touches q (h_data h, d) -> rd m' q = rd m q).
Proof.
  intros h d. induction xs as [|x xs IH]; intros m i m' E Hi Hl; cbn [put_elems] in E; [injection E as <-; split; [apply same_shape_refl|reflexivity]|].
  cbn [length] in Hl. destruct (put_elem mach m h d i x) as [m1| | |] eqn:E1; try discriminate E. cbn [obind] in E.
  destruct (put_elem_frame _ _ _ _ _ _ E1 ltac:(lia)) as (S1 & F1). destruct (IH _ _ _ E ltac:(lia) ltac:(lia)) as (S2 & F2).
  split; [eapply same_shape_trans; eauto|]. intros q Nq. rewrite (F2 q Nq). apply F1. exact Nq.
Qed.
Lemma shows_holds : forall m h d xs, shows mach m h d xs -> is_int (dt_id d) = true /\ 0 <= dt_n d /\ exists es, holds m (h_data h) d es /\ xs = map (ivalue mach (dt_id d)) es.
Proof.
  intros m h d xs (D & es & E & X). destruct (leaf_value_inv _ _ _ _ E) as [[T _]|(_ & Hn & es' & Y & H)]; [rewrite T in D; discriminate D|]. injection Y as <-. eauto 6.
Qed.
Lemma holds_shows : forall m h d es, is_int (dt_id d) = true -> 0 <= dt_n d -> holds m (h_data h) d es -> shows mach m h d (map (ivalue mach (dt_id d)) es).
Proof. intros m h d es D Hn H. split; [exact D|]. exists es. split; [|reflexivity]. apply leaf_value_data; auto using int_is_data. Qed.
Lemma encoded : forall t xs, is_int t = true -> map (ivalue mach t) (map (fun x => encode mach t (conv t x)) xs) = map (conv t) xs.
Proof. intros t xs Ht. rewrite map_map. apply map_ext. intros x. apply encode_value; [exact Ht|]. apply (conv_converts t x Ht). Qed.
Definition assigned (m m' : mem) (h : hdr) (d : dtype) (xs : list Z) : Prop :=
  same_shape m m' /\ shows mach m' h d xs /\ (forall q, ~ leaf_touches q (h_data h, d) -> rd m' q = rd m q).
Theorem put_law : forall m h d ys xs, elems_apart (dt_n d) (default_bytes (dt_id d)) (dt_stride d) -> shows mach m h d ys -> Z.of_nat (length xs) <= dt_n d ->
  exists m', put_elems mach m h d 0 xs = Ok m' /\ assigned m m' h d (overwrite (map (conv (dt_id d)) xs) ys).
Proof.
  intros m h d ys xs Ap S L. destruct (shows_holds _ _ _ _ S) as (D & Hn & es & H & ->).
  destruct (put_elems_ok h d xs m es 0 D Ap H ltac:(lia) ltac:(lia)) as (m' & E & Sh & H' & F). exists m'. split; [exact E|]. split; [exact Sh|]. split; [|exact F].
  replace (overwrite (map (conv (dt_id d)) xs) (map (ivalue mach (dt_id d)) es)) with
    (map (ivalue mach (dt_id d)) (splice (Z.to_nat 0) (map (fun x => encode mach (dt_id d) (conv (dt_id d) x)) xs) es)).
  - apply holds_shows; assumption.
  - unfold splice, overwrite. cbn [Z.to_nat firstn app]. rewrite map_app, (encoded _ _ D), !map_length. rewrite skipn_map. reflexivity.
Qed.
Lemma shows_length : forall m h d xs, shows mach m h d xs -> Z.of_nat (length xs) = dt_n d.
Proof. intros m h d xs S. destruct (shows_holds _ _ _ _ S) as (D & Hn & es & [L _] & ->). rewrite map_length, L. lia. Qed.
Theorem fill_law : forall m h d ys x, elems_apart (dt_n d) (default_bytes (dt_id d)) (dt_stride d) -> shows mach m h d ys ->
  exists m', arr_fill mach m h d x = Ok m' /\ assigned m m' h d (repeat (conv (dt_id d) x) (length ys)).
Proof.
  intros m h d ys x Ap S. pose proof (shows_length _ _ _ _ S) as L. destruct (put_law m h d ys (repeat x (Z.to_nat (dt_n d))) Ap S) as (m' & E & A).
  { rewrite repeat_length. lia. }
  exists m'. split; [exact E|]. unfold overwrite in A. rewrite map_length, repeat_length in A. rewrite skipn_all2, app_nil_r in A by lia. replace (map (conv (dt_id d)) (repeat x (Z.to_nat (dt_n d)))) with (repeat (conv (dt_id d) x) (Z.to_nat (dt_n d))) in A by (generalize (Z.to_nat (dt_n d)); clear; induction n as [|n IH]; cbn; congruence).
  replace (Z.to_nat (dt_n d)) with (length ys) in A by lia. exact A.
Qed.
Theorem set_list_law : forall m h d ys xs, elems_apart (dt_n d) (default_bytes (dt_id d)) (dt_stride d) -> shows mach m h d ys ->
  exists m', arr_set_list mach m h d xs = Ok m' /\ assigned m m' h d (overwrite (map (conv (dt_id d)) (firstn (length ys) xs)) ys).
Proof.
  intros m h d ys xs Ap S. pose proof (shows_length _ _ _ _ S) as L. unfold arr_set_list. replace (Z.to_nat (dt_n d)) with (length ys) by lia.
  apply put_law; auto. rewrite firstn_length. lia.
Qed.
Theorem set_one_law : forall m h d ys i x, elems_apart (dt_n d) (default_bytes (dt_id d)) (dt_stride d) -> shows mach m h d ys -> 0 <= i < Z.of_nat (length ys) ->
  exists m', arr_set mach m h d i x = Ok m' /\ assigned m m' h d (set_nth ys (Z.to_nat i) (conv (dt_id d) x)).
Proof.
  intros m h d ys i x Ap S Hi. rewrite (shows_length _ _ _ _ S) in Hi. destruct (shows_holds _ _ _ _ S) as (D & Hn & es & H & ->).
  destruct (put_elem_ok m h d es i x D Ap H Hi) as (m' & E & Sh & H' & F). exists m'. split; [exact E|]. split; [exact Sh|]. split; [|exact F].
  replace (set_nth (map (ivalue mach (dt_id d)) es) (Z.to_nat i) (conv (dt_id d) x)) with (map (ivalue mach (dt_id d)) (set_nth es (Z.to_nat i) (encode mach (dt_id d) (conv (dt_id d) x)))).
  - apply holds_shows; assumption.
  - rewrite <- (encode_value mach (dt_id d) (conv (dt_id d) x) D (proj1 (conv_converts _ _ D))) at 2. generalize (Z.to_nat i). clear. induction es as [|e es IH]; intros [|k]; cbn [set_nth map]; try reflexivity. rewrite IH. reflexivity.
Qed.
Lemma holds_frame : forall m m' data d es, is_data (dt_id d) = true -> holds m data d es -> (forall q, leaf_touches q (data, d) -> rd m' q = rd m q) -> holds m' data d es.
Proof.
  intros m m' data d es D [L H] F. split; [exact L|]. intros i Hi. destruct (H i Hi) as (b & Eb & Lb). exists b. split; [exact Eb|].
  apply (leaf_elem_move m m' data data d d i b eq_refl D Lb). intros p j Ep Hj. exists p. split; [exact Ep|]. apply F. exists p, i, j. auto.
Qed.
Theorem copy_law : forall h d t h' d' xs ys, elems_apart (dt_n d) (default_bytes (dt_id d)) (dt_stride d) -> no_repeat d' ->
  leaves_apart (h_data h, d) (h_data h', d') -> dt_n d <= dt_n d' -> forall m, shows mach m h d ys -> shows mach m h' d' xs ->
  exists m', arr_set_array mach m h d t h' d' = Ok m' /\ assigned m m' h d (map (conv (dt_id d)) (map (conv t) (firstn (length ys) xs))).
Proof.
  intros h d t h' d' xs ys Ap N A L m Sy Sx. pose proof (shows_length _ _ _ _ Sy) as Ly. pose proof (shows_length _ _ _ _ Sx) as Lx.
  destruct (put_law m h d ys (map (conv t) (firstn (length ys) xs)) Ap Sy) as (m' & E & R). { rewrite map_length, firstn_length. lia. }
  exists m'. split; [|unfold overwrite in R; rewrite map_length, map_length, firstn_length, skipn_all2, app_nil_r in R by lia; exact R].
  unfold arr_set_array. assert (I : forall i, 0 <= i < dt_n d' -> forall m1, shows mach m1 h' d' xs -> exists x, nth_error xs (Z.to_nat i) = Some x /\ int_elem mach m1 t h' d' i = Ok (conv t x)).
  { intros i Hi m1 S1. pose proof (int_view mach m1 t h' d' xs N S1) as V. apply omapM_Ok in V. rewrite Forall2_nth in V. destruct V as [_ V]. destruct (V (Z.to_nat i) i (zseq_nth _ _ Hi)) as (b & Eb & R1).
    rewrite nth_error_map in Eb. destruct (nth_error xs (Z.to_nat i)) as [x|]; [|discriminate Eb]. injection Eb as <-. eauto. }
  assert (G : forall k i m1, shows mach m1 h' d' xs -> 0 <= i -> i + Z.of_nat k <= dt_n d ->
            put_elems mach m1 h d i (map (conv t) (firstn k (skipn (Z.to_nat i) xs))) = Ok m' -> copy_elems mach m1 h d t h' d' (map (fun j => i + Z.of_nat j) (seq 0 k)) = Ok m').
  { induction k as [|k IH]; intros i m1 S1 Hi Hk P1; [exact P1|]. cbn [seq map copy_elems]. rewrite Z.add_0_r. destruct (I i ltac:(lia) m1 S1) as (x & Ex & Rx). rewrite Rx. cbn [obind].
    assert (Sk : skipn (Z.to_nat i) xs = x :: skipn (S (Z.to_nat i)) xs). { clear - Ex. revert xs Ex. generalize (Z.to_nat i). induction n as [|n IH]; intros [|a l] H; try discriminate H; [injection H as ->; reflexivity|]. cbn [skipn]. apply IH. exact H. }
    rewrite Sk in P1. cbn [firstn map put_elems] in P1. destruct (put_elem mach m1 h d i (conv t x)) as [m2| | |] eqn:E2; try discriminate P1. cbn [obind] in P1 |- *.
    rewrite <- seq_shift, map_map. rewrite (map_ext _ (fun j => (i + 1) + Z.of_nat j)) by (intros j; lia). apply IH; [|lia|lia|replace (Z.to_nat (i + 1)) with (S (Z.to_nat i)) by lia; exact P1].
    destruct (put_elem_frame _ _ _ _ _ _ E2 ltac:(lia)) as (_ & F). destruct (shows_holds _ _ _ _ S1) as (D' & Hn' & es' & H' & ->). apply holds_shows; auto.
    apply (holds_frame m1 m2); auto using int_is_data. intros q T. apply F. intros T'. apply (A q). auto. }
  specialize (G (Z.to_nat (dt_n d)) 0 m Sx ltac:(lia) ltac:(lia)). rewrite (map_ext _ Z.of_nat) in G by (intros; lia). apply G. cbn [Z.to_nat skipn]. replace (Z.to_nat (dt_n d)) with (length ys) by lia. exact E.
Qed.
End Assignments.

(** ---- comparing integers of different types ---- *)
Lemma first_int_ok mach m h d x xs : shows mach m h d (x :: xs) -> first_int mach m h d = Ok x.
Proof.
  intros (D & es & E & X). destruct (leaf_value_inv _ _ _ _ E) as [[T _]|(Da & Hn & es' & Y & [Hl H])]; [rewrite T in D; discriminate D|]. injection Y as <-.
  destruct es as [|b es]; [discriminate X|]. injection X as X _. cbn [length] in Hl. destruct (H 0 ltac:(lia)) as (bs & E0 & R). cbn in E0. injection E0 as <-. unfold first_int, leaf_elem in *. rewrite R. cbn [obind]. congruence.
Qed.
Lemma relaxint_law mach m eps h d h' d' x xs y ys : shows mach m h d (x :: xs) -> shows mach m h' d' (y :: ys) -> dt_id d <> dt_id d' ->
  (x < 2 ^ 63 /\ y < 2 ^ 63 \/ 0 <= x /\ 0 <= y /\ is_unsigned (dt_id d) = true /\ is_unsigned (dt_id d') = true) ->
  ndiff mach m eps true (NLeaf h d) (NLeaf h' d') = Ok (negb (x =? y)) /\ ndiff_compatible mach m eps true (NLeaf h d) (NLeaf h' d') = Ok (negb (x =? y)).
Proof.
  intros Sx Sy D R. assert (M : mismatch mach m true h d h' d' = Ok (negb (x =? y))).
  { unfold mismatch. rewrite (first_int_ok _ _ _ _ _ _ Sx), (first_int_ok _ _ _ _ _ _ Sy). cbn [obind].
    pose proof (shows_in_type _ _ _ _ _ Sx) as Tx. pose proof (shows_in_type _ _ _ _ _ Sy) as Ty. inversion_clear Tx. inversion_clear Ty. destruct Sx as [Ix _], Sy as [Iy _].
    assert (Lx : - 2 ^ 63 <= x < 2 ^ 64) by (unfold in_type, int_min, int_max in H; destruct (dt_id d); try discriminate Ix; cbn in H; lia).
    assert (Ly : - 2 ^ 63 <= y < 2 ^ 64) by (unfold in_type, int_min, int_max in H1; destruct (dt_id d'); try discriminate Iy; cbn in H1; lia).
    assert (W : forall z, - 2 ^ 63 <= z < 2 ^ 63 -> wrap_s 64 z = z).
    { intros z Hz. unfold wrap_s. destruct (Z.ltb_spec z 0) as [C|C].
      - rewrite <- (Z.mod_add z 1) by lia. rewrite Z.mod_small by lia. change (64 - 1) with 63. destruct (Z.ltb_spec (z + 1 * 2 ^ 64) (2 ^ 63)); lia.
      - rewrite Z.mod_small by lia. change (64 - 1) with 63. destruct (Z.ltb_spec z (2 ^ 63)); lia. }
    destruct (is_unsigned (dt_id d) && is_unsigned (dt_id d')) eqn:U.
    - apply andb_true_iff in U. assert (0 <= x /\ 0 <= y) as [Px Py]. { unfold in_type, int_min in H, H1. destruct U as [U1 U2]. split; [destruct (dt_id d); try discriminate U1; cbn in H; lia|destruct (dt_id d'); try discriminate U2; cbn in H1; lia]. }
      unfold wrap_u. rewrite !Z.mod_small by lia. reflexivity.
    - destruct R as [[Rx Ry]|(_ & _ & U1 & U2)]; [|rewrite U1, U2 in U; discriminate U]. rewrite !W by lia.
      replace ((is_signed (dt_id d) || is_unsigned (dt_id d)) && (is_signed (dt_id d') || is_unsigned (dt_id d'))) with true; [reflexivity|]. symmetry. destruct (dt_id d); try discriminate Ix; destruct (dt_id d'); try discriminate Iy; reflexivity. }
  cbn [ndiff ndiff_compatible]. unfold leaf_case. replace (tid_eqb (dt_id d) (dt_id d')) with false; [split; exact M|]. symmetry. apply not_true_iff_false. intros C. apply D. destruct (dt_id d), (dt_id d'); try discriminate C; reflexivity.
Qed.
