(** Reading plain JSON into a node. *)
From Coq Require Import Lia NArith Nnat.
From Verif Require Import Base DType Path SpecTree Schema Codec CodecFacts Mem MemFacts Node Number NodeDiff
  NumberFacts ArrayOps ArrayOpsFacts SpecNode NodeFacts NodeCompact NodeSet NodeAlloc SchemaInv SchemaMore Json JsonSpec JsonFacts
  JsonRead JsonSchema NodeSerial DiffFacts DiffMore Save SaveFacts B64Json B64Facts ValueJson ValueFacts ValueText ValueBack.
Local Open Scope Z_scope.

(** * Specification: the node value a JSON value stands for *)

(** [t] is written without fraction and exponent and is the integer [z]. *)
Definition integer (t : str) (z : Z) : Prop :=
  exists d, digits d /\ ((t = d /\ z = decimal d) \/ (t = "-"%char :: d /\ z = - decimal d)).
(** an integer that fits 64 bits, signed or unsigned *)
Definition whole (t : str) : Prop := exists z, integer t z /\ - 2 ^ 63 <= z < 2 ^ 64.
Definition numeric (F : floats) (j : jval) : Prop :=
  match j with JNum _ => True | JStr s => f_is_double F s = true | _ => False end.
(** bytes of the 64-bit integer [z] *)
Definition int64_bytes (mach : endian) (t : tid) (z : Z) (x : list byte) : Prop :=
  length x = 8%nat /\ ivalue mach t x = z.

Inductive reads (F : floats) (mach : endian) : jval -> tree leafval -> Prop :=
| rd_null : reads F mach JNull (TLeaf None)
| rd_bool b : reads F mach (JBool b) (TLeaf (Some (UINT8, DEFAULT_E, [[if b then "001"%char else zero_byte]])))
| rd_str (s : str) : ~ In zero_byte s ->
    reads F mach (JStr s) (TLeaf (Some (CHAR8_STR, DEFAULT_E, map (fun c => [c]) (s ++ [zero_byte]))))
| rd_int t z x : integer t z -> - 2 ^ 63 <= z < 2 ^ 63 -> int64_bytes mach INT64 z x ->
    reads F mach (JNum t) (TLeaf (Some (INT64, DEFAULT_E, [x])))
| rd_uint t z x : integer t z -> 2 ^ 63 <= z < 2 ^ 64 -> int64_bytes mach UINT64 z x ->
    reads F mach (JNum t) (TLeaf (Some (UINT64, DEFAULT_E, [x])))
| rd_num t : ~ whole t -> reads F mach (JNum t) (TLeaf (Some (FLOAT64, DEFAULT_E, [f_read F FLOAT64 t])))
| rd_ints ts es : ts <> [] ->
    Forall2 (fun t x => exists z, integer t z /\ - 2 ^ 63 <= z < 2 ^ 63 /\ int64_bytes mach INT64 z x) ts es ->
    reads F mach (JArr (map JNum ts)) (TLeaf (Some (INT64, DEFAULT_E, es)))
| rd_nums ts : Exists (fun t => ~ whole t) ts ->
    reads F mach (JArr (map JNum ts)) (TLeaf (Some (FLOAT64, DEFAULT_E, map (f_read F FLOAT64) ts)))
| rd_list js vs : js = [] \/ Exists (fun j => ~ numeric F j) js -> Forall2 (reads F mach) js vs ->
    reads F mach (JArr js) (TList vs)
| rd_object (es : list (str * jval)) vs : NoDup (map fst es) -> Forall (fun e => ~ In zero_byte (fst e)) es ->
    Forall2 (fun e ev => fst ev = fst e /\ reads F mach (snd e) (snd ev)) es vs ->
    reads F mach (JObj es) (TObj vs).
(** floats read have the size of their type *)
Definition sized (F : floats) : Prop :=
  forall t s, is_float t = true -> Z.of_nat (length (f_read F t s)) = default_bytes t.

(** * Integers in text *)
Lemma dec_fold d : Forall digit d -> forall a,
  Json.dec_value d a = Some (fold_left (fun a c => 10 * a + (Z.of_N (N_of_ascii c) - 48)) d a).
Proof.
  induction 1 as [|c d C H IH]; intros a; [reflexivity|].
  cbn [Json.dec_value fold_left]. rewrite (digit_num c C), IH. do 2 f_equal. lia.
Qed.
Lemma digits_dec d : digits d -> Json.dec_value d 0 = Some (decimal d).
Proof. intros [_ H]. apply dec_fold, H. Qed.
Lemma num_char_digit' c : num_char c = true -> digit c.
Proof. destruct c as [[] [] [] [] [] [] [] []]; intros H; try discriminate H; unfold digit; cbn; tauto. Qed.
Lemma dec_digits' d : forall a z, Json.dec_value d a = Some z -> Forall digit d.
Proof.
  intros a z E. apply dec_digits in E. eapply Forall_impl; [|exact E]. exact num_char_digit'.
Qed.
Lemma digit_not_minus c r : digits (c :: r) -> Ascii.eqb c "-" = false.
Proof.
  intros [_ H]. inversion_clear H as [|? ? D _]. destruct (Ascii.eqb_spec c "-") as [-> |]; [|reflexivity].
  unfold digit in D. cbn in D. intuition discriminate.
Qed.
Lemma int_text_iff t z : int_text t = Some z <-> integer t z.
Proof.
  split.
  - unfold int_text. destruct t as [|c r]; [discriminate|]. destruct (Ascii.eqb_spec c "-") as [-> |N].
    + destruct r as [|c' r]; [discriminate|]. destruct (Json.dec_value (c' :: r) 0) as [a|] eqn:E; [|discriminate].
      intros X. cbn [option_map] in X. injection X as <-. pose proof (dec_digits' _ _ _ E) as D.
      exists (c' :: r). assert (Dg : digits (c' :: r)) by (split; [discriminate|exact D]). split; [exact Dg|].
      right. split; [reflexivity|]. rewrite (digits_dec _ Dg) in E. congruence.
    + intros E. pose proof (dec_digits' _ _ _ E) as D. assert (Dg : digits (c :: r)) by (split; [discriminate|exact D]).
      exists (c :: r). split; [exact Dg|]. left. split; [reflexivity|]. rewrite (digits_dec _ Dg) in E. congruence.
  - intros (d & D & [[-> ->]|[-> ->]]).
    + unfold int_text. destruct d as [|c r]; [destruct D; congruence|]. rewrite (digit_not_minus c r D).
      apply digits_dec, D.
    + unfold int_text. change (Ascii.eqb "-" "-") with true. cbv iota. rewrite (digits_dec d D).
      destruct d; [destruct D; congruence|]. reflexivity.
Qed.
Lemma integer_fun t z z' : integer t z -> integer t z' -> z = z'.
Proof. intros A B. apply int_text_iff in A, B. congruence. Qed.
Lemma int_i64 t z : integer t z -> - 2 ^ 63 <= z < 2 ^ 63 -> is_int64 t = true /\ get_i64 t = Ok z.
Proof.
  intros A B. apply int_text_iff in A. assert (I : is_int64 t = true) by (unfold is_int64; rewrite A; lia).
  split; [exact I|]. unfold get_i64. rewrite A, I. reflexivity.
Qed.
Lemma int_u64 t z : integer t z -> 2 ^ 63 <= z < 2 ^ 64 -> is_int64 t = false /\ is_uint64 t = true /\ get_u64 t = Ok z.
Proof.
  intros A B. apply int_text_iff in A. assert (I : is_uint64 t = true) by (unfold is_uint64; rewrite A; lia).
  split; [unfold is_int64; rewrite A; lia|]. split; [exact I|]. unfold get_u64. rewrite A, I. reflexivity.
Qed.
Lemma whole_iff t : is_uint64 t || is_int64 t = true <-> whole t.
Proof.
  unfold is_uint64, is_int64, whole. split.
  - destruct (int_text t) as [z|] eqn:E; [|discriminate]. intros H. apply int_text_iff in E. exists z. split; [exact E|]. lia.
  - intros (z & A & B). apply int_text_iff in A. rewrite A. lia.
Qed.
Lemma not_whole t : ~ whole t -> is_uint64 t = false /\ is_int64 t = false.
Proof.
  intros N. destruct (is_uint64 t || is_int64 t) eqn:E; [exfalso; apply N, whole_iff, E|]. apply orb_false_iff in E. exact E.
Qed.

Section Pure.
Variable F : floats.
Variable mach : endian.

(** * The kind of an array *)
Lemma loop_ints ts : Forall whole ts -> kind_loop F INT64 (map JNum ts) = INT64.
Proof.
  induction 1 as [|t ts W H IH]; [reflexivity|]. cbn [map kind_loop numeric_kind]. apply whole_iff in W. rewrite W.
  exact IH.
Qed.
Lemma kind_ints ts : ts <> [] -> Forall whole ts -> array_kind F (map JNum ts) = INT64.
Proof.
  intros N H. destruct H as [|t ts W H]; [congruence|]. cbn [map array_kind numeric_kind]. pose proof (proj2 (whole_iff t) W) as X.
  rewrite X. apply loop_ints, H.
Qed.
Lemma loop_floats ts : kind_loop F FLOAT64 (map JNum ts) = FLOAT64.
Proof.
  induction ts as [|t ts IH]; [reflexivity|]. cbn [map kind_loop numeric_kind].
  destruct (is_uint64 t || is_int64 t); exact IH.
Qed.
Lemma kind_floats ts : Exists (fun t => ~ whole t) ts -> array_kind F (map JNum ts) = FLOAT64.
Proof.
  intros X. assert (G : kind_loop F INT64 (map JNum ts) = FLOAT64).
  { induction X as [t ts N|t ts X IH]; cbn [map kind_loop numeric_kind].
    - destruct (not_whole t N) as [-> ->]. apply loop_floats.
    - destruct (is_uint64 t || is_int64 t); [exact IH|apply loop_floats]. }
  destruct ts as [|t ts]; [inversion X|]. cbn [map kind_loop array_kind] in *.
  assert (K : numeric_kind F (JNum t) = INT64 \/ numeric_kind F (JNum t) = FLOAT64)
    by (cbn [numeric_kind]; destruct (is_uint64 t || is_int64 t); auto).
  destruct K as [K|K]; rewrite K in *; exact G.
Qed.
Definition no_nul (j : jval) : Prop := match j with JStr s => ~ In zero_byte s | _ => True end.
Lemma no_nul_text s : ~ In zero_byte s -> up_to_nul s = s.
Proof.
  induction s as [|c s IH]; intros N; [reflexivity|]. cbn [up_to_nul]. destruct (Ascii.eqb_spec c "000") as [-> |_].
  - exfalso. apply N. left. reflexivity.
  - rewrite IH; [reflexivity|]. intros I. apply N. right. exact I.
Qed.
Lemma not_numeric j : no_nul j -> ~ numeric F j -> numeric_kind F j = EMPTY.
Proof.
  destruct j; cbn [no_nul numeric numeric_kind]; intros N H; try reflexivity; try tauto.
  rewrite no_nul_text by exact N. destruct (f_is_double F s); [exfalso; auto|reflexivity].
Qed.
Lemma loop_list js : Forall no_nul js -> Exists (fun j => ~ numeric F j) js -> forall k, kind_loop F k js = EMPTY.
Proof.
  intros N X. induction X as [j js H|j js X IH]; intros k; inversion_clear N as [|? ? Nj Njs]; cbn [kind_loop].
  - rewrite (not_numeric j Nj H). destruct (tid_eqb k INT64); reflexivity.
  - destruct (_ && _); [apply IH, Njs|]. destruct (tid_eqb _ EMPTY); [reflexivity|apply IH, Njs].
Qed.
Lemma kind_list js : Forall no_nul js -> js = [] \/ Exists (fun j => ~ numeric F j) js -> array_kind F js = EMPTY.
Proof.
  intros N [-> |X]; [reflexivity|]. destruct js as [|j js]; [reflexivity|]. cbn [array_kind].
  destruct (tid_eqb (numeric_kind F j) EMPTY) eqn:E; [reflexivity|].
  inversion_clear N as [|? ? Nj Njs]. inversion_clear X as [? ? H|? ? X'].
  - rewrite (not_numeric j Nj H) in E. discriminate.
  - apply loop_list; assumption.
Qed.

(** * New leaves *)
Lemma sub_concat sz : forall (es : list (list byte)) i x, Forall (fun y => length y = sz) es ->
  nth_error es i = Some x -> sub_range (concat es) (sz * i) sz = x.
Proof.
  unfold sub_range. induction es as [|e es IH]; intros i x H E; [destruct i; discriminate|].
  inversion_clear H as [|? ? Le Hes]. destruct i as [|i]; cbn [nth_error] in E.
  - injection E as ->. rewrite Nat.mul_0_r. cbn [skipn concat].
    rewrite firstn_app, Le, Nat.sub_diag. rewrite <- Le at 1. rewrite firstn_all. cbn [firstn]. apply app_nil_r.
  - cbn [concat]. rewrite skipn_app, skipn_all2 by (unfold byte in *; nia). cbn [app].
    replace (sz * S i - length e)%nat with (sz * i)%nat by (unfold byte in *; nia). apply IH; assumption.
Qed.
Lemma block_holds m (es : list (list byte)) t : is_data t = true ->
  Forall (fun x : list byte => Z.of_nat (length x) = default_bytes t) es ->
  leaf_value (m ++ [Some (concat es)]) (Some (length m, 0)) (dt_simple t (Z.of_nat (length es))) =
  Ok (Some (t, DEFAULT_E, es)).
Proof.
  intros D Sz. pose proof (is_data_pos t D) as Ps.
  change (Some (t, DEFAULT_E, es)) with (Some (dt_id (dt_simple t (Z.of_nat (length es))), dt_endian (dt_simple t (Z.of_nat (length es))), es)).
  apply leaf_value_data; [exact D|cbn; lia|]. split; [cbn [dt_simple dt_n]; lia|].
  intros i Hi. cbn [dt_simple dt_n] in Hi. destruct (nth_error es (Z.to_nat i)) as [x|] eqn:E.
  2:{ apply nth_error_None in E. lia. }
  exists x. split; [reflexivity|]. unfold leaf_elem. cbn [dt_simple dt_id opadd option_map oload].
  unfold padd, eaddr. cbn [dt_simple dt_off dt_stride fst snd]. unfold load.
  destruct (Z.eqb_spec (default_bytes t) 0); [lia|]. cbn [fst snd]. rewrite nth_error_app2, Nat.sub_diag by lia. cbn [nth_error].
  pose proof (concat_len _ _ Sz) as Cl. unfold byte in *.
  assert (Q : default_bytes t * i + default_bytes t <= default_bytes t * Z.of_nat (length es)) by nia.
  unfold block, mem, byte in *.
  match goal with |- (if ?b then _ else _) = _ => assert (b = true) as -> by lia end.
  f_equal. replace (Z.to_nat (0 + (0 + default_bytes t * i))) with (Z.to_nat (default_bytes t) * Z.to_nat i)%nat by nia.
  apply sub_concat; [|exact E]. eapply Forall_impl; [|exact Sz]. intros y Y. rewrite <- Y, Nat2Z.id. reflexivity.
Qed.
Lemma new_leaf m h t n : is_data t = true -> 0 <= n ->
  ninit m (NLeaf h dt_empty) (dt_simple t n) =
  Ok (m ++ [Some (repeat zero_byte (Z.to_nat (default_bytes t * n)))], NLeaf (fresh_hdr m) (dt_simple t n)).
Proof.
  intros D N. pose proof (is_data_pos t D) as Ps. unfold ninit.
  assert (dt_compatible (n_dtype (NLeaf h dt_empty)) (dt_simple t n) = false) as ->
    by (unfold dt_compatible; cbn [n_dtype dt_empty dt_simple dt_id]; destruct t; try discriminate; reflexivity).
  change (nfree m (NLeaf h dt_empty)) with (@Ok mem m). cbn [obind]. unfold nalloc.
  assert (Sp : spanned_bytes (dt_simple t n) = default_bytes t * n)
    by (unfold spanned_bytes; cbn [dt_simple dt_off dt_stride dt_n dt_ebytes dt_id]; lia).
  rewrite Sp, alloc_ok by nia. cbn [obind]. unfold fresh_hdr. change (dt_id (dt_simple t n)) with t.
  destruct t; try discriminate; reflexivity.
Qed.
Lemma fill_leaf m t es : is_data t = true -> Forall (fun x : list byte => Z.of_nat (length x) = default_bytes t) es ->
  nput (m ++ [Some (repeat zero_byte (Z.to_nat (default_bytes t * Z.of_nat (length es))))])
       (NLeaf (fresh_hdr m) (dt_simple t (Z.of_nat (length es)))) es = Ok (m ++ [Some (concat es)]).
Proof.
  intros D Sz. pose proof (is_data_pos t D) as Ps. pose proof (concat_len _ _ Sz) as Cl. unfold nput, fresh_hdr.
  pose proof (put_raw_fresh m true (dt_simple t (Z.of_nat (length es))) (default_bytes t) ltac:(lia) eq_refl eq_refl es []
    [] Sz 0 (repeat zero_byte (Z.to_nat (default_bytes t * Z.of_nat (length es)))) ltac:(cbn; lia) ltac:(lia)
    ltac:(rewrite repeat_length; unfold byte in *; lia)) as P.
  cbn [app] in P. rewrite !app_nil_r in P. exact P.
Qed.
Lemma set_scalar m h t x : is_data t = true -> Z.of_nat (length x) = default_bytes t ->
  nset_scalar m (NLeaf h dt_empty) t x = Ok (m ++ [Some x], NLeaf (fresh_hdr m) (dt_simple t 1)).
Proof.
  intros D Sx. unfold nset_scalar. rewrite new_leaf by (auto; lia). cbn [obind]. unfold elem0, fresh_hdr. cbn [h_data opadd option_map ostore].
  match goal with |- context [padd ?q ?z] => replace (padd q z) with q
     by (unfold padd, eaddr; cbn [fst snd dt_simple dt_off dt_stride]; f_equal; lia) end.
  rewrite store_fresh by (rewrite repeat_length; unfold byte in *; lia). reflexivity.
Qed.
Lemma gives_leaf (w : mem -> jval -> outcome (mem * node)) j t es : is_data t = true ->
  Forall (fun x : list byte => Z.of_nat (length x) = default_bytes t) es ->
  (forall m, w m j = Ok (m ++ [Some (concat es)], NLeaf (fresh_hdr m) (dt_simple t (Z.of_nat (length es))))) ->
  gives w j (TLeaf (Some (t, DEFAULT_E, es))).
Proof.
  intros D Sz W m. exists [concat es], (NLeaf (fresh_hdr m) (dt_simple t (Z.of_nat (length es)))).
  split; [apply W|]. split.
  - apply nvalue_leaf. eexists. split; [reflexivity|]. cbn [map]. apply block_holds; assumption.
  - cbn [owns]. assert (is_empty (dt_simple t (Z.of_nat (length es))) = false) as -> by (apply is_data_empty, D). reflexivity.
Qed.
Lemma int64_unique t z x : is_int t = true -> default_bytes t = 8 -> in_type t z -> int64_bytes mach t z x ->
  x = encode mach t z.
Proof.
  intros T D R [Lx V]. apply (ivalue_inj mach t).
  - rewrite encode_length. rewrite D. exact Lx.
  - rewrite V. symmetry. apply encode_value; assumption.
Qed.

(** * Whole values *)
Hypothesis Fs : sized F.
Lemma pure_give : forall f j v, (jdepth j < f)%nat -> reads F mach j v ->
  forall h, h_own h = false -> gives (fun m x => walk_pure_f F mach f m h x) j v.
Proof.
  induction f as [|f IH]; intros j v Hf R h Hh; [lia|].
  inversion R as [E1 E2|b E1 E2|s N E1 E2|t z x It Rg Ib E1 E2|t z x It Rg Ib E1 E2|t Nw E1 E2|ts es Ne Fa E1 E2|ts Ex E1 E2
                 |js vs K Fa E1 E2|es vs Nd Nn Fa E1 E2]; subst j v.
  - intros m. exists [], (NLeaf (rel_hdr (NLeaf h dt_empty)) dt_empty). cbn [map]. rewrite app_nil_r. repeat split.
  - apply gives_leaf; [reflexivity|repeat constructor|]. intros m. cbn [walk_pure_f].
    rewrite set_scalar by reflexivity. reflexivity.
  - apply gives_leaf; [reflexivity|apply Forall_map, Forall_forall; reflexivity|]. intros m. cbn [walk_pure_f].
    rewrite no_nul_text by exact N. unfold nset_text. rewrite new_leaf by (auto; lia). cbn [obind].
    pose proof (fill_leaf m CHAR8_STR (map (fun c : ascii => [c]) (s ++ [zero_byte])) eq_refl
      ltac:(apply Forall_map, Forall_forall; reflexivity)) as P.
    assert (Le : Z.of_nat (length (map (fun c : ascii => [c]) (s ++ [zero_byte]))) = Z.of_nat (length s) + 1)
      by (rewrite map_length, app_length; cbn [length]; lia).
    unfold byte, str in *. rewrite Le in P.
    match type of P with ?l = _ => match goal with |- context [nput ?a ?b ?c] => change (nput a b c) with l end end.
    rewrite P. cbn [obind]. change (fun c : byte => [c]) with (fun c : ascii => [c]).
    unfold byte in *. rewrite Le. reflexivity.
  - destruct (int_i64 t z It Rg) as [I1 I2].
    pose proof (int64_unique INT64 z x eq_refl eq_refl ltac:(split; cbn; lia) Ib) as ->. destruct Ib as [Lx _].
    apply gives_leaf; [reflexivity|constructor; [rewrite Lx; reflexivity|constructor]|]. intros m. cbn [walk_pure_f].
    rewrite I1, I2. cbn [obind]. rewrite set_scalar by (reflexivity || (rewrite Lx; reflexivity)).
    cbn [concat]. rewrite app_nil_r. reflexivity.
  - destruct (int_u64 t z It Rg) as (I0 & I1 & I2).
    pose proof (int64_unique UINT64 z x eq_refl eq_refl ltac:(split; cbn; lia) Ib) as ->. destruct Ib as [Lx _].
    apply gives_leaf; [reflexivity|constructor; [rewrite Lx; reflexivity|constructor]|]. intros m. cbn [walk_pure_f].
    rewrite I0, I1, I2. cbn [obind]. rewrite set_scalar by (reflexivity || (rewrite Lx; reflexivity)).
    cbn [concat]. rewrite app_nil_r. reflexivity.
  - destruct (not_whole t Nw) as [I0 I1]. pose proof (Fs FLOAT64 t eq_refl) as Sx.
    apply gives_leaf; [reflexivity|constructor; [exact Sx|constructor]|]. intros m. cbn [walk_pure_f].
    rewrite I0, I1. rewrite set_scalar by (reflexivity || exact Sx). cbn [concat]. rewrite app_nil_r. reflexivity.
  - assert (Wh : Forall whole ts).
    { clear - Fa. induction Fa as [|t x ts es (z & I & Rg & _) Fa IH]; constructor; [|exact IH]. exists z. split; [exact I|lia]. }
    assert (Sz : Forall (fun x : list byte => Z.of_nat (length x) = default_bytes INT64) es).
    { clear - Fa. induction Fa as [|t x ts es (z & _ & _ & Lx & _) Fa IH]; constructor; [rewrite Lx; reflexivity|exact IH]. }
    assert (Zs : exists zs, omapM jv_i64 (map JNum ts) = Ok zs /\ map (encode mach INT64) zs = es).
    { clear - Fa. induction Fa as [|t x ts es (z & I & Rg & Ib) Fa (zs & E & Q)]; [exists []; split; reflexivity|].
      exists (z :: zs). cbn [map]. rewrite omapM_cons. cbn [jv_i64]. destruct (int_i64 t z I Rg) as [_ ->]. cbn [obind].
      rewrite E. split; [reflexivity|]. rewrite Q.
      rewrite (int64_unique INT64 z x eq_refl eq_refl ltac:(split; cbn; lia) Ib). reflexivity. }
    destruct Zs as (zs & Ez & Qz).
    assert (Ln : length es = length (map JNum ts)).
    { rewrite map_length. clear - Fa. induction Fa; cbn [length]; auto. }
    apply gives_leaf; [reflexivity|exact Sz|]. intros m. cbn [walk_pure_f]. rewrite (kind_ints ts Ne Wh).
    rewrite <- Ln, new_leaf by (auto; lia). cbn [obind]. rewrite Ez. cbn [obind]. rewrite Qz.
    rewrite fill_leaf by auto. reflexivity.
  - assert (Sz : Forall (fun x : list byte => Z.of_nat (length x) = default_bytes FLOAT64) (map (f_read F FLOAT64) ts))
      by (apply Forall_map, Forall_forall; intros t _; apply Fs; reflexivity).
    assert (Raw : omapM (raw_double F mach FLOAT64) (map JNum ts) = Ok (map (f_read F FLOAT64) ts)).
    { clear. induction ts as [|t ts IH]; [reflexivity|]. cbn [map]. rewrite omapM_cons. cbn [raw_double obind is_float]. rewrite IH. reflexivity. }
    apply gives_leaf; [reflexivity|exact Sz|]. intros m. cbn [walk_pure_f]. rewrite (kind_floats ts Ex).
    replace (length (map JNum ts)) with (length (map (f_read F FLOAT64) ts)) by (rewrite !map_length; reflexivity).
    rewrite new_leaf by (auto; lia). cbn [obind]. rewrite Raw. cbn [obind].
    rewrite fill_leaf by auto. reflexivity.
  - assert (Nn : Forall no_nul js).
    { clear - Fa. induction Fa as [|j v js vs R Fa IH]; constructor; [|exact IH]. inversion R; cbn [no_nul]; auto. }
    intros m. cbn [walk_pure_f]. rewrite (kind_list js Nn K).
    destruct (children_give (fun m' x => walk_pure_f F mach f m' null_hdr x) js vs) with (m := m) as (new & cs & E2 & V2 & O2).
    + assert (Hd : forall e, In e js -> (jdepth e < f)%nat).
      { intros e I. cbn [jdepth] in Hf. pose proof (depth_le jdepth js e I). lia. }
      clear - IH Fa Hd. induction Fa as [|j v js vs R Fa IHF]; constructor.
      * apply IH; [apply Hd; left; reflexivity|exact R|reflexivity].
      * apply IHF. intros e I. apply Hd. right. exact I.
    + rewrite E2. cbn [obind]. exists new, (NLst h cs). split; [reflexivity|]. split.
      * apply nvalue_lst. exists vs. split; [reflexivity|exact V2].
      * cbn [owns]. rewrite O2, own_ptr_false by exact Hh. apply app_nil_r.
  - intros m. cbn [walk_pure_f].
    destruct (entries_give (fun m' x => walk_pure_f F mach f m' null_hdr x) es vs) with (seen := @nil str) (m := m) as (new & cs & E2 & V2 & O2).
    + assert (Hd : forall e, In e es -> (jdepth (snd e) < f)%nat).
      { intros e I. cbn [jdepth] in Hf. pose proof (depth_le (fun e => jdepth (snd e)) es e I) as Q. cbv beta in Q. unfold str in *. lia. }
      clear - IH Fa Hd. induction Fa as [|j v js vs [K R] Fa IHF]; constructor.
      * split; [exact K|]. apply IH; [apply Hd; left; reflexivity|exact R|reflexivity].
      * apply IHF. intros e I. apply Hd. right. exact I.
    + eapply Forall_impl; [|exact Nn]. intros e. apply no_nul_text.
    + exact Nd.
    + intros k _ [].
    + rewrite E2. cbn [obind]. exists new, (NObj h cs). split; [reflexivity|]. split.
      * apply nvalue_obj. exists vs. split; [reflexivity|exact V2].
      * cbn [owns]. rewrite O2, own_ptr_false by exact Hh. apply app_nil_r.
Qed.

Lemma pure_read parse jv text clean v m dest : reads_json parse -> container jv -> loose_json jv text clean ->
  Forall modest (numbers jv) -> reads F mach jv v -> owned_ok m dest -> tidy dest ->
  exists m2 r, nfrom_json F mach parse false m dest text = Ok (m2, r) /\ nvalue m2 r = Ok v /\
    owned_ok m2 r /\ extends m m2 (owned_blocks dest).
Proof.
  intros Pa K D Mo R Ow Td. unfold nfrom_json, nreset.
  destruct (nfree_ok m dest Ow) as (m1 & E1 & Fr). rewrite E1. cbn [obind].
  rewrite (sanitize_doc true jv text clean K D), (Pa _ _ (doc_clean true _ _ _ D) Mo). cbn [obind n_hdr].
  destruct (pure_give (S (jdepth jv)) jv v ltac:(lia) R (rel_hdr dest) (tidy_rel dest Td) m1)
    as (new & r & E & Vr & Or).
  rewrite E. exists (m1 ++ map Some new), r. split; [reflexivity|]. split; [exact Vr|]. split; [apply new_blocks_ok, Or|].
  destruct Fr as [L1 F1]. split; [rewrite app_length; lia|]. intros b Hb. rewrite nth_error_app1 by lia. apply F1.
Qed.
End Pure.
