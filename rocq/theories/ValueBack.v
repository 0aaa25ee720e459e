(** Reading the detailed JSON text of a node back. *)
From Coq Require Import Lia NArith Nnat.
From Verif Require Import Base DType Path SpecTree Schema Codec CodecFacts Mem MemFacts Node Number NodeDiff
  NumberFacts ArrayOps ArrayOpsFacts SpecNode NodeFacts NodeCompact NodeSet NodeAlloc SchemaInv SchemaMore Json JsonSpec JsonFacts
  JsonRead JsonSchema NodeSerial DiffFacts DiffMore Save SaveFacts B64Json B64Facts ValueJson ValueFacts ValueText.
Local Open Scope Z_scope.

(** * Filling a new block *)
Lemma store_end m pre mid post bs : length mid = length bs ->
  store (m ++ [Some (pre ++ mid ++ post)]) (length m, Z.of_nat (length pre)) bs = Ok (m ++ [Some (pre ++ bs ++ post)]).
Proof.
  intros E. unfold store. destruct bs as [|c bs]; [destruct mid; [reflexivity|discriminate]|].
  cbn [fst snd]. rewrite nth_error_app2, Nat.sub_diag by lia. cbn [nth_error].
  rewrite !app_length.
  match goal with |- context [if ?b then _ else _] => replace b with true by lia end.
  rewrite set_nth_end, Nat2Z.id. do 3 f_equal. f_equal. unfold put_range.
  rewrite firstn_app, firstn_all, Nat.sub_diag. cbn [firstn]. rewrite app_nil_r. f_equal. f_equal.
  rewrite app_assoc, skipn_app, skipn_all2 by (rewrite app_length; lia).
  cbn [app]. rewrite app_length. replace (length pre + length (c :: bs) - (length pre + length mid))%nat with 0%nat by lia.
  reflexivity.
Qed.
Lemma put_raw_fresh m own d sz : 0 < sz -> dt_off d = 0 -> dt_stride d = sz ->
  forall xs pre post, Forall (fun x : list byte => Z.of_nat (length x) = sz) xs ->
  forall i mid, Z.of_nat (length pre) = sz * i -> 0 <= i -> length mid = length (concat xs) ->
  put_raw (m ++ [Some (pre ++ mid ++ post)]) (mkH (Some (length m, 0)) own) d i xs
  = Ok (m ++ [Some (pre ++ concat xs ++ post)]).
Proof.
  intros Sz Of St. induction xs as [|x xs IH]; intros pre post H i mid Lp I Lm.
  - destruct mid; [reflexivity|discriminate].
  - inversion_clear H as [|? ? Lx H'].
    cbn [put_raw]. unfold element_index. rewrite St, Of.
    replace ((0 <? i) && (sz =? 0)) with false by lia. cbn [obind h_data opadd option_map padd ostore fst snd].
    cbn [concat] in Lm. rewrite app_length in Lm.
    rewrite <- (firstn_skipn (length x) mid).
    replace (padd (length m, 0) (0 + sz * i)) with (length m, Z.of_nat (length pre)) by (unfold padd; cbn [fst snd]; f_equal; lia).
    rewrite <- app_assoc.
    rewrite store_end by (rewrite firstn_length; unfold byte in *; lia). cbn [obind].
    rewrite app_assoc. rewrite IH.
    + cbn [concat]. rewrite <- !app_assoc. reflexivity.
    + exact H'.
    + rewrite app_length. unfold byte in *. lia.
    + lia.
    + rewrite skipn_length. unfold byte in *. lia.
Qed.

Section Back.
Variable F : floats.
Variable mach : endian.
Hypothesis M : mach <> DEFAULT_E.

(** * A leaf *)
Lemma leaf_dtype_back d x : is_data (dt_id d) = true -> json_leaf d ->
  (dt_n d = 0 -> x = JArr []) ->
  parse_leaf_dtype (JObj (leaf_members mach d ++ [(L "value", x)])) 0 = Ok (recorded mach d).
Proof.
  intros D J X0. assert (K : is_container_id (dt_id d) = false) by (destruct (dt_id d); try discriminate; reflexivity).
  destruct J as [J|(J1 & J2 & J3 & J4)]; [rewrite J in K; discriminate|].
  destruct (show_Z_value _ J1) as [V1 I1]. destruct (show_Z_value _ J2) as [V2 I2].
  destruct (show_Z_value _ J3) as [V3 I3]. destruct (show_Z_value _ J4) as [V4 I4].
  unfold leaf_members. rewrite K.
  set (e := endian_id_to_name (dt_endian (recorded mach d))).
  assert (Ee : (if str_eqb e (L "big") then Ok BIG_E
                else if str_eqb e (L "little") then Ok LITTLE_E else Err)
               = Ok (dt_endian (recorded mach d))).
  { unfold e. cbn [recorded dt_endian]. destruct (dt_endian d), mach; try congruence; reflexivity. }
  assert (Et : parse_leaf_dtype_name (id_to_name (dt_id d)) = Ok (dt_id d))
    by (destruct (dt_id d); try discriminate; reflexivity).
  clearbody e.
  unfold parse_leaf_dtype, num_member, member.
  cbn -[get_uint64 to_index show_Z str_eqb parse_leaf_dtype_name default_bytes recorded Z.eqb id_to_name].
  repeat match goal with |- context [str_eqb ?a ?b] =>
    let r := eval vm_compute in (str_eqb a b) in
    match r with true => change (str_eqb a b) with true
               | false => change (str_eqb a b) with false end end.
  cbv iota. rewrite V1. cbn [obind]. rewrite Et. cbn [obind]. rewrite V2. cbn [obind].
  rewrite V3. cbn [obind]. rewrite V4. cbn [obind].
  cbn in Ee. rewrite Ee. cbn [obind].
  rewrite I1, I2, I3, I4.
  destruct (Z.eqb_spec (dt_n d) 0) as [Z0|_]; [|reflexivity].
  rewrite (X0 Z0). cbn [List.length Z.of_nat]. unfold recorded. rewrite Z0. reflexivity.
Qed.

Definition fresh_hdr (m : mem) : hdr := mkH (Some (length m, 0)) true.
Lemma unescape_plain s : Forall (fun c => c <> backslash) s -> unescape s = s.
Proof.
  induction 1 as [|c s C H IH]; [reflexivity|]. cbn [unescape]. destruct s as [|x s]; [reflexivity|].
  destruct (Ascii.eqb_spec c bslash) as [-> |_]; [exfalso; apply C; reflexivity|]. rewrite IH. reflexivity.
Qed.
Lemma holds_sizes m data d es : is_data (dt_id d) = true -> holds m data d es ->
  Forall (fun x : list byte => Z.of_nat (length x) = default_bytes (dt_id d)) es.
Proof.
  intros D [Ln H]. apply Forall_forall. intros x I. apply In_nth_error in I. destruct I as (i & I).
  assert (Hi : (i < length es)%nat) by (apply nth_error_Some; congruence).
  destruct (H (Z.of_nat i) ltac:(lia)) as (bs & E1 & E2). rewrite Nat2Z.id, I in E1. injection E1 as <-.
  unfold leaf_elem, oload in E2. pose proof (is_data_pos _ D). destruct (opadd data (eaddr d (Z.of_nat i))) as [q|].
  - destruct (load_inv _ _ _ _ E2) as (_ & L0 & _). lia.
  - destruct (Z.eqb_spec (default_bytes (dt_id d)) 0); [lia|discriminate].
Qed.
Lemma concat_len sz (es : list (list byte)) : Forall (fun x => Z.of_nat (length x) = sz) es ->
  Z.of_nat (length (concat es)) = sz * Z.of_nat (length es).
Proof.
  induction 1 as [|x es X H IH]; [cbn; lia|]. cbn [concat]. rewrite app_length. cbn [length]. unfold byte in *. lia.
Qed.

(** what a printed element is converted to *)
Lemma int_back t x : is_int t = true -> Z.of_nat (length x) = default_bytes t ->
  encode mach t (conv t (ivalue mach t x)) = x.
Proof.
  intros T Lx. assert (L' : length x = Z.to_nat (default_bytes t)) by (unfold byte in *; lia).
  pose proof (ivalue_in_type mach t x T L') as R. rewrite conv_id by assumption.
  apply (ivalue_inj mach t); [rewrite encode_length; auto|]. apply encode_value; assumption.
Qed.
Lemma data_split t : is_data t = true -> t <> CHAR8_STR -> is_int t = true \/ is_float t = true.
Proof. destruct t; intros; try discriminate; try congruence; auto. Qed.
Lemma int_not_float t : is_int t = true -> is_float t = false.
Proof. destruct t; intros; try discriminate; auto. Qed.
Lemma int_signs t : is_int t = true -> is_unsigned t = negb (is_signed t).
Proof. destruct t; intros; try discriminate; auto. Qed.
Lemma array_raw_back t es : is_data t = true -> t <> CHAR8_STR -> es <> [] ->
  Forall (fun x : list byte => Z.of_nat (length x) = default_bytes t) es ->
  (is_float t = true -> Forall (float_back F t) es) ->
  exists k, array_kind F (map (jelem F mach t) es) = k /\ k <> EMPTY /\
    array_raw F mach k t (map (jelem F mach t) es) = Ok es.
Proof.
  intros D NS NE Sz Fb. destruct (data_split t D NS) as [T|T].
  - exists INT64. pose proof (int_not_float t T) as NF.
    assert (K : forall x, In x es -> numeric_kind F (jelem F mach t x) = INT64 /\
               (if is_unsigned t then jv_u64 else jv_i64) (jelem F mach t x) = Ok (ivalue mach t x) /\
               raw_int F mach t (ivalue mach t x) = Ok x).
    { intros x I. unfold jelem. rewrite NF. rewrite Forall_forall in Sz. specialize (Sz x I).
      assert (L' : length x = Z.to_nat (default_bytes t)) by (unfold byte in *; lia).
      pose proof (ivalue_in_type mach t x T L') as R. destruct (in_type_64 t _ T R) as [R1 R2].
      pose proof (int_signs t T) as Sg.
      unfold numeric_kind, jv_u64, jv_i64, raw_int. rewrite T, int_back by assumption.
      destruct (is_signed t) eqn:S; rewrite Sg; cbn [negb].
      - specialize (R1 eq_refl). pose proof (show_get_i64 _ R1) as G. split; [|split; [exact G|reflexivity]].
        unfold get_i64 in G. destruct (is_int64 (show_Z (ivalue mach t x))) eqn:I6; [rewrite orb_true_r; reflexivity|].
        destruct (int_text _); discriminate.
      - specialize (R2 ltac:(rewrite Sg; reflexivity)). pose proof (show_get_u64 _ R2) as G. split; [|split; [exact G|reflexivity]].
        unfold get_u64 in G. destruct (is_uint64 (show_Z (ivalue mach t x))) eqn:I6; [reflexivity|].
        destruct (int_text _); discriminate. }
    split; [|split; [discriminate|]].
    + destruct es as [|x es]; [congruence|]. cbn [map array_kind].
      rewrite (proj1 (K x ltac:(left; reflexivity))). cbn [tid_eqb].
      assert (G : forall l, (forall x, In x l -> numeric_kind F (jelem F mach t x) = INT64) ->
              kind_loop F INT64 (map (jelem F mach t) l) = INT64).
      { induction l as [|y l IH]; intros H; [reflexivity|]. cbn [map kind_loop].
        rewrite (H y ltac:(left; reflexivity)). cbn. apply IH. intros z Iz; apply H; right; exact Iz. }
      change (tid_eqb INT64 EMPTY) with false. cbv iota. apply G. intros z Iz. apply K; right; exact Iz.
    + unfold array_raw.
      assert (G1 : omapM (if is_unsigned t then jv_u64 else jv_i64) (map (jelem F mach t) es) = Ok (map (ivalue mach t) es)).
      { clear - K. induction es as [|x es IH]; [reflexivity|]. cbn [map]. rewrite omapM_cons.
        destruct (K x ltac:(left; reflexivity)) as (_ & -> & _). cbn [obind].
        rewrite IH; [reflexivity|]. intros y I; apply K; right; exact I. }
      rewrite G1. cbn [obind]. clear - K. induction es as [|x es IH]; [reflexivity|]. cbn [map]. rewrite omapM_cons.
      destruct (K x ltac:(left; reflexivity)) as (_ & _ & ->). cbn [obind].
      rewrite IH; [reflexivity|]. intros y I; apply K; right; exact I.
  - exists FLOAT64. specialize (Fb T).
    assert (K : forall x, In x es -> numeric_kind F (jelem F mach t x) = FLOAT64 /\
               raw_double F mach t (jelem F mach t x) = Ok x).
    { intros x I. rewrite Forall_forall in Fb. destruct (Fb x I) as (Nu & _ & Fr & Rd).
      unfold jelem. rewrite T, (number_no_n _ Nu). unfold numeric_kind, raw_double, is_uint64, is_int64.
      rewrite (frac_not_int _ Fr). cbn [orb obind]. rewrite T, Rd. split; reflexivity. }
    split; [|split; [discriminate|]].
    + destruct es as [|x es]; [congruence|]. cbn [map array_kind].
      rewrite (proj1 (K x ltac:(left; reflexivity))). 
      assert (G : forall l, (forall x, In x l -> numeric_kind F (jelem F mach t x) = FLOAT64) ->
              kind_loop F FLOAT64 (map (jelem F mach t) l) = FLOAT64).
      { induction l as [|y l IH]; intros H; [reflexivity|]. cbn [map kind_loop].
        rewrite (H y ltac:(left; reflexivity)). cbn. apply IH. intros z Iz; apply H; right; exact Iz. }
      change (tid_eqb FLOAT64 EMPTY) with false. cbv iota. apply G. intros z Iz. apply K; right; exact Iz.
    + unfold array_raw. clear - K. induction es as [|x es IH]; [reflexivity|]. cbn [map]. rewrite omapM_cons.
      destruct (K x ltac:(left; reflexivity)) as (_ & ->). cbn [obind].
      rewrite IH; [reflexivity|]. intros y I; apply K; right; exact I.
Qed.

Lemma inline_scalar m n t x : dt_id (n_dtype n) = t -> is_data t = true -> t <> CHAR8_STR ->
  Z.of_nat (length x) = default_bytes t -> (is_float t = true -> float_back F t x) ->
  inline_value F mach m n (jelem F mach t x) = nset_scalar m n t x.
Proof.
  intros Tn D NS Sx Fb. destruct (data_split t D NS) as [T|T].
  - unfold jelem. rewrite (int_not_float t T). cbn [inline_value]. unfold inline_leaf. rewrite Tn.
    assert (L' : length x = Z.to_nat (default_bytes t)) by (unfold byte in *; lia).
    destruct (in_type_64 t _ T (ivalue_in_type mach t x T L')) as [R1 R2].
    pose proof (int_signs t T) as Sg. destruct (is_signed t) eqn:S; rewrite ?Sg; cbn [negb].
    + rewrite (show_get_i64 _ (R1 eq_refl)). cbn [obind]. rewrite int_back by assumption. reflexivity.
    + rewrite (show_get_u64 _ (R2 ltac:(rewrite Sg; reflexivity))). cbn [obind]. rewrite int_back by assumption. reflexivity.
  - destruct (Fb T) as (Nu & _ & Fr & Rd). unfold jelem. rewrite T, (number_no_n _ Nu). cbn [inline_value]. unfold inline_leaf.
    rewrite Tn. assert (is_signed t = false /\ is_unsigned t = false) as [-> ->] by (destruct t; try discriminate; split; reflexivity).
    rewrite T, Rd. reflexivity.
Qed.

Lemma concat_singles (l : list ascii) : concat (map (fun c => [c]) l) = l.
Proof. induction l as [|c l IH]; [reflexivity|]. cbn [map concat app]. f_equal. exact IH. Qed.
Definition fresh_leaf (m : mem) (d : dtype) : node := NLeaf (mkH (Some (length m, 0)) true) (dt_compact (recorded mach d)).
Lemma stay m h d t n : dt_id d = t -> dt_ebytes d = default_bytes t -> n <= dt_n d ->
  ninit m (NLeaf h d) (dt_simple t n) = Ok (m, NLeaf h d).
Proof.
  intros T E N. unfold ninit, dt_compatible. cbn [n_dtype dt_simple dt_id dt_ebytes dt_n]. rewrite T, E, tid_eqb_refl, Z.eqb_refl.
  replace (dt_n d >=? n) with true by lia. reflexivity.
Qed.
Lemma inline_back m ms data d es : layout_back d -> is_data (dt_id d) = true -> 0 <= dt_n d ->
  holds ms data d es -> value_back F (Some (dt_id d, dt_endian d, es)) ->
  inline_value F mach (m ++ [Some (repeat zero_byte (length (concat es)))]) (fresh_leaf m d)
    (jleaf F mach (Some (dt_id d, dt_endian d, es)))
  = Ok (m ++ [Some (concat es)], fresh_leaf m d).
Proof.
  intros Lb D Hn Ho V. pose proof (holds_sizes ms data d es D Ho) as Sz. pose proof Ho as [Ln _].
  pose proof (is_data_pos _ D) as Ps.
  assert (Put : forall xs, Forall (fun x : list byte => Z.of_nat (length x) = default_bytes (dt_id d)) xs ->
    forall post : list byte, (length (concat xs) + length post = length (concat es))%nat ->
    nput (m ++ [Some (repeat zero_byte (length (concat es)))]) (fresh_leaf m d) xs
    = Ok (m ++ [Some (concat xs ++ repeat zero_byte (length post))])).
  { intros xs Sx post Lp. unfold nput, fresh_leaf. rewrite <- Lp, repeat_app.
    exact (put_raw_fresh m true (dt_compact (recorded mach d)) (default_bytes (dt_id d)) ltac:(lia) eq_refl eq_refl xs []
             (repeat zero_byte (length post)) Sx 0 (repeat zero_byte (length (concat xs))) ltac:(cbn; lia) ltac:(lia) ltac:(apply repeat_length)). }
  destruct (tid_eq_dec (dt_id d) CHAR8_STR) as [T|T].
  - cbn [value_back] in V. rewrite T in V. destruct V as (s & k & C & Tc).
    cbn [jleaf]. rewrite T. rewrite C at 2. cbn [repeat]. rewrite up_to_nul_text by exact Tc.
    cbn [inline_value inline_leaf]. change (dt_id (n_dtype (fresh_leaf m d))) with (dt_id d). rewrite T, tid_eqb_refl.
    rewrite up_to_nul_plain by exact Tc.
    rewrite unescape_plain by (eapply Forall_impl; [|exact Tc]; intros c [X _]; exact X).
    unfold nset_text. unfold fresh_leaf at 1.
    pose proof (concat_len _ _ Sz) as Cl. rewrite C in Cl at 1. rewrite app_length, repeat_length in Cl.
    rewrite T in Cl. change (default_bytes CHAR8_STR) with 1 in Cl.
    rewrite stay; [|exact T|cbn [dt_compact recorded dt_id dt_ebytes]; rewrite T; reflexivity|cbn [dt_compact recorded dt_n]; unfold byte in *; lia]. cbn [obind].
    assert (S1 : Forall (fun x : list byte => Z.of_nat (length x) = default_bytes (dt_id d)) (map (fun c => [c]) (s ++ [zero_byte]))).
    { rewrite T. apply Forall_map. apply Forall_forall. intros c _. reflexivity. }
    assert (Cc : concat (map (fun c : ascii => [c]) (s ++ [zero_byte])) = s ++ [zero_byte])
      by apply concat_singles.
    change (NLeaf {| h_data := Some (length m, 0); h_own := true |} (dt_compact (recorded mach d))) with (fresh_leaf m d).
    pose proof (Put _ S1 (repeat zero_byte k)) as P1. unfold byte in *. rewrite Cc in P1.
    rewrite P1.
    + cbn [obind]. rewrite C, repeat_length. rewrite <- app_assoc. reflexivity.
    + rewrite C, !app_length, !repeat_length. cbn [length]. lia.
  - assert (Fb : is_float (dt_id d) = true -> Forall (float_back F (dt_id d)) es)
      by (unfold value_back in V; destruct (dt_id d); try discriminate; auto).
    assert (J : jleaf F mach (Some (dt_id d, dt_endian d, es)) =
                match es with [x] => jelem F mach (dt_id d) x | _ => JArr (map (jelem F mach (dt_id d)) es) end)
      by (unfold jleaf; destruct (dt_id d); congruence || reflexivity).
    rewrite J. destruct es as [|x es].
    + cbn [map inline_value]. cbn [length Z.of_nat]. destruct (Z.ltb_spec (dt_n (n_dtype (fresh_leaf m d))) 0) as [H|_]; [cbn [fresh_leaf n_dtype dt_compact recorded dt_n] in H; lia|].
      reflexivity.
    + destruct (array_raw_back (dt_id d) (x :: es) D T ltac:(discriminate) Sz Fb) as (k & K & NE & Raw).
      destruct es as [|y es].
      * (* one element *)
        inversion_clear Sz as [|? ? Sx _].
        assert (Sc : nset_scalar (m ++ [Some (repeat zero_byte (length (concat [x])))]) (fresh_leaf m d) (dt_id d) x =
                 Ok (m ++ [Some (concat [x])], fresh_leaf m d)).
        { unfold nset_scalar. unfold fresh_leaf at 1.
          rewrite stay; [|reflexivity|reflexivity|cbn [dt_compact recorded dt_n]; cbn [length] in Ln; lia].
          cbn [obind]. unfold elem0. cbn [h_data opadd option_map ostore].
          match goal with |- context [padd ?q ?z] => replace (padd q z) with q
            by (unfold padd, eaddr; cbn [fst snd dt_compact recorded dt_off dt_stride]; f_equal; lia) end.
          rewrite store_fresh by (cbn [concat]; rewrite app_nil_r, repeat_length; reflexivity).
          cbn [obind concat]. rewrite app_nil_r. reflexivity. }
        rewrite <- Sc. apply inline_scalar; auto. intros X. specialize (Fb X). inversion_clear Fb. assumption.
      * cbn [inline_value]. rewrite map_length.
        destruct (Z.ltb_spec (dt_n (n_dtype (fresh_leaf m d))) (Z.of_nat (length (x :: y :: es)))) as [H|_].
        { cbn [fresh_leaf n_dtype dt_compact recorded dt_n] in H. lia. }
        rewrite K. change (dt_id (n_dtype (fresh_leaf m d))) with (dt_id d).
        pose proof (Put _ Sz [] ltac:(cbn [length]; lia)) as P1. cbn [length repeat] in P1. rewrite app_nil_r in P1.
        destruct k; try congruence; rewrite Raw; cbn [obind]; rewrite P1; reflexivity.
Qed.

(** a leaf's text, read *)
Lemma leaf_back_node f m h ms hs d lv : layout_back d -> leaf_value ms (h_data hs) d = Ok lv -> value_back F lv ->
  walk_node_f F mach (S f) m h (node_val F mach ms (NLeaf hs d)) =
    Ok (match lv with
        | None => (m, NLeaf h dt_empty)
        | Some (_, _, es) => (m ++ [Some (concat es)], fresh_leaf m d)
        end).
Proof.
  intros Lb E V. cbn [node_val]. rewrite E.
  destruct (leaf_value_inv _ _ _ _ E) as [[T ->]|(D & Hn & es & -> & Ho)].
  - unfold leaf_members. rewrite T. reflexivity.
  - pose proof (holds_sizes _ _ _ _ D Ho) as Sz. pose proof (is_data_pos _ D) as Ps.
    pose proof (concat_len _ _ Sz) as Cl. pose proof Ho as [Ln _].
    set (jv := jleaf F mach (Some (dt_id d, dt_endian d, es))).
    assert (J0 : dt_n d = 0 -> jv = JArr []).
    { intros Z0. rewrite Z0 in Ln. destruct es; [|discriminate]. unfold jv.
      unfold value_back in V. unfold jleaf. destruct (dt_id d) eqn:T; try reflexivity.
      destruct V as (s & k & C & _). destruct s; discriminate C. }
    pose proof (leaf_dtype_back d jv D (proj1 Lb) J0) as Pd.
    cbn [walk_node_f].
    assert (M1 : member (leaf_members mach d ++ [(L "value", jv)]) (L "dtype") = Some (JStr (id_to_name (dt_id d)))) by reflexivity.
    assert (K : is_container_id (dt_id d) = false) by (destruct (dt_id d); try discriminate; reflexivity).
    assert (M2 : member (leaf_members mach d ++ [(L "value", jv)]) (L "address") = None)
      by (unfold leaf_members; rewrite K; reflexivity).
    assert (M3 : member (leaf_members mach d ++ [(L "value", jv)]) (L "value") = Some jv)
      by (unfold leaf_members; rewrite K; reflexivity).
    rewrite M1, Pd. cbn [obind]. rewrite M2, M3.
    assert (Ni : ninit m (NLeaf h dt_empty) (dt_compact (recorded mach d)) =
                 Ok (m ++ [Some (repeat zero_byte (length (concat es)))], fresh_leaf m d)).
    { unfold ninit.
      assert (dt_compatible (n_dtype (NLeaf h dt_empty)) (dt_compact (recorded mach d)) = false) as ->.
      { unfold dt_compatible. cbn [n_dtype dt_compact recorded dt_id]. destruct (dt_id d); try discriminate; reflexivity. }
      change (nfree m (NLeaf h dt_empty)) with (@Ok mem m). cbn [obind].
      unfold nalloc. 
      assert (Sp : spanned_bytes (dt_compact (recorded mach d)) = Z.of_nat (length (concat es))).
      { unfold spanned_bytes. cbn [dt_compact recorded dt_off dt_stride dt_n dt_ebytes dt_id]. rewrite Cl. unfold byte in *. lia. }
      rewrite Sp, alloc_ok by lia. cbn [obind]. rewrite Nat2Z.id.
      unfold fresh_leaf. change (dt_id (dt_compact (recorded mach d))) with (dt_id d).
      destruct (dt_id d); try discriminate; reflexivity. }
    rewrite Ni. cbn [obind]. apply (inline_back m ms (h_data hs) d es); assumption.
Qed.
Lemma fresh_value m ms data d es : is_data (dt_id d) = true -> 0 <= dt_n d -> holds ms data d es ->
  leaf_value (m ++ [Some (concat es)]) (Some (length m, 0)) (dt_compact (recorded mach d)) =
  Ok (file_order mach (Some (dt_id d, dt_endian d, es))).
Proof.
  intros D Hn Ho. pose proof (holds_sizes _ _ _ _ D Ho) as Sz. pose proof (is_data_pos _ D) as Ps.
  pose proof (concat_len _ _ Sz) as Cl. pose proof Ho as [Ln _].
  assert (E : nvalue ms (NLeaf (mkH data false) d) = Ok (TLeaf (Some (dt_id d, dt_endian d, es)))).
  { cbn [nvalue h_data]. rewrite (leaf_value_data ms data d es D Hn Ho). reflexivity. }
  pose proof (is_data_empty d D) as Em.
  assert (Sp : tspanned (TLeaf (dt_compact (recorded mach d))) = Z.of_nat (length (concat es))).
  { cbn [tspanned]. unfold spanned_bytes. cbn [dt_compact recorded dt_off dt_stride dt_n dt_ebytes dt_id]. rewrite Cl. unfold byte in *. lia. }
  pose proof (block_value mach ms (NLeaf (mkH data false) d) _ (TLeaf (dt_compact (recorded mach d)))
    (m ++ [Some (concat es)]) (length m) false E) as B.
  cbn [nschema tcompact walk] in B. specialize (B ltac:(constructor; unfold read_back, leaf_compact; rewrite Em; cbn [dt_id]; unfold is_empty in Em; rewrite Em; reflexivity)).
  assert (X : nvalue (m ++ [Some (concat es)]) (NLeaf (mkH (Some (length m, 0)) false) (dt_compact (recorded mach d))) =
              Ok (tmap (file_order mach) (TLeaf (Some (dt_id d, dt_endian d, es))))).
  { apply B.
    - constructor; [|constructor]. intros X. exfalso. cbn [dt_compact recorded dt_id] in X. rewrite X in D. discriminate.
    - rewrite nth_error_app2, Nat.sub_diag by lia. cbn [nth_error]. rewrite Sp, Nat2Z.id. unfold vbytes. cbn [tleaves flat_map leaf_bytes].
      rewrite app_nil_r, firstn_all. reflexivity. }
  cbn [nvalue h_data] in X. destruct (leaf_value _ _ _) as [lv| | |]; try discriminate. cbn [obind tmap] in X. congruence.
Qed.

(** * Whole trees *)
Lemma rd_more m x q : rd m q <> None -> rd (m ++ x) q = rd m q.
Proof.
  unfold rd. intros H. destruct (nth_error m (fst q)) as [b|] eqn:E; [|congruence].
  rewrite nth_error_app1 by (apply nth_error_Some; congruence). rewrite E. reflexivity.
Qed.
Lemma value_more m x n v : nvalue m n = Ok v -> nvalue (m ++ x) n = Ok v.
Proof.
  intros E. apply (nvalue_frame n m); [exact E|]. intros q T. apply rd_more. eapply nvalue_readable; eauto.
Qed.
Definition blocks_from (k n : nat) : list ptr := map (fun b => (b, 0)) (seq k n).
Lemma blocks_app k a b : blocks_from k a ++ blocks_from (k + a) b = blocks_from k (a + b).
Proof. unfold blocks_from. rewrite <- map_app, <- seq_app. reflexivity. Qed.
(** a reader gives a node with value [v] in new blocks that it owns *)
Definition gives (w : mem -> jval -> outcome (mem * node)) (j : jval) (v : tree leafval) : Prop :=
  forall m, exists new r, w m j = Ok (m ++ map Some new, r) /\
    nvalue (m ++ map Some new) r = Ok v /\ owns r = blocks_from (length m) (length new).
Lemma children_give w js vs : Forall2 (gives w) js vs -> forall m, exists new cs,
  rd_children w m js = Ok (m ++ map Some new, cs) /\
  Forall2 (fun c cv => nvalue (m ++ map Some new) c = Ok cv) cs vs /\
  flat_map owns cs = blocks_from (length m) (length new).
Proof.
  induction 1 as [|j v js vs G H IH]; intros m.
  - exists [], []. cbn [rd_children map]. rewrite app_nil_r. repeat split; constructor.
  - cbn [rd_children]. destruct (G m) as (n1 & r & E1 & V1 & O1). rewrite E1. cbn [obind].
    destruct (IH (m ++ map Some n1)) as (n2 & cs & E2 & V2 & O2). rewrite E2. cbn [obind].
    exists (n1 ++ n2), (r :: cs). 
    replace (m ++ map Some (n1 ++ n2)) with ((m ++ map Some n1) ++ map Some n2) by (rewrite map_app, app_assoc; reflexivity).
    split; [reflexivity|]. split.
    + constructor; [apply value_more, V1|exact V2].
    + cbn [flat_map]. rewrite O1, O2, app_length, map_length, app_length. apply blocks_app.
Qed.
Lemma entries_give w es vs : Forall2 (fun e ev => fst ev = fst e /\ gives w (snd e) (snd ev)) es vs ->
  Forall (fun e : str * jval => up_to_nul (fst e) = fst e) es -> forall seen,
  NoDup (map fst es) -> (forall k, In k (map fst es) -> ~ In k seen) -> forall m, exists new cs,
  rd_entries w m seen es = Ok (m ++ map Some new, cs) /\
  Forall2 (fun e ev => fst ev = fst e /\ nvalue (m ++ map Some new) (snd e) = Ok (snd ev)) cs vs /\
  flat_map (fun e => owns (snd e)) cs = blocks_from (length m) (length new).
Proof.
  induction 1 as [|[k j] [k' v] es vs [Ek G] H IH]; intros Nul seen Nd Ns m.
  - exists [], []. cbn [rd_entries map]. rewrite app_nil_r. repeat split; constructor.
  - cbn [fst snd] in *. subst k'. cbn [rd_entries]. inversion_clear Nul as [|? ? Nk Nul']. cbn [fst] in Nk. rewrite Nk.
    cbn [map] in Nd, Ns. inversion_clear Nd as [|? ? Nd1 Nd2].
    assert (existsb (str_eqb k) seen = false) as ->.
    { destruct (existsb (str_eqb k) seen) eqn:X; [|reflexivity]. apply existsb_exists in X. destruct X as (y & I & Y).
      destruct (str_eqb_spec k y); [subst y|discriminate]. exfalso. apply (Ns k ltac:(left; reflexivity) I). }
    destruct (G m) as (n1 & r & E1 & V1 & O1). rewrite E1. cbn [obind].
    destruct (IH Nul' (k :: seen) Nd2) with (m := m ++ map Some n1) as (n2 & cs & E2 & V2 & O2).
    { intros y I [<-|J]; [exact (Nd1 I)|]. apply (Ns y); [right; exact I|exact J]. }
    rewrite E2. cbn [obind].
    exists (n1 ++ n2), ((k, r) :: cs). 
    replace (m ++ map Some (n1 ++ n2)) with ((m ++ map Some n1) ++ map Some n2) by (rewrite map_app, app_assoc; reflexivity).
    split; [reflexivity|]. split.
    + constructor; [split; [reflexivity|apply value_more, V1]|exact V2].
    + cbn [flat_map snd]. rewrite O1, O2, app_length, map_length, app_length. apply blocks_app.
Qed.
Lemma name_no_nul k : json_name k -> up_to_nul k = k.
Proof.
  intros [_ H]. induction H as [|c k (_ & _ & C) H IH]; [reflexivity|]. cbn [up_to_nul].
  destruct (Ascii.eqb_spec c "000") as [-> |_]; [cbn in C; lia|]. rewrite IH. reflexivity.
Qed.

Lemma node_back ms n : forall v, printable F ms n -> names_unique (nschema n) -> nvalue ms n = Ok v ->
  forall f h, (jdepth (node_val F mach ms n) < f)%nat -> h_own h = false ->
  gives (fun m j => walk_node_f F mach f m h j) (node_val F mach ms n) (tmap (file_order mach) v).
Proof.
  induction n as [hs d|hs es IH|hs ks IH] using node_ind'; intros v P U E f h Hf Hh m;
    (destruct f as [|f]; [lia|]).
  - apply nvalue_leaf in E. destruct E as (lv & -> & E). destruct P as (Lb & lv' & E' & V). rewrite E in E'. injection E' as <-.
    rewrite (leaf_back_node f m h ms hs d lv Lb E V).
    destruct (leaf_value_inv _ _ _ _ E) as [[T ->]|(D & Hn & es & -> & Ho)].
    + exists [], (NLeaf h dt_empty). cbn [map]. rewrite app_nil_r. repeat split.
    + exists [concat es], (fresh_leaf m d). cbn [map]. split; [reflexivity|]. split.
      * apply nvalue_leaf. eexists. split; [reflexivity|]. exact (fresh_value m ms (h_data hs) d es D Hn Ho).
      * cbn [fresh_leaf owns]. change (is_empty (dt_compact (recorded mach d))) with (is_empty d).
        rewrite (is_data_empty d D). reflexivity.
  - apply nvalue_obj in E. destruct E as (vs & -> & E). apply printable_obj in P. cbn [node_val] in *.
    cbn [nschema] in U. inversion U as [|? Nd Uk|]; subst. rewrite map_map in Nd. cbn [fst] in Nd.
    cbn [walk_node_f].
    assert (Md : member (map (fun e => (fst e, node_val F mach ms (snd e))) es) (L "dtype") = None).
    { clear - P. unfold member. induction P as [|e es [[N _] _] P IH]; [reflexivity|]. cbn [map mget fst].
      destruct (str_eqb_spec (L "dtype") (fst e)) as [X|_]; [exfalso; apply N; symmetry; exact X|exact IH]. }
    rewrite Md.
    destruct (entries_give (fun m' x => walk_node_f F mach f m' null_hdr x)
       (map (fun e => (fst e, node_val F mach ms (snd e))) es) (map (fun e => (fst e, tmap (file_order mach) (snd e))) vs))
       with (seen := @nil str) (m := m) as (new & cs & E2 & V2 & O2).
    + assert (Hd : forall e, In e es -> (jdepth (node_val F mach ms (snd e)) < f)%nat).
      { intros e I. cbn [jdepth] in Hf. rewrite map_map in Hf. cbn [snd] in Hf.
        pose proof (depth_le (fun e => jdepth (node_val F mach ms (snd e))) es e I). lia. }
      apply Forall_map in Uk. cbn [snd] in Uk. clear - IH P E Uk Hd.
      induction E as [|e ev es vs [Ek Ev] E IHE]; [constructor|].
      inversion_clear IH as [|? ? I1 I2]. inversion_clear P as [|? ? [_ P1] P2]. inversion_clear Uk as [|? ? U1 U2].
      cbn [map]. constructor.
      * cbn [fst snd]. split; [exact Ek|]. apply I1; auto. apply Hd; left; reflexivity.
      * apply IHE; auto. intros x I; apply Hd; right; exact I.
    + apply Forall_map. eapply Forall_impl; [|exact P]. intros e [N _]. cbn [fst]. apply name_no_nul, N.
    + rewrite map_map. exact Nd.
    + intros k _ [].
    + rewrite E2. cbn [obind]. exists new, (NObj h cs). split; [reflexivity|]. split.
      * apply nvalue_obj. exists (map (fun e => (fst e, tmap (file_order mach) (snd e))) vs). split; [reflexivity|exact V2].
      * cbn [owns]. rewrite O2, own_ptr_false by exact Hh. apply app_nil_r.
  - apply nvalue_lst in E. destruct E as (vs & -> & E). apply printable_lst in P. cbn [node_val] in *.
    cbn [nschema] in U. inversion U as [| |? Uk]; subst.
    cbn [walk_node_f].
    destruct (children_give (fun m' x => walk_node_f F mach f m' null_hdr x)
       (map (node_val F mach ms) ks) (map (tmap (file_order mach)) vs))
       with (m := m) as (new & cs & E2 & V2 & O2).
    + assert (Hd : forall e, In e ks -> (jdepth (node_val F mach ms e) < f)%nat).
      { intros e I. cbn [jdepth] in Hf. rewrite map_map in Hf.
        pose proof (depth_le (fun e => jdepth (node_val F mach ms e)) ks e I). lia. }
      apply Forall_map in Uk. clear - IH P E Uk Hd.
      induction E as [|e ev es vs Ev E IHE]; [constructor|].
      inversion_clear IH as [|? ? I1 I2]. inversion_clear P as [|? ? P1 P2]. inversion_clear Uk as [|? ? U1 U2].
      cbn [map]. constructor.
      * apply I1; auto. apply Hd; left; reflexivity.
      * apply IHE; auto. intros x I; apply Hd; right; exact I.
    + rewrite E2. cbn [obind]. exists new, (NLst h cs). split; [reflexivity|]. split.
      * apply nvalue_lst. exists (map (tmap (file_order mach)) vs). split; [reflexivity|exact V2].
      * cbn [owns]. rewrite O2, own_ptr_false by exact Hh. apply app_nil_r.
Qed.

Lemma printable_all ms n : forall v, nvalue ms n = Ok v -> all_names json_name (nschema n) ->
  Forall layout_back (tleaves (nschema n)) -> Forall (value_back F) (tleaves v) -> printable F ms n.
Proof.
  induction n as [hs d|hs es IH|hs ks IH] using node_ind'; intros v E N Lb V.
  - apply nvalue_leaf in E. destruct E as (lv & -> & E). inversion_clear Lb. inversion_clear V. cbn [printable]. eauto.
  - apply nvalue_obj in E. destruct E as (vs & -> & E). apply printable_obj. cbn [nschema] in *. inversion N as [|? N'|]; subst.
    apply Forall_map in N'. cbn [tleaves] in *. rewrite flat_map_concat_map, map_map, <- flat_map_concat_map in Lb.
    apply Forall_flat in Lb. apply Forall_flat in V. clear N. induction E as [|e ev es vs [Ek Ev] E IHE]; [constructor|].
    inversion_clear IH as [|? ? I1 I2]. inversion_clear N' as [|? ? [N1 N2] N3]. inversion_clear Lb. inversion_clear V.
    constructor; [split; [exact N1|apply (I1 (snd ev)); assumption]|apply IHE; assumption].
  - apply nvalue_lst in E. destruct E as (vs & -> & E). apply printable_lst. cbn [nschema] in *. inversion N as [| |? N']; subst.
    apply Forall_map in N'. cbn [tleaves] in *. rewrite flat_map_concat_map, map_map, <- flat_map_concat_map in Lb.
    apply Forall_flat in Lb. apply Forall_flat in V. clear N. induction E as [|e ev es vs Ev E IHE]; [constructor|].
    inversion_clear IH as [|? ? I1 I2]. inversion_clear N' as [|? ? N1 N2]. inversion_clear Lb. inversion_clear V.
    constructor; [apply (I1 ev); assumption|apply IHE; assumption].
Qed.
Lemma elem_modest t x : is_data t = true -> t <> CHAR8_STR -> Z.of_nat (length x) = default_bytes t ->
  (is_float t = true -> float_back F t x) -> Forall modest (numbers (jelem F mach t x)).
Proof.
  intros D NS Sx Fb. unfold jelem. destruct (is_float t) eqn:T.
  - destruct (Fb eq_refl) as (Nu & Mo & _). rewrite (number_no_n _ Nu). constructor; [exact Mo|constructor].
  - destruct (data_split t D NS) as [I|]; [|congruence]. constructor; [|constructor].
    assert (L' : length x = Z.to_nat (default_bytes t)) by (unfold byte in *; lia).
    pose proof (ivalue_in_type mach t x I L') as R. destruct (in_type_64 t _ I R) as [R1 R2].
    pose proof (int_signs t I) as Sg. apply show_modest.
    destruct (is_signed t); [specialize (R1 eq_refl)|specialize (R2 ltac:(rewrite Sg; reflexivity))]; lia.
Qed.
Lemma val_modest ms n : printable F ms n -> Forall modest (numbers (node_val F mach ms n)).
Proof.
  induction n as [hs d|hs es IH|hs ks IH] using node_ind'; intros P.
  - destruct P as (Lb & lv & E & V). cbn [node_val numbers]. rewrite E, flat_map_app. apply Forall_app. split; [apply leaf_modest, Lb|].
    cbn [flat_map snd]. rewrite app_nil_r.
    destruct (leaf_value_inv _ _ _ _ E) as [[T ->]|(D & Hn & es & -> & Ho)]; [constructor|].
    pose proof (holds_sizes _ _ _ _ D Ho) as Sz.
    destruct (tid_eq_dec (dt_id d) CHAR8_STR) as [T|T]; [cbn [jleaf]; rewrite T; constructor|].
    assert (Fb : is_float (dt_id d) = true -> Forall (float_back F (dt_id d)) es)
      by (unfold value_back in V; destruct (dt_id d); try discriminate; auto).
    assert (G : Forall (fun x => Forall modest (numbers (jelem F mach (dt_id d) x))) es).
    { apply Forall_forall. intros x I. rewrite Forall_forall in Sz. apply elem_modest; auto.
      intros X. specialize (Fb X). rewrite Forall_forall in Fb. auto. }
    assert (J : jleaf F mach (Some (dt_id d, dt_endian d, es)) =
                match es with [x] => jelem F mach (dt_id d) x | _ => JArr (map (jelem F mach (dt_id d)) es) end)
      by (unfold jleaf; destruct (dt_id d); congruence || reflexivity).
    rewrite J. destruct es as [|x [|y es]]; [constructor|inversion_clear G; assumption|].
    cbn [numbers]. apply Forall_flat, Forall_map. exact G.
  - apply printable_obj in P. cbn [node_val numbers]. apply Forall_flat, Forall_map. cbn [snd].
    rewrite Forall_forall in *. intros e I. apply IH; [exact I|apply P, I].
  - apply printable_lst in P. cbn [node_val numbers]. apply Forall_flat, Forall_map.
    rewrite Forall_forall in *. intros e I. apply IH; [exact I|apply P, I].
Qed.
Lemma val_container ms n : container (node_val F mach ms n).
Proof. destruct n; exact I. Qed.

Lemma new_blocks_ok m new r : owns r = blocks_from (length m) (length new) -> owned_ok (m ++ map Some new) r.
Proof.
  intros O. unfold owned_ok, owned_blocks. rewrite O. unfold blocks_from. split.
  - apply Forall_map, Forall_forall. intros b I. apply in_seq in I. cbn [fst snd]. split; [reflexivity|].
    destruct (nth_error new (b - length m)) as [l|] eqn:X.
    + exists l. rewrite nth_error_app2 by lia. rewrite nth_error_map, X. reflexivity.
    + apply nth_error_None in X. lia.
  - rewrite map_map. cbn [fst]. rewrite map_id. apply seq_NoDup.
Qed.
Lemma detailed_round_trip parse ind pad eoe depth m src v :
  reads_json parse -> Forall white pad -> Forall white eoe ->
  nvalue m src = Ok v -> names_unique (nschema src) -> all_names json_name (nschema src) ->
  Forall layout_back (tleaves (nschema src)) -> Forall (value_back F) (tleaves v) ->
  exists text, node_json F mach true ind pad eoe m src depth = Ok text /\
    strict_json (node_val F mach m src) text /\
    forall m2 dest, owned_ok m2 dest -> tidy dest ->
      exists m3 r, nfrom_json F mach parse true m2 dest text = Ok (m3, r) /\
        nvalue m3 r = Ok (tmap (file_order mach) v) /\
        owned_ok m3 r /\ extends m2 m3 (owned_blocks dest).
Proof.
  intros Pa Wp We E U N Lb V. pose proof (printable_all m src v E N Lb V) as P.
  destruct (node_text F mach ind pad eoe m Wp We src P depth) as (t & Et & a & x & A & -> & Vx).
  exists (a ++ x). split; [exact Et|].
  assert (D : strict_json (node_val F mach m src) (a ++ x)).
  { exists a, a, x, x, [], []. rewrite app_nil_r. split; [apply blank_of, A|]. split; [exact Vx|]. split; [left; auto|auto]. }
  split; [exact D|]. intros m2 dest Ow Td. unfold nfrom_json, nreset.
  destruct (nfree_ok m2 dest Ow) as (m1 & E1 & Fr). rewrite E1. cbn [obind].
  rewrite (sanitize_doc false _ _ _ (val_container m src) D), (Pa _ _ D (val_modest m src P)). cbn [obind n_hdr].
  destruct (node_back m src v P U E (S (jdepth (node_val F mach m src))) (rel_hdr dest) ltac:(lia) (tidy_rel dest Td) m1)
    as (new & r & R & Vr & Or).
  rewrite R. exists (m1 ++ map Some new), r. split; [reflexivity|]. split; [exact Vr|]. split; [apply new_blocks_ok, Or|].
  destruct Fr as [L1 F1]. split; [rewrite app_length; lia|]. intros b Hb. rewrite nth_error_app1 by lia. apply F1.
Qed.
End Back.
