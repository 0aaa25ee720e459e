(** Messages between MPI ranks. *)
From Verif Require Import Base DType SpecTree Schema Codec Mem MemFacts Node SpecNode NodeFacts NodeCompact NodeSet NodeSerial
  NodeUpdate NodeUpdateLaws NodeMerge NodeAlloc SchemaInv Json JsonSpec JsonFacts JsonSchema Save SaveFacts B64Facts
  Contig ContigFacts Number NodeDiff ArrayOps ArrayOpsFacts HistRun Mpi.
Local Open Scope Z_scope.

(** * Specification *)
(** A schema whose leaves lie one after the other from offset 0 on, in order; empty leaves
    have no layout. *)
Definition packed (t : tree dtype) : Prop :=
  back_to_back 0 (tleaves t) /\ Forall (fun d => dt_id d = EMPTY -> d = dt_empty) (tleaves t).
(** What a message makes of a value: an object or a list without entries arrives as an
    empty leaf. *)
Fixpoint arrives (v : tree leafval) : tree leafval :=
  match v with
  | TLeaf lv => TLeaf lv
  | TObj [] => TLeaf None
  | TObj es => TObj (map (fun e => (fst e, arrives (snd e))) es)
  | TList [] => TLeaf None
  | TList l => TList (map arrives l)
  end.

(** * Layouts *)
Lemma leaf_compact_twice d o o' : leaf_compact (leaf_compact d o) o' = leaf_compact d o'.
Proof. unfold leaf_compact. destruct (is_empty d) eqn:E; [reflexivity|]. unfold is_empty in *. cbn [dt_id]. rewrite E. reflexivity. Qed.
Lemma ttotal_compact_leaf d o : ttotal (TLeaf (leaf_compact d o)) = ttotal (TLeaf d).
Proof.
  rewrite !ttotal_leaf. unfold leaf_compact. destruct (is_empty d) eqn:E; [|reflexivity].
  unfold is_empty in E. apply tid_eqb_eq in E. rewrite E. reflexivity.
Qed.
Lemma ttotal_compact t : forall o, ttotal (tcompact t o) = ttotal t.
Proof.
  induction t as [d|es IH|ts IH] using tree_ind''; intros o.
  - apply ttotal_compact_leaf.
  - rewrite tcompact_obj, !ttotal_tobj. revert o. induction IH as [|[k c] es Hc _ IHes]; intros o; [reflexivity|].
    cbn [cthread_es map snd fold_right fst] in *. rewrite Hc, IHes. reflexivity.
  - rewrite tcompact_lst, !ttotal_tlst. revert o. induction IH as [|c ts Hc _ IHes]; intros o; [reflexivity|].
    cbn [cthread_ts map fold_right]. rewrite Hc, IHes. reflexivity.
Qed.
Lemma tcompact_twice t : forall o o', tcompact (tcompact t o) o' = tcompact t o'.
Proof.
  induction t as [d|es IH|ts IH] using tree_ind''; intros o o'.
  - cbn [tcompact]. rewrite leaf_compact_twice. reflexivity.
  - rewrite !tcompact_obj. f_equal. revert o o'. induction IH as [|[k c] es Hc _ IHes]; intros o o'; [reflexivity|].
    cbn [cthread_es fst snd] in *. rewrite Hc, IHes, ttotal_compact. reflexivity.
  - rewrite !tcompact_lst. f_equal. revert o o'. induction IH as [|c ts Hc _ IHes]; intros o o'; [reflexivity|].
    cbn [cthread_ts]. rewrite Hc, IHes, ttotal_compact. reflexivity.
Qed.
Lemma back_app l1 : forall o l2, back_to_back o (l1 ++ l2) <-> back_to_back o l1 /\ back_to_back (o + total_of l1) l2.
Proof.
  induction l1 as [|d l1 IH]; intros o l2; cbn [app back_to_back total_of].
  - replace (o + 0) with o by lia. tauto.
  - rewrite IH. replace (o + (default_bytes (dt_id d) * dt_n d + total_of l1)) with (o + default_bytes (dt_id d) * dt_n d + total_of l1) by lia. tauto.
Qed.
Lemma packed_compact t : forall o, back_to_back o (tleaves t) -> Forall (fun d => dt_id d = EMPTY -> d = dt_empty) (tleaves t) ->
  tcompact t o = t.
Proof.
  induction t as [d|es IH|ts IH] using tree_ind''; intros o B E.
  - cbn [tcompact tleaves back_to_back] in *. f_equal. inversion_clear E as [|? ? E1 _]. unfold leaf_compact, is_empty.
    destruct (tid_eqb (dt_id d) EMPTY) eqn:X; [apply tid_eqb_eq in X; symmetry; auto|].
    destruct B as [B _]. destruct B as (B1 & B2 & B3); [intros Y; rewrite Y in X; discriminate|].
    destruct d as [i n of s e en]. cbn [dt_id dt_off dt_stride dt_ebytes dt_n dt_endian] in *. subst. reflexivity.
  - rewrite tcompact_obj. f_equal. cbn [tleaves] in *. revert o B E.
    induction IH as [|[k c] es Hc _ IHes]; intros o B E; [reflexivity|]. cbn [cthread_es flat_map snd fst] in *.
    apply back_app in B. destruct B as [B1 B2]. apply Forall_app in E. destruct E as [E1 E2].
    rewrite (Hc o B1 E1). f_equal. apply IHes; assumption.
  - rewrite tcompact_lst. f_equal. cbn [tleaves] in *. revert o B E.
    induction IH as [|c es Hc _ IHes]; intros o B E; [reflexivity|]. cbn [cthread_ts flat_map] in *.
    apply back_app in B. destruct B as [B1 B2]. apply Forall_app in E. destruct E as [E1 E2].
    rewrite (Hc o B1 E1). f_equal. apply IHes; assumption.
Qed.

(** * Updating a packed copy of a node from the node writes it out *)
Lemma leaf_write_take m h d data o own : is_empty d = false -> is_data (dt_id d) = true ->
  leaf_take m (mkH data own) (leaf_compact d o) h d = leaf_write m h d (opadd data o).
Proof.
  intros E D. unfold leaf_take, leaf_compact, leaf_write. rewrite E. cbn [dt_ebytes dt_stride dt_n].
  unfold elem0 at 1. cbn [h_data]. unfold eaddr at 1. cbn [dt_off dt_stride]. rewrite Z.mul_0_r, Z.add_0_r.
  destruct (dt_id d); try discriminate D; reflexivity.
Qed.
Lemma mset_same_val {V} (l : list (str * V)) k v : mget l k = Some v -> mset l k v = l.
Proof.
  induction l as [|[k0 v0] l IH]; intros H; [discriminate|]. cbn [mget mset] in *.
  destruct (str_eqb_spec k k0) as [->|N]; [congruence|]. rewrite IH by exact H. reflexivity.
Qed.
Lemma nupdate_writes src : forall m data o own, names_unique (nschema src) -> Forall leaf_like (tleaves (nschema src)) ->
  let dest := walk (tcompact (nschema src) o) data own in
  nupdate m dest src = do m' <- nwrite m src data o; Ok (m', dest).
Proof.
  induction src as [h d|h es IH|h ks IH] using node_ind'; intros m data o own U K dest; subst dest.
  - cbn [nschema tcompact walk]. cbn [nupdate]. cbn [nschema tleaves] in K. inversion_clear K as [|? ? K1 _].
    destruct (is_empty d) eqn:E.
    + cbn [nwrite]. unfold leaf_write. unfold is_empty in E. apply tid_eqb_eq in E. rewrite E. reflexivity.
    + assert (D : is_data (dt_id d) = true).
      { unfold leaf_like in K1. unfold is_empty in E. destruct (dt_id d); try discriminate; reflexivity. }
      assert (T : takes (leaf_compact d o) d = true).
      { unfold takes, leaf_compact. rewrite E. cbn [dt_id dt_n]. rewrite tid_eqb_refl. cbn. lia. }
      rewrite T, leaf_write_take by assumption. reflexivity.
  - cbn [nschema] in *. rewrite tcompact_obj. cbn [walk]. rewrite nwrite_obj.
    inversion U as [|es' Nd Us|]; subst. rewrite map_map in Nd. cbn [fst] in Nd. cbn [tleaves] in K.
    set (wk := fun e : str * tree dtype => (fst e, walk (snd e) data false)).
    assert (G : forall l pre m o, NoDup (map fst pre ++ map fst l) -> Forall (fun e => names_unique (nschema (snd e))) l ->
      Forall leaf_like (flat_map (fun e => tleaves (nschema (snd e))) l) ->
      Forall (fun e => forall m data o own, names_unique (nschema (snd e)) -> Forall leaf_like (tleaves (nschema (snd e))) ->
        let dest := walk (tcompact (nschema (snd e)) o) data own in
        nupdate m dest (snd e) = do m' <- nwrite m (snd e) data o; Ok (m', dest)) l ->
      let des := pre ++ map wk (cthread_es (map (fun e => (fst e, nschema (snd e))) l) o) in
      nup_es m des l = do m' <- nwrite_es m l data o; Ok (m', des)).
    { clear. induction l as [|[k c] l IHl]; intros pre m o Nd Us K IH; [reflexivity|]. cbn zeta in *.
      cbn [map fst snd cthread_es nup_es nwrite_es flat_map] in *. apply Forall_app in K. destruct K as [K1 K2].
      inversion_clear Us as [|? ? U1 U2]. inversion_clear IH as [|? ? I1 I2]. cbn [snd] in *.
      set (rest := map wk (cthread_es (map (fun e => (fst e, nschema (snd e))) l) (o + ttotal (nschema c)))) in *.
      assert (Gk : mget (pre ++ wk (k, tcompact (nschema c) o) :: rest) k = Some (walk (tcompact (nschema c) o) data false)).
      { clear - Nd. induction pre as [|[k0 c0] pre IHp]; cbn [app mget wk fst snd map] in *.
        - rewrite str_eqb_refl. reflexivity.
        - inversion_clear Nd as [|? ? N1 N2]. destruct (str_eqb_spec k k0) as [->|]; [|apply IHp, N2].
          destruct N1. apply in_app_iff. right. left. reflexivity. }
      unfold child_or_new. rewrite Gk, I1 by assumption. destruct (nwrite m c data o) as [m'| | |]; cbn [obind]; try reflexivity.
      rewrite (mset_same_val _ _ _ Gk).
      specialize (IHl (pre ++ [wk (k, tcompact (nschema c) o)]) m' (o + ttotal (nschema c))).
      rewrite <- !app_assoc in IHl. cbn [app] in IHl. apply IHl; auto. rewrite map_app. cbn [map wk fst]. rewrite <- app_assoc. exact Nd. }
    specialize (G es [] m o). cbn [app map] in G. rewrite flat_map_concat_map, map_map, <- flat_map_concat_map in K.
    cbn [snd] in K. assert (G' := G Nd). clear G.
    assert (Us' : Forall (fun e => names_unique (nschema (snd e))) es).
    { apply Forall_forall. intros e I. rewrite Forall_forall in Us. apply (Us (fst e, nschema (snd e))). apply in_map_iff. exists e. auto. }
    specialize (G' Us' K IH). destruct es as [|e0 es0]; [reflexivity|].
    rewrite nup_obj. cbn [as_obj obind]. rewrite G'. destruct (nwrite_es _ _ _ _); reflexivity.
  - cbn [nschema] in *. rewrite tcompact_lst. cbn [walk]. rewrite nwrite_lst, nup_lst.
    inversion U as [| |ks' Us]; subst. cbn [tleaves] in K.
    assert (G : forall l m o, Forall (fun e => names_unique (nschema e)) l ->
      Forall leaf_like (flat_map (fun e => tleaves (nschema e)) l) ->
      Forall (fun e => forall m data o own, names_unique (nschema e) -> Forall leaf_like (tleaves (nschema e)) ->
        let dest := walk (tcompact (nschema e) o) data own in
        nupdate m dest e = do m' <- nwrite m e data o; Ok (m', dest)) l ->
      let des := map (fun c => walk c data false) (cthread_ts (map nschema l) o) in
      nup_ks m des l = do m' <- nwrite_ks m l data o; Ok (m', des)).
    { clear. induction l as [|c l IHl]; intros m o Us K IH; [reflexivity|]. cbn zeta in *.
      cbn [map cthread_ts nup_ks nwrite_ks flat_map] in *. apply Forall_app in K. destruct K as [K1 K2].
      inversion_clear Us as [|? ? U1 U2]. inversion_clear IH as [|? ? I1 I2].
      rewrite I1 by assumption. destruct (nwrite m c data o) as [m'| | |]; cbn [obind]; try reflexivity.
      rewrite IHl by assumption. destruct (nwrite_ks _ _ _ _); reflexivity. }
    rewrite flat_map_concat_map, map_map, <- flat_map_concat_map in K.
    rewrite (G ks m o).
    + destruct (nwrite_ks _ _ _ _); reflexivity.
    + apply Forall_forall. intros e I. rewrite Forall_forall in Us. apply Us, in_map, I.
    + exact K.
    + exact IH.
Qed.

(** * A JSON text is a C string *)
Definition plain (s : str) : Prop := Forall (fun c => c <> zero_byte) s.
Lemma plain_app a b : plain (a ++ b) <-> plain a /\ plain b.
Proof. apply Forall_app. Qed.
Lemma plain_cons c b : plain (c :: b) <-> c <> zero_byte /\ plain b.
Proof. apply Forall_cons_iff. Qed.
Lemma plain_nil : plain [].
Proof. constructor. Qed.
Lemma white_plain c : white c -> c <> zero_byte.
Proof. intros H. cbn in H. repeat (destruct H as [<-|H]; [discriminate|]). destruct H. Qed.
Lemma blank_plain t u : blank_text false t u -> plain t.
Proof.
  induction 1 as [|c t u W _ IH|b' t u E]; [constructor| |discriminate].
  constructor; [apply white_plain, W|exact IH].
Qed.
Lemma after_plain t u : blank_after false t u -> plain t.
Proof.
  intros [[-> _]|(c & t' & u' & -> & _ & W & B)]; [constructor|]. constructor; [apply white_plain, W|eapply blank_plain, B].
Qed.
Lemma digit_plain c : digit c -> c <> zero_byte.
Proof.
  intros H. unfold digit in H. cbn [L list_ascii_of_string In] in H. repeat (destruct H as [<-|H]; [discriminate|]). destruct H.
Qed.
Lemma digits_plain t : digits t -> plain t.
Proof. intros [_ H]. eapply Forall_impl; [|exact H]. exact digit_plain. Qed.
Lemma number_plain t : number t -> plain t.
Proof.
  intros (s & i & f & e & -> & S & I & _ & F & E). rewrite !plain_app. split; [|split; [|split]].
  - destruct S as [->| ->]; [constructor|constructor; [discriminate|constructor]].
  - apply digits_plain, I.
  - destruct F as [->|(d & -> & D)]; [constructor|]. constructor; [discriminate|apply digits_plain, D].
  - destruct E as [->|(c & g & d & -> & C & G & D)]; [constructor|]. constructor.
    + cbn in C. destruct C as [<-|[<-|[]]]; discriminate.
    + apply Forall_app. split; [|apply digits_plain, D].
      cbn in G. destruct G as [<-|[<-|[<-|[]]]]; repeat constructor; discriminate.
Qed.
Lemma literal_plain r s : literal r s -> plain r.
Proof.
  induction 1 as [|c r s _ _ C _ IH|c x r s E _ IH]; [constructor| |].
  - constructor; [|exact IH]. intros ->. cbn in C. lia.
  - constructor; [discriminate|]. constructor; [|exact IH]. unfold escaped in E. cbn in E.
    repeat (destruct E as [E|E]; [injection E as <- _; discriminate|]). destruct E.
Qed.
Lemma name_plain k t u : name_text false k t u -> plain t.
Proof.
  intros N. inversion N as [t' (r & -> & Lt & _)|E]; try discriminate.
  constructor; [discriminate|]. apply plain_app. split; [eapply literal_plain, Lt|]. constructor; [discriminate|constructor].
Qed.
Lemma json_plain :
  (forall v t u, value_text false v t u -> plain t) /\
  (forall l t u, items_text false l t u -> plain t) /\
  (forall l t u, members_text false l t u -> plain t).
Proof.
  apply (json_text_ind false (fun _ t _ _ => plain t) (fun _ t _ _ => plain t) (fun _ t _ _ => plain t)); intros;
    repeat first [rewrite plain_app | rewrite plain_cons | apply conj | discriminate | exact plain_nil
      | assumption
      | eapply number_plain; eassumption | eapply name_plain; eassumption | eapply blank_plain; eassumption | eapply after_plain; eassumption].
  all: repeat constructor; discriminate.
Qed.
Lemma strict_plain v t : strict_json v t -> plain t.
Proof.
  intros (a & a' & x & y & b & b' & A & X & B & -> & _). rewrite !plain_app.
  split; [eapply blank_plain, A|]. split; [eapply (proj1 json_plain), X|eapply after_plain, B].
Qed.
Lemma until_nul_plain t r : plain t -> until_nul (t ++ zero_byte :: r) = Ok t.
Proof.
  induction 1 as [|c t C _ IH]; [reflexivity|]. cbn [app until_nul].
  destruct (Ascii.eqb_spec c zero_byte) as [E|_]; [contradiction|]. rewrite IH. reflexivity.
Qed.
Lemma schema_text_plain mach t : counts t -> Forall leaf_like (tleaves t) -> names_unique t -> all_names json_name t ->
  ttotal t < 2 ^ 63 -> plain (to_json mach (schema_of_tree (tcompact t 0))).
Proof.
  intros C K U N T. pose proof (tcompact_placed t 0 C) as Pl.
  destruct (schema_of_tree_ok (tcompact t 0)) as [W A].
  { eapply same_tree_unique; eauto. }
  { apply compact_like; assumption. }
  eapply strict_plain. apply (schema_doc mach 2 (L " ") [c_nl] (schema_of_tree (tcompact t 0)) 0).
  - repeat constructor.
  - constructor; [right; left; reflexivity|constructor].
  - exact W.
  - rewrite A. split; [eapply same_tree_names; eauto|apply compact_json; assumption].
Qed.

(** * Sending *)
Lemma store_at m l o bs : 0 <= o -> o + Z.of_nat (length bs) <= Z.of_nat (length l) ->
  store (m ++ [Some l]) (length m, o) bs = Ok (m ++ [Some (put_range l (Z.to_nat o) bs)]).
Proof.
  intros H1 H2. unfold store. destruct bs as [|c bs].
  - unfold put_range. cbn [length app]. rewrite Nat.add_0_r, firstn_skipn. reflexivity.
  - cbn [fst snd]. rewrite nth_error_app2, Nat.sub_diag by lia. cbn [nth_error].
    replace ((0 <=? o) && (o + Z.of_nat (length (c :: bs)) <=? Z.of_nat (length l))) with true by lia.
    rewrite set_nth_end. reflexivity.
Qed.
Lemma put_range_len l o (bs : list byte) : (o + length bs <= length l)%nat -> length (put_range l o bs) = length l.
Proof. intros H. unfold put_range. rewrite !app_length, firstn_length, skipn_length. lia. Qed.
(** the last block of a memory *)
Lemma same_list {A} (l : list A) : forall l', (forall i, nth_error l i = nth_error l' i) -> l = l'.
Proof.
  induction l as [|x l IH]; intros [|y l'] H; [reflexivity|discriminate (H O)|discriminate (H O)|].
  pose proof (H O) as E. injection E as ->. f_equal. apply IH. intros i. exact (H (S i)).
Qed.
Lemma last_block (m m' : mem) (l : list byte) : length m' = S (length m) -> (forall b, (b < length m)%nat -> nth_error m' b = nth_error m b) ->
  nth_error m' (length m) = Some (Some l) -> m' = m ++ [Some l].
Proof.
  intros L F N. apply same_list. intros i.
  destruct (Nat.lt_ge_cases i (length m)) as [X|X].
  - rewrite nth_error_app1 by exact X. apply F, X.
  - rewrite nth_error_app2 by exact X. destruct (Nat.eq_dec i (length m)) as [->|Y].
    + rewrite Nat.sub_diag. exact N.
    + rewrite (proj2 (nth_error_None m' i)) by lia. symmetry. apply nth_error_None. cbn. lia.
Qed.
Lemma load_whole (m : mem) b (l : list byte) : nth_error m b = Some (Some l) -> load m (b, 0) (Z.of_nat (length l)) = Ok l.
Proof.
  intros E. unfold load. destruct (Z.of_nat (length l) =? 0) eqn:X.
  - destruct l; [reflexivity|simpl in X; lia].
  - cbn [fst snd]. rewrite E. replace ((0 <=? 0) && (0 <=? Z.of_nat (length l)) && (0 + Z.of_nat (length l) <=? Z.of_nat (length l))) with true by lia.
    unfold sub_range. cbn [skipn Z.to_nat]. rewrite Nat2Z.id, firstn_all. reflexivity.
Qed.
(** writing into the rest of the last block *)
Lemma write_tail m src v pre rest : nvalue m src = Ok v -> Z.of_nat (length rest) = ttotal (nschema src) ->
  nwrite (m ++ [Some (pre ++ rest)]) src (Some (length m, 0)) (Z.of_nat (length pre)) = Ok (m ++ [Some (pre ++ vbytes v)]).
Proof.
  intros E Lr. set (m1 := m ++ [Some (pre ++ rest)]). set (o := Z.of_nat (length pre)).
  assert (B1 : nth_error m1 (length m) = Some (Some (pre ++ rest))) by (unfold m1; rewrite nth_error_app2, Nat.sub_diag by lia; reflexivity).
  assert (Tlt : forall q, touches src q -> (fst q < length m)%nat).
  { intros q T. apply rd_lt. eapply nvalue_readable; eauto. }
  assert (Old : forall q, (fst q < length m)%nat -> rd m1 q = rd m q).
  { intros q Hq. unfold rd, m1. rewrite nth_error_app1 by exact Hq. reflexivity. }
  destruct (nwrite_ok src m1 v (Some (length m, 0)) o) as (m2 & E2 & Sh & F & V).
  { apply (nvalue_frame src m m1 v E). intros q T. apply Old, Tlt, T. }
  { intros j Hj. eexists. split; [reflexivity|]. unfold rd. cbn [padd fst snd]. rewrite B1. replace (0 + j <? 0) with false by lia.
    rewrite nth_error_Some, app_length. lia. }
  { intros q T (p & j & Ep & Hj & ->). injection Ep as <-. specialize (Tlt _ T). cbn [padd fst] in Tlt. lia. }
  rewrite E2. f_equal.
  assert (W : nvalue m2 (walk (tcompact (nschema src) o) (Some (length m, 0)) true) = Ok v) by (apply V; reflexivity).
  apply value_bytes in W.
  assert (B2 : exists l, nth_error m2 (length m) = Some (Some l) /\ length l = length (pre ++ rest)).
  { destruct Sh as [_ H]. specialize (H (length m)). rewrite B1 in H. destruct (nth_error m2 (length m)) as [[l|]|]; try tauto.
    exists l. split; [reflexivity|congruence]. }
  destruct B2 as (l & B2 & Ll).
  assert (Hp : load m2 (length m, 0) o = Ok pre).
  { unfold o. destruct (load_ok m2 (length m, 0) (Z.of_nat (length pre))) as (z & Ez & Lz & Vz); [lia|..].
    - intros j Hj. unfold rd. cbn [padd fst snd]. rewrite B2. replace (0 + j <? 0) with false by lia. rewrite nth_error_Some, Ll, app_length. lia.
    - rewrite Ez. f_equal. apply list_ext; [lia|]. intros i Hi. specialize (Vz (Z.of_nat i) ltac:(lia)). rewrite Nat2Z.id in Vz.
      rewrite Vz, F.
      + unfold rd. cbn [padd fst snd]. rewrite B1. replace (0 + Z.of_nat i <? 0) with false by lia.
        replace (Z.to_nat (0 + Z.of_nat i)) with i by lia. apply nth_error_app1. lia.
      + intros (p & j & Ep & Hj & X). injection Ep as <-. unfold padd in X. cbn [fst snd] in X. injection X as X. lia. }
  assert (Ew := load_concat _ _ _ _ _ _ Hp W).
  assert (El := load_whole _ _ _ B2). rewrite Ll, app_length, Nat2Z.inj_add, Lr in El. fold o in El. rewrite El in Ew. injection Ew as ->.
  apply last_block; [|intros b Hb|exact B2].
  - destruct Sh as [L _]. rewrite L. unfold m1. rewrite app_length. cbn. lia.
  - rewrite (same_block m1 m2 b Sh).
    + unfold m1. apply nth_error_app1, Hb.
    + intros q Hq. apply F. intros (p & j & Ep & Hj & X). injection Ep as <-. subst q. cbn [padd fst] in Hq. lia.
Qed.

(** what a message is made of *)
Definition message (mach : endian) (text : str) (data : list byte) : list byte :=
  encode mach INT64 (Z.of_nat (length text)) ++ text ++ [zero_byte] ++ data.
Lemma message_length mach text data : Z.of_nat (length (message mach text data)) = 8 + (Z.of_nat (length text) + 1) + Z.of_nat (length data).
Proof. unfold message. rewrite !app_length, encode_length. cbn [length]. change (Z.to_nat (default_bytes INT64)) with 8%nat. lia. Qed.

Lemma skipn_twice {A} (l : list A) : forall a b, skipn a (skipn b l) = skipn (b + a) l.
Proof. induction l as [|x l IH]; intros a [|b]; cbn [skipn Nat.add]; auto. apply skipn_nil. Qed.
Lemma put_put (l a b : list byte) : (length a + length b <= length l)%nat ->
  put_range (put_range l 0 a) (length a) b = (a ++ b) ++ skipn (length a + length b) l.
Proof.
  intros H. unfold put_range. cbn [firstn app Nat.add]. rewrite firstn_app, firstn_all, Nat.sub_diag. cbn [firstn]. rewrite app_nil_r.
  rewrite <- app_assoc. f_equal. f_equal. rewrite skipn_app. rewrite (skipn_all2 a) by lia. cbn [app]. rewrite skipn_twice.
  f_equal. lia.
Qed.

Lemma fill_message_ok mach base m src v : nvalue m src = Ok v -> names_unique (nschema src) ->
  sent_schema base src = tcompact (nschema src) 0 ->
  let text := sent_text mach base src in
  exists es, let t := TObj es in
    fill_message mach base m src = Ok (m ++ [Some (message mach text (vbytes v))], walk t (Some (length m, 0)) true) /\
    ttotal t = Z.of_nat (length (message mach text (vbytes v))).
Proof.
  intros V U S text. pose proof (nvalue_leaf_like src m v V) as K. pose proof (nvalue_leaves src m v V) as C.
  set (n := Z.of_nat (length text)). set (o := 8 + (n + 1)). set (tot := ttotal (nschema src)).
  assert (Tn : 0 <= tot) by (apply total_of_nonneg, C).
  assert (Lv : Z.of_nat (length (vbytes v)) = tot) by (apply (vbytes_length m src v V)).
  set (tm := tcompact (msg_schema text (sent_schema base src)) 0).
  assert (Ptm : tm = tcompact (msg_schema text (nschema src)) 0).
  { unfold tm. rewrite S. unfold msg_schema. rewrite !tcompact_obj. cbn [cthread_es fst snd]. rewrite tcompact_twice. reflexivity. }
  assert (Etm : tm = TObj [(L "schema_len", TLeaf (mkDT INT64 1 0 8 8 DEFAULT_E));
     (L "schema", TLeaf (mkDT CHAR8_STR (n + 1) 8 1 1 DEFAULT_E)); (L "data", tcompact (nschema src) o)]).
  { rewrite Ptm. unfold msg_schema. rewrite tcompact_obj. cbn [cthread_es fst snd]. rewrite !ttotal_leaf.
    unfold dt_simple. cbn [dt_id dt_n default_bytes]. unfold o. fold n.
    replace (0 + 8 * 1 + 1 * (n + 1)) with (8 + (n + 1)) by lia. reflexivity. }
  assert (Tt : ttotal tm = o + tot).
  { rewrite Etm, ttotal_tobj. cbn [map fold_right snd]. rewrite !ttotal_leaf, ttotal_compact. cbn [dt_id dt_n default_bytes]. fold tot. unfold o. lia. }
  assert (Ts : tspanned tm = o + tot).
  { rewrite <- Tt, Ptm, compact_span, ttotal_compact; [reflexivity|].
    unfold msg_schema, counts. cbn [tleaves flat_map snd app]. constructor; [left; cbn; lia|]. constructor; [left; cbn; lia|].
    rewrite app_nil_r. exact C. }
  eexists. cbv zeta. rewrite <- Etm. split; [|rewrite Tt, message_length; fold n; unfold o; lia].
  unfold fill_message. fold text. fold tm. unfold nset_schema. change (nfree m nempty) with (Ok m). cbn [obind].
  unfold nalloc. rewrite Ts. rewrite alloc_ok by lia. cbn [obind h_data h_own].
  rewrite Etm. cbn [walk map fst snd]. unfold nset_bytes at 1. unfold ninit. cbn [n_dtype].
  change (dt_compatible (mkDT INT64 1 0 8 8 DEFAULT_E) (dt_simple INT64 1)) with true. cbn [obind].
  set (zs := repeat zero_byte (Z.to_nat (o + tot))). set (e8 := encode mach INT64 n).
  assert (L8 : length e8 = 8%nat) by (unfold e8; rewrite encode_length; reflexivity).
  assert (Lz : Z.of_nat (length zs) = o + tot) by (unfold zs; rewrite repeat_length; unfold o in *; lia).
  change (elem0 (mkH (Some (length m, 0)) false) (mkDT INT64 1 0 8 8 DEFAULT_E)) with (Some (length m, 0)). cbn [ostore].
  fold n. fold e8. rewrite store_at by (rewrite ?L8; unfold o in *; lia). cbn [obind Z.to_nat].
  unfold nset_bytes at 1. unfold ninit. cbn [n_dtype].
  replace (dt_compatible (mkDT CHAR8_STR (n + 1) 8 1 1 DEFAULT_E) (dt_simple CHAR8_STR (n + 1))) with true
    by (unfold dt_compatible, dt_simple; cbn [dt_id dt_ebytes dt_n default_bytes tid_eqb]; cbn; symmetry; apply Z.geb_le; lia).
  cbn [obind].
  change (elem0 (mkH (Some (length m, 0)) false) (mkDT CHAR8_STR (n + 1) 8 1 1 DEFAULT_E)) with (Some (length m, 8)). cbn [ostore].
  assert (Ltx : @length byte (@app byte text [zero_byte]) = Z.to_nat (n + 1)) by (unfold byte; rewrite app_length; cbn [length]; unfold n; lia).
  set (tx := @app byte text [zero_byte]) in *. change (@app ascii text [zero_byte]) with tx. assert (Lx : Z.of_nat (length tx) = n + 1) by (unfold n in *; lia).
  rewrite store_at; [|lia|rewrite put_range_len; unfold o in *; lia]. cbn [obind].
  change (Z.to_nat 8) with 8%nat. rewrite <- L8 at 1. rewrite put_put by (unfold o in *; lia).
  rewrite nupdate_writes by assumption.
  assert (Lp : Z.of_nat (@length byte (@app byte e8 tx)) = o) by (rewrite app_length; unfold o; lia).
  rewrite <- Lp. rewrite (write_tail m src v); [|exact V|rewrite skipn_length; fold tot; unfold o in *; lia].
  cbn [obind]. replace (message mach text (vbytes v)) with ((e8 ++ tx) ++ vbytes v); [reflexivity|].
  unfold message, tx. fold n. fold e8. unfold byte in *. rewrite <- !app_assoc. reflexivity.
Qed.
Lemma to_int_id z : 0 <= z < 2 ^ 31 -> to_int z = z.
Proof. intros H. apply wrap_s_id; [lia|]. change (32 - 1) with 31. lia. Qed.
Lemma send_ok mach base m src v : nvalue m src = Ok v -> names_unique (nschema src) ->
  sent_schema base src = tcompact (nschema src) 0 ->
  Z.of_nat (length (message mach (sent_text mach base src) (vbytes v))) < 2 ^ 31 ->
  send_using_schema mach base m src = Ok (m ++ [None], message mach (sent_text mach base src) (vbytes v)).
Proof.
  intros V U S B. destruct (fill_message_ok mach base m src v V U S) as (es & E & T). set (t := TObj es) in *.
  set (bs := message mach (sent_text mach base src) (vbytes v)) in *.
  unfold send_using_schema. rewrite E. cbn [obind]. rewrite nschema_walk, T. unfold mpi_count. rewrite to_int_id by lia.
  replace (Z.of_nat (length bs) <? 0) with false by lia. cbn [obind].
  replace (h_data (n_hdr (walk t (Some (length m, 0)) true))) with (Some (length m, 0)) by (destruct t; reflexivity). cbn [oload].
  rewrite (load_whole _ _ bs) by (rewrite nth_error_app2, Nat.sub_diag by lia; reflexivity). cbn [obind].
  rewrite nfree_all, owns_walk. unfold t. cbn [free_all]. unfold free. cbn [fst snd].
  rewrite nth_error_app2, Nat.sub_diag by lia. cbn [nth_error Z.eqb obind]. rewrite set_nth_end. reflexivity.
Qed.

(** * Receiving *)
Lemma nvalue_unique n : forall m v, nvalue m n = Ok v -> names_unique (nschema n) -> names_unique v.
Proof.
  induction n as [h d|h es IH|h ks IH] using node_ind'; intros m v E U; cbn [nschema] in U.
  - apply nvalue_leaf in E. destruct E as (lv & -> & _). constructor.
  - apply nvalue_obj in E. destruct E as (vs & -> & E). inversion U as [|? Nd F|]; subst. constructor.
    + replace (map fst vs) with (map fst (map (fun e => (fst e, nschema (snd e))) es)); [exact Nd|]. rewrite map_map. cbn [fst]. clear -E. induction E as [|? ? ? ? [X _] _ I]; [reflexivity|]. cbn [map]. congruence.
    + clear -E F IH. induction E as [|[k c] [k' w] es vs [_ Hv] _ I]; [constructor|]. cbn [map] in F. inversion_clear F. inversion_clear IH.
      constructor; [cbn [snd] in *; eauto|auto].
  - apply nvalue_lst in E. destruct E as (vs & -> & E). inversion U as [| |? F]; subst. constructor.
    clear -E F IH. induction E as [|c w ks vs Hv _ I]; [constructor|]. cbn [map] in F. inversion_clear F. inversion_clear IH. constructor; eauto.
Qed.
Lemma live_app m l b : live m b -> live (m ++ [Some l]) b.
Proof. intros [x E]. exists x. rewrite nth_error_app1 by (apply nth_error_Some; congruence). exact E. Qed.
Lemma rd_app m l q : (fst q < length m)%nat -> rd (m ++ [Some l]) q = rd m q.
Proof. intros H. unfold rd. rewrite nth_error_app1 by exact H. reflexivity. Qed.
(** an update from a block that is there only for its duration *)
Lemma temp_update m dest dv l src sv :
  healthy m dest -> nvalue m dest = Ok dv -> nvalue (m ++ [Some l]) src = Ok sv -> names_unique sv -> no_clash dv sv ->
  (forall q, touches src q -> fst q = length m) ->
  exists m3 r m4, nupdate (m ++ [Some l]) dest src = Ok (m3, r) /\ free m3 (length m, 0) = Ok m4 /\
    nvalue m4 r = Ok (vupdate dv sv) /\ healthy m4 r /\ step m (touches dest) (ob dest) m4 (touches r) (ob r).
Proof.
  intros H Vd Vs U N T. apply healthy_good in H. set (m2 := m ++ [Some l]) in *.
  assert (L2 : length m2 = S (length m)) by (unfold m2; rewrite app_length; cbn; lia).
  assert (Td : forall q, touches dest q -> (fst q < length m)%nat) by (intros q X; apply rd_lt; eapply nvalue_readable; eauto).
  assert (Od : forall b, ob dest b -> (b < length m)%nat) by (intros b X; eapply live_lt, good_live; eauto).
  assert (H2 : good m2 dest) by (apply (good_keep m); [exact H|]; intros b _; apply live_app).
  destruct (nupdate_ok src m2 dest dv sv H2) as (m3 & r & E & V & G & St); auto.
  { apply (nvalue_frame dest m m2 dv Vd). intros q X. apply rd_app, Td, X. }
  { intros q X. apply T in X. split; [intros Y; apply Td in Y; lia|intros Y; apply Od in Y; lia]. }
  assert (Lv2 : live m2 (length m)) by (exists l; unfold m2; rewrite nth_error_app2, Nat.sub_diag by lia; reflexivity).
  assert (Lv3 : live m3 (length m)) by (apply (st_live _ _ _ _ _ _ St); [exact Lv2|intros Y; apply Od in Y; lia]).
  exists m3, r, (set_nth m3 (length m) None). split; [exact E|].
  destruct Lv3 as [l3 E3]. split; [unfold free; cbn [fst snd]; rewrite E3; reflexivity|].
  set (m4 := set_nth m3 (length m) None).
  assert (Tr : forall q, touches r q -> fst q <> length m).
  { intros q X Y. destruct (st_touch _ _ _ _ _ _ St q X) as [Z|Z]; [apply Td in Z|]; lia. }
  assert (Or : forall b, ob r b -> b <> length m).
  { intros q X Y. destruct (st_owned _ _ _ _ _ _ St q X) as [Z|Z]; [apply Od in Z|]; lia. }
  assert (O4 : forall b, b <> length m -> nth_error m4 b = nth_error m3 b) by (intros b X; apply nth_error_set_nth_other; auto).
  assert (R4 : forall q, fst q <> length m -> rd m4 q = rd m3 q) by (intros q X; unfold rd; rewrite O4 by exact X; reflexivity).
  assert (D4 : forall b, live m4 b -> b <> length m /\ live m3 b).
  { intros b [x X]. destruct (Nat.eq_dec b (length m)) as [->|Ne].
    - unfold m4 in X. rewrite nth_error_set_nth_same in X by (apply nth_error_Some; congruence). discriminate.
    - split; [exact Ne|]. exists x. rewrite <- O4 by exact Ne. exact X. }
  split; [apply (nvalue_frame r m3 m4 _ V); intros q X; apply R4, Tr, X|]. split.
  { apply healthy_good. apply (good_keep m3); [exact G|]. intros b X [y Y]. exists y. rewrite O4 by (apply Or, X). exact Y. }
  pose proof (st_len _ _ _ _ _ _ St) as Len. constructor.
  - unfold m4. rewrite length_set_nth. lia.
  - intros q X. destruct (st_touch _ _ _ _ _ _ St q X); [left; assumption|right; lia].
  - intros q X. destruct (st_owned _ _ _ _ _ _ St q X); [left; assumption|right; lia].
  - intros q X Y Z. rewrite R4 by lia. rewrite (st_frame _ _ _ _ _ _ St) by (auto; lia). apply rd_app, X.
  - intros b X Y. assert (b < length m)%nat by (apply live_lt, X). destruct (st_live _ _ _ _ _ _ St b (live_app m l b X) Y) as [x E']. exists x. rewrite O4 by lia. exact E'.
  - intros b X Y. apply D4 in Y. destruct Y as [_ Y]. apply (st_dead _ _ _ _ _ _ St) in Y; [|lia]. destruct Y as [x Y]. exists x.
    unfold m2 in Y. rewrite nth_error_app1 in Y by exact X. exact Y.
  - intros b X Y. apply D4 in X. destruct X as [X1 X2]. apply (st_leak _ _ _ _ _ _ St b X2). destruct Y as [Y|Y]; [left; exact Y|right; lia].
Qed.
Lemma recv_ok parse mach m0 src v m dest dv : reads_json parse -> mach <> DEFAULT_E ->
  nvalue m0 src = Ok v -> names_unique (nschema src) -> all_names json_name (nschema src) -> ttotal (nschema src) < 2 ^ 63 ->
  healthy m dest -> nvalue m dest = Ok dv -> no_clash dv (tmap (file_order mach) v) ->
  exists m' r, recv_using_schema parse m dest (message mach (to_json mach (schema_of_tree (tcompact (nschema src) 0))) (vbytes v)) = Ok (m', r) /\
    nvalue m' r = Ok (vupdate dv (tmap (file_order mach) v)) /\ healthy m' r /\ step m (touches dest) (ob dest) m' (touches r) (ob r).
Proof.
  intros P M V U N B H Vd Nc. pose proof (nvalue_leaf_like src m0 v V) as K. pose proof (nvalue_leaves src m0 v V) as C.
  set (text := to_json mach (schema_of_tree (tcompact (nschema src) 0))).
  assert (Tp : plain text) by (apply schema_text_plain; assumption).
  destruct (schema_back parse mach (nschema src) P M C K U N B) as (s & Es & Ss & Em). fold text in Es.
  set (bs := message mach text (vbytes v)). set (o := 8 + (Z.of_nat (length text) + 1)).
  assert (Lb : Z.of_nat (length bs) = o + ttotal (nschema src)) by (unfold bs, o; rewrite message_length, (vbytes_length m0 src v V); lia).
  assert (Ld : load (m ++ [Some bs]) (length m, o) (ttotal (nschema src)) = Ok (vbytes v)).
  { assert (Hb : load (m ++ [Some bs]) (length m, 0) (Z.of_nat (length bs)) = Ok bs)
      by (apply load_whole; rewrite nth_error_app2, Nat.sub_diag by apply Nat.le_refl; reflexivity).
    destruct (load_inv _ _ _ _ Hb) as (_ & _ & R & Vb). pose proof (ttotal_counts _ C) as Tn.
    destruct (load_ok (m ++ [Some bs]) (length m, o) (ttotal (nschema src))) as (z & Ez & Lz & Vz); [exact Tn|..].
    - intros j Hj. change (padd (length m, o) j) with (length m, o + j). apply (R (o + j)). unfold o in *. lia.
    - rewrite Ez. f_equal. apply list_ext; [pose proof (vbytes_length m0 src v V); lia|]. intros i Hi.
      specialize (Vz (Z.of_nat i) ltac:(lia)). rewrite Nat2Z.id in Vz. rewrite Vz.
      change (padd (length m, o) (Z.of_nat i)) with (padd (length m, 0) (o + Z.of_nat i)).
      rewrite <- Vb by (unfold o in *; lia). unfold bs, message.
      replace (Z.to_nat (o + Z.of_nat i)) with (length (encode mach INT64 (Z.of_nat (length text)) ++ text ++ [zero_byte]) + i)%nat.
      + rewrite !app_assoc. rewrite nth_error_app2 by (unfold byte, str; rewrite !app_length; lia). f_equal. unfold byte, str; rewrite !app_length; lia.
      + rewrite !app_length, encode_length. cbn [length]. change (Z.to_nat (default_bytes INT64)) with 8%nat. unfold o. lia. }
  assert (Vs : nvalue (m ++ [Some bs]) (walk (abs s) (Some (length m, o)) false) = Ok (tmap (file_order mach) v)).
  { eapply loaded_value; [exact Ss|]. eapply (bytes_value m0 src v _ _ false); eassumption. }
  unfold recv_using_schema. rewrite alloc_ok by lia. cbn [obind]. rewrite store_fresh by (rewrite repeat_length, Nat2Z.id; reflexivity). cbn [obind].
  unfold cstr. cbn [padd fst snd]. rewrite nth_error_app2, Nat.sub_diag by apply Nat.le_refl. cbn [nth_error].
  change (0 + 8 <? 0) with false. cbn [obind].
  replace (skipn (Z.to_nat (0 + 8)) bs) with (text ++ zero_byte :: vbytes v).
  2:{ unfold bs, message. rewrite skipn_app. rewrite (skipn_all2 (encode _ _ _)) by (rewrite encode_length; cbn; lia).
      rewrite encode_length. change (Z.to_nat (0 + 8) - Z.to_nat (default_bytes INT64))%nat with 0%nat. reflexivity. }
  rewrite until_nul_plain by exact Tp. cbn [obind]. rewrite Es. cbn [obind].
  match goal with |- context [nupdate _ _ ?w] => change w with (walk (abs s) (Some (length m, o)) false) end.
  destruct (temp_update m dest dv bs _ _ H Vd Vs) as (m3 & r & m4 & E1 & E2 & R); [|exact Nc| |].
  - apply nu_tmap. eapply nvalue_unique; eassumption.
  - intros q T. apply touches_walk in T. destruct T as (p & d & i & j & Ep & _ & _ & _ & ->). injection Ep as <-. reflexivity.
  - match goal with |- context [nupdate ?a ?b ?c] => replace (nupdate a b c) with (Ok (m3, r)) by (symmetry; exact E1) end.
    cbn [obind]. rewrite E2. cbn [obind]. exists m4, r. split; [reflexivity|exact R].
Qed.

(** * What arrives in an empty node *)
Lemma none_clash v : no_clash (TLeaf None) v.
Proof.
  induction v as [lv|es IH|ks IH] using tree_ind''; [constructor| |].
  - apply nc_obj; [discriminate|]. intros k c I. cbn [tentries mget]. rewrite Forall_forall in IH. exact (IH (k, c) I).
  - apply nc_list. intros i c E. rewrite Forall_forall in IH. apply IH. eapply nth_error_In; eauto.
Qed.
Lemma vup_es_fresh es : forall des, NoDup (map fst es) -> (forall k, In k (map fst es) -> mget des k = None) ->
  vup_es des es = des ++ map (fun e => (fst e, vupdate (TLeaf None) (snd e))) es.
Proof.
  induction es as [|[k c] es IH]; intros des Nd H; cbn [vup_es map fst snd]; [symmetry; apply app_nil_r|].
  cbn [map fst] in Nd. inversion_clear Nd as [|? ? Nk Nd']. rewrite (H k) by (left; reflexivity). rewrite IH; [|exact Nd'|].
  - rewrite HistFacts.mset_new by (apply H; left; reflexivity). rewrite <- app_assoc. reflexivity.
  - intros k' I. rewrite mget_mset. destruct (str_eqb_spec k' k) as [->|_]; [contradiction|]. apply H. right. exact I.
Qed.
Lemma vup_ts_fresh ss : vup_ts [] ss = map (vupdate (TLeaf None)) ss.
Proof. induction ss as [|c ss IH]; [reflexivity|]. cbn [vup_ts map]. f_equal. exact IH. Qed.
Lemma vupdate_none v : names_unique v -> vupdate (TLeaf None) v = arrives v.
Proof.
  induction v as [lv|es IH|ks IH] using tree_ind''; intros U.
  - destruct lv; reflexivity.
  - inversion U as [|? Nd F|]; subst. destruct es as [|e es]; [reflexivity|]. rewrite vup_obj. cbn [arrives tentries]. f_equal.
    rewrite vup_es_fresh by (auto; intros; reflexivity). cbn [app]. apply map_ext_in. intros x I. f_equal. rewrite Forall_forall in IH, F. apply IH; auto.
  - inversion U as [| |? F]; subst. destruct ks as [|e ks]; [reflexivity|]. rewrite vup_lst_new by exact I. cbn [arrives]. f_equal.
    rewrite vup_ts_fresh. apply map_ext_in. intros x J. rewrite Forall_forall in IH, F. apply IH; auto.
Qed.

(** * Raw messages *)
Lemma load_split m p a b bs : 0 <= a -> 0 <= b -> load m p (a + b) = Ok bs ->
  load m p a = Ok (firstn (Z.to_nat a) bs) /\ load m (padd p a) b = Ok (skipn (Z.to_nat a) bs).
Proof.
  intros Ha Hb E. destruct (load_inv _ _ _ _ E) as (_ & L & R & V).
  destruct (load_ok m p a) as (x & Ex & Lx & Vx); [exact Ha|intros j Hj; apply R; lia|].
  destruct (load_ok m (padd p a) b) as (y & Ey & Ly & Vy); [exact Hb|intros j Hj; rewrite padd_padd; apply R; lia|].
  pose proof (load_concat _ _ _ _ _ _ Ex Ey) as C. rewrite E in C. injection C as ->.
  rewrite Ex, Ey. split; f_equal.
  - rewrite firstn_app, <- Lx, firstn_all, Nat.sub_diag. cbn. rewrite app_nil_r. reflexivity.
  - rewrite <- Lx, skipn_app, skipn_all, Nat.sub_diag. reflexivity.
Qed.
Lemma leaf_of_bytes m p d bs : is_data (dt_id d) = true -> 0 <= dt_n d -> dt_stride d = default_bytes (dt_id d) ->
  load m (padd p (eaddr d 0)) (default_bytes (dt_id d) * dt_n d) = Ok bs ->
  exists es, leaf_value m (Some p) d = Ok (Some (dt_id d, dt_endian d, es)) /\ concat es = bs /\ length es = Z.to_nat (dt_n d).
Proof.
  intros T Hn St E. destruct (load_inv _ _ _ _ E) as (_ & L & R & V). pose proof (is_data_pos _ T) as Pos.
  assert (X : exists es, omapM (leaf_elem m (Some p) d) (zseq (dt_n d)) = Ok es).
  { assert (G : forall l, (forall i, In i l -> 0 <= i < dt_n d) -> exists es, omapM (leaf_elem m (Some p) d) l = Ok es).
    { induction l as [|i l IH]; intros H; [exists []; reflexivity|]. rewrite omapM_cons.
      unfold leaf_elem at 1. cbn [opadd option_map oload].
      destruct (load_ok m (padd p (eaddr d i)) (default_bytes (dt_id d))) as (x & Ex & _); [lia| |].
      - intros j Hj. rewrite padd_padd. replace (eaddr d i + j) with (eaddr d 0 + (default_bytes (dt_id d) * i + j)) by (unfold eaddr; rewrite St; lia).
        rewrite <- padd_padd. apply R. specialize (H i (or_introl eq_refl)). nia.
      - rewrite Ex. cbn [obind]. destruct IH as (es & Ees); [intros k I; apply H; right; exact I|]. rewrite Ees. eexists. reflexivity. }
    apply G. intros i I. apply in_zseq in I. exact I. }
  destruct X as (es & Ees). apply omapM_elems in Ees; [|exact Hn]. exists es.
  split; [apply leaf_value_data; assumption|]. pose proof (holds_dense m p d es T Hn (or_introl St) Ees) as Ld. rewrite E in Ld. injection Ld as ->.
  split; [reflexivity|apply Ees].
Qed.
(** the type, and the number of the elements, of a leaf *)
Definition lv_kind (lv : leafval) : option (tid * endian * nat) :=
  match lv with Some (t, en, es) => Some (t, en, length es) | None => None end.
(** all leaves with data lie in the block [b] *)
Definition in_block (n : node) (b : nat) : Prop := Forall (fun l => exists o, fst l = @Some ptr (b, o)) (data_leaves n).
Definition all_dense (n : node) : Prop := Forall (fun l => dense (snd l)) (data_leaves n).

Lemma run_load base b m n : forall v A B, nvalue m n = Ok v -> all_dense n -> in_block n b -> in_a_row base (data_leaves n) A B ->
  load m (b, A - base b) (ttotal (nschema n)) = Ok (vbytes v) /\ B = A + ttotal (nschema n).
Proof.
  induction n as [h d|h es IH|h ks IH] using node_ind'; intros v A B E D I R; unfold all_dense, in_block in *.
  - apply nvalue_leaf in E. destruct E as (lv & -> & E). rewrite vbytes_leaf. cbn [nschema]. rewrite ttotal_leaf.
    unfold data_leaves in *. cbn [nleaves filter snd] in *.
    destruct (leaf_value_inv _ _ _ _ E) as [[T ->]|(T & Hn & es & -> & Ho)].
    + unfold is_empty in *. rewrite T in *. cbn in R. subst B. cbn [leaf_bytes default_bytes]. split; [reflexivity|lia].
    + rewrite (is_data_empty _ T) in *. cbn [negb in_a_row] in R, D, I. destruct R as ((q & Eq & Aq) & <-).
      pose proof (Forall_inv D) as [D1 D2]. cbn [snd] in D1, D2. destruct (Forall_inv I) as (o & Io). cbn [fst] in Io. rewrite Io in *. injection Eq as <-. cbn [fst snd] in Aq.
      cbn [leaf_bytes]. pose proof (holds_dense m _ d es T Hn (or_introl D2) Ho) as Lo. split; [|rewrite D1, D2; lia].
      rewrite <- Lo. f_equal. unfold padd, eaddr. cbn [fst snd]. f_equal. lia.
  - apply nvalue_obj in E. destruct E as (vs & -> & E). rewrite vbytes_obj. cbn [nschema]. rewrite ttotal_tobj. rewrite data_leaves_obj in *.
    revert A B D I R. induction E as [|[k c] [k' w] es vs [_ Hv] _ IHes]; intros A B D I R; cbn [flat_map map fold_right fst snd] in *.
    + cbn in R. subst B. split; [reflexivity|lia].
    + apply Forall_app in D, I. destruct D as [D1 D2], I as [I1 I2]. apply row_app in R. destruct R as (x & R1 & R2).
      inversion_clear IH as [|? ? H1 H2]. cbn [snd] in H1. destruct (H1 w A x Hv D1 I1 R1) as [L1 ->].
      destruct (IHes H2 _ B D2 I2 R2) as [L2 ->]. split; [|lia].
      apply (load_concat _ _ _ _ _ _ L1). unfold padd. cbn [fst snd]. replace (A - base b + ttotal (nschema c)) with (A + ttotal (nschema c) - base b) by lia. exact L2.
  - apply nvalue_lst in E. destruct E as (vs & -> & E). rewrite vbytes_lst. cbn [nschema]. rewrite ttotal_tlst. rewrite data_leaves_lst in *.
    revert A B D I R. induction E as [|c w es vs Hv _ IHes]; intros A B D I R; cbn [flat_map map fold_right] in *.
    + cbn in R. subst B. split; [reflexivity|lia].
    + apply Forall_app in D, I. destruct D as [D1 D2], I as [I1 I2]. apply row_app in R. destruct R as (x & R1 & R2).
      inversion_clear IH as [|? ? H1 H2]. destruct (H1 w A x Hv D1 I1 R1) as [L1 ->].
      destruct (IHes H2 _ B D2 I2 R2) as [L2 ->]. split; [|lia].
      apply (load_concat _ _ _ _ _ _ L1). unfold padd. cbn [fst snd]. replace (A - base b + ttotal (nschema c)) with (A + ttotal (nschema c) - base b) by lia. exact L2.
Qed.
(** the other way: a node whose bytes are given *)
Lemma run_value base b m n : forall A B bs, counts (nschema n) -> Forall leaf_like (tleaves (nschema n)) ->
  all_dense n -> in_block n b -> in_a_row base (data_leaves n) A B ->
  load m (b, A - base b) (ttotal (nschema n)) = Ok bs ->
  exists v, nvalue m n = Ok v /\ vbytes v = bs /\ tmap lv_kind v = tmap (fun d => lv_kind (leaf_zero d)) (nschema n) /\ B = A + ttotal (nschema n).
Proof.
  induction n as [h d|h es IH|h ks IH] using node_ind'; intros A B bs C K D I R E; unfold all_dense, in_block, counts in *; cbn [nschema] in *.
  - cbn [tleaves] in C, K. inversion_clear C as [|? ? C1 _]. inversion_clear K as [|? ? K1 _]. rewrite ttotal_leaf in *. cbn [nvalue tmap].
    unfold data_leaves in *. cbn [nleaves filter snd] in *. destruct (tid_eqb (dt_id d) EMPTY) eqn:T.
    + apply tid_eqb_eq in T. unfold is_empty in *. rewrite T in *. cbn in R. subst B. rewrite leaf_value_empty by exact T. cbn [obind].
      cbn in E. injection E as <-. exists (TLeaf None). split; [reflexivity|]. split; [reflexivity|]. split; [|cbn; lia].
      cbn [tmap]. unfold leaf_zero. rewrite T. reflexivity.
    + assert (T' : is_data (dt_id d) = true). { unfold leaf_like in K1. destruct (dt_id d); try reflexivity; discriminate. }
      assert (Hn : 0 <= dt_n d) by (destruct C1 as [X|X]; [exact X|rewrite X in T; discriminate]).
      rewrite (is_data_empty _ T') in *. cbn [negb in_a_row] in R, D, I. destruct R as ((q & Eq & Aq) & <-).
      pose proof (Forall_inv D) as [D1 D2]. cbn [snd] in D1, D2. destruct (Forall_inv I) as (o & Io). cbn [fst] in Io. rewrite Io in Eq |- *. injection Eq as <-. cbn [fst snd] in Aq.
      destruct (leaf_of_bytes m (b, o) d bs T' Hn D2) as (es & Ev & Ec & Le).
      { rewrite <- E. f_equal. unfold padd, eaddr. cbn [fst snd]. f_equal. lia. }
      rewrite Ev. cbn [obind]. eexists. split; [reflexivity|]. rewrite vbytes_leaf. split; [exact Ec|]. split; [|rewrite D1, D2; lia].
      cbn [tmap lv_kind]. unfold leaf_zero. pose proof T' as T2. destruct (dt_id d) eqn:Ti; try discriminate T2; cbn [lv_kind]; rewrite repeat_length, Le; reflexivity.
  - cbn [tleaves tmap] in *. rewrite ttotal_tobj in *. rewrite data_leaves_obj in *.
    assert (X : exists vs, Forall2 (fun e w => fst w = fst e /\ nvalue m (snd e) = Ok (snd w)) es vs /\ flat_map (fun e => vbytes (snd e)) vs = bs /\
      map (fun e => (fst e, tmap lv_kind (snd e))) vs = map (fun e => (fst e, tmap (fun d => lv_kind (leaf_zero d)) (snd e))) (map (fun e => (fst e, nschema (snd e))) es) /\
      B = A + fold_right Z.add 0 (map (fun e => ttotal (snd e)) (map (fun e => (fst e, nschema (snd e))) es))).
    { revert A B bs C K D I R E. induction es as [|[k c] es IHes]; intros A B bs C K D I R E; cbn [flat_map map fold_right fst snd] in *.
      - cbn in R. subst B. cbn in E. injection E as <-. exists []. split; [constructor|]. split; [reflexivity|]. split; [reflexivity|lia].
      - apply Forall_app in D, I, C, K. destruct D as [D1 D2], I as [I1 I2], C as [C1 C2], K as [K1 K2]. apply row_app in R. destruct R as (x & R1 & R2).
        inversion_clear IH as [|? ? H1 H2]. cbn [snd] in H1.
        apply load_split in E; [|apply ttotal_counts, C1|rewrite <- ttotal_tobj; apply ttotal_counts; exact C2]. destruct E as [E1 E2].
        destruct (H1 A x _ C1 K1 D1 I1 R1 E1) as (w & V1 & B1 & T1 & ->).
        destruct (IHes H2 _ B (skipn (Z.to_nat (ttotal (nschema c))) bs) C2 K2 D2 I2 R2) as (ws & V2 & B2 & T2 & ->).
        { rewrite <- E2. f_equal. unfold padd. cbn [fst snd]. f_equal. lia. }
        exists ((k, w) :: ws). split; [constructor; [split; [reflexivity|exact V1]|exact V2]|]. cbn [flat_map map fst snd].
        split; [rewrite B1, B2; apply firstn_skipn|]. split; [congruence|lia]. }
    destruct X as (vs & F & Eb & Ek & EB). exists (TObj vs). split; [apply nvalue_obj; exists vs; split; [reflexivity|exact F]|].
    rewrite vbytes_obj. split; [exact Eb|]. split; [cbn [tmap]; f_equal; exact Ek|exact EB].
  - cbn [tleaves tmap] in *. rewrite ttotal_tlst in *. rewrite data_leaves_lst in *.
    assert (X : exists vs, Forall2 (fun e w => nvalue m e = Ok w) ks vs /\ flat_map vbytes vs = bs /\
      map (tmap lv_kind) vs = map (tmap (fun d => lv_kind (leaf_zero d))) (map nschema ks) /\
      B = A + fold_right Z.add 0 (map ttotal (map nschema ks))).
    { revert A B bs C K D I R E. induction ks as [|c es IHes]; intros A B bs C K D I R E; cbn [flat_map map fold_right] in *.
      - cbn in R. subst B. cbn in E. injection E as <-. exists []. split; [constructor|]. split; [reflexivity|]. split; [reflexivity|lia].
      - apply Forall_app in D, I, C, K. destruct D as [D1 D2], I as [I1 I2], C as [C1 C2], K as [K1 K2]. apply row_app in R. destruct R as (x & R1 & R2).
        inversion_clear IH as [|? ? H1 H2].
        apply load_split in E; [|apply ttotal_counts, C1|rewrite <- ttotal_tlst; apply ttotal_counts; exact C2]. destruct E as [E1 E2].
        destruct (H1 A x _ C1 K1 D1 I1 R1 E1) as (w & V1 & B1 & T1 & ->).
        destruct (IHes H2 _ B (skipn (Z.to_nat (ttotal (nschema c))) bs) C2 K2 D2 I2 R2) as (ws & V2 & B2 & T2 & ->).
        { rewrite <- E2. f_equal. unfold padd. cbn [fst snd]. f_equal. lia. }
        exists (w :: ws). split; [constructor; assumption|]. cbn [flat_map map].
        split; [rewrite B1, B2; apply firstn_skipn|]. split; [congruence|lia]. }
    destruct X as (vs & F & Eb & Ek & EB). exists (TList vs). split; [apply nvalue_lst; exists vs; split; [reflexivity|exact F]|].
    rewrite vbytes_lst. split; [exact Eb|]. split; [cbn [tmap]; f_equal; exact Ek|exact EB].
Qed.

Lemma write_nothing m src v : nvalue m src = Ok v -> ttotal (nschema src) = 0 -> nwrite m src None 0 = Ok m.
Proof.
  intros E T. destruct (nwrite_ok src m v None 0 E) as (m2 & E2 & Sh & F & _).
  - intros j Hj. lia.
  - intros q _ (p & j & X & _). discriminate.
  - rewrite E2. f_equal. apply same_list. intros b. apply (same_block m m2 b Sh). intros q _. apply F. intros (p & j & X & _). discriminate.
Qed.
Lemma compact_copy m src v : nvalue m src = Ok v ->
  ncompact_to m src nempty =
    if 0 <? ttotal (nschema src) then Ok (m ++ [Some (vbytes v)], walk (tcompact (nschema src) 0) (Some (length m, 0)) true)
    else Ok (m, walk (tcompact (nschema src) 0) None false).
Proof.
  intros E. pose proof (ttotal_nonneg src m v E) as N. unfold ncompact_to. change (nreset m nempty) with (@Ok (mem * node) (m, nempty)). cbn [obind].
  destruct (Z.ltb_spec 0 (ttotal (nschema src))) as [H|H].
  - unfold nalloc. rewrite alloc_ok by lia. cbn [obind h_data h_own].
    pose proof (write_tail m src v [] (repeat zero_byte (Z.to_nat (ttotal (nschema src)))) E ltac:(rewrite repeat_length; lia)) as W.
    cbn [app length] in W. change (Z.of_nat 0) with 0 in W.
    match goal with |- context [nwrite ?a ?b ?c ?d] => replace (nwrite a b c d) with (Ok (m ++ [Some (vbytes v)])) by (symmetry; exact W) end. reflexivity.
  - cbn [obind]. change (h_data (n_hdr nempty)) with (@None ptr). change (h_own (n_hdr nempty)) with false. rewrite (write_nothing m src v E) by lia. reflexivity.
Qed.
Lemma whole_owner t p : 0 < ttotal t -> owns (walk (tcompact t 0) (Some p) true) = [p].
Proof.
  intros H. rewrite owns_walk. destruct t as [d|es|ts]; cbn [tcompact]; try reflexivity.
  unfold leaf_compact. destruct (is_empty d) eqn:E.
  - exfalso. unfold is_empty in E. apply tid_eqb_eq in E. rewrite ttotal_leaf, E in H. cbn in H. lia.
  - unfold is_empty in *. cbn [dt_id]. rewrite E. reflexivity.
Qed.
Lemma free_last m l : free (m ++ [Some l]) (length m, 0) = Ok (m ++ [None]).
Proof. unfold free. cbn [fst snd]. rewrite nth_error_app2, Nat.sub_diag by apply Nat.le_refl. cbn [nth_error Z.eqb]. rewrite set_nth_end. reflexivity. Qed.
Lemma direct_run base n p : direct_ptr base n = Some p -> all_dense n -> in_block n (fst p) ->
  exists A B, in_a_row base (data_leaves n) A B /\ p = (fst p, A - base (fst p)).
Proof.
  intros E D I. unfold direct_ptr in E. destruct (tis_compact (nschema n)); [|discriminate].
  assert (N : data_leaves n <> []).
  { intros X. unfold contiguous_data_ptr in E. rewrite (first_data_none n X) in E. destruct (is_contiguous base n); discriminate. }
  destruct (contiguous_data_ptr_law base n N) as [H1 H2]. destruct (is_contiguous base n) eqn:C; [|rewrite H2 in E by reflexivity; discriminate].
  destruct (H1 eq_refl) as (p' & E' & B & R). rewrite E in E'. injection E' as <-.
  exists (base (fst p) + snd p), B. split; [exact R|]. destruct p as [b o]. cbn [fst snd]. f_equal. lia.
Qed.
Definition one_run (base : nat -> Z) (n : node) : Prop := forall p, direct_ptr base n = Some p -> all_dense n /\ in_block n (fst p).
Lemma send_raw_ok base m n v : nvalue m n = Ok v -> ttotal (nschema n) < 2 ^ 31 -> one_run base n ->
  exists m', send_raw base m n = Ok (m', vbytes v) /\ (m' = m \/ m' = m ++ [None]).
Proof.
  intros E T O. pose proof (ttotal_nonneg n m v E) as N. unfold send_raw, mpi_count. rewrite to_int_id by lia.
  replace (ttotal (nschema n) <? 0) with false by lia. cbn [obind]. destruct (direct_ptr base n) as [p|] eqn:P.
  - destruct (O p P) as [D I]. destruct (direct_run base n p P D I) as (A & B & R & Ep).
    destruct (run_load base (fst p) m n v A B E D I R) as [Ld _]. rewrite <- Ep in Ld. rewrite Ld. cbn [obind]. eauto.
  - rewrite (compact_copy m n v E). destruct (Z.ltb_spec 0 (ttotal (nschema n))) as [H|H]; cbn [obind].
    + replace (h_data (n_hdr (walk (tcompact (nschema n) 0) (Some (length m, 0)) true))) with (Some (length m, 0)) by (destruct (nschema n); reflexivity).
      cbn [oload]. rewrite <- (vbytes_length m n v E). rewrite (load_whole _ _ (vbytes v)) by (rewrite nth_error_app2, Nat.sub_diag by apply Nat.le_refl; reflexivity).
      cbn [obind]. rewrite nfree_all, whole_owner by exact H. cbn [free_all]. rewrite free_last. cbn [obind]. eauto.
    + replace (h_data (n_hdr (walk (tcompact (nschema n) 0) None false))) with (@None ptr) by (destruct (nschema n); reflexivity).
      replace (ttotal (nschema n)) with 0 by lia. cbn [oload Z.eqb obind]. rewrite nfree_all, owns_walk_false.
      assert (V0 : vbytes v = []) by (pose proof (vbytes_length m n v E); destruct (vbytes v); [reflexivity|cbn in *; lia]). rewrite V0.
      cbn [free_all obind]. eauto.
Qed.

(** receiving *)
Lemma lv_kind_overwrite a b : lv_kind a = lv_kind b -> b <> None -> fits_into a b = true /\ lv_overwrite a b = b.
Proof.
  destruct a as [[[t en] es]|], b as [[[t' en'] es']|]; cbn [lv_kind]; try discriminate; [|congruence]. intros H _. injection H as -> -> L.
  cbn [fits_into lv_overwrite]. rewrite tid_eqb_refl, L, Nat.leb_refl. split; [reflexivity|]. rewrite <- L, skipn_all, app_nil_r. reflexivity.
Qed.
Lemma vup_es_like ses : forall pre des, map fst des = map fst ses -> NoDup (map fst (pre ++ ses)) ->
  Forall2 (fun d s => vupdate (snd d) (snd s) = snd s) des ses -> vup_es (pre ++ des) ses = pre ++ ses.
Proof.
  induction ses as [|[k c] ses IH]; intros pre des En Nd F; inversion F as [|[k' d'] ? des' ? F1 F2]; subst; [reflexivity|]. cbn [map fst snd] in *. injection En as -> En.
  cbn [vup_es].
  assert (Np : ~ In k (map fst pre)).
  { rewrite map_app in Nd. cbn [map fst] in Nd. apply NoDup_remove_2 in Nd. intros X. apply Nd. apply in_or_app. left. exact X. }
  assert (G : mget (pre ++ (k, d') :: des') k = Some d').
  { clear -Np. induction pre as [|[k0 x] pre IHp]; cbn [app mget]; [rewrite str_eqb_refl; reflexivity|]. cbn [map fst] in Np.
    destruct (str_eqb_spec k k0) as [->|_]; [exfalso; apply Np; left; reflexivity|]. apply IHp. intros X. apply Np. right. exact X. }
  rewrite G, F1.
  assert (Ms : mset (pre ++ (k, d') :: des') k c = pre ++ (k, c) :: des').
  { clear -Np. induction pre as [|[k0 x] pre IHp]; cbn [app mset]; [rewrite str_eqb_refl; reflexivity|]. cbn [map fst] in Np.
    destruct (str_eqb_spec k k0) as [->|_]; [exfalso; apply Np; left; reflexivity|]. f_equal. apply IHp. intros X. apply Np. right. exact X. }
  rewrite Ms. replace (pre ++ (k, c) :: des') with ((pre ++ [(k, c)]) ++ des') by (rewrite <- app_assoc; reflexivity).
  replace (pre ++ (k, c) :: ses) with ((pre ++ [(k, c)]) ++ ses) by (rewrite <- app_assoc; reflexivity).
  apply IH; [exact En| |exact F2]. rewrite <- app_assoc. exact Nd.
Qed.
Lemma vup_ts_like ss : forall ds, Forall2 (fun d s => vupdate d s = s) ds ss -> vup_ts ds ss = ss.
Proof. induction ss as [|c ss IH]; intros ds F; inversion F; subst; [reflexivity|]. cbn [vup_ts]. f_equal; auto. Qed.
Lemma like_update s : forall d, tmap lv_kind d = tmap lv_kind s -> names_unique s -> vupdate d s = s /\ no_clash d s.
Proof.
  induction s as [lv|es IH|ks IH] using tree_ind''; intros d Ek U; destruct d as [dl|des|ds]; try discriminate; cbn [tmap] in Ek; injection Ek as Ek.
  - split; [|constructor]. destruct lv as [x|].
    + destruct (lv_kind_overwrite dl (Some x) Ek ltac:(discriminate)) as [A B]. cbn [vupdate]. rewrite A, B. reflexivity.
    + destruct dl as [[[? ?] ?]|]; [discriminate|]. reflexivity.
  - inversion U as [|? Nd F|]; subst.
    assert (En : map fst des = map fst es) by (apply (f_equal (map fst)) in Ek; rewrite !map_map in Ek; exact Ek).
    assert (X : Forall2 (fun d s => fst d = fst s /\ vupdate (snd d) (snd s) = snd s /\ no_clash (snd d) (snd s)) des es).
    { clear Nd U En. revert des Ek. induction es as [|e es IHes]; intros [|d des] Ek; try discriminate; [constructor|]. cbn [map] in Ek. injection Ek as K0 K1 K2.
      inversion_clear IH as [|? ? H1 H2]. inversion_clear F as [|? ? F1 F2]. constructor; [split; [exact K0|apply H1; assumption]|apply IHes; assumption]. }
    split.
    + destruct es as [|e es]; [inversion X; subst; reflexivity|]. rewrite vup_obj. cbn [tentries]. f_equal.
      apply (vup_es_like (e :: es) [] des En Nd). clear -X. induction X as [|? ? ? ? (_ & H & _) _ IHx]; constructor; auto.
    + apply nc_obj; [discriminate|]. intros k c I. cbn [tentries]. destruct (mget des k) as [dk|] eqn:G.
      * clear -X G I Nd. induction X as [|[k1 d1] [k2 s2] des es (A & _ & C) _ IHx]; [destruct I|]. cbn [fst snd map mget] in *. subst k2. inversion_clear Nd as [|? ? Nk Nd'].
        destruct I as [I|I].
        -- injection I as <- <-. rewrite str_eqb_refl in G. injection G as <-. exact C.
        -- destruct (str_eqb_spec k k1) as [->|_]; [exfalso; apply Nk; apply (in_map fst _ (k1, c) I)|]. auto.
      * exfalso. apply mget_None_notin in G. apply G. rewrite En. apply (in_map fst _ (k, c) I).
  - inversion U as [| |? F]; subst.
    assert (X : Forall2 (fun d s => vupdate d s = s /\ no_clash d s) ds ks).
    { clear U. revert ds Ek. induction ks as [|e es IHes]; intros [|d des] Ek; try discriminate; [constructor|]. cbn [map] in Ek. injection Ek as K1 K2.
      inversion_clear IH as [|? ? H1 H2]. inversion_clear F as [|? ? F1 F2]. constructor; [apply H1; assumption|apply IHes; assumption]. }
    split.
    + rewrite vup_lst. f_equal. apply vup_ts_like. clear -X. induction X as [|? ? ? ? (H & _) _ IHx]; constructor; auto.
    + apply nc_list. intros i c E. revert ds Ek X i E. clear. induction ks as [|e es IHes]; intros ds Ek X i E; [destruct i; discriminate|].
      inversion X as [|? ? ? ? (_ & C) X2]; subst. destruct i as [|i]; cbn [nth_error] in *; [injection E as ->; exact C|].
      cbn [map] in Ek. injection Ek as _ Ek. apply (IHes _ Ek X2 i E).
Qed.
Lemma run_touch base b n : forall A B, counts (nschema n) -> Forall leaf_like (tleaves (nschema n)) ->
  all_dense n -> in_block n b -> in_a_row base (data_leaves n) A B ->
  B = A + ttotal (nschema n) /\ forall j, 0 <= j < ttotal (nschema n) -> touches n (b, A - base b + j).
Proof.
  induction n as [h d|h es IH|h ks IH] using node_ind'; intros A B C K D I R; unfold all_dense, in_block, counts in *; cbn [nschema] in *.
  - cbn [tleaves] in C, K. inversion_clear C as [|? ? C1 _]. inversion_clear K as [|? ? K1 _]. rewrite ttotal_leaf in *.
    unfold data_leaves in *. cbn [nleaves filter snd] in *. destruct (tid_eqb (dt_id d) EMPTY) eqn:T.
    + apply tid_eqb_eq in T. unfold is_empty in *. rewrite T in *. cbn in R. subst B. cbn [default_bytes]. split; [lia|]. intros j Hj. lia.
    + assert (T' : is_data (dt_id d) = true). { unfold leaf_like in K1. destruct (dt_id d); try reflexivity; discriminate. }
      pose proof (is_data_pos _ T') as Pos.
      rewrite (is_data_empty _ T') in *. cbn [negb in_a_row] in R, D, I. destruct R as ((q & Eq & Aq) & <-).
      pose proof (Forall_inv D) as [D1 D2]. cbn [snd] in D1, D2. destruct (Forall_inv I) as (o & Io). cbn [fst] in Io. rewrite Io in Eq. injection Eq as <-. cbn [fst snd] in Aq.
      split; [rewrite D1, D2; lia|]. intros j Hj. apply touches_leaf. exists (b, o), (j / default_bytes (dt_id d)), (j mod default_bytes (dt_id d)).
      cbn [fst snd]. split; [exact Io|]. pose proof (Z.mod_pos_bound j (default_bytes (dt_id d)) ltac:(lia)) as Mb. pose proof (Z.div_mod j (default_bytes (dt_id d)) ltac:(lia)) as Dm.
      split; [split; [apply Z.div_pos; lia|apply Z.div_lt_upper_bound; lia]|]. split; [exact Mb|].
      unfold padd, eaddr. cbn [fst snd]. f_equal. rewrite D2. lia.
  - cbn [tleaves] in *. rewrite ttotal_tobj in *. rewrite data_leaves_obj in *.
    enough (X : B = A + fold_right Z.add 0 (map (fun e => ttotal (snd e)) (map (fun e => (fst e, nschema (snd e))) es)) /\
      forall j, 0 <= j < fold_right Z.add 0 (map (fun e => ttotal (snd e)) (map (fun e => (fst e, nschema (snd e))) es)) -> exists k c, In (k, c) es /\ touches c (b, A - base b + j)).
    { destruct X as [X1 X2]. split; [exact X1|]. intros j Hj. apply touches_obj. apply X2, Hj. }
    revert A B C K D I R. induction es as [|[k c] es IHes]; intros A B C K D I R; cbn [flat_map map fold_right fst snd] in *.
    + cbn in R. subst B. split; [lia|]. intros j Hj. lia.
    + apply Forall_app in D, I, C, K. destruct D as [D1 D2], I as [I1 I2], C as [C1 C2], K as [K1 K2]. apply row_app in R. destruct R as (x & R1 & R2).
      inversion_clear IH as [|? ? H1 H2]. cbn [snd] in H1. destruct (H1 A x C1 K1 D1 I1 R1) as [-> T1].
      destruct (IHes H2 _ B C2 K2 D2 I2 R2) as [-> T2]. split; [lia|]. intros j Hj.
      destruct (Z.lt_ge_cases j (ttotal (nschema c))) as [Lt|Ge]; [exists k, c; split; [left; reflexivity|apply T1; lia]|].
      destruct (T2 (j - ttotal (nschema c)) ltac:(lia)) as (k' & c' & In' & T'). exists k', c'. split; [right; exact In'|].
      replace (A - base b + j) with (A + ttotal (nschema c) - base b + (j - ttotal (nschema c))) by lia. exact T'.
  - cbn [tleaves] in *. rewrite ttotal_tlst in *. rewrite data_leaves_lst in *.
    enough (X : B = A + fold_right Z.add 0 (map ttotal (map nschema ks)) /\
      forall j, 0 <= j < fold_right Z.add 0 (map ttotal (map nschema ks)) -> exists c, In c ks /\ touches c (b, A - base b + j)).
    { destruct X as [X1 X2]. split; [exact X1|]. intros j Hj. apply touches_lst. apply X2, Hj. }
    revert A B C K D I R. induction ks as [|c es IHes]; intros A B C K D I R; cbn [flat_map map fold_right] in *.
    + cbn in R. subst B. split; [lia|]. intros j Hj. lia.
    + apply Forall_app in D, I, C, K. destruct D as [D1 D2], I as [I1 I2], C as [C1 C2], K as [K1 K2]. apply row_app in R. destruct R as (x & R1 & R2).
      inversion_clear IH as [|? ? H1 H2]. destruct (H1 A x C1 K1 D1 I1 R1) as [-> T1].
      destruct (IHes H2 _ B C2 K2 D2 I2 R2) as [-> T2]. split; [lia|]. intros j Hj.
      destruct (Z.lt_ge_cases j (ttotal (nschema c))) as [Lt|Ge]; [exists c; split; [left; reflexivity|apply T1; lia]|].
      destruct (T2 (j - ttotal (nschema c)) ltac:(lia)) as (c' & In' & T'). exists c'. split; [right; exact In'|].
      replace (A - base b + j) with (A + ttotal (nschema c) - base b + (j - ttotal (nschema c))) by lia. exact T'.
Qed.
Lemma value_kinds n : forall m v, nvalue m n = Ok v -> tmap lv_kind v = tmap (fun d => lv_kind (leaf_zero d)) (nschema n).
Proof.
  induction n as [h d|h es IH|h ks IH] using node_ind'; intros m v E; cbn [nschema].
  - apply nvalue_leaf in E. destruct E as (lv & -> & E). cbn [tmap]. f_equal.
    destruct (leaf_value_inv _ _ _ _ E) as [[T ->]|(T & Hn & es & -> & Ho)]; unfold leaf_zero.
    + rewrite T. reflexivity.
    + destruct Ho as [Le _]. destruct (dt_id d); try discriminate T; cbn [lv_kind]; rewrite repeat_length, Le; reflexivity.
  - apply nvalue_obj in E. destruct E as (vs & -> & E). cbn [tmap]. f_equal. induction E as [|[k c] [k' w] es vs [Ek Hv] _ IHes]; [reflexivity|].
    inversion_clear IH as [|? ? H1 H2]. cbn [map fst snd] in *. subst k'. f_equal; [f_equal; eapply H1; exact Hv|apply IHes; exact H2].
  - apply nvalue_lst in E. destruct E as (vs & -> & E). cbn [tmap]. f_equal. induction E as [|c w es vs Hv _ IHes]; [reflexivity|].
    inversion_clear IH as [|? ? H1 H2]. cbn [map] in *. f_equal; [eapply H1; exact Hv|apply IHes; exact H2].
Qed.
Lemma compact_kinds t : forall o, tmap (fun d => lv_kind (leaf_zero d)) (tcompact t o) = tmap (fun d => lv_kind (leaf_zero d)) t.
Proof.
  induction t as [d|es IH|ts IH] using tree_ind''; intros o.
  - cbn [tcompact tmap]. f_equal. unfold leaf_compact. destruct (is_empty d) eqn:E.
    + unfold is_empty in E. apply tid_eqb_eq in E. unfold leaf_zero. rewrite E. reflexivity.
    + unfold leaf_zero. cbn [dt_id dt_endian dt_n]. reflexivity.
  - rewrite tcompact_obj. cbn [tmap]. f_equal. revert o. induction IH as [|[k c] es Hc _ IHes]; intros o; [reflexivity|].
    cbn [cthread_es map fst snd] in *. rewrite Hc, IHes. reflexivity.
  - rewrite tcompact_lst. cbn [tmap]. f_equal. revert o. induction IH as [|c es Hc _ IHes]; intros o; [reflexivity|].
    cbn [cthread_ts map] in *. rewrite Hc, IHes. reflexivity.
Qed.
Lemma compact_tiles t : forall o, back_to_back o (tleaves (tcompact t o)).
Proof.
  induction t as [d|es IH|ts IH] using tree_ind''; intros o.
  - cbn [tcompact tleaves back_to_back]. split; [|exact I]. unfold leaf_compact. destruct (is_empty d) eqn:E; [intros X; exfalso; apply X; reflexivity|].
    intros _. cbn [dt_off dt_stride dt_ebytes dt_id]. auto.
  - rewrite tcompact_obj. cbn [tleaves]. revert o. induction IH as [|[k c] es Hc _ IHes]; intros o; cbn [cthread_es flat_map fst snd] in *; [exact I|].
    apply back_app. split; [apply Hc|]. change (total_of (tleaves (tcompact c o))) with (ttotal (tcompact c o)). rewrite ttotal_compact. apply IHes.
  - rewrite tcompact_lst. cbn [tleaves]. revert o. induction IH as [|c es Hc _ IHes]; intros o; cbn [cthread_ts flat_map] in *; [exact I|].
    apply back_app. split; [apply Hc|]. change (total_of (tleaves (tcompact c o))) with (ttotal (tcompact c o)). rewrite ttotal_compact. apply IHes.
Qed.
Lemma compact_counts t : counts t -> Forall leaf_like (tleaves t) -> counts (tcompact t 0).
Proof.
  intros C K. apply Forall_forall. intros d I. destruct (compact_in t C K d I) as (d0 & o & _ & -> & _ & B & _). unfold leaf_compact.
  destruct (is_empty d0) eqn:E; [right; reflexivity|exact B].
Qed.
(** the value of the buffer of a message *)
Lemma buffer_value (m : mem) t bs : counts t -> Forall leaf_like (tleaves t) -> Z.of_nat (length bs) = ttotal t ->
  exists w, nvalue (m ++ [Some bs]) (walk (tcompact t 0) (Some (length m, 0)) true) = Ok w /\ vbytes w = bs /\
    tmap lv_kind w = tmap (fun d => lv_kind (leaf_zero d)) t.
Proof.
  intros C K Lb. set (k := walk (tcompact t 0) (Some (length m, 0)) true).
  destruct (compact_contiguous_law (fun _ => 0) (tcompact t 0) (length m, 0) true (compact_tiles t 0)) as (_ & R & D). fold k in R, D.
  edestruct (run_value (fun _ => 0) (length m) (m ++ [Some bs]) k) as (w & V & B & Kd & _); [..|exact R| |].
  - unfold k. rewrite nschema_walk. apply compact_counts; assumption.
  - unfold k. rewrite nschema_walk. apply compact_like; assumption.
  - exact D.
  - unfold in_block, k, data_leaves. rewrite nleaves_walk. apply Forall_forall. intros l I. apply filter_In in I. destruct I as [I _].
    apply in_map_iff in I. destruct I as (d & <- & _). exists 0. reflexivity.
  - unfold k. rewrite nschema_walk, ttotal_compact, <- Lb. change (addr (fun _ => 0) (length m, 0) - 0) with 0.
    apply load_whole. rewrite nth_error_app2, Nat.sub_diag by apply Nat.le_refl. reflexivity.
  - exists w. split; [exact V|]. split; [exact B|]. rewrite Kd. unfold k. rewrite nschema_walk. apply compact_kinds.
Qed.
Lemma stored_load m p bs m' : store m p bs = Ok m' -> readable m p (Z.of_nat (length bs)) -> load m' p (Z.of_nat (length bs)) = Ok bs.
Proof.
  intros E R. pose proof (store_same_shape _ _ _ _ E) as Sh.
  destruct (load_ok m' p (Z.of_nat (length bs))) as (x & Ex & Lx & Vx); [lia|intros j Hj; apply (same_shape_rd m m' _ Sh); apply R; exact Hj|].
  rewrite Ex. f_equal. apply list_ext; [lia|]. intros i Hi. specialize (Vx (Z.of_nat i) ltac:(lia)). rewrite Nat2Z.id in Vx.
  rewrite Vx, (rd_store _ _ _ _ _ E). unfold padd. cbn [fst snd]. rewrite Nat.eqb_refl.
  replace (true && (snd p <=? snd p + Z.of_nat i) && (snd p + Z.of_nat i <? snd p + Z.of_nat (length bs))) with true by lia.
  f_equal. lia.
Qed.
(** what a receive leaves: the bytes of the message, the types and counts as before *)
Definition filled_with (m : mem) (dest : node) (dv : tree leafval) (bs : list byte) (m' : mem) (r : node) : Prop :=
  (exists v, nvalue m' r = Ok v /\ vbytes v = bs /\ tmap lv_kind v = tmap lv_kind dv) /\
  healthy m' r /\ step m (touches dest) (ob dest) m' (touches r) (ob r).
Lemma fill_direct base m dest dv bs p : healthy m dest -> nvalue m dest = Ok dv -> Z.of_nat (length bs) = ttotal (nschema dest) ->
  direct_ptr base dest = Some p -> all_dense dest -> in_block dest (fst p) ->
  exists m', store m p bs = Ok m' /\ filled_with m dest dv bs m' dest.
Proof.
  intros H Vd Lb P D I. pose proof (nvalue_leaf_like dest m dv Vd) as K. pose proof (nvalue_leaves dest m dv Vd) as C.
  destruct (direct_run base dest p P D I) as (A & B & R & Ep).
  destruct (run_load base (fst p) m dest dv A B Vd D I R) as [Ld _]. rewrite <- Ep in Ld.
  destruct (run_touch base (fst p) dest A B C K D I R) as [_ T].
  destruct (load_inv _ _ _ _ Ld) as (_ & _ & Rd & _).
  destruct (store_ok m p bs) as (m' & E); [intros j Hj; apply Rd; lia|]. exists m'. split; [exact E|].
  pose proof (store_same_shape _ _ _ _ E) as Sh.
  assert (Ld' : load m' p (ttotal (nschema dest)) = Ok bs) by (rewrite <- Lb; apply (stored_load m); [exact E|intros j Hj; apply Rd; lia]).
  rewrite Ep in Ld'. destruct (run_value base (fst p) m' dest A B bs C K D I R Ld') as (v & V & Vb & Kv & _).
  assert (Lv : forall b, live m b <-> live m' b).
  { intros b. destruct Sh as [_ Sb]. specialize (Sb b). unfold live. destruct (nth_error m b) as [[x|]|], (nth_error m' b) as [[y|]|]; try tauto; split; intros [z Z]; try discriminate; eauto. }
  apply healthy_good in H. split; [exists v; split; [exact V|split; [exact Vb|rewrite Kv; symmetry; eapply value_kinds; exact Vd]]|]. split.
  - apply healthy_good. apply (good_keep m); [exact H|]. intros b _ X. apply Lv, X.
  - constructor.
    + destruct Sh as [L _]. lia.
    + auto.
    + auto.
    + intros q _ _ Nt. rewrite (rd_store _ _ _ _ q E).
      destruct ((fst q =? fst p)%nat && (snd p <=? snd q) && (snd q <? snd p + Z.of_nat (length bs))) eqn:X; [|reflexivity].
      exfalso. apply Nt. assert (fst q = fst p) by lia. destruct q as [qb qo]. cbn [fst snd] in *. subst qb.
      assert (snd p = A - base (fst p)) by (rewrite Ep; reflexivity).
      replace qo with (A - base (fst p) + (qo - snd p)) by lia. apply T. lia.
    + intros b X _. apply Lv, X.
    + intros b _ X. apply Lv, X.
    + intros b X [Y|Y]; [exact Y|]. apply Lv in X. apply live_lt in X. lia.
Qed.
Lemma fill_buffered m dest dv bs : healthy m dest -> nvalue m dest = Ok dv -> names_unique (nschema dest) ->
  Z.of_nat (length bs) = ttotal (nschema dest) -> 0 < ttotal (nschema dest) ->
  let k := walk (tcompact (nschema dest) 0) (Some (length m, 0)) true in
  exists m3 r m4, nupdate (m ++ [Some bs]) dest k = Ok (m3, r) /\ nfree m3 k = Ok m4 /\ filled_with m dest dv bs m4 r.
Proof.
  intros H Vd U Lb Pos k. pose proof (nvalue_leaf_like dest m dv Vd) as K. pose proof (nvalue_leaves dest m dv Vd) as C.
  destruct (buffer_value m (nschema dest) bs C K Lb) as (w & Vw & Wb & Wk). fold k in Vw.
  assert (Kd : tmap lv_kind dv = tmap lv_kind w) by (rewrite Wk; eapply value_kinds; exact Vd).
  assert (Uw : names_unique w).
  { apply (proj1 (nu_tmap lv_kind w)). rewrite <- Kd. apply nu_tmap. eapply nvalue_unique; eassumption. }
  destruct (like_update w dv Kd Uw) as [Eu Nc].
  destruct (temp_update m dest dv bs k w H Vd Vw Uw Nc) as (m3 & r & m4 & E1 & E2 & V & Hl & St).
  { intros q T. apply touches_walk in T. destruct T as (p & d & i & j & Ep & _ & _ & _ & ->). injection Ep as <-. reflexivity. }
  exists m3, r, m4. split; [exact E1|]. split.
  { rewrite nfree_all. unfold k. rewrite whole_owner by exact Pos. cbn [free_all]. rewrite E2. reflexivity. }
  split; [|split; [exact Hl|exact St]]. exists w. rewrite Eu in V. split; [exact V|]. split; [exact Wb|congruence].
Qed.
Lemma walk_hdata t p own : h_data (n_hdr (walk t p own)) = p.
Proof. destruct t; reflexivity. Qed.
Lemma recv_raw_ok base m dest dv bs : healthy m dest -> nvalue m dest = Ok dv -> names_unique (nschema dest) -> one_run base dest ->
  Z.of_nat (length bs) = ttotal (nschema dest) -> 0 < ttotal (nschema dest) < 2 ^ 31 ->
  (exists m' r, recv_raw base m dest bs = Ok (m', r) /\ filled_with m dest dv bs m' r) /\
  (exists m' r, irecv_wait base m dest bs = Ok (m', r) /\ filled_with m dest dv bs m' r).
Proof.
  intros H Vd U O Lb T. pose proof (nvalue_leaf_like dest m dv Vd) as K. pose proof (nvalue_leaves dest m dv Vd) as C.
  unfold recv_raw, irecv_wait, mpi_count. rewrite to_int_id by lia.
  replace (ttotal (nschema dest) <? 0) with false by lia. cbn [obind]. replace (ttotal (nschema dest) <? Z.of_nat (length bs)) with false by lia.
  destruct (direct_ptr base dest) as [p|] eqn:P.
  - destruct (O p P) as [D I]. destruct (fill_direct base m dest dv bs p H Vd Lb P D I) as (m' & E & F). rewrite E. cbn [obind]. eauto 8.
  - destruct (fill_buffered m dest dv bs H Vd U Lb ltac:(lia)) as (m3 & r & m4 & E1 & E2 & F).
    split; exists m4, r; (split; [|exact F]).
    + unfold nset_schema. change (nfree m nempty) with (Ok m). cbn [obind]. rewrite compact_span by exact C.
      unfold nalloc. rewrite alloc_ok by lia. cbn [obind h_data h_own].
      rewrite walk_hdata. cbn [ostore]. rewrite store_fresh by (rewrite repeat_length; lia). cbn [obind].
      match goal with |- context [nupdate ?a ?b ?c] => replace (nupdate a b c) with (Ok (m3, r)) by (symmetry; exact E1) end.
      cbn [obind]. match goal with |- context [nfree ?a ?b] => replace (nfree a b) with (Ok m4) by (symmetry; exact E2) end. reflexivity.
    + rewrite (compact_copy m dest dv Vd). replace (0 <? ttotal (nschema dest)) with true by lia. cbn [obind].
      rewrite walk_hdata. cbn [ostore]. rewrite store_fresh by (pose proof (vbytes_length m dest dv Vd); lia). cbn [obind].
      match goal with |- context [nupdate ?a ?b ?c] => replace (nupdate a b c) with (Ok (m3, r)) by (symmetry; exact E1) end.
      cbn [obind]. match goal with |- context [nfree ?a ?b] => replace (nfree a b) with (Ok m4) by (symmetry; exact E2) end. reflexivity.
Qed.

(** ** Tags *)
Lemma safe_tag_range ub tag : 0 <= ub -> 0 <= safe_tag ub tag <= ub /\ (0 <= tag <= ub -> safe_tag ub tag = tag).
Proof. intros H. unfold safe_tag. destruct (Z.ltb_spec ub (Z.max 0 tag)); lia. Qed.
Lemma probe_finds ub : forall k fuel low high, (k < fuel)%nat -> 0 <= low <= ub -> ub < high -> high - low <= 2 ^ Z.of_nat k -> low + high <= 2 ^ 31 - 1 ->
  ub < 2 ^ 30 -> high <= 2 ^ 30 -> probe_tag fuel (fun t => t <=? ub) low high = Ok ub.
Proof.
  induction k as [|k IH]; intros fuel low high F L H D S B1 B2; (destruct fuel as [|fuel]; [lia|]); cbn [probe_tag].
  - change (2 ^ Z.of_nat 0) with 1 in D. replace (high - low <? 2) with true by lia. f_equal. lia.
  - destruct (Z.ltb_spec (high - low) 2) as [X|X]; [f_equal; lia|]. replace (2 ^ 31 - 1 <? low + high) with false by lia.
    rewrite Nat2Z.inj_succ, Z.pow_succ_r in D by lia.
    pose proof (Z.div_mod (low + high) 2 ltac:(lia)) as E. pose proof (Z.mod_pos_bound (low + high) 2 ltac:(lia)) as R.
    destruct (Z.leb_spec ((low + high) / 2) ub); apply IH; lia.
Qed.
Lemma probe_tag_S k f low high : probe_tag (S k) f low high =
  if high - low <? 2 then Ok low else if 2 ^ 31 - 1 <? low + high then UB
  else if f ((low + high) / 2) then probe_tag k f ((low + high) / 2) high else probe_tag k f low ((low + high) / 2).
Proof. reflexivity. Qed.
Lemma probe_ok ub : 0 <= ub < 2 ^ 30 - 1 -> probe (fun t => t <=? ub) = Ok ub.
Proof.
  intros H. unfold probe. change 40%nat with (S 39). rewrite probe_tag_S. change (2 ^ 31 - 1 - 0 <? 2) with false. change (2 ^ 31 - 1 <? 0 + (2 ^ 31 - 1)) with false. cbn iota.
  change ((0 + (2 ^ 31 - 1)) / 2) with (2 ^ 30 - 1). replace (2 ^ 30 - 1 <=? ub) with false by lia.
  apply (probe_finds ub 31); [apply Nat.ltb_lt; reflexivity| | | | | |]; change (Z.of_nat 31) with 31; lia.
Qed.
Lemma probe_overflow ub : 2 ^ 30 - 1 <= ub -> probe (fun t => t <=? ub) = UB.
Proof.
  intros H. unfold probe. change 40%nat with (S (S 38)). rewrite probe_tag_S. change (2 ^ 31 - 1 - 0 <? 2) with false. change (2 ^ 31 - 1 <? 0 + (2 ^ 31 - 1)) with false. cbn iota.
  change ((0 + (2 ^ 31 - 1)) / 2) with (2 ^ 30 - 1). replace (2 ^ 30 - 1 <=? ub) with true by lia. rewrite probe_tag_S. reflexivity.
Qed.
