(** Trees kept in HDF5 files: reading, and histories of writes and removals. *)
From Verif Require Import Base DType SpecTree Mem Node SpecNode NodeFacts Json JsonSpec MatSet MatSetFacts AdjSet AdjSetFacts Hdf5 Hdf5Spec Hdf5Facts.
Local Open Scope Z_scope.
Import ListNotations.

Section Machine.
  Variable mach : endian.
  Hypothesis Hm : mach <> DEFAULT_E.

  (** * Trees a file can hold *)
  Inductive kept : tree leafval -> Prop :=
  | k_leaf l : stored mach l = l -> kept (TLeaf l)
  | k_obj es : NoDup (map fst es) -> Forall (fun e => plain_name (fst e) /\ kept (snd e)) es -> kept (TObj es)
  | k_list ts : Z.of_nat (length ts) < 2 ^ 31 -> Forall kept ts -> kept (TList ts).

  Lemma resolve_idem e : resolve mach (resolve mach e) = resolve mach e.
  Proof. destruct e; cbn; try reflexivity. destruct mach; reflexivity. Qed.
  Lemma stored_idem l : stored mach (stored mach l) = stored mach l.
  Proof. destruct l as [[[t e] es]|]; [|reflexivity]. cbn [stored]. destruct (tid_eqb t CHAR8_STR); [reflexivity|]. rewrite resolve_idem. reflexivity. Qed.
  Lemma over_stored l0 l : stored mach (leaf_over l0 (stored mach l)) = leaf_over l0 (stored mach l).
  Proof.
    destruct l0 as [[[t0 e0] x]|]; [|apply stored_idem]. destruct l as [[[t e] es]|]; [|reflexivity]. cbn [stored leaf_over].
    destruct (tid_eqb t CHAR8_STR); [reflexivity|]. rewrite resolve_idem. reflexivity.
  Qed.
  Lemma kept_entries d : kept (TObj d) -> forall k u, mget d k = Some u -> kept u.
  Proof. intros K k u H. inversion K as [|? _ F|]; subst. rewrite Forall_forall in F. apply mget_In in H. apply (F _ H). Qed.
  Definition kept_opt (o : option (tree leafval)) : Prop := forall u, o = Some u -> kept u.
  Lemma kept_mset d k v : kept (TObj d) -> plain_name k -> kept v -> kept (TObj (mset d k v)).
  Proof.
    intros K P V. inversion K as [|? N F|]; subst. constructor; [apply nodup_mset, N|].
    rewrite Forall_forall in *. intros [k' v'] H. cbn [fst snd].
    assert (Q : mget (mset d k v) k' = Some v') by (apply mget_Some_In_nodup; [apply nodup_mset, N|exact H]).
    rewrite mget_mset in Q. destruct (str_eqb_spec k' k) as [->|NE].
    - injection Q as <-. auto.
    - apply mget_In in Q. apply (F _ Q).
  Qed.
  Lemma kept_put v : storable v -> forall old, kept_opt old -> kept (put mach old v).
  Proof.
    induction v as [l|es IH|ts IH] using tree_ind''; intros St old K.
    - cbn [put]. destruct old as [[l0|d|d]|]; constructor; auto using stored_idem, over_stored.
    - inversion St as [|? Nd Fo|]; subst. cbn [put]. fold (puts_obj mach).
      assert (B : kept (TObj (entries old))).
      { destruct old as [[l|d|d]|]; cbn [entries]; try (constructor; constructor). apply K. reflexivity. }
      clear K. revert B. generalize (entries old). clear old St Nd. induction es as [|e es IHe]; intros d B; [exact B|].
      inversion IH as [|? ? I1 I2]; subst. inversion Fo as [|? ? [F1 F2] F3]; subst. cbn [puts_obj]. apply IHe; auto.
      apply kept_mset; auto. apply I1; [exact F2|]. intros u H. eapply kept_entries; eassumption.
    - inversion St as [| |? Ln Fo]; subst. cbn [put]. fold (puts_list mach).
      assert (B : kept (TList (items old))).
      { destruct old as [[l|d|d]|]; cbn [items]; try (constructor; [cbn; lia|constructor]). apply K. reflexivity. }
      clear K. inversion B as [| |? Ln' F']; subst. constructor.
      + assert (Q : forall us, length (puts_list mach ts us) = Nat.max (length ts) (length us)).
        { clear. induction ts as [|c ts IHt]; intros us; [reflexivity|]. destruct us as [|u us]; cbn [puts_list length]; rewrite IHt; cbn [length]; lia. }
        rewrite Q. lia.
      + clear Ln Ln' B St. revert F'. generalize (items old). clear old. induction ts as [|c ts IHt]; intros us F'; [exact F'|].
        inversion IH as [|? ? I1 I2]; subst. inversion Fo as [|? ? F1 F2]; subst. destruct us as [|u us]; cbn [puts_list].
        * constructor; [apply I1; [exact F1|intros u H; discriminate]|apply IHt; auto].
        * inversion F' as [|? ? G1 G2]; subst. constructor; [apply I1; [exact F1|intros u' H; injection H as <-; exact G1]|apply IHt; auto].
  Qed.

  (** * Reading *)
  Lemma map_nth_all (es : list elem) : map (fun i => nth (Z.to_nat (0 + Z.of_nat i * 1)) es []) (seq 0 (length es)) = es.
  Proof.
    apply nth_ext with (d := nth (Z.to_nat (0 + Z.of_nat 0 * 1)) es []) (d' := []); [rewrite map_length, seq_length; reflexivity|].
    intros j H. rewrite map_length, seq_length in H.
    rewrite (map_nth (fun i => nth (Z.to_nat (0 + Z.of_nat i * 1)) es [])). rewrite seq_nth by exact H. f_equal. lia.
  Qed.
  Lemma r_whole t e es : r_dset mach all_of_it (t, e) es fresh =
    Ok (TLeaf (Some (t, snd (ftype_of mach t mach), reorder e (snd (ftype_of mach t mach)) es))).
  Proof.
    unfold r_dset. cbn [all_of_it r_off r_str or_else]. change (1 =? 0) with false. cbn iota.
    assert (R : readsize all_of_it (Z.of_nat (length es)) = Z.of_nat (length es)).
    { unfold readsize. cbn [all_of_it r_off r_str r_size or_else]. change (0 =? 0) with true. cbn iota.
      rewrite Z.sub_0_r, Z.quot_1_r, Z.rem_1_r. cbn. lia. }
    rewrite R. replace (Z.of_nat (length es) <? 0) with false by lia.
    replace ((0 <? Z.of_nat (length es)) && _) with false by lia.
    rewrite Nat2Z.id. cbn [fst snd fresh]. rewrite map_nth_all. reflexivity.
  Qed.
  Lemma r_order t e es : stored mach (Some (t, e, es)) = Some (t, e, es) ->
    Some (t, snd (ftype_of mach t mach), reorder e (snd (ftype_of mach t mach)) es) = in_machine_order mach (Some (t, e, es)).
  Proof.
    cbn [stored in_machine_order ftype_of snd]. unfold ftype_of. cbn [snd]. destruct (tid_eqb t CHAR8_STR); intros H; injection H as H.
    - rewrite <- H. reflexivity.
    - assert (M : resolve mach mach = mach) by (destruct mach; [congruence|reflexivity|reflexivity]). rewrite M. rewrite H. reflexivity.
  Qed.
  Lemma stream_show n : 0 <= n < 2 ^ 31 -> stream_int (show_Z n) = n.
  Proof.
    intros B. assert (A : atoi (show_Z n) = Ok n) by (apply atoi_show; lia). unfold atoi in A. unfold stream_int.
    set (z := match a_blank (show_Z n) with [] => 0 | _ => _ end) in *. clearbody z. cbv zeta in A.
    destruct (_ && _) in A; [|discriminate]. assert (z = n) by congruence. subst z. lia.
  Qed.
  Definition r_entries := fix go (ls : list (str * hobj)) (d : list (str * tree leafval)) : outcome (list (str * tree leafval)) :=
     match ls with
     | [] => Ok d
     | e :: r =>
         if str_eqb (fst e) (L "..") then Err
         else do c <- r_node mach all_of_it (snd e) (or_else (mget d (fst e)) fresh);
              go r (mset d (fst e) c)
     end.
  Definition r_items := fix go (ls : list (str * hobj)) (d : list (tree leafval)) : outcome (list (tree leafval)) :=
     match ls with
     | [] => Ok d
     | e :: r =>
         let i := stream_int (fst e) in
         let d1 := if Z.of_nat (length d) <=? i then d ++ [fresh] else d in
         if (i <? 0) || (Z.of_nat (length d1) <=? i) then Err
         else do c <- r_node mach all_of_it (snd e) (nth (Z.to_nat i) d1 fresh);
              go r (set_nth d1 (Z.to_nat i) c)
     end.
  Lemma read_enc s : kept s -> r_node mach all_of_it (enc s) fresh = Ok (tmap (in_machine_order mach) s).
  Proof.
    induction s as [l|es IH|ts IH] using tree_ind''; intros K.
    - inversion K as [? E| |]; subst. destruct l as [[[t e] es]|]; [|reflexivity]. cbn [enc r_node tmap].
      rewrite r_whole, (r_order t e es E). reflexivity.
    - inversion K as [|? N F|]; subst. cbn [enc r_node fresh tmap]. fold r_entries.
      assert (G : forall d, NoDup (map fst d ++ map fst es) ->
        r_entries (map (fun e => (fst e, enc (snd e))) es) d = Ok (d ++ map (fun e => (fst e, tmap (in_machine_order mach) (snd e))) es)).
      { clear N K. induction es as [|e es IHe]; intros d N; cbn [map r_entries]; [rewrite app_nil_r; reflexivity|].
        inversion IH as [|? ? I1 I2]; subst. inversion F as [|? ? [F1 F2] F3]; subst. cbn [fst snd].
        rewrite (proj2 (str_eqb_neq (fst e) (L ".."))) by apply F1.
        cbn [map] in N. pose proof (NoDup_remove_2 _ _ _ N) as N2.
        assert (Q : mget d (fst e) = None).
        { destruct (mget d (fst e)) eqn:Q; [|reflexivity]. exfalso. apply N2. apply in_or_app. left. apply mget_In in Q. apply (in_map fst) in Q. exact Q. }
        rewrite Q. cbn [or_else]. rewrite I1 by exact F2. cbn [obind].
        assert (W : forall v, mset d (fst e) v = d ++ [(fst e, v)]).
        { intros v. revert Q. clear. induction d as [|[k u] d IHd]; [reflexivity|]. cbn [mget mset app]. destruct (str_eqb (fst e) k); [discriminate|]. intros Q. rewrite IHd by exact Q. reflexivity. }
        rewrite W, IHe; auto.
        - rewrite <- app_assoc. reflexivity.
        - rewrite map_app, <- app_assoc. cbn [map app fst]. exact N. }
      rewrite G by exact N. reflexivity.
    - inversion K as [| |? Ln F]; subst. cbn [enc r_node fresh tmap]. fold r_items. rewrite entry_names_from.
      assert (G : forall d, Z.of_nat (length d + length ts) < 2 ^ 31 ->
        r_items (combine (names_from (length d) (length ts)) (map enc ts)) d = Ok (d ++ map (tmap (in_machine_order mach)) ts)).
      { clear Ln K. induction ts as [|c ts IHt]; intros d B; [cbn; rewrite app_nil_r; reflexivity|].
        inversion IH as [|? ? I1 I2]; subst. inversion F as [|? ? F1 F2]; subst. cbn [length] in *. rewrite names_cons. cbn [map combine r_items fst snd].
        rewrite stream_show by lia. rewrite Z.leb_refl, app_length. cbn [length].
        replace ((_ <? 0) || _) with false by lia. rewrite Nat2Z.id.
        rewrite app_nth2 by lia. rewrite Nat.sub_diag. cbn [nth]. rewrite I1 by exact F1. cbn [obind].
        rewrite set_nth_app.
        replace (S (length d)) with (length (d ++ [tmap (in_machine_order mach) c])) by (rewrite app_length; cbn; lia).
        rewrite IHt; auto; [rewrite <- app_assoc; reflexivity|]. rewrite app_length. cbn [length]. lia. }
      change (names_from 0 (length ts)) with (names_from (length (@nil (tree leafval))) (length ts)). rewrite (G []) by exact Ln. reflexivity.
  Qed.

  (** * Paths *)
  Lemma find_enc p : forall s, through_objects s p -> h_find (enc s) p = option_map enc (tlookup s p).
  Proof.
    induction p as [|k p IH]; intros s T; [reflexivity|]. destruct s as [l|d|d]; cbn [enc h_find tlookup through_objects] in *; [destruct l as [[[? ?] ?]|]; reflexivity| |destruct T].
    rewrite mget_map_val. destruct (mget d k) as [u|]; cbn [option_map]; [apply IH, T|reflexivity].
  Qed.
  Lemma kept_lookup p : forall s u, kept s -> tlookup s p = Some u -> kept u.
  Proof.
    induction p as [|k p IH]; intros s u K H; cbn [tlookup] in H; [injection H as <-; exact K|].
    destruct s as [l|d|d]; try discriminate. destruct (mget d k) as [w|] eqn:E; [|discriminate]. eapply IH; [|exact H]. eapply kept_entries; eassumption.
  Qed.
  Lemma mdel_filter {A} (d : list (str * A)) k : mdel d k = od_remove d k.
  Proof. unfold od_remove. induction d as [|[k' u] d IH]; [reflexivity|]. cbn [mdel filter fst]. destruct (str_eqb k k'); cbn [negb]; rewrite IH; reflexivity. Qed.
  Lemma del_enc p : forall s, through_objects s p -> h_del (enc s) p = option_map enc (tremove s p).
  Proof.
    induction p as [|k p IH]; intros s T.
    - destruct s as [l|d|d]; [destruct l as [[[? ?] ?]|]; reflexivity|reflexivity|reflexivity].
    - destruct s as [l|d|d]; cbn [enc through_objects] in *; [destruct l as [[[? ?] ?]|]; destruct p; reflexivity| |destruct T].
      destruct p as [|k2 p].
      + cbn [h_del tremove]. rewrite mget_map_val. destruct (mget d k) as [u|]; cbn [option_map]; [|reflexivity].
        rewrite <- mdel_filter. cbn [enc]. rewrite map_mdel. reflexivity.
      + change (h_del (HGroup false (map (fun e => (fst e, enc (snd e))) d)) (k :: k2 :: p)) with
          (match mget (map (fun e => (fst e, enc (snd e))) d) k with
           | Some u => match h_del u (k2 :: p) with Some u' => Some (HGroup false (mset (map (fun e => (fst e, enc (snd e))) d) k u')) | None => None end
           | None => None end).
        change (tremove (TObj d) (k :: k2 :: p)) with (match mget d k with Some u => match tremove u (k2 :: p) with Some u' => Some (TObj (mset d k u')) | None => None end | None => None end).
        rewrite mget_map_val. destruct (mget d k) as [u|]; cbn [option_map]; [|reflexivity]. rewrite IH by exact T.
        destruct (tremove u (k2 :: p)) as [u'|]; cbn [option_map]; [|reflexivity]. cbn [enc]. rewrite map_mset. reflexivity.
  Qed.
  Lemma kept_remove p : forall s s', kept s -> tremove s p = Some s' -> kept s'.
  Proof.
    induction p as [|k p IH]; intros s s' K H; [destruct s; discriminate|]. destruct s as [l|d|d]; [destruct p; discriminate| |destruct p; discriminate].
    inversion K as [|? N F|]; subst. destruct p as [|k2 p].
    - cbn [tremove] in H. destruct (mget d k) as [u|] eqn:E; [|discriminate]. injection H as <-. rewrite <- mdel_filter. constructor; [apply nodup_mdel, N|].
      rewrite mdel_filter. unfold od_remove. rewrite Forall_forall in *. intros x Hx. apply filter_In in Hx. apply F, Hx.
    - change (tremove (TObj d) (k :: k2 :: p)) with (match mget d k with Some u => match tremove u (k2 :: p) with Some u' => Some (TObj (mset d k u')) | None => None end | None => None end) in H.
      destruct (mget d k) as [u|] eqn:E; [|discriminate]. destruct (tremove u (k2 :: p)) as [u'|] eqn:E2; [|discriminate]. injection H as <-.
      apply kept_mset; [exact K| |].
      + rewrite Forall_forall in F. apply mget_In in E. apply (F _ E).
      + eapply IH; [|exact E2]. eapply kept_entries; eassumption.
  Qed.

  (** * Histories *)
  Definition is_tree (s : tree leafval) : Prop := match s with TLeaf _ => False | _ => True end.
  Definition as_op (op : file_op) : hop := match op with Write p v => HWrite p v | Remove p => HRemove p end.
  Lemma storable_placed p v : storable v -> Forall plain_name p -> storable (placed p v).
  Proof.
    intros V F. induction F as [|k p P F IH]; [exact V|]. cbn [placed fold_right]. constructor; [constructor; [intros []|constructor]|].
    constructor; [|constructor]. split; [exact P|exact IH].
  Qed.
  Lemma write_enc s p v : kept s -> is_tree s -> op_ok s (Write p v) ->
    h_write mach no_opts (enc s) p v =
    (if fits mach (Some s) (placed p v) then (enc (put mach (Some s) (placed p v)), Ok tt) else (enc s, Err)) /\
    (fits mach (Some s) (placed p v) = true -> kept (put mach (Some s) (placed p v)) /\ is_tree (put mach (Some s) (placed p v))).
  Proof.
    intros K R (V & P & S). pose proof (storable_placed p v V P) as St. unfold h_write. change (at_path p v) with (placed p v).
    destruct (check_enc mach (placed p v) St s S) as [C|[C1 C2]].
    - rewrite C. destruct (fits mach (Some s) (placed p v)) eqn:F; [|split; [reflexivity|discriminate]].
      assert (Kp : kept (put mach (Some s) (placed p v))) by (apply kept_put; [exact St|intros u H; injection H as <-; exact K]).
      destruct (placed p v) as [l|es|ts] eqn:E.
      + destruct s; [destruct R|discriminate F|discriminate F].
      + split; [|intros _; split; [exact Kp|exact I]]. cbn [w_tree]. inversion St as [|? Nd Fo|]; subst. apply children_obj; auto.
        * rewrite Forall_forall in *. intros e He. apply kid_ok. apply Fo, He.
        * rewrite Forall_forall in *. intros e He. apply Fo, He.
      + split; [|intros _; split; [exact Kp|exact I]]. cbn [w_tree]. inversion St as [| |? Ln Fo]; subst. apply children_list; auto.
        rewrite Forall_forall in *. intros e He. apply kid_ok. apply Fo, He.
    - rewrite C1, C2. split; [reflexivity|discriminate].
  Qed.
  Lemma step_enc s op : kept s -> is_tree s -> op_ok s op ->
    h_step mach (enc s) (as_op op) =
      match tree_step mach s op with Some s' => (enc s', Ok tt) | None => (enc s, Err) end /\
    (forall s', tree_step mach s op = Some s' -> kept s' /\ is_tree s').
  Proof.
    intros K R O. destruct op as [p v|p]; cbn [as_op h_step tree_step].
    - destruct (write_enc s p v K R O) as [E G]. rewrite E. destruct (fits mach (Some s) (placed p v)).
      + split; [reflexivity|]. intros s' H. injection H as <-. auto.
      + split; [reflexivity|discriminate].
    - unfold h_remove. rewrite del_enc by exact O. destruct (tremove s p) as [s'|] eqn:E; cbn [option_map].
      + split; [reflexivity|]. intros s2 H. injection H as <-. split; [eapply kept_remove; eassumption|].
        destruct p as [|k p]; [destruct s; discriminate|]. destruct s as [l|d|d]; [destruct p; discriminate| |destruct p; discriminate].
        destruct p as [|k2 p].
        * cbn [tremove] in E. destruct (mget d k); [|discriminate]. injection E as <-. exact I.
        * change (tremove (TObj d) (k :: k2 :: p)) with (match mget d k with Some u => match tremove u (k2 :: p) with Some u' => Some (TObj (mset d k u')) | None => None end | None => None end) in E.
          destruct (mget d k) as [u|]; [|discriminate]. destruct (tremove u (k2 :: p)); [|discriminate]. injection E as <-. exact I.
      + split; [reflexivity|discriminate].
  Qed.
  Definition told (b : bool) : outcome unit := if b then Ok tt else Err.
  Lemma run_enc ops : forall s, kept s -> is_tree s -> ops_ok mach s ops ->
    h_run mach (enc s) (map as_op ops) = (enc (fst (tree_run mach s ops)), map told (snd (tree_run mach s ops))) /\
    kept (fst (tree_run mach s ops)) /\ is_tree (fst (tree_run mach s ops)).
  Proof.
    induction ops as [|op ops IH]; intros s K R O; [cbn; auto|]. destruct O as [O1 O2]. destruct (step_enc s op K R O1) as [E G].
    cbn [map h_run tree_run]. rewrite E. destruct (tree_step mach s op) as [s1|] eqn:T.
    - destruct (G s1 eq_refl) as [K1 R1]. destruct (IH s1 K1 R1 O2) as (H1 & H2 & H3). rewrite H1.
      destruct (tree_run mach s1 ops) as [s2 bs]. cbn [fst snd map told] in *. auto.
    - destruct (IH s K R O2) as (H1 & H2 & H3). rewrite H1.
      destruct (tree_run mach s ops) as [s2 bs]. cbn [fst snd map told] in *. auto.
  Qed.
  Lemma kept_new : kept (TObj []) /\ is_tree (TObj []).
  Proof. split; [constructor; constructor|exact I]. Qed.
  Lemma history ops : ops_ok mach (TObj []) ops ->
    let '(f, rs) := h_run mach h_new (map as_op ops) in
    let '(s, bs) := tree_run mach (TObj []) ops in
    rs = map told bs /\
    forall p, through_objects s p ->
      h_has f p = given (tlookup s p) /\
      h_read mach all_of_it f p fresh = match tlookup s p with Some u => Ok (tmap (in_machine_order mach) u) | None => Err end.
  Proof.
    intros O. destruct kept_new as [K R]. destruct (run_enc ops _ K R O) as (H1 & H2 & _). change (enc (TObj [])) with h_new in H1. rewrite H1.
    destruct (tree_run mach (TObj []) ops) as [s bs]. cbn [fst snd] in *. split; [reflexivity|]. intros p T.
    unfold h_has, h_read. rewrite find_enc by exact T. destruct (tlookup s p) as [u|] eqn:E; cbn [option_map given]; [|auto].
    split; [reflexivity|]. apply read_enc. eapply kept_lookup; eassumption.
  Qed.
  (** a new file *)
  Lemma put_new v : storable v -> is_tree v -> forall old, old = None \/ old = Some (TObj []) -> put mach old v = tmap (stored mach) v.
  Proof.
    assert (A : forall v, storable v -> put mach None v = tmap (stored mach) v).
    { intros u. induction u as [l|es IH|ts IH] using tree_ind''; intros St; [reflexivity| |].
      - inversion St as [|? Nd Fo|]; subst. cbn [put entries tmap]. fold (puts_obj mach). f_equal.
        assert (G : forall d, NoDup (map fst d ++ map fst es) -> puts_obj mach es d = d ++ map (fun e => (fst e, tmap (stored mach) (snd e))) es).
        { clear St Nd. induction es as [|e es IHe]; intros d N; cbn [map puts_obj]; [rewrite app_nil_r; reflexivity|].
          inversion IH as [|? ? I1 I2]; subst. inversion Fo as [|? ? [F1 F2] F3]; subst.
          cbn [map] in N. pose proof (NoDup_remove_2 _ _ _ N) as N2.
          assert (Q : mget d (fst e) = None).
          { destruct (mget d (fst e)) eqn:Q; [|reflexivity]. exfalso. apply N2. apply in_or_app. left. apply mget_In in Q. apply (in_map fst) in Q. exact Q. }
          rewrite Q, I1 by exact F2.
          assert (W : forall v, mset d (fst e) v = d ++ [(fst e, v)]).
          { intros w. revert Q. clear. induction d as [|[k u] d IHd]; [reflexivity|]. cbn [mget mset app]. destruct (str_eqb (fst e) k); [discriminate|]. intros Q. rewrite IHd by exact Q. reflexivity. }
          rewrite W, IHe; auto.
          - rewrite <- app_assoc. reflexivity.
          - rewrite map_app, <- app_assoc. cbn [map app fst]. exact N. }
        apply (G []). exact Nd.
      - inversion St as [| |? Ln Fo]; subst. cbn [put items tmap]. fold (puts_list mach). f_equal. clear St Ln.
        induction ts as [|c ts IHt]; [reflexivity|]. inversion IH as [|? ? I1 I2]; subst. inversion Fo as [|? ? F1 F2]; subst.
        cbn [puts_list map]. rewrite I1 by exact F1. rewrite IHt; auto. }
    intros St R old [->| ->]; [apply A, St|]. rewrite <- (A v St). destruct v as [l|es|ts]; [destruct R|reflexivity|reflexivity].
  Qed.
  Lemma order_stored l : in_machine_order mach (stored mach l) = in_machine_order mach l.
  Proof. destruct l as [[[t e] es]|]; [|reflexivity]. cbn [stored in_machine_order]. destruct (tid_eqb t CHAR8_STR); [reflexivity|]. rewrite resolve_idem. reflexivity. Qed.
  Lemma tmap_order v : tmap (in_machine_order mach) (tmap (stored mach) v) = tmap (in_machine_order mach) v.
  Proof.
    induction v as [l|es IH|ts IH] using tree_ind''; cbn [tmap].
    - rewrite order_stored. reflexivity.
    - f_equal. rewrite map_map. apply map_ext_in. intros e He. rewrite Forall_forall in IH. cbn [fst snd]. rewrite IH by exact He. reflexivity.
    - f_equal. rewrite map_map. apply map_ext_in. intros e He. rewrite Forall_forall in IH. apply IH, He.
  Qed.
  Lemma fresh_file v : storable v -> is_tree v ->
    exists f, h_write mach no_opts h_new [] v = (f, Ok tt) /\
              h_read mach all_of_it f [] fresh = Ok (tmap (in_machine_order mach) v).
  Proof.
    intros St R. destruct kept_new as [K R0].
    assert (O : op_ok (TObj []) (Write [] v)).
    { split; [exact St|split; [constructor|]]. cbn [placed fold_right]. destruct v as [l|es|ts]; [destruct R| |].
      - constructor; [reflexivity|]. apply Forall_forall. intros x _. exact (sk_none _).
      - constructor; [reflexivity|]. intros i c _. cbn. destruct i; exact (sk_none _). }
    destruct (write_enc (TObj []) [] v K R0 O) as [E G]. cbn [placed fold_right] in E, G. change (enc (TObj [])) with h_new in E.
    assert (F : fits mach (Some (TObj [])) v = true).
    { rewrite <- (fits_none mach v). destruct v as [l|es|ts]; [destruct R|reflexivity|reflexivity]. }
    rewrite F in E. destruct (G F) as [Kp _]. rewrite (put_new v St R) in * by auto. eexists. split; [exact E|].
    unfold h_read. cbn [h_find]. rewrite read_enc by exact Kp. rewrite tmap_order. reflexivity.
  Qed.
End Machine.
