(** Checks of materials, fields, species, and of domains that meet or nest. *)
From Coq Require Import ZArith Lia Btauto.
From Verif Require Import Base DType SpecTree Mem Node Number ArrayOps NumConv Json MeshVerify MeshVerifySpec MeshVerifyFacts MeshVerifyParts.
Import ListNotations.

(** * Materials *)
Lemma has_names n k : has n k = existsb (str_eqb k) (names n).
Proof.
  destruct n as [|es| | |]; try reflexivity. unfold has. cbn [kid names]. induction es as [|[k' c] r IH]; [reflexivity|].
  cbn. destruct (str_eqb k k'); [reflexivity|exact IH].
Qed.
Lemma ok_material_map n m : kid n (L "material_map") = Some m -> ok (v_material_map n) (material_map_ok m).
Proof.
  intro K. apply ok_finish. eapply ok_eq.
  - apply keeps_ok. apply keeps_seen with (p := object_) (g := every int_); [|apply keeps_obj; nv].
    intros c _ _. eapply keeps_eq; [apply keeps_each with (g := fun e => is_integer (snd e)); intros e _; apply keeps_test|].
    apply forallb_ext'. intro e. apply int_eq.
  - rewrite (must_some _ _ _ _ K). reflexivity.
Qed.
Definition fractions_ok (n : tree) : bool :=
  must (L "volume_fractions") (fun vf =>
    if num_ vf then must (L "material_ids") int_ n && relation n
    else any_object vf && every (fun m => if any_object m then relation m else num_ m) vf) n.
Lemma ok_fractions n : clean n -> ok (v_fractions n) (fractions_ok n).
Proof.
  intro C. unfold v_fractions, fractions_ok. eapply ok_eq.
  - apply ok_seen with (p := fun _ => true) (g := fun vf => if num_ vf then must (L "material_ids") int_ n && relation n
      else any_object vf && every (fun m => if any_object m then relation m else num_ m) vf).
    2: eapply ok_eq; [apply keeps_ok, keeps_exists; nv|unfold given, must; destruct (kid n (L "volume_fractions")); reflexivity].
    intros vf K _. rewrite num_eq. destruct (num_ vf) eqn:N.
    + eapply ok_eq; [apply ok_andb; [apply keeps_ok, keeps_num; nv|intros _]|].
      * apply ok_tell; [apply info_fine|]. apply ok_also; [apply keeps_ok, keeps_int; nv|apply ok_o2m].
      * rewrite (must_some _ _ _ _ K), N. reflexivity.
    + destruct vf as [|es| | |]; try (apply keeps_ok, keeps_fails). cbn [is_object any_object andb].
      apply ok_kb with (x := must (L "volume_fractions") object_ n); [apply keeps_obj; nv|]. rewrite (must_some _ _ _ _ K).
      destruct es as [|e es]; cbn [object_]; [apply keeps_ok, keeps_ret|].
      apply keeps_ok, keeps_info. apply keeps_at; [nv|]. apply ok_finish. apply ok_each. intros [k c] H.
      pose proof (clean_kid _ _ _ C K) as C'. pose proof (kids_nv _ _ _ C' H) as V. pose proof (kid_of _ _ _ C' eq_refl H) as G. cbn [fst snd].
      change (is_object c) with (any_object c). destruct (any_object c).
      * apply keeps_ok. eapply keeps_eq; [apply keeps_by with (g := relation); [exact V|intros x _; apply ok_o2m]|apply must_some, G].
      * apply keeps_ok. eapply keeps_eq; [apply keeps_num, V|apply must_some, G].
  - reflexivity.
Qed.
Lemma forallb_map_fst {A} (f : str -> bool) (l : list (str * A)) : forallb f (map fst l) = forallb (fun e => f (fst e)) l.
Proof. induction l as [|a l IH]; [reflexivity|]. cbn. rewrite IH. reflexivity. Qed.
Definition map_ok (n : tree) : bool :=
  (negb (must (L "volume_fractions") num_ n) || given (L "material_map") n) &&
  may (L "material_map") (fun m => material_map_ok m && may (L "volume_fractions") (fun vf => negb (any_object vf) || inside (names m) (names vf)) n) n.
Lemma uni_eq n : uni_buffer n = must (L "volume_fractions") num_ n.
Proof. unfold uni_buffer, must. destruct (kid n (L "volume_fractions")); [apply num_eq|reflexivity]. Qed.
Lemma ok_map n : ok (v_map n) (map_ok n).
Proof.
  unfold v_map, map_ok. apply ok_also.
  - apply keeps_ok. rewrite uni_eq. change (has n (L "material_map")) with (given (L "material_map") n).
    destruct (must (L "volume_fractions") num_ n), (given (L "material_map") n); first [apply keeps_ret|apply keeps_fails].
  - unfold has, may at 1. destruct (kid n (L "material_map")) as [m|] eqn:M; cbn [when]; [|apply keeps_ok, keeps_ret].
    apply ok_tell; [intros i T; destruct (uni_buffer n); [auto|apply optional_fine, T]|].
    eapply ok_eq.
    + apply ok_also; [apply ok_material_map, M|]. eapply ok_need; [apply fetch_kid, M|].
      apply ok_when. intros MB. apply ok_each with (g := fun e => must (L "volume_fractions") (fun vf => has vf (fst e)) n).
      intros e _. apply keeps_ok. unfold must. destruct (kid n (L "volume_fractions")) as [vf|] eqn:K.
      * fold (has vf (fst e)). apply keeps_test.
      * unfold multi_buffer in MB. rewrite K in MB. discriminate MB.
    + unfold material_map_ok. destruct m as [|[|e es]| | |]; try reflexivity. cbn [object_ andb]. f_equal.
      unfold multi_buffer, may, must. destruct (kid n (L "volume_fractions")) as [vf|]; [|reflexivity].
      change (is_object vf) with (any_object vf). f_equal. cbn [kids names]. unfold inside. rewrite forallb_map_fst. apply forallb_ext'.
      intro x. apply has_names.
Qed.

Definition element_ids_ok (n : tree) : bool :=
  may (L "element_ids") (fun e =>
    must (L "volume_fractions") (fun vf =>
      any_object e && any_object vf && inside (names vf) (names e) && inside (names e) (names vf) && every int_ e
      || int_ e && num_ vf) n) n.
Lemma ok_element_ids n vfs : clean n -> (vfs = true -> given (L "volume_fractions") n = true) ->
  ok (v_element_ids n vfs) (negb vfs || element_ids_ok n).
Proof.
  intros C G. unfold v_element_ids, element_ids_ok, may. destruct (kid n (L "element_ids")) as [e|] eqn:K.
  2: { rewrite Bool.orb_true_r. apply keeps_ok, keeps_ret. }
  apply ok_when. intro V. specialize (G V). unfold given in G. unfold must. destruct (kid n (L "volume_fractions")) as [vf|] eqn:F; [|discriminate G].
  assert (M : multi_buffer n = any_object vf) by (unfold multi_buffer; rewrite F; reflexivity).
  assert (U : uni_buffer n = num_ vf) by (rewrite uni_eq, (must_some _ _ _ _ F); reflexivity).
  rewrite M, U, int_eq. change (is_object e) with (any_object e).
  assert (X : any_object e = true -> int_ e = false) by (destruct e; try discriminate; reflexivity).
  destruct (any_object e) eqn:O; [rewrite (X eq_refl)|].
  - cbn [negb andb]. destruct (any_object vf); cbn [andb orb]; [|rewrite ?Bool.andb_false_l; apply keeps_ok, keeps_fails].
    eapply ok_need; [apply fetch_kid, F|].
    change (same_set (child_names vf) (child_names e)) with (inside (names vf) (names e) && inside (names e) (names vf)).
    apply ok_tell; [intros i T; destruct (_ && _); [auto|apply error_fine, T]|]. apply keeps_ok, keeps_at; [nv|]. apply ok_finish.
    rewrite Bool.orb_false_r. apply ok_also; [apply keeps_ok, keeps_ret|]. apply ok_each. intros [k c] H. cbn [fst snd].
    pose proof (clean_kid _ _ _ C K) as C'. apply keeps_ok. eapply keeps_eq; [apply keeps_int, (kids_nv _ _ _ C' H)|].
    apply must_some. apply kid_of; auto.
  - cbn [negb andb orb]. rewrite Bool.andb_true_r. destruct (int_ e) eqn:IE; cbn [negb andb]; [|apply keeps_ok, keeps_fails].
    destruct (num_ vf); [|apply keeps_ok, keeps_fails]. apply keeps_ok. eapply keeps_eq; [apply keeps_int; nv|].
    rewrite (must_some _ _ _ _ K). exact IE.
Qed.

Lemma num_not_object n : num_ n = true -> any_object n = false.
Proof. destruct n; try discriminate; reflexivity. Qed.
Lemma ok_matset n : clean n ->
  ok (also (v_str n (L "topology"))
    (bindV (v_fractions n) (fun vfs => also (v_map n) (also (v_element_ids n vfs) (ret vfs))))) (matset_ok n).
Proof.
  intro C. set (rest := map_ok n && ((negb (fractions_ok n) || element_ids_ok n) && fractions_ok n)).
  apply ok_eq with (b := must (L "topology") string_ n && rest).
  - apply ok_also; [apply keeps_ok, keeps_str; nv|]. apply ok_bind with (x := fractions_ok n); [apply ok_fractions, C| |].
    + apply ok_also; [apply ok_map|]. apply ok_also; [|apply keeps_ok, keeps_ret]. apply ok_element_ids; [exact C|].
      unfold fractions_ok, must, given. destruct (kid n (L "volume_fractions")); [reflexivity|discriminate].
    + unfold rest. intro H. apply andb_prop in H. destruct H as [_ H]. apply andb_prop in H. apply H.
  - unfold matset_ok. f_equal. unfold rest, map_ok, fractions_ok, element_ids_ok. clear rest.
    assert (T : forall x f, kid n (L "volume_fractions") = Some x -> must (L "volume_fractions") f n = f x) by (intros; apply must_some; assumption).
    destruct (kid n (L "material_map")) as [m|] eqn:A;
      [rewrite !(may_some _ (L "material_map") _ _ A), !(must_some _ (L "material_map") _ _ A), (given_some _ _ _ A)
      |rewrite !(may_none _ (L "material_map") _ A), !(must_none _ (L "material_map") _ A), (given_none _ _ A)];
    (destruct (kid n (L "element_ids")) as [e|] eqn:B;
      [rewrite !(may_some _ (L "element_ids") _ _ B)|rewrite !(may_none _ (L "element_ids") _ B)]);
    (destruct (kid n (L "volume_fractions")) as [vf|] eqn:K;
      [rewrite ?(may_some _ (L "volume_fractions") _ _ K), !(T vf _ eq_refl)
      |rewrite ?(may_none _ (L "volume_fractions") _ K), !(must_none _ (L "volume_fractions") _ K)]).
    all: try (bt; fail).
    all: rewrite ?(may_some _ (L "material_map") _ _ A), ?(may_none _ (L "material_map") _ A), ?(may_some _ (L "element_ids") _ _ B), ?(may_none _ (L "element_ids") _ B).
    all: pose proof (num_not_object vf) as X; destruct (num_ vf); [rewrite (X eq_refl)|]; cbn [negb orb andb]; try (bt; fail).
Qed.

(** * Fields *)
Lemma keeps_pair n a b hi : a <> L "valid" -> b <> L "valid" -> keeps (v_pair n a b hi) (pair_ok a b hi n).
Proof.
  intros A B. unfold v_pair, pair_ok. change (has n a) with (given a n). change (has n b) with (given b n).
  destruct (kid n a) as [x|] eqn:X; [rewrite (given_some _ _ _ X), (must_some _ _ _ _ X)|rewrite (given_none _ _ X), (must_none _ _ _ X)];
  (destruct (kid n b) as [y|] eqn:Y; [rewrite (given_some _ _ _ Y), (must_some _ _ _ _ Y)|rewrite (given_none _ _ Y), (must_none _ _ _ Y)]);
  cbn [xorb negb andb orb when].
  - rewrite Bool.orb_false_r. eapply keeps_eq.
    + apply keeps_also; [apply keeps_str, A|]. apply keeps_by with (g := levels hi); [exact B|]. intros c _. apply ok_mlarray.
    + rewrite (must_some _ _ _ _ X), (must_some _ _ _ _ Y). reflexivity.
  - rewrite Bool.andb_false_r. apply keeps_fails.
  - apply keeps_fails.
  - apply keeps_ret.
Qed.
Lemma ok_field n :
  ok (all_
    [(if negb (has n (L "association")) && negb (has n (L "basis")) then fails else ret true);
     v_given (v_name associations) n (L "association");
     v_given v_basis n (L "basis");
     (if negb (has n (L "topology")) && negb (has n (L "matset")) then fails else ret true);
     v_pair n (L "topology") (L "values") 1;
     v_pair n (L "matset") (L "matset_values") 2]) (field_ok n).
Proof.
  assert (E : forall a b, keeps (if negb (has n a) && negb (has n b) then fails else ret true) (either a b n)).
  { intros a b. unfold either. change (has n a) with (given a n). change (has n b) with (given b n).
    destruct (given a n), (given b n); first [apply keeps_ret|apply keeps_fails]. }
  eapply ok_eq.
  - all_parts; apply keeps_ok; [apply E| | |apply E|apply keeps_pair; nv|apply keeps_pair; nv].
    + apply keeps_given with (h := word [L "vertex"; L "element"]); [nv|]. intros c _. apply ok_name.
    + apply keeps_given with (h := string_); [nv|]. intros c _. apply ok_reset, ok_finish, ok_self.
  - unfold field_ok. bt.
Qed.

(** * Species *)
Lemma ok_species vs : clean vs -> is_object vs = true -> forall l b n0,
  (forall k c, In (k, c) l -> In (k, c) (kids vs)) ->
  forallb (fun e => match snd e with TObj [] | TList [] => false | _ => true end) l = true ->
  ok (v_species vs l b n0)
     (b && (forallb (fun e => components (snd e)) l &&
            (if Nat.eqb n0 0 then agree (map (fun e => first_len (snd e)) l) else forallb (Nat.eqb n0) (map (fun e => first_len (snd e)) l)))).
Proof.
  intros C O. induction l as [|[k c] l IH]; intros b n0 H R.
  - cbn. destruct (Nat.eqb n0 0); rewrite Bool.andb_true_r; apply keeps_ok, keeps_ret.
  - cbn [v_species]. pose proof (H k c (or_introl eq_refl)) as K. pose proof (kid_of _ _ _ C O K) as G.
    cbn [forallb snd] in R. apply andb_prop in R. destruct R as [R1 R2].
    assert (H' : forall k c, In (k, c) l -> In (k, c) (kids vs)) by (intros; apply H; right; assumption).
    apply ok_kb with (x := components c).
    { eapply keeps_eq; [apply keeps_by with (g := components); [apply (kids_nv _ _ _ C K)|intros x _; apply ok_mcarray]|apply must_some, G]. }
    cbn [forallb map snd]. destruct (components c) eqn:P; cbn [andb].
    + assert (F : exists x y r, kids c = (x, y) :: r /\ first_len c = numel y).
      { unfold components in P. destruct c as [|[|[x y] r]|[|y r]| |]; try discriminate P; try discriminate R1.
        - exists x, y, r. split; reflexivity.
        - eexists _, y, _. split; reflexivity. }
      destruct F as (x & y & r & F1 & F2). rewrite F1, F2. destruct (Nat.eqb n0 0) eqn:Z.
      * eapply ok_eq; [apply IH; assumption|]. cbn [agree]. destruct (numel y); cbn [Nat.eqb]; reflexivity.
      * cbn [forallb]. destruct (Nat.eqb n0 (numel y)); cbn [andb].
        -- eapply ok_eq; [apply IH; assumption|]. rewrite Z. reflexivity.
        -- apply ok_tell; [apply error_fine|]. eapply ok_eq; [apply IH; assumption|]. cbn [andb]. bt.
    + eapply ok_eq; [apply IH; assumption|]. bt.
Qed.
Lemma ok_specset n : clean n -> readable_specset n = true ->
  ok (also (v_str n (L "matset")) (v_objsub (fun vs => finish (v_species vs (kids vs) true 0)) n (L "matset_values"))) (specset_ok n).
Proof.
  intros C R. unfold readable_specset in R. eapply ok_eq.
  - apply ok_also; [apply keeps_ok, keeps_str; nv|].
    apply keeps_ok, keeps_objsub with (h := fun vs => every components vs && agree (map (fun e => first_len (snd e)) (kids vs))); [nv|].
    intros vs K O. rewrite (may_some _ _ _ _ K) in R. apply ok_finish. eapply ok_eq.
    + apply ok_species; [apply (clean_kid _ _ _ C K)|destruct vs; try discriminate O; reflexivity|auto|exact R].
    + reflexivity.
  - unfold specset_ok. f_equal. apply must_ext. intro c. bt.
Qed.

(** * Domains that meet *)
Lemma assoc_part n : keeps (v_sub (v_name associations) n (L "association")) (assoc_ok n).
Proof. apply keeps_sub; [nv|]. intros c _. apply ok_name. Qed.
Lemma keeps_dims_sub n f : f <> L "valid" -> keeps (v_sub v_dims n f) (must f dims_ok n).
Proof. intro F. apply keeps_sub; [exact F|]. intros c _. apply ok_dims. Qed.
Lemma dims_object c : dims_ok c = true -> object_ c = true.
Proof. destruct c as [|[|e es]| | |]; try discriminate; reflexivity. Qed.
Lemma ok_window w : ok (v_window w) (window_ok w).
Proof.
  unfold v_window. apply ok_finish. apply ok_bind with (x := window_ok w).
  - eapply ok_eq; [all_parts; apply keeps_ok, keeps_dims_sub; nv|unfold window_ok; bt].
  - destruct (window_ok w) eqn:W; [|apply keeps_ok, keeps_ret]. unfold window_ok in W. apply andb_prop in W. destruct W as [W W3]. apply andb_prop in W. destruct W as [W1 W2].
    unfold must in *. destruct (kid w (L "origin")) as [o|] eqn:KO; [|discriminate W1]. destruct (kid w (L "dims")) as [d|] eqn:KD; [|discriminate W2].
    destruct (kid w (L "ratio")) as [r|] eqn:KR; [|discriminate W3]. eapply ok_need; [apply fetch_kid, KO|]. cbv zeta. eapply ok_eq.
    + apply ok_also; apply keeps_ok, keeps_maybe, keeps_typed; nv.
    + rewrite (may_some _ _ _ _ KD), (may_some _ _ _ _ KR).
      apply dims_object in W2, W3.
      destruct d as [|[|]| | |]; try discriminate W2. destruct r as [|[|]| | |]; try discriminate W3.
      unfold object_like. cbn [is_object is_list andb orb kids length Nat.eqb negb]. rewrite !Bool.orb_true_r. reflexivity.
  - auto.
Qed.
Lemma ok_windows g ws : clean g -> kid g (L "windows") = Some ws -> keeps (v_windows g) (every window_ok ws).
Proof.
  intros C K. eapply keeps_need; [apply fetch_kid, K|]. apply keeps_at; [nv|]. apply ok_finish. apply ok_each.
  intros [k c] H. cbn [fst snd]. apply keeps_ok, keeps_at; [apply (kids_nv ws k c (clean_kid _ _ _ C K) H)|apply ok_window].
Qed.
Lemma ok_group g : clean g -> ok (v_group g) (group_ok g).
Proof.
  intro C. unfold v_group, group_ok. change (has g (L "values")) with (given (L "values") g). change (has g (L "windows")) with (given (L "windows") g).
  destruct (given (L "values") g).
  - apply ok_finish, keeps_ok, keeps_also; apply keeps_int; nv.
  - destruct (kid g (L "windows")) as [ws|] eqn:K; [rewrite (given_some _ _ _ K)|rewrite (given_none _ _ K), Bool.andb_true_r; apply ok_finish, keeps_ok, keeps_int; nv].
    eapply ok_kb; [apply keeps_int; nv|]. eapply ok_kb; [apply keeps_obj; nv|]. eapply ok_kb; [apply (ok_windows g ws C K)|].
    eapply ok_kb; [apply keeps_maybe, keeps_int; nv|]. rewrite !(must_some _ (L "windows") _ _ K).
    eapply ok_bind; [apply ok_valid| |].
    + eapply ok_eq; [apply keeps_ok, keeps_ret|]. bt.
    + destruct (must (L "neighbors") int_ g), (object_ ws), (may (L "orientation") int_ g); cbn; try reflexivity; try discriminate.
      rewrite Bool.andb_false_r. discriminate.
Qed.
Lemma ok_adjset n : clean n ->
  ok (all_
    [v_str n (L "topology"); v_sub (v_name associations) n (L "association");
     andb_ (typed (object_like false true 0) n (L "groups"))
       (need (fetch n (L "groups")) (fun gs =>
         bindV (each (fun e => at_ (L "groups") (at_ (fst e) (v_group (snd e)))) (kids gs)) (fun r =>
         bindV (at_ (L "groups") (valid (forallb (fun e => group_res (snd e)) (kids gs)))) (fun _ => ret r))))]) (adjset_ok n).
Proof.
  intro C. eapply ok_eq.
  - all_parts; apply keeps_ok; [apply keeps_str; nv|apply assoc_part|].
    apply keeps_seen with (p := object_like false true 0) (g := every group_ok); [|apply keeps_typed; nv].
    intros gs K _. eapply keeps_bind.
    + apply keeps_each with (g := fun e => group_ok (snd e)). intros [k c] H. cbn [fst snd].
      pose proof (kids_fine gs k c (clean_kid _ _ _ C K) H) as [F G].
      apply keeps_at; [nv|]. apply keeps_ok, keeps_at; [apply not_valid, F|apply ok_group, G].
    + eapply keeps_bind; [apply keeps_at; [nv|apply ok_valid]|apply keeps_ret].
  - unfold adjset_ok. rewrite Bool.andb_true_r, Bool.andb_assoc. f_equal. apply must_ext. intros [| | | |]; reflexivity.
Qed.

(** * Domains that nest *)
Lemma obj_num d c : dims_ok c = true -> object_like false false d c = (Nat.eqb d 0 || Nat.eqb (size c) d).
Proof. intro H. apply dims_object in H. destruct c as [|[|]| | |]; try discriminate H. reflexivity. Qed.
Lemma size_pos c : dims_ok c = true -> Nat.eqb (length (kids c)) 0 = false.
Proof. intro H. apply dims_object in H. destruct c as [|[|]| | |]; try discriminate H. reflexivity. Qed.
Lemma ok_nest w : ok (v_nest w) (nest_ok w).
Proof.
  unfold v_nest. apply ok_finish.
  set (x := must (L "domain_id") int_ w && must (L "domain_type") (word [L "parent"; L "child"]) w && must (L "ratio") dims_ok w &&
            may (L "origin") dims_ok w && may (L "dims") dims_ok w).
  apply ok_bind with (x := x).
  - eapply ok_eq.
    + all_parts; apply keeps_ok; [apply keeps_int; nv| |apply keeps_dims_sub; nv| |].
      * apply keeps_sub with (h := word [L "parent"; L "child"]); [nv|]. intros c _. apply ok_name.
      * apply keeps_given with (h := dims_ok); [nv|]. intros c _. apply ok_dims.
      * apply keeps_given with (h := dims_ok); [nv|]. intros c _. apply ok_dims.
    + unfold x. bt.
  - unfold x, nest_ok. clear x. destruct (must (L "domain_id") int_ w); [|apply keeps_ok, keeps_ret].
    destruct (must (L "domain_type") (word [L "parent"; L "child"]) w); [|apply keeps_ok, keeps_ret]. cbn [andb].
    destruct (kid w (L "ratio")) as [r|] eqn:KR; [rewrite !(must_some _ _ _ _ KR)|rewrite !(must_none _ _ _ KR); apply keeps_ok, keeps_ret].
    destruct (dims_ok r) eqn:DR; cbn [andb]; [|apply keeps_ok, keeps_ret].
    assert (P : forall f, may f dims_ok w = true -> f <> L "valid" ->
      keeps (when (has w f) (typed (object_like false false (length (kids r))) w f)) (may f (fun o => dims_ok o && Nat.eqb (size o) (size r)) w)).
    { intros f D F. eapply keeps_eq; [apply keeps_maybe, keeps_typed, F|]. unfold may in *. destruct (kid w f) as [c|]; [|reflexivity].
      rewrite (obj_num _ _ D), D, (size_pos _ DR). reflexivity. }
    assert (Q : forall f, may f dims_ok w = false -> may f (fun o => dims_ok o && Nat.eqb (size o) (size r)) w = false).
    { intros f D. unfold may in *. destruct (kid w f) as [c|]; [rewrite D; reflexivity|discriminate D]. }
    destruct (may (L "origin") dims_ok w) eqn:DO; [|rewrite (Q _ DO); apply keeps_ok, keeps_ret].
    destruct (may (L "dims") dims_ok w) eqn:DD; [|rewrite (Q _ DD), !Bool.andb_false_r; apply keeps_ok, keeps_ret].
    cbn [andb]. eapply ok_need; [apply fetch_kid, KR|]. cbv zeta. apply keeps_ok, keeps_also; apply P; first [assumption|nv].
  - unfold x, nest_ok. intro H. apply andb_prop in H. destruct H as [H H3]. rewrite H. cbn [andb].
    unfold must in *. destruct (kid w (L "ratio")) as [r|]; [|discriminate H3]. apply andb_prop in H3. destruct H3 as [H3 H2]. apply andb_prop in H3. destruct H3 as [-> H1].
    unfold may in *. destruct (kid w (L "origin")); [apply andb_prop in H1; rewrite (proj1 H1)|]; (destruct (kid w (L "dims")); [apply andb_prop in H2; rewrite (proj1 H2)|]); reflexivity.
Qed.
Lemma ok_nestset n : clean n ->
  ok (all_
    [v_str n (L "topology"); v_sub (v_name associations) n (L "association");
     v_objsub (fun ws => finish (each (fun e => at_ (fst e) (v_nest (snd e))) (kids ws))) n (L "windows")]) (nestset_ok n).
Proof.
  intro C. eapply ok_eq.
  - all_parts; apply keeps_ok; [apply keeps_str; nv|apply assoc_part|].
    apply keeps_objsub with (h := every nest_ok); [nv|]. intros ws K _. apply ok_finish, ok_each. intros [k c] H. cbn [fst snd].
    apply keeps_ok, keeps_at; [apply (kids_nv ws k c (clean_kid _ _ _ C K) H)|apply ok_nest].
  - unfold nestset_ok. bt.
Qed.
