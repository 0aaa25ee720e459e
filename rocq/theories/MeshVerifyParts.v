(** Checks of coordinates, topologies, materials, fields and domains that meet. *)
From Coq Require Import ZArith Lia Btauto.
From Verif Require Import Base DType SpecTree Mem Node Number ArrayOps NumConv Json JsonSchema CsvNum MeshVerify MeshVerifySpec MeshVerifyFacts.
Import ListNotations.

(** * Clean trees *)
Fixpoint cleans (l : list (str * tree)) : Prop :=
  match l with [] => True | (k, c) :: r => ~ In k [L "valid"; L "info"; L "optional"; L "errors"] /\ clean c /\ cleans r end.
Lemma clean_obj es : clean (TObj es) -> NoDup (map fst es) /\ cleans es.
Proof.
  intros [A B]. split; [exact A|]. clear A. induction es as [|[k c] r IH]; [exact I|]. destruct B as [B1 [B2 B3]].
  split; [exact B1|split; [exact B2|exact (IH B3)]].
Qed.
Lemma cleans_In l k c : cleans l -> In (k, c) l -> ~ In k [L "valid"; L "info"; L "optional"; L "errors"] /\ clean c.
Proof.
  induction l as [|[k' c'] r IH]; [intros _ []|]. intros [A [B C]] [E|E]; [inversion E; subst; auto|exact (IH C E)].
Qed.
Definition reserved := [L "valid"; L "info"; L "optional"; L "errors"].
Lemma number_fine i : ~ In (show_Z (Z.of_nat i)) reserved.
Proof.
  destruct (show_Z_text (Z.of_nat i)) as (s & D & _ & E). replace (Z.of_nat i <? 0)%Z with false in E by lia.
  cbn [app] in E. destruct D as [D1 D2]. rewrite <- E in D2. intros [F|[F|[F|[F|[]]]]]; rewrite <- F in D2; pose proof (Forall_inv D2) as P; vm_compute in P; intuition discriminate.
Qed.
Lemma kids_fine n k c : clean n -> In (k, c) (kids n) -> ~ In k reserved /\ clean c.
Proof.
  destruct n as [|es|ts| |]; cbn [kids]; try (intros _ []; fail).
  - intros C H. apply cleans_In with (l := es); [apply clean_obj, C|exact H].
  - intros C H. split.
    + apply in_combine_l in H. apply in_map_iff in H. destruct H as [i [<- _]]. apply number_fine.
    + apply in_combine_r in H. revert C H. induction ts as [|t ts IH]; [intros _ []|]. intros [A B] [->|H]; [exact A|exact (IH B H)].
Qed.
Lemma not_valid k : ~ In k reserved -> k <> L "valid".
Proof. intros H E. apply H. subst. left. reflexivity. Qed.
Lemma kids_nv n k c : clean n -> In (k, c) (kids n) -> k <> L "valid".
Proof. intros C H. apply not_valid. exact (proj1 (kids_fine n k c C H)). Qed.
Lemma clean_kid n k c : clean n -> kid n k = Some c -> clean c.
Proof. destruct n; cbn [kid]; try discriminate. intros C H. apply mget_In in H. exact (proj2 (kids_fine _ k c C H)). Qed.
Lemma kid_of n k c : clean n -> is_object n = true -> In (k, c) (kids n) -> kid n k = Some c.
Proof. destruct n; try discriminate. intros C _ H. cbn [kid]. apply mget_Some_In_nodup; [apply clean_obj, C|exact H]. Qed.
Lemma kid_kids n k c : kid n k = Some c -> In (k, c) (kids n).
Proof. destruct n; try discriminate. apply mget_In. Qed.

Ltac bt := cbv beta; btauto.
Ltac all_parts := repeat (apply ok_all_cons; [|]); try apply ok_all_nil.
Lemma must_some n f p c : kid n f = Some c -> must f p n = p c. Proof. unfold must. intros ->. reflexivity. Qed.
Lemma must_none n f p : kid n f = None -> must f p n = false. Proof. unfold must. intros ->. reflexivity. Qed.
Lemma may_some n f p c : kid n f = Some c -> may f p n = p c. Proof. unfold may. intros ->. reflexivity. Qed.
Lemma may_none n f p : kid n f = None -> may f p n = true. Proof. unfold may. intros ->. reflexivity. Qed.
Lemma given_some n f c : kid n f = Some c -> given f n = true. Proof. unfold given. intros ->. reflexivity. Qed.
Lemma given_none n f : kid n f = None -> given f n = false. Proof. unfold given. intros ->. reflexivity. Qed.
(** the words a string may be, one after another *)
Ltac words :=
  repeat match goal with
         | |- context [str_eqb (L ?a) (L ?b)] => let v := eval vm_compute in (str_eqb (L a) (L b)) in change (str_eqb (L a) (L b)) with v
         | H : context [str_eqb (L ?a) (L ?b)] |- _ => let v := eval vm_compute in (str_eqb (L a) (L b)) in change (str_eqb (L a) (L b)) with v in H
         end.
Ltac is_word x w := let E := fresh in destruct (str_eqb_spec x w) as [E|_]; [subst x|]; words.
(** * Coordinates *)
Lemma ok_dims n : ok (v_dims n) (dims_ok n).
Proof.
  apply ok_reset, ok_finish. eapply ok_eq.
  - all_parts; apply keeps_ok; [apply keeps_int; nv|apply keeps_maybe, keeps_int; nv|apply keeps_maybe, keeps_int; nv].
  - unfold dims_ok. bt.
Qed.
Lemma ok_axes pre n : (forall a, In a coord_axes -> pre ++ a <> L "valid") -> ok (v_axes pre n) (axes_ok pre n).
Proof.
  intro H. apply ok_reset, ok_finish. apply ok_each. intros a A. apply keeps_ok, keeps_maybe, keeps_num, H, A.
Qed.
Lemma ok_origin n : ok (v_axes [] n) (axes_ok [] n).
Proof. apply ok_axes. intros a A. cbn in A. intuition subst; discriminate. Qed.
Lemma ok_spacing n : ok (v_axes (L "d") n) (axes_ok (L "d") n).
Proof. apply ok_axes. intros a A. cbn in A. intuition subst; discriminate. Qed.
Lemma ok_uniform n : ok (v_uniform n) (must (L "type") (word [L "uniform"]) n && must (L "dims") (fun d => object_ d && dims_ok d) n &&
    may (L "origin") (axes_ok []) n && may (L "spacing") (axes_ok (L "d")) n).
Proof.
  apply ok_reset, ok_finish. eapply ok_eq.
  - all_parts; apply keeps_ok; [apply keeps_enum; nv| | |].
    + apply keeps_objsub with (h := dims_ok); [nv|]. intros c _ _. apply ok_dims.
    + apply keeps_option with (h := axes_ok []); [nv|]. intros c _. apply ok_origin.
    + apply keeps_option with (h := axes_ok (L "d")); [nv|]. intros c _. apply ok_spacing.
  - bt.
Qed.
Lemma ok_rectilinear n : ok (v_rectilinear n) (must (L "type") (word [L "rectilinear"]) n &&
    must (L "values") (fun v => match v with TObj (_ :: _) | TList (_ :: _) => true | _ => false end && every num_ v) n).
Proof.
  apply ok_reset, ok_finish. eapply ok_eq.
  - all_parts; apply keeps_ok; [apply keeps_enum; nv|].
    apply keeps_seen with (g := every num_); [|apply keeps_typed; nv]. intros c _ _. eapply keeps_eq.
    + apply keeps_each with (g := fun e => is_number (snd e)). intros e _. apply keeps_test.
    + apply forallb_ext'. intro e. apply num_eq.
  - rewrite Bool.andb_true_r. f_equal. apply must_ext. intros [|[|e es]|[|t ts]| |]; reflexivity.
Qed.
Lemma ok_explicit n : ok (v_explicit n) (must (L "type") (word [L "explicit"]) n && must (L "values") components n).
Proof.
  apply ok_reset, ok_finish. eapply ok_eq.
  - all_parts; apply keeps_ok; [apply keeps_enum; nv|]. apply keeps_by with (g := components); [nv|]. intros c _. apply ok_mcarray.
  - bt.
Qed.
Lemma one_word s w : word [w] (TStr s) = str_eqb s w.
Proof. cbn. apply Bool.orb_false_r. Qed.
Lemma ok_coordset n : ok (bindV (v_sub (v_name coord_types) n (L "type")) (fun r =>
    if r then
      need (fetch n (L "type")) (fun t => fun i =>
        do s <- as_string t;
        if str_eqb s (L "uniform") then v_uniform n i
        else if str_eqb s (L "rectilinear") then v_rectilinear n i
        else if str_eqb s (L "explicit") then v_explicit n i
        else Ok (true, i))
    else ret false)) (coordset_ok n).
Proof.
  apply ok_kb with (x := must (L "type") (word coord_types) n); [apply keeps_sub; [nv|intros c _; apply ok_name]|].
  pose proof (ok_uniform n) as A. pose proof (ok_rectilinear n) as B. pose proof (ok_explicit n) as C.
  unfold coordset_ok. destruct (kid n (L "type")) as [t|] eqn:K.
  2: { rewrite !(must_none _ _ _ K). apply keeps_ok, keeps_ret. }
  rewrite !(must_some _ _ _ _ K) in *. unfold fetch. rewrite K. destruct t as [| | |s|]; try (apply keeps_ok, keeps_ret).
  rewrite !one_word in *. unfold word, coord_types. cbn [existsb].
  is_word s (L "uniform"); [refine (ok_eq (v_uniform n) _ _ A _); bt|].
  is_word s (L "rectilinear"); [refine (ok_eq (v_rectilinear n) _ _ B _); bt|].
  is_word s (L "explicit"); [refine (ok_eq (v_explicit n) _ _ C _); bt|].
  apply keeps_ok, keeps_ret.
Qed.

(** * Topologies *)
Lemma ok_seen n f p g (k : tree -> V) : (forall c, kid n f = Some c -> p c = true -> ok (k c) (g c)) ->
  forall a, ok a (must f p n) -> ok (andb_ a (need (fetch n f) k)) (must f (fun c => p c && g c) n).
Proof.
  intros H a A. unfold must in *. destruct (kid n f) as [c|] eqn:K.
  - apply ok_andb; [exact A|]. intro P. eapply ok_need; [apply fetch_kid, K|]. apply H; auto.
  - eapply ok_eq; [apply ok_andb with (x := false) (y := false); [exact A|discriminate]|reflexivity].
Qed.
Lemma shape_eq s n : is_shape s n = of_shape s n.
Proof.
  unfold is_shape, of_shape, must. destruct (kid n (L "shape")) as [c|]; [|reflexivity]. destruct c; try reflexivity.
  symmetry. apply one_word.
Qed.
Lemma ok_shape_map m : every (fun c => match c with TNum t (_ :: _) => tid_eqb t INT32 | _ => false end) m = true ->
  ok (v_shape_map m) (object_ m && forallb (fun e => word shapes (TStr (fst e))) (kids m)).
Proof.
  intro R. apply ok_reset, ok_finish. eapply ok_eq.
  - apply ok_also; [apply ok_self|]. apply ok_each with (g := fun e => is_object m && existsb (str_eqb (fst e)) topo_shapes).
    intros e H. apply keeps_ok. unfold every in R. rewrite forallb_forall in R. specialize (R e H).
    destruct (snd e) as [| | | |t [|v vs]]; try discriminate R. unfold first_int32. rewrite R. cbn [obind]. apply keeps_test_info.
  - rewrite obj_eq. destruct m as [|[|e es]| | |]; reflexivity.
Qed.
Lemma ok_shapes s m : string_ s = false -> every (fun c => match c with TNum t (_ :: _) => tid_eqb t INT32 | _ => false end) m = true ->
  ok (v_shapes s m) (int_ s && match s with
                               | TNum _ vs => forallb (fun v => existsb (Z.eqb (conv INT32 v)) (shape_numbers m)) vs
                               | _ => false end).
Proof.
  intros S R. unfold v_shapes. apply ok_bind with (x := int_ s).
  - eapply ok_eq; [apply ok_self|apply int_eq].
  - rewrite str_eq, S. apply keeps_ok.
    assert (E : flat_map (fun e : str * tree => match snd e with TNum _ (v :: _) => [v] | _ => [0%Z] end) (kids m) = shape_numbers m).
    { unfold shape_numbers, every in *. induction (kids m) as [|e l IH]; [reflexivity|]. cbn [forallb flat_map] in *.
      apply andb_prop in R. rewrite (IH (proj2 R)). f_equal. destruct R as [R _]. destruct (snd e) as [| | | |t [|v vs]]; try discriminate R; reflexivity. }
    rewrite E. destruct s as [| | | |t vs]; try apply keeps_ret.
    change (is_int t) with (is_integer (TNum t vs)). rewrite int_eq. destruct (int_ (TNum t vs)); cbn [andb]; [apply keeps_test|apply keeps_ret].
  - destruct (int_ s); [reflexivity|discriminate].
Qed.
Lemma ok_mixed_part e : readable_map e = true -> ok (v_mixed_part e) (mixed_ok e).
Proof.
  intro R. apply andb_prop in R. destruct R as [R1 R2]. eapply ok_eq.
  - all_parts; apply keeps_ok.
    + apply keeps_sub with (h := word shapes); [nv|]. intros c _. apply ok_name.
    + apply keeps_sub with (h := fun m => object_ m && forallb (fun e => word shapes (TStr (fst e))) (kids m)); [nv|].
      intros m M. apply ok_shape_map. rewrite (may_some _ _ _ _ M) in R1. exact R1.
    + apply keeps_seen with (p := fun _ => true) (g := fun s => int_ s && match s, kid e (L "shape_map") with
          | TNum _ vs, Some m => forallb (fun v => existsb (Z.eqb (conv INT32 v)) (shape_numbers m)) vs | _, _ => false end).
      * intros s K _. rewrite (given_some _ _ _ K), (must_some _ _ _ _ K) in R2. cbn [negb orb] in R2. apply andb_prop in R2. destruct R2 as [G S].
        unfold given in G. destruct (kid e (L "shape_map")) as [m|] eqn:M; [|discriminate G].
        eapply keeps_need; [apply fetch_kid, M|]. apply keeps_at; [nv|]. rewrite (may_some _ _ _ _ M) in R1.
        apply ok_shapes; [destruct (string_ s); [discriminate S|reflexivity]|exact R1].
      * eapply keeps_eq; [apply keeps_exists; nv|unfold given, must; destruct (kid e (L "shapes")); reflexivity].
  - unfold mixed_ok. cbn [andb]. bt.
Qed.
Lemma ok_mixed n e : kid n (L "elements") = Some e -> readable_map e = true -> may (L "subelements") readable_map n = true ->
  ok (v_mixed n) (mixed_ok e && relation e && may (L "subelements") (fun s => mixed_ok s && relation s) n).
Proof.
  intros K R S. unfold v_mixed. eapply ok_need; [apply fetch_kid, K|]. eapply ok_eq.
  - all_parts; apply keeps_ok.
    + apply keeps_at; [nv|apply ok_mixed_part, R].
    + apply keeps_by with (g := relation); [nv|]. intros c _. apply ok_o2m.
    + apply keeps_when with (b := must (L "subelements") (fun s => mixed_ok s && relation s) n). unfold has. destruct (kid n (L "subelements")) as [s|] eqn:B; [|discriminate].
      intros _. rewrite (must_some _ _ _ _ B). rewrite (may_some _ _ _ _ B) in S. eapply keeps_need; [apply fetch_kid, B|].
      apply keeps_also; [apply keeps_at; [nv|apply ok_mixed_part, S]|].
      eapply keeps_eq; [apply keeps_by with (g := relation); [nv|intros c _; apply ok_o2m]|apply must_some, B].
  - cbv beta. rewrite may_must, (must_some _ _ _ _ K). bt.
Qed.
Lemma ok_faces c : may (L "shape") string_ c = true -> ok (v_faces c) (faces c).
Proof.
  intro S. unfold v_faces. apply ok_finish. unfold faces, of_shape. unfold has. destruct (kid c (L "shape")) as [s|] eqn:K.
  2: { rewrite (must_none _ _ _ K). apply keeps_ok, keeps_ret. }
  rewrite (may_some _ _ _ _ K) in S. destruct s as [| | |s|]; try discriminate S. eapply ok_eq.
  - all_parts; [apply keeps_ok, keeps_sub with (h := word shapes); [nv|intros x _; apply ok_name]|apply keeps_ok, keeps_int; nv| |apply ok_o2m].
    eapply ok_need; [apply fetch_kid, K|]. cbn [as_string]. apply keeps_ok. exact (keeps_ret (str_eqb s (L "polygonal"))).
  - rewrite !(must_some _ _ _ _ K), one_word. unfold word, shapes. cbn [existsb].
    is_word s (L "polygonal"); bt.
Qed.
Lemma keeps_subelems_one n : may (L "subelements") (fun s => may (L "shape") string_ s && every (may (L "shape") string_) s) n = true ->
  keeps (v_subelems None n) (must (L "subelements") (fun s => object_ s && faces s) n).
Proof.
  intro R. unfold v_subelems. apply keeps_seen with (p := object_); [|apply keeps_obj; nv]. intros s K _.
  rewrite (may_some _ _ _ _ K) in R. apply andb_prop in R. apply keeps_at; [nv|]. apply ok_finish.
  unfold has. destruct (kid s (L "shape")) eqn:E; [apply ok_faces, R|].
  unfold faces, of_shape. rewrite (must_none _ _ _ E). apply keeps_ok, keeps_ret.
Qed.
Lemma keeps_subelems_named k n : k <> L "valid" -> may (L "subelements") (fun s => may (L "shape") string_ s && every (may (L "shape") string_) s) n = true ->
  keeps (v_subelems (Some k) n) (must (L "subelements") (fun s => object_ s && must k faces s) n).
Proof.
  intros N R. unfold v_subelems. apply keeps_seen with (p := object_); [|apply keeps_obj; nv]. intros s K _.
  rewrite (may_some _ _ _ _ K) in R. apply andb_prop in R. destruct R as [_ R]. apply keeps_at; [nv|]. apply ok_finish.
  unfold must. destruct (kid s k) as [c|] eqn:E; [|apply keeps_ok, keeps_ret].
  apply keeps_ok, keeps_at; [exact N|]. apply ok_faces. unfold every in R. rewrite forallb_forall in R. exact (R (k, c) (kid_kids _ _ _ E)).
Qed.
Lemma keeps_poly name place f e n : keeps (place (o2m e)) (relation e) ->
  keeps (v_subelems name n) (must (L "subelements") (fun s => object_ s && f s) n) -> keeps (v_poly name place e n) (poly_ok f e n).
Proof.
  intros P S. unfold v_poly, poly_ok. rewrite !shape_eq.
  assert (X : of_shape (L "polyhedral") e = true -> of_shape (L "polygonal") e || of_shape (L "polyhedral") e = true) by (intros ->; apply Bool.orb_true_r).
  destruct (of_shape (L "polygonal") e || of_shape (L "polyhedral") e).
  - apply keeps_also; [exact P|]. destruct (of_shape (L "polyhedral") e); [exact S|apply keeps_ret].
  - destruct (of_shape (L "polyhedral") e); [discriminate (X eq_refl)|apply keeps_ret].
Qed.
Lemma ok_kinds n l : may (L "subelements") (fun s => may (L "shape") string_ s && every (may (L "shape") string_) s) n = true ->
  (forall k c, In (k, c) l -> k <> L "valid") -> forall before,
  ok (v_kinds n before l) (before && forallb (fun c => block (snd c) && poly_ok (must (fst c) faces) (snd c) n) l).
Proof.
  intros R. induction l as [|[k c] l IH]; intros N before.
  - cbn. rewrite Bool.andb_true_r. apply keeps_ok, keeps_ret.
  - cbn [v_kinds forallb fst snd]. pose proof (N k c (or_introl eq_refl)) as K.
    assert (P : forall v b, ok v b -> keeps (at_ (L "elements") (at_ k v)) b) by (intros v b V; apply keeps_at; [nv|apply keeps_ok, keeps_at; [exact K|exact V]]).
    set (x := block c && poly_ok (must k faces) c n && before).
    apply ok_bind with (x := x).
    + eapply ok_eq.
      * all_parts; [apply keeps_ok, P, keeps_ok, keeps_sub with (h := word shapes); [nv|intros s _; apply ok_name]
                   |apply keeps_ok, P, keeps_ok, keeps_int; nv| |apply keeps_ok, keeps_ret].
        apply keeps_ok. apply keeps_poly with (f := must k faces); [apply P, ok_o2m|apply keeps_subelems_named; [exact K|exact R]].
      * unfold x, block. bt.
    + eapply ok_kb; [apply P, ok_valid|]. eapply ok_eq; [apply IH; intros k' c' H; apply (N k' c'); right; exact H|].
      unfold x. bt.
    + unfold x. intro Y. apply andb_prop in Y. destruct Y as [-> Y]. apply andb_prop in Y. rewrite (proj1 Y). reflexivity.
Qed.
Definition dims_of (e : tree) : bool := object_ e && must (L "dims") (fun d => object_ d && dims_ok d) e.
Lemma ok_structured n : ok (v_structured n) (must (L "coordset") string_ n && must (L "type") (word [L "structured"]) n && must (L "elements") dims_of n).
Proof.
  apply ok_reset, ok_finish. eapply ok_eq.
  - all_parts; apply keeps_ok; [apply keeps_str; nv|apply keeps_enum; nv|].
    apply keeps_seen with (g := must (L "dims") (fun d => object_ d && dims_ok d)); [|apply keeps_obj; nv].
    intros e _ _. apply keeps_at; [nv|]. apply ok_finish, keeps_ok. apply keeps_objsub; [nv|]. intros c _ _. apply ok_dims.
  - change (fun c => object_ c && must (L "dims") (fun d => object_ d && dims_ok d) c) with dims_of. bt.
Qed.
Lemma ok_implicit t n : ok (v_implicit t n) (must (L "coordset") string_ n && must (L "type") (word [t]) n).
Proof.
  apply ok_reset, ok_finish. eapply ok_eq; [all_parts; apply keeps_ok; [apply keeps_str; nv|apply keeps_enum; nv]|bt].
Qed.
Lemma ok_unstructured n : clean n -> readable_topology n = true ->
  ok (v_unstructured n) (must (L "coordset") string_ n && must (L "type") (word [L "unstructured"]) n && must (L "elements") (elements_ok n) n).
Proof.
  intros C R. apply andb_prop in R. destruct R as [R1 R2]. apply ok_reset, ok_finish. eapply ok_eq.
  - all_parts; [apply keeps_ok, keeps_str; nv|apply keeps_ok, keeps_enum; nv|].
    apply ok_seen with (p := object_) (g := elements_ok n); [|apply keeps_ok, keeps_obj; nv].
    intros e K O. rewrite (may_some _ _ _ _ K) in R1. unfold elements_ok. rewrite O. cbn [andb].
    assert (P : forall v b, ok v b -> ok (at_ (L "elements") v) b) by (intros v b V; apply keeps_ok, keeps_at; [nv|exact V]).
    assert (S : ok (at_ (L "elements") (v_sub (v_name topo_shapes) e (L "shape"))) (must (L "shape") (word shapes) e))
      by (apply P, keeps_ok, keeps_sub with (h := word shapes); [nv|intros s _; apply ok_name]).
    assert (N : ok (at_ (L "elements") (v_int e (L "connectivity"))) (must (L "connectivity") int_ e)) by (apply P, keeps_ok, keeps_int; nv).
    change (has e (L "shape")) with (given (L "shape") e). destruct (given (L "shape") e) eqn:G.
    + rewrite shape_eq. destruct (of_shape (L "mixed") e) eqn:M; cbn [negb orb] in R1.
      * apply andb_prop in R1. eapply ok_bind; [|apply P, ok_valid|auto]. eapply ok_eq.
        -- all_parts; [exact S|exact N|]. apply ok_mixed; [exact K|apply R1|apply R1].
        -- unfold block. bt.
      * eapply ok_bind; [|apply P, ok_valid|auto]. eapply ok_eq.
        -- all_parts; [exact S|exact N|]. apply keeps_ok, keeps_poly with (f := faces); [apply keeps_at; [nv|apply ok_o2m]|apply keeps_subelems_one, R2].
        -- unfold block. bt.
    + change (has e (L "element_types")) with (given (L "element_types") e). destruct (given (L "element_types") e); [apply P, ok_valid|].
      eapply ok_bind; [|apply P, ok_valid|auto]. apply ok_kinds; [exact R2|]. intros k c H.
      apply (kids_nv e k c); [apply (clean_kid n _ e C K)|exact H].
  - assert (E : must (L "elements") (fun c => object_ c && elements_ok n c) n = must (L "elements") (elements_ok n) n).
    { apply must_ext. intro c. unfold elements_ok. destruct (object_ c); reflexivity. }
    rewrite E. bt.
Qed.
Lemma ok_topology n : clean n -> readable_topology n = true ->
  ok (also
    (bindV (v_sub (v_name topo_types) n (L "type")) (fun r =>
      if r then need (fetch n (L "type")) (fun t => fun i =>
        do s <- as_string t;
        (if str_eqb s (L "points") then v_implicit s n
         else if str_eqb s (L "uniform") then v_implicit s n
         else if str_eqb s (L "rectilinear") then v_implicit s n
         else if str_eqb s (L "structured") then v_structured n
         else if str_eqb s (L "unstructured") then v_unstructured n
         else ret true) i)
      else ret false))
    (when (has n (L "grid_function")) (tell log_optional (v_str n (L "grid_function"))))) (topology_ok n).
Proof.
  intros C R. pose proof (ok_structured n) as A. pose proof (ok_unstructured n C R) as B.
  pose proof (fun t => ok_implicit t n) as D.
  set (first := must (L "coordset") string_ n &&
    (must (L "type") (word [L "points"; L "uniform"; L "rectilinear"]) n
     || must (L "type") (word [L "structured"]) n && must (L "elements") dims_of n
     || must (L "type") (word [L "unstructured"]) n && must (L "elements") (elements_ok n) n)).
  apply ok_eq with (b := first && may (L "grid_function") string_ n).
  2: { unfold topology_ok, first. change (fun e => object_ e && must (L "dims") (fun d => object_ d && dims_ok d) e) with dims_of. bt. }
  apply ok_also; [|apply keeps_ok, keeps_maybe, keeps_optional, keeps_str; nv].
  apply ok_kb with (x := must (L "type") (word topo_types) n); [apply keeps_sub; [nv|intros c _; apply ok_name]|].
  unfold first. clear first. destruct (kid n (L "type")) as [t|] eqn:K.
  2: { rewrite !(must_none _ (L "type") _ K). cbn [orb andb]. rewrite Bool.andb_false_r. apply keeps_ok, keeps_ret. }
  rewrite !(must_some _ (L "type") _ _ K) in *. unfold fetch. rewrite K.
  destruct t as [| | |s|]; try (cbn [word orb andb]; rewrite Bool.andb_false_r; apply keeps_ok, keeps_ret).
  assert (D' : forall w, ok (v_implicit w n) (must (L "coordset") string_ n && str_eqb s w)).
  { intro w. eapply ok_eq; [apply D|]. rewrite (must_some _ (L "type") _ _ K), one_word. reflexivity. }
  clear D. rewrite !one_word in *. unfold word, topo_types. cbn [existsb].
  is_word s (L "points"); [refine (ok_eq (v_implicit (L "points") n) _ _ (D' (L "points")) _); words; bt|].
  is_word s (L "uniform"); [refine (ok_eq (v_implicit (L "uniform") n) _ _ (D' (L "uniform")) _); words; bt|].
  is_word s (L "rectilinear"); [refine (ok_eq (v_implicit (L "rectilinear") n) _ _ (D' (L "rectilinear")) _); words; bt|].
  is_word s (L "structured"); [refine (ok_eq (v_structured n) _ _ A _); bt|].
  is_word s (L "unstructured"); [refine (ok_eq (v_unstructured n) _ _ B _); bt|].
  cbn [orb andb]. rewrite Bool.andb_false_r. apply keeps_ok, keeps_ret.
Qed.
