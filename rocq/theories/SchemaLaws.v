(** Final forms of the schema-level laws (statements repeated in P_Schema.v). *)
From Verif Require Import Base DType Path SpecTree Schema NodePath PathFacts SchemaInv
  SchemaRefine SchemaMore SchemaLayout SchemaPath.
Local Open Scope Z_scope.

(** all_names on the specification tree gives noslash on the schema. *)
Lemma noslash_of s : wf s -> all_names no_slash (abs s) -> noslash s.
Proof.
  induction s as [d|m o ks IH|ks IH] using schema_ind'; intros W N; [constructor| |].
  - inversion W as [|? ? ? Ho Hf|]; subst. inversion N as [|? F|]; subst.
    destruct Ho as (_ & Hl & _). clear W N. constructor.
    + revert ks Hl F IH Hf. induction o as [|x o IHo]; intros [|k ks] Hl F IH Hf; try discriminate; constructor.
      * inversion F; subst. apply H1.
      * inversion F; subst. inversion IH; subst. inversion Hf; subst. eapply IHo; eauto.
    + revert o Hl F. induction ks as [|k ks IHk]; intros [|x o] Hl F; try discriminate; constructor.
      * inversion F; subst. inversion IH; subst. inversion Hf; subst. apply H3; tauto.
      * inversion F; subst. inversion IH; subst. inversion Hf; subst. eapply IHk; eauto.
  - inversion W as [| |? Hf]; subst. inversion N as [| |? F]; subst. constructor.
    clear W N. induction ks as [|k ks IHk]; constructor; inversion F; inversion IH; inversion Hf; subst; auto.
Qed.

Lemma names_unique_abs s : wf s -> names_unique (abs s).
Proof.
  induction s as [d|m o ks IH|ks IH] using schema_ind'; intros W; [constructor| |].
  - inversion W as [|? ? ? Ho Hf|]; subst. cbn [abs]. destruct Ho as (_ & Hl & ND & _). constructor.
    + rewrite map_fst_combine; [exact ND|rewrite map_length; exact Hl].
    + clear W ND m. revert o Hl. induction ks as [|k ks IHk]; intros [|x o] Hl; simpl; try discriminate; constructor;
        inversion IH; inversion Hf; subst; auto.
  - inversion W as [| |? Hf]; subst. cbn [abs]. constructor. clear W.
    induction ks as [|k ks IHk]; simpl; constructor; inversion IH; inversion Hf; subst; auto.
Qed.

(** Every specification tree with unique names (and leaf types on its leaves) is
    the meaning of a well-formed schema. *)
Fixpoint of_tree (t : tree dtype) : schema :=
  match t with
  | TLeaf d => SLeaf d
  | TObj es => SObj (number_from (map fst es) 0) (map fst es) (map (fun e => of_tree (snd e)) es)
  | TList ts => SLst (map of_tree ts)
  end.
Lemma of_tree_spec t : names_unique t -> (forall d, In d (tleaves t) -> is_container (dt_id d) = false) ->
  wf (of_tree t) /\ abs (of_tree t) = t.
Proof.
  induction t as [d|es IH|ts IH] using tree_ind'; intros N C; cbn [of_tree abs].
  - split; [constructor; apply C; left; reflexivity|reflexivity].
  - inversion N as [|? ND F|]; subst.
    assert (X : Forall (fun e => wf (of_tree (snd e)) /\ abs (of_tree (snd e)) = snd e) es).
    { rewrite Forall_forall in *. intros e I. apply IH; auto. intros d Id. apply C. simpl. apply in_flat_map. eauto. }
    split.
    + constructor.
      * replace (length (map (fun e => of_tree (snd e)) es)) with (length (map fst es)) by (rewrite !map_length; reflexivity).
        apply obj_ok_number; exact ND.
      * apply Forall_map. eapply Forall_impl; [|exact X]. simpl. tauto.
    + f_equal. clear N ND F IH C. induction X as [|[k e] es [_ Q] X IHX]; [reflexivity|]. simpl in *. f_equal; [congruence|exact IHX].
  - inversion N as [| |? F]; subst.
    assert (X : Forall (fun t => wf (of_tree t) /\ abs (of_tree t) = t) ts).
    { rewrite Forall_forall in *. intros e I. apply IH; auto. intros d Id. apply C. simpl. apply in_flat_map. eauto. }
    split.
    + constructor. apply Forall_map. eapply Forall_impl; [|exact X]. simpl. tauto.
    + f_equal. clear N F IH C. induction X as [|t ts [_ Q] X IHX]; [reflexivity|]. simpl in *. f_equal; auto.
Qed.

(** C01: what a user can observe of an object in a well-formed schema. *)
Lemma wf_observations root p m o ks :
  wf root -> get_at root p = Some (SObj m o ks) ->
  let s := SObj m o ks in
  length (child_names s) = length ks /\ NoDup (child_names s) /\
  (forall k, has_child s k = true <-> In k (child_names s)) /\
  (forall k i, child_index s k = Ok i <-> 0 <= i /\ nth_error (child_names s) (Z.to_nat i) = Some k) /\
  (forall k i c, child_index s k = Ok i -> child_named s k = Ok c <-> child_at s i = Ok c).
Proof.
  intros W G s. pose proof (wf_get_at p root _ W G) as Ws. inversion Ws as [|? ? ? Ho Hf|]; subst.
  pose proof Ho as (H1 & H2 & H3 & H4). unfold s. cbn [child_names has_child child_index child_named].
  split; [exact H2|]. split; [exact H3|]. split; [|split].
  - intros k. split.
    + destruct (mget m k) as [i|] eqn:M; [|discriminate]. intros _.
      apply H4 in M. destruct M as [_ M]. eapply nth_error_In; eauto.
    + intros I. apply In_nth_error in I. destruct I as [j J].
      assert (M : mget m k = Some (Z.of_nat j)) by (apply H4; split; [lia|rewrite Nat2Z.id; exact J]).
      rewrite M. reflexivity.
  - intros k i. rewrite <- H4. destruct (mget m k); split; congruence.
  - intros k i c E. destruct (mget m k) as [j|]; [|discriminate]. injection E as ->.
    cbn [obind]. unfold child_at. cbn [s_kids]. reflexivity.
Qed.

(** C02 *)
Lemma fetch_law root p t cs :
  wf root -> get_at root p = Some t -> Forall plain cs -> cs <> [] ->
  exists root' p' t' k,
    fetch root p (path_of cs) = Ok (root', p') /\ wf root' /\
    put_at root p t' = Some root' /\ get_at root' p' = Some k /\
    abs t' = tensure dt_empty (abs t) cs /\
    abs k = match tlookup (abs t) cs with Some u => u | None => TLeaf dt_empty end /\
    has_path t' (path_of cs) = Ok true /\
    fetch_existing root' p (path_of cs) = Ok p' /\
    fetch root' p (path_of cs) = Ok (root', p').
Proof.
  intros W G Hp Hne.
  destruct (fetch_plain_f cs (2 + length (path_of cs)) root p t W G Hp Hne ltac:(lia))
    as (root' & t' & q & k & F & W' & P & A & Gq & Tl & Tn).
  exists root', (p ++ q), t', k.
  pose proof (get_put_same p root t' root' P) as G'.
  assert (Gk : get_at root' (p ++ q) = Some k) by (rewrite get_at_app, G'; exact Gq).
  pose proof (wf_get_at p root' t' W' G') as Wt'.
  assert (HE : fetch_existing root' p (path_of cs) = Ok (p ++ q)).
  { unfold fetch_existing. eapply fetch_existing_names; eauto. }
  repeat split; auto.
  - assert (X : Some (abs k) = Some (match tlookup (abs t) cs with Some u => u | None => TLeaf dt_empty end)).
    { rewrite <- Tl, A. apply tensure_target; exact Hne. }
    congruence.
  - unfold has_path. rewrite has_path_plain_f by (auto; lia). rewrite Tl. reflexivity.
  - unfold fetch. apply (fetch_existing_then_fetch cs _ root' p t'); auto; [lia|].
    apply (fetch_existing_names cs _ root' p t'); auto. lia.
Qed.

(** Frame of fetch, seen from the node it is called on. *)
Lemma fetch_frame root p t cs root' p' t' ds u :
  wf root -> get_at root p = Some t -> Forall plain cs -> cs <> [] ->
  fetch root p (path_of cs) = Ok (root', p') -> get_at root' p = Some t' ->
  tlookup (abs t) ds = Some u -> ~ sprefix ds cs -> tlookup (abs t') ds = Some u.
Proof.
  intros W G Hp Hne F G' T NP.
  destruct (fetch_law root p t cs W G Hp Hne) as (r & q & t2 & k & F2 & W2 & P & _ & A & _).
  assert (r = root' /\ q = p') as [-> ->] by (split; congruence).
  assert (t2 = t') by (pose proof (get_put_same p root t2 root' P); congruence). subst t2.
  rewrite A. apply tensure_frame; assumption.
Qed.

(** C03 *)
Lemma schema_has_path_fetch_existing root p t cs :
  wf root -> get_at root p = Some t -> Forall plain cs -> cs <> [] ->
  exists b, has_path t (path_of cs) = Ok b /\
    (b = true <-> exists q, fetch_existing root p (path_of cs) = Ok q) /\
    (b = false <-> fetch_existing root p (path_of cs) = Err) /\
    (b = true <-> exists u, tlookup (abs t) cs = Some u).
Proof.
  intros W G Hp Hne. pose proof (wf_get_at p root t W G) as Wt.
  exists (match tlookup (abs t) cs with Some _ => true | None => false end).
  split; [unfold has_path; apply has_path_plain_f; auto|].
  pose proof (fetch_existing_plain_f cs (S (length (path_of cs))) root p t W G Hp Hne ltac:(lia)) as X.
  unfold fetch_existing. destruct (tlookup (abs t) cs) as [u|].
  - destruct X as (q & k & E & _). rewrite E. split; [|split].
    + split; eauto.
    + split; discriminate.
    + split; eauto.
  - rewrite X. split; [|split].
    + split; [discriminate|intros [q Q]; discriminate].
    + split; reflexivity.
    + split; [discriminate|intros [q Q]; discriminate].
Qed.

Lemma node_walk_written root p t cs path :
  wf root -> get_at root p = Some t -> Forall plain cs -> written cs path ->
  exists f, forall g, (f <= g)%nat ->
  match tlookup (abs t) cs with
  | Some u => exists q k, nfetch_existing_f g root p path = Ok (p ++ q) /\
                          get_at root (p ++ q) = Some k /\ abs k = u
  | None => nfetch_existing_f g root p path = Err
  end.
Proof.
  intros W G Hp Wr. exists (S (length path)). intros g Hg.
  pose proof (nfetch_written cs path Wr g root p t W G Hp ltac:(lia)) as X.
  destruct (tlookup (abs t) cs) as [u|]; [|exact X].
  destruct X as (q & k & E & Gq & A). exists q, k. rewrite get_at_app, G. auto.
Qed.

(** C04 *)
Lemma rsplit_join c r :
  c <> [] -> last c "000"%char <> slash -> r <> [] -> ~ In slash r ->
  rsplit_path (join_path c r) = (r, c).
Proof. intros. rewrite join_path_plain by auto. apply rsplit_path_app; auto. Qed.
Lemma last_app_ne {A} (l r : list A) d : r <> [] -> last (l ++ r) d = last r d.
Proof.
  intros NE. induction l as [|y l IHl]; [reflexivity|].
  simpl. destruct (l ++ r) eqn:Q; [|exact IHl].
  apply app_eq_nil in Q. destruct Q; congruence.
Qed.
Lemma join_rsplit c cs :
  Forall plain (c :: cs) ->
  let '(curr, next) := rsplit_path (path_of (c :: cs)) in join_path next curr = path_of (c :: cs).
Proof.
  intros Hp. induction cs as [|x cs IHcs] using rev_ind.
  - inversion Hp; subst. destruct H1 as (A & B & C). rewrite rsplit_path_none by exact B. reflexivity.
  - clear IHcs. rewrite app_comm_cons, path_of_snoc by discriminate.
    rewrite app_comm_cons in Hp. apply Forall_app in Hp. destruct Hp as [H1 H2]. inversion H2 as [|? ? (A & B & C) _]; subst.
    rewrite rsplit_path_app by exact B.
    apply join_path_plain; auto using path_of_nonempty.
    + apply path_of_nonempty; [exact H1|discriminate].
    + clear - H1. revert c H1. induction cs as [|d cs IH]; intros c H1.
      * inversion H1 as [|? ? (A & B & _) _]; subst. simpl. intros E. apply B. pose proof (last_in c "000"%char A) as X. rewrite E in X. exact X.
      * rewrite path_of_cons by discriminate. inversion H1 as [|? ? _ H3]; subst.
        replace (last (c ++ slash :: path_of (d :: cs)) "000"%char) with (last (path_of (d :: cs)) "000"%char).
        -- apply IH; assumption.
        -- pose proof (path_of_nonempty (d :: cs) H3 ltac:(discriminate)) as NE.
           change (slash :: path_of (d :: cs)) with ([slash] ++ path_of (d :: cs)). rewrite app_assoc.
           symmetry. apply last_app_ne. exact NE.
Qed.

(** C05 *)
Lemma path_leads_back root p cs :
  wf root -> tnames (abs root) p = Some cs -> Forall plain cs -> p <> [] ->
  s_path root p = path_of cs /\ fetch_existing root [] (s_path root p) = Ok p.
Proof.
  intros W T Hp Hne. pose proof (s_path_names p root cs W T Hp) as E. split; [exact E|].
  rewrite E. apply (fetch_existing_names cs _ root [] root p); auto.
  destruct p as [|i p]; [congruence|]. intros ->. simpl in T. destruct (abs root); try discriminate.
  destruct (nth_error es i) as [[? ?]|]; [|discriminate]. destruct (tnames t p); discriminate.
Qed.

(** C06 *)
Definition plain_names (s : schema) : Prop := all_names no_slash (abs s).
Lemma equals_characterised a b :
  wf a -> wf b -> plain_names a -> plain_names b ->
  exists r, s_equals a b = Ok r /\ (r = true <-> teq (abs a) (abs b)).
Proof.
  intros Wa Wb Na Nb. apply equals_f_spec; auto using noslash_of. lia.
Qed.
Lemma equals_refl a : wf a -> plain_names a -> s_equals a a = Ok true.
Proof.
  intros W N. destruct (equals_characterised a a W W N N) as ([] & E & H); [exact E|].
  exfalso. pose proof (proj2 H (teq_refl _)). discriminate.
Qed.
Lemma equals_sym a b : wf a -> wf b -> plain_names a -> plain_names b ->
  s_equals a b = s_equals b a.
Proof.
  intros Wa Wb Na Nb.
  destruct (equals_characterised a b Wa Wb Na Nb) as (r & E & H).
  destruct (equals_characterised b a Wb Wa Nb Na) as (q & F & K).
  rewrite E, F. f_equal.
  destruct r, q; auto; exfalso.
  - pose proof (proj2 K (teq_sym _ _ (proj1 H eq_refl))). discriminate.
  - pose proof (proj2 H (teq_sym _ _ (proj1 K eq_refl))). discriminate.
Qed.
Lemma equals_trans a b c :
  wf a -> wf b -> wf c -> plain_names a -> plain_names b -> plain_names c ->
  s_equals a b = Ok true -> s_equals b c = Ok true -> s_equals a c = Ok true.
Proof.
  intros Wa Wb Wc Na Nb Nc E F.
  destruct (equals_characterised a b Wa Wb Na Nb) as (r1 & E1 & H1).
  destruct (equals_characterised b c Wb Wc Nb Nc) as (r2 & E2 & H2).
  destruct (equals_characterised a c Wa Wc Na Nc) as (r3 & E3 & H3).
  rewrite E3. f_equal. apply H3. eapply teq_trans; [apply H1|apply H2]; congruence.
Qed.

(** C07 *)
Lemma compatible_characterised a b :
  wf a -> wf b -> plain_names a -> plain_names b ->
  exists r, s_compatible a b = Ok r /\ (r = true <-> tcompat (abs a) (abs b)).
Proof. intros Wa Wb Na Nb. apply compatible_f_spec; auto using noslash_of. lia. Qed.
Lemma compatible_refl a : wf a -> plain_names a -> s_compatible a a = Ok true.
Proof.
  intros W N. destruct (compatible_characterised a a W W N N) as ([] & E & H); [exact E|].
  exfalso. pose proof (proj2 H (tcompat_refl _)). discriminate.
Qed.
Lemma tcompat_lookup cs : forall t u d e, tcompat t u ->
  tlookup t cs = Some (TLeaf d) -> tlookup u cs = Some (TLeaf e) ->
  dt_id d = dt_id e /\ dt_ebytes d = dt_ebytes e /\ dt_n e <= dt_n d.
Proof.
  induction cs as [|c cs IH]; intros t u d e H T U.
  - injection T as ->. injection U as ->. inversion H; subst. auto.
  - destruct H as [?|e1 e2 H|?]; cbn in T, U; try discriminate.
    destruct (mget e1 c) eqn:M1; [|discriminate]. destruct (mget e2 c) eqn:M2; [|discriminate].
    eapply IH; [eapply H; eauto| |]; eauto.
Qed.
Lemma compatible_in_bounds a b cs d e :
  wf a -> wf b -> plain_names a -> plain_names b -> s_compatible a b = Ok true ->
  tlookup (abs a) cs = Some (TLeaf d) -> tlookup (abs b) cs = Some (TLeaf e) ->
  dt_id d = dt_id e /\ dt_ebytes d = dt_ebytes e /\ dt_n e <= dt_n d.
Proof.
  intros Wa Wb Na Nb E. destruct (compatible_characterised a b Wa Wb Na Nb) as (r & E1 & H).
  apply tcompat_lookup. apply H. congruence.
Qed.
Lemma tcompat_trans b c : tcovers b c -> forall a, tcompat a b -> tcompat b c -> tcompat a c.
Proof.
  revert b c. fix F 3. intros b c H a.
  destruct H as [t x|e1 e2 H|l1 l2 H]; intros AB BC.
  - inversion BC; subst. inversion AB; subst. constructor; [congruence|congruence|lia].
  - inversion BC as [|? ? H2|]; subst. inversion AB as [|? ? H1|]; subst. constructor.
    intros k x z Hx Hz. destruct (H k z Hz) as (y & Hy & C). exact (F y z C x (H1 k x y Hx Hy) (H2 k y z Hy Hz)).
  - inversion BC as [| |? ? L2 H2]; subst. inversion AB as [| |? ? L1 H1]; subst. constructor; [lia|].
    intros k x z Hx Hz. destruct (H k z Hz) as (y & Hy & C). exact (F y z C x (H1 k x y Hx Hy) (H2 k y z Hy Hz)).
Qed.
Lemma compatible_trans a b c :
  wf a -> wf b -> wf c -> plain_names a -> plain_names b -> plain_names c ->
  tcovers (abs b) (abs c) ->
  s_compatible a b = Ok true -> s_compatible b c = Ok true -> s_compatible a c = Ok true.
Proof.
  intros Wa Wb Wc Na Nb Nc Cv E F.
  destruct (compatible_characterised a b Wa Wb Na Nb) as (r1 & E1 & H1).
  destruct (compatible_characterised b c Wb Wc Nb Nc) as (r2 & E2 & H2).
  destruct (compatible_characterised a c Wa Wc Na Nc) as (r3 & E3 & H3).
  rewrite E3. f_equal. apply H3. eapply tcompat_trans; [exact Cv|apply H1|apply H2]; congruence.
Qed.

(** C08 *)
Lemma spanned_covers s d i b :
  wf s -> In d (tleaves (abs s)) -> 0 <= dt_off d -> 0 <= dt_stride d ->
  occupies d i b -> 0 <= b < s_spanned_bytes s.
Proof.
  intros W I O S Oc. rewrite tleaves_abs in I by exact W.
  pose proof (leaf_in_span d i b O S Oc). pose proof (spanned_ge_leaf s d I). lia.
Qed.
Lemma spanned_tight s :
  wf s -> tleaves (abs s) <> [] ->
  (forall d, In d (tleaves (abs s)) -> 0 <= dt_off d /\ 0 <= dt_stride d /\ 1 <= dt_n d /\ 1 <= dt_ebytes d) ->
  exists d i, In d (tleaves (abs s)) /\ occupies d i (s_spanned_bytes s - 1).
Proof.
  intros W NE H. rewrite tleaves_abs in * by exact W.
  destruct (spanned_attained s) as [Z|(d & I & E)].
  - exfalso. destruct (sleaves s) as [|d l] eqn:Q; [congruence|].
    pose proof (spanned_ge_leaf s d) as X. rewrite Q in X. specialize (X (or_introl eq_refl)).
    destruct (H d (or_introl eq_refl)) as (A & B & C & D). unfold spanned_bytes in X. nia.
  - exists d, (dt_n d - 1). split; [exact I|]. rewrite <- E.
    destruct (H d I) as (A & B & C & D). apply leaf_last_byte; auto.
Qed.
Lemma compact_bytes_sum s : wf s -> total_bytes_compact s = total_of (tleaves (abs s)).
Proof. intros W. rewrite tleaves_abs by exact W. apply total_bytes_compact_sum. Qed.

(** C09 *)
Lemma compact_layout s :
  wf s ->
  let c := s_compact_to s in
  wf c /\ tmap leaf_kind (abs c) = tmap leaf_kind (abs s) /\
  back_to_back 0 (tleaves (abs c)) /\ total_bytes_compact c = total_bytes_compact s /\
  s_is_compact c = true /\ s_compact_to c = c.
Proof.
  intros W c. assert (Wc : wf c) by (apply wf_compact_at; exact W).
  repeat split; auto.
  - apply compact_shape; exact W.
  - rewrite tleaves_abs by exact Wc. apply compact_back_to_back; exact W.
  - apply total_compact_at; exact W.
  - apply compact_is_compact; exact W.
  - apply compact_idem; exact W.
Qed.
Lemma compact_tiles s b :
  wf s -> (forall d, In d (tleaves (abs s)) -> 0 <= dt_n d) ->
  0 <= b < total_bytes_compact s ->
  exists j d i, nth_error (tleaves (abs (s_compact_to s))) j = Some d /\ occupies d i b /\
    forall j' d' i', nth_error (tleaves (abs (s_compact_to s))) j' = Some d' -> occupies d' i' b ->
                     j' = j /\ i' = i.
Proof.
  intros W N B. assert (Wc : wf (s_compact_to s)) by (apply wf_compact_at; exact W).
  rewrite tleaves_abs in * by auto.
  assert (N' : Forall (fun d => 0 <= dt_n d) (sleaves (s_compact_to s)))
    by (apply compact_leaf_n; [apply Forall_forall; exact N|exact W]).
  pose proof (compact_back_to_back s W 0) as BB.
  destruct (btb_cover (sleaves (s_compact_to s)) 0 b BB N' (wf_leaves _ Wc)) as (j & d & i & J & O).
  { rewrite <- total_bytes_compact_sum. unfold s_compact_to. rewrite total_compact_at by exact W. lia. }
  exists j, d, i. split; [exact J|]. split; [exact O|]. intros j' d' i' J' O'.
  apply (btb_unique (sleaves (s_compact_to s)) 0 j' d' i' j d i b); auto.
  intros e Ie Ee. exact (compact_empty_leaf s 0 e W Ie Ee).
Qed.
Lemma compact_inside s d i b :
  wf s -> (forall d, In d (tleaves (abs s)) -> 0 <= dt_n d) ->
  In d (tleaves (abs (s_compact_to s))) -> occupies d i b -> 0 <= b < total_bytes_compact s.
Proof.
  intros W N I O. assert (Wc : wf (s_compact_to s)) by (apply wf_compact_at; exact W).
  rewrite tleaves_abs in * by auto.
  assert (N' : Forall (fun d => 0 <= dt_n d) (sleaves (s_compact_to s)))
    by (apply compact_leaf_n; [apply Forall_forall; exact N|exact W]).
  pose proof (compact_back_to_back s W 0) as BB.
  apply In_nth_error in I. destruct I as [j J].
  pose proof (btb_range _ 0 j d i b BB N' (fun e Ie Ee => compact_empty_leaf s 0 e W Ie Ee) J O) as R.
  destruct (firstn_total _ j d N' J) as (A1 & A2 & A3).
  rewrite <- total_bytes_compact_sum in A3. unfold s_compact_to in A3. rewrite total_compact_at in A3 by exact W.
  unfold s_compact_to in *. lia.
Qed.

(** C10 *)
Lemma is_compact_dense s :
  wf s ->
  (forall d, In d (tleaves (abs s)) ->
     dt_id d <> EMPTY /\ dt_ebytes d = default_bytes (dt_id d) /\ 1 <= dt_n d /\
     default_bytes (dt_id d) <= dt_stride d) ->
  (s_is_compact s = true <->
   forall d i b, In d (tleaves (abs s)) -> 
     (occupies d i b <-> 0 <= i < dt_n d /\
        dt_off d + default_bytes (dt_id d) * i <= b < dt_off d + default_bytes (dt_id d) * (i + 1))).
Proof.
  intros W H. rewrite tleaves_abs in * by exact W.
  assert (NE : forall d, In d (sleaves s) -> dt_id d <> EMPTY) by (intros d I; apply H; exact I).
  unfold s_is_compact. rewrite Z.eqb_eq, total_bytes_compact_sum, (total_strided_sum s NE).
  assert (F : Forall (fun d => dt_ebytes d = default_bytes (dt_id d) /\ 1 <= dt_n d /\
                   default_bytes (dt_id d) <= dt_stride d) (sleaves s)).
  { apply Forall_forall. intros d I. apply H in I. tauto. }
  destruct (is_compact_sum _ F) as [L1 L2]. split.
  - intros E d i b I. destruct (H d I) as (_ & E1 & E2 & E3). unfold occupies. rewrite E1.
    destruct (L2 E d I) as [Q|Q].
    + rewrite Q. split; intros; nia.
    + split; intros; nia.
  - intros X. clear L1 L2 F.
    assert (Y : Forall (fun d => strided_bytes d = default_bytes (dt_id d) * dt_n d) (sleaves s)).
    { apply Forall_forall. intros d I. destruct (H d I) as (E0 & E1 & E2 & E3).
      pose proof (default_bytes_pos (dt_id d) (wf_leaves s W d I) E0) as P.
      unfold strided_bytes. rewrite E1. 
      destruct (Z.eq_dec (dt_n d) 1) as [Q|Q]; [rewrite Q; lia|].
      destruct (X d 1 (dt_off d + dt_stride d + default_bytes (dt_id d) - 1) I) as [X1 _].
      unfold occupies in X1. rewrite E1 in X1.
      assert (dt_stride d = default_bytes (dt_id d)) as -> by lia. lia. }
    clear - Y. induction Y as [|d l Hd Hl IH]; simpl; [reflexivity|]. lia.
Qed.

(** C01: outcome of one edit *)
Lemma tput_some {A} p : forall (t u x : tree A), tget t p = Some u -> exists t', tput t p x = Some t'.
Proof.
  induction p as [|i p IH]; intros t u x G; [eexists; reflexivity|].
  destruct t as [a|es|ts]; simpl in *.
  - destruct i; discriminate.
  - rewrite nth_error_map in G. destruct (nth_error es i) as [[k w]|]; simpl in G; [|discriminate].
    destruct (IH w u x G) as [w' ->]. eexists; reflexivity.
  - destruct (nth_error ts i) as [w|]; [|discriminate].
    destruct (IH w u x G) as [w' ->]. eexists; reflexivity.
Qed.
Lemma edit_outcome root p t op :
  wf root -> get_at root p = Some t -> op_ok op ->
  match spec_op (abs t) op with
  | Some u => exists r, apply_op root p op = Ok r /\ wf r /\ tput (abs root) p u = Some (abs r)
  | None => apply_op root p op = Err
  end.
Proof.
  intros W G Hop. destruct (apply_op_spec root p t op W G Hop) as ((N1 & N2) & N3 & N4).
  assert (T : tget (abs root) p = Some (abs t)) by (rewrite get_at_abs, G by exact W; reflexivity).
  destruct (spec_op (abs t) op) as [u|].
  - destruct (tput_some p (abs root) (abs t) u T) as [t' Tp]. rewrite Tp in N4.
    destruct (apply_op root p op) as [r| | |]; simpl in N4; try discriminate.
    exists r. split; [reflexivity|]. split; [apply N3; reflexivity|congruence].
  - destruct (apply_op root p op) as [r| | |]; simpl in N4; try discriminate; congruence.
Qed.

(** C05: the name of a list entry *)
Lemma set_from_self root p t r :
  get_at root p = Some t -> put_at root p s_empty = Some r -> set_from root p p = Ok r.
Proof.
  intros G P. unfold set_from. rewrite G. cbn [deref obind].
  assert (X : is_prefix p p = true) by (clear; induction p as [|i p IH]; simpl; [reflexivity|rewrite Nat.eqb_refl; exact IH]).
  rewrite X, P. reflexivity.
Qed.

(** C27 *)
Lemma unknown_name_is_empty s : (forall t, s <> id_to_name t) -> name_to_id s = EMPTY.
Proof.
  intros H. unfold name_to_id.
  repeat match goal with
  | |- context [str_eqb s ?x] =>
      let E := fresh in destruct (str_eqb s x) eqn:E;
      [apply str_eqb_eq in E; exfalso;
       first [exact (H EMPTY E)|exact (H OBJECT E)|exact (H LIST E)|exact (H INT8 E)|exact (H INT16 E)
             |exact (H INT32 E)|exact (H INT64 E)|exact (H UINT8 E)|exact (H UINT16 E)|exact (H UINT32 E)
             |exact (H UINT64 E)|exact (H FLOAT32 E)|exact (H FLOAT64 E)|exact (H CHAR8_STR E)]|]
  end. reflexivity.
Qed.

(** C04 *)
Lemma split_on_char_concat sep s : ~ In "000"%char s ->
  concat (split_string_vec s sep) = filter (fun c => if ascii_dec c sep then false else true) s.
Proof.
  intros H. unfold split_string_vec. rewrite split_vec_concat by exact H. simpl. clear H.
  induction s as [|c s IH]; simpl; [reflexivity|]. destruct (ascii_dec c sep); rewrite IH; reflexivity.
Qed.
