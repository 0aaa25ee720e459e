(** Property theorems C01-C10: schema hierarchies. *)
From Verif Require Import Base DType Path SpecTree Schema NodePath PathFacts SchemaInv
  SchemaRefine SchemaMore SchemaLayout SchemaPath SchemaLaws.
Local Open Scope Z_scope.

(** A small hierarchy used by the examples, built through the public API only:
    { "a": {"x": int32[3], "y": float64[2]}, "b": [uint8[5], (empty)], "c": (empty) } *)
Definition demo_history : list (list nat * sop) :=
  [ ([], OpFetch [L "a"; L "x"]);
    ([0%nat; 0%nat], OpSetDType (dt_simple INT32 3));
    ([], OpFetch [L "a"; L "y"]);
    ([0%nat; 1%nat], OpSetDType (mkDT FLOAT64 2 24 16 8 DEFAULT_E));
    ([], OpAddChild (L "b"));
    ([1%nat], OpAppend);
    ([1%nat; 0%nat], OpSetDType (dt_simple UINT8 5));
    ([1%nat], OpAppend);
    ([], OpAddChild (L "z"));
    ([], OpAddChild (L "c"));
    ([], OpRemoveAt 2) ].
Definition demo : schema := run_ops s_empty demo_history.
Example demo_value :
  abs demo = TObj [ (L "a", TObj [(L "x", TLeaf (dt_simple INT32 3));
                                  (L "y", TLeaf (mkDT FLOAT64 2 24 16 8 DEFAULT_E))]);
                    (L "b", TList [TLeaf (dt_simple UINT8 5); TLeaf dt_empty]);
                    (L "c", TLeaf dt_empty) ].
Proof. vm_compute. reflexivity. Qed.
Example demo_wf : wf demo.
Proof.
  apply (run_ops_spec demo_history s_empty).
  - constructor; reflexivity.
  - repeat constructor; simpl; auto; try discriminate; intros H; repeat (destruct H as [H|H]; try discriminate H); exact H.
Qed.
Example demo_names : plain_names demo.
Proof.
  unfold plain_names. rewrite demo_value.
  repeat constructor; simpl; intros H; repeat (destruct H as [H|H]; try discriminate H); exact H.
Qed.

(** * C01 *)
(** Every history of structural edits, from the empty schema, makes the schema
    look exactly like the ordered-dictionary tree of SpecTree.v. *)
Theorem C01_history_refines_ordered_dictionary : forall h,
  Forall (fun po => op_ok (snd po)) h ->
  abs (run_ops s_empty h) = spec_run (TLeaf dt_empty) h /\
  names_unique (spec_run (TLeaf dt_empty) h) /\
  wf (run_ops s_empty h).
Proof.
  intros h H. destruct (run_ops_spec h s_empty ltac:(constructor; reflexivity) H) as [W A].
  split; [exact A|]. split; [|exact W].
  change (TLeaf dt_empty) with (abs s_empty). rewrite <- A. apply names_unique_abs; exact W.
Qed.
Print Assumptions C01_history_refines_ordered_dictionary.
(** ... and in every object below it the name list, the name lookup and the child
    vector agree. *)
Theorem C01_history_observations : forall h p m o ks,
  Forall (fun po => op_ok (snd po)) h ->
  get_at (run_ops s_empty h) p = Some (SObj m o ks) ->
  let s := SObj m o ks in
  length (child_names s) = length ks /\ NoDup (child_names s) /\
  (forall k, has_child s k = true <-> In k (child_names s)) /\
  (forall k i, child_index s k = Ok i <->
               0 <= i /\ nth_error (child_names s) (Z.to_nat i) = Some k) /\
  (forall k i c, child_index s k = Ok i -> child_named s k = Ok c <-> child_at s i = Ok c).
Proof.
  intros h p m o ks H. apply wf_observations.
  apply (run_ops_spec h s_empty ltac:(constructor; reflexivity) H).
Qed.
Print Assumptions C01_history_observations.
(** No edit is undefined behaviour: it succeeds or reports an error, as the
    specification says, and an error changes nothing ([run_ops] keeps the root). *)
Theorem C01_edit_outcome : forall root p t op,
  wf root -> get_at root p = Some t -> op_ok op ->
  match spec_op (abs t) op with
  | Some u => exists r, apply_op root p op = Ok r /\ wf r /\ tput (abs root) p u = Some (abs r)
  | None => apply_op root p op = Err
  end.
Proof. exact edit_outcome. Qed.
Print Assumptions C01_edit_outcome.
(** The well-formed schemas the theorems below quantify over are all dictionary
    trees: each tree with unique names is the meaning of one. *)
Theorem C01_every_tree_is_represented : forall t,
  names_unique t -> (forall d, In d (tleaves t) -> is_container (dt_id d) = false) ->
  exists s, wf s /\ abs s = t.
Proof. intros t N C. exists (of_tree t). exact (of_tree_spec t N C). Qed.
Print Assumptions C01_every_tree_is_represented.
Example C01_nontrivial :
  Forall (fun po => op_ok (snd po)) demo_history /\
  get_at demo [0%nat] <> None /\ child_names demo = [L "a"; L "b"; L "c"].
Proof.
  split; [|split; [vm_compute; discriminate|vm_compute; reflexivity]].
  repeat constructor; simpl; auto; try discriminate; intros H; repeat (destruct H as [H|H]; try discriminate H); exact H.
Qed.

(** * C02 *)
Theorem C02_fetch_creates_exactly_the_path : forall root p t cs,
  wf root -> get_at root p = Some t -> Forall plain cs -> cs <> [] ->
  exists root' p' t' k,
    fetch root p (path_of cs) = Ok (root', p') /\ wf root' /\
    put_at root p t' = Some root' /\ get_at root' p' = Some k /\
    abs t' = tensure dt_empty (abs t) cs /\
    abs k = match tlookup (abs t) cs with Some u => u | None => TLeaf dt_empty end /\
    has_path t' (path_of cs) = Ok true /\
    fetch_existing root' p (path_of cs) = Ok p' /\
    fetch root' p (path_of cs) = Ok (root', p').
Proof. exact fetch_law. Qed.
Print Assumptions C02_fetch_creates_exactly_the_path.
Theorem C02_fetch_frame : forall root p t cs root' p' t' ds u,
  wf root -> get_at root p = Some t -> Forall plain cs -> cs <> [] ->
  fetch root p (path_of cs) = Ok (root', p') -> get_at root' p = Some t' ->
  tlookup (abs t) ds = Some u -> ~ sprefix ds cs -> tlookup (abs t') ds = Some u.
Proof. exact fetch_frame. Qed.
Print Assumptions C02_fetch_frame.
Theorem C02_fetch_existing_path_changes_nothing : forall root p t cs u,
  wf root -> get_at root p = Some t -> Forall plain cs -> cs <> [] ->
  tlookup (abs t) cs = Some u ->
  exists p', fetch root p (path_of cs) = Ok (root, p') /\
             fetch_existing root p (path_of cs) = Ok p'.
Proof.
  intros root p t cs u W G Hp Hne T.
  pose proof (fetch_existing_plain_f cs (S (length (path_of cs))) root p t W G Hp Hne ltac:(lia)) as X.
  pose proof (fetch_existing_plain_f cs (2 + length (path_of cs)) root p t W G Hp Hne ltac:(lia)) as Y.
  rewrite T in X, Y. destruct X as (q & k & E & Gq & A). destruct Y as (q2 & k2 & E2 & _).
  exists (p ++ q2).
  pose proof (fetch_existing_then_fetch cs _ root p t _ W G Hp Hne (ltac:(lia) : (length (path_of cs) < 2 + length (path_of cs))%nat) E2) as F.
  split; [exact F|].
  destruct (fetch_law root p t cs W G Hp Hne) as (r & p' & t' & kk & F' & _ & _ & _ & _ & _ & _ & FE & _).
  unfold fetch in F'. rewrite F in F'. injection F' as <- <-. exact FE.
Qed.
Print Assumptions C02_fetch_existing_path_changes_nothing.
(** Whatever the path string, fetch terminates, stays defined and keeps the
    hierarchy well formed. *)
Theorem C02_fetch_total : forall root p t path,
  wf root -> get_at root p = Some t ->
  exists root' p' t', fetch root p path = Ok (root', p') /\ wf root' /\ get_at root' p' = Some t'.
Proof. intros root p t path W G. apply (fetch_total_f _ root p path t W G). lia. Qed.
Print Assumptions C02_fetch_total.
Example C02_nontrivial :
  exists t, get_at demo [] = Some t /\ Forall plain [L "c"; L "new"] /\
  tlookup (abs t) [L "a"; L "x"] = Some (TLeaf (dt_simple INT32 3)) /\
  ~ sprefix [L "a"; L "x"] [L "c"; L "new"].
Proof.
  eexists. split; [reflexivity|]. split; [|split; [vm_compute; reflexivity|]].
  - repeat constructor; try discriminate; intros H; repeat (destruct H as [H|H]; try discriminate H); exact H.
  - intros [r E]. discriminate E.
Qed.
(** fetch("..") below the root moves to the parent and then creates an entry with
    the empty name there (conduit_schema.cpp 1086-1090). *)
Theorem C02_dotdot_creates_unnamed_entry_refuted :
  exists root p root' p', wf root /\ fetch root p (L "..") = Ok (root', p') /\
    tlookup (abs root) [[]] = None /\ tlookup (abs root') [[]] = Some (TLeaf dt_empty).
Proof.
  exists demo, [0%nat]. eexists. eexists. split; [exact demo_wf|].
  split; [vm_compute; reflexivity|]. split; vm_compute; reflexivity.
Qed.
Print Assumptions C02_dotdot_creates_unnamed_entry_refuted.

(** * C03 *)
Theorem C03_schema_has_path_iff_fetch_existing : forall root p t cs,
  wf root -> get_at root p = Some t -> Forall plain cs -> cs <> [] ->
  exists b, has_path t (path_of cs) = Ok b /\
    (b = true <-> exists q, fetch_existing root p (path_of cs) = Ok q) /\
    (b = false <-> fetch_existing root p (path_of cs) = Err) /\
    (b = true <-> exists u, tlookup (abs t) cs = Some u).
Proof. exact schema_has_path_fetch_existing. Qed.
Print Assumptions C03_schema_has_path_iff_fetch_existing.
(** has_path terminates and is defined for every path string. *)
Theorem C03_has_path_total : forall s path, wf s -> exists b, has_path s path = Ok b.
Proof. intros s path W. apply has_path_total; [exact W|lia]. Qed.
Print Assumptions C03_has_path_total.
(** Node::fetch_existing on any spelling of a path: extra slashes are ignored. *)
Theorem C03_node_fetch_existing_any_spelling : forall root p t cs path,
  wf root -> get_at root p = Some t -> Forall plain cs -> written cs path ->
  exists f, forall g, (f <= g)%nat ->
  match tlookup (abs t) cs with
  | Some u => exists q k, nfetch_existing_f g root p path = Ok (p ++ q) /\
                          get_at root (p ++ q) = Some k /\ abs k = u
  | None => nfetch_existing_f g root p path = Err
  end.
Proof. exact node_walk_written. Qed.
Print Assumptions C03_node_fetch_existing_any_spelling.
Example C03_nontrivial :
  written [L "a"; L "x"] (L "//a///x/") /\ Forall plain [L "a"; L "x"] /\
  tlookup (abs demo) [L "a"; L "x"] <> None.
Proof.
  split; [|split; [|vm_compute; discriminate]].
  - apply wr_lead, wr_lead. apply (wr_more (L "a")). apply wr_lead, wr_lead. apply (wr_last_slash (L "x")).
  - repeat constructor; try discriminate; intros H; repeat (destruct H as [H|H]; try discriminate H); exact H.
Qed.
(** The unrestricted claim fails: has_path("/a") is true but
    Schema::fetch_existing("/a") reports an error; *)
Theorem C03_leading_slash_schema_refuted :
  exists s path, wf s /\ has_path s path = Ok true /\ fetch_existing s [] path = Err.
Proof. exists demo, (L "/a"). split; [exact demo_wf|]. split; vm_compute; reflexivity. Qed.
Print Assumptions C03_leading_slash_schema_refuted.
(** has_path("//a") is false but Node::fetch_existing("//a") succeeds; *)
Theorem C03_repeated_slash_node_refuted :
  exists s path q, wf s /\ has_path s path = Ok false /\
    nfetch_existing_f 10 s [] path = Ok q.
Proof. exists demo, (L "//a"). eexists. split; [exact demo_wf|]. split; vm_compute; reflexivity. Qed.
Print Assumptions C03_repeated_slash_node_refuted.
(** Node::fetch_existing("") on an object never returns, whatever the object; *)
Theorem C03_empty_path_diverges_refuted : forall root p m o ks,
  get_at root p = Some (SObj m o ks) -> forall f, nfetch_existing_f f root p [] = Fuel.
Proof. intros root p m o ks G f. exact (nfetch_empty_loops f root p m o ks G). Qed.
Print Assumptions C03_empty_path_diverges_refuted.
(** and a non-const Schema::fetch_existing("..") always fails, even below the root
    (child_index runs first), while the const version goes to the parent. *)
Theorem C03_dotdot_refuted :
  exists s, wf s /\ fetch_existing s [0%nat] (L "../c") = Err /\
            fetch_existing_const s [0%nat] (L "../c") = Ok [2%nat].
Proof. exists demo. split; [exact demo_wf|]. split; vm_compute; reflexivity. Qed.
Print Assumptions C03_dotdot_refuted.

(** * C04 *)
Theorem C04_split_join : forall c r,
  ~ In slash c -> c <> [] -> split_path (join_path c r) = (c, r).
Proof. exact split_join. Qed.
Print Assumptions C04_split_join.
Theorem C04_rsplit_join : forall c r,
  c <> [] -> last c "000"%char <> slash -> r <> [] -> ~ In slash r ->
  rsplit_path (join_path c r) = (r, c).
Proof. exact rsplit_join. Qed.
Print Assumptions C04_rsplit_join.
Theorem C04_join_rsplit : forall c cs,
  Forall plain (c :: cs) ->
  let '(curr, next) := rsplit_path (path_of (c :: cs)) in join_path next curr = path_of (c :: cs).
Proof. exact join_rsplit. Qed.
Print Assumptions C04_join_rsplit.
(** Splitting on a character: no piece is empty or holds the separator, and the
    pieces together are the string without its separators. *)
Theorem C04_split_on_char : forall sep s,
  ~ In "000"%char s ->
  concat (split_string_vec s sep) = filter (fun c => if ascii_dec c sep then false else true) s /\
  Forall (fun p => p <> [] /\ ~ In sep p) (split_string_vec s sep).
Proof.
  intros sep s H. split.
  - exact (split_on_char_concat sep s H).
  - apply split_vec_pieces. intros [].
Qed.
Print Assumptions C04_split_on_char.
Theorem C04_join_rsplit_refuted :
  exists p, let '(curr, next) := rsplit_path p in join_path next curr <> p.
Proof. exists (L "/a"). vm_compute. discriminate. Qed.
Print Assumptions C04_join_rsplit_refuted.
Theorem C04_split_on_char_refuted :
  exists sep s, concat (split_string_vec s sep) <> filter (fun c => if ascii_dec c sep then false else true) s.
Proof. exists ","%char, ["a"%char; "000"%char; "b"%char]. vm_compute. discriminate. Qed.
Print Assumptions C04_split_on_char_refuted.
Example C04_nontrivial :
  split_path (join_path (L "mesh") (L "coords/x")) = (L "mesh", L "coords/x") /\
  split_string_vec (L "a,,b,c") ","%char = [L "a"; L "b"; L "c"].
Proof. split; vm_compute; reflexivity. Qed.

(** * C05 *)
Theorem C05_path_leads_back : forall root p cs,
  wf root -> tnames (abs root) p = Some cs -> Forall plain cs -> p <> [] ->
  s_path root p = path_of cs /\ fetch_existing root [] (s_path root p) = Ok p.
Proof. exact path_leads_back. Qed.
Print Assumptions C05_path_leads_back.
Example C05_nontrivial :
  tnames (abs demo) [0%nat; 1%nat] = Some [L "a"; L "y"] /\
  s_path demo [0%nat; 1%nat] = L "a/y" /\ fetch_existing demo [] (L "a/y") = Ok [0%nat; 1%nat].
Proof. repeat split; vm_compute; reflexivity. Qed.
(** Not so below a list: the reported path "b/[0]" cannot be fetched; *)
Theorem C05_list_entry_refuted :
  exists s p, wf s /\ s_path s p = L "b/[0]" /\ fetch_existing s [] (s_path s p) = Err.
Proof. exists demo, [1%nat; 0%nat]. split; [exact demo_wf|]. split; vm_compute; reflexivity. Qed.
Print Assumptions C05_list_entry_refuted.
(** nor for a child whose name holds a slash (add_child allows it). *)
Theorem C05_slash_name_refuted :
  exists s p, wf s /\ s_path s p = L "{p/q}" /\ fetch_existing s [] (s_path s p) = Err.
Proof.
  exists (add_child s_empty (L "p/q")), [0%nat].
  split; [apply wf_add_child; constructor; reflexivity|]. split; vm_compute; reflexivity.
Qed.
Print Assumptions C05_slash_name_refuted.

(** * C06 *)
Theorem C06_equals_characterised : forall a b,
  wf a -> wf b -> plain_names a -> plain_names b ->
  exists r, s_equals a b = Ok r /\ (r = true <-> teq (abs a) (abs b)).
Proof. exact equals_characterised. Qed.
Print Assumptions C06_equals_characterised.
Theorem C06_equals_reflexive : forall a, wf a -> plain_names a -> s_equals a a = Ok true.
Proof. exact equals_refl. Qed.
Print Assumptions C06_equals_reflexive.
Theorem C06_equals_symmetric : forall a b,
  wf a -> wf b -> plain_names a -> plain_names b -> s_equals a b = s_equals b a.
Proof. exact equals_sym. Qed.
Print Assumptions C06_equals_symmetric.
Theorem C06_equals_transitive : forall a b c,
  wf a -> wf b -> wf c -> plain_names a -> plain_names b -> plain_names c ->
  s_equals a b = Ok true -> s_equals b c = Ok true -> s_equals a c = Ok true.
Proof. exact equals_trans. Qed.
Print Assumptions C06_equals_transitive.
(** A schema with a child named "p/q" is not equal to itself. *)
Theorem C06_equals_slash_name_refuted : exists a, wf a /\ s_equals a a = Ok false.
Proof.
  exists (add_child s_empty (L "p/q")).
  split; [apply wf_add_child; constructor; reflexivity|]. vm_compute. reflexivity.
Qed.
Print Assumptions C06_equals_slash_name_refuted.
Example C06_nontrivial :
  wf demo /\ plain_names demo /\
  s_equals demo (run_ops demo [([], OpRename (L "c") (L "d"))]) = Ok false.
Proof. split; [exact demo_wf|]. split; [exact demo_names|]. vm_compute. reflexivity. Qed.

(** * C07 *)
Theorem C07_compatible_characterised : forall a b,
  wf a -> wf b -> plain_names a -> plain_names b ->
  exists r, s_compatible a b = Ok r /\ (r = true <-> tcompat (abs a) (abs b)).
Proof. exact compatible_characterised. Qed.
Print Assumptions C07_compatible_characterised.
Theorem C07_compatible_reflexive : forall a, wf a -> plain_names a -> s_compatible a a = Ok true.
Proof. exact compatible_refl. Qed.
Print Assumptions C07_compatible_reflexive.
Theorem C07_compatible_in_bounds : forall a b cs d e,
  wf a -> wf b -> plain_names a -> plain_names b -> s_compatible a b = Ok true ->
  tlookup (abs a) cs = Some (TLeaf d) -> tlookup (abs b) cs = Some (TLeaf e) ->
  dt_id d = dt_id e /\ dt_ebytes d = dt_ebytes e /\ dt_n e <= dt_n d.
Proof. exact compatible_in_bounds. Qed.
Print Assumptions C07_compatible_in_bounds.
Theorem C07_compatible_transitive_when_covered : forall a b c,
  wf a -> wf b -> wf c -> plain_names a -> plain_names b -> plain_names c ->
  tcovers (abs b) (abs c) ->
  s_compatible a b = Ok true -> s_compatible b c = Ok true -> s_compatible a c = Ok true.
Proof. exact compatible_trans. Qed.
Print Assumptions C07_compatible_transitive_when_covered.
Theorem C07_compatible_transitive_refuted : exists a b c,
  wf a /\ wf b /\ wf c /\ plain_names a /\ plain_names b /\ plain_names c /\
  s_compatible a b = Ok true /\ s_compatible b c = Ok true /\ s_compatible a c = Ok false.
Proof.
  exists (run_ops s_empty [([], OpAddChild (L "x")); ([0%nat], OpSetDType (dt_simple INT32 1))]),
         (init_object s_empty),
         (run_ops s_empty [([], OpAddChild (L "x")); ([0%nat], OpSetDType (dt_simple FLOAT64 1))]).
  assert (E : wf s_empty) by (constructor; reflexivity).
  split; [apply run_ops_spec; [exact E|repeat constructor]|].
  split; [apply wf_init_object; exact E|].
  split; [apply run_ops_spec; [exact E|repeat constructor]|].
  unfold plain_names.
  split; [|split; [|split]].
  - repeat constructor; simpl; intros H; repeat (destruct H as [H|H]; try discriminate H); exact H.
  - repeat constructor.
  - repeat constructor; simpl; intros H; repeat (destruct H as [H|H]; try discriminate H); exact H.
  - repeat split; vm_compute; reflexivity.
Qed.
Print Assumptions C07_compatible_transitive_refuted.
(** A name with a slash makes compatible() report an error instead of a verdict:
    has_path finds a/b below, child("a/b") does not. *)
Theorem C07_compatible_slash_name_refuted : exists a b,
  wf a /\ wf b /\ s_compatible a b = Err.
Proof.
  exists (run_ops s_empty [([], OpFetch [L "p"; L "q"])]), (add_child s_empty (L "p/q")).
  split; [apply run_ops_spec; [constructor; reflexivity|]|].
  - repeat constructor; try discriminate; intros H; repeat (destruct H as [H|H]; try discriminate H); exact H.
  - split; [apply wf_add_child; constructor; reflexivity|]. vm_compute. reflexivity.
Qed.
Print Assumptions C07_compatible_slash_name_refuted.
Example C07_nontrivial :
  s_compatible demo (run_ops demo [([0%nat; 0%nat], OpSetDType (dt_simple INT32 2))]) = Ok true /\
  s_compatible (run_ops demo [([0%nat; 0%nat], OpSetDType (dt_simple INT32 2))]) demo = Ok false.
Proof. split; vm_compute; reflexivity. Qed.

(** * C08 *)
Theorem C08_spanned_bytes_covers : forall s d i b,
  wf s -> In d (tleaves (abs s)) -> 0 <= dt_off d -> 0 <= dt_stride d ->
  occupies d i b -> 0 <= b < s_spanned_bytes s.
Proof. exact spanned_covers. Qed.
Print Assumptions C08_spanned_bytes_covers.
Theorem C08_spanned_bytes_tight : forall s,
  wf s -> tleaves (abs s) <> [] ->
  (forall d, In d (tleaves (abs s)) ->
     0 <= dt_off d /\ 0 <= dt_stride d /\ 1 <= dt_n d /\ 1 <= dt_ebytes d) ->
  exists d i, In d (tleaves (abs s)) /\ occupies d i (s_spanned_bytes s - 1).
Proof. exact spanned_tight. Qed.
Print Assumptions C08_spanned_bytes_tight.
Theorem C08_total_bytes_compact_is_sum : forall s,
  wf s -> total_bytes_compact s = total_of (tleaves (abs s)).
Proof. exact compact_bytes_sum. Qed.
Print Assumptions C08_total_bytes_compact_is_sum.
(** Without "at least one element": an empty strided array has a negative span. *)
Theorem C08_zero_elements_refuted : exists s,
  wf s /\ (forall d, In d (tleaves (abs s)) -> 0 <= dt_off d /\ 0 <= dt_stride d /\ 0 <= dt_n d) /\
  s_spanned_bytes s < 0.
Proof.
  exists (SLeaf (mkDT FLOAT64 0 0 16 8 DEFAULT_E)). split; [constructor; reflexivity|].
  split; [intros d [<-|[]]; simpl; lia|]. reflexivity.
Qed.
Print Assumptions C08_zero_elements_refuted.
Example C08_nontrivial : s_spanned_bytes demo = 48 /\
  occupies (mkDT FLOAT64 2 24 16 8 DEFAULT_E) 1 47 /\ total_bytes_compact demo = 33.
Proof. split; [vm_compute; reflexivity|]. split; [unfold occupies; simpl; lia|vm_compute; reflexivity]. Qed.

(** * C09 *)
Theorem C09_compact_to_layout : forall s,
  wf s ->
  let c := s_compact_to s in
  wf c /\ tmap leaf_kind (abs c) = tmap leaf_kind (abs s) /\
  back_to_back 0 (tleaves (abs c)) /\ total_bytes_compact c = total_bytes_compact s /\
  s_is_compact c = true /\ s_compact_to c = c.
Proof. exact compact_layout. Qed.
Print Assumptions C09_compact_to_layout.
Theorem C09_compact_to_tiles : forall s b,
  wf s -> (forall d, In d (tleaves (abs s)) -> 0 <= dt_n d) ->
  0 <= b < total_bytes_compact s ->
  exists j d i, nth_error (tleaves (abs (s_compact_to s))) j = Some d /\ occupies d i b /\
    forall j' d' i', nth_error (tleaves (abs (s_compact_to s))) j' = Some d' -> occupies d' i' b ->
                     j' = j /\ i' = i.
Proof. exact compact_tiles. Qed.
Print Assumptions C09_compact_to_tiles.
Theorem C09_compact_to_stays_inside : forall s d i b,
  wf s -> (forall d, In d (tleaves (abs s)) -> 0 <= dt_n d) ->
  In d (tleaves (abs (s_compact_to s))) -> occupies d i b -> 0 <= b < total_bytes_compact s.
Proof. exact compact_inside. Qed.
Print Assumptions C09_compact_to_stays_inside.
Example C09_nontrivial :
  map dt_off (tleaves (abs (s_compact_to demo))) = [0; 12; 28; 0; 0] /\
  s_is_compact demo = false.
Proof. split; vm_compute; reflexivity. Qed.

(** * C10 *)
(** For leaves with standard element size, at least one element and elements that
    do not overlap, is_compact means exactly that every leaf is dense. *)
Theorem C10_is_compact_iff_leaves_dense : forall s,
  wf s ->
  (forall d, In d (tleaves (abs s)) ->
     dt_id d <> EMPTY /\ dt_ebytes d = default_bytes (dt_id d) /\ 1 <= dt_n d /\
     default_bytes (dt_id d) <= dt_stride d) ->
  (s_is_compact s = true <->
   forall d i b, In d (tleaves (abs s)) ->
     (occupies d i b <-> 0 <= i < dt_n d /\
        dt_off d + default_bytes (dt_id d) * i <= b < dt_off d + default_bytes (dt_id d) * (i + 1))).
Proof. exact is_compact_dense. Qed.
Print Assumptions C10_is_compact_iff_leaves_dense.
Example C10_nontrivial :
  let s := SLeaf (mkDT INT32 3 8 4 4 DEFAULT_E) in wf s /\ s_is_compact s = true.
Proof. split; [constructor; reflexivity|vm_compute; reflexivity]. Qed.
(** In general is_compact says yes for layouts that are not dense: leaves placed
    apart from each other (offsets are not looked at), *)
Theorem C10_offsets_ignored_refuted : exists s,
  wf s /\ s_is_compact s = true /\ s_spanned_bytes s <> total_bytes_compact s.
Proof.
  exists (run_ops s_empty [([], OpAddChild (L "x")); ([0%nat], OpSetDType (dt_simple INT8 1));
                           ([], OpAddChild (L "y")); ([1%nat], OpSetDType (mkDT INT8 1 100 1 1 DEFAULT_E))]).
  split; [apply run_ops_spec; [constructor; reflexivity|repeat constructor]|].
  split; [reflexivity|vm_compute; discriminate].
Qed.
Print Assumptions C10_offsets_ignored_refuted.
(** and a gap in one leaf cancelled by overlapping elements of another. *)
Theorem C10_sums_cancel_refuted : exists s d,
  wf s /\ s_is_compact s = true /\ In d (tleaves (abs s)) /\
  strided_bytes d <> bytes_compact d.
Proof.
  exists (run_ops s_empty [([], OpAddChild (L "x")); ([0%nat], OpSetDType (mkDT INT32 2 0 8 4 DEFAULT_E));
                           ([], OpAddChild (L "y")); ([1%nat], OpSetDType (mkDT INT32 2 16 0 4 DEFAULT_E))]),
         (mkDT INT32 2 0 8 4 DEFAULT_E).
  split; [apply run_ops_spec; [constructor; reflexivity|repeat constructor]|].
  split; [reflexivity|]. split; [vm_compute; auto|vm_compute; discriminate].
Qed.
Print Assumptions C10_sums_cancel_refuted.

(** * C27 *)
Theorem C27_name_of_id_of_name : forall t, name_to_id (id_to_name t) = t.
Proof. destruct t; reflexivity. Qed.
Print Assumptions C27_name_of_id_of_name.
Theorem C27_names_distinct : forall t u, id_to_name t = id_to_name u -> t = u.
Proof. intros t u H. rewrite <- (C27_name_of_id_of_name t), H. apply C27_name_of_id_of_name. Qed.
Print Assumptions C27_names_distinct.
Theorem C27_unknown_name_is_empty : forall s, (forall t, s <> id_to_name t) -> name_to_id s = EMPTY.
Proof. exact unknown_name_is_empty. Qed.
Print Assumptions C27_unknown_name_is_empty.
Theorem C27_default_dtype : forall t,
  t <> CHAR8_STR -> t <> EMPTY -> is_container t = false ->
  dt_id (default_dtype t) = t /\ dt_n (default_dtype t) = 1 /\
  dt_ebytes (default_dtype t) = default_bytes t /\ dt_is_compact (default_dtype t) = true.
Proof. intros t A B C. destruct t; try congruence; try discriminate; repeat split; reflexivity. Qed.
Print Assumptions C27_default_dtype.
Theorem C27_default_dtype_of_string_refuted : dt_id (default_dtype CHAR8_STR) <> CHAR8_STR.
Proof. discriminate. Qed.
Print Assumptions C27_default_dtype_of_string_refuted.
Theorem C27_endian_names : forall e, endian_name_to_id (endian_id_to_name e) = e.
Proof. destruct e; reflexivity. Qed.
Print Assumptions C27_endian_names.
