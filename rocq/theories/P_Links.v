(** C22 and C40: linked nodes and schemas; swap, move and histories of structural calls. *)
From Coq Require Import Lia.
From Verif Require Import Base DType Mem Node NodeLinks LinksFacts LinksCut LinksOps.

(** ---- C22 ---- *)
(** swap exchanges what the two nodes hold and leaves nodes and schemas in step; trees that
    contain neither node are the same objects as before *)
Theorem C22_swap : forall H a b, good H -> live H a -> live H b -> a <> b -> apart H a b -> ~ comes_before H a b ->
  exists H', hswap H a b = Ok H' /\ good H' /\
    (forall c, content H a c -> content H' b c) /\ (forall c, content H b c -> content H' a c) /\
    (forall y t, hangs H y t -> ~ In a (ids t) -> ~ In b (ids t) -> hangs H' y t).
Proof.
  intros H a b G (na & Ea) (nb & Eb) N Ap NB. destruct (swap_good H a b na nb G N Ea Eb Ap NB) as (H' & E & _ & R). exists H'. split; [exact E|exact R].
Qed.
(** swapping twice gives back the very same objects *)
Theorem C22_swap_twice : forall H a b, good H -> live H a -> live H b -> a <> b -> ~ comes_before H a b ->
  exists H1 H2, hswap H a b = Ok H1 /\ hswap H1 a b = Ok H2 /\ same_heap H H2.
Proof. intros H a b G (na & Ea) (nb & Eb) N NB. exact (swap_twice H a b na nb G N Ea Eb NB). Qed.
(** move gives [a] what [b] held and leaves [b] empty *)
Theorem C22_move : forall H a b, good H -> live H a -> live H b -> a <> b -> apart H a b -> ~ comes_before H a b ->
  exists H', hmove H a b = Ok H' /\ good H' /\ (forall c, content H b c -> content H' a c) /\ (exists h, content H' b (CT h dt_empty [] [])) /\
    (forall y t, hangs H y t -> ~ In a (ids t) -> ~ In b (ids t) -> ~ inside H y a -> hangs H' y t).
Proof. intros H a b G (na & Ea) (nb & Eb) N Ap NB. exact (move_good H a b na nb G N Ea Eb Ap NB). Qed.

(** ---- C40 ---- *)
(** any history of allowed calls runs without touching a freed object and without running out
    of fuel, and leaves every node and its schema in step, every tree finite, every schema in use *)
Theorem C40_history : forall l, all_allowed empty_heap l -> exists H, steps empty_heap l = Ok H /\ good H.
Proof. intros l A. destruct (history_good l empty_heap empty_good A) as (H & E & G & _). eauto. Qed.
(** the same from any heap in step *)
Theorem C40_step : forall H o, good H -> allowed H o -> exists H', step H o = Ok H' /\ good H'.
Proof. intros H o G A. destruct (step_good H o G A) as (H' & E & G' & _). eauto. Qed.
(** without swap and move every child knows its parent *)
Theorem C40_parents : forall l, all_allowed empty_heap l -> forallb no_swap l = true -> exists H, steps empty_heap l = Ok H /\ forall x, kids_know H x.
Proof. intros l A B. destruct (history_good l empty_heap empty_good A) as (H & E & _ & P). exists H. split; [exact E|]. exact (P B empty_parents). Qed.
(** no object is lost: every live node is in the tree of a live root *)
Theorem C40_no_leak : forall H x, good H -> live H x -> exists r n, nodes H r = Some n /\ n_parent n = None /\ inside H x r.
Proof. exact no_leak. Qed.
(** deleting a root frees exactly the nodes of its tree and their schemas *)
Theorem C40_delete : forall H x n t, good H -> nodes H x = Some n -> n_parent n = None -> hangs H x t -> exists H', hdelete H x = Ok H' /\ good H' /\
  (forall y, In y (ids t) -> nodes H' y = None) /\ (forall y, ~ In y (ids t) -> nodes H' y = nodes H y) /\
  (forall s, (exists y m, In y (ids t) /\ nodes H y = Some m /\ n_schema m = s) -> schemas H' s = None) /\
  (forall s, ~ (exists y m, In y (ids t) /\ nodes H y = Some m /\ n_schema m = s) -> schemas H' s = schemas H s).
Proof.
  intros H x n t G En Pn A. destruct (delete_ok H x n t G En Pn A) as (H' & E & G' & _ & Fn & Fs & _). exists H'. split; [exact E|]. split; [exact G'|].
  split; [intros y I; rewrite Fn; destruct (in_dec Nat.eq_dec y (ids t)); [reflexivity|contradiction]|]. split; [intros y I; rewrite Fn; destruct (in_dec Nat.eq_dec y (ids t)); [contradiction|reflexivity]|].
  split; intros s I; rewrite Fs; destruct (in_dec Nat.eq_dec s (sids t)) as [J|J]; try reflexivity; exfalso; [apply J; apply (sids_ids H t x s A); exact I|apply I; apply (sids_ids H t x s A); exact J].
Qed.
(** reset empties the node and leaves everything outside it alone *)
Theorem C40_reset : forall H x, good H -> live H x -> exists H', hreset H x = Ok H' /\ good H' /\ (exists h, content H' x (CT h dt_empty [] [])) /\ frame H H' x.
Proof.
  intros H x G (n & En). destruct (view H x n G En) as (s & ks & Es & Fk & A). destruct (reset_good H x n s ks G En Es Fk A) as (H' & E & G' & _ & F & A' & _). exists H'. split; [exact E|]. split; [exact G'|]. split; [|exact F]. eexists. eexists. split; [exact A'|reflexivity].
Qed.
(** remove takes the i-th child away and leaves everything outside alone *)
Theorem C40_remove : forall H x n i c, good H -> nodes H x = Some n -> i < length (n_kids n) -> content H x c ->
  exists H', hremove H x i = Ok H' /\ good H' /\ content H' x (without c i) /\ frame H H' x.
Proof. intros H x n i c G En L C. destruct (remove_good H x n i c G En L C) as (H' & E & (G' & _ & F & _) & C'). exists H'. auto. Qed.
(** fetch returns a child of that name *)
Theorem C40_fetch : forall H x k, good H -> live H x -> exists H' c, hfetch H x k = Ok (H', c) /\ good H' /\ named_child H' x k c /\ frame H H' x.
Proof. intros H x k G (n & En). destruct (fetch_good H x n k G En) as (H' & c & E & (G' & _ & F & _) & N). exists H', c. auto. Qed.
(** append returns a new last child, empty *)
Theorem C40_append : forall H x, good H -> live H x -> exists H' c n', happend H x = Ok (H', c) /\ good H' /\ nodes H' x = Some n' /\ (exists l, n_kids n' = l ++ [c]) /\ content H' c (CT null_hdr dt_empty [] []) /\ frame H H' x.
Proof. intros H x G (n & En). destruct (append_good H x n G En) as (H' & c & n' & E & (G' & _ & F & _) & E' & L & C). exists H', c, n'. auto 10. Qed.

(** what the node holds after fetch: nothing changes when the child is there; otherwise an empty
    child is added at the end, and a node of another kind first becomes an empty object *)
Theorem C40_fetch_content : forall H x k h d nm ks, good H -> content H x (CT h d nm ks) -> exists H' c, hfetch H x k = Ok (H', c) /\
  ((dt_id d = OBJECT /\ In k nm /\ H' = H) \/ (dt_id d = OBJECT /\ ~ In k nm /\ content H' x (CT h d (nm ++ [k]) (ks ++ [blank]))) \/ (dt_id d <> OBJECT /\ exists h', content H' x (CT h' dt_object [k] [blank]))).
Proof. exact fetch_content. Qed.
Theorem C40_append_content : forall H x h d nm ks, good H -> content H x (CT h d nm ks) -> exists H' c, happend H x = Ok (H', c) /\
  ((dt_id d = LIST /\ content H' x (CT h d nm (ks ++ [blank]))) \/ (dt_id d <> LIST /\ exists h', content H' x (CT h' dt_list [] [blank]))).
Proof. exact append_content. Qed.

(** ---- examples ---- *)
(** 0 = a root with children "a" (1, itself with child "u" 3) and "b" (2); 4 = a second root *)
Definition two_trees : list op := [New; Fetch 0 (L "a"); Fetch 0 (L "b"); Fetch 1 (L "u"); New; Fetch 4 (L "w")].
Ltac is_live := cbn; eexists; vm_compute; reflexivity.
Lemma live_steps : forall l H o r, steps H l = Ok r -> all_allowed H l -> allowed r o -> all_allowed H (l ++ [o]).
Proof.
  induction l as [|p l IH]; intros H o r E A Ao; cbn [steps] in E; [injection E as ->; cbn; auto|]. destruct A as (A1 & A2). split; [exact A1|]. intros H' E'. rewrite E' in E. cbn [obind] in E. exact (IH H' o r E (A2 H' E') Ao).
Qed.
Ltac use_step := let H := fresh "H" in let E := fresh "E" in intros H E; vm_compute in E; injection E as <-.
Example two_trees_allowed : all_allowed empty_heap two_trees.
Proof.
  unfold two_trees. cbn [all_allowed allowed]. split; [exact I|]. intros H1 E1. injection E1 as <-. split; [eexists; vm_compute; reflexivity|]. intros H2 E2. vm_compute in E2. injection E2 as <-. split; [eexists; vm_compute; reflexivity|].
  intros H3 E3. vm_compute in E3. injection E3 as <-. split; [eexists; vm_compute; reflexivity|]. intros H4 E4. vm_compute in E4. injection E4 as <-. split; [exact I|]. intros H5 E5. vm_compute in E5. injection E5 as <-. split; [eexists; vm_compute; reflexivity|]. auto.
Qed.
(** its swap of "a" of the first tree with the second root satisfies the hypotheses *)
Example swap_example : exists H, steps empty_heap two_trees = Ok H /\ good H /\ live H 1 /\ live H 4 /\ apart H 1 4 /\ ~ comes_before H 1 4 /\
  (exists c h, content H 1 (CT h dt_object [L "u"] [c])) /\ (exists c h, content H 4 (CT h dt_object [L "w"] [c])).
Proof.
  destruct (C40_history two_trees two_trees_allowed) as (H & E & G). exists H. split; [exact E|]. split; [exact G|]. vm_compute in E. injection E as <-.
  match goal with |- live ?H _ /\ _ => set (H0 := H) in * end.
  assert (L3 : hangs H0 3 (OT 3 3 null_hdr dt_empty [] [])) by (exact (hangs_intro H0 3 _ _ [] eq_refl eq_refl (Forall2_nil _))).
  assert (L5 : hangs H0 5 (OT 5 5 null_hdr dt_empty [] [])) by (exact (hangs_intro H0 5 _ _ [] eq_refl eq_refl (Forall2_nil _))).
  assert (A1 : hangs H0 1 (OT 1 1 null_hdr dt_object [L "u"] [OT 3 3 null_hdr dt_empty [] []])).
  { pose proof (hangs_intro H0 1 _ _ [OT 3 3 null_hdr dt_empty [] []] eq_refl eq_refl) as X. apply X. constructor; [exact L3|constructor]. }
  assert (A4 : hangs H0 4 (OT 4 4 null_hdr dt_object [L "w"] [OT 5 5 null_hdr dt_empty [] []])).
  { pose proof (hangs_intro H0 4 _ _ [OT 5 5 null_hdr dt_empty [] []] eq_refl eq_refl) as X. apply X. constructor; [exact L5|constructor]. }
  split; [eexists; reflexivity|]. split; [eexists; reflexivity|]. split; [|split; [|split; [exists (CT null_hdr dt_empty [] []), null_hdr; eexists; split; [exact A1|reflexivity]|exists (CT null_hdr dt_empty [] []), null_hdr; eexists; split; [exact A4|reflexivity]]]].
  - split; intros (t & A & I); [rewrite (hangs_fun _ _ _ _ A A4) in I|rewrite (hangs_fun _ _ _ _ A A1) in I]; cbn in I; intuition discriminate.
  - intros (na & nb & q & qo & i & j & Ea & Eb & Eq & Ei & Ej & L). injection Ea as <-. injection Eb as <-. cbn [n_schema] in *. destruct G as (Y & _ & _). destruct (sy_down H0 Y q qo 4 Eq (nth_error_In _ _ Ej)) as (co & Ec & Pc). vm_compute in Ec. injection Ec as <-. discriminate Pc.
Qed.
(** what the model computes for it: the child names seen under the two nodes *)
Definition kid_names (H : heap) (x : nat) : outcome (list str) := do n <- nget H x; do s <- sget H (n_schema n); Ok (s_names s).
Example swap_runs : (do H <- steps empty_heap (two_trees ++ [Swap 1 4]); do p <- kid_names H 1; do q <- kid_names H 4; Ok (p, q)) = Ok ([L "w"], [L "u"]).
Proof. vm_compute. reflexivity. Qed.
Example move_runs : (do H <- steps empty_heap (two_trees ++ [Move 1 4]); do p <- kid_names H 1; do q <- kid_names H 4; Ok (p, q, match nodes H 3 with None => true | _ => false end)) = Ok ([L "w"], [], true).
Proof. vm_compute. reflexivity. Qed.
Example delete_runs : (do H <- steps empty_heap (two_trees ++ [Delete 0]); Ok (map (fun x => match nodes H x, schemas H x with None, None => false | _, _ => true end) [0;1;2;3;4;5])) = Ok [false; false; false; false; true; true].
Proof. vm_compute. reflexivity. Qed.

(** ---- findings ---- *)
(** Swapping a child with a later child of the same node leaves the parent's schema as it
    was: the first child node then uses the schema listed second. *)
Theorem C22_swap_siblings_refuted : exists H H' n s na, steps empty_heap [New; Fetch 0 (L "a"); Fetch 0 (L "b")] = Ok H /\ hswap H 1 2 = Ok H' /\
  nodes H' 0 = Some n /\ schemas H' (n_schema n) = Some s /\ nth_error (n_kids n) 0 = Some 1 /\ nodes H' 1 = Some na /\ nth_error (s_kids s) 0 <> Some (n_schema na).
Proof.
  destruct (steps empty_heap [New; Fetch 0 (L "a"); Fetch 0 (L "b")]) as [H| | |] eqn:E; vm_compute in E; try discriminate E. injection E as <-.
  eexists. eexists. eexists. eexists. eexists. split; [reflexivity|]. split; [vm_compute; reflexivity|]. split; [reflexivity|]. split; [reflexivity|]. split; [reflexivity|]. split; [reflexivity|]. vm_compute. discriminate.
Qed.
(** ... so that removing the first child frees the schema the other child uses *)
Theorem C22_swap_siblings_remove_refuted : steps empty_heap [New; Fetch 0 (L "a"); Fetch 0 (L "b"); Swap 1 2; Remove 0 0; Fetch 2 (L "x")] = UB.
Proof. vm_compute. reflexivity. Qed.
(** the other way round (later.swap(earlier)) is fine *)
Example swap_siblings_other : exists H, steps empty_heap [New; Fetch 0 (L "a"); Fetch 0 (L "b"); Swap 2 1; Remove 0 0; Fetch 2 (L "x")] = Ok H.
Proof. eexists. vm_compute. reflexivity. Qed.
(** swap does not tell the children about their new parent: child 3 of "a", now under the
    other root, still names node 1 as its parent *)
Theorem C22_swap_parents_refuted : exists H n n3, steps empty_heap (two_trees ++ [Swap 1 4]) = Ok H /\ nodes H 4 = Some n /\ In 3 (n_kids n) /\ nodes H 3 = Some n3 /\ n_parent n3 = Some 1.
Proof.
  destruct (steps empty_heap (two_trees ++ [Swap 1 4])) as [H| | |] eqn:E; vm_compute in E; try discriminate E. injection E as <-. eexists. eexists. eexists. split; [reflexivity|]. split; [reflexivity|]. split; [left; reflexivity|]. split; reflexivity.
Qed.
(** ... and when that node is deleted the child's parent is a freed object *)
Theorem C22_swap_dangling_refuted : exists H n n3, steps empty_heap (two_trees ++ [Swap 1 4; Delete 0]) = Ok H /\ nodes H 4 = Some n /\ In 3 (n_kids n) /\ nodes H 3 = Some n3 /\ n_parent n3 = Some 1 /\ nodes H 1 = None.
Proof.
  destruct (steps empty_heap (two_trees ++ [Swap 1 4; Delete 0])) as [H| | |] eqn:E; vm_compute in E; try discriminate E. injection E as <-. eexists. eexists. eexists. split; [reflexivity|]. split; [reflexivity|]. split; [left; reflexivity|]. split; [reflexivity|]. split; reflexivity.
Qed.
(** swapping a node with its own child makes the node its own child *)
Theorem C22_swap_child_refuted : exists H n, steps empty_heap [New; Fetch 0 (L "a"); Swap 0 1] = Ok H /\ nodes H 1 = Some n /\ In 1 (n_kids n) /\ forall t, ~ hangs H 1 t.
Proof.
  destruct (steps empty_heap [New; Fetch 0 (L "a"); Swap 0 1]) as [H| | |] eqn:E; vm_compute in E; try discriminate E. injection E as <-. eexists. eexists. split; [reflexivity|]. split; [reflexivity|]. split; [left; reflexivity|].
  intros t A. inversion A as [x n s ks En Es Fk]; subst. pose proof (no_cycle _ _ _ _ _ A Fk) as NC. apply NC. injection En as <-. cbn [n_kids] in Fk. inversion Fk as [|? tk ? ? R F']; subst. cbn [map concat]. apply in_or_app. left. exact (hangs_root _ _ _ R).
Qed.
(** moving a node's own child into it reads the child after it was freed *)
Theorem C22_move_child_refuted : steps empty_heap [New; Fetch 0 (L "a"); Move 0 1] = UB.
Proof. vm_compute. reflexivity. Qed.
(** add_child on a list with children leaves the old child with a freed schema, and the new
    name leads to the old child *)
Theorem C40_add_child_refuted : exists H n n1, steps empty_heap [New; Append 0; AddChild 0 (L "k")] = Ok H /\ nodes H 0 = Some n /\ nth_error (n_kids n) 0 = Some 1 /\ nodes H 1 = Some n1 /\ schemas H (n_schema n1) = None /\ find_child H 0 (L "k") = Ok (Some 1).
Proof.
  destruct (steps empty_heap [New; Append 0; AddChild 0 (L "k")]) as [H| | |] eqn:E; vm_compute in E; try discriminate E. injection E as <-. eexists. eexists. eexists. split; [reflexivity|]. split; [reflexivity|]. split; [reflexivity|]. split; [reflexivity|]. split; reflexivity.
Qed.
(** remove with an index past the end is undefined *)
Theorem C40_remove_range_refuted : steps empty_heap [New; Fetch 0 (L "a"); Remove 0 1] = UB.
Proof. vm_compute. reflexivity. Qed.

Print Assumptions C22_swap.
Print Assumptions C22_swap_twice.
Print Assumptions C22_move.
Print Assumptions C40_history.
Print Assumptions C40_parents.
Print Assumptions C40_no_leak.
Print Assumptions C40_delete.

Print Assumptions C40_step.
Print Assumptions C40_reset.
Print Assumptions C40_remove.
Print Assumptions C40_fetch.
Print Assumptions C40_append.
Print Assumptions C40_fetch_content.
Print Assumptions C40_append_content.
Print Assumptions C22_swap_siblings_refuted.
Print Assumptions C22_swap_siblings_remove_refuted.
Print Assumptions C22_swap_parents_refuted.
Print Assumptions C22_swap_dangling_refuted.
Print Assumptions C22_swap_child_refuted.
Print Assumptions C22_move_child_refuted.
Print Assumptions C40_add_child_refuted.
Print Assumptions C40_remove_range_refuted.
