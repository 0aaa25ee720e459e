(** C63: trees kept in HDF5 files. *)
From Verif Require Import Base DType SpecTree Mem Node SpecNode Json MatSet AdjSet ArrayOps Hdf5 Hdf5Spec Hdf5Facts Hdf5Hist Hdf5Slab.
Local Open Scope Z_scope.
Import ListNotations.

(** A tree written to a new file reads back as that tree, in the byte order of the
    machine: objects and lists of any depth, arrays of any length and byte order. *)
Theorem C63_round_trip : forall mach v, mach <> DEFAULT_E -> storable v -> is_tree v ->
  exists f, h_write mach no_opts h_new [] v = (f, Ok tt) /\
            h_read mach all_of_it f [] fresh = Ok (tmap (in_machine_order mach) v).
Proof. intros mach v Hm. exact (fresh_file mach Hm v). Qed.
Print Assumptions C63_round_trip.

(** Any sequence of writes at paths and removals acts on the file as on a tree: an
    operation succeeds exactly if what it writes fits what is there, or what it removes
    is there; it then changes what it names and nothing else; a refused one changes
    nothing; and every path reads what the tree has there, or fails if it has nothing. *)
Theorem C63_history : forall mach ops, mach <> DEFAULT_E -> ops_ok mach (TObj []) ops ->
  let '(f, rs) := h_run mach h_new (map as_op ops) in
  let '(s, bs) := tree_run mach (TObj []) ops in
  rs = map told bs /\
  forall p, through_objects s p ->
    h_has f p = given (tlookup s p) /\
    h_read mach all_of_it f p fresh = match tlookup s p with Some u => Ok (tmap (in_machine_order mach) u) | None => Err end.
Proof. intros mach ops Hm. exact (history mach Hm ops). Qed.
Print Assumptions C63_history.

(** Part of an array: with an offset and a stride the elements land at offset, offset +
    stride, ..., the rest of the array keeps its values, new places between hold zeros;
    the same options read the elements back; no other path changes. *)
Theorem C63_slab : forall mach o f p t e es r old, mach <> DEFAULT_E ->
  let off := or_else (w_off o) 0 in let st := or_else (w_str o) 1 in
  Forall plain_name p -> p <> [] -> slot f p = Some r -> in_file mach r t e old -> es <> [] -> 0 <= off -> 1 <= st ->
  off + (Z.of_nat (length es) - 1) * st + 1 < 2 ^ 64 -> not_short r off st es ->
  given (w_off o) = true \/ given (w_str o) = true ->
  exists f', h_write mach o f p (TLeaf (Some (t, e, es))) = (f', Ok tt) /\
    h_read mach (mkR (Some off) (Some st) (Some (Z.of_nat (length es)))) f' p fresh = Ok (TLeaf (in_machine_order mach (Some (t, e, es)))) /\
    (exists new, h_read mach all_of_it f' p fresh = Ok (TLeaf (Some (t, snd (ftype_of mach t mach), new))) /\
       spread off st (zero_elem t) (machine_elems mach t e es) (machine_elems mach t e old) new) /\
    (forall q, apart p q -> h_find f' q = h_find f q).
Proof. intros mach o f p t e es r old Hm. exact (slab mach Hm o f p t e es r old). Qed.
Print Assumptions C63_slab.

(** * Cases *)
Definition M := LITTLE_E.
Definition i32 (z : Z) : list byte := encode M INT32 z.
Definition ints (l : list Z) : tree leafval := TLeaf (Some (INT32, DEFAULT_E, map i32 l)).
Definition got (l : list Z) : tree leafval := TLeaf (Some (INT32, M, map i32 l)).
Definition big_ints (l : list Z) : tree leafval := TLeaf (Some (INT32, BIG_E, map (fun z => rev (i32 z)) l)).
Definition text (s : string) : tree leafval := TLeaf (Some (CHAR8_STR, DEFAULT_E, map (fun c => [c]) (L s ++ [zero_byte]))).
Definition sample : tree leafval :=
  TObj [(L "name", text "mesh"); (L "xs", ints [1; 2; 3]); (L "ys", big_ints [4; 5]);
        (L "parts", TList [ints [7]; TObj [(L "none", TLeaf None)]; TList []])].

Ltac plain := repeat split; [discriminate|intros H; cbn in H; repeat (destruct H as [H|H]; [discriminate H|]); destruct H|discriminate|discriminate].
Lemma names_differ (a b : str) : str_eqb a b = false -> a <> b.
Proof. intros H. apply str_eqb_neq, H. Qed.
Ltac nodup := repeat (constructor; [intros H; cbn in H; repeat (destruct H as [H|H]; [discriminate H|]); destruct H|]); constructor.
Ltac store :=
  repeat match goal with
  | |- storable (TLeaf _) => constructor; first [exact I|split; [repeat split; discriminate|cbn; lia]]
  | |- storable (TObj _) => constructor; [nodup|]
  | |- storable (TList _) => constructor; [cbn; lia|]
  | |- Forall _ [] => constructor
  | |- Forall _ (_ :: _) => constructor
  | |- plain_name _ /\ _ => split; [cbn [fst]; plain|cbn [snd]]
  end.
Lemma sample_storable : storable sample.
Proof. unfold sample, text, ints, big_ints. store. Qed.
Example C63_round_trip_case : storable sample /\ is_tree sample /\
  exists f, h_write M no_opts h_new [] sample = (f, Ok tt) /\
    h_read M all_of_it f [] fresh = Ok (TObj [(L "name", text "mesh"); (L "xs", got [1; 2; 3]); (L "ys", got [4; 5]);
        (L "parts", TList [got [7]; TObj [(L "none", TLeaf None)]; TList []])]).
Proof. split; [exact sample_storable|split; [exact I|]]. eexists. split; vm_compute; reflexivity. Qed.
Definition program : list file_op :=
  [Write [L "a"; L "b"] (ints [1; 2]); Write [L "a"] (TObj [(L "c", TList [ints [5]])]); Write [L "a"; L "b"] (ints [3]);
   Write [L "a"; L "b"] (ints [8; 9]); Write [L "a"; L "c"] (TList [ints [6]; ints [7]]); Remove [L "a"; L "x"]; Remove [L "a"; L "b"]].
Example C63_history_case : ops_ok M (TObj []) program /\ snd (tree_run M (TObj []) program) = [true; true; false; true; true; false; true] /\
  fst (tree_run M (TObj []) program) = TObj [(L "a", TObj [(L "c", TList [got [6]; got [7]])])].
Proof.
  split; [|split; vm_compute; reflexivity]. unfold program. cbn [ops_ok op_ok].
  repeat match goal with
  | |- _ /\ _ => split
  | |- True => exact I
  | |- storable _ => unfold ints; store
  | |- Forall plain_name _ => repeat (constructor; [plain|]); constructor
  | |- through_objects _ _ => vm_compute; exact I
  end; vm_compute.
  all: repeat first
    [ exact (sk_none _) | exact (sk_leaf _ _) | exact (sk_under _ _)
    | apply sk_obj; [reflexivity|constructor; [|constructor]; vm_compute]
    | apply sk_list; [reflexivity|intros i c H; destruct i as [|[|i]]; [injection H as <-|try (injection H as <-)|try discriminate H]; vm_compute; try exact (sk_none _)] ].
  all: try (destruct i; discriminate).
Qed.
Definition old_file : hobj := fst (h_write M no_opts h_new [] (TObj [(L "x", big_ints [1; 2; 3]); (L "y", ints [4])])).
Example C63_slab_case :
  slot old_file [L "x"] = Some (Some (HDset (INT32, BIG_E) (map (fun z => rev (i32 z)) [1; 2; 3]) false)) /\
  slot old_file [L "new"; L "z"] = Some None /\
  exists f, h_write M (mkW (Some 2) (Some 2)) old_file [L "x"] (big_ints [8; 9]) = (f, Ok tt) /\
    h_read M all_of_it f [L "x"] fresh = Ok (got [1; 2; 8; 0; 9]).
Proof. split; [reflexivity|split; [reflexivity|]]. eexists. split; vm_compute; reflexivity. Qed.

(** * What does not hold *)
(** A shorter array written over one that may change its length (one written with an
    offset, or one of more than two million bytes) leaves the old end in the file: what
    reads back is not what was written. *)
Theorem C63_shorter_refuted : exists f p v f',
  h_write M (mkW (Some 0) None) h_new p (ints [1; 2; 3]) = (f, Ok tt) /\
  h_write M no_opts f p v = (f', Ok tt) /\ h_read M all_of_it f' p fresh <> Ok (tmap (in_machine_order M) v).
Proof.
  eexists _, [L "a"], (ints [9]), _. split; [vm_compute; reflexivity|]. split; [vm_compute; reflexivity|]. vm_compute. discriminate.
Qed.
Print Assumptions C63_shorter_refuted.

(** The same happens by itself once an array has more than two million bytes. *)
Definition longest : list (list byte) := repeat (i32 1) (Z.to_nat 500001).
Lemma longest_length : Z.of_nat (length longest) = 500001.
Proof. unfold longest. rewrite repeat_length, Z2Nat.id by lia. reflexivity. Qed.
Definition two_writes (y : list (list byte)) : list file_op :=
  [Write [L "a"] (TLeaf (Some (INT32, M, longest))); Write [L "a"] (TLeaf (Some (INT32, M, y)))].
Lemma two_writes_run y : fst (tree_run M (TObj []) (two_writes y)) = TObj [(L "a", TLeaf (Some (INT32, M, y ++ skipn (length y) longest)))] /\
  snd (tree_run M (TObj []) (two_writes y)) = [true; true].
Proof.
  unfold two_writes. cbn [tree_run tree_step placed fold_right fits entries forallb mget andb fst snd put mset].
  change (mget [(L "a", TLeaf (Some (INT32, M, longest)))] (L "a")) with (Some (TLeaf (Some (INT32, M, longest)))).
  cbn [stored tid_eqb resolve]. change (str_eqb (L "a") (L "a")) with true. cbn iota.
  change (endian_eqb M DEFAULT_E) with false. cbn [leaf_fits leaf_over tid_eqb endian_eqb M andb].
  unfold large. rewrite longest_length. change (2000000 <? default_bytes INT32 * 500001) with true. cbn [orb andb fst snd]. split; reflexivity.
Qed.
Lemma two_writes_ok y : Z.of_nat (length y) < 2 ^ 63 -> ops_ok M (TObj []) (two_writes y).
Proof.
  intros Hy. unfold two_writes. cbn [ops_ok op_ok].
  assert (P : Forall plain_name [L "a"]) by (repeat (constructor; [plain|]); constructor).
  assert (K : forall z, Z.of_nat (length z) < 2 ^ 63 -> storable (TLeaf (Some (INT32, M, z)))) by (intros z Hz; constructor; split; [repeat split; discriminate|exact Hz]).
  split; [split; [apply K; rewrite longest_length; lia|split; [exact P|]]|split; [split; [apply K, Hy|split; [exact P|]]|exact I]].
  - apply sk_obj; [reflexivity|constructor; [|constructor]]. exact (sk_none _).
  - cbn [tree_step placed fold_right fits entries forallb mget andb fst snd put mset]. apply sk_obj; [reflexivity|constructor; [|constructor]]. exact (sk_leaf _ _).
Qed.
Theorem C63_large_refuted : exists x y,
  let '(f, rs) := h_run M h_new [HWrite [L "a"] (TLeaf (Some (INT32, M, x))); HWrite [L "a"] (TLeaf (Some (INT32, M, y)))] in
  rs = [Ok tt; Ok tt] /\ h_read M all_of_it f [L "a"] fresh <> Ok (TLeaf (Some (INT32, M, y))).
Proof.
  exists longest, [i32 2]. pose proof (C63_history M (two_writes [i32 2])) as H.
  destruct (two_writes_run [i32 2]) as [E B]. change (map as_op (two_writes [i32 2])) with [HWrite [L "a"] (TLeaf (Some (INT32, M, longest))); HWrite [L "a"] (TLeaf (Some (INT32, M, [i32 2])))] in H.
  destruct (h_run M h_new _) as [f rs]. destruct (tree_run M (TObj []) (two_writes [i32 2])) as [s bs]. cbn [fst snd] in E, B. subst s bs.
  destruct H as [R H]; [discriminate|apply two_writes_ok; cbn; lia|]. split; [exact R|].
  destruct (H [L "a"] I) as [_ E]. rewrite E. clear. cbn [tlookup].
  change (mget [(L "a", TLeaf (Some (INT32, M, [i32 2] ++ skipn (length [i32 2]) longest)))] (L "a")) with (Some (TLeaf (Some (INT32, M, [i32 2] ++ skipn (length [i32 2]) longest)))).
  cbn [tmap in_machine_order tid_eqb]. change (endian_eqb (resolve M M) M) with true. cbn iota. intros H.
  assert (K : [i32 2] ++ skipn (length [i32 2]) longest = [i32 2]) by exact (f_equal (fun o => match o with Ok (TLeaf (Some (_, _, z))) => z | _ => [] end) H).
  apply (f_equal (fun l => Z.of_nat (length l))) in K. rewrite app_length, skipn_length in K. pose proof longest_length. cbn [length] in K. lia.
Qed.
Print Assumptions C63_large_refuted.

(** With the option offset = 0 the lengths are not compared: a shorter array makes the
    library read past the end of the node's memory, a longer one is cut short without an
    error. *)
Theorem C63_offset_overrun_refuted : exists f p v, fst (h_write M no_opts h_new p (ints [1; 2; 3])) = f /\
  storable v /\ snd (h_write M (mkW (Some 0) None) f p v) = UB.
Proof.
  eexists _, [L "a"], (ints [9]). split; [reflexivity|]. split; [unfold ints; store|]. vm_compute. reflexivity.
Qed.
Print Assumptions C63_offset_overrun_refuted.
Theorem C63_offset_cut_refuted : exists f p v f', fst (h_write M no_opts h_new p (ints [1; 2; 3])) = f /\
  h_write M (mkW (Some 0) None) f p v = (f', Ok tt) /\ h_read M all_of_it f' p fresh <> Ok (tmap (in_machine_order M) v).
Proof.
  eexists _, [L "a"], (ints [5; 6; 7; 8]), _. split; [reflexivity|]. split; [vm_compute; reflexivity|]. vm_compute. discriminate.
Qed.
Print Assumptions C63_offset_cut_refuted.

(** A list over an object: the check goes by the order of the entries, the writing by the
    names 0, 1, ...: an empty list reads back with an entry that nobody wrote, *)
Theorem C63_list_over_object_refuted : exists f f', fst (h_write M no_opts h_new [L "g"] (TObj [(L "a", ints [1]); (L "b", ints [2])])) = f /\
  h_write M no_opts f [L "g"] (TList []) = (f', Ok tt) /\ h_read M all_of_it f' [L "g"] fresh = Ok (TList [got [2]]).
Proof. eexists _, _. split; [reflexivity|]. split; vm_compute; reflexivity. Qed.
Print Assumptions C63_list_over_object_refuted.
(** an array is written over one of another length, reading past the end of its memory, *)
Theorem C63_list_overrun_refuted : exists f v, fst (h_write M no_opts h_new [L "g"] (TObj [(L "b", ints [1]); (L "0", ints [1; 2; 3])])) = f /\
  storable v /\ snd (h_write M no_opts f [L "g"] v) = UB.
Proof. eexists _, (TList [ints [9]]). split; [reflexivity|]. split; [unfold ints; store|]. vm_compute. reflexivity. Qed.
Print Assumptions C63_list_overrun_refuted.
(** and a write that fails has already changed what the file says: the object reads as a
    list from now on. *)
Theorem C63_failed_write_refuted : exists v f f', fst (h_write M no_opts h_new [L "g"] (TObj [(L "b", ints [1]); (L "0", TObj [(L "x", ints [2])])])) = f /\
  h_write M no_opts f [L "g"] v = (f', Err) /\
  h_read M all_of_it f [L "g"] fresh = Ok (TObj [(L "b", got [1]); (L "0", TObj [(L "x", got [2])])]) /\
  h_read M all_of_it f' [L "g"] fresh = Ok (TList [TObj [(L "x", got [2])]]).
Proof. eexists (TList [ints [9]]), _, _. split; [reflexivity|]. split; [vm_compute; reflexivity|]. split; vm_compute; reflexivity. Qed.
Print Assumptions C63_failed_write_refuted.

(** Writing one entry of a list by its path turns the list into an object. *)
Theorem C63_list_entry_refuted : exists f f', fst (h_write M no_opts h_new [L "l"] (TList [ints [1]; ints [2]])) = f /\
  h_write M no_opts f [L "l"; L "0"] (ints [7]) = (f', Ok tt) /\
  h_read M all_of_it f [L "l"] fresh = Ok (TList [got [1]; got [2]]) /\
  h_read M all_of_it f' [L "l"] fresh = Ok (TObj [(L "0", got [7]); (L "1", got [2])]).
Proof. eexists _, _. split; [reflexivity|]. split; [vm_compute; reflexivity|]. split; vm_compute; reflexivity. Qed.
Print Assumptions C63_list_entry_refuted.
(** Removing an entry of a list makes all of the list unreadable. *)
Theorem C63_list_remove_refuted : exists f f', fst (h_write M no_opts h_new [L "l"] (TList [ints [1]; ints [2]; ints [3]])) = f /\
  h_remove f [L "l"; L "1"] = (f', Ok tt) /\ h_has f' [L "l"; L "2"] = true /\ h_read M all_of_it f' [L "l"] fresh = Err.
Proof. eexists _, _. split; [reflexivity|]. split; [vm_compute; reflexivity|]. split; vm_compute; reflexivity. Qed.
Print Assumptions C63_list_remove_refuted.
(** A write with an offset recreates fixed arrays, and so moves them behind the other
    entries: a list can no longer be read, an object comes back in another order. *)
Theorem C63_offset_list_refuted : exists f f', fst (h_write M no_opts h_new [L "l"] (TList [ints [1]; TObj [(L "x", ints [2])]])) = f /\
  h_write M (mkW (Some 1) None) f [L "l"] (TList [ints [5]]) = (f', Ok tt) /\
  h_read M all_of_it f [L "l"] fresh = Ok (TList [got [1]; TObj [(L "x", got [2])]]) /\ h_read M all_of_it f' [L "l"] fresh = Err.
Proof. eexists _, _. split; [reflexivity|]. split; [vm_compute; reflexivity|]. split; vm_compute; reflexivity. Qed.
Print Assumptions C63_offset_list_refuted.
Theorem C63_offset_order_refuted : exists f f', fst (h_write M no_opts h_new [] (TObj [(L "a", ints [1]); (L "b", ints [2])])) = f /\
  h_write M (mkW (Some 1) None) f [L "a"] (ints [5]) = (f', Ok tt) /\
  h_read M all_of_it f' [] fresh = Ok (TObj [(L "b", got [2]); (L "a", got [1; 5])]).
Proof. eexists _, _. split; [reflexivity|]. split; vm_compute; reflexivity. Qed.
Print Assumptions C63_offset_order_refuted.

(** Names that are paths for the library: the entry named "." is spread into its parent,
    the entry named a/b lands inside a, and an entry named ".." is written but makes the
    object unreadable. *)
Theorem C63_dot_refuted : exists v f', h_write M no_opts h_new [] v = (f', Ok tt) /\ h_read M all_of_it f' [] fresh <> Ok (tmap (in_machine_order M) v) /\
  v = TObj [(L ".", TObj [(L "x", ints [1])]); (L "y", ints [2])].
Proof. eexists _, _. split; [|split; [|reflexivity]]; [vm_compute; reflexivity|vm_compute; discriminate]. Qed.
Print Assumptions C63_dot_refuted.
Theorem C63_slash_refuted : exists f', h_write M no_opts h_new [] (TObj [(L "a", TObj []); (L "a/b", ints [5])]) = (f', Ok tt) /\
  h_read M all_of_it f' [] fresh = Ok (TObj [(L "a", TObj [(L "b", got [5])])]).
Proof. eexists. split; vm_compute; reflexivity. Qed.
Print Assumptions C63_slash_refuted.
Theorem C63_dots_refuted : exists f', h_write M no_opts h_new [] (TObj [(L "..", TObj [(L "x", ints [1])])]) = (f', Ok tt) /\ h_read M all_of_it f' [] fresh = Err.
Proof. eexists. split; vm_compute; reflexivity. Qed.
Print Assumptions C63_dots_refuted.

(** Reading into a node that already holds a compatible array: its own byte order stays,
    so the numbers change; of a longer array the end stays. *)
Theorem C63_into_order_refuted : exists f, fst (h_write M no_opts h_new [L "a"] (ints [1])) = f /\
  h_read M all_of_it f [L "a"] (big_ints [0]) = Ok (TLeaf (Some (INT32, BIG_E, [i32 1]))).
Proof. eexists. split; [reflexivity|]. vm_compute. reflexivity. Qed.
Print Assumptions C63_into_order_refuted.
Theorem C63_into_longer_refuted : exists f, fst (h_write M no_opts h_new [L "a"] (ints [1])) = f /\
  h_read M all_of_it f [L "a"] (got [7; 8; 9]) = Ok (got [1; 8; 9]).
Proof. eexists. split; [reflexivity|]. vm_compute. reflexivity. Qed.
Print Assumptions C63_into_longer_refuted.
