(** C41: whole programs over Node variables. *)
From Verif Require Import Base DType SpecTree Mem MemFacts Node SpecNode NodeAlloc NodeHist HistSpec HistFacts HistRun.
Local Open Scope Z_scope.

(** Whatever calls a program makes, in whatever order, on whatever nodes: if the values have
    a meaning, the program runs without error or undefined behaviour, every variable holds the
    value it should, every live buffer belongs to exactly one node, and when the variables
    die every buffer is freed once. *)
Theorem C41_programs mach k l vs : meaning mach (repeat none k) l vs ->
  exists s, exec mach (start k) l = Ok s /\ Forall2 (fun n v => nvalue (s_mem s) n = Ok v) (s_vars s) vs /\
    NoDup (concat (map owned_blocks (s_vars s))) /\
    (forall b, live (s_mem s) b <-> In b (concat (map owned_blocks (s_vars s)))) /\
    exists m', destroy (s_mem s) (s_vars s) = Ok m' /\ forall b, ~ live m' b.
Proof. exact (programs_ok mach k l vs). Qed.
Print Assumptions C41_programs.

(** A program with every kind of call. *)
Definition i16 (n off stride : Z) : dtype := mkDT INT16 n off stride 2 LITTLE_E.
Definition rec : tree dtype := TObj [(L "x", TLeaf (i16 2 0 4)); (L "y", TLeaf (i16 2 2 4))].
Definition bs : list byte := L "abcdefgh".
Definition prog : list cmd :=
  [ Do 0 [Name (L "p"); Append] (AData rec bs);
    Do 1 [] (ASet 0 [Name (L "p")]);
    Do 1 [Index 0; Name (L "x")] (AEndian BIG_E);
    Do 2 [] (ACompact 1 [Index 0]);
    Do 0 [Name (L "p"); Index 0] (AUpdateCompatible 2 []);
    Do 2 [Name (L "q"); Name (L "r")] (AUpdate 0 [Name (L "p"); Index 0; Name (L "y")]);
    Do 2 [] (ARemoveChild (L "y"));
    Exchange 0 2;
    Do 1 [Append] (ASchema (TLeaf (i16 1 0 2)));
    Do 1 [] (ARemove 0);
    Move 2 1;
    Do 1 [] AReset ].
Definition two (a b c d : ascii) (e : endian) : value := TLeaf (Some (INT16, e, [[a; b]; [c; d]])).
Definition final : list value :=
  [ TObj [(L "x", two "b" "a" "f" "e" BIG_E); (L "q", TObj [(L "r", two "c" "d" "g" "h" LITTLE_E)])];
    none;
    TList [TLeaf (Some (INT16, LITTLE_E, [[zero_byte; zero_byte]]))] ].
Lemma usable_rec : usable rec.
Proof.
  unfold usable. split; [|split; [|split; [|split]]].
  - cbn [tleaves rec flat_map snd app map]; repeat apply Forall_cons; try apply Forall_nil; right; cbn; repeat split; try discriminate; lia.
  - split.
    + repeat constructor. intros i j b [H1 H2] [H3 H4]. cbn [dt_n dt_off dt_stride dt_ebytes i16] in *. lia.
    + repeat constructor; intros i j b [H1 H2] [H3 H4]; cbn [dt_n dt_off dt_stride dt_ebytes i16] in *; lia.
  - constructor; [constructor; [intros [H|[]]; discriminate|constructor; [intros []|constructor]]|repeat constructor].
  - vm_compute. discriminate.
  - discriminate.
Qed.
Lemma usable_one : usable (TLeaf (i16 1 0 2)).
Proof.
  unfold usable. split; [|split; [|split; [|split]]].
  - cbn [tleaves rec flat_map snd app map]; repeat apply Forall_cons; try apply Forall_nil; right; cbn; repeat split; try discriminate; lia.
  - split; repeat constructor. intros i j b [H1 H2] [H3 H4]. cbn [dt_n dt_off dt_stride dt_ebytes i16] in *. lia.
  - constructor.
  - vm_compute. discriminate.
  - intros d [= <-]. discriminate.
Qed.
Example C41_hypothesis : meaning LITTLE_E (repeat none 3) prog final.
Proof.
  unfold prog.
  eapply m_cons.
  { eapply (m_do _ _ 0%nat); [reflexivity|reflexivity|]. apply va_name, va_append, va_here. apply e_data; [apply usable_rec|cbn; lia]. }
  eapply m_cons.
  { eapply (m_do _ _ 1%nat); [reflexivity| |apply va_here; apply e_set]. split; [discriminate|]. eexists. split; [reflexivity|].
    eapply vs_name; [reflexivity|]. apply vs_here. }
  eapply m_cons.
  { eapply (m_do _ _ 1%nat); [reflexivity|reflexivity|]. eapply va_nth_lst; [reflexivity|]. apply va_name, va_here. apply e_endian. }
  eapply m_cons.
  { eapply (m_do _ _ 2%nat); [reflexivity| |apply va_here; apply e_compact]. split; [discriminate|]. eexists. split; [reflexivity|].
    eapply vs_nth_lst; [reflexivity|]. apply vs_here. }
  eapply m_cons.
  { eapply (m_do _ _ 0%nat); [reflexivity| |]; [split; [discriminate|]; eexists; split; [reflexivity|apply vs_here]|].
    apply va_name. eapply va_nth_lst; [reflexivity|]. apply va_here. apply e_take. }
  eapply m_cons.
  { eapply (m_do _ _ 2%nat); [reflexivity| |].
    - split; [discriminate|]. eexists. split; [reflexivity|]. eapply vs_name; [reflexivity|]. eapply vs_nth_lst; [reflexivity|].
      eapply vs_name; [reflexivity|]. apply vs_here.
    - apply va_name, va_name, va_here. apply e_update. apply nc_leaf. }
  eapply m_cons.
  { eapply (m_do _ _ 2%nat); [reflexivity|reflexivity|]. apply va_here.
    match goal with |- effect _ _ _ ?v _ =>
      let v' := eval vm_compute in v in
      match v' with TObj [?x; (?y, ?c); ?z] =>
        change v with (TObj ([x] ++ (L "y", c) :: [z])) end end.
    apply e_remove_child. intros [H|[]]. discriminate. }
  eapply m_cons.
  { eapply (m_exchange _ _ 0%nat 2%nat); reflexivity. }
  eapply m_cons.
  { eapply (m_do _ _ 1%nat); [reflexivity|reflexivity|]. apply va_append, va_here. apply e_schema. apply usable_one. }
  eapply m_cons.
  { eapply (m_do _ _ 1%nat); [reflexivity|reflexivity|]. apply va_here.
    match goal with |- effect _ _ _ ?v _ =>
      let v' := eval vm_compute in v in
      match v' with TList [?x; ?y] => change v with (TList ([] ++ x :: [y])) end end.
    exact (e_remove_lst LITTLE_E none [] _ _). }
  eapply m_cons.
  { eapply (m_move _ _ 2%nat 1%nat); [discriminate|reflexivity|reflexivity]. }
  eapply m_cons.
  { eapply (m_do _ _ 1%nat); [reflexivity|reflexivity|]. apply va_here. apply e_reset. }
  match goal with |- meaning _ ?v [] _ => replace v with final by (vm_compute; reflexivity) end. apply m_nil.
Qed.
Example C41_runs : exists s, exec LITTLE_E (start 3) prog = Ok s /\
  omapM (nvalue (s_mem s)) (s_vars s) = Ok final /\ length (concat (map owned_blocks (s_vars s))) = 3%nat.
Proof. eexists. split; [vm_compute; reflexivity|]. split; vm_compute; reflexivity. Qed.

(** Swapping a node out of a tree whose buffer belongs to the root does not take the buffer
    along: once the tree is reset, the node that left it points to freed memory.  No variable
    but the reset one was named in the call. *)
Theorem C41_swapped_out_child_refuted : exists l p s s2 s3 v v2,
  exec LITTLE_E (start 2) l = Ok s /\ exchange_at s 0 p 1 = Ok s2 /\ exec1 LITTLE_E s2 (Do 0 [] AReset) = Ok s3 /\
  nth_error (s_vars s2) 1 = Some v /\ nvalue (s_mem s2) v = Ok v2 /\
  nth_error (s_vars s3) 1 = Some v /\ nvalue (s_mem s3) v = UB.
Proof.
  exists [Do 0 [] (AData rec bs)], [Name (L "x")]. eexists _, _, _, _, _.
  split; [vm_compute; reflexivity|]. split; [vm_compute; reflexivity|]. split; [vm_compute; reflexivity|].
  split; [vm_compute; reflexivity|]. split; [vm_compute; reflexivity|]. split; vm_compute; reflexivity.
Qed.
Print Assumptions C41_swapped_out_child_refuted.
