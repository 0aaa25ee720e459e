(** C62: partitioning a mesh. *)
From Coq Require Import ZArith Permutation Sorting.Sorted.
From Verif Require Import Base Node Partition PartitionSpec PartitionFacts PartitionInit PartitionCount PartitionField.
Local Open Scope Z_scope.

(** Whatever the target, the output domains together have exactly the elements that were asked
    for, each once. *)
Theorem C62_cover : forall fuel doms qs target out,
  mesh_ok doms -> match qs with Some l => Forall (fair doms) l | None => True end ->
  partition fuel doms qs target = Ok out -> Permutation (flat_map snd out) (picked doms qs).
Proof. exact partition_covers. Qed.
Print Assumptions C62_cover.
(** Up to one output domain for each element, there are as many as asked for, none empty. *)
Theorem C62_count : forall doms qs t fuel,
  mesh_ok doms -> match qs with Some l => Forall (divisible doms) l | None => Forall (fun d => 1 <= d_n d) doms end ->
  1 <= t <= Z.of_nat (length (picked doms qs)) -> t < Z.of_nat fuel ->
  exists out, partition fuel doms qs (Some t) = Ok out /\ map fst out = zseq t /\ Forall (fun o => snd o <> []) out.
Proof. exact partition_counts. Qed.
Print Assumptions C62_count.
(** A field selection: the output domain of each number has the elements with that value, in order. *)
Theorem C62_by_field : forall doms f fuel,
  mesh_ok doms -> (forall d l, In d doms -> mget (d_fields d) f = Some l -> Forall (fun v => 0 <= v < 2 ^ 31) l) ->
  exists vs, StronglySorted Z.lt vs /\ (forall v, In v vs <-> with_field_value doms f v <> []) /\
    partition (S fuel) doms (Some [mkReq (SFld f None) None]) None = Ok (map (fun v => (v, with_field_value doms f v)) vs).
Proof. exact partition_by_field. Qed.
Print Assumptions C62_by_field.

Definition grid6 : dom := mkDom 0 (Some (3, 2, 1)) 6 [(L "mat", [1; 0; 1; 0; 0; 4])].
Definition line4 : dom := mkDom 1 None 4 [(L "mat", [4; 1; 4; 1])].
Example meshes : mesh_ok [grid6; line4].
Proof.
  split; [|repeat constructor; cbn; intuition discriminate].
  constructor; [|constructor; [|constructor]]; unfold well_formed; cbn [d_n d_grid d_fields grid6 line4]; (split; [discriminate|]); split.
  - intros g H. injection H as <-. cbn. repeat split; discriminate.
  - intros f l H. cbn [mget] in H. destruct (str_eqb f (L "mat")); [injection H as <-; reflexivity|discriminate].
  - discriminate.
  - intros f l H. cbn [mget] in H. destruct (str_eqb f (L "mat")); [injection H as <-; reflexivity|discriminate].
Qed.
Example to_three : partition 5 [grid6; line4] None (Some 3) = Ok [(0, [(0%nat, 0); (0%nat, 3)]); (1, [(0%nat, 1); (0%nat, 2); (0%nat, 4); (0%nat, 5)]); (2, [(1%nat, 0); (1%nat, 1); (1%nat, 2); (1%nat, 3)])].
Proof. vm_compute. reflexivity. Qed.
Example to_one : partition 5 [grid6; line4] None (Some 1) = Ok [(0, picked [grid6; line4] None)].
Proof. vm_compute. reflexivity. Qed.
Example by_field_example : partition 1 [grid6; line4] (Some [mkReq (SFld (L "mat") None) None]) None =
  Ok [(0, [(0%nat, 1); (0%nat, 3); (0%nat, 4)]); (1, [(0%nat, 0); (0%nat, 2); (1%nat, 1); (1%nat, 3)]); (4, [(0%nat, 5); (1%nat, 0); (1%nat, 2)])].
Proof. vm_compute. reflexivity. Qed.
Definition asked : list request := [mkReq (SLog (1, 0, 0) (9, 1, 0)) (Some 0); mkReq (SExp [3; 0]) (Some 1); mkReq (SRng [(1, 2)]) (Some 1)].
Example asked_divisible : Forall (divisible [grid6; line4]) asked.
Proof.
  constructor; [|constructor; [|constructor; [|constructor]]].
  - split; [cbn; repeat split; discriminate|exact I].
  - split; [|discriminate]. split; [repeat constructor; cbn; intuition discriminate|]. intros d [<-|[<-|[]]] G; [discriminate G|]. repeat constructor; discriminate.
  - split; [cbn [fair q_sel]; split; repeat constructor; discriminate|]. exists 1, 2. split; [reflexivity|]. intros d [<-|[<-|[]]] G; [discriminate G|]. reflexivity.
Qed.
Example asked_five : partition 9 [grid6; line4] (Some asked) (Some 5) = Ok [(0, [(0%nat, 1)]); (1, [(0%nat, 4)]); (2, [(0%nat, 2); (0%nat, 5)]); (3, [(1%nat, 3); (1%nat, 0)]); (4, [(1%nat, 1); (1%nat, 2)])].
Proof. vm_compute. reflexivity. Qed.

(** * Where it goes wrong *)
(** More output domains than cells of a structured mesh: the partition does not end. *)
Theorem C62_no_end_refuted : exists doms t, mesh_ok doms /\ forall fuel, partition fuel doms None (Some t) = Fuel.
Proof.
  exists [mkDom 0 (Some (1, 1, 1)) 1 []], 2. split.
  - split; [|repeat constructor; intros []]. constructor; [|constructor]. split; [discriminate|]. split; [intros g H; injection H as <-; cbn; repeat split; discriminate|discriminate].
  - intros fuel. unfold partition. assert (E : split_loop fuel [mkDom 0 (Some (1, 1, 1)) 1 []] 2 (initialize [mkDom 0 (Some (1, 1, 1)) 1 []] None) = Fuel); [|rewrite E; reflexivity].
    induction fuel as [|k IH]; [reflexivity|]. cbn [split_loop]. exact IH.
Qed.
Print Assumptions C62_no_end_refuted.
(** More than there are and none in any: an element of a vector before its first is read. *)
Theorem C62_none_to_split_refuted : exists doms t, mesh_ok doms /\ partition 3 doms None (Some t) = UB.
Proof.
  exists [mkDom 0 None 0 []], 2. split; [|vm_compute; reflexivity]. split; [|repeat constructor; intros []]. constructor; [|constructor]. split; [discriminate|]. split; discriminate.
Qed.
Print Assumptions C62_none_to_split_refuted.
(** Ids in order, as many as elements, one past the end: all elements are taken. *)
Theorem C62_past_end_refuted : exists doms qs out, mesh_ok doms /\ partition 3 doms (Some qs) None = Ok out /\ ~ Permutation (flat_map snd out) (picked doms (Some qs)).
Proof.
  exists [mkDom 0 None 3 []], [mkReq (SExp [0; 1; 5]) (Some 0)], [(0, [(0%nat, 0); (0%nat, 1); (0%nat, 2)])]. split; [|split; [vm_compute; reflexivity|]].
  - split; [|repeat constructor; intros []]. constructor; [|constructor]. split; [discriminate|]. split; discriminate.
  - intros P. apply Permutation_length in P. discriminate P.
Qed.
Print Assumptions C62_past_end_refuted.
(** Ranges that overlap: each element once if they make up the mesh, twice if not. *)
Theorem C62_overlap_refuted : exists doms a b, mesh_ok doms /\
  partition 3 doms (Some [mkReq (SRng a) (Some 0)]) None = Ok [(0, [(0%nat, 0); (0%nat, 1); (0%nat, 2)])] /\
  partition 3 doms (Some [mkReq (SRng b) (Some 0)]) None = Ok [(0, [(0%nat, 0); (0%nat, 1); (0%nat, 1)])].
Proof.
  exists [mkDom 0 None 3 []], [(0, 1); (1, 2)], [(0, 1); (1, 1)]. split; [|split; vm_compute; reflexivity].
  split; [|repeat constructor; intros []]. constructor; [|constructor]. split; [discriminate|]. split; discriminate.
Qed.
Print Assumptions C62_overlap_refuted.
(** Two ranges of one element each and two output domains: one gets both, the other none. *)
Theorem C62_single_ranges_refuted : exists doms qs, mesh_ok doms /\ Forall (fair doms) qs /\ length (picked doms (Some qs)) = 2%nat /\
  partition 5 doms (Some qs) (Some 2) = Ok [(0, [(0%nat, 0); (0%nat, 2)]); (1, [])].
Proof.
  exists [mkDom 0 None 3 []], [mkReq (SRng [(0, 0); (2, 2)]) (Some 0)].
  split; [split; [|repeat constructor; intros []]; constructor; [|constructor]; split; [discriminate|]; split; discriminate|].
  split; [|split; vm_compute; reflexivity].
  constructor; [|constructor]. cbn [fair q_sel]. split; [repeat constructor; discriminate|]. constructor; [constructor; [left; reflexivity|constructor]|]. constructor; [constructor|constructor].
Qed.
Print Assumptions C62_single_ranges_refuted.
(** The value -1 of a field is the mark of a selection without a destination: its elements go to
    the numbers that are free, a new one for each input domain. *)
Theorem C62_minus_one_refuted : exists doms f, mesh_ok doms /\
  partition 1 doms (Some [mkReq (SFld f None) None]) None = Ok [(0, [(0%nat, 0)]); (1, [(0%nat, 1); (1%nat, 1)]); (2, [(1%nat, 0)])]
  /\ with_field_value doms f (-1) = [(0%nat, 0); (1%nat, 0)].
Proof.
  exists [mkDom 0 None 2 [(L "p", [-1; 1])]; mkDom 1 None 2 [(L "p", [-1; 1])]], (L "p"). split; [|split; vm_compute; reflexivity].
  split; [|repeat constructor; cbn; intuition discriminate]. constructor; [|constructor; [|constructor]]; (split; [discriminate|]; split; [discriminate|]; intros f l H; cbn [d_fields mget] in H; destruct (str_eqb f (L "p")); [injection H as <-; reflexivity|discriminate]).
Qed.
Print Assumptions C62_minus_one_refuted.
(** A value past int: the elements of two values are put together. *)
Theorem C62_wide_value_refuted : exists doms f, mesh_ok doms /\
  partition 1 doms (Some [mkReq (SFld f None) None]) None = Ok [(7, [(0%nat, 0); (0%nat, 1)])]
  /\ with_field_value doms f 7 = [(0%nat, 0)].
Proof.
  exists [mkDom 0 None 2 [(L "p", [7; 2 ^ 32 + 7])]], (L "p"). split; [|split; vm_compute; reflexivity].
  split; [|repeat constructor; cbn; intuition discriminate]. constructor; [|constructor]. split; [discriminate|]; split; [discriminate|]; intros f l H; cbn [d_fields mget] in H; destruct (str_eqb f (L "p")); [injection H as <-; reflexivity|discriminate].
Qed.
Print Assumptions C62_wide_value_refuted.
(** Domains without elements at the end: more output domains than asked for, some empty. *)
Theorem C62_more_than_target_refuted : exists doms out, mesh_ok doms /\ partition 5 doms None (Some 2) = Ok out /\ map fst out = [0; 1; 2; 3].
Proof.
  exists [mkDom 0 None 2 []; mkDom 1 None 1 []; mkDom 2 None 0 []; mkDom 3 None 0 []]. eexists. split; [|split; [vm_compute; reflexivity|reflexivity]].
  split; [|repeat constructor; cbn; intuition discriminate]. repeat (constructor; [split; [discriminate|]; split; discriminate|]). constructor.
Qed.
Print Assumptions C62_more_than_target_refuted.
(** Numbers named by a field are kept: the target is not met, and nothing says so. *)
Theorem C62_named_target_refuted : exists doms qs out, mesh_ok doms /\ Forall (fair doms) qs /\ partition 5 doms (Some qs) (Some 1) = Ok out /\ map fst out = [0; 1; 2].
Proof.
  exists [mkDom 0 None 3 [(L "p", [0; 1; 2])]], [mkReq (SFld (L "p") None) None]. eexists. split; [|split; [|split; [vm_compute; reflexivity|reflexivity]]].
  - split; [|repeat constructor; cbn; intuition discriminate]. constructor; [|constructor]. split; [discriminate|]; split; [discriminate|]; intros f l H; cbn [d_fields mget] in H; destruct (str_eqb f (L "p")); [injection H as <-; reflexivity|discriminate].
  - constructor; [exact I|constructor].
Qed.
Print Assumptions C62_named_target_refuted.
