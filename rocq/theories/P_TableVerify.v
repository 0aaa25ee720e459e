(** C69: checking tables *)
From Coq Require Import ZArith.
From Verif Require Import Base DType MeshVerify MeshVerifySpec MeshVerifyFacts TableVerify TableVerifySpec TableVerifyFacts.
Import ListNotations.
Local Open Scope nat_scope.

(** what the specification means: all columns have as many rows *)
Theorem C69_means : forall v k, columns_of v <> [] -> (height_of v = Some k <-> Forall (fun c => rows_of c = Some k) (columns_of v)).
Proof. exact height_means. Qed.
(** the answer is right *)
Theorem C69_answer : forall n, all_well n -> exists i, table_verify n = Ok (tables_ok n, i) /\ flag i = Some (tables_ok n).
Proof. exact verify_answer. Qed.
(** the report is right up to the first column that is wrong *)
Theorem C69_report : forall n, well n -> given (L "values") n = true -> exists i, table_verify n = Ok (table_ok n, i) /\ told_single n i.
Proof. exact verify_one. Qed.
Theorem C69_report_many : forall n, given (L "values") n = false -> named_well n -> (forall c, In c (columns_of n) -> well c) ->
  exists i, table_verify n = Ok (tables_ok n, i) /\ flag i = Some (tables_ok n) /\
    (forall nm c, In (nm, c) (entries n) -> told_single c (iget i nm)) /\
    (tables_ok n = true -> iget i (L "tables") = inum (length (columns_of n))).
Proof. exact verify_many. Qed.

(** * Tables to try *)
Definition ar (k : nat) : tree := TNum FLOAT64 (repeat 0%Z k).
Definition values (v : tree) : tree := TObj [(L "values", v)].
Definition table1 := values (TObj [(L "x", ar 3); (L "v", TObj [(L "a", ar 3); (L "b", ar 3)]); (L "n", TStr (L "ab"))]).
Definition table2 := values (TObj [(L "x", ar 3); (L "y", ar 3); (L "z", ar 2); (L "w", ar 3)]).
Definition table3 := values (TList [ar 2; ar 2]).
Definition tables := TObj [(L "t1", table1); (L "t3", table3)].
Ltac names := cbn; repeat (match goal with |- _ /\ _ => split | |- NoDup _ => constructor | |- forall _, _ => intro | H : _ \/ _ |- _ => destruct H | |- ~ _ => intro | H : In _ _ |- _ => cbn in H | |- well _ => unfold well; cbn | |- named_well _ => unfold named_well; cbn end; subst); try discriminate; try reflexivity; try tauto; try contradiction.
Example C69_well1 : all_well table1. Proof. names. Qed.
Example C69_well2 : all_well table2. Proof. names. Qed.
Example C69_well_many : all_well tables. Proof. names. Qed.
Example C69_accepts : exists i, table_verify table1 = Ok (true, i) /\ iget (iget i (L "values")) (L "rows") = inum 3.
Proof. eexists. split; vm_compute; reflexivity. Qed.
Example C69_rejects : exists i, table_verify table2 = Ok (false, i) /\ flag (iget (iget i (L "values")) (L "y")) = Some true /\ flag (iget (iget i (L "values")) (L "z")) = Some false.
Proof. eexists. split; [vm_compute; reflexivity|split; vm_compute; reflexivity]. Qed.
Example C69_accepts_many : exists i, table_verify tables = Ok (true, i) /\ iget i (L "tables") = inum 2.
Proof. eexists. split; vm_compute; reflexivity. Qed.
Example C69_none : exists i, table_verify (TObj []) = Ok (false, i).
Proof. eexists. vm_compute. reflexivity. Qed.

(** * What is not so *)
(** the check ends with an answer: not when a column has no components *)
Theorem C69_empty_refuted : exists n v, kid n (L "values") = Some v /\ named_well v /\ table_ok n = false /\ table_verify n = Err.
Proof.
  exists (values (TObj [(L "a", TObj [])])). eexists. split; [reflexivity|]. split; [names|]. split; vm_compute; reflexivity.
Qed.
(** nor when a column is called valid, a name like any other *)
Theorem C69_valid_refuted : exists n, table_ok n = true /\ table_verify n = Err.
Proof. exists (values (TObj [(L "valid", ar 2)])). split; vm_compute; reflexivity. Qed.
(** a column that is flagged is wrong: after a wrong one, columns with components are flagged
    although they have as many rows as the good columns *)
Theorem C69_blame_refuted : exists a b c i,
  table_ok (values (TObj [(L "a", a); (L "c", c)])) = true /\
  table_verify (values (TObj [(L "a", a); (L "b", b); (L "c", c)])) = Ok (false, i) /\
  flag (iget (iget i (L "values")) (L "c")) = Some false.
Proof.
  exists (ar 2), (ar 3), (TObj [(L "u", ar 2)]). eexists. split; [reflexivity|]. split; vm_compute; reflexivity.
Qed.
(** and after a first column that is wrong, all that are not empty *)
Theorem C69_blame_first_refuted : exists a b c i,
  table_ok (values (TObj [(L "b", b); (L "c", c)])) = true /\
  table_verify (values (TObj [(L "a", a); (L "b", b); (L "c", c)])) = Ok (false, i) /\
  flag (iget (iget i (L "values")) (L "b")) = Some false /\ flag (iget (iget i (L "values")) (L "c")) = Some false.
Proof.
  exists TNone, (ar 2), (ar 2). eexists. split; [reflexivity|]. split; [vm_compute; reflexivity|]. split; vm_compute; reflexivity.
Qed.
(** all arrays of an accepted table have as many elements: not components after an empty one *)
Theorem C69_ragged_refuted : exists a b c i, table_verify (values (TObj [(L "a", a); (L "b", TObj [(L "x", b); (L "y", c)])])) = Ok (true, i) /\
  len a = len b /\ len b <> len c.
Proof. exists (ar 0), (ar 0), (ar 3). eexists. split; [vm_compute; reflexivity|]. split; [reflexivity|discriminate]. Qed.

Print Assumptions C69_means.
Print Assumptions C69_answer.
Print Assumptions C69_report.
Print Assumptions C69_report_many.
Print Assumptions C69_empty_refuted.
Print Assumptions C69_valid_refuted.
Print Assumptions C69_blame_refuted.
Print Assumptions C69_blame_first_refuted.
Print Assumptions C69_ragged_refuted.
