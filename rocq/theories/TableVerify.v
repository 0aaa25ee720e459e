(** Checking tables: blueprint::table::verify, conduit_blueprint_table.cpp.
    Trees and reports as in MeshVerify.v. *)
From Coq Require Import ZArith.
From Verif Require Import Base Json MeshVerify.
Import ListNotations.

(** a number in a report: the object whose only name is its text *)
Definition inum (k : nat) : itree := IObj [(show_Z (Z.of_nat k), INone)].
(** the children with Node::name(), conduit_schema.cpp 1156-1210 (names other than .. and without '/') *)
Definition members (n : tree) : list (str * tree) :=
  match n with
  | TObj es => es
  | TList ts => combine (map (fun i => L "[" ++ show_Z (Z.of_nat i) ++ L "]") (seq 0 (length ts))) ts
  | _ => []
  end.

(** one column of verify_table_values, 41-84.  [res], [first] and [rows] are the variables of
    the loop before; the result has [this_res] and [num_rows] after.  The number of elements of
    a column with components is asked for if [res] is set, whatever mcarray::verify said; n_col[0]
    of a node without children is an error.  i_col is written back at the end (it is a reference
    into info; a column called errors, to which the messages are appended, is not modelled). *)
Definition column (res first : bool) (rows : nat) (nm : str) (c : tree) (info : itree) : outcome (bool * nat * itree) :=
  do x <- (if is_list c || is_object c then
             do r <- mcarray c (iget info nm);
             do k <- (if res then match kids c with [] => Err | (_, y) :: _ => Ok (numel y) end else Ok 0);
             Ok (fst r, k, snd r)
           else match c with
                | TNone => Ok (false, 0, iget info nm)
                | _ => Ok (true, numel c, iget info nm)
                end);
  let '(this, k, ic) := x in
  let rows := if this && first then k else rows in
  let ic := if this then iput ic (L "elements") (inum k) else ic in
  let good := this && Nat.eqb rows k in
  let info := if good then info else log_error info in
  do ic <- validation ic good;
  Ok (good, rows, iput info nm ic).
Fixpoint columns (res first : bool) (rows num : nat) (l : list (str * tree)) (info : itree) : outcome (bool * nat * nat * itree) :=
  match l with
  | [] => Ok (res, rows, num, info)
  | (nm, c) :: r =>
      do x <- column res first rows nm c info;
      let '(good, rows, info) := x in
      columns (res && good) false rows (Datatypes.S num) r info
  end.
(** verify_table_values, 31-95 *)
Definition table_values (n : tree) : V := fun info =>
  do x <- columns true true 0 0 (members n) info;
  let '(res, rows, num, info) := x in
  valid res (if res then iput (iput info (L "columns") (inum num)) (L "rows") (inum rows) else info).
(** verify_single_table, 98-131 *)
Definition single (n : tree) : V :=
  finish (match kid n (L "values") with
          | None => fails
          | Some v => at_ (L "values") (if is_object v || is_list v then table_values v else fails)
          end).
(** verify_many_tables, 134-160 *)
Definition many (n : tree) : V :=
  bindV (each (fun e => at_ (fst e) (single (snd e))) (members n)) (fun r =>
  let r := r && negb (Nat.eqb (length (members n)) 0) in
  tell (fun i => if r then iput i (L "tables") (inum (length (members n))) else i) (valid r)).
(** table::verify, 187-203 *)
Definition table_verify (n : tree) : outcome (bool * itree) :=
  (if has n (L "values") then single n else many n) INone.
