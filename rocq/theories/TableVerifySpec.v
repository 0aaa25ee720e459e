(** What is a table: columns of one length. *)
From Coq Require Import ZArith.
From Verif Require Import Base Json MeshVerify MeshVerifySpec MeshVerifyFacts TableVerify.
Import ListNotations.

(** the number of rows of a column: the length of an array, or of the first component of an
    array of components; nothing else is a column *)
Definition rows_of (c : tree) : option nat :=
  match c with
  | TObj _ | TList _ => if components c then match map snd (kids c) with x :: _ => Some (len x) | [] => None end else None
  | TNone => None
  | _ => Some (len c)
  end.
Definition columns_of (n : tree) : list tree := match n with TObj es => map snd es | TList ts => ts | _ => [] end.
(** all columns have the same number of rows; [None]: not so *)
Fixpoint all_rows (k : nat) (l : list tree) : bool :=
  match l with [] => true | c :: r => match rows_of c with Some k' => Nat.eqb k k' && all_rows k r | None => false end end.
Definition height_of (v : tree) : option nat :=
  match v with
  | TObj _ | TList _ =>
      match columns_of v with
      | [] => Some 0
      | c :: r => match rows_of c with Some k => if all_rows k r then Some k else None | None => None end
      end
  | _ => None
  end.
Definition table_ok (n : tree) : bool := must (L "values") (fun v => match height_of v with Some _ => true | None => false end) n.
(** a table, or some tables *)
Definition tables_ok (n : tree) : bool :=
  if given (L "values") n then table_ok n
  else match columns_of n with [] => false | l => forallb table_ok l end.

(** every column that is an object or a list has a child *)
Definition filled (c : tree) : bool := match c with TObj [] | TList [] => false | _ => true end.
(** names of columns and tables: distinct, and no words of the report *)
Definition named_well (n : tree) : Prop :=
  match n with
  | TObj es => NoDup (map fst es) /\ forall k, In k (map fst es) -> ~ In k [L "valid"; L "errors"; L "columns"; L "rows"; L "tables"]
  | _ => True
  end.
Definition well (n : tree) : Prop :=
  match kid n (L "values") with Some v => named_well v /\ forallb filled (columns_of v) = true | None => True end.
Definition all_well (n : tree) : Prop :=
  if given (L "values") n then well n else named_well n /\ forall c, In c (columns_of n) -> well c.

(** * The report *)
(** what a column is, seen from the columns before: [first], nothing went before; [rows], their length *)
Definition judged (first : bool) (rows : nat) (c : tree) : bool :=
  match rows_of c with Some k => first || Nat.eqb rows k | None => false end.
(** up to the first column that is wrong, every column is flagged as what it is, and the
    good ones with their number of rows *)
Fixpoint told (first : bool) (rows : nat) (l : list (str * tree)) (info' : itree) : Prop :=
  match l with
  | [] => True
  | (nm, c) :: r =>
      flag (iget info' nm) = Some (judged first rows c) /\
      (judged first rows c = true -> exists k, rows_of c = Some k /\ iget (iget info' nm) (L "elements") = inum k /\ told false k r info')
  end.
(** of a good table, the number of columns and of rows *)
Definition counts_of (v : tree) (iv : itree) : Prop :=
  forall k, height_of v = Some k -> iget iv (L "columns") = inum (length (columns_of v)) /\ iget iv (L "rows") = inum k.
(** columns and tables with the names they have in the report: entries of lists are [0], [1], ... *)
Fixpoint numbered (i : nat) (l : list tree) : list (str * tree) :=
  match l with [] => [] | t :: r => (L "[" ++ show_Z (Z.of_nat i) ++ L "]", t) :: numbered (Datatypes.S i) r end.
Definition entries (n : tree) : list (str * tree) := match n with TObj es => es | TList ts => numbered 0 ts | _ => [] end.
(** the report of one table *)
Definition told_single (n : tree) (i : itree) : Prop :=
  flag i = Some (table_ok n) /\
  (forall v, kid n (L "values") = Some v -> is_object v || is_list v = true ->
     flag (iget i (L "values")) = Some (table_ok n) /\ told true 0 (entries v) (iget i (L "values")) /\ counts_of v (iget i (L "values"))).
