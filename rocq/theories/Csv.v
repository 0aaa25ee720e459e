(** Tables as comma separated text: relay/conduit_relay_io_csv.cpp.

    A table is the node "values": its columns, each a numeric array or a group of numeric
    arrays (an mcarray).  An element is given by its type and value; how elements lie in
    memory is not modelled, and columns are taken to be in the byte order of the machine
    (write_row_based looks at them with the default byte order).  Columns that hold strings
    are not modelled.  Files are their text. *)
From Coq Require Import ZArith Floats.SpecFloat.
From Verif Require Import Base DType Mem Number ArrayOps Codec Json FloatText Node MatSet.
Local Open Scope Z_scope.

(** one element: a signed or unsigned integer of any width, or a float *)
Inductive cell := CInt (z : Z) | CUns (z : Z) | CF32 (x : spec_float) | CF64 (x : spec_float).
(** a list node or an object node *)
Inductive kids (A : Type) := KList (l : list A) | KObj (l : list (str * A)).
Arguments KList {A}. Arguments KObj {A}.
Inductive col := Leaf (l : list cell) | Group (g : kids (list cell)).
Definition values := kids col.

(** Node::name() -> Schema::name(), conduit_schema.cpp 1156-1214: the name in an object, in
    braces if it holds a slash; [i] in a list *)
Definition slash : ascii := "/".
Definition has_char (c : ascii) (s : str) : bool := existsb (Ascii.eqb c) s.
Definition obj_name (s : str) : str := if has_char slash s then "{"%char :: s ++ L "}" else s.
Definition list_name (i : nat) : str := "["%char :: show_Z (Z.of_nat i) ++ L "]".
Definition named {A} (k : kids A) : list (str * A) :=
  match k with
  | KList l => combine (map list_name (seq 0 (length l))) l
  | KObj l => map (fun e => (obj_name (fst e), snd e)) l
  end.

(** * Writing *)
(** what stands between entries: the tests [if(c != (nc - 1)) fout << ", "] *)
Fixpoint join (l : list str) : str :=
  match l with [] => [] | [x] => x | x :: r => x ++ L ", " ++ join r end.

(** get_nrows, lines 55-70 *)
Definition get_nrows (v : values) : nat :=
  match named v with
  | (_, Leaf l) :: _ => length l
  | (_, Group g) :: _ => match named g with (_, l) :: _ => length l | [] => 0 end
  | [] => 0
  end.
(** write_header, lines 73-98 *)
Definition header_of (e : str * col) : str :=
  match snd e with
  | Leaf _ => fst e
  | Group g => match named g with
               | _ :: _ :: _ => join (map (fun c => fst e ++ slash :: fst c) (named g))
               | _ => fst e
               end
  end.
Definition write_header (v : values) : str := join (map header_of (named v)) ++ [c_nl].
(** write_element, lines 101-124: operator<< with its default of 6 significant digits *)
Definition show (c : cell) : str :=
  match c with CInt z | CUns z => show_Z z | CF32 x | CF64 x => gfmt 6 x end.
(** element_ptr(row) past the end of the array: UB *)
Definition write_at (row : nat) (l : list cell) : outcome str := do c <- deref (nth_error l row); Ok (show c).
(** the loop body of write_row_based, lines 150-168; a group without components is no number
    and prints nothing *)
Definition write_col (row : nat) (e : str * col) : outcome str :=
  match snd e with
  | Leaf l => write_at row l
  | Group g => do ts <- omapM (fun c => write_at row (snd c)) (named g); Ok (join ts)
  end.
Definition write_row (v : values) (row : nat) : outcome str :=
  do ts <- omapM (write_col row) (named v); Ok (join ts ++ [c_nl]).
(** write_row_based, lines 127-172 *)
Definition write_table (v : values) : outcome str :=
  do rows <- omapM (write_row v) (seq 0 (get_nrows v));
  Ok (write_header v ++ concat rows).

(** blueprint::table::verify, conduit_blueprint_table.cpp 32-96: columns of equal length; a
    group is an mcarray: some components, all of equal length (mcarray::verify).  A column
    without data (an empty node) is not represented here. *)
Definition col_rows (c : col) : option nat :=
  match c with
  | Leaf l => Some (length l)
  | Group g => match map snd (named g) with
               | [] => None
               | l :: r => if forallb (fun l' => Nat.eqb (length l') (length l)) r then Some (length l) else None
               end
  end.
Definition verify_values (v : values) : bool :=
  match map (fun e => col_rows (snd e)) (named v) with
  | [] => true
  | Some n :: r => forallb (fun o => match o with Some m => Nat.eqb m n | None => false end) r
  | None :: _ => false
  end.
(** write_csv, lines 607-635, for one table *)
Definition write_csv (v : values) : outcome str := if verify_values v then write_table v else Err.

(** * Reading *)
(** the pieces between separators *)
Fixpoint pieces (sep : ascii) (s : str) : list str :=
  match s with
  | [] => [[]]
  | c :: r => if Ascii.eqb c sep then [] :: pieces sep r
              else match pieces sep r with p :: ps => (c :: p) :: ps | [] => [[c]] end
  end.
(** the lines std::getline gives: what follows the last newline is a line unless empty *)
Fixpoint drop_last_empty (l : list str) : list str :=
  match l with [] => [] | [[]] => [] | x :: r => x :: drop_last_empty r end.
Definition lines (s : str) : list str := drop_last_empty (pieces c_nl s).
(** utils::trim_string, conduit_utils.cpp 527-533, with its default blanks, which are those
    of isspace *)
Definition ltrim (s : str) : str := snd (take_while c_space s).
Definition trim (s : str) : str := rev (ltrim (rev (ltrim s))).

(** std::stof, std::stod: the value and how many characters were read; they throw when no
    number was found or errno is ERANGE *)
Definition stox (t : tid) (s : str) : outcome (spec_float * nat) :=
  let '(v, err, rest) := c_strto (prec_of t) (emax_of t) s in
  match rest with
  | None => Err
  | Some r => if err then Err else Ok (v, (length s - length r)%nat)
  end.

(** read_column_names, lines 279-328: the names, and none if all are numbers *)
Definition is_number_text (s : str) : bool :=
  Nat.eqb (match stox FLOAT64 s with Ok (_, i) => i | _ => O end) (length s).
Definition read_column_names (line : str) : list str :=
  let ns := map trim (pieces "," line) in
  if forallb is_number_text ns then [] else ns.

(** the nodes read_single_table makes below "values" *)
Inductive rnode := RNone | RLeaf (l : list spec_float) | RObj (l : list (str * rnode)).
(** operate on what Node::fetch(path) gives (conduit_node.cpp 14416-14480): anything but an
    object becomes one, a missing child is made *)
Fixpoint at_path (p : list str) (f : rnode -> outcome rnode) (n : rnode) : outcome rnode :=
  match p with
  | [] => f n
  | k :: r =>
      let l := match n with RObj l => l | _ => [] end in
      do c <- at_path r f (match mget l k with Some c => c | None => RNone end);
      Ok (RObj (mset l k c))
  end.
(** the names a path goes through: empty ones are culled; a path without any name throws.
    A path through .. is taken to throw: so it does when .. is its last name. *)
Definition path_of (s : str) : outcome (list str) :=
  let p := filter (fun k => negb (str_eqb k [])) (pieces slash s) in
  match p with
  | [] => Err
  | _ => if existsb (str_eqb (L "..")) p then Err else Ok p
  end.
(** name.rfind('/') *)
Definition rsplit (s : str) : option (str * str) :=
  match rev (pieces slash s) with
  | c :: (_ :: _) as r => Some (firstn (length s - length c - 1) s, c)
  | _ => None
  end.
(** Node::add_child(name) of a node: no path; an existing child is kept *)
Definition add_child (k : str) (f : rnode -> outcome rnode) (n : rnode) : outcome rnode := at_path [k] f n.
(** add_column, lines 220-243, then set_dtype.  An empty name: values.append() throws the
    columns so far away, and the next row writes to where they were: UB. *)
Definition add_column (nrows : nat) (v : rnode) (name : str) : outcome rnode :=
  let fresh (_ : rnode) := Ok (RLeaf (repeat (S754_zero false) nrows)) in
  match name with
  | [] => UB
  | _ => match rsplit name with
         | Some (base, child) => do p <- path_of base; at_path p (add_child child fresh) v
         | None => add_child name fresh v
         end
  end.
(** add_columns, lines 246-270; read_column_names gave 0 columns if it gave no names *)
Definition add_columns (names : list str) (nrows : nat) (v : rnode) : outcome rnode :=
  ofold (add_column nrows) names v.

(** *d = std::stof(data), at element [row] of a column *)
Definition put_num (t : tid) (row : nat) (data : str) (n : rnode) : outcome rnode :=
  match n with
  | RLeaf l => match nth_error l row with
               | Some _ => do x <- stox t data; Ok (RLeaf (set_nth l row (fst x)))
               | None => UB
               end
  | _ => UB
  end.
(** the body of the column loop of read_csv_data, lines 343-378 and 384-424: [icol >
    col_names.size()] throws, [icol == col_names.size()] reads past the names *)
Definition read_entry (t : tid) (names : list str) (row : nat) (v : rnode) (e : nat * str) : outcome rnode :=
  if (length names <? fst e)%nat then Err
  else do name <- deref (nth_error names (fst e));
       do p <- path_of name;
       at_path p (put_num t row (snd e)) v.
Definition numbered {A} (l : list A) : list (nat * A) := combine (seq 0 (length l)) l.
Definition read_row (t : tid) (names : list str) (v : rnode) (r : nat * str) : outcome rnode :=
  ofold (read_entry t names (fst r)) (numbered (pieces "," (snd r))) v.
(** read_csv_data, lines 331-440 *)
Definition read_csv_data (t : tid) (names : list str) (rows : list str) (v : rnode) : outcome rnode :=
  ofold (read_row t names) (numbered rows) v.
(** read_single_table, lines 443-500: [t] is FLOAT64 with the option use_float64, else
    FLOAT32; the result is the node "values" *)
Definition read_table (t : tid) (text : str) : outcome rnode :=
  match lines text with
  | [] => Err
  | first :: rest =>
      let names := read_column_names first in
      let rows := match names with [] => first :: rest | _ => rest end in
      do v <- add_columns names (length rows) RNone;
      read_csv_data t names rows v
  end.

(** * Many tables: a directory *)
Definition tables := kids values.
Definition table_list_prefix : str := L "table_list_".
Definition csv_ext : str := L ".csv".
(** write_multiple_tables, lines 183-217: the files made in the directory, in order; a file
    that exists already is replaced *)
Definition file_of_index (i : nat) : str := table_list_prefix ++ show_Z (Z.of_nat i) ++ csv_ext.
Definition file_names (t : tables) : list str :=
  match t with
  | KList l => map file_of_index (seq 0 (length l))
  | KObj _ => map (fun e => fst e ++ csv_ext) (named t)
  end.
Definition write_file (d : list (str * str)) (e : str * values) : outcome (list (str * str)) :=
  do s <- write_table (snd e); Ok (mset d (fst e) s).
Definition write_many (t : tables) (d : list (str * str)) : outcome (list (str * str)) :=
  ofold write_file (combine (file_names t) (map snd (named t))) d.

(** std::string::find *)
Definition prefix_of (w s : str) : bool := str_eqb (firstn (length w) s) w.
Fixpoint find_str (w s : str) : option nat :=
  if prefix_of w s then Some O
  else match s with [] => None | _ :: r => option_map S (find_str w r) end.
(** std::string::rfind *)
Fixpoint rfind_str (w s : str) : option nat :=
  match s with
  | [] => if prefix_of w s then Some O else None
  | _ :: r => match rfind_str w r with
              | Some i => Some (S i)
              | None => if prefix_of w s then Some O else None
              end
  end.
Definition ends_with (w s : str) : bool := str_eqb (skipn (length s - length w) s) w && (length w <=? length s)%nat.
(** std::stoi of text without blanks or sign; a number past INT_MAX throws, which gives INT_MAX too *)
Definition int_max32 : Z := 2 ^ 31 - 1.
Definition index_text (s : str) : Z :=
  match take_digits s with
  | ([], _) => int_max32
  | (ds, _) => Z.min (dec_of ds) int_max32
  end.
(** sorted by index: a stable sort stands for std::sort, which may order equal indices otherwise *)
Fixpoint insert_by {A} (x : Z * A) (l : list (Z * A)) : list (Z * A) :=
  match l with
  | [] => [x]
  | y :: r => if fst x <? fst y then x :: l else y :: insert_by x r
  end.
Definition sort_by {A} (l : list (Z * A)) : list (Z * A) := fold_left (fun a x => insert_by x a) l [].
Definition after_prefix (s : str) : str :=
  match rfind_str table_list_prefix s with Some i => skipn (i + length table_list_prefix) s | None => s end.
Inductive rtables := TList (l : list rnode) | TObj (l : list (str * rnode)).
(** read_many_tables, lines 503-570; [dir] is the path with a slash at its end, [files] the
    files in it and their text, in the order readdir gives them, none with a name that starts
    with a dot.  A path shorter than 4 characters makes substr throw. *)
Definition read_many (t : tid) (dir : str) (files : list (str * str)) : outcome rtables :=
  if existsb (fun e => (length (dir ++ fst e) <? 4)%nat) files then Err else
  let csv := filter (fun e => ends_with csv_ext (dir ++ fst e)) files in
  let is_list := forallb (fun e => match find_str table_list_prefix (dir ++ fst e) with
                                   | Some i => Nat.eqb i (length dir)
                                   | None => false
                                   end) csv in
  if is_list then
    let l := sort_by (map (fun e => (index_text (after_prefix (dir ++ fst e)), snd e)) csv) in
    do ts <- omapM (fun e => read_table t (snd e)) l;
    Ok (TList ts)
  else
    do ts <- ofold (fun acc (e : str * str) =>
                      do p <- path_of (firstn (length (fst e) - 4) (fst e));
                      match p with
                      | [k] => do n <- read_table t (snd e); Ok (mset acc k n)
                      | _ => UB
                      end) csv [];
    Ok (TObj ts).
(** write_csv, lines 607-635, for many tables: verify_many_tables, conduit_blueprint_table.cpp
    126-150, asks for at least one; [d] is what the directory holds before *)
Definition write_csv_many (t : tables) (d : list (str * str)) : outcome (list (str * str)) :=
  match named t with
  | [] => Err
  | l => if forallb (fun e => verify_values (snd e)) l then write_many t d else Err
  end.
