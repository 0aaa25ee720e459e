(** Schema JSON: json_sanitize (conduit_utils.cpp), Schema::to_json
    (conduit_schema.cpp, conduit_data_type.cpp) and the schema half of
    conduit::Generator (conduit_generator.cpp).  *)
From Coq Require Import NArith Nnat.
From Verif Require Import Base DType Path SpecTree Schema Codec.
Local Open Scope Z_scope.

(** * utils::json_sanitize *)

Definition between (lo hi c : ascii) : bool :=
  (N.leb (N_of_ascii lo) (N_of_ascii c) && N.leb (N_of_ascii c) (N_of_ascii hi))%bool.
(** conduit_utils.cpp 916-925 *)
Definition word_char (c : ascii) : bool :=
  between "A" "Z" c || between "a" "z" c || Ascii.eqb c "_".
(** conduit_utils.cpp 929-934 *)
Definition num_char (c : ascii) : bool := between "0" "9" c.

Record sst : Type := mkS {
  in_comment : bool;
  in_string : bool;
  in_id : bool;
  cur_id : str;
  res : str
}.

(** One turn of the loop, conduit_utils.cpp 966-1052.  [prev] is json[i-1]
    (None at i = 0), [next] is json[i+1] (None at the last character). *)
Definition toggles (prev : option ascii) (c : ascii) : bool :=
  Ascii.eqb c dquote &&
  match prev with None => false | Some p => negb (Ascii.eqb p bslash) end.
Definition id_text (w : str) : str :=
  if str_eqb w (L "true") || str_eqb w (L "false") || str_eqb w (L "null") then w
  else dquote :: w ++ [dquote].
Definition sstep (prev : option ascii) (c : ascii) (next : option ascii) (s : sst) : sst :=
  let instr := if toggles prev c then negb (in_string s) else in_string s in
  if instr then mkS (in_comment s) instr (in_id s) (cur_id s) (res s ++ [c])
  else
    let opens := negb (in_comment s) && Ascii.eqb c "/" &&
                 match next with Some n => Ascii.eqb n "/" | None => false end in
    if in_comment s || opens then
      mkS (negb (Ascii.eqb c c_nl)) instr (in_id s) (cur_id s) (res s)
    else if negb (in_id s) && word_char c then
      if match prev with
         | None => false
         | Some p => negb (num_char p) && negb (Ascii.eqb p ".")
         end
      then mkS false instr true (cur_id s ++ [c]) (res s)
      else mkS false instr false (cur_id s) (res s ++ [c])
    else if in_id s then
      if word_char c || num_char c then
        mkS false instr true (cur_id s ++ [c]) (res s)
      else mkS false instr false [] (res s ++ id_text (cur_id s) ++ [c])
    else mkS false instr false (cur_id s) (res s ++ [c]).

Fixpoint srun (prev : option ascii) (s : sst) (t : str) : sst :=
  match t with
  | [] => s
  | c :: r => srun (Some c) (sstep prev c (hd_error r) s) r
  end.
Definition s_start : sst := mkS false false false [] [].
Definition json_sanitize (t : str) : str := res (srun None s_start t).

(** * JSON values, as rapidjson's Document holds them.  Numbers keep their
    text; see [get_uint64] for the accessor conduit uses. *)
Inductive jval : Type :=
| JNull
| JBool (b : bool)
| JNum (t : str)
| JStr (s : str)
| JArr (l : list jval)
| JObj (l : list (str * jval)).

(** rapidjson Value::FindMember / HasMember / operator[]: the first member with
    that name. *)
Definition member (l : list (str * jval)) (k : str) : option jval := mget l k.

Fixpoint dec_value (t : str) (acc : Z) : option Z :=
  match t with
  | [] => Some acc
  | c :: r => if num_char c then dec_value r (acc * 10 + (Z.of_N (N_of_ascii c) - 48)) else None
  end.
(** rapidjson Value::GetUint64: asserts that the number was written as a
    non-negative integer below 2^64; with assertions compiled out it
    reinterprets the stored bytes, which is UB here. *)
Definition get_uint64 (t : str) : outcome Z :=
  match t with
  | [] => UB
  | _ => match dec_value t 0 with
         | Some z => if z <? 2 ^ 64 then Ok z else UB
         | None => UB
         end
  end.
(** rapidjson Value::GetInt: likewise, for a number that fits an int. *)
Definition get_int (t : str) : outcome Z :=
  match t with
  | [] => UB
  | c :: r =>
      if Ascii.eqb c "-" then
        match r with
        | [] => UB
        | _ => match dec_value r 0 with
               | Some z => if z <=? 2 ^ 31 then Ok (- z) else UB
               | None => UB
               end
        end
      else match dec_value t 0 with
           | Some z => if z <? 2 ^ 31 then Ok z else UB
           | None => UB
           end
  end.
(** uint64 to index_t (int64) *)
Definition to_index (z : Z) : Z := if z <? 2 ^ 63 then z else z - 2 ^ 64.

(** * Printing *)

(** operator<< of an index_t *)
Definition show_N (n : N) : str := digits_f (S (N.size_nat n)) n [].
Definition show_Z (z : Z) : str :=
  if z <? 0 then "-"%char :: show_N (Z.to_N (- z)) else show_N (Z.to_N z).

(** utils::indent, conduit_utils.cpp 1058-1071 *)
Definition indent (ind depth : nat) (pad : str) : str :=
  List.concat (repeat pad (depth * ind)).

(** DataType::to_json_stream(os,0,0,"",""), conduit_data_type.cpp 1339-1387;
    [m] is Endianness::machine_default(). *)
Definition quoted (s : str) : str := dquote :: s ++ [dquote].
Definition is_container_id (t : tid) : bool :=
  match t with EMPTY | OBJECT | LIST => true | _ => false end.
Definition dt_json (m : endian) (d : dtype) : str :=
  "{"%char :: quoted (L "dtype") ++ ":"%char :: quoted (id_to_name (dt_id d)) ++
  (if is_container_id (dt_id d) then []
   else
     ","%char :: quoted (L "number_of_elements") ++ L ": " ++ show_Z (dt_n d) ++
     ","%char :: quoted (L "offset") ++ L ": " ++ show_Z (dt_off d) ++
     ","%char :: quoted (L "stride") ++ L ": " ++ show_Z (dt_stride d) ++
     ","%char :: quoted (L "element_bytes") ++ L ": " ++ show_Z (dt_ebytes d) ++
     ","%char :: quoted (L "endianness") ++ L ": " ++
     quoted (endian_id_to_name (match dt_endian d with DEFAULT_E => m | e => e end))) ++
  L "}".

(** Schema::to_json_stream, conduit_schema.cpp 533-580.  The child loop with its
    separating comma is [sj_items] over the already printed children; the text
    of child i starts with its indent and, in an object, its name as stored (no
    escaping). *)
Fixpoint sj_items (eoe : str) (l : list str) : str :=
  match l with
  | [] => []
  | [t] => t ++ eoe
  | t :: r => t ++ ","%char :: eoe ++ sj_items eoe r
  end.
Fixpoint zip_names (order : list str) (ts : list str) (pre : str) : list str :=
  match ts with
  | [] => []
  | t :: r => (pre ++ quoted (hd [] order) ++ L ": " ++ t) :: zip_names (tl order) r pre
  end.
Fixpoint schema_json (m : endian) (ind : nat) (pad eoe : str) (s : schema) (depth : nat) : str :=
  match s with
  | SLeaf d => dt_json m d
  | SObj _ order ks =>
      eoe ++ indent ind depth pad ++ "{"%char :: eoe ++
      sj_items eoe (zip_names order (map (fun k => schema_json m ind pad eoe k (S depth)) ks)
                              (indent ind (S depth) pad)) ++
      indent ind depth pad ++ L "}"
  | SLst ks =>
      eoe ++ indent ind depth pad ++ "["%char :: eoe ++
      sj_items eoe (map (fun k => indent ind (S depth) pad ++
                                  schema_json m ind pad eoe k (S depth)) ks) ++
      indent ind depth pad ++ L "]"
  end.
(** Schema::to_json(), default arguments: conduit_schema.hpp 206-209 *)
Definition to_json (m : endian) (s : schema) : str :=
  schema_json m 2 (L " ") [c_nl] s 0.

(** * The generator, schema only *)

(** conduit_data_type.cpp 1113-1165 for the usual 64-bit platform (char 8, short
    16, int 32, long and long long 64 bits; plain char signed).  long double is
    not a conduit type. *)
Definition c_type_name_to_id (s : str) : tid :=
  if str_eqb s (L "char") then INT8
  else if str_eqb s (L "short") then INT16
  else if str_eqb s (L "int") then INT32
  else if str_eqb s (L "long") then INT64
  else if str_eqb s (L "long long") then INT64
  else if str_eqb s (L "signed char") then INT8
  else if str_eqb s (L "signed short") then INT16
  else if str_eqb s (L "signed int") then INT32
  else if str_eqb s (L "signed long") then INT64
  else if str_eqb s (L "signed long long") then INT64
  else if str_eqb s (L "unsigned char") then UINT8
  else if str_eqb s (L "unsigned short") then UINT16
  else if str_eqb s (L "unsigned int") then UINT32
  else if str_eqb s (L "unsigned long") then UINT64
  else if str_eqb s (L "unsigned long long") then UINT64
  else if str_eqb s (L "float") then FLOAT32
  else if str_eqb s (L "double") then FLOAT64
  else if str_eqb s (L "char8_str") then CHAR8_STR
  else EMPTY.
(** conduit_generator.cpp 455-475 *)
Definition parse_leaf_dtype_name (s : str) : outcome tid :=
  let t := if tid_eqb (name_to_id s) EMPTY then c_type_name_to_id s else name_to_id s in
  if tid_eqb t EMPTY && negb (str_eqb s (L "empty")) then Err else Ok t.

(** conduit_generator.cpp 829-840 (the lambda), 842-875 *)
Definition num_member (l : list (str * jval)) (k : str) (dflt : Z) : outcome Z :=
  match member l k with
  | None => Ok dflt
  | Some (JNum t) => do z <- get_uint64 t; Ok (to_index z)
  | Some _ => Err
  end.
(** conduit_generator.cpp 805-947 *)
Definition parse_leaf_dtype (v : jval) (off : Z) : outcome dtype :=
  match v with
  | JStr s =>
      do t <- parse_leaf_dtype_name s;
      Ok (mkDT t 1 off (default_bytes t) (default_bytes t) DEFAULT_E)
  | JObj l =>
      match member l (L "dtype") with
      | Some (JStr s) =>
          do len <- (match member l (L "number_of_elements") with
                     | Some _ => num_member l (L "number_of_elements") 0
                     | None => num_member l (L "length") 0
                     end);
          do t <- parse_leaf_dtype_name s;
          do off' <- num_member l (L "offset") off;
          do stride <- num_member l (L "stride") (default_bytes t);
          do ebytes <- num_member l (L "element_bytes") (default_bytes t);
          do e <- (match member l (L "endianness") with
                   | None => Ok DEFAULT_E
                   | Some (JStr x) =>
                       if str_eqb x (L "big") then Ok BIG_E
                       else if str_eqb x (L "little") then Ok LITTLE_E
                       else Err
                   | Some _ => Err
                   end);
          let len' :=
            if len =? 0 then
              match member l (L "value"), member l (L "number_of_elements") with
              | Some (JArr a), _ => Z.of_nat (List.length a)
              | _, None => 1
              | _, Some _ => len
              end
            else len in
          Ok (mkDT t len' off' stride ebytes e)
      | _ => Err
      end
  | _ => Err
  end.

(** conduit_generator.cpp 1124-1230: walk_json_schema(Schema ptr, jvalue,
    curr_offset).  [cur] is the schema before the call (only "length": 0 of the
    list_of form leaves it alone).  Fuel: one unit per level. *)
Fixpoint wj_times (n : nat) (w : Z -> outcome schema) (cur : schema) (off : Z)
  : outcome schema :=
  match n with
  | O => Ok cur
  | S n' =>
      match s_append cur with
      | SLst ks =>
          do c <- w off;
          wj_times n' w (SLst (set_nth ks (List.length ks - 1) c))
                   (off + total_strided_bytes c)
      | _ => UB
      end
  end.
Fixpoint wj_items (w : jval -> Z -> outcome schema) (l : list jval) (cur : schema) (off : Z)
  : outcome schema :=
  match l with
  | [] => Ok cur
  | v :: r =>
      match s_append cur with
      | SLst ks =>
          do c <- w v off;
          wj_items w r (SLst (set_nth ks (List.length ks - 1) c))
                   (off + total_strided_bytes c)
      | _ => UB
      end
  end.
Fixpoint wj_members (w : jval -> Z -> outcome schema) (l : list (str * jval))
         (cur : schema) (off : Z) : outcome schema :=
  match l with
  | [] => Ok cur
  | (k, v) :: r =>
      let s1 := add_child cur k in
      do i <- child_index s1 k;
      do _ <- deref (znth (s_kids s1) i);
      do c <- w v off;
      wj_members w r (set_kids s1 (set_nth (s_kids s1) (Z.to_nat i) c))
                 (off + total_strided_bytes c)
  end.
Fixpoint walk_schema_f (f : nat) (cur : schema) (v : jval) (off : Z) : outcome schema :=
  match f with
  | O => Fuel
  | S f' =>
      match v with
      | JObj l =>
          match member l (L "dtype") with
          | Some (JObj d) =>
              do n <- (match member l (L "length") with
                       | None => Ok 1
                       | Some (JNum t) => get_int t
                       | Some _ => Err
                       end);
              wj_times (Z.to_nat n) (walk_schema_f f' (SLst []) (JObj d)) cur off
          | Some _ =>
              do d <- parse_leaf_dtype v off;
              Ok (s_set_dtype d)
          | None => wj_members (walk_schema_f f' (SObj [] [] [])) l (SObj [] [] []) off
          end
      | JArr l => wj_items (walk_schema_f f' (SLst [])) l (SLst []) off
      | JStr _ =>
          do d <- parse_leaf_dtype v off;
          Ok (s_set_dtype d)
      | _ => Err
      end
  end.

Fixpoint jdepth (v : jval) : nat :=
  match v with
  | JArr l => S (fold_right Nat.max O (map jdepth l))
  | JObj l => S (fold_right Nat.max O (map (fun e => jdepth (snd e)) l))
  | _ => O
  end.

(** Generator::walk(Schema &), conduit_generator.cpp 3326-3352, json protocol:
    reset, sanitize, parse, walk from offset 0.  [parse] is rapidjson's
    Document::Parse. *)
Section WithReader.
  Variable parse : str -> outcome jval.
  Definition schema_of_json (t : str) : outcome schema :=
    do v <- parse (json_sanitize t);
    walk_schema_f (S (jdepth v)) s_empty v 0.
End WithReader.

(** * A concrete reader for the JSON grammar of [JsonSpec], standing for
    rapidjson (\u escapes are not handled). *)
Definition is_ws (c : ascii) : bool :=
  Ascii.eqb c " " || Ascii.eqb c c_nl || Ascii.eqb c c_tab || Ascii.eqb c "013".
Fixpoint skip_ws (t : str) : str :=
  match t with
  | c :: r => if is_ws c then skip_ws r else t
  | [] => []
  end.
Definition unesc (c : ascii) : option ascii :=
  if Ascii.eqb c dquote then Some dquote
  else if Ascii.eqb c bslash then Some bslash
  else if Ascii.eqb c "/" then Some "/"%char
  else if Ascii.eqb c "b" then Some "008"%char
  else if Ascii.eqb c "f" then Some "012"%char
  else if Ascii.eqb c "n" then Some "010"%char
  else if Ascii.eqb c "r" then Some "013"%char
  else if Ascii.eqb c "t" then Some "009"%char
  else None.
Definition is_ctl (c : ascii) : bool := N.ltb (N_of_ascii c) 32.
Fixpoint rd_string (t : str) : option (str * str) :=
  match t with
  | [] => None
  | c :: r =>
      if Ascii.eqb c dquote then Some ([], r)
      else if Ascii.eqb c bslash then
        match r with
        | [] => None
        | e :: r' =>
            match unesc e, rd_string r' with
            | Some x, Some (s, q) => Some (x :: s, q)
            | _, _ => None
            end
        end
      else if is_ctl c then None
      else match rd_string r with Some (s, q) => Some (c :: s, q) | None => None end
  end.
Definition is_numtext (c : ascii) : bool :=
  num_char c || Ascii.eqb c "-" || Ascii.eqb c "+" || Ascii.eqb c "." ||
  Ascii.eqb c "e" || Ascii.eqb c "E".
Fixpoint rd_while (p : ascii -> bool) (t : str) : str * str :=
  match t with
  | c :: r => if p c then let '(a, b) := rd_while p r in (c :: a, b) else ([], t)
  | [] => ([], [])
  end.

Fixpoint rd_value (f : nat) (t : str) : option (jval * str) :=
  match f with
  | O => None
  | S f' =>
      match t with
      | [] => None
      | c :: r =>
          if Ascii.eqb c dquote then
            match rd_string r with Some (s, q) => Some (JStr s, q) | None => None end
          else if Ascii.eqb c "[" then
            match skip_ws r with
            | [] => None
            | x :: q => if Ascii.eqb x "]" then Some (JArr [], q)
                        else match rd_items f' (skip_ws r) with
                             | Some (l, q') => Some (JArr l, q')
                             | None => None
                             end
            end
          else if Ascii.eqb c "{" then
            match skip_ws r with
            | [] => None
            | x :: q => if Ascii.eqb x "}" then Some (JObj [], q)
                        else match rd_members f' (skip_ws r) with
                             | Some (l, q') => Some (JObj l, q')
                             | None => None
                             end
            end
          else if Ascii.eqb c "-" || num_char c then
            let '(a, b) := rd_while is_numtext t in Some (JNum a, b)
          else
            let '(a, b) := rd_while word_char t in
            if str_eqb a (L "true") then Some (JBool true, b)
            else if str_eqb a (L "false") then Some (JBool false, b)
            else if str_eqb a (L "null") then Some (JNull, b)
            else None
      end
  end
with rd_items (f : nat) (t : str) : option (list jval * str) :=
  match f with
  | O => None
  | S f' =>
      match rd_value f' t with
      | None => None
      | Some (v, q) =>
          match skip_ws q with
          | [] => None
          | x :: q' =>
              if Ascii.eqb x "]" then Some ([v], q')
              else if Ascii.eqb x "," then
                match rd_items f' (skip_ws q') with
                | Some (l, q'') => Some (v :: l, q'')
                | None => None
                end
              else None
          end
      end
  end
with rd_members (f : nat) (t : str) : option (list (str * jval) * str) :=
  match f with
  | O => None
  | S f' =>
      match t with
      | [] => None
      | c :: r =>
          if Ascii.eqb c dquote then
            match rd_string r with
            | None => None
            | Some (k, q) =>
                match skip_ws q with
                | [] => None
                | y :: q1 =>
                    if Ascii.eqb y ":" then
                      match rd_value f' (skip_ws q1) with
                      | None => None
                      | Some (v, q2) =>
                          match skip_ws q2 with
                          | [] => None
                          | x :: q' =>
                              if Ascii.eqb x "}" then Some ([(k, v)], q')
                              else if Ascii.eqb x "," then
                                match rd_members f' (skip_ws q') with
                                | Some (l, q'') => Some ((k, v) :: l, q'')
                                | None => None
                                end
                              else None
                          end
                      end
                    else None
                end
            end
          else None
      end
  end.
Definition json_read (t : str) : outcome jval :=
  match rd_value (S (List.length t)) (skip_ws t) with
  | Some (v, q) => match skip_ws q with [] => Ok v | _ => Err end
  | None => Err
  end.
