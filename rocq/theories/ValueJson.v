(** Node values as JSON: the "json" and "conduit_json" protocols.  Printing is
    Node::to_json_generic (conduit_node.cpp), reading is conduit::Generator
    (conduit_generator.cpp) without external data. *)
From Verif Require Import Base DType Path SpecTree Schema Codec Mem Node Number NodeDiff ArrayOps Json B64Json.
Local Open Scope Z_scope.

(** The C library's and rapidjson's conversions between floating point numbers and text
    or integers.  A number of type FLOAT32 or FLOAT64 is given by its bytes. *)
Record floats := mkFloats {
  f_text : tid -> list byte -> str;       (** utils::float64_to_string((float64)x), conduit_utils.cpp 1335-1355 *)
  f_read : tid -> str -> list byte;       (** (T)jvalue.GetDouble() of a number with this text *)
  f_strtod : tid -> str -> list byte;     (** (T)strtod(text) *)
  f_is_double : str -> bool;              (** Generator::Parser::string_is_double, conduit_generator.cpp 409-417 *)
  f_of_int : tid -> Z -> list byte;       (** (T)i *)
  f_trunc : tid -> list byte -> outcome Z (** (int type)x of a float64 x; out of range is UB *)
}.

Section Json.
Variable F : floats.
Variable mach : endian.

(** * Printing *)

Fixpoint join (sep : str) (l : list str) : str :=
  match l with
  | [] => []
  | [t] => t
  | t :: r => t ++ sep ++ join sep r
  end.
(** one turn of the loop of DataArray<T>::to_json_stream, conduit_data_array.cpp 606-661 *)
Definition has_n (s : str) : bool := existsb (Ascii.eqb "n") s.
Definition elem_text (t : tid) (x : list byte) : str :=
  if is_float t then
    let s := f_text F t x in if has_n s then quoted s else s
  else show_Z (ivalue mach t x).
(** DataArray<T>::to_json_stream, conduit_data_array.cpp 597-667 *)
Definition array_text (m : mem) (h : hdr) (d : dtype) : outcome str :=
  do xs <- elems_read m h d (dt_n d);
  let body := join (L ", ") (map (elem_text (dt_id d)) xs) in
  Ok (if (dt_n d =? 0) || (1 <? dt_n d) then "["%char :: body ++ L "]" else body).
(** the switch of Node::to_json_generic, conduit_node.cpp 13568-13617 *)
Definition leaf_text (m : mem) (h : hdr) (d : dtype) : outcome str :=
  match dt_id d with
  | EMPTY => Ok (L "null")
  | OBJECT | LIST => Ok []
  | CHAR8_STR => do s <- nas_string m (NLeaf h d); Ok (quoted (escape s))
  | _ => array_text m h d
  end.

(** DataType::to_json_stream, conduit_data_type.cpp 1339-1387.  [Json.dt_json] is
    this for indent 0 and no white space. *)
Definition dt_json_at (ind depth : nat) (pad eoe : str) (d : dtype) : str :=
  let line := eoe ++ indent ind (S depth) pad in
  eoe ++ indent ind depth pad ++ L "{" ++ line ++
  quoted (L "dtype") ++ L ":" ++ quoted (id_to_name (dt_id d)) ++
  (if is_container_id (dt_id d) then []
   else
     L "," ++ line ++ quoted (L "number_of_elements") ++ L ": " ++ show_Z (dt_n d) ++
     L "," ++ line ++ quoted (L "offset") ++ L ": " ++ show_Z (dt_off d) ++
     L "," ++ line ++ quoted (L "stride") ++ L ": " ++ show_Z (dt_stride d) ++
     L "," ++ line ++ quoted (L "element_bytes") ++ L ": " ++ show_Z (dt_ebytes d) ++
     L "," ++ line ++ quoted (L "endianness") ++ L ": " ++
     quoted (endian_id_to_name (match dt_endian d with DEFAULT_E => mach | e => e end))) ++
  eoe ++ indent ind depth pad ++ L "}" ++ eoe.
(** the leaf case of Node::to_json_generic, conduit_node.cpp 13531-13627, address
    false: the closing brace of the dtype's text is cut off, then what follows its last
    quote, quote included. *)
Definition leaf_json (detailed : bool) (ind depth : nat) (pad eoe : str) (m : mem) (h : hdr) (d : dtype)
  : outcome str :=
  do t <- leaf_text m h d;
  if detailed then
    let j := fst (split_string (dt_json_at ind depth pad eoe d) (L "}")) in
    let c := snd (rsplit_string j [dquote]) in
    Ok (c ++ [dquote] ++ L "," ++ eoe ++ indent ind (S depth) pad ++ quoted (L "value") ++ L ": " ++
        t ++ eoe ++ indent ind depth pad ++ L "}")
  else Ok t.
(** Node::to_json_generic, conduit_node.cpp 13483-13630, address false.  Child names are
    printed as stored, without escaping. *)
Fixpoint node_json (detailed : bool) (ind : nat) (pad eoe : str) (m : mem) (n : node) (depth : nat)
  : outcome str :=
  match n with
  | NLeaf h d => leaf_json detailed ind depth pad eoe m h d
  | NObj _ es =>
      do ts <- omapM (fun e => node_json detailed ind pad eoe m (snd e) (S depth)) es;
      Ok (eoe ++ indent ind depth pad ++ "{"%char :: eoe ++
          sj_items eoe (zip_names (map fst es) ts (indent ind (S depth) pad)) ++
          indent ind depth pad ++ L "}")
  | NLst _ ks =>
      do ts <- omapM (fun k => node_json detailed ind pad eoe m k (S depth)) ks;
      Ok (eoe ++ indent ind depth pad ++ "["%char :: eoe ++
          sj_items eoe (map (fun t => indent ind (S depth) pad ++ t) ts) ++
          indent ind depth pad ++ L "]")
  end.

(** * Reading *)

(** rapidjson's number kinds.  A number written as an integer is Int64 or Uint64 if it
    fits, otherwise a double. *)
Definition int_text (t : str) : option Z :=
  match t with
  | [] => None
  | c :: r =>
      if Ascii.eqb c "-" then
        match r with [] => None | _ => option_map Z.opp (Json.dec_value r 0) end
      else Json.dec_value t 0
  end.
Definition is_int64 (t : str) : bool :=
  match int_text t with Some z => (- 2 ^ 63 <=? z) && (z <? 2 ^ 63) | None => false end.
Definition is_uint64 (t : str) : bool :=
  match int_text t with Some z => (0 <=? z) && (z <? 2 ^ 64) | None => false end.
(** GetInt64, GetUint64: assertions of rapidjson, compiled out in a release build: UB
    for a number of another kind. *)
Definition get_i64 (t : str) : outcome Z :=
  match int_text t with Some z => if is_int64 t then Ok z else UB | None => UB end.
Definition get_u64 (t : str) : outcome Z :=
  match int_text t with Some z => if is_uint64 t then Ok z else UB | None => UB end.
Definition jv_i64 (v : jval) : outcome Z := match v with JNum t => get_i64 t | _ => UB end.
Definition jv_u64 (v : jval) : outcome Z := match v with JNum t => get_u64 t | _ => UB end.

(** json_to_numeric_dtype, conduit_generator.cpp 481-510 *)
Definition numeric_kind (v : jval) : tid :=
  match v with
  | JNum t => if is_uint64 t || is_int64 t then INT64 else FLOAT64
  | JStr s => if f_is_double F (up_to_nul s) then FLOAT64 else EMPTY
  | _ => EMPTY
  end.
(** check_homogenous_json_array, conduit_generator.cpp 513-546 *)
Fixpoint kind_loop (k : tid) (l : list jval) : tid :=
  match l with
  | [] => k
  | v :: r =>
      let c := numeric_kind v in
      if tid_eqb k INT64 && tid_eqb c FLOAT64 then kind_loop FLOAT64 r
      else if tid_eqb c EMPTY then EMPTY
      else kind_loop k r
  end.
Definition array_kind (l : list jval) : tid :=
  match l with
  | [] => EMPTY
  | v :: r => if tid_eqb (numeric_kind v) EMPTY then EMPTY else kind_loop (numeric_kind v) r
  end.

(** element(i) = x, i = 0, 1, ...: DataArray<T>::set(const std::vector<V>&),
    conduit_data_array.cpp 780-890, and the loops of parse_json_int64_array,
    parse_json_float64_array; [xs] are the bytes of the (T)x. *)
Fixpoint put_raw (m : mem) (h : hdr) (d : dtype) (i : Z) (xs : list (list byte)) : outcome mem :=
  match xs with
  | [] => Ok m
  | x :: r =>
      do a <- element_index d i;
      do m' <- ostore m (opadd (h_data h) a) x;
      put_raw m' h d (i + 1) r
  end.
(** (T)x for an element type T: of an integer and of a float64 in text form *)
Definition raw_int (t : tid) (x : Z) : outcome (list byte) :=
  if is_int t then Ok (encode mach t (conv t x))
  else if is_float t then Ok (f_of_int F t x)
  else Err.
Definition raw_double (t : tid) (v : jval) : outcome (list byte) :=
  do to_t <- (match v with
              | JNum s => Ok (fun u => f_read F u s)
              | JStr s => Ok (fun u => f_strtod F u (up_to_nul s))
              | _ => Err
              end);
  if is_float t then Ok (to_t t)
  else if is_int t then do z <- f_trunc F t (to_t FLOAT64); Ok (encode mach t (conv t z))
  else Err.
(** parse_json_int64_array, parse_json_uint64_array, parse_json_float64_array (Node),
    conduit_generator.cpp 550-800: all values are read, then all are set. *)
Definition array_raw (k : tid) (t : tid) (l : list jval) : outcome (list (list byte)) :=
  match k with
  | INT64 =>
      do zs <- omapM (if is_unsigned t then jv_u64 else jv_i64) l; omapM (raw_int t) zs
  | _ => omapM (raw_double t) l
  end.
Definition nput (m : mem) (n : node) (xs : list (list byte)) : outcome mem :=
  match n with NLeaf h d => put_raw m h d 0 xs | _ => UB end.

(** Node::set_int32 etc., conduit_node.cpp 615-930 *)
Definition nset_scalar (m : mem) (n : node) (t : tid) (x : list byte) : outcome (mem * node) :=
  do (m1, n1) <- ninit m n (dt_simple t 1);
  match n1 with
  | NLeaf h d => do m2 <- ostore m1 (elem0 h d) x; Ok (m2, n1)
  | _ => UB
  end.
(** Node::set_string, conduit_node.cpp 1409-1440, on a node whose char8_str elements have
    one byte: the copy goes element by element. *)
Definition nset_text (m : mem) (n : node) (s : str) : outcome (mem * node) :=
  do (m1, n1) <- ninit m n (dt_simple CHAR8_STR (Z.of_nat (length s) + 1));
  do m2 <- nput m1 n1 (map (fun c => [c]) (s ++ [zero_byte]));
  Ok (m2, n1).

(** parse_inline_leaf, conduit_generator.cpp 952-1047 *)
Definition inline_leaf (m : mem) (n : node) (v : jval) : outcome (mem * node) :=
  let t := dt_id (n_dtype n) in
  match v with
  | JStr s => if tid_eqb t CHAR8_STR then nset_text m n (unescape (up_to_nul s)) else Err
  | JBool b => if tid_eqb t UINT8 then nset_scalar m n UINT8 [if b then "001"%char else zero_byte] else Err
  | JNum s =>
      if is_signed t then do z <- get_i64 s; nset_scalar m n t (encode mach t (conv t z))
      else if is_unsigned t then do z <- get_u64 s; nset_scalar m n t (encode mach t (conv t z))
      else if is_float t then nset_scalar m n t (f_read F t s)
      else Err
  | JNull => nreset m n
  | _ => Ok (m, n)
  end.
(** parse_inline_value, conduit_generator.cpp 1073-1119 *)
Definition inline_value (m : mem) (n : node) (v : jval) : outcome (mem * node) :=
  match v with
  | JArr l =>
      if dt_n (n_dtype n) <? Z.of_nat (length l) then Err
      else match array_kind l with
           | EMPTY => Ok (m, n)
           | k => do xs <- array_raw k (dt_id (n_dtype n)) l; do m1 <- nput m n xs; Ok (m1, n)
           end
  | _ => inline_leaf m n v
  end.

(** The child loops shared by the two readers: a new Node per entry, names that occur
    twice are an error. *)
Fixpoint rd_children (w : mem -> jval -> outcome (mem * node)) (m : mem) (l : list jval)
  : outcome (mem * list node) :=
  match l with
  | [] => Ok (m, [])
  | v :: r =>
      do (m1, c) <- w m v;
      do (m2, cs) <- rd_children w m1 r;
      Ok (m2, c :: cs)
  end.
Fixpoint rd_entries (w : mem -> jval -> outcome (mem * node)) (m : mem) (seen : list str) (l : list (str * jval))
  : outcome (mem * list (str * node)) :=
  match l with
  | [] => Ok (m, [])
  | (k0, v) :: r =>
      let k := up_to_nul k0 in
      if existsb (str_eqb k) seen then Err
      else
        do (m1, c) <- w m v;
        do (m2, cs) <- rd_entries w m1 (k :: seen) r;
        Ok (m2, (k, c) :: cs)
  end.

(** walk_json_schema(Node ptr, Schema ptr, void ptr data, jvalue, curr_offset) with data NULL,
    conduit_generator.cpp 1361-1560: without data curr_offset stays 0.  The node is empty
    and has header [h].  Not modelled: "reference" lengths and "address" members, which are
    errors here.  Fuel: one unit per level. *)
Fixpoint walk_node_f (f : nat) (m : mem) (h : hdr) (v : jval) : outcome (mem * node) :=
  match f with
  | O => Fuel
  | S f' =>
      match v with
      | JObj l =>
          match member l (L "dtype") with
          | Some (JObj d) =>
              do n <- (match member l (L "length") with
                       | None => Ok 1
                       | Some (JNum t) => get_int t
                       | Some _ => Err
                       end);
              do (m1, cs) <- rd_children (fun m' _ => walk_node_f f' m' null_hdr (JObj d)) m
                                         (repeat JNull (Z.to_nat n));
              Ok (m1, match cs with [] => NLeaf h dt_empty | _ => NLst h cs end)
          | Some _ =>
              do d <- parse_leaf_dtype v 0;
              match member l (L "address") with
              | Some _ => Err
              | None =>
                  do (m1, n1) <- ninit m (NLeaf h dt_empty) (dt_compact d);
                  match member l (L "value") with
                  | Some x => inline_value m1 n1 x
                  | None => Ok (m1, n1)
                  end
              end
          | None =>
              do (m1, es) <- rd_entries (fun m' x => walk_node_f f' m' null_hdr x) m [] l;
              Ok (m1, NObj h es)
          end
      | JArr l =>
          do (m1, cs) <- rd_children (fun m' x => walk_node_f f' m' null_hdr x) m l;
          Ok (m1, NLst h cs)
      | JStr _ =>
          do d <- parse_leaf_dtype v 0;
          ninit m (NLeaf h d) d
      | _ => Err
      end
  end.

(** walk_pure_json_schema, conduit_generator.cpp 1233-1355 *)
Fixpoint walk_pure_f (f : nat) (m : mem) (h : hdr) (v : jval) : outcome (mem * node) :=
  match f with
  | O => Fuel
  | S f' =>
      let n := NLeaf h dt_empty in
      match v with
      | JObj l =>
          do (m1, es) <- rd_entries (fun m' x => walk_pure_f f' m' null_hdr x) m [] l;
          Ok (m1, NObj h es)
      | JArr l =>
          match array_kind l with
          | INT64 =>
              do (m1, n1) <- ninit m n (dt_simple INT64 (Z.of_nat (length l)));
              do zs <- omapM jv_i64 l;
              do m2 <- nput m1 n1 (map (encode mach INT64) zs);
              Ok (m2, n1)
          | FLOAT64 =>
              do (m1, n1) <- ninit m n (dt_simple FLOAT64 (Z.of_nat (length l)));
              do xs <- omapM (raw_double FLOAT64) l;
              do m2 <- nput m1 n1 xs;
              Ok (m2, n1)
          | _ =>
              do (m1, cs) <- rd_children (fun m' x => walk_pure_f f' m' null_hdr x) m l;
              Ok (m1, NLst h cs)
          end
      | JStr s => nset_text m n (up_to_nul s)
      | JNull => nreset m n
      | JBool b => nset_scalar m n UINT8 [if b then "001"%char else zero_byte]
      | JNum t =>
          if is_int64 t then do z <- get_i64 t; nset_scalar m n INT64 (encode mach INT64 z)
          else if is_uint64 t then do z <- get_u64 t; nset_scalar m n UINT64 (encode mach UINT64 z)
          else nset_scalar m n FLOAT64 (f_read F FLOAT64 t)
      end
  end.

(** Generator::walk(Node), conduit_generator.cpp 3356-3447, protocols conduit_json and
    json: reset, sanitize, parse, walk.  After an error the node is reset and the
    error thrown on; an outcome [Err] does not carry the node. *)
Section Reader.
  Variable parse : str -> outcome jval.
  Definition nfrom_json (detailed : bool) (m : mem) (dest : node) (text : str) : outcome (mem * node) :=
    do (m1, d1) <- nreset m dest;
    do v <- parse (json_sanitize text);
    (if detailed then walk_node_f else walk_pure_f) (S (jdepth v)) m1 (n_hdr d1) v.
End Reader.
End Json.
