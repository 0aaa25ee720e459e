(** The conduit_base64_json protocol: Node::to_base64_json (conduit_node.cpp)
    and Generator's reader for it (conduit_generator.cpp). *)
From Verif Require Import Base DType SpecTree Schema Codec Mem Node Json Save NodeHist.
Local Open Scope Z_scope.

(** Reading a char8_str leaf or a const char pointer as a C string: up to the first
    NUL.  Node::as_string, conduit_node.cpp 15452-15461 by way of as_char8_str 15432-15450;
    without a NUL in the buffer the read runs past its end. *)
Fixpoint c_string (s : str) : outcome str :=
  match s with
  | [] => UB
  | c :: r => if Ascii.eqb c "000" then Ok [] else do t <- c_string r; Ok (c :: t)
  end.
(** std::string from the pointer rapidjson's GetString gives: the text ends with a NUL. *)
Fixpoint up_to_nul (s : str) : str :=
  match s with
  | [] => []
  | c :: r => if Ascii.eqb c "000" then [] else c :: up_to_nul r
  end.

(** Node::to_base64_json, conduit_node.cpp 13795-13849, at depth 0 of the output: compact
    into a local node, encode its spanned bytes into a zeroed char8_str node, write
    schema and text.  The char8_str node is a buffer of its own and not part of [m];
    both locals are destroyed on return. *)
Definition b64_json_text (mach : endian) (ind : nat) (pad eoe : str) (depth : nat) (s : schema) (code : str) : str :=
  eoe ++ indent ind depth pad ++ L "{" ++ eoe ++
  indent ind (S depth) pad ++ quoted (L "schema") ++ L ": " ++
  schema_json mach ind pad eoe s (S depth) ++
  L "," ++ eoe ++
  indent ind (S depth) pad ++ quoted (L "data") ++ L ": " ++ eoe ++
  indent ind (S depth) pad ++ L "{" ++ eoe ++
  indent ind (S (S depth)) pad ++ quoted (L "base64") ++ L ": " ++
  quoted (escape code) ++
  eoe ++ indent ind (S depth) pad ++ L "}" ++ eoe ++
  indent ind depth pad ++ L "}".
Definition nto_base64_json (mach : endian) (ind : nat) (pad eoe : str) (depth : nat) (m : mem) (n : node)
  : outcome (mem * str) :=
  do (m1, c) <- ncompact_to m n nempty;
  let nbytes := tspanned (nschema c) in
  let sz := b64_enc_size nbytes in
  do src <- oload m1 (h_data (n_hdr c)) nbytes;
  do enc <- b64_encode src (repeat "000"%char (Z.to_nat sz));
  do code <- c_string enc;
  do m2 <- nfree m1 c;
  Ok (m2, b64_json_text mach ind pad eoe depth (schema_of_tree (nschema c)) code).

(** Generator::Parser::JSON::parse_base64, conduit_generator.cpp 1761-1812.  HasMember on
    something that is no object and GetString on something that is no string are
    assertions of rapidjson, compiled out in a release build: UB. *)
Definition nparse_base64 (m : mem) (dest : node) (v : jval) : outcome (mem * node) :=
  match v with
  | JObj l =>
      do code <- match member l (L "data") with
                 | None => Err
                 | Some (JObj d) =>
                     match member d (L "base64") with
                     | None => Err
                     | Some (JStr s) => Ok (up_to_nul s)
                     | Some _ => UB
                     end
                 | Some _ => UB
                 end;
      do s <- match member l (L "schema") with
              | None => Err
              | Some w => walk_schema_f (S (jdepth w)) s_empty w 0
              end;
      let sz := b64_dec_size (Z.of_nat (length code)) in
      do bytes <- b64_decode code (repeat "000"%char (Z.to_nat sz));
      nset_data m dest (abs s) bytes
  | _ => Err
  end.
(** Generator::walk(Node), conduit_generator.cpp 3356-3447, protocol conduit_base64_json.
    After an error the node is reset and the error thrown on; an outcome [Err] does not
    carry the node. *)
Definition nfrom_base64_json (parse : str -> outcome jval) (m : mem) (dest : node) (text : str)
  : outcome (mem * node) :=
  do (m1, d1) <- nreset m dest;
  do v <- parse (json_sanitize text);
  nparse_base64 m1 d1 v.
