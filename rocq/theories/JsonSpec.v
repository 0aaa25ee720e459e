(** Specification: JSON texts, and the loose JSON conduit accepts (// comments,
    bare words), written as a grammar.  Of the model only the type [jval] of
    JSON values is used. *)
From Verif Require Import Base Json.
Local Open Scope list_scope.

Definition quote : ascii := """"%char.
Definition backslash : ascii := "\"%char.
Definition newline : ascii := "010"%char.

Definition white (c : ascii) : Prop := In c [" "; "010"; "009"; "013"]%char.
Definition digit (c : ascii) : Prop := In c (L "0123456789").
Definition letter (c : ascii) : Prop :=
  In c (L "abcdefghijklmnopqrstuvwxyzABCDEFGHIJKLMNOPQRSTUVWXYZ_").

(** The inside of a string literal and the string it denotes.  Two-character
    escapes only (no \u). *)
Definition escaped (c : ascii) (x : ascii) : Prop :=
  In (c, x) [(quote, quote); (backslash, backslash); ("/", "/"); ("b", "008");
             ("f", "012"); ("n", "010"); ("r", "013"); ("t", "009")]%char.
Inductive literal : str -> str -> Prop :=
| lit_nil : literal [] []
| lit_chr c r s :
    c <> quote -> c <> backslash -> (32 <= N_of_ascii c)%N -> literal r s ->
    literal (c :: r) (c :: s)
| lit_esc c x r s : escaped c x -> literal r s -> literal (backslash :: c :: r) (x :: s).

(** A string literal, quotes included; [denotes t s]: t is a literal for s whose
    last character before the closing quote is not a backslash. *)
Definition denotes (t s : str) : Prop :=
  exists r, t = quote :: r ++ [quote] /\ literal r s /\ last r " "%char <> backslash.

Definition digits (t : str) : Prop := t <> [] /\ Forall digit t.
(** JSON numbers: -?(0|[1-9][0-9]* )(.[0-9]+)?([eE][+-]?[0-9]+)? *)
Definition number (t : str) : Prop :=
  exists s i f e,
    t = s ++ i ++ f ++ e /\
    (s = [] \/ s = ["-"%char]) /\
    digits i /\ (i = L "0" \/ hd "0"%char i <> "0"%char) /\
    (f = [] \/ exists d, f = "."%char :: d /\ digits d) /\
    (e = [] \/ exists c g d, e = c :: g ++ d /\ In c ["e"; "E"]%char /\
                             In g [[]; ["+"%char]; ["-"%char]] /\ digits d).

(** A bare word: a letter or underscore, then letters, digits, underscores. *)
Definition bare (w : str) : Prop :=
  exists c r, w = c :: r /\ letter c /\ Forall (fun x => letter x \/ digit x) r /\
              ~ In w [L "true"; L "false"; L "null"].

(** Each judgement relates a text to its cleaned form; with [loose] false the
    two are the same and the text is strict JSON.  White space; in loose texts
    also comments, which run to the end of the line.  Comment text holds no
    quote. *)
Inductive blank_text (loose : bool) : str -> str -> Prop :=
| blank_nil : blank_text loose [] []
| blank_chr c t u : white c -> blank_text loose t u -> blank_text loose (c :: t) (c :: u)
| blank_comment b t u :
    loose = true -> ~ In newline b -> ~ In quote b -> blank_text loose t u ->
    blank_text loose (L "//" ++ b ++ newline :: t) u.
(** White space after a value or a name: a comment needs a space before it. *)
Definition blank_after (loose : bool) (t u : str) : Prop :=
  (t = [] /\ u = []) \/
  (exists c t' u', t = c :: t' /\ u = c :: u' /\ white c /\ blank_text loose t' u').

(** Names and strings. *)
Inductive name_text (loose : bool) (k : str) : str -> str -> Prop :=
| nm_literal t : denotes t k -> name_text loose k t t
| nm_bare : loose = true -> bare k -> name_text loose k k (quote :: k ++ [quote]).

Inductive value_text (loose : bool) : jval -> str -> str -> Prop :=
| vt_null : value_text loose JNull (L "null") (L "null")
| vt_true : value_text loose (JBool true) (L "true") (L "true")
| vt_false : value_text loose (JBool false) (L "false") (L "false")
| vt_num t : number t -> value_text loose (JNum t) t t
| vt_str s t u : name_text loose s t u -> value_text loose (JStr s) t u
| vt_arr0 w w' : blank_text loose w w' ->
    value_text loose (JArr []) ("["%char :: w ++ ["]"%char]) ("["%char :: w' ++ ["]"%char])
| vt_arr l t u : items_text loose l t u ->
    value_text loose (JArr l) ("["%char :: t ++ ["]"%char]) ("["%char :: u ++ ["]"%char])
| vt_obj0 w w' : blank_text loose w w' ->
    value_text loose (JObj []) ("{"%char :: w ++ ["}"%char]) ("{"%char :: w' ++ ["}"%char])
| vt_obj l t u : members_text loose l t u ->
    value_text loose (JObj l) ("{"%char :: t ++ ["}"%char]) ("{"%char :: u ++ ["}"%char])
with items_text (loose : bool) : list jval -> str -> str -> Prop :=
| it_last v a a' t u b b' :
    blank_text loose a a' -> value_text loose v t u -> blank_after loose b b' ->
    items_text loose [v] (a ++ t ++ b) (a' ++ u ++ b')
| it_cons v l a a' t u b b' r q :
    blank_text loose a a' -> value_text loose v t u -> blank_after loose b b' ->
    items_text loose l r q ->
    items_text loose (v :: l) (a ++ t ++ b ++ ","%char :: r) (a' ++ u ++ b' ++ ","%char :: q)
with members_text (loose : bool) : list (str * jval) -> str -> str -> Prop :=
| me_last k v e e' n n' c c' a a' t u b b' :
    blank_text loose e e' -> name_text loose k n n' -> blank_after loose c c' ->
    blank_text loose a a' -> value_text loose v t u -> blank_after loose b b' ->
    members_text loose [(k, v)] (e ++ n ++ c ++ ":"%char :: a ++ t ++ b)
                 (e' ++ n' ++ c' ++ ":"%char :: a' ++ u ++ b')
| me_cons k v l e e' n n' c c' a a' t u b b' r q :
    blank_text loose e e' -> name_text loose k n n' -> blank_after loose c c' ->
    blank_text loose a a' -> value_text loose v t u -> blank_after loose b b' ->
    members_text loose l r q ->
    members_text loose ((k, v) :: l)
                 (e ++ n ++ c ++ ":"%char :: a ++ t ++ b ++ ","%char :: r)
                 (e' ++ n' ++ c' ++ ":"%char :: a' ++ u ++ b' ++ ","%char :: q).

Scheme value_text_ind2 := Induction for value_text Sort Prop
with items_text_ind2 := Induction for items_text Sort Prop
with members_text_ind2 := Induction for members_text Sort Prop.
Combined Scheme json_text_ind from value_text_ind2, items_text_ind2, members_text_ind2.

(** Whole documents. *)
Definition doc (loose : bool) (v : jval) (t u : str) : Prop :=
  exists a a' x y b b',
    blank_text loose a a' /\ value_text loose v x y /\ blank_after loose b b' /\
    t = a ++ x ++ b /\ u = a' ++ y ++ b'.
(** [t] is a strict JSON text for [v]. *)
Definition strict_json (v : jval) (t : str) : Prop := doc false v t t.
(** [t] is a loose text for [v] and [u] its strict form. *)
Definition loose_json (v : jval) (t u : str) : Prop := doc true v t u.
Definition container (v : jval) : Prop :=
  match v with JArr _ | JObj _ => True | _ => False end.

(** Numbers a reader that stores 64-bit floats can be expected to take: not
    very long, and an exponent of at most 308. *)
Definition decimal (d : str) : Z := fold_left (fun a c => 10 * a + (Z.of_N (N_of_ascii c) - 48))%Z d 0%Z.
Definition modest (t : str) : Prop :=
  (List.length t <= 100)%nat /\
  forall a c g d, t = a ++ c :: g ++ d -> In c ["e"; "E"]%char -> In g [[]; ["+"%char]] -> digits d ->
    (decimal d <= 308)%Z.
Fixpoint numbers (v : jval) : list str :=
  match v with
  | JNum t => [t]
  | JArr l => flat_map numbers l
  | JObj l => flat_map (fun e => numbers (snd e)) l
  | _ => []
  end.
(** A JSON reader: gives back the value of every strict JSON text with such numbers. *)
Definition reads_json (parse : str -> outcome jval) : Prop :=
  forall v t, strict_json v t -> Forall modest (numbers v) -> parse t = Ok v.
