(** relay::io::IOHandle and its handle for the built-in protocols, BasicHandle:
    relay/conduit_relay_io_handle.cpp, conduit_relay_io_handle_api.hpp.
    The HDF5 and Sidre handles are not modelled. *)
From Coq Require Import ZArith.
From Verif Require Import Base Path.

(** the four flags of a mode, api.hpp 166-169 *)
Record flags := mkF { f_read : bool; f_write : bool; f_append : bool; f_trunc : bool }.
(** std::string::find of one character *)
Definition has_char (c : ascii) (s : str) : bool := existsb (Ascii.eqb c) s.
(** HandleInterface::open, 176-250, for a path without subpath: the flags, and whether there
    is an error; the flags that were set before the error stay *)
Definition parse_mode (mode : option str) : flags * bool :=
  match mode with
  | None => (mkF true true true false, true)
  | Some m =>
      let r := has_char "r" m in let w := has_char "w" m in let a := has_char "a" m in let t := has_char "t" m in
      if negb r && negb w then (mkF r w false false, false)
      else if a && t then (mkF r w false false, false)
      else (mkF r w (a || negb t) t, true)
  end.
Definition read_only (f : flags) : bool := f_read f && negb (f_write f).
Definition write_only (f : flags) : bool := f_write f && negb (f_read f).
(** the protocols of BasicHandle, 306-311 *)
Definition basic (p : str) : bool :=
  existsb (str_eqb p) [L "conduit_bin"; L "json"; L "conduit_json"; L "conduit_base64_json"; L "yaml"].

Section IOHandle.
(** trees (T) and the content of a file (B) *)
Context {T B : Type}.
Variable empty : T.
(** Node::update; m_node[path].update(v); Node::remove(path); the child at a path, if there
    is one; child names.  The two that can fail also say what the tree is afterwards *)
Variable upd : T -> T -> T.
Variable put : str -> T -> T -> T * outcome unit.
Variable rem : str -> T -> T * outcome unit.
Variable sub : str -> T -> option T.
Variable names : T -> list str.
(** io::save and io::load with a protocol, and whether a file can be made at a path *)
Variable save : str -> T -> B.
Variable load : str -> B -> outcome T.
Variable can_write : str -> bool.
(** identify_protocol, for an empty protocol *)
Variable identify : str -> str.

Definition disk := list (str * B).
(** m_handle points to one of these; None: the mode flags were not set yet (the constructor,
    141-150, does not) *)
Record handle := mkH { h_path : str; h_proto : str; h_flags : option flags; h_open : bool; h_node : T }.
(** the disk and the IOHandle objects of a program; an object that is not listed is NULL *)
Record state := mkS { s_disk : disk; s_handles : list (str * handle) }.

(** what a call gives back: nothing, whether, names, or a tree (None: the caller's node stays) *)
Inductive res := RNone | RBool (b : bool) | RNames (l : list str) | RTree (t : option T).
Inductive cmd :=
| Open (h path proto : str) (mode : option str)
| IsOpen (h : str)
| Read (h path : str)          (* read(node) is Read with an empty path, 932-943 *)
| WriteAll (h : str) (v : T)
| Write (h path : str) (v : T)
| Remove (h path : str)
| HasPath (h path : str)
| ListNames (h : str) (path : option str)
| Close (h : str).             (* also the destructor *)

(** BasicHandle::close, 577-590, then delete; a save that fails at this point is an error of
    io::save, not modelled: open already wrote the file or found it *)
Definition close_file (d : disk) (x : handle) : disk :=
  match h_flags x with
  | Some f => if h_open x && negb (read_only f) then mset d (h_path x) (save (h_proto x) (h_node x)) else d
  | None => d
  end.
Definition close_h (s : state) (h : str) : state :=
  match mget (s_handles s) h with
  | None => s
  | Some x => mkS (close_file (s_disk s) x) (mdel (s_handles s) h)
  end.
(** HandleInterface::create 272-330 and BasicHandle::open 389-431 *)
Definition open_h (s0 : state) (h path proto0 : str) (mode : option str) : state * outcome res :=
  let s := close_h s0 h in
  let d := s_disk s in
  let proto := match proto0 with [] => identify path | _ => proto0 end in
  if negb (basic proto) then (s, Err)
  else
    let dead fl := mkS d (mset (s_handles s) h (mkH path proto fl false empty)) in
    if match snd (split_file_path path [":"%char]) with [] => false | _ => true end then (dead None, Err)
    else
      let '(f, ok) := parse_mode mode in
      if negb ok then (dead (Some f), Err)
      else
        let live d' t := (mkS d' (mset (s_handles s) h (mkH path proto (Some f) true t)), Ok RNone) in
        match mget d path with
        | Some b =>
            if f_read f && negb (f_trunc f)
            then match load proto b with Ok t => live d t | Err => (dead (Some f), Err) | UB => (dead (Some f), UB) | Fuel => (dead (Some f), Fuel) end
            else live d empty
        | None =>
            if read_only f then (dead (Some f), Err)
            else if can_write path then live (mset d path (save proto empty)) empty
            else (dead (Some f), Err)
        end.

(** the calls that need a handle: NULL is an error, then the mode is looked at *)
Definition with_h (s : state) (h : str) (bad : flags -> bool) (k : handle -> T * outcome res) : state * outcome res :=
  match mget (s_handles s) h with
  | None => (s, Err)
  | Some x =>
      match h_flags x with
      | None => (s, UB)
      | Some f =>
          if bad f then (s, Err)
          else let '(t, r) := k x in (mkS (s_disk s) (mset (s_handles s) h (mkH (h_path x) (h_proto x) (h_flags x) (h_open x) t)), r)
      end
  end.
Definition unit_res (p : T * outcome unit) : T * outcome res :=
  (fst p, match snd p with Ok _ => Ok RNone | Err => Err | UB => UB | Fuel => Fuel end).
Definition step (s : state) (c : cmd) : state * outcome res :=
  match c with
  | Open h path proto mode => open_h s h path proto mode
  | IsOpen h => (s, Ok (RBool (match mget (s_handles s) h with Some x => h_open x | None => false end)))
  | Read h path => with_h s h write_only (fun x => (h_node x, Ok (RTree (match path with [] => Some (h_node x) | _ => sub path (h_node x) end))))
  | WriteAll h v => with_h s h read_only (fun x => (upd (h_node x) v, Ok RNone))
  | Write h path v => with_h s h read_only (fun x => unit_res (put path v (h_node x)))
  | Remove h path => with_h s h read_only (fun x => unit_res (rem path (h_node x)))
  | HasPath h path => with_h s h write_only (fun x => (h_node x, Ok (RBool (match sub path (h_node x) with Some _ => true | None => false end))))
  | ListNames h path => with_h s h write_only (fun x => (h_node x, Ok (RNames (match path with
        | None => names (h_node x)
        | Some p => match sub p (h_node x) with Some t => names t | None => [] end
        end))))
  | Close h => (close_h s h, Ok RNone)
  end.
(** the calls of a program, one after the other; an error is caught by the caller *)
Fixpoint run (s : state) (cs : list cmd) : state * list (outcome res) :=
  match cs with
  | [] => (s, [])
  | c :: r => let '(s1, o) := step s c in let '(s2, os) := run s1 r in (s2, o :: os)
  end.
End IOHandle.
