(** Programs over Node variables: sequences of calls on nodes reached by paths.

    The calls themselves are those of Node.v; this file adds how a call reaches its
    node: Node::fetch (conduit_node.cpp 14416-14480), child(idx) 14494-14504, append
    14626-14643, fetch_existing 14363-14413 for the argument, remove(idx) 14647-14659 and
    remove_child 14683-14693.  Names are plain (not empty, no slash, not two dots), so a
    path is a list of steps; how a path string is cut up is in Path.v.  A variable is
    a Node that is nobody's child.  The two nodes of a call belong to different variables. *)
From Verif Require Import Base DType SpecTree Mem Node.
Local Open Scope Z_scope.

Inductive sel := Name (k : str) | Index (i : nat) | Append.

(** fetch / child / append, then the call [f] on the node found.  fetch and append first
    make the node an object or a list (init, which releases what it held); a new child is an
    empty node at the end. *)
Fixpoint at_path (f : mem -> node -> outcome (mem * node)) (m : mem) (n : node) (p : list sel)
  : outcome (mem * node) :=
  match p with
  | [] => f m n
  | Name k :: r =>
      do (m1, n1) <- ninit m n dt_object;
      match n1 with
      | NObj h es => do (m2, c) <- at_path f m1 (child_or_new es k) r; Ok (m2, NObj h (mset es k c))
      | _ => UB
      end
  | Append :: r =>
      do (m1, n1) <- ninit m n dt_list;
      match n1 with
      | NLst h ks => do (m2, c) <- at_path f m1 nempty r; Ok (m2, NLst h (ks ++ [c]))
      | _ => UB
      end
  | Index i :: r =>
      match n with
      | NObj h es =>
          match nth_error es i with
          | Some (k, c) => do (m2, c') <- at_path f m c r; Ok (m2, NObj h (set_nth es i (k, c')))
          | None => Err
          end
      | NLst h ks =>
          match nth_error ks i with
          | Some c => do (m2, c') <- at_path f m c r; Ok (m2, NLst h (set_nth ks i c'))
          | None => Err
          end
      | NLeaf _ _ => Err
      end
  end.
(** fetch_existing and child(idx) on a const node *)
Fixpoint nsub (n : node) (p : list sel) : outcome node :=
  match p with
  | [] => Ok n
  | Name k :: r =>
      match n with
      | NObj _ es => match mget es k with Some c => nsub c r | None => Err end
      | _ => Err
      end
  | Index i :: r =>
      match (match n with NObj _ es => nth_error (map snd es) i | NLst _ ks => nth_error ks i | NLeaf _ _ => None end) with
      | Some c => nsub c r
      | None => Err
      end
  | Append :: _ => Err
  end.

(** set(schema, ptr), conduit_node.cpp 557-568, with the caller's buffer given by its
    bytes; reading past its end is UB. *)
Definition nset_data (m : mem) (dest : node) (t : tree dtype) (bytes : list byte) : outcome (mem * node) :=
  do m1 <- nfree m dest;
  do (m2, h) <- nalloc m1 (tspanned t);
  if Z.of_nat (length bytes) <? tspanned t then UB
  else
    do m3 <- ostore m2 (h_data h) (firstn (Z.to_nat (tspanned t)) bytes);
    Ok (m3, walk t (h_data h) (h_own h)).
(** remove_child(name) and remove(idx) *)
Fixpoint position (k : str) (names : list str) : option nat :=
  match names with
  | [] => None
  | x :: r => if str_eqb x k then Some O else option_map S (position k r)
  end.
Definition nremove_at (m : mem) (n : node) (i : nat) : outcome (mem * node) :=
  match n with
  | NObj h es =>
      match nth_error es i with
      | Some (_, c) => do m1 <- nfree m c; Ok (m1, NObj h (erase_nth es i))
      | None => UB
      end
  | NLst h ks =>
      match nth_error ks i with
      | Some c => do m1 <- nfree m c; Ok (m1, NLst h (erase_nth ks i))
      | None => UB
      end
  | NLeaf _ _ => UB
  end.
Definition nremove_child (m : mem) (n : node) (k : str) : outcome (mem * node) :=
  match n with
  | NObj _ es => match position k (map fst es) with Some i => nremove_at m n i | None => Err end
  | _ => Err
  end.

(** One call.  [j] and [q] give the argument: the node at [q] in variable [j]. *)
Inductive act :=
| ASet (j : nat) (q : list sel)             (* set(node) *)
| ACompact (j : nat) (q : list sel)         (* argument.compact_to(this) *)
| AUpdate (j : nat) (q : list sel)          (* update(node) *)
| AUpdateCompatible (j : nat) (q : list sel)
| AData (t : tree dtype) (bytes : list byte) (* set(schema, ptr) *)
| ASchema (t : tree dtype)                  (* set(schema) *)
| AReset
| AEndian (e : endian)                      (* endian_swap *)
| ARemoveChild (k : str)
| ARemove (i : nat).
(** A call at a path; two variables exchanged (Node::swap of nodes without parents,
    conduit_node.cpp 8715-8778); one moved into the other (Node::move, 8706-8711: reset, then
    swap).  Inside one node: [exchange_at] below. *)
Inductive cmd := Do (i : nat) (p : list sel) (a : act) | Exchange (i j : nat) | Move (i j : nat).

Definition act_fun (mach : endian) (a : act) (src : node) : mem -> node -> outcome (mem * node) :=
  match a with
  | ASet _ _ => fun m n => nset m n src
  | ACompact _ _ => fun m n => ncompact_to m src n
  | AUpdate _ _ => fun m n => nupdate m n src
  | AUpdateCompatible _ _ => fun m n => do m' <- nupdate_compatible m n src; Ok (m', n)
  | AData t bytes => fun m n => nset_data m n t bytes
  | ASchema t => fun m n => nset_schema m n t
  | AReset => nreset
  | AEndian e => fun m n => nendian_swap mach m n e
  | ARemoveChild k => fun m n => nremove_child m n k
  | ARemove i => fun m n => nremove_at m n i
  end.
Definition arg_of (a : act) : option (nat * list sel) :=
  match a with
  | ASet j q | ACompact j q | AUpdate j q | AUpdateCompatible j q => Some (j, q)
  | _ => None
  end.

Record state := mkSt { s_mem : mem; s_vars : list node }.
Definition exec1 (mach : endian) (s : state) (c : cmd) : outcome state :=
  match c with
  | Do i p a =>
      do n <- deref (nth_error (s_vars s) i);
      do src <- match arg_of a with
                | Some (j, q) => do x <- deref (nth_error (s_vars s) j); nsub x q
                | None => Ok nempty
                end;
      do (m', n') <- at_path (act_fun mach a src) (s_mem s) n p;
      Ok (mkSt m' (set_nth (s_vars s) i n'))
  | Exchange i j =>
      do a <- deref (nth_error (s_vars s) i);
      do b <- deref (nth_error (s_vars s) j);
      Ok (mkSt (s_mem s) (set_nth (set_nth (s_vars s) i b) j a))
  | Move i j =>
      do a <- deref (nth_error (s_vars s) i);
      do (m', a') <- nreset (s_mem s) a;
      let vars := set_nth (s_vars s) i a' in
      do b <- deref (nth_error vars j);
      Ok (mkSt m' (set_nth (set_nth vars i b) j a'))
  end.
Fixpoint exec (mach : endian) (s : state) (l : list cmd) : outcome state :=
  match l with
  | [] => Ok s
  | c :: r => do s' <- exec1 mach s c; exec mach s' r
  end.
(** [k] variables declared, nothing allocated *)
Definition start (k : nat) : state := mkSt [] (repeat nempty k).
(** all variables go out of scope: ~Node of each, conduit_node.cpp 116-119 *)
Fixpoint destroy (m : mem) (ns : list node) : outcome mem :=
  match ns with
  | [] => Ok m
  | n :: r => do m' <- nfree m n; destroy m' r
  end.
(** Node::swap (8715-8778) of a node inside a variable with another variable: header,
    description and children change places, the buffers stay with their owners. *)
Fixpoint nput (n : node) (p : list sel) (x : node) : outcome node :=
  match p with
  | [] => Ok x
  | Name k :: r =>
      match n with
      | NObj h es => match mget es k with Some c => do c' <- nput c r x; Ok (NObj h (mset es k c')) | None => Err end
      | _ => Err
      end
  | Index i :: r =>
      match n with
      | NObj h es => match nth_error es i with Some (k, c) => do c' <- nput c r x; Ok (NObj h (set_nth es i (k, c'))) | None => Err end
      | NLst h ks => match nth_error ks i with Some c => do c' <- nput c r x; Ok (NLst h (set_nth ks i c')) | None => Err end
      | NLeaf _ _ => Err
      end
  | Append :: _ => Err
  end.
Definition exchange_at (s : state) (i : nat) (p : list sel) (j : nat) : outcome state :=
  do a <- deref (nth_error (s_vars s) i);
  do b <- deref (nth_error (s_vars s) j);
  do c <- nsub a p;
  do a' <- nput a p b;
  Ok (mkSt (s_mem s) (set_nth (set_nth (s_vars s) i a') j c)).
