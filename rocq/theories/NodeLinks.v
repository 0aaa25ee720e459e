(** Node and Schema objects with their pointers.

    Node.v shows a node as a value with its subtree.  Here the objects are explicit:
    a Node holds pointers to its schema, its parent and its children, and a Schema holds
    pointers to its parent and its children (src/libs/conduit/conduit_node.hpp 4740-4760,
    conduit_schema.hpp 470-480).  A freed object is no longer in the heap; following a
    pointer to one is [UB].  Identifiers of objects are numbers and are never reused.  The data
    buffer is only a header here (its bytes are in Mem.v); memory-mapped data and allocators
    are left out. *)
From Verif Require Import Base DType Mem Node.

Record nobj := mkN { n_schema : nat; n_owns : bool; n_parent : option nat; n_kids : list nat; n_hdr : hdr }.
Record sobj := mkS { s_parent : option nat; s_dt : dtype; s_names : list str; s_kids : list nat }.
Record heap := mkHeap { nodes : nat -> option nobj; schemas : nat -> option sobj; next : nat }.
Definition upd {A} (f : nat -> option A) (k : nat) (v : option A) : nat -> option A :=
  fun x => if Nat.eqb x k then v else f x.
Definition put_node (H : heap) (x : nat) (v : option nobj) : heap := mkHeap (upd (nodes H) x v) (schemas H) (next H).
Definition put_schema (H : heap) (s : nat) (v : option sobj) : heap := mkHeap (nodes H) (upd (schemas H) s v) (next H).
Definition nget (H : heap) (x : nat) : outcome nobj := match nodes H x with Some n => Ok n | None => UB end.
Definition sget (H : heap) (s : nat) : outcome sobj := match schemas H s with Some o => Ok o | None => UB end.
Definition empty_heap : heap := mkHeap (fun _ => None) (fun _ => None) 0.

Definition with_kids (n : nobj) (ks : list nat) : nobj := mkN (n_schema n) (n_owns n) (n_parent n) ks (n_hdr n).
Definition with_hdr (n : nobj) (h : hdr) : nobj := mkN (n_schema n) (n_owns n) (n_parent n) (n_kids n) h.
Definition s_with_kids (s : sobj) (ks : list nat) : sobj := mkS (s_parent s) (s_dt s) (s_names s) ks.
Definition s_with_parent (s : sobj) (p : option nat) : sobj := mkS p (s_dt s) (s_names s) (s_kids s).

(** Schema::child_index(Schema ptr), conduit_schema.cpp 1643-1655 *)
Fixpoint index_of (s : nat) (l : list nat) : option nat :=
  match l with
  | [] => None
  | x :: r => if Nat.eqb x s then Some 0 else option_map S (index_of s r)
  end.
Fixpoint name_index (k : str) (l : list str) : option nat :=
  match l with
  | [] => None
  | x :: r => if str_eqb x k then Some 0 else option_map S (name_index k r)
  end.
Definition is_tree_type (t : tid) : bool := match t with OBJECT | LIST => true | _ => false end.

(** first half of Node::swap, conduit_node.cpp 8721-8754: the schema of a node that has a
    parent is replaced in the parent schema's list *)
Definition replace_in_parent (H : heap) (n : nobj) (s s' : nat) : outcome heap :=
  match n_parent n with
  | None => Ok H
  | Some _ =>
      do so <- sget H s;
      match s_parent so with
      | None => UB
      | Some q =>
          do qo <- sget H q;
          match index_of s (s_kids qo) with
          | None => Err
          | Some i => Ok (put_schema H q (Some (s_with_kids qo (set_nth (s_kids qo) i s'))))
          end
      end
  end.
(** Node::swap, 8715-8778: the schema parents, then schema, data and children of the two
    nodes; m_parent (of either node and of the children) and m_owns_schema are not touched *)
Definition hswap (H : heap) (a b : nat) : outcome heap :=
  do na <- nget H a; do nb <- nget H b;
  let sa := n_schema na in let sb := n_schema nb in
  do H1 <- replace_in_parent H na sa sb;
  do H2 <- replace_in_parent H1 nb sb sa;
  do oa <- sget H2 sa; do ob <- sget H2 sb;
  let H3 := put_schema H2 sa (Some (s_with_parent oa (s_parent ob))) in
  do ob' <- sget H3 sb;
  let H4 := put_schema H3 sb (Some (s_with_parent ob' (s_parent oa))) in
  let H5 := put_node H4 a (Some (mkN sb (n_owns na) (n_parent na) (n_kids nb) (n_hdr nb))) in
  Ok (put_node H5 b (Some (mkN sa (n_owns nb) (n_parent nb) (n_kids na) (n_hdr na)))).

Fixpoint fold_o {A} (f : heap -> A -> outcome heap) (l : list A) (H : heap) : outcome heap :=
  match l with [] => Ok H | x :: r => do H' <- f H x; fold_o f r H' end.
(** Schema::~Schema and Schema::release, conduit_schema.cpp 92-93 and 1436-1459 *)
Fixpoint delete_schema (fuel : nat) (H : heap) (s : nat) : outcome heap :=
  match fuel with
  | O => Fuel
  | S f =>
      do so <- sget H s;
      do H1 <- (if is_tree_type (dt_id (s_dt so)) then fold_o (delete_schema f) (s_kids so) H else Ok H);
      Ok (put_schema H1 s None)
  end.
(** Schema::set(dtype), 161-170, with release *)
Definition set_schema (fuel : nat) (H : heap) (s : nat) (d : dtype) : outcome heap :=
  do so <- sget H s;
  do H1 <- (if is_tree_type (dt_id (s_dt so)) then fold_o (delete_schema fuel) (s_kids so) H else Ok H);
  Ok (put_schema H1 s (Some (mkS (s_parent so) d [] []))).
(** the data part of Node::release, conduit_node.cpp 17317-17339 *)
Definition released (d : dtype) (h : hdr) : hdr :=
  match h_own h, h_data h with true, Some _ => if is_empty d then h else null_hdr | _, _ => h end.
(** Node::~Node, cleanup and release, 17307-17356 *)
Fixpoint delete_node (fuel : nat) (H : heap) (x : nat) : outcome heap :=
  match fuel with
  | O => Fuel
  | S f =>
      do n <- nget H x;
      do H1 <- fold_o (delete_node f) (n_kids n) H;
      do H2 <- (if n_owns n then delete_schema f H1 (n_schema n) else Ok H1);
      Ok (put_node H2 x None)
  end.
Definition release_node (fuel : nat) (H : heap) (x : nat) : outcome heap :=
  do n <- nget H x;
  do H1 <- fold_o (delete_node fuel) (n_kids n) H;
  do so <- sget H1 (n_schema n);
  Ok (put_node H1 x (Some (mkN (n_schema n) (n_owns n) (n_parent n) [] (released (s_dt so) (n_hdr n))))).
(** Node::reset, 123-127 *)
Definition hreset (H : heap) (x : nat) : outcome heap :=
  do n <- nget H x;
  do H1 <- release_node (next H) H x;
  set_schema (next H) H1 (n_schema n) dt_empty.
(** Node::move, 8706-8711 *)
Definition hmove (H : heap) (a b : nat) : outcome heap :=
  do H1 <- hreset H a; hswap H1 a b.
(** new Node() *)
Definition hnew (H : heap) : heap * nat :=
  let x := next H in
  (mkHeap (upd (nodes H) x (Some (mkN x true None [] null_hdr)))
          (upd (schemas H) x (Some (mkS None dt_empty [] []))) (S x), x).
(** Node::init(object) and init(list), 17249-17270 *)
Definition hinit (H : heap) (x : nat) (d : dtype) : outcome heap :=
  do n <- nget H x; do so <- sget H (n_schema n);
  if tid_eqb (dt_id (s_dt so)) (dt_id d) then Ok H
  else
    do H1 <- (if is_tree_type (dt_id (s_dt so)) || (match h_data (n_hdr n) with Some _ => true | None => false end)
              then release_node (next H) H x else Ok H);
    set_schema (next H) H1 (n_schema n) d.
(** a new child: the schema is appended first, then the node is linked to it; add_child
    14271-14278, fetch 14457-14468, append 14630-14641 *)
Definition new_child (H : heap) (x : nat) (name : list str) : outcome (heap * nat) :=
  do n <- nget H x; do so <- sget H (n_schema n);
  let c := next H in
  let sx := n_schema n in
  Ok (mkHeap (upd (upd (nodes H) x (Some (with_kids n (n_kids n ++ [c])))) c (Some (mkN c false (Some x) [] null_hdr)))
             (upd (upd (schemas H) sx (Some (mkS (s_parent so) (s_dt so) (s_names so ++ name) (s_kids so ++ [c])))) c
                  (Some (mkS (Some sx) dt_empty [] []))) (S c), c).
(** the child of that name, if the node is an object that has one; child(name) uses the
    schema's index on the node's children *)
Definition find_child (H : heap) (x : nat) (k : str) : outcome (option nat) :=
  do n <- nget H x; do so <- sget H (n_schema n);
  if tid_eqb (dt_id (s_dt so)) OBJECT then
    match name_index k (s_names so) with
    | None => Ok None
    | Some i => match nth_error (n_kids n) i with Some c => Ok (Some c) | None => UB end
    end
  else Ok None.
(** Node::fetch of one plain name (not empty, not "..", no slash), 14417-14483 *)
Definition hfetch (H : heap) (x : nat) (k : str) : outcome (heap * nat) :=
  do H1 <- hinit H x dt_object;
  do r <- find_child H1 x k;
  match r with Some c => Ok (H1, c) | None => new_child H1 x [k] end.
(** Node::add_child, 14264-14279: the schema is made an object, the node is not released *)
Definition hadd_child (H : heap) (x : nat) (k : str) : outcome (heap * nat) :=
  do r <- find_child H x k;
  match r with
  | Some c => Ok (H, c)
  | None =>
      do n <- nget H x; do so <- sget H (n_schema n);
      do H1 <- (if tid_eqb (dt_id (s_dt so)) OBJECT then Ok H else set_schema (next H) H (n_schema n) dt_object);
      new_child H1 x [k]
  end.
(** Node::append, 14627-14643 *)
Definition happend (H : heap) (x : nat) : outcome (heap * nat) :=
  do H1 <- hinit H x dt_list; new_child H1 x [].
(** Node::remove(idx), 14647-14659; Schema::remove(idx), conduit_schema.cpp 797-831 *)
Definition hremove (H : heap) (x : nat) (i : nat) : outcome heap :=
  do n <- nget H x;
  match nth_error (n_kids n) i with
  | None => UB
  | Some c =>
      do H1 <- delete_node (next H) H c;
      do so <- sget H1 (n_schema n);
      if is_tree_type (dt_id (s_dt so)) then
        match nth_error (s_kids so) i with
        | None => Err
        | Some sc =>
            do H2 <- delete_schema (next H) H1 sc;
            let names' := if tid_eqb (dt_id (s_dt so)) OBJECT then erase_nth (s_names so) i else s_names so in
            let H3 := put_schema H2 (n_schema n) (Some (mkS (s_parent so) (s_dt so) names' (erase_nth (s_kids so) i))) in
            Ok (put_node H3 x (Some (with_kids n (erase_nth (n_kids n) i))))
        end
      else Err
  end.
(** delete of a node made by new: Node::~Node, 116-119, with cleanup *)
Definition hdelete (H : heap) (x : nat) : outcome heap := delete_node (S (next H)) H x.

(** one call by the user; the nodes are the references the user holds *)
Inductive op :=
| New | Delete (x : nat) | Fetch (x : nat) (k : str) | AddChild (x : nat) (k : str) | Append (x : nat) | Remove (x i : nat) | Reset (x : nat) | Swap (a b : nat) | Move (a b : nat).
Definition step (H : heap) (o : op) : outcome heap :=
  match o with
  | New => Ok (fst (hnew H))
  | Delete x => hdelete H x
  | Fetch x k => do r <- hfetch H x k; Ok (fst r)
  | AddChild x k => do r <- hadd_child H x k; Ok (fst r)
  | Append x => do r <- happend H x; Ok (fst r)
  | Remove x i => hremove H x i
  | Reset x => hreset H x
  | Swap a b => hswap H a b
  | Move a b => hmove H a b
  end.
Fixpoint steps (H : heap) (l : list op) : outcome heap :=
  match l with [] => Ok H | o :: r => do H' <- step H o; steps H' r end.
