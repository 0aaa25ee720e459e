(** What a program that opens, reads, writes and closes handles should see: every write takes
    effect in the file at once, and what was there when the file was last closed (or opened
    anew) is what is left after a crash. *)
From Coq Require Import ZArith.
From Verif Require Import Base IOHandle.

Section Spec.
Context {T : Type}.
Variable empty : T.
Variable upd : T -> T -> T.
Variable put : str -> T -> T -> T * outcome unit.
Variable rem : str -> T -> T * outcome unit.
Variable sub : str -> T -> option T.
Variable names : T -> list str.
(** what a protocol keeps of a tree *)
Variable kept : str -> T -> T.

(** a file: its protocol, what is in it now, what a crash leaves *)
Record sfile := mkSF { f_proto : str; f_now : T; f_safe : T }.
(** an object: never opened or closed; open (file, may read, may write); or opened without success *)
Inductive shandle := Off | On (path : str) (r w : bool) | Failed.
Record sstate := mkSS { files : str -> option sfile; objs : str -> shandle }.
Definition set {A} (f : str -> A) (k : str) (v : A) : str -> A := fun x => if str_eqb x k then v else f x.

(** closing: what a writer has written is safe, as far as the protocol keeps it *)
Definition sclose (s : sstate) (h : str) : sstate :=
  match objs s h with
  | On p r true =>
      match files s p with
      | Some e => mkSS (set (files s) p (Some (mkSF (f_proto e) (kept (f_proto e) (f_now e)) (kept (f_proto e) (f_now e))))) (set (objs s) h Off)
      | None => mkSS (files s) (set (objs s) h Off)
      end
  | _ => mkSS (files s) (set (objs s) h Off)
  end.
(** the modes: r, w or both, then a or t or nothing *)
Definition valid (m : str) : option (bool * bool * bool) (* read, write, truncate *) :=
  let r := existsb (Ascii.eqb "r") m in let w := existsb (Ascii.eqb "w") m in
  let a := existsb (Ascii.eqb "a") m in let t := existsb (Ascii.eqb "t") m in
  if (r || w) && negb (a && t) then Some (r, w, t) else None.
Definition smode (m : option str) : option (bool * bool * bool) :=
  match m with None => Some (true, true, false) | Some m => valid m end.
Definition sopen (s0 : sstate) (h p proto : str) (m : option str) : sstate * outcome (@res T) :=
  let s := sclose s0 h in
  let failed := (mkSS (files s) (set (objs s) h Failed), Err) in
  match smode m with
  | None => failed
  | Some (r, w, t) =>
      match files s p with
      | None =>
          if w then (mkSS (set (files s) p (Some (mkSF proto empty (kept proto empty)))) (set (objs s) h (On p r w)), Ok RNone) else failed
      | Some e =>
          (mkSS (if t then set (files s) p (Some (mkSF (f_proto e) empty (f_safe e))) else files s) (set (objs s) h (On p r w)), Ok RNone)
      end
  end.
Definition sread (s : sstate) (h : str) (k : T -> @res T) : outcome (@res T) :=
  match objs s h with
  | On p true _ => match files s p with Some e => Ok (k (f_now e)) | None => Err end
  | _ => Err
  end.
Definition swrite (s : sstate) (h : str) (k : T -> T * outcome unit) : sstate * outcome (@res T) :=
  match objs s h with
  | On p _ true =>
      match files s p with
      | Some e =>
          let '(t, o) := k (f_now e) in
          (mkSS (set (files s) p (Some (mkSF (f_proto e) t (f_safe e)))) (objs s), match o with Ok _ => Ok RNone | Err => Err | UB => UB | Fuel => Fuel end)
      | None => (s, Err)
      end
  | _ => (s, Err)
  end.
Definition sstep (s : sstate) (c : @cmd T) : sstate * outcome (@res T) :=
  match c with
  | Open h p proto m => sopen s h p proto m
  | IsOpen h => (s, Ok (RBool (match objs s h with On _ _ _ => true | _ => false end)))
  | Read h path => (s, sread s h (fun t => RTree (match path with [] => Some t | _ => sub path t end)))
  | WriteAll h v => swrite s h (fun t => (upd t v, Ok tt))
  | Write h path v => swrite s h (put path v)
  | Remove h path => swrite s h (rem path)
  | HasPath h path => (s, sread s h (fun t => RBool (match sub path t with Some _ => true | None => false end)))
  | ListNames h None => (s, sread s h (fun t => RNames (names t)))
  | ListNames h (Some path) => (s, sread s h (fun t => RNames (match sub path t with Some x => names x | None => [] end)))
  | Close h => (sclose s h, Ok RNone)
  end.
Fixpoint srun (s : sstate) (cs : list (@cmd T)) : sstate * list (outcome (@res T)) :=
  match cs with
  | [] => (s, [])
  | c :: r => let '(s1, o) := sstep s c in let '(s2, os) := srun s1 r in (s2, o :: os)
  end.

(** A program that keeps the rules: a built-in protocol is named and a file is always opened
    with the protocol it was made with; a path is a file name that can be written; a file that
    is open for writing is not open elsewhere; a mode without r has t, or the file is new, a
    mode with t has w; an object whose open failed is not used; and what is written out, when a
    file is made or closed, is something the protocol can write and read again. *)
Definition can_close (good : str -> T -> Prop) (s : sstate) (h : str) : Prop :=
  match objs s h with On p _ true => forall e, files s p = Some e -> good (f_proto e) (f_now e) | _ => True end.
Definition fair (can_write : str -> bool) (good : str -> T -> Prop) (s0 : sstate) (c : @cmd T) : Prop :=
  match c with
  | Open h p proto m =>
      let s := sclose s0 h in
      can_close good s0 h /\ good proto empty /\ basic proto = true /\ ~ In ":"%char p /\ can_write p = true /\
      (forall e, files s p = Some e -> f_proto e = proto) /\
      (forall g r w, objs s g = On p r w -> w = false /\ match smode m with Some (_, w', _) => w' = false | None => True end) /\
      match smode m with
      | Some (r, w, t) => (t = true -> w = true) /\ (r = false -> t = true \/ files s p = None)
      | None => True
      end
  | Read h _ | WriteAll h _ | Write h _ _ | Remove h _ | HasPath h _ | ListNames h _ => objs s0 h <> Failed
  | Close h => can_close good s0 h
  | IsOpen _ => True
  end.
Fixpoint all_fair (can_write : str -> bool) (good : str -> T -> Prop) (s : sstate) (cs : list (@cmd T)) : Prop :=
  match cs with
  | [] => True
  | c :: r => fair can_write good s c /\ all_fair can_write good (fst (sstep s c)) r
  end.
End Spec.
