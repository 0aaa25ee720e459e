(** What a user of relay::io relies on: every file holds one document, a tree; a call names a
    file and a place in its document.  Nothing here is about how names are spelled into one
    string, how files are found or what is in them. *)
From Verif Require Import Base SpecTree RelayIO.

Section Spec.
Context {A : Type}.
Variable none : A.
Variable upd : tree A -> tree A -> tree A.
(** the protocol every file is kept in, and what a tree is after it went through a protocol *)
Variable proto : str -> str.
Variable kept : str -> tree A -> tree A.

(** the part of a document at a place: empty where there is nothing *)
Fixpoint part (d : tree A) (place : list str) : tree A :=
  match place with
  | [] => d
  | k :: r => match mget (tentries d) k with Some u => part u r | None => TLeaf none end
  end.
(** a document with another part at a place; all else stays *)
Fixpoint plant (d : tree A) (place : list str) (t : tree A) : tree A :=
  match place with
  | [] => t
  | k :: r => TObj (mset (tentries d) k (plant (part d [k]) r t))
  end.

Definition store := str -> option (tree A).
Definition into (s : store) (f : str) (d : tree A) : store := fun g => if str_eqb g f then Some d else s g.

Inductive ask :=
| AskSave (t : tree A) (file : str) (place : list str)
| AskSaveMerged (t : tree A) (file : str) (place : list str)
| AskLoad (file : str) (place : list str)
| AskLoadMerged (file : str) (place : list str) (dst : tree A).
Definition file_of (a : ask) : str :=
  match a with AskSave _ f _ | AskSaveMerged _ f _ | AskLoad f _ | AskLoadMerged f _ _ => f end.
Definition place_of (a : ask) : list str :=
  match a with AskSave _ _ l | AskSaveMerged _ _ l | AskLoad _ l | AskLoadMerged _ l _ => l end.

(** the document a call writes, if it writes one: a part can be saved only into a document
    that is there, merging makes the document if need be *)
Definition written (s : store) (a : ask) : option (tree A) :=
  match a with
  | AskSave t f [] => Some t
  | AskSave t f l => match s f with Some d => Some (plant d l t) | None => None end
  | AskSaveMerged t f l => let d := match s f with Some d => d | None => TLeaf none end in Some (plant d l (upd t (part d l)))
  | _ => None
  end.
(** what a call answers *)
Definition answer (s : store) (a : ask) : res :=
  match a with
  | AskLoad f l => match s f with Some d => Tree (part d l) | None => Error end
  | AskLoadMerged f l dst => match s f with Some d => Tree (upd (part d l) dst) | None => Error end
  | _ => match written s a with Some _ => Done | None => Error end
  end.
Definition after (s : store) (a : ask) : store :=
  match written s a with Some d => into s (file_of a) (kept (proto (file_of a)) d) | None => s end.
Fixpoint answers (s : store) (l : list ask) : list res :=
  match l with [] => [] | a :: r => answer s a :: answers (after s a) r end.
Fixpoint finally (s : store) (l : list ask) : store :=
  match l with [] => s | a :: r => finally (after s a) r end.
(** every document that is written is one its protocol can hold *)
Fixpoint all_good (good : str -> tree A -> Prop) (s : store) (l : list ask) : Prop :=
  match l with
  | [] => True
  | a :: r => match written s a with Some d => good (proto (file_of a)) d | None => True end /\ all_good good (after s a) r
  end.

(** ---- one string for a file and a place ---- *)
Definition spell (f : str) (place : list str) : str :=
  match place with [] => f | _ => f ++ ":"%char :: path_of place end.
Definition call_of (a : ask) (p : str) : call A :=
  match a with
  | AskSave t f l => Save t (spell f l) p
  | AskSaveMerged t f l => SaveMerged t (spell f l) p
  | AskLoad f l => Load (spell f l) p
  | AskLoadMerged f l dst => LoadMerged (spell f l) p dst
  end.
End Spec.

(** names without a colon, or with the one of a drive; of a name of one letter and a place that
    begins with a backslash nobody can tell that it is not a drive *)
Definition nameable (f : str) (place : list str) : Prop :=
  f <> [] /\
  ((~ In ":"%char f /\ (length f = 1%nat -> hd "000"%char (path_of place) <> "\"%char)) \/
   (exists c r, f = c :: ":"%char :: "\"%char :: r /\ r <> [] /\ ~ In ":"%char r)).

(** the protocols that go with the ends of names *)
Definition kinds : list (str * str) :=
  [(L "hdf5", L "hdf5"); (L "h5", L "hdf5"); (L "silo", L "conduit_silo"); (L "json", L "json");
   (L "conduit_json", L "conduit_json"); (L "conduit_base64_json", L "conduit_base64_json");
   (L "yaml", L "yaml"); (L "bp", L "adios"); (L "adios", L "adios"); (L "csv", L "csv")].
Definition ends_in (f ext : str) : Prop := exists base, f = base ++ "."%char :: ext.
(** the protocol of the end of the name; conduit_bin for all others *)
Definition named (f p : str) : Prop :=
  (exists ext, ends_in f ext /\ In (ext, p) kinds) \/
  (p = L "conduit_bin" /\ forall ext q, In (ext, q) kinds -> ~ ends_in f ext).
(** a whole name that is only the end of a name *)
Definition bare (f : str) : Prop := exists q, In (f, q) kinds.

(** the protocols modelled *)
Definition own_protocol (p : str) : Prop :=
  In p [L "conduit_bin"; L "json"; L "conduit_json"; L "conduit_base64_json"; L "yaml"].

(** places of which none is on the way to the other *)
Fixpoint forks (a b : list str) : Prop :=
  match a, b with
  | x :: a, y :: b => x <> y \/ forks a b
  | _, _ => False
  end.

Section Rules.
Context {A B : Type}.
Variable proto : str -> str.
(** conduit_bin keeps a second file beside the one that is named: no other file may have its
    name *)
Definition apart (names : str -> Prop) : Prop :=
  forall f g, names f -> names g -> proto f = L "conduit_bin" -> g <> f ++ L "_json".
(** how a call may be made: with the protocol of the file, or with none if the name of the file
    says which it is *)
Definition asked (names : str -> Prop) (ap : @ask A * str) : Prop :=
  let '(a, p) := ap in
  names (file_of a) /\ nameable (file_of a) (place_of a) /\ Forall plain (place_of a) /\ own_protocol (proto (file_of a)) /\
  (p = proto (file_of a) \/ (p = [] /\ ~ bare (file_of a) /\ named (file_of a) (proto (file_of a)))).
Variable dec_bin : B -> B -> outcome (tree A).
Variable dec : str -> B -> outcome (tree A).
(** the disk holds the documents of the store *)
Definition holds (names : str -> Prop) (d : disk) (s : @store A) : Prop :=
  forall f, names f -> match s f with Some t => node_load dec_bin dec d f (proto f) = Ok t | None => mget d f = None end.
End Rules.

(** ---- other spellings of a place ---- *)
(** more slashes than needed before the names *)
Fixpoint loose (l : list (nat * str)) : str :=
  match l with
  | [] => []
  | [(n, c)] => repeat "/"%char n ++ c
  | (n, c) :: r => repeat "/"%char n ++ c ++ "/"%char :: loose r
  end.
(** down to a place and up again *)
Definition detour (pre : list str) (k : str) (post : list str) : str :=
  path_of (pre ++ [k]) ++ L "/../" ++ path_of post.
(** a document in which the node at a place has been made an object *)
Definition opened {A} (none : A) (d : tree A) (place : list str) : tree A :=
  plant none d place (TObj (tentries (part none d place))).
