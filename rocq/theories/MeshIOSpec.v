(** The vocabulary of the properties of saved meshes. *)
From Coq Require Import ZArith Ascii String List.
From Verif Require Import Base.
Import ListNotations.

(** t is an interleaving of the lists ls: each keeps its own order *)
Inductive merge_of {A} : list (list A) -> list A -> Prop :=
| mo_done ls : (forall l, In l ls -> l = []) -> merge_of ls []
| mo_step ls i x l t : nth_error ls i = Some (x :: l) -> merge_of (set_nth ls i l) t -> merge_of ls (x :: t).

(** the characters with a meaning to the readers of file names are not in s *)
Definition simple (s : str) : Prop := forall c, In c s -> ~ In c (L "/{}:%") /\ c <> "000"%char.
(** a mesh name: one path component, not one of the entries of the root file *)
Definition mesh_ok (m : str) : Prop :=
  m <> [] /\ simple m /\
  ~ In m [L "blueprint_index"; L "file_pattern"; L "tree_pattern"; L "number_of_trees"; L "number_of_files"; L "protocol"].
(** a path: a base name, on its own or in a directory *)
Definition path_ok (p : str) : Prop :=
  exists base, base <> [] /\ simple base /\
    (p = base \/ exists dir, p = dir ++ "/"%char :: base /\ dir <> [] /\ last dir "000"%char <> "/"%char /\ ~ In ":"%char dir).

(** the first domain of file f when n domains are shared out to nf files in order, as evenly
    as possible *)
Local Open Scope Z_scope.
Definition first_of (n nf f : Z) : Z := f * (n / nf) + Z.min f (n mod nf).
