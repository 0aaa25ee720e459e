(** relay::io::save, save_merged, load and load_merged for the built-in protocols, with
    identify_protocol: relay/conduit_relay_io.cpp, conduit_relay_io_identify_protocol.cpp.
    The HDF5, Silo, ADIOS and CSV branches of the four functions are not modelled. *)
From Verif Require Import Base Path SpecTree.

(** identify_protocol, conduit_relay_io_identify_protocol.cpp 55-118 *)
Definition by_extension (ext : str) : str :=
  if str_eqb ext (L "hdf5") || str_eqb ext (L "h5") then L "hdf5"
  else if str_eqb ext (L "silo") then L "conduit_silo"
  else if str_eqb ext (L "json") then L "json"
  else if str_eqb ext (L "conduit_json") then L "conduit_json"
  else if str_eqb ext (L "conduit_base64_json") then L "conduit_base64_json"
  else if str_eqb ext (L "yaml") then L "yaml"
  else if str_eqb ext (L "bp") || str_eqb ext (L "adios") then L "adios"
  else if str_eqb ext (L "csv") then L "csv"
  else L "conduit_bin".
Definition identify (path : str) : str :=
  let '(file, _) := split_file_path path [":"%char] in
  let '(ext, _) := rsplit_string file ["."%char] in
  by_extension ext.
(** the test of conduit_relay_io.cpp 333-337, 453-457, 576-580, 740-744 *)
Definition builtin (p : str) : bool :=
  existsb (str_eqb p) [L "conduit_bin"; L "json"; L "conduit_json"; L "conduit_base64_json"; L "yaml"].

Section RelayIO.
(** leaf values, with the one of an empty node; content of files *)
Context {A B : Type}.
Variable none : A.
(** Node::update(src) on dst: [upd src dst]; see the theorems on Node::update *)
Variable upd : tree A -> tree A -> tree A.
(** what Node::save writes and Node::load reads.  conduit_bin: the schema file and the data
    file; others: one file, by protocol *)
Variable enc_schema enc_data : tree A -> B.
Variable dec_bin : B -> B -> outcome (tree A).
Variable enc : str -> tree A -> B.
Variable dec : str -> B -> outcome (tree A).

(** Files by name.  Opening a file for writing always succeeds. *)
Definition disk := list (str * B).

(** Node::save, conduit_node.cpp 377-408; the schema file is written first *)
Definition node_save (d : disk) (path p : str) (t : tree A) : disk :=
  if str_eqb p (L "conduit_bin") then mset (mset d (path ++ L "_json") (enc_schema t)) path (enc_data t)
  else mset d path (enc p t).
(** Node::load, conduit_node.cpp 328-374 and 292-325; a file that cannot be opened is an error *)
Definition node_load (d : disk) (path p : str) : outcome (tree A) :=
  if str_eqb p (L "conduit_bin") then
    match mget d (path ++ L "_json") with
    | None => Err
    | Some s => match mget d path with None => Err | Some b => dec_bin s b end
    end
  else match mget d path with None => Err | Some b => dec p b end.

(** Node::fetch(path), conduit_node.cpp 14416-14483, on a tree of values with its parents:
    each parent is the entries it has and the name under which the next one hangs.  fetch turns
    every node on the way into an object before anything else, also when it then fails; the
    caller here throws its node away in that case. *)
Fixpoint fetch_f (f : nat) (up : list (list (str * tree A) * str)) (t : tree A) (path : str)
  : outcome (list (list (str * tree A) * str) * tree A) :=
  match f with
  | O => Fuel
  | S f =>
      let es := tentries t in
      match path with
      | [] => Err
      | _ =>
          let '(c, n) := split_path path in
          match c with
          | [] => fetch_f f up (TObj es) n
          | _ =>
              if str_eqb c (L "..") then
                match up with
                | [] => Err
                | (pes, k) :: r => fetch_f f r (TObj (mset pes k (TObj es))) n
                end
              else
                let ch := match mget es c with Some u => u | None => TLeaf none end in
                match n with
                | [] => Ok ((es, c) :: up, ch)
                | _ => fetch_f f ((es, c) :: up) ch n
                end
          end
      end
  end.
Definition fetch (t : tree A) (path : str) := fetch_f (S (List.length path)) [] t path.
(** the whole tree, with the fetched node holding [t] *)
Fixpoint close (up : list (list (str * tree A) * str)) (t : tree A) : tree A :=
  match up with
  | [] => t
  | (es, k) :: r => close r (TObj (mset es k t))
  end.

(** what a call gives: done, a tree in the caller's node, an error, or a protocol that is not
    modelled *)
Inductive res := Done | Tree (t : tree A) | Error | Other.
Definition unbuilt (p : str) : res :=
  if existsb (str_eqb p) [L "csv"; L "hdf5"; L "sidre_hdf5"; L "conduit_silo"; L "conduit_silo_mesh"; L "adios"] then Other else Error.
(** an empty protocol is looked up, 326-330, 446-450, 569-573, 733-737 *)
Definition proto_for (path p : str) : str := match p with [] => identify path | _ => p end.

(** save, conduit_relay_io.cpp 315-361; without a place it is [path] that names the file *)
Definition save (d : disk) (t : tree A) (path p0 : str) : disk * res :=
  let p := proto_for path p0 in
  if builtin p then
    let '(file, place) := split_file_path path [":"%char] in
    match place with
    | [] => (node_save d path p t, Done)
    | _ =>
        match (do n <- node_load d file p; do (up, _) <- fetch n place; Ok (close up t)) with
        | Ok n => (node_save d file p n, Done)
        | _ => (d, Error)
        end
    end
  else (d, unbuilt p).
(** save_merged, 435-491; is_file is true of the files there are (directories are not
    modelled) *)
Definition load_if (d : disk) (file p : str) : outcome (tree A) :=
  match mget d file with None => Ok (TLeaf none) | Some _ => node_load d file p end.
Definition save_merged (d : disk) (t : tree A) (path p0 : str) : disk * res :=
  let p := proto_for path p0 in
  if builtin p then
    let '(file, place) := split_file_path path [":"%char] in
    match place with
    | [] =>
        match load_if d path p with
        | Ok n => (node_save d path p (upd t n), Done)
        | _ => (d, Error)
        end
    | _ =>
        match (do n <- load_if d file p; do (up, c) <- fetch n place; Ok (close up (upd t c))) with
        | Ok n => (node_save d file p n, Done)
        | _ => (d, Error)
        end
    end
  else (d, unbuilt p).
(** load, 559-602; Node::set copies the value of the fetched node.  What the caller's node
    holds after an error is not modelled *)
Definition read (d : disk) (path p : str) : outcome (tree A) :=
  let '(file, place) := split_file_path path [":"%char] in
  match place with
  | [] => node_load d path p
  | _ => do n <- node_load d file p; do (_, c) <- fetch n place; Ok c
  end.
Definition load (d : disk) (path p0 : str) : res :=
  let p := proto_for path p0 in
  if builtin p then match read d path p with Ok t => Tree t | _ => Error end else unbuilt p.
(** load_merged, 726-771, into a node that holds [dst]; it has no CSV branch (its error is
    not told apart here) *)
Definition load_merged (d : disk) (path p0 : str) (dst : tree A) : res :=
  let p := proto_for path p0 in
  if builtin p then match read d path p with Ok t => Tree (upd t dst) | _ => Error end else unbuilt p.

(** a program of calls *)
Inductive call :=
| Save (t : tree A) (path p : str)
| SaveMerged (t : tree A) (path p : str)
| Load (path p : str)
| LoadMerged (path p : str) (dst : tree A).
Definition step (d : disk) (c : call) : disk * res :=
  match c with
  | Save t path p => save d t path p
  | SaveMerged t path p => save_merged d t path p
  | Load path p => (d, load d path p)
  | LoadMerged path p dst => (d, load_merged d path p dst)
  end.
Fixpoint run (d : disk) (cs : list call) : disk * list res :=
  match cs with
  | [] => (d, [])
  | c :: r => let '(d1, x) := step d c in let '(d2, xs) := run d1 r in (d2, x :: xs)
  end.
End RelayIO.
Arguments Done {A}.
Arguments Tree {A} t.
Arguments Error {A}.
Arguments Other {A}.
Arguments call A : clear implicits.
