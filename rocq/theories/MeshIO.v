(** Saving a mesh to files and reading it back: relay::io::blueprint::write_mesh and
    read_mesh, relay/conduit_relay_io_blueprint.cpp, serial and MPI builds.

    A file is a map from paths inside the file to what was written there; paths are
    compared by their non-empty components, and a path that is a prefix of another is a
    different entry.  What a domain holds is one opaque value; reading it entry by entry
    as listed in the index (2214-2260) is not modelled.  The file suffix (cycle) is given.
    Files are written through the built-in protocols (BasicHandle); HDF5 is not modelled. *)
From Coq Require Import ZArith Lia.
From Verif Require Import Base Path Json Node.
Local Open Scope Z_scope.

(** fmt "{:06d}" of a number that is not negative *)
Definition pad (w : nat) (z : Z) : str := repeat "0"%char (w - length (show_Z z)) ++ show_Z z.
(** "domain_{:06d}" *)
Definition dom_name (i : Z) : str := L "domain_" ++ pad 6 i.
(** the path inside a file: only its non-empty parts count, Node::fetch 14434-14438 *)
Definition canon (p : str) : str := flat_map (fun c => c ++ [slash]) (split_string_vec p slash).

(** * gen_domain_to_file_map, 78-123 *)
Fixpoint offsets (acc : Z) (per : list Z) : list Z :=
  match per with [] => [] | p :: r => acc :: offsets (acc + p) r end.
Definition per_file (n nf : Z) : list Z := map (fun f => n / nf + (if f <? n mod nf then 1 else 0)) (zseq nf).
Fixpoint assign (nf : Z) (offs : list Z) (f : Z) (ds : list Z) : list Z :=
  match ds with
  | [] => []
  | d :: r =>
      let f' := if f + 1 <? nf then (match znth offs (f + 1) with Some o => if o <=? d then f + 1 else f | None => f end) else f in
      f' :: assign nf offs f' r
  end.
Definition d2f_map (n nf : Z) : list Z := assign nf (offsets 0 (per_file n nf)) 0 (zseq n).

(** * fmt: the patterns of utils::format, conduit_utils.cpp 1600-1834, for integers:
      text, doubled braces, {name} and {name:0Nd}; other fields are an error here *)
Fixpoint fmt_width (s : str) (acc : nat) : option nat :=
  match s with
  | [] => None
  | c :: r =>
      if Ascii.eqb c "d" then (match r with [] => Some acc | _ => None end)
      else if num_char c then fmt_width r (acc * 10 + Z.to_nat (Z.of_N (N_of_ascii c) - 48)) else None
  end.
Definition fmt_field (args : list (str * Z)) (fld : str) : outcome str :=
  let '(name, spec) := split_string fld [":"%char] in
  match mget args name with
  | None => Err
  | Some z =>
      match spec with
      | [] => Ok (show_Z z)
      | c :: r => if Ascii.eqb c "0" then (match fmt_width r 0 with Some w => Ok (pad w z) | None => Err end) else Err
      end
  end.
Fixpoint fmt (args : list (str * Z)) (fld : option str) (p : str) : outcome str :=
  match fld, p with
  | None, [] => Ok []
  | Some _, [] => Err
  | Some acc, c :: r =>
      if Ascii.eqb c "}" then (do s <- fmt_field args acc; do t <- fmt args None r; Ok (s ++ t))
      else if Ascii.eqb c "{" then Err else fmt args (Some (acc ++ [c])) r
  | None, c :: r =>
      if Ascii.eqb c "{" then
        match r with
        | c2 :: r2 => if Ascii.eqb c2 "{" then (do t <- fmt args None r2; Ok (c :: t)) else fmt args (Some []) r
        | [] => Err
        end
      else if Ascii.eqb c "}" then
        match r with
        | c2 :: r2 => if Ascii.eqb c2 "}" then (do t <- fmt args None r2; Ok (c :: t)) else Err
        | [] => Err
        end
      else do t <- fmt args None r; Ok (c :: t)
  end.

(** the partition map of the index: file numbers (if any) and domain numbers *)
Record pmap := mkPM { pm_file : option (list Z); pm_domain : list Z }.

Section MeshIO.
Context {V : Type}.
(** dom["state/domain_id"] = i *)
Variable setid : Z -> V -> V.
(** Node::update: what is in the file already, then what is written *)
Variable upd : V -> V -> V.

(** what is written at a path of a file: a domain, the entry of a mesh in the blueprint index
    (partition pattern and map; none in older files), or the root file's own fields *)
Inductive item :=
| Dom (v : V)
| Index (part : option (str * option pmap))
| Legacy (files trees : Z) (file_pattern tree_pattern : str).
Definition file := list (str * item).
Definition disk := list (str * file).

(** BasicHandle::write, 522-533: m_node[path].update(node).  For the index entry: the new
    pattern; a map that is written over an old one keeps the end of a longer array, and
    arrays and maps that are not written stay (Node::update 8510-8584) *)
Definition upd_list (o n : list Z) : list Z := if (length n <=? length o)%nat then n ++ skipn (length n) o else n.
Definition upd_map (o : option pmap) (n : option pmap) : option pmap :=
  match o, n with
  | Some a, Some b =>
      Some (mkPM (match pm_file a, pm_file b with Some x, Some y => Some (upd_list x y) | Some x, None => Some x | None, y => y end)
                 (upd_list (pm_domain a) (pm_domain b)))
  | Some a, None => Some a
  | None, b => b
  end.
Definition upd_item (o : option item) (n : item) : item :=
  match o, n with
  | Some (Dom u), Dom v => Dom (upd u v)
  | Some (Index (Some (_, a))), Index (Some (p, b)) => Index (Some (p, upd_map a b))
  | _, _ => n
  end.

(** opening a handle in a mode, writing to a path, closing; BasicHandle::open 389-431 reads
    an existing file only if the mode has r and not t *)
Inductive omode := Trunc (* wt *) | WOnly (* w *) | RdWr (* default: rw, append *).
Record op := mkOp { o_file : str; o_mode : omode; o_key : str; o_val : item }.
Definition old (d : disk) (f : str) : file := match mget d f with Some c => c | None => [] end.
Definition start (d : disk) (f : str) (m : omode) : file :=
  match m with Trunc => [] | WOnly => [] | RdWr => old d f end.
Definition put (c : file) (k : str) (v : item) : file := mset c k (upd_item (mget c k) v).
Definition do_op (d : disk) (o : op) : disk :=
  mset d (o_file o) (put (start d (o_file o) (o_mode o)) (canon (o_key o)) (o_val o)).
Definition do_ops (d : disk) (ops : list op) : disk := fold_left do_op ops d.

(** * generate_domain_ids (blueprint_mpi_mesh.cpp 2713-2740, blueprint_mesh.cpp 7591-7602):
      numbered from 0 over all ranks, in rank order *)
Fixpoint number_from (i : Z) (vs : list V) : list (Z * V) :=
  match vs with [] => [] | v :: r => (i, setid i v) :: number_from (i + 1) r end.
Fixpoint number (i : Z) (ranks : list (list V)) : list (list (Z * V)) :=
  match ranks with [] => [] | vs :: r => number_from i vs :: number (i + Z.of_nat (length vs)) r end.

(** * N domains to M files, 1313-1560 *)
(** one rank: its number, its domains (id, value, still to be written), local_file_created *)
Record rank := mkR { r_id : Z; r_doms : list (Z * V * bool); r_made : list bool }.
Section Batons.
(** the writes that fail (round, domain): a conduit::Error from the handle *)
Variable fails : nat -> Z -> bool.
(** how the file system interleaves the writes of the ranks in a round *)
Variable sched : nat -> list (list op) -> list op.
Variable truncate : bool.
Variable dir ext mesh : str.
Variable d2f : list Z.
Variable nf : Z.
Definition file_name (f : Z) : str := join_file_path dir (L "file_" ++ pad 6 f ++ L "." ++ ext).
Definition dom_path (i : Z) : str := dom_name i ++ slash :: mesh.
Definition wants (f : Z) (d : Z * V * bool) : bool :=
  snd d && match znth d2f (fst (fst d)) with Some g => g =? f | None => false end.
(** 1403-1421 *)
Definition request (r : rank) : list Z :=
  map (fun f => if existsb (wants f) (r_doms r) then r_id r else -1) (zseq nf).
(** mpi::max_all_reduce *)
Fixpoint vmax (a b : list Z) : list Z :=
  match a, b with x :: a', y :: b' => Z.max x y :: vmax a' b' | _, _ => [] end.
Definition batons (w : list rank) : list Z := fold_left vmax (map request w) (map (fun _ => -1) (zseq nf)).
Fixpoint vor (a b : list bool) : list bool :=
  match a, b with x :: a', y :: b' => (x || y)%bool :: vor a' b' | _, _ => [] end.
Definition made (w : list rank) : list bool := fold_left vor (map r_made w) (map (fun _ => false) (zseq nf)).
(** 1449-1509, the loop over the rank's domains for file f; [g] is global_file_created[f],
    which the rank sets in its own copy.  Returns the writes, the flag, the domains, and
    whether all is good *)
Fixpoint write_doms (n : nat) (f : Z) (g : bool) (ds : list (Z * V * bool)) : list op * bool * list (Z * V * bool) * bool :=
  match ds with
  | [] => ([], g, [], true)
  | d :: r =>
      if wants f d then
        if fails n (fst (fst d)) then ([], (g || truncate)%bool, ds, false)
        else
          let mode := if (truncate && negb g)%bool then Trunc else RdWr in
          let '(ops, g', r', ok) := write_doms n f (g || truncate) r in
          (mkOp (file_name f) mode (dom_path (fst (fst d))) (Dom (snd (fst d))) :: ops, g', (fst d, false) :: r', ok)
      else let '(ops, g', r', ok) := write_doms n f g r in (ops, g', d :: r', ok)
  end.
(** 1443-1511, the loop over the files *)
Fixpoint turn (n : nat) (bat : list Z) (mk : list bool) (r : rank) (fs : list Z) : list op * rank * bool :=
  match fs with
  | [] => ([], r, true)
  | f :: fr =>
      match znth bat f, znth mk f with
      | Some b, Some g =>
          if b =? r_id r then
            let '(ops, g', ds, ok) := write_doms n f g (r_doms r) in
            let r1 := mkR (r_id r) ds (if g' && negb g then set_nth (r_made r) (Z.to_nat f) true else r_made r) in
            if ok then let '(ops2, r2, ok2) := turn n bat mk r1 fr in (ops ++ ops2, r2, ok2) else (ops, r1, false)
          else turn n bat mk r fr
      | _, _ => ([], r, true)
      end
  end.
(** 1401-1559: rounds until no rank asks for a file.  All ranks hold the same batons, so
    they agree to go on; if a write failed anywhere all ranks raise an error *)
Fixpoint rounds (fuel n : nat) (w : list rank) (d : disk) : outcome disk :=
  match fuel with
  | O => Fuel
  | S k =>
      let bat := batons w in let mk := made w in
      let ts := map (fun r => turn n bat mk r (zseq nf)) w in
      if forallb (fun t => snd t) ts then
        let d' := do_ops d (sched n (map (fun t => fst (fst t)) ts)) in
        if existsb (fun b => negb (b =? -1)) bat then rounds k (S n) (map (fun t => snd (fst t)) ts) d' else Ok d'
      else Err
  end.
Definition new_rank (i : nat) (ds : list (Z * V)) : rank :=
  mkR (Z.of_nat i) (map (fun d => (d, true)) ds) (map (fun _ => false) (zseq nf)).
Fixpoint new_ranks (i : nat) (ws : list (list (Z * V))) : list rank :=
  match ws with [] => [] | ds :: r => new_rank i ds :: new_ranks (S i) r end.
End Batons.

(** * write_mesh, 887-1800; save_mesh 785-810 is the same with truncate *)
Inductive style := Default | RootOnly | MultiFile.
Record opts := mkO { op_style : style; op_mesh : str; op_files : Z; op_trunc : bool }.
Section Write.
Variable fails : nat -> Z -> bool.
Variable sched : nat -> list (list op) -> list op.
(** built with MPI *)
Variable mpi : bool.
(** the path, the suffix that was agreed on (".cycle_000012" or nothing), the protocol *)
Variable path sfx proto : str.
Variable o : opts.
Definition root_name : str := path ++ sfx ++ L ".root".
Definition out_dir : str := path ++ sfx.
Definition style_of (n : Z) : bool (* root only *) :=
  match op_style o with RootOnly => true | MultiFile => false | Default => negb (1 <? n) end.
(** 1186-1198 *)
Definition files_of (n : Z) : Z := let k := if op_files o <=? 0 then n else op_files o in if n <? k then n else k.

(** 1209-1283: one rank after the other writes its domains to the root file *)
Fixpoint root_ops (n : Z) (first : bool) (ds : list (Z * V)) : list op :=
  match ds with
  | [] => []
  | d :: r => mkOp root_name (if (first && op_trunc o)%bool then Trunc else RdWr)
                (if n =? 1 then op_mesh o else dom_name (fst d) ++ slash :: op_mesh o) (Dom (snd d)) :: root_ops n false r
  end.
(** 1284-1312: every domain its own file *)
Definition own_file (i : Z) : str := join_file_path out_dir (dom_name i ++ L "." ++ proto).
Definition own_op (d : Z * V) : op := mkOp (own_file (fst d)) (if op_trunc o then Trunc else WOnly) (op_mesh o) (Dom (snd d)).
(** the entries of the root file, 1633-1763 *)
Definition root_entry (n : Z) : str * option pmap * str * str :=
  let nf := files_of n in
  let base := fst (rsplit_path (fst (rsplit_path out_dir))) in
  if style_of n then
    let fp := fst (rsplit_path root_name) in
    if n =? 1 then (fp ++ L ":/", None, fp, L "/")
    else (root_name ++ L ":/domain_{domain:06d}", Some (mkPM None (zseq n)), fp, L "/domain_%06d/")
  else if n =? nf then
    (join_file_path base (L "domain_{domain:06d}." ++ proto ++ L ":/"), Some (mkPM (Some (zseq n)) (zseq n)),
     join_file_path base (L "domain_%06d." ++ proto), L "/")
  else
    (join_file_path base (L "file_{file:06d}." ++ proto ++ L ":/domain_{domain:06d}"), Some (mkPM (Some (d2f_map n nf)) (zseq n)),
     join_file_path base (L "file_%06d." ++ proto), L "/domain_%06d").
(** 1765-1790: one handle, all fields *)
Definition index_key (mesh : str) : str := canon (L "blueprint_index/" ++ mesh).
Definition legacy_key : str := canon (L "file_pattern").
Definition write_root (n : Z) (d : disk) : disk :=
  let '(pat, pm, fp, tp) := root_entry n in
  let c := start d root_name (if (negb (style_of n) && op_trunc o)%bool then Trunc else RdWr) in
  mset d root_name (put (put c (index_key (op_mesh o)) (Index (Some (pat, pm)))) legacy_key (Legacy (files_of n) n fp tp)).

Definition write_mesh (ranks : list (list V)) (d : disk) : outcome disk :=
  let ds := number 0 ranks in
  let n := Z.of_nat (length (concat ds)) in
  (* IOHandle refuses a file name with a colon in it, handle.cpp 175-192; all file names
     start with the path.  A write that fails for one rank outside the N to M loop is an
     error here; the other ranks then wait for it in the next reduction *)
  let bad := match snd (split_file_path root_name [":"%char]) with [] => false | _ => true end in
  (* 1032-1079: with MPI the suffix is broadcast from the first rank that has domains; if
     none has, from rank -1, which MPI refuses.  The test meant to prevent this, 982-995,
     adds up the initial value of the cycle instead of the flags.  Without MPI: nothing is
     done *)
  if n =? 0 then (if mpi then Err else Ok d)
  else if bad then Err
  else
    let nf := files_of n in
    do d1 <- (if style_of n then Ok (do_ops d (root_ops n true (concat ds)))
              else if n =? nf then
                if existsb (fun x => fails 0%nat (fst x)) (concat ds) then Err
                else Ok (do_ops d (sched 0%nat (map (map own_op) ds)))
              else rounds fails sched (op_trunc o) out_dir proto (op_mesh o) (d2f_map n nf) nf
                     (S (length ranks)) 0 (new_ranks nf 0 ds) d);
    Ok (write_root n d1).
End Write.

(** * read_mesh, 1980-2265 *)
(** the path generators *)
(** BlueprintLegacyPathGenerator::Expand, 183-220 *)
Definition replace4 (p : str) (i : nat) (t : str) : str := firstn i p ++ t ++ skipn (i + 4) p.
Fixpoint expand_width (p : str) (idx : Z) (ws : list nat) : str :=
  match ws with
  | [] => p
  | w :: r =>
      match find_sub (L "%0" ++ show_Z (Z.of_nat w) ++ L "d") p with
      | Some i => replace4 p i (pad w idx)
      | None => expand_width p idx r
      end
  end.
Definition expand (p : str) (idx : Z) : str :=
  match find_sub (L "%d") p with
  | Some i => replace4 p i (show_Z idx)
  | None => expand_width p idx (seq 2 8)
  end.
Definition end_slash (t : str) : str :=
  match t with [] => [] | _ => if ascii_dec (last t "000"%char) slash then t else t ++ [slash] end.
(** GenerateFilePath and GenerateTreePath, 222-254 *)
Definition legacy_paths (fp tp : str) (files trees i : Z) : outcome (str * str) :=
  do f <- (if trees =? files then Ok i else if files =? 1 then Ok 0
           else if files <=? 0 then UB else deref (znth (d2f_map trees files) i));
  Ok (expand fp f, end_slash (expand tp i)).
(** BlueprintPartitonMapPathGenerator: the constructor 269-288, the paths 306-349 *)
Definition zmax_list (l : list Z) : Z := fold_left Z.max l (-1).
Fixpoint dom_to_tree (doms : list Z) (i : Z) (k : nat) (acc : list Z) : outcome (list Z) :=
  match k with
  | O => Ok acc
  | S k' =>
      do d <- deref (znth doms i);
      do _ <- deref (znth acc d);
      dom_to_tree doms (i + 1) k' (set_nth acc (Z.to_nat d) i)
  end.
Definition full_path (pat : str) (pm : option pmap) (i : Z) : outcome str :=
  match pm with
  | None => Ok pat
  | Some m =>
      let n := zmax_list (pm_domain m) + 1 in
      do t <- dom_to_tree (pm_domain m) 0 (Z.to_nat n) (map (fun _ => 0) (zseq n));
      do j <- deref (znth t i);
      do dv <- deref (znth (pm_domain m) j);
      do args <- (match pm_file m with
                  | None => Ok [(L "domain", dv)]
                  | Some fs => do fv <- deref (znth fs j); Ok [(L "file", fv); (L "domain", dv)]
                  end);
      fmt args None pat
  end.
Definition part_paths (pat : str) (pm : option pmap) (i : Z) : outcome (str * str) :=
  do p <- full_path pat pm i;
  let '(f, t) := split_string p (L ":/") in Ok (f, end_slash t).

(** 2149-2177: the domains rank r of p reads *)
Definition read_size (n p r : Z) : Z := n / p + (if r <? n mod p then 1 else 0).
Definition read_range (n p r : Z) : list Z :=
  let start := fold_left Z.add (map (read_size n p) (zseq r)) 0 in
  map (fun i => start + i) (zseq (read_size n p r)).
(** one domain, 2190-2213 and the reads that follow; None: the file has nothing there *)
Definition read_dom (d : disk) (root mesh : str) (paths : Z -> outcome (str * str)) (i : Z) : outcome (str * option V) :=
  do ft <- paths i;
  let '(_, next) := rsplit_path root in
  match mget d (join_path next (fst ft)) with
  | None => Err
  | Some c =>
      Ok (dom_name i, match mget c (canon (join_path (snd ft) mesh)) with Some (Dom v) => Some v | _ => None end)
  end.
Fixpoint omap_list {A B} (f : A -> outcome B) (l : list A) : outcome (list B) :=
  match l with [] => Ok [] | x :: r => do y <- f x; do ys <- omap_list f r; Ok (y :: ys) end.
(** rank r of p reads its part; the name of the mesh is given *)
Definition read_mesh (d : disk) (root mesh : str) (p r : Z) : outcome (list (str * option V)) :=
  match mget d root with
  | None => Err
  | Some c =>
      match mget c (index_key mesh), mget c legacy_key with
      | Some (Index (Some (pat, pm))), _ =>
          let n := match pm with Some m => zmax_list (pm_domain m) + 1 | None => 1 end in
          omap_list (read_dom d root mesh (part_paths pat pm)) (read_range n p r)
      | Some (Index None), Some (Legacy files trees fp tp) =>
          omap_list (read_dom d root mesh (legacy_paths fp tp files trees)) (read_range trees p r)
      | _, _ => Err
      end
  end.
End MeshIO.
