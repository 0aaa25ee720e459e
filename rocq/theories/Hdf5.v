(** Model of hierarchies stored in HDF5 files:
    src/libs/relay/conduit_relay_io_hdf5.cpp.

    The HDF5 library itself is not part of the repository.  It is represented by
    its documented meaning: a file is a tree of groups and datasets, a group holds
    links in order of creation (every group Conduit makes tracks and indexes that
    order, 1576-1590 and 3241-3258), and a dataset holds elements of one stored type,
    of a fixed or unlimited size.  Files here are those Conduit writes: no links that
    share an object, no cycles, no attributes but the list mark, rank 1.  Compression,
    layout and file access properties do not change what is stored and are left out.

    What is written is the tree of values of a node (SpecNode.nvalue): a leaf that is
    not compact is copied by compact_to first (1683-1695, 1814-1826), which keeps
    that value (C11). *)
From Verif Require Import Base DType SpecTree Mem Node SpecNode Json MatSet AdjSet.
Local Open Scope Z_scope.
Import ListNotations.

Notation elem := (list byte).
(** Stored type: H5T_STD_I8LE ... H5T_IEEE_F64BE, or H5T_C_S1 which has no byte
    order and is written here with DEFAULT_E. *)
Definition ftype := (tid * endian)%type.
Inductive hobj :=
| HNull                                            (* dataset with a null dataspace *)
| HDset (ft : ftype) (es : list elem) (unl : bool) (* unl: maximum dimension is H5S_UNLIMITED *)
| HGroup (lst : bool) (ls : list (str * hobj)).    (* lst: carries the attribute __conduit_list, 127 *)

(** hdf5_create_file, 3279-3309: a new file is an empty group. *)
Definition h_new : hobj := HGroup false [].

(** Options of a write, 1652-1666: offset and stride, each given or not. *)
Record wopts := mkW { w_off : option Z; w_str : option Z }.
Definition no_opts : wopts := mkW None None.
Definition given {A} (o : option A) : bool := match o with Some _ => true | None => false end.
Definition or_else {A} (o : option A) (d : A) : A := match o with Some x => x | None => d end.

(** conduit_dtype_to_hdf5_dtype, 586-696: the byte order is the one of the leaf, or
    of the machine when that is the default. *)
Definition ftype_of (mach : endian) (t : tid) (e : endian) : ftype :=
  (t, if tid_eqb t CHAR8_STR then DEFAULT_E else resolve mach e).
Definition ftype_eqb (a b : ftype) : bool := tid_eqb (fst a) (fst b) && endian_eqb (snd a) (snd b).
(** HDF5's conversion between the two byte orders of one type. *)
Definition reorder (from to : endian) (es : list elem) : list elem :=
  if endian_eqb from to then es else map (@rev byte) es.

(** Names in HDF5: components between slashes, empty ones and "." ignored.  An empty
    name is refused.  A leading slash means the root of the file: not modelled, the
    outcome is UB. *)
Fixpoint h_split (s acc : str) : list str :=
  match s with
  | [] => [rev acc]
  | c :: r => if Ascii.eqb c "/" then rev acc :: h_split r [] else h_split r (c :: acc)
  end.
Definition h_comps (name : str) : list str :=
  filter (fun c => negb (str_eqb c []) && negb (str_eqb c (L "."))) (h_split name []).
Definition absolute (name : str) : bool := match name with c :: _ => Ascii.eqb c "/" | [] => false end.
Fixpoint h_find (h : hobj) (p : list str) : option hobj :=
  match p with
  | [] => Some h
  | k :: p' => match h with
               | HGroup _ ls => match mget ls k with Some u => h_find u p' | None => None end
               | _ => None
               end
  end.
(** H5Oopen / H5Oget_info_by_name relative to a group *)
Definition h_open (h : hobj) (name : str) : outcome (option hobj) :=
  match name with
  | [] => Ok None
  | _ => if absolute name then UB else Ok (h_find h (h_comps name))
  end.

Section Machine.
  Variable mach : endian.

  (** ** Is the node compatible with what is in the file *)

  (** check_if_conduit_leaf_is_compatible_with_hdf5_obj, 949-1104.  For an empty leaf
      over a dataset with elements the conversion of the type raises an error. *)
  Definition c_leaf (o : wopts) (l : leafval) (h : hobj) : outcome bool :=
    match h with
    | HGroup _ _ => Ok false
    | HNull => Ok (match l with None => true | Some _ => false end)
    | HDset ft old unl =>
        match l with
        | None => Err
        | Some (t, e, es) =>
            Ok (ftype_eqb (ftype_of mach t e) ft &&
                (unl || given (w_off o) || given (w_str o) || (length es =? length old)%nat))
        end
    end.
  (** while(itr.has_next() && res) *)
  Fixpoint c_all (l : list (outcome bool)) : outcome bool :=
    match l with
    | [] => Ok true
    | x :: r => match x with Ok true => c_all r | _ => x end
    end.
  (** 1107-1179, 1182-1275, 1280-1328: the entries of an object are compared with what
      the group holds under their names, those of a list with what it holds at their
      places in order of creation. *)
  Fixpoint c_node (o : wopts) (v : tree leafval) (h : hobj) : outcome bool :=
    match v with
    | TLeaf l => c_leaf o l h
    | TObj es =>
        match h with
        | HGroup _ _ =>
            c_all (map (fun e => do c <- h_open h (fst e);
                                 match c with Some u => c_node o (snd e) u | None => Ok true end) es)
        | _ => Ok false
        end
    | TList ts =>
        match h with
        | HGroup _ ls =>
            (fix go (ts : list (tree leafval)) (us : list (str * hobj)) : outcome bool :=
               match ts, us with
               | [], _ | _, [] => Ok true
               | c :: ts', u :: us' => match c_node o c (snd u) with Ok true => go ts' us' | x => x end
               end) ts ls
        | _ => Ok false
        end
    end.

  (** ** Writing *)

  (** HDF5Options, 293-305 *)
  Definition compact_threshold : Z := 1024.
  Definition chunk_threshold : Z := 2000000.
  (** create_hdf5_dataset_for_conduit_leaf, 1392-1505: new datasets are filled with
      zeros; large ones and extendible ones have no maximum size. *)
  Definition zero_elem (t : tid) : elem := repeat zero_byte (Z.to_nat (default_bytes t)).
  Definition leaf_size (t : tid) (es : list elem) : Z := default_bytes t * Z.of_nat (length es).
  Definition unlimited (ext : bool) (t : tid) (es : list elem) : bool :=
    if negb ext && (leaf_size t es <=? compact_threshold) then false
    else ext || (chunk_threshold <? leaf_size t es).

  (** What a hyperslab write leaves at place [j] *)
  Definition slab_at (off str : Z) (t : tid) (es old : list elem) (j : nat) : elem :=
    let i := (Z.of_nat j - off) / str in
    if (off <=? Z.of_nat j) && ((Z.of_nat j - off) mod str =? 0) && (i <? Z.of_nat (length es))
    then nth (Z.to_nat i) es (zero_elem t) else nth j old (zero_elem t).
  (** write_conduit_leaf_to_hdf5_dataset, 1644-1851, on an open dataset.  The result is
      the dataset, whether its link was removed and made again (1729-1776), and the
      outcome.  UB: fewer elements in the node than a fixed dataset takes, or types
      HDF5 would have to convert (not modelled; both excluded by the compatibility
      check unless it looked at another dataset), or a size that wraps around. *)
  Definition w_dset (o : wopts) (t : tid) (e : endian) (es : list elem) (ft : ftype) (old : list elem) (unl : bool)
    : option hobj * bool * outcome unit :=
    let off := or_else (w_off o) 0 in
    let st := or_else (w_str o) 1 in
    if st =? 0 then (None, false, Err)
    else if negb (ftype_eqb (ftype_of mach t e) ft) then (None, false, UB)
    else if negb unl && (off =? 0) && (st =? 1) then
      if (length es <? length old)%nat then (None, false, UB)
      else (Some (HDset ft (firstn (length old) es) unl), false, Ok tt)
    else
      (* a fixed dataset is read (in the order of the machine) and made again *)
      let ft' := if unl then ft else ftype_of mach (fst ft) mach in
      let old' := if unl then old else reorder (snd ft) (snd ft') old in
      let es' := if unl then es else reorder (snd ft) (snd ft') es in
      let n := Z.of_nat (length es) in
      let need := off + n + (n - 1) * (st - 1) in
      if (need <? 0) || (2 ^ 64 <=? need) then (None, negb unl, UB)
      else
        let dim := Z.max (Z.of_nat (length old)) need in
        (Some (HDset ft' (map (slab_at off st t es' old') (seq 0 (Z.to_nat dim))) true), negb unl, Ok tt).
  (** write_conduit_leaf_to_hdf5_group, 1856-1945 *)
  Definition w_leaf (o : wopts) (t : tid) (e : endian) (es : list elem) (old : option hobj) : option hobj * bool * outcome unit :=
    match old with
    | Some (HGroup _ _) => (None, false, Err)
    | Some HNull => (None, false, UB)
    | Some (HDset ft d unl) => w_dset o t e es ft d unl
    | None =>
        let ft := ftype_of mach t e in
        let z := map (fun _ => zero_elem t) es in
        let unl := unlimited (given (w_off o)) t es in
        match w_dset o t e es ft z unl with
        | (None, mv, s) => (Some (HDset ft z unl), mv, s)
        | r => r
        end
    end.
  (** What HDF5 does to the link [name] of a group: [f] is given what is there. *)
  Definition action := option hobj -> option hobj * bool * outcome unit.
  Fixpoint h_upd (g : hobj) (p : list str) (f : action) : hobj * outcome unit :=
    match p with
    | [] => let '(h, _, s) := f (Some g) in (or_else h g, s)
    | k :: p' =>
        match g with
        | HGroup b ls =>
            match p' with
            | [] => let '(h, mv, s) := f (mget ls k) in
                    (match h with
                     | None => g
                     | Some x => HGroup b (if mv then mdel ls k ++ [(k, x)] else mset ls k x)
                     end, s)
            | _ => match mget ls k with
                   | Some u => let (u', s) := h_upd u p' f in (HGroup b (mset ls k u'), s)
                   | None => (g, Err)
                   end
            end
        | _ => (g, Err)
        end
    end.
  Definition h_put (g : hobj) (name : str) (f : action) : hobj * outcome unit :=
    match name with
    | [] => (g, Err)
    | _ => if absolute name then (g, UB) else h_upd g (h_comps name) f
    end.
  (** the loop over the children, 2041-2129 *)
  Fixpoint w_seq (l : list (str * action)) (g : hobj) : hobj * outcome unit :=
    match l with
    | [] => (g, Ok tt)
    | (k, f) :: r => match h_put g k f with
                     | (g', Ok _) => w_seq r g'
                     | (g', s) => (g', s)
                     end
    end.
  (** setup_hdf5_group_atts_for_conduit_node, 2003-2023 *)
  Definition mark (b : bool) (g : hobj) : hobj := match g with HGroup _ ls => HGroup b ls | _ => g end.
  (** one child, 2045-2129: leaves 1856-1945, empty ones 1948-2000, groups opened or made *)
  Definition w_kid (o : wopts) (rec : hobj -> hobj * outcome unit) (v : tree leafval) : action := fun old =>
    match v with
    | TLeaf (Some (t, e, es)) => w_leaf o t e es old
    | TLeaf None => match old with Some _ => (None, false, Ok tt) | None => (Some HNull, false, Ok tt) end
    | _ => match old with
           | Some (HGroup _ _ as g) => let (g', s) := rec g in (Some g', false, s)
           | Some _ => (None, false, Err)
           | None => let (g', s) := rec (HGroup false []) in (Some g', false, s)
           end
    end.
  (** NodeConstIterator::name for the entries of a list, conduit_node_iterator.cpp 391-406 *)
  Definition entry_names (n : nat) : list str := map (fun i => show_Z (Z.of_nat i)) (seq 0 n).
  (** write_conduit_node_children_to_hdf5_group, 2029-2130 *)
  Fixpoint w_children (o : wopts) (v : tree leafval) (g : hobj) : hobj * outcome unit :=
    match v with
    | TLeaf _ => (g, Err)
    | TObj es => w_seq (map (fun e => (fst e, w_kid o (w_children o (snd e)) (snd e))) es) (mark false g)
    | TList ts => w_seq (combine (entry_names (length ts)) (map (fun c => w_kid o (w_children o c) c) ts)) (mark true g)
    end.
  (** write_conduit_node_to_hdf5_tree, 2136-2166 *)
  Definition w_tree (o : wopts) (v : tree leafval) (h : hobj) : hobj * outcome unit :=
    match v with
    | TLeaf None => (h, Err)
    | TLeaf (Some (t, e, es)) => let '(h', _, s) := w_leaf o t e es (Some h) in (or_else h' h, s)
    | _ => w_children o v h
    end.
  (** hdf5_write, 3325-3410, to an open file.  The path is given as its names in order
      (cutting paths is C04); n.fetch(path).set_external(node) puts the node below an
      object for each. *)
  Definition at_path (p : list str) (v : tree leafval) : tree leafval :=
    fold_right (fun k u => TObj [(k, u)]) v p.
  Definition h_write (o : wopts) (f : hobj) (p : list str) (v : tree leafval) : hobj * outcome unit :=
    let n := at_path p v in
    match c_node o n f with
    | Ok true => w_tree o n f
    | Ok false => (f, Err)
    | Err => (f, Err)
    | UB => (f, UB)
    | Fuel => (f, Fuel)
    end.
  (** hdf5_remove_path, 4016-4035 *)
  Fixpoint h_del (h : hobj) (p : list str) : option hobj :=
    match h, p with
    | HGroup b ls, [k] => match mget ls k with Some _ => Some (HGroup b (mdel ls k)) | None => None end
    | HGroup b ls, k :: p' =>
        match mget ls k with
        | Some u => match h_del u p' with Some u' => Some (HGroup b (mset ls k u')) | None => None end
        | None => None
        end
    | _, _ => None
    end.
  Definition h_remove (f : hobj) (p : list str) : hobj * outcome unit :=
    match h_del f p with Some f' => (f', Ok tt) | None => (f, Err) end.
  (** hdf5_has_path, 3992-4013 *)
  Definition h_has (f : hobj) (p : list str) : bool := given (h_find f p).

  (** ** Reading *)

  (** Options of a read, 2704-2797: offset, stride and size; zero for the size means
      all there is. *)
  Record ropts := mkR { r_off : option Z; r_str : option Z; r_size : option Z }.
  Definition all_of_it : ropts := mkR None None None.
  (** calculate_readsize, 2733-2751; C++ division rounds towards zero. *)
  Definition readsize (ro : ropts) (dim : Z) : Z :=
    let off := or_else (r_off ro) 0 in
    let st := or_else (r_str ro) 1 in
    let sz := or_else (r_size ro) 0 in
    if sz =? 0 then Z.quot (dim - off) st + (if Z.rem (dim - off) st =? 0 then 0 else 1) else sz.
  (** read_hdf5_dataset_into_conduit_node, 2834-3052.  [dest] is compact; the type read
      is in the order of the machine.  A destination that is compatible
      (conduit_data_type.cpp 664-669: same type, at least as many elements) is filled in
      place; otherwise dest.set(n_tmp) makes it a copy. *)
  Definition r_dset (ro : ropts) (ft : ftype) (es : list elem) (dest : tree leafval) : outcome (tree leafval) :=
    let off := or_else (r_off ro) 0 in
    let st := or_else (r_str ro) 1 in
    if st =? 0 then Err
    else
      let n := readsize ro (Z.of_nat (length es)) in
      if n <? 0 then Err
      else if (0 <? n) && ((off <? 0) || (st <? 0) || (Z.of_nat (length es) <=? off + (n - 1) * st)) then Err
      else
        let ft' := ftype_of mach (fst ft) mach in
        let got := reorder (snd ft) (snd ft')
                     (map (fun i => nth (Z.to_nat (off + Z.of_nat i * st)) es []) (seq 0 (Z.to_nat n))) in
        match dest with
        | TLeaf (Some (t, e, d)) =>
            if tid_eqb t (fst ft) && (length got <=? length d)%nat
            then Ok (TLeaf (Some (t, e, got ++ skipn (length got) d)))
            else Ok (TLeaf (Some (fst ft', snd ft', got)))
        | _ => Ok (TLeaf (Some (fst ft', snd ft', got)))
        end.
  (** istringstream >> int: blanks, a sign and digits; no number gives 0, one that is
      too large the largest int. *)
  Definition stream_int (t : str) : Z :=
    let z := match a_blank t with
             | [] => 0
             | c :: r =>
                 if Ascii.eqb c "-" then - a_digits 0 r
                 else if Ascii.eqb c "+" then a_digits 0 r
                 else a_digits 0 (c :: r)
             end in
    Z.max (- 2 ^ 31) (Z.min (2 ^ 31 - 1) z).
  (** read_hdf5_group_into_conduit_node, 2595-2701, with the traversal 2386-2591.
      dest.set(object or list) keeps what is there if it is of that kind (conduit_node.cpp
      17249-17270).  node.fetch of ".." ends in an error: fetch of an empty path from
      the parent, or no parent (14416-14450). *)
  Definition fresh : tree leafval := TLeaf None.
  Fixpoint r_node (ro : ropts) (h : hobj) (dest : tree leafval) : outcome (tree leafval) :=
    match h with
    | HNull => Ok fresh
    | HDset ft es _ => r_dset ro ft es dest
    | HGroup false ls =>
        do d <- (fix go (ls : list (str * hobj)) (d : list (str * tree leafval)) : outcome (list (str * tree leafval)) :=
                   match ls with
                   | [] => Ok d
                   | e :: r =>
                       if str_eqb (fst e) (L "..") then Err
                       else do c <- r_node ro (snd e) (or_else (mget d (fst e)) fresh);
                            go r (mset d (fst e) c)
                   end) ls (match dest with TObj d => d | _ => [] end);
        Ok (TObj d)
    | HGroup true ls =>
        do d <- (fix go (ls : list (str * hobj)) (d : list (tree leafval)) : outcome (list (tree leafval)) :=
                   match ls with
                   | [] => Ok d
                   | e :: r =>
                       let i := stream_int (fst e) in
                       let d1 := if Z.of_nat (length d) <=? i then d ++ [fresh] else d in
                       if (i <? 0) || (Z.of_nat (length d1) <=? i) then Err
                       else do c <- r_node ro (snd e) (nth (Z.to_nat i) d1 fresh);
                            go r (set_nth d1 (Z.to_nat i) c)
                   end) ls (match dest with TList d => d | _ => [] end);
        Ok (TList d)
    end.
  (** hdf5_read, 3702-3744 *)
  Definition h_read (ro : ropts) (f : hobj) (p : list str) (dest : tree leafval) : outcome (tree leafval) :=
    match h_find f p with Some h => r_node ro h dest | None => Err end.

  (** ** Programs over one file *)
  Inductive hop := HWrite (p : list str) (v : tree leafval) | HRemove (p : list str).
  Definition h_step (f : hobj) (op : hop) : hobj * outcome unit :=
    match op with
    | HWrite p v => h_write no_opts f p v
    | HRemove p => h_remove f p
    end.
  Fixpoint h_run (f : hobj) (ops : list hop) : hobj * list (outcome unit) :=
    match ops with
    | [] => (f, [])
    | op :: r => let (f1, s) := h_step f op in let (f2, ss) := h_run f1 r in (f2, s :: ss)
    end.
End Machine.
