(** conduit::Node - src/libs/conduit/conduit_node.{hpp,cpp}.

    A Node holds a schema pointer, a data pointer, an "I allocated this" flag
    and a vector of child Nodes parallel to the schema's children.  The schema
    side is represented by the ordered dictionary it implements (P_Schema.v, C01),
    merged with the children into one inductive type.  Not represented: memory
    mapping, allocator ids (see Alloc.v), m_data_size, m_owns_schema, parent
    pointers (see NodeSwap.v).  Destination and source of an operation are
    distinct node objects, neither inside the other; they may share memory. *)
From Verif Require Import Base DType SpecTree Mem.
Local Open Scope Z_scope.

(** m_data and m_alloced, conduit_node.hpp 4750-4765. *)
Record hdr := mkH { h_data : option ptr; h_own : bool }.
Inductive node : Type :=
| NLeaf (h : hdr) (d : dtype)
| NObj (h : hdr) (es : list (str * node))
| NLst (h : hdr) (ks : list node).

Definition n_hdr (n : node) : hdr :=
  match n with NLeaf h _ => h | NObj h _ => h | NLst h _ => h end.
Definition null_hdr : hdr := mkH None false.
(** Node(), conduit_node.cpp 103-107 with init_defaults 17376-17391. *)
Definition nempty : node := NLeaf null_hdr dt_empty.
(** Node::dtype() *)
Definition n_dtype (n : node) : dtype :=
  match n with NLeaf _ d => d | NObj _ _ => dt_object | NLst _ _ => dt_list end.
(** Node::schema() *)
Fixpoint nschema (n : node) : tree dtype :=
  match n with
  | NLeaf _ d => TLeaf d
  | NObj _ es => TObj (map (fun e => (fst e, nschema (snd e))) es)
  | NLst _ ks => TList (map nschema ks)
  end.
Definition is_empty (d : dtype) : bool := tid_eqb (dt_id d) EMPTY.

(** Schema::total_bytes_compact (conduit_schema.cpp 245-263) on the abstract
    schema; equal to the schema model's by C08_total_bytes_compact_is_sum. *)
Definition ttotal (t : tree dtype) : Z := total_of (tleaves t).
(** Schema::total_strided_bytes, conduit_schema.cpp 222-241. *)
Definition leaf_strided (d : dtype) : Z := if is_empty d then 0 else strided_bytes d.
Definition tstrided (t : tree dtype) : Z := fold_right Z.add 0 (map leaf_strided (tleaves t)).
(** Schema::spanned_bytes, conduit_schema.cpp 195-218. *)
Definition tspanned (t : tree dtype) : Z :=
  match t with
  | TLeaf d => spanned_bytes d
  | _ => fold_right Z.max 0 (map spanned_bytes (tleaves t))
  end.
(** Schema::is_compact, conduit_schema.cpp 266-270. *)
Definition tis_compact (t : tree dtype) : bool := ttotal t =? tstrided t.

(** Schema::compact_to (conduit_schema.cpp 393-404, 839-903) on the abstract
    schema; [NodeFacts.tcompact_abs] relates it to the schema model. *)
Definition leaf_compact (d : dtype) (off : Z) : dtype :=
  if is_empty d then dt_empty
  else mkDT (dt_id d) (dt_n d) off (default_bytes (dt_id d)) (default_bytes (dt_id d)) (dt_endian d).
Fixpoint tcompact (t : tree dtype) (off : Z) : tree dtype :=
  match t with
  | TLeaf d => TLeaf (leaf_compact d off)
  | TObj es =>
      TObj ((fix go l o := match l with
                           | [] => []
                           | (k, c) :: r => (k, tcompact c o) :: go r (o + ttotal c)
                           end) es off)
  | TList ts =>
      TList ((fix go l o := match l with
                            | [] => []
                            | c :: r => tcompact c o :: go r (o + ttotal c)
                            end) ts off)
  end.

(** ---- memory management ---- *)
(** The freeing part of Node::release, conduit_node.cpp 17317-17333. *)
Definition free_h (m : mem) (h : hdr) : outcome mem :=
  match h_own h, h_data h with
  | true, Some p => free m p
  | _, _ => Ok m
  end.
Definition freed_h (h : hdr) : hdr :=
  match h_own h, h_data h with
  | true, Some _ => null_hdr
  | _, _ => h
  end.
(** Node::release, conduit_node.cpp 17307-17340: children are deleted (~Node ->
    cleanup -> release), then the node's own buffer, unless its type is EMPTY. *)
Fixpoint nfree (m : mem) (n : node) : outcome mem :=
  match n with
  | NLeaf h d => if is_empty d then Ok m else free_h m h
  | NObj h es =>
      do m1 <- (fix go m l := match l with
                              | [] => Ok m
                              | (_, c) :: r => do m' <- nfree m c; go m' r
                              end) m es;
      free_h m1 h
  | NLst h ks =>
      do m1 <- (fix go m l := match l with
                              | [] => Ok m
                              | c :: r => do m' <- nfree m c; go m' r
                              end) m ks;
      free_h m1 h
  end.
(** What release leaves in m_data / m_alloced. *)
Definition rel_hdr (n : node) : hdr :=
  match n with
  | NLeaf h d => if is_empty d then h else freed_h h
  | NObj h _ => freed_h h
  | NLst h _ => freed_h h
  end.
(** Node::reset, conduit_node.cpp 123-127. *)
Definition nreset (m : mem) (n : node) : outcome (mem * node) :=
  do m1 <- nfree m n; Ok (m1, NLeaf (rel_hdr n) dt_empty).

(** Node::allocate(index_t), conduit_node.cpp 17283-17291. *)
Definition nalloc (m : mem) (size : Z) : outcome (mem * hdr) :=
  do (m1, p) <- alloc m size; Ok (m1, mkH (Some p) true).

(** A node with the fields of a dtype and no children (Schema::set(DataType)). *)
Definition of_dtype (h : hdr) (d : dtype) : node :=
  match dt_id d with
  | OBJECT => NObj h []
  | LIST => NLst h []
  | _ => NLeaf h d
  end.
(** Node::init, conduit_node.cpp 17249-17270.  release() is called only if there
    is data or children; without either it does nothing. *)
Definition ninit (m : mem) (n : node) (d : dtype) : outcome (mem * node) :=
  if dt_compatible (n_dtype n) d then Ok (m, n)
  else
    do m1 <- nfree m n;
    match dt_id d with
    | OBJECT | LIST | EMPTY => Ok (m1, of_dtype (rel_hdr n) d)
    | _ => do (m2, h) <- nalloc m1 (spanned_bytes d); Ok (m2, NLeaf h d)
    end.

(** ---- wiring children to data ---- *)
(** Node::walk_schema, conduit_node.cpp 17456-17494: every node of the tree gets
    the same data pointer; only the root may own it. *)
Fixpoint walk (t : tree dtype) (data : option ptr) (own : bool) : node :=
  match t with
  | TLeaf d => NLeaf (mkH data own) d
  | TObj es => NObj (mkH data own) (map (fun e => (fst e, walk (snd e) data false)) es)
  | TList ts => NLst (mkH data own) (map (fun c => walk c data false) ts)
  end.
(** Node::mirror_node, conduit_node.cpp 17498-17538. *)
Fixpoint mirror (s : node) (own : bool) : node :=
  match s with
  | NLeaf h d => NLeaf (mkH (h_data h) own) d
  | NObj h es => NObj (mkH (h_data h) own) (map (fun e => (fst e, mirror (snd e) false)) es)
  | NLst h ks => NLst (mkH (h_data h) own) (map (fun c => mirror c false) ks)
  end.

(** ---- copying out ---- *)
(** element_ptr(0), conduit_node.hpp 4167-4170 *)
Definition elem0 (h : hdr) (d : dtype) : option ptr := opadd (h_data h) (eaddr d 0).
(** Node::compact_elements_to, conduit_node.cpp 17572-17602 *)
Definition leaf_write (m : mem) (h : hdr) (d : dtype) (dst : option ptr) : outcome mem :=
  match dt_id d with
  | OBJECT | LIST | EMPTY => Ok m
  | t => memcpy_strided m dst (dt_n d) (default_bytes t) (default_bytes t) (elem0 h d) (dt_stride d)
  end.
(** Node::compact_to(uint8 ptr,index_t), conduit_node.cpp 17548-17567 *)
Fixpoint nwrite (m : mem) (n : node) (data : option ptr) (off : Z) : outcome mem :=
  match n with
  | NLeaf h d => leaf_write m h d (opadd data off)
  | NObj _ es =>
      (fix go m l o := match l with
                       | [] => Ok m
                       | (_, c) :: r => do m' <- nwrite m c data o; go m' r (o + ttotal (nschema c))
                       end) m es off
  | NLst _ ks =>
      (fix go m l o := match l with
                       | [] => Ok m
                       | c :: r => do m' <- nwrite m c data o; go m' r (o + ttotal (nschema c))
                       end) m ks off
  end.
(** Node::compact_to(Node&), conduit_node.cpp 8486-8502 *)
Definition ncompact_to (m : mem) (src dest : node) : outcome (mem * node) :=
  do (m1, d1) <- nreset m dest;
  let sz := ttotal (nschema src) in
  do (m2, h) <- (if 0 <? sz then nalloc m1 sz else Ok (m1, n_hdr d1));
  do m3 <- nwrite m2 src (h_data h) 0;
  Ok (m3, walk (tcompact (nschema src) 0) (h_data h) (h_own h)).

(** Node::serialize(uint8 ptr,index_t), conduit_node.cpp 17607-17634 *)
Definition leaf_serialize (m : mem) (h : hdr) (d : dtype) (dst : option ptr) : outcome mem :=
  if tis_compact (TLeaf d) then memcpy m dst (elem0 h d) (ttotal (TLeaf d))
  else leaf_write m h d dst.
Fixpoint nserialize_at (m : mem) (n : node) (data : option ptr) (off : Z) : outcome mem :=
  match n with
  | NLeaf h d => leaf_serialize m h d (opadd data off)
  | NObj _ es =>
      (fix go m l o := match l with
                       | [] => Ok m
                       | (_, c) :: r => do m' <- nserialize_at m c data o; go m' r (o + tstrided (nschema c))
                       end) m es off
  | NLst _ ks =>
      (fix go m l o := match l with
                       | [] => Ok m
                       | c :: r => do m' <- nserialize_at m c data o; go m' r (o + tstrided (nschema c))
                       end) m ks off
  end.
(** Node::serialize(std::vector<uint8>&), conduit_node.cpp 8422-8427; the vector
    is a fresh block, returned with the memory. *)
Definition nserialize (m : mem) (n : node) : outcome (mem * ptr) :=
  do (m1, p) <- alloc m (ttotal (nschema n));
  do m2 <- nserialize_at m1 n (Some p) 0;
  Ok (m2, p).
(** Node::serialize(std::ofstream&), conduit_node.cpp 8446-8478: the bytes
    written to the stream.  The non-compact branch goes through a scratch buffer
    of total_bytes_compact bytes; what it holds after compact_elements_to is the
    elements one after the other. *)
Definition omapM {A B} (f : A -> outcome B) : list A -> outcome (list B) :=
  fix go l :=
    match l with
    | [] => Ok []
    | x :: r => do y <- f x; do ys <- go r; Ok (y :: ys)
    end.
Definition zseq (n : Z) : list Z := map Z.of_nat (seq 0 (Z.to_nat n)).
Definition leaf_stream (m : mem) (h : hdr) (d : dtype) : outcome (list byte) :=
  if tis_compact (TLeaf d) then oload m (elem0 h d) (strided_bytes d)
  else
    do (m1, p) <- alloc m (bytes_compact d);
    do m2 <- leaf_write m1 h d (Some p);
    load m2 p (bytes_compact d).
Fixpoint nstream (m : mem) (n : node) : outcome (list byte) :=
  match n with
  | NLeaf h d => if is_empty d then Ok [] else leaf_stream m h d
  | NObj _ es => do l <- omapM (fun e => nstream m (snd e)) es; Ok (concat l)
  | NLst _ ks => do l <- omapM (nstream m) ks; Ok (concat l)
  end.

(** ---- set ---- *)
(** Node::set_node, conduit_node.cpp 469-516.  Fresh children start as Node(). *)
Fixpoint nset (m : mem) (dest src : node) : outcome (mem * node) :=
  match src with
  | NObj _ es =>
      do (m1, d1) <- nreset m dest;
      do (m2, kids) <- (fix go m l := match l with
                                      | [] => Ok (m, [])
                                      | (k, c) :: r =>
                                          do (m', c') <- nset m nempty c;
                                          do (m'', r') <- go m' r;
                                          Ok (m'', (k, c') :: r')
                                      end) m1 es;
      Ok (m2, NObj (n_hdr d1) kids)
  | NLst _ ks =>
      do (m1, d1) <- nreset m dest;
      do (m2, kids) <- (fix go m l := match l with
                                      | [] => Ok (m, [])
                                      | c :: r =>
                                          do (m', c') <- nset m nempty c;
                                          do (m'', r') <- go m' r;
                                          Ok (m'', c' :: r')
                                      end) m1 ks;
      Ok (m2, NLst (n_hdr d1) kids)
  | NLeaf _ d => if is_empty d then nreset m dest else ncompact_to m src dest
  end.

(** Node::set_external(const Node&), conduit_node.cpp 4544-4550: note m_alloced of
    the destination is whatever reset() left. *)
Definition nset_external (m : mem) (dest src : node) : outcome (mem * node) :=
  do (m1, d1) <- nreset m dest;
  Ok (m1, mirror src (h_own (n_hdr d1))).
(** Node::set_external(const Schema&, void ptr), conduit_node.cpp 4560-4567 *)
Definition nset_external_schema (m : mem) (dest : node) (t : tree dtype) (data : option ptr)
  : outcome (mem * node) :=
  do (m1, d1) <- nreset m dest;
  Ok (m1, walk t data (h_own (n_hdr d1))).
(** Node::set(const Schema&), conduit_node.cpp 534-546 (calloc already zeroes) *)
Definition nset_schema (m : mem) (dest : node) (t : tree dtype) : outcome (mem * node) :=
  do m1 <- nfree m dest;
  do (m2, h) <- nalloc m1 (tspanned t);
  Ok (m2, walk t (h_data h) (h_own h)).
(** Node::set(const Schema&, void ptr), conduit_node.cpp 557-568; set(DataType,void ptr)
    578-589 is the case of a leaf. *)
Definition nset_schema_data (m : mem) (dest : node) (t : tree dtype) (data : option ptr)
  : outcome (mem * node) :=
  do m1 <- nfree m dest;
  do (m2, h) <- nalloc m1 (tspanned t);
  do m3 <- memcpy m2 (h_data h) data (tspanned t);
  Ok (m3, walk t (h_data h) (h_own h)).

(** Node::set_<type>_array, conduit_node.cpp 934-946 (and the other types):
    copies as many elements as the DESTINATION has after init. *)
Definition nset_array (m : mem) (dest : node) (src : option ptr) (sd : dtype) : outcome (mem * node) :=
  do (m1, n) <- ninit m dest (dt_simple (dt_id sd) (dt_n sd));
  match n with
  | NLeaf h d =>
      do m2 <- memcpy_strided m1 (elem0 h d) (dt_n d) (dt_ebytes d) (dt_stride d)
                              (opadd src (eaddr sd 0)) (dt_stride sd);
      Ok (m2, n)
  | _ => UB
  end.
(** Node::set_<type>_vector, conduit_node.cpp 1495-1502: a plain memcpy. *)
Definition nset_vector (m : mem) (dest : node) (t : tid) (src : option ptr) (n : Z) : outcome (mem * node) :=
  do (m1, nd) <- ninit m dest (dt_simple t n);
  match nd with
  | NLeaf h d =>
      do m2 <- memcpy m1 (elem0 h d) src (default_bytes t * n);
      Ok (m2, nd)
  | _ => UB
  end.
(** Node::set_string, conduit_node.cpp 1409-1440: [n] counts the terminating NUL. *)
Definition nset_string (m : mem) (dest : node) (src : option ptr) (n : Z) : outcome (mem * node) :=
  do (m1, nd) <- ninit m dest (dt_simple CHAR8_STR n);
  match nd with
  | NLeaf h d =>
      do m2 <- memcpy_strided m1 (elem0 h d) n (dt_ebytes d) (dt_stride d) src (dt_ebytes d);
      Ok (m2, nd)
  | _ => UB
  end.

(** ---- update ---- *)
(** add_child seen from update, conduit_node.cpp 14264-14279: a leaf becomes an
    object and keeps its data pointer; on a non-empty list the schema drops its
    children while m_children keeps the now dangling nodes, and the next access by
    index reaches them: UB. *)
Definition as_obj (n : node) : outcome (hdr * list (str * node)) :=
  match n with
  | NObj h es => Ok (h, es)
  | NLeaf h _ => Ok (h, [])
  | NLst h [] => Ok (h, [])
  | NLst h (_ :: _) => UB
  end.
Definition child_or_new (es : list (str * node)) (k : str) : node :=
  match mget es k with Some c => c | None => nempty end.
(** Same type and at least as many elements, conduit_node.cpp 8560-8562. *)
Definition takes (dd sd : dtype) : bool :=
  tid_eqb (dt_id dd) (dt_id sd) && (dt_n dd >=? dt_n sd).
Definition leaf_take (m : mem) (dh : hdr) (dd : dtype) (sh : hdr) (sd : dtype) : outcome mem :=
  memcpy_strided m (elem0 dh dd) (dt_n sd) (dt_ebytes dd) (dt_stride dd) (elem0 sh sd) (dt_stride sd).
(** Node::update, conduit_node.cpp 8510-8585 *)
Fixpoint nupdate (m : mem) (dest src : node) : outcome (mem * node) :=
  match src with
  | NObj _ ses =>
      match ses with
      | [] => Ok (m, dest)
      | _ =>
          do (h, des) <- as_obj dest;
          do (m', des') <-
             (fix go m des l :=
                match l with
                | [] => Ok (m, des)
                | (k, c) :: r =>
                    do (m', c') <- nupdate m (child_or_new des k) c;
                    go m' (mset des k c') r
                end) m des ses;
          Ok (m', NObj h des')
      end
  | NLst _ sks =>
      match dest with
      | NLst h dks =>
          do (m', dks') <-
             (fix go m dks l {struct l} :=
                match l with
                | [] => Ok (m, dks)
                | c :: r =>
                    let (d0, drest) := match dks with [] => (nempty, []) | d0 :: dr => (d0, dr) end in
                    do (m', d') <- nupdate m d0 c;
                    do (m'', r') <- go m' drest r;
                    Ok (m'', d' :: r')
                end) m dks sks;
          Ok (m', NLst h dks')
      | _ =>
          match sks with
          | [] => Ok (m, dest)
          | _ =>
              do m1 <- nfree m dest;
              do (m', dks') <-
                 (fix go m l :=
                    match l with
                    | [] => Ok (m, [])
                    | c :: r =>
                        do (m', d') <- nupdate m nempty c;
                        do (m'', r') <- go m' r;
                        Ok (m'', d' :: r')
                    end) m1 sks;
              Ok (m', NLst (rel_hdr dest) dks')
          end
      end
  | NLeaf sh sd =>
      if is_empty sd then Ok (m, dest)
      else
        match dest with
        | NLeaf dh dd =>
            if takes dd sd then do m' <- leaf_take m dh dd sh sd; Ok (m', dest)
            else ncompact_to m src dest
        | _ => ncompact_to m src dest
        end
  end.

(** Node::update_compatible, conduit_node.cpp 8589-8648: no node of the
    destination changes, only memory. *)
Fixpoint nupdate_compatible (m : mem) (dest src : node) : outcome mem :=
  match src with
  | NObj _ ses =>
      match dest with
      | NObj _ des =>
          (fix go m l :=
             match l with
             | [] => Ok m
             | (k, c) :: r =>
                 do m' <- match mget des k with
                          | Some d => nupdate_compatible m d c
                          | None => Ok m
                          end;
                 go m' r
             end) m ses
      | _ => Ok m
      end
  | NLst _ sks =>
      match dest with
      | NLst _ dks =>
          (fix go m dks l {struct l} :=
             match l, dks with
             | c :: r, d :: dr => do m' <- nupdate_compatible m d c; go m' dr r
             | _, _ => Ok m
             end) m dks sks
      | _ => Ok m
      end
  | NLeaf sh sd =>
      if is_empty sd then Ok m
      else
        match dest with
        | NLeaf dh dd => if takes dd sd then leaf_take m dh dd sh sd else Ok m
        | _ => Ok m
        end
  end.

(** ---- endianness ---- *)
(** Endianness::swap16/32/64 in place (conduit_endianness.cpp 90-145), one
    element: its bytes in reverse order. *)
Definition swap_elem (m : mem) (p : option ptr) (nb : Z) : outcome mem :=
  do bs <- oload m p nb; ostore m p (rev bs).
(** The element_ptr(i) loop; element_index raises the stride-0 warning. *)
Fixpoint swap_loop (k : nat) (i : Z) (m : mem) (h : hdr) (d : dtype) (nb : Z) : outcome mem :=
  match k with
  | O => Ok m
  | S k' =>
      do a <- element_index d i;
      do m' <- swap_elem m (opadd (h_data h) a) nb;
      swap_loop k' (i + 1) m' h d nb
  end.
(** [mach] is Endianness::machine_default(), BIG_E or LITTLE_E. *)
Definition resolve (mach e : endian) : endian :=
  match e with DEFAULT_E => mach | _ => e end.
Definition dt_set_endian (d : dtype) (e : endian) : dtype :=
  mkDT (dt_id d) (dt_n d) (dt_off d) (dt_stride d) (dt_ebytes d) e.
Definition leaf_endian_swap (mach : endian) (m : mem) (h : hdr) (d : dtype) (e : endian)
  : outcome (mem * node) :=
  let nb := default_bytes (dt_id d) in
  let se := resolve mach (dt_endian d) in
  let de := resolve mach e in
  do m' <- (if negb (endian_eqb se de) && ((nb =? 2) || (nb =? 4) || (nb =? 8))
            then swap_loop (Z.to_nat (dt_n d)) 0 m h d nb
            else Ok m);
  Ok (m', NLeaf h (dt_set_endian d de)).
(** Node::endian_swap, conduit_node.cpp 8788-8839 *)
Fixpoint nendian_swap (mach : endian) (m : mem) (n : node) (e : endian) : outcome (mem * node) :=
  match n with
  | NLeaf h d => leaf_endian_swap mach m h d e
  | NObj h es =>
      do (m', es') <- (fix go m l := match l with
                                     | [] => Ok (m, [])
                                     | (k, c) :: r =>
                                         do (m', c') <- nendian_swap mach m c e;
                                         do (m'', r') <- go m' r;
                                         Ok (m'', (k, c') :: r')
                                     end) m es;
      Ok (m', NObj h es')
  | NLst h ks =>
      do (m', ks') <- (fix go m l := match l with
                                     | [] => Ok (m, [])
                                     | c :: r =>
                                         do (m', c') <- nendian_swap mach m c e;
                                         do (m'', r') <- go m' r;
                                         Ok (m'', c' :: r')
                                     end) m ks;
      Ok (m', NLst h ks')
  end.

(** ---- aliasing ---- *)
(** n.set(n), conduit_node.cpp 469-516: reset() runs first, so the children and
    the type of the source are gone when they are read; for a leaf compact_to
    (8486-8502) likewise finds an empty source. *)
Definition nset_self (m : mem) (n : node) : outcome (mem * node) :=
  do (m1, d1) <- nreset m n;
  match n with
  | NObj _ _ => Ok (m1, NObj (n_hdr d1) [])
  | NLst _ _ => Ok (m1, NLst (n_hdr d1) [])
  | NLeaf _ _ => Ok (m1, d1)
  end.

(** ---- strings ---- *)
(** The bytes before the first NUL; running off the end of the block is UB. *)
Fixpoint until_nul (l : list byte) : outcome (list byte) :=
  match l with
  | [] => UB
  | b :: r => if Ascii.eqb b zero_byte then Ok [] else do s <- until_nul r; Ok (b :: s)
  end.
(** std::string(const char ptr) *)
Definition cstr (m : mem) (p : option ptr) : outcome (list byte) :=
  match p with
  | None => UB
  | Some (b, o) =>
      match nth_error m b with
      | Some (Some l) => if o <? 0 then UB else until_nul (skipn (Z.to_nat o) l)
      | _ => UB
      end
  end.
(** Node::as_string, conduit_node.cpp 15454-15461 with as_char8_str 15443-15450:
    the element stride is not looked at.  A type mismatch is an error. *)
Definition nas_string (m : mem) (n : node) : outcome (list byte) :=
  match n with
  | NLeaf h d => if tid_eqb (dt_id d) CHAR8_STR then cstr m (elem0 h d) else Err
  | _ => Err
  end.
