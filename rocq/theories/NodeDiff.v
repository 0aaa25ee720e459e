(** Node::diff and Node::diff_compatible, src/libs/conduit/conduit_node.cpp 17835-18186,
    with DataArray<T>::diff and diff_compatible, conduit_data_array.cpp 116-442.

    Only the returned verdict is modelled, not the [info] report; since info reports
    x - y for every pair of elements, that subtraction is part of the model (signed
    overflow is UB), and since it quotes strings that differ, both are read to their NUL
    in any case.  Simplification: the elements of both arrays are read before the first
    comparison (the code reads pair by pair; matters only for which error comes first). *)
From Coq Require Import ZArith Floats.SpecFloat.
From Verif Require Import Base DType SpecTree Mem Node Number.
Local Open Scope Z_scope.

Section Diff.
Variable mach : endian.
Variable m : mem.
Variable eps : spec_float.
Variable relaxint : bool.

(** ( *this)[i] : element(idx), conduit_data_array.cpp 87-104, with the stride-0 warning of
    element_index *)
Definition elem_read (h : hdr) (d : dtype) (i : Z) : outcome (list byte) :=
  do a <- element_index d i; oload m (opadd (h_data h) a) (default_bytes (dt_id d)).
Definition elems_read (h : hdr) (d : dtype) (n : Z) : outcome (list (list byte)) :=
  omapM (elem_read h d) (zseq n).

(** info_ptr[i] = x - y of 205/420 in type T: int for the small types (no overflow),
    modular for unsigned ones; int32 and int64 can overflow *)
Definition sub_defined (t : tid) (x y : list byte) : bool :=
  match t with
  | INT32 | INT64 =>
      let z := ivalue mach t x - ivalue mach t y in (- 2 ^ (bits t - 1) <=? z) && (z <? 2 ^ (bits t - 1))
  | _ => true
  end.
(** 205-214 and 420-428 *)
Definition float_diff (t : tid) (x y : list byte) : bool :=
  let z := SFsub (prec_of t) (emax_of t) (fvalue mach t x) (fvalue mach t y) in
  let z := if tid_eqb t FLOAT32 then to_double z else z in
  SFltb eps z || SFltb z (SFopp eps).
Definition elem_diff (t : tid) (x y : list byte) : outcome bool :=
  if is_float t then Ok (float_diff t x y)
  else if sub_defined t x y then Ok (negb (ivalue mach t x =? ivalue mach t y)) else UB.
(** the loops at 203-215 and 418-429: stop at the end of the first array *)
Fixpoint elems_diff (t : tid) (xs ys : list (list byte)) : outcome bool :=
  match xs, ys with
  | x :: xr, y :: yr => do b <- elem_diff t x y; do r <- elems_diff t xr yr; Ok (b || r)
  | _, _ => Ok false
  end.

(** the C string a char8_str array stands for, 140-169 and 293-322: in place if compact,
    else from a compacted copy; None for an array of length 0 *)
Definition text_of (h : hdr) (d : dtype) : outcome (option (list byte)) :=
  if dt_n d <=? 0 then Ok None
  else if dt_is_compact d then do s <- cstr m (opadd (h_data h) (eaddr d 0)); Ok (Some s)
  else do es <- omapM (fun i => oload m (opadd (h_data h) (eaddr d i)) (default_bytes (dt_id d))) (zseq (dt_n d));
       do s <- until_nul (concat es); Ok (Some s).
(** strcmp(t,o) != 0 *)
Fixpoint strcmp_ne (s u : list byte) : bool :=
  match s, u with
  | [], [] => false
  | a :: s', b :: u' => if Ascii.eqb a b then strcmp_ne s' u' else true
  | _, _ => true
  end.
(** [starts s o]: strncmp(o, s, strlen(s)) == 0 *)
Fixpoint starts (s o : list byte) : bool :=
  match s, o with
  | [], _ => true
  | a :: s', b :: o' => Ascii.eqb a b && starts s' o'
  | _ :: _, [] => false
  end.
(** strstr(o, s): index of the first occurrence *)
Fixpoint strstr (o s : list byte) (at_ : nat) : option nat :=
  if starts s o then Some at_
  else match o with [] => None | _ :: r => strstr r s (S at_) end.

(** DataArray<T>::diff *)
Definition leaf_diff (h : hdr) (d : dtype) (h' : hdr) (d' : dtype) : outcome bool :=
  if (dt_n d <? 0) || (dt_n d' <? 0) then UB
  else if tid_eqb (dt_id d) CHAR8_STR then
    do s <- text_of h d; do u <- text_of h' d';
    Ok (match s, u with
        | None, None => false
        | Some s, Some u => strcmp_ne s u
        | _, _ => true
        end)
  else if negb (dt_n d =? dt_n d') then Ok true
  else do xs <- elems_read h d (dt_n d); do ys <- elems_read h' d' (dt_n d); elems_diff (dt_id d) xs ys.
(** DataArray<T>::diff_compatible *)
Definition leaf_diff_compatible (h : hdr) (d : dtype) (h' : hdr) (d' : dtype) : outcome bool :=
  if (dt_n d <? 0) || (dt_n d' <? 0) then UB
  else if tid_eqb (dt_id d) CHAR8_STR then
    do s <- text_of h d; do u <- text_of h' d';
    Ok (match s, u with
        | None, None => false
        | Some s, Some u =>
            if (length u <? length s)%nat then true
            else match strstr u s 0 with Some O => false | _ => true end
        | _, _ => true
        end)
  else if dt_n d' <? dt_n d then Ok true
  else do xs <- elems_read h d (dt_n d); do ys <- elems_read h' d' (dt_n d); elems_diff (dt_id d) xs ys.

(** Node::to_int64 8944-8971, to_uint64 9070-9097, on integer leaves: the first element *)
Definition first_int (h : hdr) (d : dtype) : outcome Z :=
  do x <- oload m (opadd (h_data h) (eaddr d 0)) (default_bytes (dt_id d)); Ok (ivalue mach (dt_id d) x).
(** 17845-17858 and 18031-18044: different type ids *)
Definition mismatch (h : hdr) (d : dtype) (h' : hdr) (d' : dtype) : outcome bool :=
  if relaxint then
    let t := dt_id d in
    let t' := dt_id d' in
    if is_unsigned t && is_unsigned t' then
      do x <- first_int h d; do y <- first_int h' d'; Ok (negb (wrap_u 64 x =? wrap_u 64 y))
    else if (is_signed t || is_unsigned t) && (is_signed t' || is_unsigned t') then
      do x <- first_int h d; do y <- first_int h' d'; Ok (negb (wrap_s 64 x =? wrap_s 64 y))
    else Ok true
  else Ok true.
(** the leaf branches; any other type id: CONDUIT_ERROR *)
Definition is_leaf_type (t : tid) : bool := match t with EMPTY | OBJECT | LIST => false | _ => true end.
Definition leaf_case (cmp : hdr -> dtype -> hdr -> dtype -> outcome bool) (h : hdr) (d : dtype) (h' : hdr) (d' : dtype) : outcome bool :=
  if negb (tid_eqb (dt_id d) (dt_id d')) then mismatch h d h' d'
  else if is_empty d then Ok false
  else if is_leaf_type (dt_id d) then cmp h d h' d'
  else Err.

(** Node::diff; children of objects are compared twice, once from each side *)
Fixpoint ndiff (a b : node) {struct a} : outcome bool :=
  match a, b with
  | NLeaf h d, NLeaf h' d' => leaf_case leaf_diff h d h' d'
  | NObj _ es, NObj _ es' =>
      do r1 <- (fix extra l := match l with
                | [] => Ok false
                | (k, c) :: r =>
                    do x <- match mget es' k with None => Ok true | Some c' => ndiff c c' end;
                    do y <- extra r; Ok (x || y)
                end) es;
      do r2 <- (fix missing l' := match l' with
                | [] => Ok false
                | (k, c') :: r =>
                    do x <- (fix find l := match l with
                             | [] => Ok true
                             | (k2, c) :: r2 => if str_eqb k k2 then ndiff c c' else find r2
                             end) es;
                    do y <- missing r; Ok (x || y)
                end) es';
      Ok (r1 || r2)
  | NLst _ ks, NLst _ ks' =>
      (fix pairs l l' := match l, l' with
       | [], [] => Ok false
       | c :: r, c' :: r' => do x <- ndiff c c'; do y <- pairs r r'; Ok (x || y)
       | _, _ => Ok true
       end) ks ks'
  | _, _ => Ok true
  end.
(** Node::diff_compatible *)
Fixpoint ndiff_compatible (a b : node) {struct a} : outcome bool :=
  match a, b with
  | NLeaf h d, NLeaf h' d' => leaf_case leaf_diff_compatible h d h' d'
  | NObj _ es, NObj _ es' =>
      (fix extra l := match l with
       | [] => Ok false
       | (k, c) :: r =>
           do x <- match mget es' k with None => Ok true | Some c' => ndiff_compatible c c' end;
           do y <- extra r; Ok (x || y)
       end) es
  | NLst _ ks, NLst _ ks' =>
      (fix pairs l l' := match l, l' with
       | [], _ => Ok false
       | c :: r, c' :: r' => do x <- ndiff_compatible c c'; do y <- pairs r r'; Ok (x || y)
       | _ :: _, [] => Ok true
       end) ks ks'
  | _, _ => Ok true
  end.
End Diff.
