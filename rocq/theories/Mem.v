(** Byte memory.

    A memory is a list of blocks; a block is [Some bytes] while allocated and
    [None] once freed.  A pointer is a block number and a byte offset.  Every
    access is bounds checked: leaving a block, or touching a freed one, is [UB].
    Not modelled: alignment, effective types, comparison of addresses of
    different blocks, allocation failure. *)
From Verif Require Import Base.
Local Open Scope Z_scope.

Definition byte := ascii.
Definition block := option (list byte).
Definition mem := list block.
Definition ptr := (nat * Z)%type.
Definition zero_byte : byte := "000"%char.

(** One byte; [None] = not a valid address. *)
Definition rd (m : mem) (p : ptr) : option byte :=
  match nth_error m (fst p) with
  | Some (Some l) => if snd p <? 0 then None else nth_error l (Z.to_nat (snd p))
  | _ => None
  end.
Definition padd (p : ptr) (z : Z) : ptr := (fst p, snd p + z).

(** Bytes [lo, lo+n) of a list. *)
Definition sub_range (l : list byte) (lo n : nat) : list byte := firstn n (skipn lo l).
Definition put_range (l : list byte) (lo : nat) (bs : list byte) : list byte :=
  firstn lo l ++ bs ++ skipn (lo + length bs) l.

(** memcpy's two halves.  A transfer of zero bytes is taken to be a no-op even
    for a null or one-past-the-end pointer (the code relies on this for empty
    arrays; ISO C calls it undefined). *)
Definition load (m : mem) (p : ptr) (n : Z) : outcome (list byte) :=
  if n =? 0 then Ok []
  else match nth_error m (fst p) with
       | Some (Some l) =>
           if (0 <=? snd p) && (0 <=? n) && (snd p + n <=? Z.of_nat (length l))
           then Ok (sub_range l (Z.to_nat (snd p)) (Z.to_nat n))
           else UB
       | _ => UB
       end.
Definition store (m : mem) (p : ptr) (bs : list byte) : outcome mem :=
  match bs with
  | [] => Ok m
  | _ =>
      match nth_error m (fst p) with
      | Some (Some l) =>
          if (0 <=? snd p) && (snd p + Z.of_nat (length bs) <=? Z.of_nat (length l))
          then Ok (set_nth m (fst p) (Some (put_range l (Z.to_nat (snd p)) bs)))
          else UB
      | _ => UB
      end
  end.
(** Null pointers. *)
Definition oload (m : mem) (p : option ptr) (n : Z) : outcome (list byte) :=
  match p with
  | Some q => load m q n
  | None => if n =? 0 then Ok [] else UB
  end.
Definition ostore (m : mem) (p : option ptr) (bs : list byte) : outcome mem :=
  match p with
  | Some q => store m q bs
  | None => match bs with [] => Ok m | _ => UB end
  end.
Definition opadd (p : option ptr) (z : Z) : option ptr := option_map (fun q => padd q z) p.

(** utils::conduit_allocate(n,1): default_alloc_handler is calloc
    (conduit_utils.cpp 81-85, 246-254). A negative index_t becomes a huge size_t
    and calloc fails; the null result is then written through: UB. *)
Definition alloc (m : mem) (n : Z) : outcome (mem * ptr) :=
  if n <? 0 then UB
  else Ok (m ++ [Some (repeat zero_byte (Z.to_nat n))], (length m, 0)).
(** utils::conduit_free, conduit_utils.cpp 88-92, 257-262: free() wants the start of a live block. *)
Definition free (m : mem) (p : ptr) : outcome mem :=
  match nth_error m (fst p) with
  | Some (Some _) => if snd p =? 0 then Ok (set_nth m (fst p) None) else UB
  | _ => UB
  end.

(** Do [n] bytes from p and [n] bytes from q overlap? *)
Definition overlapb (p q : ptr) (n : Z) : bool :=
  (Nat.eqb (fst p) (fst q)) && (snd p <? snd q + n) && (snd q <? snd p + n) && (0 <? n).
Definition ooverlapb (p q : option ptr) (n : Z) : bool :=
  match p, q with Some a, Some b => overlapb a b n | _, _ => false end.

(** utils::conduit_memcpy with the default handler (memcpy),
    conduit_utils.cpp 102-106, 265-271: overlapping ranges are UB. *)
Definition memcpy (m : mem) (dst src : option ptr) (n : Z) : outcome mem :=
  if ooverlapb dst src n then UB
  else do bs <- oload m src n; ostore m dst bs.

(** utils::conduit_memcpy_strided_elements, conduit_utils.cpp 284-314.  Strides
    are passed as size_t; a negative stride wraps and the pointer arithmetic
    wraps back, so they are modelled as Z.  A negative count wraps to a huge
    one: UB. *)
Fixpoint copy_loop (n : nat) (m : mem) (dst : option ptr) (eb ds : Z)
         (src : option ptr) (ss : Z) : outcome mem :=
  match n with
  | O => Ok m
  | S n' =>
      do m' <- memcpy m dst src eb;
      copy_loop n' m' (opadd dst ds) eb ds (opadd src ss) ss
  end.
Definition memcpy_strided (m : mem) (dst : option ptr) (n eb ds : Z)
           (src : option ptr) (ss : Z) : outcome mem :=
  if n <? 0 then UB
  else if (ds =? eb) && (ss =? eb) then memcpy m dst src (eb * n)
  else copy_loop (Z.to_nat n) m dst eb ds src ss.
