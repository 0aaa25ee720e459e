(** conduit::utils - factor() and the allocator registry,
    src/libs/conduit/conduit_utils.cpp. *)
From Verif Require Import Base.
Local Open Scope Z_scope.

(** ---- factor, conduit_utils.cpp 2023-2044 ---- *)
(** index_t is modelled as Z: every value computed is between 0 and num+1.
    Integer % and / are Z.rem and Z.quot (truncation); a zero divisor cannot
    occur.  Inner while loop 2030-2035: state (n, prod, factors), factors
    reversed. *)
Fixpoint factor_while (fuel : nat) (f n prod : Z) (acc : list Z) : outcome (Z * Z * list Z) :=
  match fuel with
  | O => Fuel
  | S k => if Z.rem n f =? 0 then factor_while k f (Z.quot n f) (prod * f) (f :: acc)
           else Ok (n, prod, acc)
  end.
(** The for loop 2028-2036 *)
Fixpoint factor_for (fuel : nat) (num f n prod : Z) (acc : list Z) : outcome (list Z) :=
  match fuel with
  | O => Fuel
  | S k =>
      if (f <=? num) && (prod <? num) then
        do (n', prod', acc') <- factor_while (S (Z.to_nat num)) f n prod acc;
        factor_for k num (f + 1) n' prod' acc'
      else Ok (rev acc)
  end.
Definition factor (num : Z) : outcome (list Z) :=
  do fs <- factor_for (S (Z.to_nat num)) num 2 num 1 [];
  Ok (match fs with
      | [] => 1 :: (if 1 <? num then [num] else [])
      | _ => fs
      end).

(** ---- allocator registry, conduit_utils.cpp 107-243 ---- *)
Section Alloc.
  (** Function pointers: [A] allocators, [F] deallocators, [C] copy hooks,
      [M] memset hooks.  std::map<index_t,_>::operator[] on a missing key inserts
      a null function pointer, and the call through it is UB. *)
  Variables A F C M : Type.
  Fixpoint zget {V} (m : list (Z * V)) (k : Z) : option V :=
    match m with [] => None | (k', v) :: r => if k =? k' then Some v else zget r k end.
  Fixpoint zset {V} (m : list (Z * V)) (k : Z) (v : V) : list (Z * V) :=
    match m with
    | [] => [(k, v)]
    | (k', v') :: r => if k =? k' then (k', v) :: r else (k', v') :: zset r k v
    end.
  (** m_allocator_id, m_allocator_map, m_free_map 232-236; conduit_handle_memcpy,
      conduit_handle_memset 109-119 *)
  Record areg := mkA { a_next : Z; a_alloc : list (Z * A); a_free : list (Z * F); a_copy : C; a_memset : M }.
  (** constructor 215-226 *)
  Definition a_init (a0 : A) (f0 : F) (c0 : C) (m0 : M) : areg := mkA 1 [(0, a0)] [(0, f0)] c0 m0.
  Inductive aop := Register (a : A) (f : F) | SetCopy (c : C) | SetMemset (s : M).
  (** register_allocator 190-196, set_memcpy_handler 122-128,
      set_memset_handler 131-137; the result is the id for a registration. *)
  Definition a_step (s : areg) (o : aop) : areg * option Z :=
    match o with
    | Register a f =>
        (mkA (a_next s + 1) (zset (a_alloc s) (a_next s) a) (zset (a_free s) (a_next s) f) (a_copy s) (a_memset s),
         Some (a_next s))
    | SetCopy c => (mkA (a_next s) (a_alloc s) (a_free s) c (a_memset s), None)
    | SetMemset x => (mkA (a_next s) (a_alloc s) (a_free s) (a_copy s) x, None)
    end.
  (** The history's results, oldest first, and the final state. *)
  Fixpoint a_run (s : areg) (l : list aop) : list (option Z) * areg :=
    match l with
    | [] => ([], s)
    | o :: r => let (s1, x) := a_step s o in let (xs, s2) := a_run s1 r in (x :: xs, s2)
    end.
  (** allocate 199-204, free 207-211: the function called. *)
  Definition a_allocator (s : areg) (id : Z) : outcome A := deref (zget (a_alloc s) id).
  Definition a_deallocator (s : areg) (id : Z) : outcome F := deref (zget (a_free s) id).
End Alloc.
Arguments mkA {A F C M}. Arguments a_init {A F C M}. Arguments Register {A F C M}. Arguments SetCopy {A F C M}.
Arguments SetMemset {A F C M}. Arguments a_step {A F C M}. Arguments a_run {A F C M}. Arguments a_next {A F C M}.
Arguments a_alloc {A F C M}. Arguments a_free {A F C M}. Arguments a_copy {A F C M}. Arguments a_memset {A F C M}.
Arguments a_allocator {A F C M}. Arguments a_deallocator {A F C M}.
