(** Ranks that exchange nodes: communicate_using_schema,
    src/libs/relay/conduit_relay_mpi.cpp 1948-2285, on all ranks of a communicator, with the
    calls of the ranks in any order.

    A rank has its own memory and Node variables ([state] of NodeHist.v); rank numbers are
    indices.  What MPI promises is modelled by one list of messages on their way: a receive
    for a source and a tag takes the oldest message of that source and tag for this rank
    (messages do not overtake one another); MPI_Probe waits for it, and the MPI_Irecv that
    follows takes the message probed.  MPI_ANY_SOURCE is left out.  [eager] is whether
    MPI_Waitall returns before the messages sent have been received.  The buffers
    operations[i].node[1] are gone as soon as their bytes are copied, not in clear(). *)
From Verif Require Import Base DType SpecTree Schema Mem Node Json Save Contig Number NodeDiff ArrayOps NodeHist Mpi.
Local Open Scope Z_scope.

(** add_isend, 1983-2002, and add_irecv, 2005-2024: variable, rank, tag *)
Inductive call := Isend (var dest : nat) (tag : Z) | Irecv (var src : nat) (tag : Z).
Definition add_call (ops : list call) (c : call) : outcome (list call) :=
  let tag := match c with Isend _ _ t => t | Irecv _ _ t => t end in
  if tag <? 0 then Err else Ok (ops ++ [c]).

(** source, destination, tag, bytes *)
Definition packet := (nat * nat * Z * list byte)%type.
Definition goes (src dest : nat) (tag : Z) (x : packet) : bool :=
  let '(s, d, t, _) := x in Nat.eqb s src && Nat.eqb d dest && (t =? tag).
Fixpoint take_first (src dest : nat) (tag : Z) (net : list packet) : option (list byte * list packet) :=
  match net with
  | [] => None
  | x :: net' =>
      if goes src dest tag x then Some (snd x, net')
      else match take_first src dest tag net' with Some (b, r) => Some (b, x :: r) | None => None end
  end.
Definition from (src : nat) (x : packet) : bool := Nat.eqb (fst (fst (fst x))) src.

(** A rank inside execute_internal: the MPI_Isend calls and the MPI_Probe calls still to make
    (variable, other rank, tag), and what has been received for which variable *)
Record rank := mkRank {
  r_state : state;
  r_count : nat;
  r_sends : list (nat * nat * Z);
  r_recvs : list (nat * nat * Z);
  r_got : list (nat * list byte);
  r_done : bool }.
Record world := mkW { w_ranks : list rank; w_net : list packet }.
Definition sends_in (ops : list call) : list (nat * nat * Z) :=
  flat_map (fun c => match c with Isend v d t => [(v, d, t)] | _ => [] end) ops.
Definition recvs_in (ops : list call) : list (nat * nat * Z) :=
  flat_map (fun c => match c with Irecv v s t => [(v, s, t)] | _ => [] end) ops.
Definition begin (s : state) (ops : list call) : rank :=
  mkRank s (length ops) (sends_in ops) (recvs_in ops) [] false.

Section Net.
  Variable parse : str -> outcome jval.
  Variable mach : endian.
  Variable base : nat -> Z.
  Variable ub : Z.
  Variable eager : bool.

  (** 2233-2269, the loop that builds the nodes received *)
  Fixpoint build (s : state) (got : list (nat * list byte)) : outcome state :=
    match got with
    | [] => Ok s
    | (i, bytes) :: got' =>
        do n <- deref (nth_error (s_vars s) i);
        do (m, r) <- recv_using_schema parse (s_mem s) n bytes;
        build (mkSt m (set_nth (s_vars s) i r)) got'
    end.

  (** One call of MPI by one rank: the next MPI_Isend, 2095-2157; the next MPI_Probe with its
      MPI_Irecv, 2167-2215; or MPI_Waitall and the rest, 2222-2285.  [None]: the rank waits, or has
      returned.  &requests[0] is undefined for a rank without operations, 2230. *)
  Definition advance (w : world) (me : nat) : outcome (option world) :=
    match nth_error (w_ranks w) me with
    | None => Ok None
    | Some k =>
        let put k' net' := Ok (Some (mkW (set_nth (w_ranks w) me k') net')) in
        if r_done k then Ok None
        else
          match r_sends k with
          | (i, dest, tag) :: rest =>
              if Nat.leb (length (w_ranks w)) dest then Err
              else
                do n <- deref (nth_error (s_vars (r_state k)) i);
                do (m, bytes) <- send_using_schema mach base (s_mem (r_state k)) n;
                put (mkRank (mkSt m (s_vars (r_state k))) (r_count k) rest (r_recvs k) (r_got k) false)
                    (w_net w ++ [(me, dest, safe_tag ub tag, bytes)])
          | [] =>
              match r_recvs k with
              | (i, src, tag) :: rest =>
                  if Nat.leb (length (w_ranks w)) src then Err
                  else
                    match take_first src me (safe_tag ub tag) (w_net w) with
                    | None => Ok None
                    | Some (bytes, net') =>
                        put (mkRank (r_state k) (r_count k) [] rest (r_got k ++ [(i, bytes)]) false) net'
                    end
              | [] =>
                  if Nat.eqb (r_count k) 0 then UB
                  else if negb eager && existsb (from me) (w_net w) then Ok None
                  else
                    do s' <- build (r_state k) (r_got k);
                    put (mkRank s' (r_count k) [] [] [] true) (w_net w)
              end
          end
    end.

  (** [k] calls, by any ranks that do not wait *)
  Inductive calls : nat -> world -> world -> Prop :=
  | calls_0 w : calls 0 w w
  | calls_S k w w1 w2 me : calls k w w1 -> advance w1 me = Ok (Some w2) -> calls (S k) w w2.
  Definition all_done (w : world) : Prop := Forall (fun k => r_done k = true) (w_ranks w).
End Net.
