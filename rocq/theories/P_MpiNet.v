(** C56: ranks that exchange nodes, whatever the order of their calls. *)
From Verif Require Import Base DType SpecTree Schema Codec Mem MemFacts Node SpecNode NodeFacts NodeSet NodeUpdateLaws NodeMerge NodeAlloc
  Json JsonSpec JsonFacts JsonSchema JsonRead Save SaveFacts Contig ContigFacts Number NodeDiff ArrayOps NodeHist HistSpec HistFacts HistRun Mpi MpiFacts MpiNet MpiCollFacts MpiNetFacts MpiNetMore P_Mpi.
Local Open Scope Z_scope.

(** A rank whose variables were made by some program (C41) *)
Definition made (mach : endian) (s : state) (vs : list value) : Prop :=
  exists k l, meaning mach (repeat none k) l vs /\ exec mach (start k) l = Ok s.
(** the variables hold the values, and every live buffer belongs to exactly one of them *)
Definition holds (s : state) (vs : list value) : Prop :=
  Forall2 (fun n v => nvalue (s_mem s) n = Ok v) (s_vars s) vs /\
  NoDup (concat (map owned_blocks (s_vars s))) /\
  (forall b, live (s_mem s) b <-> In b (concat (map owned_blocks (s_vars s)))).
Lemma made_inv mach s vs : made mach s vs -> inv s vs.
Proof.
  intros (k & l & M & E). destruct (exec_ok mach _ _ _ M (start k) (inv_start k)) as (s' & E' & I). rewrite E in E'. injection E' as <-. exact I.
Qed.
Lemma inv_holds s vs : inv s vs -> holds s vs.
Proof.
  intros (Sb & Lv & _). pose proof Sb as (V & G & P). split; [exact V|]. split; [eapply nodup_owned; eauto|].
  intros b. rewrite <- owned_all. split; [apply Lv|]. intros (c & I & O). eapply good_live; [|exact O]. rewrite Forall_forall in G. apply G. exact I.
Qed.

(** Ranks with any Node variables add sends and receives to a communicate_using_schema and
    execute it.  If every message sent is received by someone, tags are within MPI's bound and
    every rank has an operation, then in whatever order MPI lets the ranks go on: no call
    fails, at any time all ranks have returned or one of them can go on, after as many calls
    as there are operations and ranks all have returned, nothing is left in the network, and
    every variable of every rank has been updated by the values its receives were due, with no
    buffer lost.  This holds whether or not MPI buffers messages. *)
Theorem C56_exchange parse mach base ub eager progs sts vals finals k w :
  reads_json parse -> mach <> DEFAULT_E ->
  Forall2 (made mach) sts vals -> length sts = length progs ->
  Forall (fun ops => ops <> []) progs ->
  Forall (Forall (call_ok (length progs) ub)) progs ->
  (forall r s, nth_error sts r = Some s -> sends_ok mach base (nth r progs []) s (nth r vals [])) ->
  balanced progs ->
  (forall r, (r < length progs)%nat -> received mach progs vals r [] (nth r progs []) (nth r vals []) (nth r finals [])) ->
  calls parse mach base ub eager k (mkW (map (fun x => begin (fst x) (snd x)) (combine sts progs)) []) w ->
  (k <= list_sum (map (@length call) progs) + length progs)%nat /\
  (forall me, exists o, advance parse mach base ub eager w me = Ok o) /\
  (all_done w \/ exists me w', advance parse mach base ub eager w me = Ok (Some w')) /\
  (all_done w -> w_net w = [] /\ length (w_ranks w) = length progs /\ k = (list_sum (map (@length call) progs) + length progs)%nat /\
                 forall r x, nth_error (w_ranks w) r = Some x -> holds (r_state x) (nth r finals [])).
Proof.
  intros Pa Ma St Le So Ca Se Ba Fi C.
  assert (St' : Forall2 inv sts vals) by (clear - St; induction St; constructor; [eapply made_inv; eauto|assumption]).
  destruct (exchange_ok parse mach base ub eager progs sts vals finals Pa Ma St' Le So Ca Se Ba Fi k w C) as (H1 & H2 & H3 & H4).
  split; [exact H1|]. split; [exact H2|]. split; [exact H3|]. intros D. destruct (H4 D) as (A & B & E & F). split; [exact A|]. split; [exact B|]. split; [exact E|]. intros r x X. apply inv_holds. exact (F r x X).
Qed.
Print Assumptions C56_exchange.

(** When the operations of all ranks are those of one list of transfers, each adding its own
    in the order of the list, any tags at all will do: also tags above MPI's bound, which
    MPI cannot tell apart. *)
Theorem C56_transfers parse mach base ub eager l sts vals finals k w :
  0 <= ub -> reads_json parse -> mach <> DEFAULT_E -> Forall2 (made mach) sts vals ->
  Forall (fun x => (t_src x < length sts)%nat /\ (t_dest x < length sts)%nat) l ->
  (forall r, (r < length sts)%nat -> exists x, In x l /\ (t_src x = r \/ t_dest x = r)) ->
  (forall x s, In x l -> nth_error sts (t_src x) = Some s ->
     exists n v, nth_error (s_vars s) (t_from x) = Some n /\ nth_error (nth (t_src x) vals []) (t_from x) = Some v /\ sendable mach base n v) ->
  (forall r, (r < length sts)%nat -> transferred mach vals r l (nth r vals []) (nth r finals [])) ->
  calls parse mach base ub eager k (mkW (map (fun x => begin (fst x) (snd x)) (combine sts (map (fun r => calls_of r l) (seq 0 (length sts))))) []) w ->
  (k <= 2 * length l + length sts)%nat /\
  (forall me, exists o, advance parse mach base ub eager w me = Ok o) /\
  (all_done w \/ exists me w', advance parse mach base ub eager w me = Ok (Some w')) /\
  (all_done w -> w_net w = [] /\ length (w_ranks w) = length sts /\ k = (2 * length l + length sts)%nat /\
                 forall r x, nth_error (w_ranks w) r = Some x -> holds (r_state x) (nth r finals [])).
Proof.
  intros Ub Pa Ma St Rk So Se Tr C.
  assert (St' : Forall2 inv sts vals) by (clear - St; induction St; constructor; [eapply made_inv; eauto|assumption]).
  destruct (exchange_transfers parse mach base ub eager l sts vals finals k w Ub Pa Ma St' Rk So Se Tr C) as (H1 & H2 & H3 & H4).
  split; [exact H1|]. split; [exact H2|]. split; [exact H3|]. intros D. destruct (H4 D) as (A & B & E & F). split; [exact A|]. split; [exact B|]. split; [exact E|]. intros r x X. apply inv_holds. exact (F r x X).
Qed.
Print Assumptions C56_transfers.

(** A tag below zero is refused when the operation is added. *)
Theorem C56_negative_tag ops c : add_call ops c = Err <-> match c with Isend _ _ t | Irecv _ _ t => t < 0 end.
Proof. destruct c as [v d t|v s t]; unfold add_call; destruct (Z.ltb_spec t 0); split; intros; try discriminate; try reflexivity; lia. Qed.
Print Assumptions C56_negative_tag.

(** ---- two ranks, each sending to the other and rank 0 to itself ---- *)
Definition nx_bytes (i : nat) (s : str) : cmd := Do i [] (AData (TLeaf (dt_simple UINT8 (Z.of_nat (length s)))) s).
Definition nx_val (e : endian) (s : str) : value := TLeaf (Some (UINT8, e, map (fun c => [c]) s)).
Definition nx_progs : list (list call) :=
  [ [Isend 0 1 5; Irecv 0 1 9; Isend 1 1 5; Isend 0 0 1; Irecv 2 0 1];
    [Irecv 0 0 5; Irecv 1 0 5; Isend 2 0 9] ].
Definition nx_make (l : list cmd) : state := match exec LITTLE_E (start 3) l with Ok s => s | _ => start 3 end.
Definition nx_l0 := [nx_bytes 0 (L "ab"); nx_bytes 1 (L "cde")].
Definition nx_l1 := [nx_bytes 1 (L "12"); nx_bytes 2 (L "xyz")].
Definition nx_sts := [nx_make nx_l0; nx_make nx_l1].
Definition nx_vals : list (list value) :=
  [ [nx_val DEFAULT_E (L "ab"); nx_val DEFAULT_E (L "cde"); none]; [none; nx_val DEFAULT_E (L "12"); nx_val DEFAULT_E (L "xyz")] ].
Definition nx_finals : list (list value) :=
  [ [nx_val LITTLE_E (L "xyz"); nx_val DEFAULT_E (L "cde"); nx_val LITTLE_E (L "ab")];
    [nx_val LITTLE_E (L "ab"); nx_val LITTLE_E (L "cde"); nx_val DEFAULT_E (L "xyz")] ].
(** the calls of the ranks in a given order *)
Fixpoint nx_run (ub : Z) (eager : bool) (order : list nat) (w : world) : outcome world :=
  match order with
  | [] => Ok w
  | me :: l => do o <- advance json_read LITTLE_E mp_base ub eager w me; match o with Some w' => nx_run ub eager l w' | None => Err end
  end.
Definition nx_start (sts : list state) (progs : list (list call)) : world := mkW (map (fun x => begin (fst x) (snd x)) (combine sts progs)) [].
Definition nx_result (o : outcome world) : outcome (list (bool * list value)) :=
  do w <- o; omapM (fun k => do vs <- omapM (nvalue (s_mem (r_state k))) (s_vars (r_state k)); Ok (r_done k, vs)) (w_ranks w).
Lemma nx_calls ub eager order : forall w w', nx_run ub eager order w = Ok w' -> calls json_read LITTLE_E mp_base ub eager (length order) w w'.
Proof.
  induction order as [|me l IH] using rev_ind; intros w w' E.
  - cbn [nx_run] in E. injection E as <-. constructor.
  - rewrite app_length. cbn [length]. replace (length l + 1)%nat with (S (length l)) by lia.
    assert (X : forall a w0, nx_run ub eager (a ++ [me]) w0 = do w1 <- nx_run ub eager a w0; nx_run ub eager [me] w1).
    { clear. induction a as [|x a IHa]; intros w0; cbn [app]; [reflexivity|]. cbn [nx_run]. destruct (advance json_read LITTLE_E mp_base ub eager w0 x) as [[w1|]| | |]; cbn [obind]; try reflexivity. apply IHa. }
    rewrite X in E. destruct (nx_run ub eager l w) as [w1| | |] eqn:E1; try discriminate. cbn [obind nx_run] in E.
    destruct (advance json_read LITTLE_E mp_base ub eager w1 me) as [[w2|]| | |] eqn:A; cbn [obind] in E; try discriminate. injection E as <-.
    eapply calls_S; [exact (IH w w1 E1)|exact A].
Qed.
Lemma nx_usable (s : str) : s <> [] -> usable (TLeaf (dt_simple UINT8 (Z.of_nat (length s)))).
Proof.
  intros N. assert (Hl : (0 < length s)%nat) by (destruct s; [contradiction|cbn; lia]). unfold usable, dt_simple. split; [|split; [|split; [|split]]].
  - apply Forall_cons; [|apply Forall_nil]. right. cbn. repeat split; try discriminate; lia.
  - split; repeat constructor. intros i j b [H1 H2] [H3 H4]. cbn [dt_n dt_off dt_stride dt_ebytes dt_simple default_bytes] in *. lia.
  - constructor.
  - unfold tspanned. cbn [fold_right tleaves map]. unfold spanned_bytes, strided_bytes. cbn [dt_id tid_eqb dt_n dt_off dt_stride dt_ebytes default_bytes]. lia.
  - intros d [= <-]. discriminate.
Qed.
Example C56_made : Forall2 (made LITTLE_E) nx_sts nx_vals.
Proof.
  constructor; [|constructor; [|constructor]].
  - exists 3%nat, nx_l0. split; [|vm_compute; reflexivity]. unfold nx_l0.
    eapply m_cons; [eapply (m_do _ _ 0%nat); [reflexivity|reflexivity|apply va_here; apply e_data; [apply nx_usable; discriminate|vm_compute; discriminate]]|].
    eapply m_cons; [eapply (m_do _ _ 1%nat); [reflexivity|reflexivity|apply va_here; apply e_data; [apply nx_usable; discriminate|vm_compute; discriminate]]|].
    apply m_nil.
  - exists 3%nat, nx_l1. split; [|vm_compute; reflexivity]. unfold nx_l1.
    eapply m_cons; [eapply (m_do _ _ 1%nat); [reflexivity|reflexivity|apply va_here; apply e_data; [apply nx_usable; discriminate|vm_compute; discriminate]]|].
    eapply m_cons; [eapply (m_do _ _ 2%nat); [reflexivity|reflexivity|apply va_here; apply e_data; [apply nx_usable; discriminate|vm_compute; discriminate]]|].
    apply m_nil.
Qed.
Example C56_sends : forall r s, nth_error nx_sts r = Some s -> sends_ok LITTLE_E mp_base (nth r nx_progs []) s (nth r nx_vals []).
Proof.
  assert (P : forall s : str, packed (TLeaf (dt_simple UINT8 (Z.of_nat (length s))))).
  { intros s. split; [cbn; split; [intros _; repeat split; reflexivity|exact I]|repeat constructor; discriminate]. }
  intros [|[|[|r]]] s E; try discriminate; injection E as <-; intros i d t I; cbn in I; repeat (destruct I as [I|I]; [try discriminate I; injection I as <- <- <-|]); try contradiction.
  - eexists _, _. split; [vm_compute; reflexivity|]. split; [reflexivity|]. split; [constructor|]. split; [intros _ _; exact (P (L "ab"))|vm_compute; reflexivity].
  - eexists _, _. split; [vm_compute; reflexivity|]. split; [reflexivity|]. split; [constructor|]. split; [intros _ _; exact (P (L "cde"))|vm_compute; reflexivity].
  - eexists _, _. split; [vm_compute; reflexivity|]. split; [reflexivity|]. split; [constructor|]. split; [intros _ _; exact (P (L "ab"))|vm_compute; reflexivity].
  - eexists _, _. split; [vm_compute; reflexivity|]. split; [reflexivity|]. split; [constructor|]. split; [intros _ _; exact (P (L "xyz"))|vm_compute; reflexivity].
Qed.
Example C56_balanced : balanced nx_progs.
Proof.
  intros [|[|s]] [|[|d]] t; cbn;
    repeat match goal with |- context [if ?b then _ else _] => destruct b end; try reflexivity; destruct s; try destruct d; reflexivity.
Qed.
Example C56_received : forall r, (r < length nx_progs)%nat -> received LITTLE_E nx_progs nx_vals r [] (nth r nx_progs []) (nth r nx_vals []) (nth r nx_finals []).
Proof.
  intros [|[|r]] H; [| |cbn in H; lia].
  - cbn [nth nx_progs]. apply rc_send. eapply rc_recv; [reflexivity|reflexivity|reflexivity|apply nc_leaf|]. apply rc_send, rc_send.
    eapply rc_recv; [reflexivity|reflexivity|reflexivity|apply nc_leaf|]. apply rc_end.
  - cbn [nth nx_progs]. eapply rc_recv; [reflexivity|reflexivity|reflexivity|apply nc_leaf|]. eapply rc_recv; [reflexivity|reflexivity|reflexivity|apply nc_leaf|]. apply rc_send, rc_end.
Qed.
(** rank 0 first, as far as it gets; or in turns; MPI_Waitall waits for the receivers or not *)
Example C56_runs :
  let r0 := [0; 0; 0; 1; 0; 0; 1; 1; 0; 1]%nat in let r1 := [1; 0; 0; 1; 0; 1; 0; 0; 1; 0]%nat in
  nx_result (nx_run 32767 false r0 (nx_start nx_sts nx_progs)) = Ok (map (fun vs => (true, vs)) nx_finals) /\
  nx_result (nx_run 32767 false r1 (nx_start nx_sts nx_progs)) = Ok (map (fun vs => (true, vs)) nx_finals) /\
  nx_result (nx_run 32767 true [0; 0; 0; 1; 0; 0; 0; 1; 1; 1]%nat (nx_start nx_sts nx_progs)) = Ok (map (fun vs => (true, vs)) nx_finals) /\
  nx_run 32767 false [0; 0; 0; 1; 0; 0; 0]%nat (nx_start nx_sts nx_progs) = Err.
Proof. vm_compute. repeat split. Qed.

(** the same transfers with tags MPI takes for one *)
Definition nx_ts := [mkT 0 0 1 0 40000; mkT 1 2 0 0 40001; mkT 0 1 1 1 50000; mkT 0 0 0 2 60000].
Example C56_transfers_case : forall r, (r < length nx_sts)%nat -> transferred LITTLE_E nx_vals r nx_ts (nth r nx_vals []) (nth r nx_finals []).
Proof.
  intros [|[|r]] H; [| |cbn in H; lia]; unfold nx_ts.
  - apply tr_other; [discriminate|]. eapply tr_here; [reflexivity|reflexivity|reflexivity|apply nc_leaf|]. apply tr_other; [discriminate|].
    eapply tr_here; [reflexivity|reflexivity|reflexivity|apply nc_leaf|]. apply tr_end.
  - eapply tr_here; [reflexivity|reflexivity|reflexivity|apply nc_leaf|]. apply tr_other; [discriminate|]. eapply tr_here; [reflexivity|reflexivity|reflexivity|apply nc_leaf|].
    apply tr_other; [discriminate|]. apply tr_end.
Qed.
Example C56_transfers_run :
  nx_result (nx_run 32767 false [0; 0; 0; 1; 0; 0; 1; 1; 0; 1]%nat (nx_start nx_sts (map (fun r => calls_of r nx_ts) [0; 1]%nat))) = Ok (map (fun vs => (true, vs)) nx_finals).
Proof. vm_compute. reflexivity. Qed.

(** ---- refutations ---- *)
(** Tags above MPI's bound are taken down to the bound without a word: two messages with tags
    the user keeps apart are told apart no more, and the variables get each other's value. *)
Definition nx_high : list (list call) := [[Isend 0 1 40000; Isend 1 1 40001]; [Irecv 0 0 40001; Irecv 1 0 40000]].
Theorem C56_high_tags_refuted : exists progs sts vals want got order w,
  Forall2 (made LITTLE_E) sts vals /\ balanced progs /\
  received LITTLE_E progs vals 1 [] (nth 1 progs []) (nth 1 vals []) want /\
  nx_run 32767 true order (nx_start sts progs) = Ok w /\ all_done w /\
  (exists k, nth_error (w_ranks w) 1 = Some k /\ omapM (nvalue (s_mem (r_state k))) (s_vars (r_state k)) = Ok got) /\
  want <> got.
Proof.
  exists nx_high, nx_sts, nx_vals, [nx_val LITTLE_E (L "cde"); nx_val DEFAULT_E (L "ab"); nx_val DEFAULT_E (L "xyz")],
    [nx_val LITTLE_E (L "ab"); nx_val LITTLE_E (L "cde"); nx_val DEFAULT_E (L "xyz")], [0; 0; 0; 1; 1; 1]%nat. eexists.
  split; [exact C56_made|]. split.
  { intros [|[|s]] [|[|d]] t; cbn; repeat match goal with |- context [if ?b then _ else _] => destruct b end; try reflexivity; destruct s; try destruct d; reflexivity. }
  split.
  { cbn [nth nx_high]. eapply rc_recv; [reflexivity|reflexivity|reflexivity|apply nc_leaf|]. eapply rc_recv; [reflexivity|reflexivity|reflexivity|apply nc_leaf|]. apply rc_end. }
  split; [vm_compute; reflexivity|]. split; [repeat constructor|]. split; [eexists; split; [reflexivity|vm_compute; reflexivity]|]. discriminate.
Qed.
Print Assumptions C56_high_tags_refuted.
(** A rank that takes part with nothing to send or receive takes the address of the first
    entry of an empty vector. *)
Theorem C56_nothing_refuted : exists sts vals order w,
  Forall2 (made LITTLE_E) sts vals /\
  nx_run 32767 true order (nx_start sts [[Isend 0 0 1; Irecv 1 0 1]; []]) = Ok w /\
  advance json_read LITTLE_E mp_base 32767 true w 1 = UB.
Proof. exists nx_sts, nx_vals, [0; 0; 0]%nat. eexists. split; [exact C56_made|]. split; [vm_compute; reflexivity|]. vm_compute. reflexivity. Qed.
Print Assumptions C56_nothing_refuted.
(** A receive nobody sends for: the ranks never return, and nothing reports it. *)
Theorem C56_unmatched_refuted : exists progs sts vals order w,
  Forall2 (made LITTLE_E) sts vals /\ Forall (fun ops => ops <> []) progs /\
  Forall (Forall (call_ok (length progs) 32767)) progs /\
  nx_run 32767 true order (nx_start sts progs) = Ok w /\ ~ all_done w /\
  forall me, advance json_read LITTLE_E mp_base 32767 true w me = Ok None.
Proof.
  exists [[Irecv 2 1 5]; [Isend 1 0 6]], nx_sts, nx_vals, [1; 1]%nat. eexists. split; [exact C56_made|]. split; [repeat constructor; discriminate|].
  split; [repeat constructor; discriminate|]. split; [vm_compute; reflexivity|]. split.
  - intros D. inversion D as [|k l D1 _]. discriminate.
  - intros [|[|me]]; [vm_compute; reflexivity|vm_compute; reflexivity|]. unfold advance. cbn [w_ranks nth_error]. destruct me; reflexivity.
Qed.
Print Assumptions C56_unmatched_refuted.
