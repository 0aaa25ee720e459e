(** C57: domains handed out to ranks. *)
From Verif Require Import Base DType SpecTree Schema Codec Mem MemFacts Node SpecNode NodeFacts NodeSet NodeUpdateLaws NodeMerge NodeAlloc
  Json JsonSpec JsonFacts JsonSchema JsonRead Save SaveFacts Contig ContigFacts Number NodeDiff ArrayOps NodeHist HistSpec HistFacts HistRun Mpi MpiFacts MpiNet MpiCollFacts MpiNetFacts MpiNetMore
  O2M O2MFacts MpiDist MpiDistFacts P_Mpi P_MpiNet.
Local Open Scope Z_scope.

(** Every rank has the domain map and its own domains, Node variables of any value.  If every
    domain of the map is on exactly one rank, destinations are ranks, only the last domain may
    have no destination, and every rank has something to send or to get, then in whatever
    order MPI lets the ranks go on, and whatever bound it has for tags: no call fails, at any
    time all ranks have returned or one of them can go on, and there is an end.  Then nothing
    is left in the network, every rank has kept its domains, and its output is the list of
    the domains the map sends to it, in the order of the map: its own as they are, those of
    others as they arrive in a message. *)
Theorem C57_distribute parse mach base ub eager fuel r d meshes sts vals :
  0 <= ub -> reads_json parse -> mach <> DEFAULT_E ->
  valid r -> consecutive r -> (forall i, (S i < ones r)%nat -> (0 < group_size r i)%nat) -> mget (o_data r) (L "values") = Some d ->
  (ones r < fuel)%nat -> (forall i, (i < ones r)%nat -> (group_size r i + ones r < fuel)%nat) ->
  NoDup (concat meshes) -> Forall (Forall (fun i => 0 <= i)) meshes ->
  Forall2 (fun ids vs => length ids = length vs) meshes vals -> Forall2 (made mach) sts vals ->
  (forall i, (i < ones r)%nat -> In (Z.of_nat i) (concat meshes)) ->
  Forall (fun o => 0 <= snd o < Z.of_nat (length meshes)) (orders r d) ->
  (forall me, (me < length meshes)%nat -> exists i des s v, In (i, des) (orders r d) /\ domain meshes vals i = Some (s, v) /\
     des <> Z.of_nat s /\ (s = me \/ des = Z.of_nat me)) ->
  meshes <> [] ->
  (forall me s x n v, nth_error sts me = Some s -> nth_error (s_vars s) x = Some n -> nth_error (nth me vals []) x = Some v -> sendable mach base n v) ->
  exists qs, distribute mach fuel r meshes sts = Ok qs /\
    forall k w, calls parse mach base ub eager k (mkW (map (fun q => begin (fst q) (snd q)) qs) []) w ->
      (k <= 2 * length (orders r d) + length meshes)%nat /\
      (forall me, exists o, advance parse mach base ub eager w me = Ok o) /\
      (all_done w \/ exists me w', advance parse mach base ub eager w me = Ok (Some w')) /\
      (all_done w -> w_net w = [] /\ length (w_ranks w) = length meshes /\
         forall me x, nth_error (w_ranks w) me = Some x -> holds (r_state x) (nth me vals [] ++ due mach meshes vals me (orders r d))).
Proof.
  intros Ub Pa Ma V C P D F0 F1 Nd Pos Vl St All Ds So Ne Se.
  assert (St' : Forall2 inv sts vals) by (clear - St; induction St; constructor; [eapply made_inv; eauto|assumption]).
  destruct (distributed parse mach base ub eager fuel r d meshes sts vals Ub Pa Ma V C P D F0 F1 Nd Pos Vl St' All Ds So Ne Se) as (qs & Eq & R).
  exists qs. split; [exact Eq|]. intros k w Cl. destruct (R k w Cl) as (H1 & H2 & H3 & H4). split; [exact H1|]. split; [exact H2|]. split; [exact H3|].
  intros Dn. destruct (H4 Dn) as (A & B & F). split; [exact A|]. split; [exact B|]. intros me x X. apply inv_holds. exact (F me x X).
Qed.
Print Assumptions C57_distribute.

(** The rank map alone: every rank learns who has which domain. *)
Theorem C57_rank_map meshes i ids s : NoDup (concat meshes) -> Forall (Forall (fun i => 0 <= i)) meshes ->
  nth_error meshes s = Some ids -> In i ids -> exists m, domain_to_rank meshes = Ok m /\ znth m i = Some (Z.of_nat s).
Proof.
  intros Nd Pos Es I. apply In_nth_error in I. destruct I as (x & Ex).
  assert (O : owned_by meshes i s x).
  { split; [apply nth_error_Some; rewrite Es; discriminate|]. rewrite (nth_of _ _ _ [] Es). exact Ex. }
  destruct (rank_map_ok meshes Nd Pos (ex_intro _ i (ex_intro _ s (ex_intro _ x O)))) as (m & E & Q). exists m. split; [exact E|].
  specialize (Q i s x O). unfold O2M.at_ in Q. destruct (znth m i); [|discriminate]. injection Q as ->. reflexivity.
Qed.
Print Assumptions C57_rank_map.

(** ---- three ranks, the last without domains; four domains, one of them for two ranks ---- *)
Definition di_map : o2m := {| o_sizes := Some [1; 2; 1; 2]; o_indices := None; o_offsets := Some [0; 1; 3; 4]; o_data := [(L "values", [2; 0; 1; 0; 2; 0])] |}.
Definition di_meshes : list (list Z) := [[1; 3]; [0; 2]; []].
Definition di_make (k : nat) (l : list cmd) : state := match exec LITTLE_E (start k) l with Ok s => s | _ => start k end.
Definition di_l0 := [nx_bytes 0 (L "one"); nx_bytes 1 (L "three")].
Definition di_l1 := [nx_bytes 0 (L "nil"); nx_bytes 1 (L "two")].
Definition di_sts := [di_make 2 di_l0; di_make 2 di_l1; start 0].
Definition di_vals : list (list value) := [[nx_val DEFAULT_E (L "one"); nx_val DEFAULT_E (L "three")]; [nx_val DEFAULT_E (L "nil"); nx_val DEFAULT_E (L "two")]; []].
Example di_valid : valid di_map.
Proof.
  constructor; try discriminate.
  - intros s [= <-]. repeat constructor; lia.
  - intros o [= <-]. reflexivity.
  - intros i k Hi Hk. split; [|split; [discriminate|]]; destruct i as [|[|[|[|i]]]]; cbn in Hi, Hk; try lia; destruct k as [|[|k]]; cbn in Hk; try lia; cbn; try lia; repeat constructor; cbn; lia.
Qed.
Example di_consecutive : consecutive di_map.
Proof. intros i k Hi Hk. unfold position. cbn. lia. Qed.
Example C57_made : Forall2 (made LITTLE_E) di_sts di_vals.
Proof.
  constructor; [|constructor; [|constructor; [|constructor]]].
  - exists 2%nat, di_l0. split; [|vm_compute; reflexivity]. unfold di_l0.
    eapply m_cons; [eapply (m_do _ _ 0%nat); [reflexivity|reflexivity|apply va_here; apply e_data; [apply nx_usable; discriminate|vm_compute; discriminate]]|].
    eapply m_cons; [eapply (m_do _ _ 1%nat); [reflexivity|reflexivity|apply va_here; apply e_data; [apply nx_usable; discriminate|vm_compute; discriminate]]|].
    apply m_nil.
  - exists 2%nat, di_l1. split; [|vm_compute; reflexivity]. unfold di_l1.
    eapply m_cons; [eapply (m_do _ _ 0%nat); [reflexivity|reflexivity|apply va_here; apply e_data; [apply nx_usable; discriminate|vm_compute; discriminate]]|].
    eapply m_cons; [eapply (m_do _ _ 1%nat); [reflexivity|reflexivity|apply va_here; apply e_data; [apply nx_usable; discriminate|vm_compute; discriminate]]|].
    apply m_nil.
  - exists 0%nat, []. split; [apply m_nil|reflexivity].
Qed.
Example C57_sendable : forall me s x n v, nth_error di_sts me = Some s -> nth_error (s_vars s) x = Some n -> nth_error (nth me di_vals []) x = Some v -> sendable LITTLE_E mp_base n v.
Proof.
  assert (P : forall s : str, packed (TLeaf (dt_simple UINT8 (Z.of_nat (length s))))).
  { intros s. split; [cbn; split; [intros _; repeat split; reflexivity|exact I]|repeat constructor; discriminate]. }
  intros [|[|[|me]]] s x n v E; [| | |destruct me; discriminate]; injection E as <-; (destruct x as [|[|x]]; intros En Ev; [| |try (destruct x; discriminate Ev)]); cbn [nth nth_error di_vals] in Ev; try discriminate Ev; injection Ev as <-;
    vm_compute in En; injection En as <-; (split; [constructor|]; split; [|vm_compute; reflexivity]); intros _ _.
  - exact (P (L "one")).
  - exact (P (L "three")).
  - exact (P (L "nil")).
  - exact (P (L "two")).
Qed.
Example C57_hypotheses :
  (forall i, (S i < ones di_map)%nat -> (0 < group_size di_map i)%nat) /\ NoDup (concat di_meshes) /\
  (forall i, (i < ones di_map)%nat -> In (Z.of_nat i) (concat di_meshes)) /\
  (forall me, (me < length di_meshes)%nat -> exists i des s v, In (i, des) (orders di_map [2; 0; 1; 0; 2; 0]) /\ domain di_meshes di_vals i = Some (s, v) /\
     des <> Z.of_nat s /\ (s = me \/ des = Z.of_nat me)).
Proof.
  split; [|split; [|split]].
  - intros [|[|[|[|i]]]] H; cbn in *; lia.
  - repeat constructor; cbn; lia.
  - intros [|[|[|[|i]]]] H; cbn in *; lia.
  - intros [|[|[|me]]] H; [| | |cbn in H; lia].
    + exists 1, 1. eexists _, _. split; [vm_compute; tauto|]. split; [reflexivity|]. split; [discriminate|left; reflexivity].
    + exists 0, 2. eexists _, _. split; [vm_compute; tauto|]. split; [reflexivity|]. split; [discriminate|left; reflexivity].
    + exists 0, 2. eexists _, _. split; [vm_compute; tauto|]. split; [reflexivity|]. split; [discriminate|right; reflexivity].
Qed.
Definition di_run (eager : bool) (order : list nat) (r : o2m) (meshes : list (list Z)) (sts : list state) : outcome world :=
  do qs <- distribute LITTLE_E 50 r meshes sts; nx_run 32767 eager order (mkW (map (fun q => begin (fst q) (snd q)) qs) []).
(** tags from 422000 on, all above the bound of 32767 *)
Example C57_runs :
  nx_result (di_run false [0; 0; 1; 1; 2; 2; 0; 1; 0; 1; 2]%nat di_map di_meshes di_sts) =
  Ok (map (fun vs => (true, vs))
    [ [nx_val DEFAULT_E (L "one"); nx_val DEFAULT_E (L "three"); nx_val DEFAULT_E (L "one"); nx_val LITTLE_E (L "two"); nx_val DEFAULT_E (L "three")];
      [nx_val DEFAULT_E (L "nil"); nx_val DEFAULT_E (L "two"); nx_val LITTLE_E (L "one")];
      [nx_val LITTLE_E (L "nil"); nx_val LITTLE_E (L "three")] ]).
Proof. vm_compute. reflexivity. Qed.

(** ---- refutations ---- *)
(** A domain that goes nowhere, other than the last: no rank ever leaves the walk. *)
Definition di_gap : o2m := {| o_sizes := Some [0; 1]; o_indices := None; o_offsets := Some [0; 0]; o_data := [(L "values", [0])] |}.
Lemma di_gap_stuck fuel d : domain_loop fuel di_gap d (0, 0) = Fuel.
Proof.
  induction fuel as [|f IH]; [reflexivity|]. cbn [domain_loop]. change (has_next di_gap (0, 0) DATA) with (@Ok bool true). cbn [obind]. change (next di_gap (0, 0) ONE) with (@Ok (Z * its) (0, (0, 1))). cbn [obind].
  cbn [to_front fst dest_loop]. change (has_next di_gap (0, 0) MANY) with (@Ok bool false). cbn [obind]. rewrite IH. reflexivity.
Qed.
Theorem C57_no_destination_refuted : exists r meshes sts vals, valid r /\ consecutive r /\ NoDup (concat meshes) /\ Forall2 (made LITTLE_E) sts vals /\
  (forall i, (i < ones r)%nat -> In (Z.of_nat i) (concat meshes)) /\
  forall fuel, distribute LITTLE_E fuel r meshes sts = Fuel.
Proof.
  exists di_gap, [[1; 3]; [0; 2]; []], di_sts, di_vals. split; [|split; [|split; [|split; [|split]]]].
  - constructor; try discriminate.
    + intros s [= <-]. repeat constructor; lia.
    + intros o [= <-]. reflexivity.
    + intros i k Hi Hk. split; [|split; [discriminate|]]; destruct i as [|[|i]]; cbn in Hi, Hk; try lia; destruct k as [|k]; cbn in Hk; try lia; cbn; try lia; repeat constructor; cbn; lia.
  - intros i k Hi Hk. unfold position. cbn. lia.
  - repeat constructor; cbn; lia.
  - exact C57_made.
  - intros [|[|i]] H; cbn in *; lia.
  - intros fuel. unfold distribute. replace (domain_to_rank [[1; 3]; [0; 2]; []]) with (@Ok (list Z) [1; 0; 1; 0]) by (vm_compute; reflexivity). cbn [obind length seq combine di_sts]. rewrite omapM_cons. cbn [fst snd].
    unfold it_begin. rewrite di_gap_stuck. reflexivity.
Qed.
Print Assumptions C57_no_destination_refuted.
(** A map that leaves every domain where it is: every rank has nothing to send or receive, and
    takes the address of the first entry of an empty vector. *)
Theorem C57_stay_refuted : exists r d meshes sts vals w, valid r /\ consecutive r /\ mget (o_data r) (L "values") = Some d /\
  Forall2 (made LITTLE_E) sts vals /\ NoDup (concat meshes) /\
  (forall i des, In (i, des) (orders r d) -> exists v, domain meshes vals i = Some (Z.to_nat des, v)) /\
  di_run true [] r meshes sts = Ok w /\ forall me, (me < 2)%nat -> advance json_read LITTLE_E mp_base 32767 true w me = UB.
Proof.
  exists {| o_sizes := Some [1; 1; 1; 1]; o_indices := None; o_offsets := Some [0; 1; 2; 3]; o_data := [(L "values", [1; 0; 1; 0])] |}, [1; 0; 1; 0], [[1; 3]; [0; 2]; []], di_sts, di_vals. eexists.
  split; [|split; [|split; [reflexivity|split; [exact C57_made|split; [repeat constructor; cbn; lia|split; [|split; [vm_compute; reflexivity|]]]]]]].
  - constructor; try discriminate.
    + intros s [= <-]. repeat constructor; lia.
    + intros o [= <-]. reflexivity.
    + intros i k Hi Hk. split; [|split; [discriminate|]]; destruct i as [|[|[|[|i]]]]; cbn in Hi, Hk; try lia; destruct k as [|k]; cbn in Hk; try lia; cbn; try lia; repeat constructor; cbn; lia.
  - intros i k Hi Hk. unfold position. cbn. lia.
  - intros i des I. vm_compute in I. repeat (destruct I as [I|I]; [injection I as <- <-; eexists; reflexivity|]). destruct I.
  - intros [|[|me]] H; [vm_compute; reflexivity|vm_compute; reflexivity|lia].
Qed.
Print Assumptions C57_stay_refuted.
(** Two domains of a rank without state/domain_id: both have the rank's number for an id, and
    the first of them reaches nobody. *)
Theorem C57_same_id_refuted : exists r meshes sts vals v order res, Forall2 (made LITTLE_E) sts vals /\
  In v (nth 0 vals []) /\ Forall2 (fun ids vs => length ids = length vs) meshes vals /\ (forall i, (i < ones r)%nat -> In (Z.of_nat i) (concat meshes)) /\
  nx_result (di_run false order r meshes sts) = Ok res /\ Forall (fun x => fst x = true) res /\
  length res = 3%nat /\ forall me, ~ In v (skipn (length (nth me vals [])) (snd (nth me res (true, [])))) /\
    ~ In (arrives (tmap (file_order LITTLE_E) v)) (skipn (length (nth me vals [])) (snd (nth me res (true, [])))).
Proof.
  exists {| o_sizes := Some [2; 1]; o_indices := None; o_offsets := Some [0; 2]; o_data := [(L "values", [1; 2; 0])] |}, [[0; 0]; [1; 7]; []], di_sts, di_vals,
    (nx_val DEFAULT_E (L "one")), [0; 0; 1; 0; 1; 2; 0; 1; 2]%nat. eexists.
  split; [exact C57_made|]. split; [left; reflexivity|]. split; [repeat constructor|]. split; [intros [|[|i]] H; cbn in *; lia|].
  split; [vm_compute; reflexivity|]. split; [repeat constructor|]. split; [reflexivity|].
  intros [|[|[|me]]]; cbn [nth di_vals length skipn snd fst]; split; cbn; try (intros [H|[]]; discriminate H); try tauto; destruct me; cbn; tauto.
Qed.
Print Assumptions C57_same_id_refuted.
(** A domain of the map that no rank has: the rank map is read outside. *)
Theorem C57_nobody_refuted : exists r meshes sts vals, valid r /\ consecutive r /\ Forall2 (made LITTLE_E) sts vals /\ NoDup (concat meshes) /\
  (forall i, (i < ones r)%nat -> (0 < group_size r i)%nat) /\ distribute LITTLE_E 50 r meshes sts = UB.
Proof.
  exists di_map, [[1; 7]; [0; 2]; []], di_sts, di_vals. split; [exact di_valid|]. split; [exact di_consecutive|]. split; [exact C57_made|]. split; [repeat constructor; cbn; lia|].
  split; [intros [|[|[|[|i]]]] H; cbn in *; lia|]. vm_compute. reflexivity.
Qed.
Print Assumptions C57_nobody_refuted.
(** A domain two ranks have: each of them sends to the other, which does not receive, and they
    wait for ever. *)
Theorem C57_two_owners_refuted : exists r meshes sts vals order w, valid r /\ consecutive r /\ Forall2 (made LITTLE_E) sts vals /\ Forall (@NoDup Z) meshes /\
  (forall i, (i < ones r)%nat -> In (Z.of_nat i) (concat meshes)) /\
  di_run false order r meshes sts = Ok w /\ ~ all_done w /\ forall me, (me < 2)%nat -> advance json_read LITTLE_E mp_base 32767 false w me = Ok None.
Proof.
  exists {| o_sizes := Some [2]; o_indices := None; o_offsets := Some [0]; o_data := [(L "values", [0; 1])] |}, [[0; 1]; [0; 2]; []], di_sts, di_vals, [0; 1]%nat. eexists.
  split; [|split; [|split; [exact C57_made|split; [repeat constructor; cbn; lia|split; [|split; [vm_compute; reflexivity|split]]]]]].
  - constructor; try discriminate.
    + intros s [= <-]. repeat constructor; lia.
    + intros o [= <-]. reflexivity.
    + intros i k Hi Hk. split; [|split; [discriminate|]]; destruct i as [|i]; cbn in Hi, Hk; try lia; destruct k as [|[|k]]; cbn in Hk; try lia; cbn; try lia; repeat constructor; cbn; lia.
  - intros i k Hi Hk. unfold position. cbn. lia.
  - intros [|i] H; cbn in *; lia.
  - intros D. inversion D as [|k l D1 _]. discriminate.
  - intros [|[|me]] H; [vm_compute; reflexivity|vm_compute; reflexivity|lia].
Qed.
Print Assumptions C57_two_owners_refuted.
