(** Property theorems C45 (material sets).  Specification at the top of MatSetFacts.v:
    [full_at], [uni_at], [sbm_at] give the value of a material in an element in each of
    the three representations, [valid_full], [valid_uni], [valid_sbm] what a proper
    material set over [n] elements is, [cut] and [masked] the effect of the bound below
    which a volume fraction counts as 0. *)
From Verif Require Import Base O2M O2MFacts O2MCompact MatSet MatSetFacts.
Local Open Scope Z_scope.

(** To sparse by element: same materials, same values, those that do not count as 0;
    also for every field on the material set. *)
Theorem C45_full_to_by_element : forall V (zero : V) above n f, valid_full n f -> f <> [] ->
  exists u, full_to_uni above f = Ok u /\ valid_uni zero n u /\ map fst (u_map u) = map fst f /\
  (forall k e, uni_at zero u (u_vals u) k e = option_map (cut zero above) (full_at f k e)) /\
  (forall vals, valid_full n vals -> map fst f = map fst vals -> exists w, full_to_uni_field above f vals = Ok w /\
     length w = length (u_ids u) /\ forall k e, uni_at zero u w k e = masked zero above f vals k e).
Proof. exact @full_to_uni_law. Qed.
Print Assumptions C45_full_to_by_element.
Theorem C45_by_material_to_by_element : forall V (zero : V) n eids vals, valid_sbm n eids vals -> all_filled n eids ->
  exists u, sbm_to_uni eids vals = Ok u /\ valid_uni zero n u /\ map fst (u_map u) = map fst vals /\
  (forall k e, uni_at zero u (u_vals u) k e = sbm_at zero n eids vals k e) /\
  (forall vals', valid_sbm n eids vals' -> exists w, sbm_to_uni_field eids vals' = Ok w /\ length w = length (u_ids u) /\
     forall k e, uni_at zero u w k e = sbm_at zero n eids vals' k e).
Proof. intros V zero. exact (sbm_to_uni_law zero (fun _ => true)). Qed.
Print Assumptions C45_by_material_to_by_element.
(** To full; [vals] are the volume fractions or the values of a field. *)
Theorem C45_by_element_to_full : forall V (zero : V) n u vals, valid_uni zero n u -> length vals = length (u_ids u) ->
  exists f, uni_to_full zero u vals = Ok f /\ valid_full n f /\ (forall k, In k (map fst f) <-> In k (map fst (u_map u))) /\
  forall k e, full_at f k e = uni_at zero u vals k e.
Proof. intros V zero. exact (uni_to_full_law zero (fun _ => true)). Qed.
Print Assumptions C45_by_element_to_full.
Theorem C45_by_material_to_full : forall V (zero : V) n eids vals, valid_sbm n eids vals -> all_filled n eids ->
  exists f, sbm_to_full zero eids vals = Ok f /\ valid_full n f /\ (forall k, In k (map fst f) <-> In k (map fst eids)) /\
  forall k e, full_at f k e = sbm_at zero n eids vals k e.
Proof. intros V zero. exact (sbm_to_full_law zero (fun _ => true)). Qed.
Print Assumptions C45_by_material_to_full.
(** To sparse by material; from sparse by element only the materials that occur. *)
Theorem C45_full_to_by_material : forall V (zero : V) above n f, valid_full n f ->
  exists b, full_to_sbm above f = Ok b /\ valid_sbm n (s_eids b) (s_vals b) /\ map fst (s_eids b) = map fst f /\
  (forall k e, sbm_at zero n (s_eids b) (s_vals b) k e = option_map (cut zero above) (full_at f k e)) /\
  (forall vals, valid_full n vals -> map fst f = map fst vals -> exists w, full_to_sbm_field above f vals = Ok w /\
     valid_sbm n (s_eids b) w /\ forall k e, sbm_at zero n (s_eids b) w k e = masked zero above f vals k e).
Proof. exact @full_to_sbm_law. Qed.
Print Assumptions C45_full_to_by_material.
Theorem C45_by_element_to_by_material : forall V (zero : V) n u vals, valid_uni zero n u -> length vals = length (u_ids u) ->
  exists b, uni_to_sbm u vals = Ok b /\ valid_sbm n (s_eids b) (s_vals b) /\
  (forall k, In k (map fst (s_eids b)) <-> occurs zero n u k) /\
  (forall k e, occurs zero n u k -> sbm_at zero n (s_eids b) (s_vals b) k e = uni_at zero u vals k e).
Proof. intros V zero. exact (uni_to_sbm_law zero (fun _ => true)). Qed.
Print Assumptions C45_by_element_to_by_material.
(** ... the element ids of the material set are those of its fields *)
Theorem C45_field_in_step : forall V (zero : V) n u vals vals' b b', valid_uni zero n u ->
  length vals = length (u_ids u) -> length vals' = length (u_ids u) ->
  uni_to_sbm u vals = Ok b -> uni_to_sbm u vals' = Ok b' -> s_eids b = s_eids b'.
Proof. intros V zero. exact (uni_to_sbm_eids zero (fun _ => true)). Qed.
Print Assumptions C45_field_in_step.
(** There and back. *)
Theorem C45_round_trip : forall V (zero : V) above n f, valid_full n f -> f <> [] ->
  (forall e, (e < n)%nat -> exists k v, full_at f k e = Some v /\ above v = true) ->
  (exists u f', full_to_uni above f = Ok u /\ uni_to_full zero u (u_vals u) = Ok f' /\
     forall k e, full_at f' k e = option_map (cut zero above) (full_at f k e)) /\
  (exists b f', full_to_sbm above f = Ok b /\ sbm_to_full zero (s_eids b) (s_vals b) = Ok f' /\
     forall k e, full_at f' k e = option_map (cut zero above) (full_at f k e)) /\
  (exists b u f', full_to_sbm above f = Ok b /\ sbm_to_uni (s_eids b) (s_vals b) = Ok u /\ uni_to_full zero u (u_vals u) = Ok f' /\
     forall k e, full_at f' k e = option_map (cut zero above) (full_at f k e)).
Proof. exact @round_trip. Qed.
Print Assumptions C45_round_trip.

(** ---- A case: 4 elements; values in hundredths, those up to 1 do not count ---- *)
Definition m_above (v : Z) : bool := 1 <? v.
Definition m_full : full (V:=Z) := [(L "mat_b", [100; 60; 0; 1]); (L "mat_a", [0; 30; 100; 99]); (L "mat_c", [0; 10; 0; 0])].
Definition m_field : full (V:=Z) := [(L "mat_b", [7; 8; 9; 10]); (L "mat_a", [11; 12; 13; 14]); (L "mat_c", [15; 16; 17; 18])].
Definition m_uni : uni (V:=Z) :=
  mkUni [(L "mat_b", 0); (L "mat_a", 1); (L "mat_c", 2)] [100; 60; 30; 10; 100; 99] [0; 0; 1; 2; 1; 1]
        (Some [1; 3; 1; 1]) None (Some [0; 1; 4; 5]).
Definition m_eids : list (str * list Z) := [(L "mat_b", [0; 1]); (L "mat_a", [1; 2; 3]); (L "mat_c", [1])].
Definition m_vals : list (str * list Z) := [(L "mat_b", [100; 60]); (L "mat_a", [30; 100; 99]); (L "mat_c", [10])].
(** the same by element, entered backwards through indices *)
Definition m_back : uni (V:=Z) :=
  mkUni [(L "mat_b", 20); (L "mat_a", 11); (L "mat_c", 32); (L "void", 5)] [99; 100; 10; 30; 60; 100] [11; 11; 32; 11; 20; 20]
        (Some [1; 3; 1; 1]) (Some [5; 2; 3; 4; 1; 0]) (Some [0; 1; 4; 5]).
Example C45_hyps : valid_full 4 m_full /\ valid_full 4 m_field /\ valid_uni 0 4 m_uni /\ valid_uni 0 4 m_back /\
  valid_sbm 4 m_eids m_vals /\ all_filled 4 m_eids.
Proof.
  assert (N3 : forall A (a b c : A), a <> b -> a <> c -> b <> c -> NoDup [a; b; c]).
  { intros A a b c H1 H2 H3. repeat constructor; cbn; intuition congruence. }
  assert (Vu : forall u, valid (u_rel u) -> ones (u_rel u) = 4%nat -> u_offsets u = Some [0; 1; 4; 5] -> NoDup (map fst (u_map u)) -> NoDup (map snd (u_map u)) ->
    Forall (fun e => NoDup (map fst (uslots 0 u (u_vals u) e)) /\ incl (map fst (uslots 0 u (u_vals u) e)) (map snd (u_map u))) [0%nat; 1%nat; 2%nat; 3%nat] ->
    valid_uni 0 4 u).
  { intros u H1 H2 H3 H4 H5 H6. constructor; auto.
    - left. rewrite H3. split; discriminate.
    - intros e He. rewrite Forall_forall in H6. apply H6. do 4 (destruct e as [|e]; [cbn; tauto|]). lia. }
  split; [|split; [|split; [|split; [|split]]]].
  - split; [apply N3; discriminate|repeat constructor].
  - split; [apply N3; discriminate|repeat constructor].
  - apply Vu; [apply valid_by; vm_compute; reflexivity|reflexivity|reflexivity|apply N3; discriminate|apply N3; discriminate|].
    repeat (apply Forall_cons; [split; [vm_compute; repeat constructor; cbn; intuition discriminate|intros x; vm_compute; tauto]|]). constructor.
  - apply Vu; [apply valid_by; vm_compute; reflexivity|reflexivity|reflexivity| | |].
    + vm_compute. repeat constructor; cbn; intuition discriminate.
    + vm_compute. repeat constructor; cbn; intuition discriminate.
    + repeat (apply Forall_cons; [split; [vm_compute; repeat constructor; cbn; intuition discriminate|intros x; vm_compute; tauto]|]). constructor.
  - constructor.
    + split; apply N3; discriminate.
    + reflexivity.
    + intros k es vs. cbn [m_eids m_vals mget]. repeat (destruct (str_eqb k _); [intros E1 E2; injection E1 as <-; injection E2 as <-; reflexivity|]). discriminate.
    + repeat constructor; cbn; intuition discriminate.
    + repeat (apply Forall_cons; [repeat (apply Forall_cons; [lia|]); constructor|]). constructor.
  - intros e He. do 4 (destruct e as [|e]; [cbn; first [exists (L "mat_b"), [0; 1]; cbn; tauto|exists (L "mat_a"), [1; 2; 3]; cbn; tauto]|]). lia.
Qed.
Example C45_filled : m_full <> [] /\ forall e, (e < 4)%nat -> exists k v, full_at m_full k e = Some v /\ m_above v = true.
Proof.
  split; [discriminate|]. intros e He.
  do 4 (destruct e as [|e]; [first [exists (L "mat_b"); eexists; split; vm_compute; reflexivity|exists (L "mat_a"); eexists; split; vm_compute; reflexivity]|]). lia.
Qed.
Example C45_run :
  full_to_uni m_above m_full = Ok m_uni /\ full_to_uni_field m_above m_full m_field = Ok [7; 8; 12; 16; 13; 14] /\
  full_to_sbm m_above m_full = Ok (mkSbm m_vals m_eids) /\
  sbm_to_uni m_eids m_vals =
    Ok (mkUni (u_map m_uni) [100; 30; 60; 10; 100; 99] [0; 1; 0; 2; 1; 1] (Some [1; 3; 1; 1]) None (Some [0; 1; 4; 5])) /\
  uni_to_full 0 m_back (u_vals m_back) =
    Ok [(L "mat_a", [0; 30; 100; 99]); (L "mat_b", [100; 60; 0; 0]); (L "mat_c", [0; 10; 0; 0]); (L "void", [0; 0; 0; 0])] /\
  uni_to_sbm m_back (u_vals m_back) =
    Ok (mkSbm [(L "mat_a", [30; 100; 99]); (L "mat_b", [100; 60]); (L "mat_c", [10])] [(L "mat_a", [1; 2; 3]); (L "mat_b", [0; 1]); (L "mat_c", [1])]).
Proof. repeat split; vm_compute; reflexivity. Qed.

(** ---- Where it fails ---- *)
(** A proper set by material in which an element holds no material: the number of
    elements is taken to be the number of different ids, and the rest is written
    outside of the array. *)
Theorem C45_gap_refuted : exists (eids : list (str * list Z)) (vals : list (str * list Z)), valid_sbm 3 eids vals /\
  sbm_to_full 0 eids vals = UB /\ sbm_to_uni eids vals = UB.
Proof.
  exists [(L "a", [0; 2])], [(L "a", [50; 100])]. split; [|split; vm_compute; reflexivity]. constructor.
  - split; repeat constructor; cbn; tauto.
  - reflexivity.
  - intros k es vs. cbn [mget]. destruct (str_eqb k _); [|discriminate]. intros E1 E2. injection E1 as <-. injection E2 as <-. reflexivity.
  - repeat constructor; cbn; intuition discriminate.
  - repeat (apply Forall_cons; [repeat (apply Forall_cons; [lia|]); constructor|]). constructor.
Qed.
Print Assumptions C45_gap_refuted.
(** ... or the result has fewer elements, without an error. *)
Theorem C45_shorter_refuted : exists (eids : list (str * list Z)) (vals f : list (str * list Z)), valid_sbm 4 eids vals /\
  sbm_to_full 0 eids vals = Ok f /\ valid_full 2 f.
Proof.
  exists [(L "a", [0; 1])], [(L "a", [50; 100])], [(L "a", [50; 100])]. split; [|split; [vm_compute; reflexivity|]]. constructor.
  - split; repeat constructor; cbn; tauto.
  - reflexivity.
  - intros k es vs. cbn [mget]. destruct (str_eqb k _); [|discriminate]. intros E1 E2. injection E1 as <-. injection E2 as <-. reflexivity.
  - repeat constructor; cbn; intuition discriminate.
  - repeat (apply Forall_cons; [repeat (apply Forall_cons; [lia|]); constructor|]). constructor.
  - split; repeat constructor; cbn; tauto.
Qed.
Print Assumptions C45_shorter_refuted.
(** A material that occurs nowhere is lost going from by element to by material. *)
Theorem C45_lost_material_refuted : exists (u : uni (V:=Z)) k b, valid_uni 0 4 u /\ In k (map fst (u_map u)) /\
  to_sbm m_above (MUni u) = Ok (MSbm b) /\ ~ In k (map fst (s_eids b)).
Proof.
  exists m_back, (L "void"), (mkSbm [(L "mat_a", [30; 100; 99]); (L "mat_b", [100; 60]); (L "mat_c", [10])] [(L "mat_a", [1; 2; 3]); (L "mat_b", [0; 1]); (L "mat_c", [1])]).
  split; [apply C45_hyps|]. split; [cbn; tauto|]. split; [vm_compute; reflexivity|]. cbn. intuition discriminate.
Qed.
Print Assumptions C45_lost_material_refuted.
(** A uni-buffer set with element ids (material dominant) is turned into nothing. *)
Theorem C45_material_dominant_refuted : exists (u : uni (V:=Z)) eids, u_vals u <> [] /\ length eids = length (u_vals u) /\
  to_full 0 (MUniMat u eids) = Ok (MFull []) /\ to_uni m_above (MUniMat u eids) = Ok (MUni (mkUni [] [] [] (Some []) None (Some []))).
Proof. exists m_uni, [0; 1; 1; 1; 2; 3]. split; [discriminate|]. split; [reflexivity|]. split; vm_compute; reflexivity. Qed.
Print Assumptions C45_material_dominant_refuted.
(** One material for each element, without sizes and offsets (a proper one-to-one
    relation): no elements are seen. *)
Theorem C45_no_offsets_refuted : exists (u : uni (V:=Z)) f, valid (u_rel u) /\ ones (u_rel u) = 2%nat /\
  uni_to_full 0 u (u_vals u) = Ok f /\ valid_full 0 f.
Proof.
  exists (mkUni [(L "a", 1)] [100; 100] [1; 1] None None None), [(L "a", [])].
  split; [apply valid_by; vm_compute; reflexivity|]. split; [reflexivity|]. split; [vm_compute; reflexivity|]. split; repeat constructor; cbn; tauto.
Qed.
Print Assumptions C45_no_offsets_refuted.
(** A material id that the material map does not have: a write through an array that
    does not exist. *)
Theorem C45_unknown_id_refuted : exists u : uni (V:=Z), valid (u_rel u) /\ uni_to_full 0 u (u_vals u) = UB.
Proof.
  exists (mkUni [(L "a", 1)] [100; 100] [1; 2] (Some [1; 1]) None (Some [0; 1])).
  split; [apply valid_by; vm_compute; reflexivity|vm_compute; reflexivity].
Qed.
Print Assumptions C45_unknown_id_refuted.
(** A material listed twice for an element: the last value replaces the others. *)
Theorem C45_repeated_refuted : exists u : uni (V:=Z), valid (u_rel u) /\ uni_to_full 0 u (u_vals u) = Ok [(L "a", [40])] /\ u_vals u = [60; 40] /\ u_ids u = [1; 1].
Proof.
  exists (mkUni [(L "a", 1)] [60; 40] [1; 1] (Some [2]) None (Some [0])).
  split; [apply valid_by; vm_compute; reflexivity|]. split; [vm_compute; reflexivity|split; reflexivity].
Qed.
Print Assumptions C45_repeated_refuted.
