(** Property theorems C46 (material sets in Silo form) and C47 (species sets in Silo
    form).  Specification at the top of SiloFacts.v: [uni_entries] and [multi_entries] list
    what a material set says, [stands_for] what a Silo object says; and at the top of
    SpecSetFacts.v: [leads_for] says that a place in the array of mass fractions belongs
    to a material in a zone. *)
From Verif Require Import Base DType Node Number ArrayOps O2M O2MFacts O2MCompact MatSet MatSetFacts Silo SiloFacts SpecSetFacts P_MatSet.
Local Open Scope Z_scope.

(** ---- C46 ---- *)
Theorem C46_one_array : forall V (zero : V) above rnd t, is_signed t = true -> forall fuel u eids fv n,
  valid (u_rel u) -> consecutive (u_rel u) -> (forall i, (i < ones (u_rel u))%nat -> (0 < group_size (u_rel u) i)%nat) ->
  length (u_vals u) = length (u_ids u) -> (forall f, fv = Some f -> length f = length (u_ids u)) ->
  (forall es, eids = Some es -> length es = ones (u_rel u)) -> once (uni_entries zero u eids fv) ->
  proper n t above (uni_entries zero u eids fv) ->
  (ones (u_rel u) + length (positions (u_rel u)) < fuel)%nat ->
  exists s, to_silo_uni zero above rnd t fuel u eids fv = Ok s /\
            stands_for rnd n (counting above (uni_entries zero u eids fv)) s.
Proof. exact @uni_law. Qed.
Print Assumptions C46_one_array.
Theorem C46_array_per_material : forall V (zero : V) above rnd t, is_signed t = true -> forall fuel mm0 f eids fv n,
  let mm := material_numbers mm0 f in
  (forall k k' id, mget mm k = Some id -> mget mm k' = Some id -> k = k') -> Forall (fun c => exists id, mget mm (fst c) = Some id) f -> NoDup (map fst f) ->
  match eids with None => f <> [] /\ Forall (fun c => length (snd c) = n) f | Some m => valid_sbm n m f end ->
  (forall g, fv = Some g -> NoDup (map fst g) /\ forall k d, mget g k = Some d -> exists c, mget f k = Some c /\ length d = length c) ->
  Z.of_nat (length f) <= int_max t ->
  proper n t above (multi_entries zero mm f eids fv) -> Forall (fun c => (length (snd c) < fuel)%nat) f ->
  exists s, to_silo_multi zero above rnd t fuel mm0 f eids fv = Ok s /\
            stands_for rnd n (counting above (multi_entries zero mm f eids fv)) s.
Proof. exact @multi_law. Qed.
Print Assumptions C46_array_per_material.
(** An object stands for one collection of entries only: reading it back is possible. *)
Theorem C46_readable : forall V (rnd : V -> V) n E E' s, stands_for rnd n E s -> stands_for rnd n E' s ->
  forall e id, (e < n)%nat -> (exists x, In (Z.of_nat e, (id, x)) E) <-> (exists x, In (Z.of_nat e, (id, x)) E').
Proof. exact @stands_same. Qed.
Print Assumptions C46_readable.
(** The integer type: that of an integer leaf, as wide as any, or int32 if there is none. *)
Theorem C46_type : forall n, let w := find_widest DEFAULT_INTS n in
  is_int w = true /\ (forall t, In t (type_leaves n) -> is_int t = true -> default_bytes t <= default_bytes w) /\
  (In w (type_leaves n) \/ (w = INT32 /\ forall t, In t (type_leaves n) -> is_int t = false)).
Proof. exact find_widest_law. Qed.
Print Assumptions C46_type.

(** The case of C45 in three forms; the result is the same. *)
Definition m_silo : silo (V:=Z) :=
  mkSilo [0; -1; 1; 1] [2; 3; 0] [0; 1; 2] [60; 30; 10] [8; 12; 16].
Definition m_fv : list Z := [7; 8; 12; 16; 13; 14].
Definition m_sbm_field : full (V:=Z) := [(L "mat_b", [7; 8]); (L "mat_a", [12; 13; 14]); (L "mat_c", [16])].
Example C46_run :
  to_silo_uni 0 m_above (fun x => x) INT32 20 m_uni None (Some m_fv) = Ok m_silo /\
  to_silo_multi 0 m_above (fun x => x) INT32 20 None m_full None (Some m_field) = Ok m_silo /\
  to_silo_multi 0 m_above (fun x => x) INT32 20 None m_vals (Some m_eids) (Some m_sbm_field) = Ok m_silo.
Proof. repeat split; vm_compute; reflexivity. Qed.
Example C46_hyps :
  (valid (u_rel m_uni) /\ consecutive (u_rel m_uni) /\ (forall i, (i < ones (u_rel m_uni))%nat -> (0 < group_size (u_rel m_uni) i)%nat) /\
   once (uni_entries 0 m_uni None (Some m_fv)) /\ proper 4 INT32 m_above (uni_entries 0 m_uni None (Some m_fv))) /\
  (let mm := material_numbers None m_full in
   (forall k k' id, mget mm k = Some id -> mget mm k' = Some id -> k = k') /\ Forall (fun c => exists id, mget mm (fst c) = Some id) m_full /\
   proper 4 INT32 m_above (multi_entries 0 mm m_full None (Some m_field))) /\
  proper 4 INT32 m_above (multi_entries 0 (material_numbers None m_vals) m_vals (Some m_eids) (Some m_sbm_field)).
Proof.
  assert (Pr : forall E, forallb (fun s => (0 <=? fst s) && (fst s <? 4) && (0 <=? fst (snd s)) && (fst (snd s) <=? 100)) E && (length E <=? 20)%nat &&
      forallb (fun e => existsb (fun s => fst s =? e) (counting m_above E)) [0; 1; 2; 3] = true -> proper (V:=Z) 4 INT32 m_above E).
  { intros E H. apply andb_true_iff in H. destruct H as [H H4]. apply andb_true_iff in H. destruct H as [H1 H3]. rewrite forallb_forall in H1, H4. apply Nat.leb_le in H3.
    change (int_max INT32) with 2147483647 in *. constructor; change (int_max INT32) with 2147483647; [| |lia|].
    - apply Forall_forall. intros s I. specialize (H1 s I). lia.
    - apply Forall_forall. intros s I. specialize (H1 s I). lia.
    - intros e He. assert (I : In (Z.of_nat e) [0; 1; 2; 3]) by (cbn; lia). specialize (H4 _ I). apply existsb_exists in H4.
      destruct H4 as ([e' [id x]] & I' & Eq). cbn [fst] in Eq. apply Z.eqb_eq in Eq. subst e'. eauto. }
  split; [split; [apply valid_by; vm_compute; reflexivity|split; [apply consecutive_by; vm_compute; reflexivity|split; [apply positive_by; vm_compute; reflexivity|split]]]|split].
  - vm_compute. repeat constructor; cbn; intuition discriminate.
  - apply Pr; vm_compute; reflexivity.
  - cbn zeta. split; [|split].
    + intros k k' id. change (material_numbers None m_full) with [(L "mat_b", 0); (L "mat_a", 1); (L "mat_c", 2)]. intros A B. apply mget_In in A, B. cbn [In] in A, B. intuition congruence.
    + repeat (constructor; [eexists; vm_compute; reflexivity|]). constructor.
    + apply Pr; vm_compute; reflexivity.
  - apply Pr; vm_compute; reflexivity.
Qed.

(** ---- Where it fails ---- *)
(** An element without a slot that is not the last: the loop over the slots does not end. *)
Definition s_gap : uni (V:=Z) := mkUni [(L "a", 1)] [100; 100] [1; 1] (Some [1; 0; 1]) None (Some [0; 1; 1]).
Theorem C46_endless_refuted : exists u : uni (V:=Z), valid (u_rel u) /\ consecutive (u_rel u) /\ forall above t fuel, to_silo_uni 0 above (fun x => x) t fuel u None None = Fuel.
Proof.
  exists s_gap. split; [apply valid_by; vm_compute; reflexivity|]. split; [apply consecutive_by; vm_compute; reflexivity|]. intros above t fuel.
  unfold to_silo_uni. cbn [elements_one u_rel s_gap u_sizes o_sizes obind]. unfold uni_slots.
  assert (G : forall f, one_loop f (u_rel s_gap) (1, 0) = Fuel).
  { induction f as [|f IH]; [reflexivity|]. destruct f as [|f]; [reflexivity|].
    transitivity (do l <- one_loop (S f) (u_rel s_gap) (1, 0); Ok ((1, []) :: l)); [reflexivity|]. rewrite IH. reflexivity. }
  assert (O : one_loop fuel (u_rel s_gap) it_begin = Fuel).
  { destruct fuel as [|[|[|f]]]; try reflexivity.
    transitivity (do l <- (do l <- one_loop (S f) (u_rel s_gap) (1, 0); Ok ((1, []) :: l)); Ok ((0, [0]) :: l)); [reflexivity|]. rewrite G. reflexivity. }
  rewrite O. reflexivity.
Qed.
Print Assumptions C46_endless_refuted.
(** ... and it is an error if it is the last, or if no volume fraction of an element counts. *)
Theorem C46_void_refuted : exists f : full (V:=Z), valid_full 2 f /\ full_to_uni m_above f <> Err /\
  to_silo_multi 0 m_above (fun x => x) INT32 20 None f None None = Err.
Proof.
  exists [(L "a", [100; 0]); (L "b", [0; 1])]. split; [|split; [vm_compute; discriminate|vm_compute; reflexivity]].
  split; [repeat constructor; cbn; intuition discriminate|repeat constructor].
Qed.
Print Assumptions C46_void_refuted.
(** Unsigned material ids: the references to mixed slots are no longer negative, so a
    mixed element looks like one that holds material 255. *)
Theorem C46_unsigned_refuted : exists u : uni (V:=Z), exists s, valid_uni 0 2 u /\ find_widest DEFAULT_INTS (TNode [TLeaf FLOAT64; TLeaf UINT8]) = UINT8 /\
  to_silo_uni 0 m_above (fun x => x) UINT8 20 u None None = Ok s /\ length (group (u_rel u) 1) = 2%nat /\
  records (fun x => x) s 0 1 [(255, (0, 0))] /\ ~ In 255 (u_ids u).
Proof.
  exists (mkUni [(L "a", 1); (L "b", 2)] [100; 60; 40] [1; 1; 2] (Some [1; 2]) None (Some [0; 1])). eexists. split; [|split; [reflexivity|split; [vm_compute; reflexivity|split; [reflexivity|split; [split; [reflexivity|lia]|cbn; lia]]]]].
  constructor; [apply valid_by; vm_compute; reflexivity|reflexivity|left; split; discriminate|vm_compute; repeat constructor; cbn; intuition discriminate|repeat constructor; cbn; lia|].
  intros e He. do 2 (destruct e as [|e]; [split; [vm_compute; repeat constructor; cbn; intuition discriminate|intros x; vm_compute; tauto]|]). lia.
Qed.
Print Assumptions C46_unsigned_refuted.
(** Narrow material ids: with 130 mixed slots int8 references to slots wrap around. *)
Definition s_many : uni (V:=Z) :=
  mkUni [(L "a", 1); (L "b", 2)] (repeat 50 130) (concat (repeat [1; 2] 65)) (Some (repeat 2 65)) None (Some (map (fun i => 2 * Z.of_nat i) (seq 0 65))).
Theorem C46_narrow_refuted : exists (u : uni (V:=Z)) s, valid (u_rel u) /\ consecutive (u_rel u) /\ find_widest DEFAULT_INTS (TNode [TLeaf FLOAT64; TLeaf INT8]) = INT8 /\
  to_silo_uni 0 m_above (fun x => x) INT8 300 u None None = Ok s /\ length (group (u_rel u) 64) = 2%nat /\
  nth_error (si_matlist s) 64 = Some 127.
Proof.
  exists s_many. eexists. split; [apply valid_by; vm_compute; reflexivity|]. split; [apply consecutive_by; vm_compute; reflexivity|]. split; [reflexivity|].
  split; [vm_compute; reflexivity|]. split; reflexivity.
Qed.
Print Assumptions C46_narrow_refuted.
(** Scattered slots: after the first slot of an element the indices are not looked at. *)
Theorem C46_scattered_refuted : exists (u : uni (V:=Z)) s, valid_uni 0 2 u /\ to_silo_uni 0 m_above (fun x => x) INT32 20 u None None = Ok s /\
  uni_entries 0 u None None = [(0, (1, (60, 0))); (0, (2, (40, 0))); (1, (1, (100, 0)))] /\
  si_mat s = [] /\ si_matlist s = [1; 1].
Proof.
  exists (mkUni [(L "a", 1); (L "b", 2)] [60; 100; 40] [1; 1; 2] (Some [2; 1]) (Some [0; 2; 1]) (Some [0; 2])). eexists.
  split; [|split; [vm_compute; reflexivity|split; [vm_compute; reflexivity|split; reflexivity]]].
  constructor; [apply valid_by; vm_compute; reflexivity|reflexivity|left; split; discriminate|vm_compute; repeat constructor; cbn; intuition discriminate|repeat constructor; cbn; lia|].
  intros e He. do 2 (destruct e as [|e]; [split; [vm_compute; repeat constructor; cbn; intuition discriminate|intros x; vm_compute; tauto]|]). lia.
Qed.
Print Assumptions C46_scattered_refuted.
(** The floating point type is that of the material set: the values of a field are
    converted to it, and to float32 when the set has no floating point leaf. *)
Theorem C46_value_type_refuted : find_widest [FLOAT32] (TNode [TLeaf FLOAT32; TLeaf INT32]) = FLOAT32 /\
  find_widest [FLOAT32] (TNode [TLeaf INT32; TLeaf INT64]) = FLOAT32 /\
  forall rnd w, rnd w <> w -> exists s, to_silo_multi 0 m_above rnd INT32 20 None [(L "a", [50]); (L "b", [50])] None (Some [(L "a", [w]); (L "b", [w])]) = Ok s /\ ~ In w (si_var s).
Proof.
  split; [reflexivity|]. split; [reflexivity|]. intros rnd w N. eexists. split; [reflexivity|]. cbn. tauto.
Qed.
Print Assumptions C46_value_type_refuted.

(** ---- C47 ---- *)
(** [tab] gives for each zone its entry in matlist and its materials. *)
Theorem C47_species : forall V (sp : species (V:=V)) mm nz, map fst mm = map fst sp -> NoDup (map snd mm) ->
  Forall (fun m => Forall (fun c => length (snd c) = nz) (snd m)) sp -> forall next mat tab fuel, length tab = nz ->
  Forall (fun p => zone_ids next mat (fst p) (snd p) /\ incl (snd p) (map snd mm) /\ (length (snd p) < fuel)%nat) tab ->
  exists r, spec_to_silo fuel sp mm (map fst tab) next mat = Ok r /\ spec_stands sp mm tab r.
Proof. exact @spec_law. Qed.
Print Assumptions C47_species.
(** On a material object made by to_silo: mix_spec is in step with the mixed slots. *)
Theorem C47_on_material_object : forall V (rnd : V -> V) sp mm entries s fuel, stands_for rnd (length (si_matlist s)) entries s ->
  map fst mm = map fst sp -> NoDup (map snd mm) -> Forall (fun m => Forall (fun c : str * list V => length (snd c) = length (si_matlist s)) (snd m)) sp ->
  (forall e id x, In (e, (id, x)) entries -> In id (map snd mm)) -> (length (si_mat s) + 1 < fuel)%nat ->
  exists r, spec_to_silo fuel sp mm (si_matlist s) (si_next s) (si_mat s) = Ok r /\ length (sp_list r) = length (si_matlist s) /\ length (sp_mix r) = length (si_mat s) /\
    forall e m, nth_error (si_matlist s) e = Some m ->
      if m <? 0 then
        nth_error (sp_list r) e = Some m /\
        forall slots p id, chain (si_next s) (Z.to_nat (- m - 1)) slots -> In p slots -> nth_error (si_mat s) p = Some id ->
          exists q, nth_error (sp_mix r) p = Some q /\ leads_for (sp_mf r) sp mm e id q
      else exists q, nth_error (sp_list r) e = Some q /\ leads_for (sp_mf r) sp mm e m q.
Proof. exact @spec_of_silo. Qed.
Print Assumptions C47_on_material_object.
Definition m_species : species (V:=Z) :=
  [(L "mat_b", [(L "x", [10; 11; 12; 13]); (L "y", [90; 89; 88; 87])]); (L "mat_a", [(L "z", [1; 2; 3; 4])]); (L "mat_c", [])].
Definition m_map : list (str * Z) := [(L "mat_b", 0); (L "mat_a", 1); (L "mat_c", 2)].
Definition m_tab : list (Z * list Z) := [(0, [0]); (-1, [0; 1; 2]); (1, [1]); (1, [1])].
Example C47_run : spec_to_silo 20 m_species m_map (si_matlist m_silo) (si_next m_silo) (si_mat m_silo) =
  Ok (mkSpec [2; 1; 0] [L "x"; L "y"; L "z"] [10; 90; 1; 11; 89; 2; 12; 88; 3; 13; 87; 4] [1; -1; 9; 12] [4; 6; 7]).
Proof. vm_compute. reflexivity. Qed.
Example C47_hyps : map fst m_map = map fst m_species /\ NoDup (map snd m_map) /\ Forall (fun m => Forall (fun c : str * list Z => length (snd c) = 4%nat) (snd m)) m_species /\
  map fst m_tab = si_matlist m_silo /\
  Forall (fun p => zone_ids (si_next m_silo) (si_mat m_silo) (fst p) (snd p) /\ incl (snd p) (map snd m_map) /\ (length (snd p) < 20)%nat) m_tab.
Proof.
  split; [reflexivity|]. split; [repeat constructor; cbn; lia|]. split; [repeat constructor|]. split; [reflexivity|].
  repeat (apply Forall_cons; [split; [|split; [intros x; cbn; lia|cbn; lia]]|]); [constructor; cbn; lia| |constructor; cbn; lia|constructor; cbn; lia|constructor].
  apply (zone_mixed _ _ _ [0%nat; 1%nat; 2%nat]); [cbn; lia| |reflexivity]. apply (chain_next _ _ 1%nat); [reflexivity|]. apply (chain_next _ _ 2%nat); [reflexivity|]. apply chain_end. reflexivity.
Qed.
(** ---- Where it fails ---- *)
(** A material number that is not in the map silently stands for the first material. *)
Theorem C47_unknown_number_refuted : exists (sp : species (V:=Z)) mm r, map fst mm = map fst sp /\
  spec_to_silo 20 sp mm [7] [] [] = Ok r /\ ~ In 7 (map snd mm) /\ sp_list r = [1].
Proof. exists m_species, m_map. eexists. split; [reflexivity|]. split; [vm_compute; reflexivity|]. split; [cbn; lia|reflexivity]. Qed.
Print Assumptions C47_unknown_number_refuted.
(** Materials in another order than in the material map are an error. *)
Theorem C47_order_refuted : exists (sp : species (V:=Z)) mm, (forall k, In k (map fst mm) <-> In k (map fst sp)) /\ NoDup (map fst mm) /\ NoDup (map snd mm) /\
  spec_to_silo 20 sp mm [1] [] [] = Err.
Proof.
  exists [(L "a", []); (L "b", [])], [(L "b", 1); (L "a", 0)]. split; [intros k; cbn; tauto|]. split; [repeat constructor; cbn; intuition discriminate|].
  split; [repeat constructor; cbn; lia|reflexivity].
Qed.
Print Assumptions C47_order_refuted.
