(** Material sets in Silo form: specification and facts. *)
From Coq Require Import Lia Permutation Sorted.
From Verif Require Import Base DType Node Number NodeDiff NodeFacts ArrayOps ArrayOpsFacts O2M O2MFacts O2MCompact MatSet MatSetFacts Silo.
Local Open Scope Z_scope.

(** * Specification: reading a Silo material object

    matlist[e] >= 0: element [e] holds that one material.  Otherwise -matlist[e] - 1 is
    the first of its slots in the mixed arrays, and mix_next of a slot is the number of
    the next slot plus 1, or 0 at the end. *)
Inductive chain (next : list Z) : nat -> list nat -> Prop :=
| chain_end j : nth_error next j = Some 0 -> chain next j [j]
| chain_next j j' l : nth_error next j = Some (Z.of_nat j' + 1) -> chain next j' l -> chain next j (j :: l).
Section Spec.
Context {V : Type}.
Variable rnd : V -> V.
(** element [e] is recorded to hold the materials [l]: id, volume fraction, field value.
    The volume fraction of an only material is not kept.  [a] is the first slot. *)
Definition records (s : silo (V:=V)) (a e : nat) (l : list (Z * (V * V))) : Prop :=
  match l with
  | [] => False
  | [(id, _)] => nth_error (si_matlist s) e = Some id /\ 0 <= id
  | _ => exists slots, nth_error (si_matlist s) e = Some (- Z.of_nat a - 1) /\ chain (si_next s) a slots /\ slots = seq a (length l) /\
         map (nth_error (si_mat s)) slots = map (fun p => Some (fst p)) l /\
         map (nth_error (si_vf s)) slots = map (fun p => Some (rnd (fst (snd p)))) l /\
         map (nth_error (si_var s)) slots = map (fun p => Some (rnd (snd (snd p)))) l
  end.
(** ids in ascending order, none twice *)
Definition ascending {A} (l : list (Z * A)) : Prop := StronglySorted (fun a b => fst a < fst b) l.
(** number of slots for elements with more than one material *)
Definition mixed_total (ls : list (list (Z * (V * V)))) : nat := length (concat (filter (fun l => (1 <? length l)%nat) ls)).
(** The object stands for [n] elements whose materials are the entries (element, (id,
    (volume fraction, value))), each element's in ascending order of ids, and for
    nothing else.  The slots are in the order of the elements, with none unused. *)
Definition stands_for (n : nat) (entries : list (Z * (Z * (V * V)))) (s : silo) : Prop :=
  exists ls, length ls = n /\
    (forall e l, nth_error ls e = Some l ->
       ascending l /\ (forall id x, In (id, x) l <-> In (Z.of_nat e, (id, x)) entries) /\ records s (mixed_total (firstn e ls)) e l) /\
    length (si_matlist s) = n /\ length (si_next s) = mixed_total ls /\ length (si_mat s) = mixed_total ls /\
    length (si_vf s) = mixed_total ls /\ length (si_var s) = mixed_total ls.
(** no element has two entries for one material *)
Definition key {X} (s : Z * (Z * X)) : Z * Z := (fst s, fst (snd s)).
Definition once {X} (entries : list (Z * (Z * X))) : Prop := NoDup (map key entries).
(** the entries whose volume fraction counts *)
Definition counting (above : V -> bool) (entries : list (Z * (Z * (V * V)))) : list (Z * (Z * (V * V))) :=
  filter (fun s => above (fst (snd (snd s)))) entries.
(** every element has one that counts *)
Definition filled (n : nat) (entries : list (Z * (Z * (V * V)))) : Prop :=
  forall e, (e < n)%nat -> exists id x, In (Z.of_nat e, (id, x)) entries.

(** The entries of a material set [u] stored as one array of slots, with field values
    [fv]; the i-th group belongs to element i, or to the i-th of the element ids. *)
Variable zero : V.
Definition owner (eids : option (list Z)) (i : nat) : Z := match eids with Some es => nth i es 0 | None => Z.of_nat i end.
Definition uni_entries (u : uni) (eids : option (list Z)) (fv : option (list V)) : list (Z * (Z * (V * V))) :=
  flat_map (fun i => map (fun p => (owner eids i, (nth (Z.to_nat p) (u_ids u) 0,
      (nth (Z.to_nat p) (u_vals u) zero, match fv with Some f => nth (Z.to_nat p) f zero | None => zero end))))
    (group (u_rel u) i)) (seq 0 (ones (u_rel u))).
(** The entries of a material set with an array for each material *)
Definition material_numbers (mm : option (list (str * Z))) (f : full (V:=V)) : list (str * Z) :=
  match mm with Some m => m | None => combine (map fst f) (map Z.of_nat (seq 0 (length f))) end.
Definition ids_of (eids : option (list (str * list Z))) (k : str) : option (list Z) :=
  match eids with Some m => mget m k | None => None end.
Definition value_of (fv : option full) (k : str) (j : nat) : V :=
  match fv with Some g => match mget g k with Some d => nth j d zero | None => zero end | None => zero end.
Definition multi_entries (mm : list (str * Z)) (f : full (V:=V)) (eids : option (list (str * list Z))) (fv : option full) : list (Z * (Z * (V * V))) :=
  flat_map (fun c => map (fun j => (owner (ids_of eids (fst c)) j, (match mget mm (fst c) with Some id => id | None => 0 end,
      (nth j (snd c) zero, value_of fv (fst c) j))))
    (seq 0 (length (snd c)))) f.
(** entries for [n] elements; ids and slots fit the integer type *)
Record proper (n : nat) (t : tid) (above : V -> bool) (entries : list (Z * (Z * (V * V)))) : Prop := {
  pr_elem : Forall (fun s => 0 <= fst s < Z.of_nat n) entries;
  pr_id : Forall (fun s => 0 <= fst (snd s) <= int_max t) entries;
  pr_fit : Z.of_nat (length entries) + 1 <= int_max t;
  pr_filled : filled n (counting above entries) }.
End Spec.

Lemma chain_same next j : forall l l', chain next j l -> chain next j l' -> l = l'.
Proof.
  intros l l' H. revert l'. induction H as [j E|j j' l E H IH]; intros l' H'; destruct H' as [j0 E0|j0 j0' l0 E0 H0]; try reflexivity.
  - rewrite E in E0. injection E0 as E0. lia.
  - rewrite E in E0. injection E0 as E0. lia.
  - rewrite E in E0. injection E0 as E0. assert (j' = j0') by lia. subst j0'. f_equal. apply IH, H0.
Qed.
(** * Laying out *)
Lemma asc_nodup {A} (l : list (Z * A)) : ascending l -> NoDup (map fst l).
Proof.
  induction 1 as [|p l H IH F]; cbn [map]; constructor; [|exact IH]. intros I. apply in_map_iff in I. destruct I as (q & E & I).
  rewrite Forall_forall in F. specialize (F q I). lia.
Qed.
Lemma zset_asc {A} (m : list (Z * A)) k v : ascending m -> ascending (zset m k v).
Proof.
  unfold ascending. induction m as [|[a b] m IH]; intros H; cbn [zset].
  - repeat constructor.
  - apply StronglySorted_inv in H. destruct H as [H F]. destruct (Z.eqb_spec k a) as [-> |N].
    + constructor; assumption.
    + destruct (Z.ltb_spec k a).
      * constructor; [constructor; assumption|]. constructor; [cbn; lia|]. eapply Forall_impl; [|exact F]. cbn. intros; lia.
      * constructor; [apply IH, H|]. rewrite Forall_forall in *. intros q I. apply (zset_In (V:=unit) tt (fun _ => true)) in I. destruct I as [-> |I]; [cbn; lia|apply F, I].
Qed.
Section Facts.
Context {V : Type}.
Variable zero : V.
Variable above : V -> bool.
Variable rnd : V -> V.
Variable t : tid.

Definition with_values (m w : list (Z * V)) : list (Z * (V * V)) :=
  map (fun p => (fst p, (snd p, match zget w (fst p) with Some x => x | None => zero end))) m.
Definition mix_count (maps : list (list (Z * V))) : nat :=
  fold_right (fun m n => ((if (1 <? length m)%nat then length m else 0) + n)%nat) 0%nat maps.
Hypothesis T : is_signed t = true.
Lemma t_int : is_int t = true.
Proof. unfold is_int. rewrite T. reflexivity. Qed.
Lemma conv_pos x : 0 <= x <= int_max t -> conv t x = x.
Proof. intros H. apply conv_id; [apply t_int|]. unfold in_type, int_min. rewrite T. split; [|lia]. assert (0 <= 2 ^ (bits t - 1)) by (apply Z.pow_nonneg; lia). lia. Qed.
Lemma conv_neg x : 0 <= x <= int_max t -> conv t (- x - 1) = - x - 1.
Proof. intros H. apply conv_id; [apply t_int|]. unfold in_type, int_min. unfold int_max in *. rewrite T in *. lia. Qed.

Lemma nexts_length b m : (0 < m)%nat -> length (nexts_of t b m) = m.
Proof. intros H. unfold nexts_of. rewrite app_length, map_length, seq_length. cbn. lia. Qed.
Lemma chain_seq pre post m : (0 < m)%nat -> Z.of_nat (length pre) + Z.of_nat m + 1 <= int_max t ->
  chain (pre ++ nexts_of t (Z.of_nat (length pre)) m ++ post) (length pre) (seq (length pre) m).
Proof.
  intros Hm B. assert (N0 : conv t 0 = 0) by (apply conv_pos; lia).
  assert (At : forall i, (i < m)%nat -> nth_error (pre ++ nexts_of t (Z.of_nat (length pre)) m ++ post) (length pre + i) =
    Some (if (i <? m - 1)%nat then Z.of_nat (length pre + S i) + 1 else 0)).
  { intros i Hi. rewrite nth_error_app2 by lia. replace (length pre + i - length pre)%nat with i by lia.
    rewrite nth_error_app1 by (rewrite nexts_length; lia). unfold nexts_of. destruct (Nat.ltb_spec i (m - 1)) as [H|H].
    - rewrite nth_error_app1 by (rewrite map_length, seq_length; exact H).
      rewrite (map_nth_error _ _ _ (d:=i)); [|rewrite (nth_error_nth' _ 0%nat) by (rewrite seq_length; exact H); rewrite seq_nth by exact H; reflexivity].
      f_equal. rewrite conv_pos by lia. lia.
    - rewrite nth_error_app2 by (rewrite map_length, seq_length; lia). rewrite map_length, seq_length.
      replace (i - (m - 1))%nat with 0%nat by lia. cbn. rewrite N0. reflexivity. }
  assert (G : forall k i, (i + S k = m)%nat -> chain (pre ++ nexts_of t (Z.of_nat (length pre)) m ++ post) (length pre + i) (seq (length pre + i) (S k))).
  { induction k as [|k IH]; intros i E; cbn [seq].
    - constructor. rewrite At by lia. replace (i <? m - 1)%nat with false; [reflexivity|]. symmetry. apply Nat.ltb_ge. lia.
    - econstructor; [rewrite At by lia|]. 
      + replace (i <? m - 1)%nat with true; [reflexivity|]. symmetry. apply Nat.ltb_lt. lia.
      + replace (S (length pre + i)) with (length pre + S i)%nat by lia. apply IH. lia. }
  specialize (G (m - 1)%nat 0%nat ltac:(lia)). rewrite Nat.add_0_r in G. replace (S (m - 1)) with m in G by lia. exact G.
Qed.
Lemma map_nth_seq {A} (pre mid post : list A) n : length pre = n ->
  map (nth_error (pre ++ mid ++ post)) (seq n (length mid)) = map Some mid.
Proof.
  intros <-. revert pre. induction mid as [|x mid IH]; intros pre; [reflexivity|]. cbn [length seq map]. f_equal.
  - rewrite nth_error_app2 by lia. rewrite Nat.sub_diag. reflexivity.
  - specialize (IH (pre ++ [x])). rewrite app_length in IH. cbn [length] in IH. rewrite Nat.add_1_r in IH. rewrite <- app_assoc in IH. exact IH.
Qed.
(** what an element records stays when the arrays are embedded in longer ones *)
Definition good_map (m : list (Z * V)) : Prop := m <> [] /\ Forall (fun p => 0 <= fst p <= int_max t) m.
Lemma layout_law maps : forall vmaps pn pm pv pw, length vmaps = length maps ->
  length pn = length pm -> length pv = length pm -> length pw = length pm ->
  Forall good_map maps -> Z.of_nat (length pm + mix_count maps) + 1 <= int_max t ->
  exists s, layout zero rnd t (Z.of_nat (length pm)) maps vmaps = Ok s /\ length (si_matlist s) = length maps /\
    length (si_next s) = mix_count maps /\ length (si_mat s) = mix_count maps /\ length (si_vf s) = mix_count maps /\ length (si_var s) = mix_count maps /\
    forall e m w, nth_error maps e = Some m -> nth_error vmaps e = Some w ->
      records rnd (mkSilo (si_matlist s) (pn ++ si_next s) (pm ++ si_mat s) (pv ++ si_vf s) (pw ++ si_var s)) (length pm + mix_count (firstn e maps)) e (with_values m w).
Proof.
  induction maps as [|m maps IH]; intros [|w vmaps] pn pm pv pw Lw L1 L2 L3 G B; try discriminate Lw.
  - exists (mkSilo [] [] [] [] []). cbn. repeat split; auto. intros [|e] m w E; discriminate E.
  - inversion_clear G as [|? ? [Gm Gf] G']. cbn [length] in Lw. injection Lw as Lw. cbn [mix_count fold_right] in B.
    fold (mix_count maps) in B. destruct m as [|[id v] m]; [congruence|]. destruct m as [|p2 m].
    + cbn [length Nat.ltb Nat.leb Nat.add] in B. destruct (IH vmaps pn pm pv pw Lw L1 L2 L3 G' B) as (s & Es & E1 & E2 & E3 & E4 & E5 & R).
      cbn [layout]. rewrite Es. cbn [obind]. eexists. split; [reflexivity|]. cbn [si_matlist si_next si_mat si_vf si_var length mix_count fold_right Nat.ltb Nat.leb Nat.add]. fold (mix_count maps).
      split; [rewrite E1; reflexivity|]. do 4 (split; [assumption|]). inversion_clear Gf as [|? ? Gi _]. cbn [fst] in Gi.
      rewrite conv_pos by lia. intros [|e] m' w' Em Ew.
      * cbn in Em, Ew. injection Em as <-. injection Ew as <-. cbn. split; [reflexivity|lia].
      * specialize (R e m' w' Em Ew). revert R. unfold records. cbn [si_matlist si_next si_mat si_vf si_var firstn mix_count fold_right length Nat.ltb Nat.leb Nat.add].
        fold (mix_count (firstn e maps)). destruct (with_values m' w') as [|[? ?] [|? ?]]; [tauto| |]; cbn [nth_error]; auto.
    + set (M := (id, v) :: p2 :: m) in *. assert (LM : (1 <? length M)%nat = true) by reflexivity. rewrite LM in B.
      assert (Lp : forall A (pre : list A) (x : list A), length pre = length pm -> length x = length M -> length (pre ++ x) = length (pm ++ map (fun p => conv t (fst p)) M)).
      { intros A pre y E1 E2. rewrite !app_length, map_length. congruence. }
      destruct (IH vmaps (pn ++ nexts_of t (Z.of_nat (length pm)) (length M)) (pm ++ map (fun p => conv t (fst p)) M) (pv ++ map (fun p => rnd (snd p)) M)
                  (pw ++ map (fun p => rnd (match zget w (fst p) with Some x => x | None => zero end)) M)) as (s & Es & E1 & E2 & E3 & E4 & E5 & R);
        [exact Lw|apply Lp; [exact L1|apply nexts_length; cbn; lia]|apply Lp; [exact L2|apply map_length]|apply Lp; [exact L3|apply map_length]|exact G'| |].
      { rewrite app_length, map_length. lia. }
      assert (Sl : Z.of_nat (length pm) + zlen M = Z.of_nat (length (pm ++ map (fun p => conv t (fst p)) M))) by (unfold zlen; rewrite app_length, map_length; lia).
      cbn [layout]. unfold M at 1. rewrite Sl, Es. cbn [obind]. eexists. split; [reflexivity|]. cbn [si_matlist si_next si_mat si_vf si_var].
      rewrite !app_length, !map_length. cbn [mix_count fold_right]. fold (mix_count maps). rewrite LM. fold M.
      split; [cbn [length]; rewrite E1; reflexivity|]. split; [rewrite nexts_length by (cbn; lia); lia|]. split; [lia|]. split; [lia|]. split; [lia|].
      intros [|e] m' w' Em Ew.
      * cbn in Em, Ew. injection Em as <-. injection Ew as <-. unfold records. cbn [with_values map M].
        cbn [firstn mix_count fold_right]. rewrite Nat.add_0_r.
        exists (seq (length pm) (length M)). cbn [nth_error si_matlist si_next si_mat si_vf si_var].
        split; [rewrite conv_neg by lia; reflexivity|].
        split; [rewrite <- L1; apply chain_seq; [cbn; lia|lia]|].
        split; [unfold M; cbn [length]; rewrite map_length; reflexivity|].
        split; [|split].
        -- rewrite <- (map_length (fun p => conv t (fst p)) M) at 1. rewrite map_nth_seq by reflexivity. rewrite map_map.
           change (map (fun x => Some (conv t (fst x))) M = map (fun p => Some (fst p)) (with_values M w)). unfold with_values. rewrite map_map.
           apply map_ext_in. intros p I. cbn [fst]. rewrite Forall_forall in Gf. rewrite conv_pos by (apply Gf, I). reflexivity.
        -- rewrite <- (map_length (fun p => rnd (snd p)) M) at 1. rewrite map_nth_seq by exact L2. rewrite map_map.
           change (map (fun x => Some (rnd (snd x))) M = map (fun p => Some (rnd (fst (snd p)))) (with_values M w)). unfold with_values. rewrite map_map. reflexivity.
        -- rewrite <- (map_length (fun p => rnd (match zget w (fst p) with Some x => x | None => zero end)) M) at 1. rewrite map_nth_seq by exact L3. rewrite map_map.
           change (map (fun p => Some (rnd (match zget w (fst p) with Some x => x | None => zero end))) M = map (fun p => Some (rnd (snd (snd p)))) (with_values M w)).
           unfold with_values. rewrite map_map. reflexivity.
      * specialize (R e m' w' Em Ew). revert R. unfold records. cbn [si_matlist si_next si_mat si_vf si_var]. rewrite <- !app_assoc.
        cbn [firstn mix_count fold_right]. fold (mix_count (firstn e maps)). rewrite LM, app_length, map_length, Nat.add_assoc.
        destruct (with_values m' w') as [|[? ?] [|? ?]]; [tauto| |]; cbn [nth_error]; auto.
Qed.

(** * Gathering the entries of each element *)
Definition gathered {X} (n : nat) (k : list (Z * (Z * X))) (maps : list (list (Z * X))) : Prop :=
  length maps = n /\ (length (concat maps) <= length k)%nat /\
  forall e m, nth_error maps e = Some m -> ascending m /\ forall id x, In (id, x) m <-> In (Z.of_nat e, (id, x)) k.
Lemma asc_get {X} (m : list (Z * X)) id x : ascending m -> zget m id = Some x <-> In (id, x) m.
Proof. intros A. split; [apply zget_In|apply zget_nodup, asc_nodup, A]. Qed.
Lemma zset_len {X} (m : list (Z * X)) k v : (length (zset m k v) <= S (length m))%nat.
Proof. induction m as [|[a b] m IH]; cbn [zset]; [cbn; lia|]. destruct (k =? a); [cbn; lia|]. destruct (k <? a); cbn [length]; lia. Qed.
Lemma concat_set {X} (maps : list (list X)) : forall e m m', nth_error maps e = Some m -> (length m' <= S (length m))%nat ->
  (length (concat (set_nth maps e m')) <= S (length (concat maps)))%nat.
Proof.
  induction maps as [|a maps IH]; intros [|e] m m' E H; try discriminate E; cbn [set_nth concat]; rewrite !app_length.
  - cbn in E. injection E as ->. lia.
  - cbn in E. specialize (IH e m m' E H). lia.
Qed.
Lemma nth_set {X} (l : list X) : forall e x e', (e < length l)%nat -> nth_error (set_nth l e x) e' = if (e' =? e)%nat then Some x else nth_error l e'.
Proof.
  induction l as [|a l IH]; intros [|e] x [|e'] H; cbn [length] in H; try lia; cbn; try reflexivity. rewrite IH by lia. reflexivity.
Qed.
Lemma enter_step {X} n (k : list (Z * (Z * X))) maps s : gathered n k maps -> NoDup (map key (k ++ [s])) -> 0 <= fst s < Z.of_nat n ->
  exists maps', enter maps s = Ok maps' /\ gathered n (k ++ [s]) maps'.
Proof.
  intros (Ln & Lc & G) N [H0 H1]. destruct s as [e0 [id x]]. cbn [fst] in H0, H1. assert (X0 : exists e, e0 = Z.of_nat e) by (exists (Z.to_nat e0); lia). destruct X0 as [e ->].
  assert (He : (e < length maps)%nat) by lia. destruct (nth_error maps e) as [m|] eqn:Em; [|apply nth_error_None in Em; lia].
  unfold enter. cbn [fst snd]. rewrite get_nat, Em. cbn [deref obind]. rewrite vput_ok by exact He. eexists. split; [reflexivity|].
  destruct (G e m Em) as [As I]. split; [rewrite set_nth_len; exact Ln|]. split.
  - rewrite app_length. cbn [length]. pose proof (concat_set maps e m (zset m id x) Em (zset_len _ _ _)). lia.
  - intros e' m' E'. rewrite nth_set in E' by exact He. destruct (Nat.eqb_spec e' e) as [-> |Ne].
    + injection E' as <-. split; [apply zset_asc, As|]. intros id' x'. rewrite <- (asc_get _ _ _ (zset_asc m id x As)), zget_zset, in_app_iff, <- I, <- (asc_get _ _ _ As).
      destruct (Z.eqb_spec id' id) as [-> |Ni].
      * split; [intros E; injection E as ->; right; left; reflexivity|]. intros [Z|[E|[]]]; [|injection E as ->; reflexivity].
        exfalso. apply (asc_get _ _ _ As), I in Z. rewrite map_app in N. apply NoDup_remove_2 in N. rewrite app_nil_r in N. apply N. apply in_map_iff. exists (Z.of_nat e, (id, x')). auto.
      * split; [auto|]. intros [Z|[E|[]]]; [exact Z|]. congruence.
    + destruct (G e' m' E') as [As' I']. split; [exact As'|]. intros id' x'. rewrite I', in_app_iff. split; [auto|]. intros [J|[E|[]]]; [exact J|].
      injection E as E1 _ _. lia.
Qed.
Lemma gathered_nil {X} n : gathered n [] (repeat ([] : list (Z * X)) n).
Proof.
  split; [apply repeat_length|]. split.
  - induction n as [|n IH]; [cbn; lia|exact IH].
  - intros e m E. apply nth_error_In, repeat_spec in E. subst m. split; [constructor|]. intros; cbn; tauto.
Qed.
Lemma enter_law {X} n (k : list (Z * (Z * X))) : NoDup (map key k) -> Forall (fun s => 0 <= fst s < Z.of_nat n) k ->
  exists maps, enter_all (Z.of_nat n) k = Ok maps /\ gathered n k maps.
Proof.
  unfold enter_all. rewrite Nat2Z.id. pose proof (gathered_nil (X:=X) n) as G. revert G. generalize (repeat ([] : list (Z * X)) n).
  cut (forall done maps, gathered n done maps -> NoDup (map key (done ++ k)) -> Forall (fun s => 0 <= fst s < Z.of_nat n) k ->
    exists maps', ofold enter k maps = Ok maps' /\ gathered n (done ++ k) maps').
  { intros H l G N F. exact (H [] l G N F). }
  induction k as [|s k IH]; intros done maps G N F; cbn [ofold].
  - exists maps. rewrite app_nil_r. auto.
  - inversion_clear F as [|? ? Fs Fk]. assert (Ea : (done ++ s :: k = (done ++ [s]) ++ k)%list) by (rewrite <- app_assoc; reflexivity).
    destruct (enter_step n done maps s G) as (maps1 & -> & G1); [|exact Fs|].
    + rewrite Ea, map_app in N. clear -N. induction (map key (done ++ [s])) as [|a l IHl]; [constructor|]. cbn [app] in N. inversion_clear N as [|? ? N1 N2].
      constructor; [|apply IHl, N2]. intros I. apply N1. apply in_app_iff. auto.
    + cbn [obind]. destruct (IH (done ++ [s]) maps1 G1) as (maps' & E & G'); [rewrite <- Ea; exact N|exact Fk|]. exists maps'. rewrite Ea. auto.
Qed.

Lemma with_values_len m w : length (with_values m w) = length m.
Proof. apply map_length. Qed.
Lemma with_values_asc m w : ascending m -> ascending (with_values m w).
Proof.
  unfold ascending, with_values. induction 1 as [|p m H IH F]; cbn [map]; constructor; [exact IH|]. rewrite Forall_forall in *. intros q I.
  apply in_map_iff in I. destruct I as (q' & <- & I). cbn. apply F, I.
Qed.
Lemma with_values_In m w id v y : In (id, (v, y)) (with_values m w) <-> In (id, v) m /\ y = match zget w id with Some x => x | None => zero end.
Proof.
  unfold with_values. rewrite in_map_iff. split.
  - intros ([id' v'] & E & I). cbn [fst snd] in E. injection E as -> -> <-. auto.
  - intros [I ->]. exists (id, v). auto.
Qed.
Lemma mixed_total_eq maps vmaps : length vmaps = length maps ->
  mixed_total (map (fun p => with_values (fst p) (snd p)) (combine maps vmaps)) = mix_count maps.
Proof.
  revert vmaps. induction maps as [|m maps IH]; intros [|w vmaps] E; try discriminate E; [reflexivity|]. cbn [combine map fst snd mix_count fold_right].
  fold (mix_count maps). injection E as E. specialize (IH vmaps E). unfold mixed_total in *. cbn [filter]. rewrite with_values_len.
  destruct (1 <? length m)%nat; [cbn [concat]; rewrite app_length, with_values_len|]; lia.
Qed.
Lemma mix_le maps : (mix_count maps <= length (concat maps))%nat.
Proof. induction maps as [|m maps IH]; [cbn; lia|]. cbn [mix_count fold_right concat]. fold (mix_count maps). rewrite app_length. destruct (1 <? length m)%nat; lia. Qed.
Lemma layout_stands n E kw maps vmaps : gathered n (map of_vf E) maps -> gathered n kw vmaps -> once E ->
  (forall e id v w, In (e, (id, (v, w))) E -> In (e, (id, w)) kw \/ (w = zero /\ ~ In (e, id) (map key kw))) ->
  Forall (fun s => 0 <= fst (snd s) <= int_max t) E -> filled n E -> Z.of_nat (length E) + 1 <= int_max t ->
  exists s, layout zero rnd t 0 maps vmaps = Ok s /\ stands_for rnd n E s.
Proof.
  intros (Ln & Lc & G) (Ln' & _ & G') On W R F B.
  assert (In_E : forall e m w id v y, nth_error maps e = Some m -> nth_error vmaps e = Some w ->
    In (id, (v, y)) (with_values m w) <-> In (Z.of_nat e, (id, (v, y))) E).
  { intros e m w id v y Em Ew. destruct (G e m Em) as [As I]. destruct (G' e w Ew) as [As' I']. rewrite with_values_In, I, in_map_iff.
    assert (Y : forall v' y', In (Z.of_nat e, (id, (v', y'))) E -> match zget w id with Some x => x | None => zero end = y').
    { intros v' y' J. destruct (W _ _ _ _ J) as [K|[-> K]].
      - apply I', (asc_get _ _ _ As') in K. rewrite K. reflexivity.
      - destruct (zget w id) as [z|] eqn:Ez; [|reflexivity]. exfalso. apply K. apply (asc_get _ _ _ As'), I' in Ez.
        apply in_map_iff. exists (Z.of_nat e, (id, z)). auto. }
    split.
    - intros [([e' [id' [v' y']]] & Eq & J) ->]. unfold of_vf in Eq. cbn [fst snd] in Eq. injection Eq as -> -> ->. rewrite (Y _ _ J). exact J.
    - intros J. split; [|symmetry; exact (Y _ _ J)]. exists (Z.of_nat e, (id, (v, y))). auto. }
  assert (Gm : Forall good_map maps).
  { apply Forall_forall. intros m Im. destruct (In_nth_error _ _ Im) as [e Em]. destruct (G e m Em) as [As I].
    assert (He : (e < n)%nat) by (rewrite <- Ln; apply nth_error_Some; congruence). split.
    - intros ->. destruct (F e He) as (id & [v y] & J). apply (in_map of_vf) in J. apply (proj2 (I id v)) in J. exact J.
    - apply Forall_forall. intros [id v] J. apply I in J. apply in_map_iff in J. destruct J as (s0 & Eq & J). rewrite Forall_forall in R.
      specialize (R s0 J). unfold of_vf in Eq. injection Eq as _ <- _. exact R. }
  destruct (layout_law maps vmaps [] [] [] []) as (s & Es & L1 & L2 & L3 & L4 & L5 & Rec); try reflexivity; [lia|exact Gm| |].
  { pose proof (mix_le maps). rewrite map_length in Lc. cbn [length]. lia. }
  exists s. split; [exact Es|]. exists (map (fun p => with_values (fst p) (snd p)) (combine maps vmaps)).
  rewrite mixed_total_eq by lia. split; [rewrite map_length, combine_length; lia|]. split; [|repeat split; (assumption || lia)].
  intros e l El. rewrite nth_error_map in El. destruct (nth_error (combine maps vmaps) e) as [[m w]|] eqn:Ec; [|discriminate]. cbn in El. injection El as <-.
  assert (Em : nth_error maps e = Some m /\ nth_error vmaps e = Some w).
  { clear -Ec. revert vmaps e Ec. induction maps as [|a maps IH]; intros [|b vmaps] [|e] Ec; try discriminate Ec; cbn in *.
    - injection Ec as -> ->. auto.
    - apply IH, Ec. }
  destruct Em as [Em Ew]. split; [apply with_values_asc, (G e m Em)|]. split.
  - intros id [v y]. apply In_E; assumption.
  - specialize (Rec e m w Em Ew). cbn [length Nat.add] in Rec. rewrite firstn_map, combine_firstn.
    rewrite mixed_total_eq by (rewrite !firstn_length; lia). destruct s; exact Rec.
Qed.

(** * Walking the uni-buffer relation *)
Lemma many_loop_eq r : forall fuel s, many_loop fuel r s = many_walk r fuel s.
Proof.
  induction fuel as [|f IH]; intros s; [reflexivity|]. cbn [many_loop many_walk]. destruct (has_next r s MANY) as [[|]| | |]; cbn [obind]; try reflexivity.
  destruct (next r s MANY) as [[a s']| | |]; cbn [obind]; try reflexivity. destruct (it_index_at r (fst s') (snd s')); cbn [obind]; try reflexivity.
  rewrite IH. reflexivity.
Qed.
Lemma one_loop_law r : valid r -> consecutive r -> (forall i, (i < ones r)%nat -> (0 < group_size r i)%nat) ->
  forall fuel, (ones r + length (positions r) < fuel)%nat ->
  one_loop fuel r it_begin = Ok (map (fun i => (Z.of_nat i, group r i)) (seq 0 (ones r))).
Proof.
  intros Vr C P fuel Hf.
  assert (Sz : forall i, (i < ones r)%nat -> (group_size r i <= length (positions r))%nat).
  { intros i Hi. unfold positions. assert (I : In i (seq 0 (ones r))) by (apply in_seq; lia). apply in_split in I. destruct I as (a & b & ->).
    rewrite flat_map_app. cbn [flat_map]. rewrite !app_length. unfold group at 2. rewrite map_length, seq_length. lia. }
  assert (Many : forall i f, (i < ones r)%nat -> (length (positions r) < f)%nat ->
    many_loop f r (Z.of_nat i, 0) = Ok (group r i, (Z.of_nat i, Z.of_nat (group_size r i)))).
  { intros i f Hi Hl. rewrite many_loop_eq. apply (many_walk_ok r Vr i Hi C (group_size r i) 0 f); [lia|]. specialize (Sz i Hi). lia. }
  assert (Loop : forall m i f, (i + S m = ones r)%nat -> (m + length (positions r) < f)%nat ->
    one_loop f r (Z.of_nat i, Z.of_nat (group_size r i)) = Ok (map (fun i => (Z.of_nat i, group r i)) (seq (S i) m))).
  { induction m as [|m IH]; intros i f E Hl; (destruct f as [|f]; [lia|]); cbn [one_loop has_next]; unfold has_next_one, has_next_many; cbn [fst snd];
      rewrite elements_one_ok by exact Vr; cbn [obind].
    - replace (_ <? _) with false by lia. rewrite elements_many_in by (exact Vr || lia). cbn [obind]. rewrite Z.ltb_irrefl. reflexivity.
    - replace (_ <? _) with true by lia. cbn [next obind]. specialize (P i ltac:(lia)) as Pi. replace (_ <? 1) with false by lia. cbn [obind to_front fst].
      replace (Z.of_nat i + 1) with (Z.of_nat (S i)) by lia. rewrite Many by lia. cbn [obind]. rewrite IH by lia. reflexivity. }
  destruct fuel as [|f]; [lia|]. unfold it_begin. cbn [one_loop has_next]. unfold has_next_one, has_next_many. cbn [fst snd]. rewrite elements_one_ok by exact Vr.
  cbn [obind]. destruct (ones r) as [|n] eqn:En.
  - replace (0 <? _) with false by lia. pose proof (elements_many_out r Vr 0 ltac:(lia)) as X0. cbn [Z.of_nat] in X0. rewrite X0. reflexivity.
  - assert (Go : (if 0 <? Z.of_nat (S n) - 1 then Ok true else do n0 <- elements_many r 0; Ok (0 <? n0)) = Ok true).
    { destruct (0 <? _) eqn:E; [reflexivity|]. pose proof (elements_many_in r Vr 0 ltac:(lia)) as X0. cbn [Z.of_nat] in X0. rewrite X0. specialize (P 0%nat ltac:(lia)). cbn [obind]. f_equal. lia. }
    rewrite Go. cbn [obind next to_front fst]. change (0 <? 1) with true. cbn [obind to_front fst snd]. rewrite (Many 0%nat) by lia. cbn [obind].
    rewrite (Loop n 0%nat) by lia. reflexivity.
Qed.

(** * The uni-buffer form *)
Lemma omapM_pure {A B} (f : A -> outcome B) (h : A -> B) l : (forall x, In x l -> f x = Ok (h x)) -> omapM f l = Ok (map h l).
Proof.
  induction l as [|x l IH]; intros H; [reflexivity|]. cbn [omapM map]. rewrite H by (left; reflexivity). cbn [obind]. rewrite IH by (intros; apply H; right; assumption).
  reflexivity.
Qed.
Lemma max_id_ge l : forall a, Forall (fun e => 0 <= e) l -> 0 <= a ->
  let m := fold_left (fun n e => Z.max n (e + 1)) l a in a <= m /\ Forall (fun e => e < m) l /\ (m = a \/ In (m - 1) l).
Proof.
  induction l as [|e l IH]; intros a F Ha; cbn [fold_left]; [cbn; repeat split; [lia|constructor|auto]|]. inversion_clear F as [|? ? Fe Fl].
  destruct (IH (Z.max a (e + 1)) Fl ltac:(lia)) as (A & B & C). cbn zeta in *. set (m := fold_left _ l _) in *. clearbody m. split; [lia|]. split; [constructor; [lia|exact B]|].
  destruct C as [C|C]; [|right; right; exact C]. destruct (Z.max_spec a (e + 1)) as [[H1 H2]|[H1 H2]]; [right; left; lia|left; lia].
Qed.
Lemma max_id_ok n es : Forall (fun e => 0 <= e < Z.of_nat n) es -> (forall e, (e < n)%nat -> In (Z.of_nat e) es) -> max_id es = Z.of_nat n.
Proof.
  intros F H. assert (F0 : Forall (fun e => 0 <= e) es) by (eapply Forall_impl; [|exact F]; cbn; intros; lia).
  destruct (max_id_ge es 0 F0 ltac:(lia)) as (A & B & C). cbn zeta in *. fold (max_id es) in *. rewrite Forall_forall in B, F. destruct n as [|n].
  - destruct C as [C|C]; [exact C|]. specialize (F _ C). lia.
  - specialize (B _ (H n ltac:(lia))). destruct C as [C|C]; [lia|]. specialize (F _ C). lia.
Qed.
Lemma counting_In E s : In s (counting above E) <-> In s E /\ above (fst (snd (snd s))) = true.
Proof. apply filter_In. Qed.
Lemma filter_forall {A} (P : A -> Prop) f l : Forall P l -> Forall P (filter f l).
Proof. rewrite !Forall_forall. intros H x I. apply filter_In in I. apply H, I. Qed.
Lemma filter_map {A B} (h : A -> B) f l : filter f (map h l) = map h (filter (fun x => f (h x)) l).
Proof. induction l as [|x l IH]; [reflexivity|]. cbn [map filter]. destruct (f (h x)); [cbn [map]; f_equal|]; exact IH. Qed.
Lemma key_vf (E : list (Z * (Z * (V * V)))) : map key (map of_vf E) = map key E.
Proof. rewrite map_map. reflexivity. Qed.
Lemma key_value (E : list (Z * (Z * (V * V)))) : map key (map of_value E) = map key E.
Proof. rewrite map_map. reflexivity. Qed.
Lemma forall_map {A B} (P : B -> Prop) (h : A -> B) l : Forall (fun x => P (h x)) l -> Forall P (map h l).
Proof. rewrite !Forall_forall. intros H x I. apply in_map_iff in I. destruct I as (y & <- & I). apply H, I. Qed.

Lemma uni_law fuel u eids fv n : valid (u_rel u) -> consecutive (u_rel u) -> (forall i, (i < ones (u_rel u))%nat -> (0 < group_size (u_rel u) i)%nat) ->
  length (u_vals u) = length (u_ids u) -> (forall f, fv = Some f -> length f = length (u_ids u)) ->
  (forall es, eids = Some es -> length es = ones (u_rel u)) -> once (uni_entries zero u eids fv) ->
  proper n t above (uni_entries zero u eids fv) ->
  (ones (u_rel u) + length (positions (u_rel u)) < fuel)%nat ->
  exists s, to_silo_uni zero above rnd t fuel u eids fv = Ok s /\ stands_for rnd n (counting above (uni_entries zero u eids fv)) s.
Proof.
  intros Vr C P Lv Lf Le On Pr Hf. set (E := uni_entries zero u eids fv) in *.
  assert (Own : forall i, (i < ones (u_rel u))%nat -> exists x, In (owner eids i, x) E).
  { intros i Hi. specialize (P i Hi). unfold E, uni_entries. eexists. apply in_flat_map. exists i. split; [apply in_seq; lia|].
    apply in_map_iff. exists (position (u_rel u) i 0). split; [reflexivity|]. unfold group. apply in_map, in_seq. lia. }
  assert (Elem : forall e, (e < n)%nat -> exists i, (i < ones (u_rel u))%nat /\ owner eids i = Z.of_nat e).
  { intros e He. destruct (pr_filled _ _ _ _ Pr e He) as (id & x & I). apply counting_In in I. destruct I as [I _]. apply in_flat_map in I.
    destruct I as (i & Ii & I). apply in_seq in Ii. apply in_map_iff in I. destruct I as (p & Eq & _). exists i. split; [lia|congruence]. }
  assert (Count : match eids with Some es => Ok (max_id es) | None => elements_one (u_rel u) end = Ok (Z.of_nat n)).
  { destruct eids as [es|].
    - f_equal. specialize (Le es eq_refl). apply max_id_ok.
      + apply Forall_forall. intros e I. destruct (In_nth _ _ 0 I) as (i & Hi & <-). destruct (Own i ltac:(lia)) as [x J].
        pose proof (pr_elem _ _ _ _ Pr) as R. rewrite Forall_forall in R. apply (R _ J).
      + intros e He. destruct (Elem e He) as (i & Hi & <-). cbn [owner]. apply nth_In. lia.
    - rewrite elements_one_ok by exact Vr. do 2 f_equal. cbn [owner] in *. destruct (Nat.lt_trichotomy (ones (u_rel u)) n) as [H|[H|H]]; [|exact H|].
      + destruct (Elem _ H) as (i & Hi & Ei). lia.
      + destruct (Own _ H) as [x J]. pose proof (pr_elem _ _ _ _ Pr) as R. rewrite Forall_forall in R. specialize (R _ J). cbn [fst] in R. lia. }
  assert (Slots : uni_slots zero fuel u eids fv = Ok E).
  { unfold uni_slots. rewrite one_loop_law by assumption. cbn [obind].
    rewrite (omapM_pure _ (fun op => map (fun p => (owner eids (Z.to_nat (fst op)), (nth (Z.to_nat p) (u_ids u) 0,
      (nth (Z.to_nat p) (u_vals u) zero, match fv with Some f => nth (Z.to_nat p) f zero | None => zero end)))) (snd op))).
    - cbn [obind]. rewrite map_map. cbn [fst snd]. f_equal. unfold E, uni_entries. rewrite <- flat_map_concat_map.
      apply flat_map_ext. intros i. rewrite Nat2Z.id. reflexivity.
    - intros op I. apply in_map_iff in I. destruct I as (i & <- & I). apply in_seq in I. cbn [fst snd]. rewrite Nat2Z.id.
      assert (Ow : match eids with Some es => get es (Z.of_nat i) | None => Ok (Z.of_nat i) end = Ok (owner eids i)).
      { destruct eids as [es|]; [|reflexivity]. specialize (Le es eq_refl). rewrite get_nat, (nth_error_nth' es 0) by lia. reflexivity. }
      rewrite Ow. cbn [obind]. apply omapM_pure. intros p Ip. unfold group in Ip. apply in_map_iff in Ip. destruct Ip as (k & <- & Ik). apply in_seq in Ik.
      destruct (v_in _ Vr i k ltac:(lia) ltac:(lia)) as (_ & _ & B). inversion_clear B as [|? ? B1 _]. cbn [snd u_rel o_data] in B1. unfold zlen in B1.
      set (p := position _ i k) in *. unfold uni_slot. rewrite (get_in (u_vals u) p zero) by lia. cbn [obind].
      destruct fv as [f|]; [rewrite (get_in f p zero) by (rewrite (Lf f eq_refl); lia)|]; cbn [obind]; rewrite (get_in (u_ids u) p 0) by lia; reflexivity. }
  unfold to_silo_uni. rewrite Count. cbn [obind]. rewrite Slots. cbn [obind]. fold (counting above E).
  assert (Oc : NoDup (map key (counting above E))).
  { unfold once in On. clear -On. induction E as [|x E IH]; [constructor|]. cbn [map] in On. inversion_clear On as [|? ? N1 N2]. cbn [counting filter].
    destruct (above _); [|apply IH, N2]. cbn [map]. constructor; [|apply IH, N2]. intros I. apply N1. apply in_map_iff in I. destruct I as (y & Ey & I).
    apply filter_In in I. apply in_map_iff. exists y. tauto. }
  assert (Rg : Forall (fun s => 0 <= fst s < Z.of_nat n) (counting above E)) by apply filter_forall, (pr_elem _ _ _ _ Pr).
  destruct (enter_law n (map of_vf (counting above E))) as (maps & -> & G); [rewrite key_vf; exact Oc|apply forall_map; exact Rg|]. cbn [obind].
  destruct (enter_law n (map of_value (counting above E))) as (vmaps & -> & G'); [rewrite key_value; exact Oc|apply forall_map; exact Rg|]. cbn [obind].
  destruct (layout_stands n (counting above E) _ maps vmaps G G') as (s & Es & St); [exact Oc| |apply filter_forall, (pr_id _ _ _ _ Pr)|exact (pr_filled _ _ _ _ Pr)| |].
  - intros e id v w I. left. apply in_map_iff. exists (e, (id, (v, w))). auto.
  - pose proof (pr_fit _ _ _ _ Pr). unfold counting. assert (L : (length (filter (fun s => above (fst (snd (snd s)))) E) <= length E)%nat).
    { clear. induction E as [|x E IH]; [cbn; lia|]. cbn [filter]. destruct (above _); cbn [length]; lia. } lia.
  - exists s. auto.
Qed.

(** * The forms with an array for each material *)
Lemma raw_walk len fuel : (len < fuel)%nat -> walk fuel (raw len) it_begin = Ok (map Z.of_nat (seq 0 len)).
Proof.
  intros H. assert (On : ones (raw len) = len) by (unfold ones; cbn; apply repeat_length).
  assert (Pos : positions (raw len) = map Z.of_nat (seq 0 len)).
  { unfold positions. rewrite On. rewrite flat_map_concat_map. clear. induction (seq 0 len) as [|i l IH]; [reflexivity|]. cbn [map concat].
    unfold group at 1. cbn [group_size raw o_sizes seq map]. unfold position. cbn [raw o_indices group_start o_offsets]. cbn [app]. f_equal; [lia|exact IH]. }
  assert (Vr : valid (raw len)).
  { constructor; cbn [raw o_data o_sizes o_offsets o_indices]; try congruence. intros i k Hi Hk. rewrite On in Hi. unfold group_size in Hk. cbn in Hk.
    unfold group_start. cbn [raw o_offsets]. split; [lia|]. split; [congruence|]. constructor; [|constructor]. unfold position. cbn [raw o_indices group_start o_offsets snd].
    unfold zlen. rewrite repeat_length. lia. }
  assert (C : consecutive (raw len)) by (intros i k _ _; unfold position; cbn [raw o_indices]; lia).
  rewrite <- Pos. assert (P : forall i, (i < ones (raw len))%nat -> (0 < group_size (raw len) i)%nat) by (intros i _; cbn; lia).
  apply (walk_cur (raw len) Vr P C (psum (group_size (raw len)) (ones (raw len))) 0%nat fuel); [reflexivity|].
  rewrite <- positions_len, Pos, map_length, seq_length. exact H.
Qed.
Lemma number_seq (h : nat -> Z) n : forall a, number_from (Z.of_nat a) (map h (seq a n)) = map (fun i => (Z.of_nat i, h i)) (seq a n).
Proof. induction n as [|n IH]; intros a; [reflexivity|]. cbn [seq map number_from]. f_equal. rewrite <- IH. f_equal. lia. Qed.
(** entries of one value each *)
Definition column_entries (mm : list (str * Z)) (eids : option (list (str * list Z))) (f : full (V:=V)) : list (Z * (Z * V)) :=
  flat_map (fun c => map (fun j => (owner (ids_of eids (fst c)) j, (match mget mm (fst c) with Some id => id | None => 0 end, nth j (snd c) zero)))
    (seq 0 (length (snd c)))) f.
Definition known (mm : list (str * Z)) (eids : option (list (str * list Z))) (c : str * list V) : Prop :=
  (exists id, mget mm (fst c) = Some id) /\ (forall m, eids = Some m -> exists es, mget m (fst c) = Some es /\ length es = length (snd c)).
Lemma multi_slots_law fuel mm f eids : Forall (known mm eids) f -> Forall (fun c => (length (snd c) < fuel)%nat) f ->
  multi_slots fuel mm f eids = Ok (column_entries mm eids f).
Proof.
  intros K Fu. unfold multi_slots.
  rewrite (omapM_pure _ (fun c => map (fun j => (owner (ids_of eids (fst c)) j, (match mget mm (fst c) with Some id => id | None => 0 end, nth j (snd c) zero)))
    (seq 0 (length (snd c))))).
  - cbn [obind]. f_equal. unfold column_entries. rewrite flat_map_concat_map. reflexivity.
  - intros c I. rewrite Forall_forall in K, Fu. destruct (K c I) as [[id Em] Ke]. specialize (Fu c I). unfold named_child at 1. rewrite Em. cbn [obind].
    assert (Ei : match eids with Some m => do es <- named_child m (fst c); Ok (Some es) | None => Ok None end = Ok (ids_of eids (fst c)) /\
                 (forall es, ids_of eids (fst c) = Some es -> length es = length (snd c))).
    { destruct eids as [m|]; [|split; [reflexivity|intros es X; discriminate X]]. destruct (Ke m eq_refl) as (es & Ee & Le). cbn [ids_of]. unfold named_child. rewrite Ee.
      split; [reflexivity|]. intros es' X. congruence. }
    destruct Ei as [-> Le]. cbn [obind]. unfold column_slots. rewrite raw_walk by exact Fu. cbn [obind]. change 0 with (Z.of_nat 0) at 1. rewrite number_seq.
    rewrite (omapM_pure _ (fun ip => (owner (ids_of eids (fst c)) (Z.to_nat (fst ip)), (id, nth (Z.to_nat (fst ip)) (snd c) zero)))).
    + rewrite map_map. cbn [fst]. f_equal. apply map_ext. intros j. rewrite Nat2Z.id. reflexivity.
    + intros ip J. apply in_map_iff in J. destruct J as (j & <- & J). apply in_seq in J. cbn [fst snd]. rewrite Nat2Z.id.
      rewrite (get_nat (snd c)), (nth_error_nth' (snd c) zero) by lia. cbn [deref obind]. destruct (ids_of eids (fst c)) as [es|]; [|reflexivity].
      specialize (Le es eq_refl). rewrite get_nat, (nth_error_nth' es 0) by lia. reflexivity.
Qed.
Lemma column_In mm eids f e id v : Forall (known mm eids) f -> In (e, (id, v)) (column_entries mm eids f) <->
  exists k c j, In (k, c) f /\ (j < length c)%nat /\ e = owner (ids_of eids k) j /\ mget mm k = Some id /\ v = nth j c zero.
Proof.
  intros K. unfold column_entries. rewrite in_flat_map. split.
  - intros ([k c] & I & J). apply in_map_iff in J. destruct J as (j & Eq & J). apply in_seq in J. cbn [fst snd] in *. injection Eq as <- <- <-.
    exists k, c, j. rewrite Forall_forall in K. destruct (K _ I) as [[id' Em] _]. cbn [fst] in Em. rewrite Em. repeat split; auto; lia.
  - intros (k & c & j & I & Hj & -> & Em & ->). exists (k, c). split; [exact I|]. apply in_map_iff. exists j. cbn [fst snd]. rewrite Em. split; [reflexivity|apply in_seq; lia].
Qed.
Lemma column_once mm eids f : Forall (known mm eids) f -> NoDup (map fst f) -> (forall k k' id, mget mm k = Some id -> mget mm k' = Some id -> k = k') ->
  (forall k es, In k (map fst f) -> ids_of eids k = Some es -> NoDup es) -> once (column_entries mm eids f).
Proof.
  intros K N Inj Ne. unfold once. induction f as [|[k c] f IH]; [constructor|]. inversion_clear K as [|? ? Kc Kf]. cbn [map fst] in N. inversion_clear N as [|? ? N1 N2].
  change (column_entries mm eids ((k, c) :: f)) with
    (map (fun j => (owner (ids_of eids k) j, (match mget mm k with Some id => id | None => 0 end, nth j c zero))) (seq 0 (length c)) ++ column_entries mm eids f).
  destruct Kc as [[id Em] Ke]. cbn [fst snd] in *. rewrite Em. rewrite map_app. apply NoDup_app_intro.
  - rewrite map_map. cbn [key fst snd]. assert (Inj' : forall i j, (i < length c)%nat -> (j < length c)%nat -> owner (ids_of eids k) i = owner (ids_of eids k) j -> i = j).
    { intros i j Hi Hj Eq. destruct (ids_of eids k) as [es|] eqn:Ei; [|cbn [owner] in Eq; lia]. cbn [owner] in Eq.
      pose proof (Ne k es (or_introl eq_refl) Ei) as Nes. destruct eids as [m|]; [|discriminate Ei]. destruct (Ke m eq_refl) as (es' & Ee & Le). cbn [ids_of] in Ei.
      assert (es' = es) by congruence. subst es'. apply (proj1 (NoDup_nth es 0) Nes i j); lia. }
    clear -Inj'. assert (Sb : forall j, In j (seq 0 (length c)) -> (j < length c)%nat) by (intros j I; apply in_seq in I; lia).
    pose proof (seq_NoDup (length c) 0) as Nd. revert Sb Nd. induction (seq 0 (length c)) as [|a l IHl]; intros Sb Nd; [constructor|]. cbn [map].
    inversion_clear Nd as [|? ? A B]. constructor; [|apply IHl; [intros j I; apply Sb; right; exact I|exact B]].
    intros I. apply in_map_iff in I. destruct I as (b & Eq & I). injection Eq as Eq. apply Inj' in Eq; [subst b; contradiction|apply Sb; right; exact I|apply Sb; left; reflexivity].
  - apply IH; [exact Kf|exact N2|]. intros k0 es0 I0. apply Ne. right. exact I0.
  - intros x I J. apply in_map_iff in I. destruct I as (y & <- & I). apply in_map_iff in I. destruct I as (j & <- & _). apply in_map_iff in J.
    destruct J as ([e' [id' v']] & Eq & J). cbn [key fst snd] in Eq. injection Eq as -> ->. apply (column_In _ _ _ _ _ _ Kf) in J.
    destruct J as (k' & c' & j' & I' & _ & _ & Em' & _). apply N1. rewrite (Inj k k' id Em Em'). apply (in_map fst) in I'. exact I'.
Qed.
Lemma in_maps_law {n} (k : list (Z * (Z * V))) maps : gathered n k maps -> forall l, Forall (fun s => 0 <= fst s < Z.of_nat n) l -> NoDup (map key l) ->
  exists kw, in_maps maps l = Ok kw /\ NoDup (map key kw) /\ forall s, In s kw <-> In s l /\ In (key s) (map key k).
Proof.
  intros (Ln & _ & G). induction l as [|[e0 [id x]] l IH]; intros F N; cbn [in_maps].
  - exists []. split; [reflexivity|]. split; [constructor|]. cbn. tauto.
  - inversion_clear F as [|? ? F1 F2]. cbn [map] in N. inversion_clear N as [|? ? N1 N2]. destruct (IH F2 N2) as (kw & Ek & Nk & Ik). cbn [fst snd] in *.
    assert (X0 : exists e, e0 = Z.of_nat e) by (exists (Z.to_nat e0); lia). destruct X0 as [e ->]. destruct (nth_error maps e) as [m|] eqn:Em; [|apply nth_error_None in Em; lia].
    rewrite get_nat, Em. cbn [deref obind]. rewrite Ek. cbn [obind]. destruct (G e m Em) as [As I]. destruct (zget m id) as [y|] eqn:Ez; eexists; (split; [reflexivity|]).
    + split.
      * cbn [map]. constructor; [|exact Nk]. intros J. apply N1. apply in_map_iff in J. destruct J as (s & Es & J). apply Ik in J. apply in_map_iff. exists s. tauto.
      * intros s. cbn [In]. rewrite Ik. split; [intros [<-|H]; [|tauto]|tauto]. split; [auto|]. apply (asc_get _ _ _ As), I in Ez.
        apply in_map_iff. exists (Z.of_nat e, (id, y)). auto.
    + split; [exact Nk|]. intros s. rewrite Ik. cbn [In]. split; [tauto|]. intros [[<-|H] H2]; [|tauto]. exfalso. apply in_map_iff in H2. destruct H2 as ([e' [id' y]] & Eq & J).
      cbn [key fst snd] in Eq. injection Eq as -> ->. apply I, (asc_get _ _ _ As) in J. congruence.
Qed.
Lemma multi_vf mm f eids fv : map of_vf (multi_entries zero mm f eids fv) = column_entries mm eids f.
Proof.
  unfold multi_entries, column_entries. rewrite !flat_map_concat_map, concat_map, map_map. f_equal. apply map_ext. intros c. rewrite map_map. reflexivity.
Qed.
Lemma multi_In mm eids f fv e id v w : Forall (known mm eids) f -> In (e, (id, (v, w))) (multi_entries zero mm f eids fv) <->
  exists k c j, In (k, c) f /\ (j < length c)%nat /\ e = owner (ids_of eids k) j /\ mget mm k = Some id /\ v = nth j c zero /\ w = value_of zero fv k j.
Proof.
  intros K. unfold multi_entries. rewrite in_flat_map. split.
  - intros ([k c] & I & J). apply in_map_iff in J. destruct J as (j & Eq & J). apply in_seq in J. cbn [fst snd] in *. injection Eq as <- <- <- <-.
    exists k, c, j. rewrite Forall_forall in K. destruct (K _ I) as [[id' Em] _]. cbn [fst] in Em. rewrite Em. repeat split; auto; lia.
  - intros (k & c & j & I & Hj & -> & Em & -> & ->). exists (k, c). split; [exact I|]. apply in_map_iff. exists j. cbn [fst snd]. rewrite Em. split; [reflexivity|apply in_seq; lia].
Qed.
Lemma implied_eq (f : full (V:=V)) : Z.of_nat (length f) <= int_max t -> implied_map t f = combine (map fst f) (map Z.of_nat (seq 0 (length f))).
Proof.
  unfold implied_map. intros H. change 0 with (Z.of_nat 0). assert (B : Z.of_nat (0 + length f) <= int_max t) by exact H. clear H. revert B. generalize 0%nat as a.
  induction f as [|[k c] f IH]; intros a B; [reflexivity|]. cbn [number_from map length seq combine fst snd] in *. rewrite conv_pos by lia. f_equal.
  replace (Z.of_nat a + 1) with (Z.of_nat (S a)) by lia. apply IH. lia.
Qed.
Lemma multi_law fuel mm0 f eids fv n : let mm := material_numbers mm0 f in
  (forall k k' id, mget mm k = Some id -> mget mm k' = Some id -> k = k') -> Forall (fun c => exists id, mget mm (fst c) = Some id) f -> NoDup (map fst f) ->
  match eids with None => f <> [] /\ Forall (fun c => length (snd c) = n) f | Some m => valid_sbm n m f end ->
  (forall g, fv = Some g -> NoDup (map fst g) /\ forall k d, mget g k = Some d -> exists c, mget f k = Some c /\ length d = length c) ->
  Z.of_nat (length f) <= int_max t ->
  proper n t above (multi_entries zero mm f eids fv) -> Forall (fun c => (length (snd c) < fuel)%nat) f ->
  exists s, to_silo_multi zero above rnd t fuel mm0 f eids fv = Ok s /\ stands_for rnd n (counting above (multi_entries zero mm f eids fv)) s.
Proof.
  intros mm Inj Km Nf He Hg Lf Pr Fu. set (E := multi_entries zero mm f eids fv) in *.
  assert (Emm : match mm0 with Some m => m | None => implied_map t f end = mm) by (unfold mm, material_numbers; destruct mm0; [reflexivity|apply implied_eq, Lf]).
  assert (Kf : Forall (known mm eids) f).
  { apply Forall_forall. intros [k c] I. rewrite Forall_forall in Km. split; [apply (Km _ I)|]. intros m ->. cbn [fst snd].
    pose proof (vs_same _ _ _ He k) as Sm. assert (Ik : In k (map fst m)) by (apply Sm; apply (in_map fst) in I; exact I). destruct (mget m k) as [es|] eqn:Ee.
    - exists es. split; [reflexivity|]. apply (vs_len _ _ _ He k es c Ee). apply mget_iff; [exact Nf|exact I].
    - apply mget_None_notin in Ee. contradiction. }
  assert (Nes : forall k es, ids_of eids k = Some es -> NoDup es).
  { intros k es Ei. destruct eids as [m|]; [|discriminate Ei]. cbn [ids_of] in Ei. apply mget_In in Ei. pose proof (vs_once _ _ _ He) as F. rewrite Forall_forall in F. apply (F _ Ei). }
  assert (Vf : map of_vf E = column_entries mm eids f) by apply multi_vf.
  assert (On : once E).
  { unfold once. rewrite <- key_vf, Vf. apply column_once; auto. intros k es _. apply Nes. }
  assert (Oc : NoDup (map key (counting above E))).
  { unfold once in On. clear -On. induction E as [|x E IH]; [constructor|]. cbn [map] in On. inversion_clear On as [|? ? N1 N2]. cbn [counting filter].
    destruct (above _); [|apply IH, N2]. cbn [map]. constructor; [|apply IH, N2]. intros I. apply N1. apply in_map_iff in I. destruct I as (y & Ey & I).
    apply filter_In in I. apply in_map_iff. exists y. tauto. }
  assert (Rg : Forall (fun s => 0 <= fst s < Z.of_nat n) (counting above E)) by apply filter_forall, (pr_elem _ _ _ _ Pr).
  assert (Count : match eids with
          | Some m => Ok (max_id (concat (map snd m)))
          | None => match f with [] => Err | (_, c) :: _ => elements_one (raw (length c)) end
          end = Ok (Z.of_nat n)).
  { destruct eids as [m|].
    - f_equal. apply max_id_ok.
      + apply Forall_concat. apply forall_map. exact (vs_range _ _ _ He).
      + intros e Hn. destruct (pr_filled _ _ _ _ Pr e Hn) as (id & [v w] & I). apply counting_In in I. destruct I as [I _]. apply (multi_In _ _ _ _ _ _ _ _ Kf) in I.
        destruct I as (k & c & j & I & Hj & -> & _). rewrite Forall_forall in Kf. destruct (Kf _ I) as [_ Ke]. destruct (Ke m eq_refl) as (es & Ee & Le). cbn [fst snd] in *.
        cbn [ids_of]. rewrite Ee. cbn [owner]. apply in_concat. exists es. split; [apply mget_In in Ee; apply (in_map snd) in Ee; exact Ee|apply nth_In; lia].
    - destruct He as [Hne F]. destruct f as [|[k c] f']; [congruence|]. inversion_clear F as [|? ? F1 _]. cbn [snd] in F1. unfold elements_one. cbn. unfold zlen.
      rewrite repeat_length. congruence. }
  unfold to_silo_multi. rewrite Emm, Count. cbn [obind]. rewrite multi_slots_law by assumption. cbn [obind]. rewrite <- Vf, filter_map.
  change (filter (fun x => above (snd (snd (of_vf x)))) E) with (counting above E).
  destruct (enter_law n (map of_vf (counting above E))) as (maps & -> & G); [rewrite key_vf; exact Oc|apply forall_map; exact Rg|]. cbn [obind].
  assert (Fit : Z.of_nat (length (counting above E)) + 1 <= int_max t).
  { pose proof (pr_fit _ _ _ _ Pr). unfold counting. assert (L : (length (filter (fun s => above (fst (snd (snd s)))) E) <= length E)%nat).
    { clear. induction E as [|x E IH]; [cbn; lia|]. cbn [filter]. destruct (above _); cbn [length]; lia. } lia. }
  destruct fv as [g|].
  - destruct (Hg g eq_refl) as [Ng Cg].
    assert (Kg : Forall (known mm eids) g).
    { apply Forall_forall. intros [k d] I. destruct (Cg k d) as (c & Ec & Lc); [apply mget_iff; assumption|]. apply mget_In in Ec. rewrite Forall_forall in Kf.
      destruct (Kf _ Ec) as [K1 K2]. split; [exact K1|]. intros m Em. destruct (K2 m Em) as (es & Ee & Le). exists es. split; [exact Ee|]. cbn [snd] in *. lia. }
    rewrite multi_slots_law; [|exact Kg|].
    2:{ apply Forall_forall. intros [k d] I. destruct (Cg k d) as (c & Ec & Lc); [apply mget_iff; assumption|]. apply mget_In in Ec. rewrite Forall_forall in Fu.
        specialize (Fu _ Ec). cbn [snd] in *. lia. }
    cbn [obind].
    assert (Rg2 : Forall (fun s => 0 <= fst s < Z.of_nat n) (column_entries mm eids g)).
    { apply Forall_forall. intros [e [id w]] I. apply (column_In _ _ _ _ _ _ Kg) in I. destruct I as (k & d & j & I & Hj & Eo & Em & _).
      destruct (Cg k d) as (c & Ec & Lc); [apply mget_iff; assumption|]. apply mget_In in Ec. pose proof (pr_elem _ _ _ _ Pr) as R. rewrite Forall_forall in R.
      apply (R (e, (id, (nth j c zero, value_of zero (Some g) k j)))). apply (multi_In _ _ _ _ _ _ _ _ Kf). exists k, c, j. repeat split; auto. lia. }
    destruct (in_maps_law _ maps G _ Rg2) as (kw & -> & Nk & Ik); [apply column_once; auto; intros k es _; apply Nes|]. cbn [obind].
    destruct (enter_law n kw) as (vmaps & -> & G'); [exact Nk| |].
    { apply Forall_forall. intros s I. apply Ik in I. rewrite Forall_forall in Rg2. apply Rg2, I. }
    cbn [obind]. destruct (layout_stands n (counting above E) kw maps vmaps G G') as (s & Es & St);
      [exact Oc| |apply filter_forall, (pr_id _ _ _ _ Pr)|exact (pr_filled _ _ _ _ Pr)|exact Fit|exists s; auto].
    intros e id v w I. pose proof I as I0. apply counting_In in I. destruct I as [I _]. apply (multi_In _ _ _ _ _ _ _ _ Kf) in I. destruct I as (k & c & j & I & Hj & Eo & Em & _ & Ew).
    cbn [value_of] in Ew. destruct (mget g k) as [d|] eqn:Ed.
    + left. apply Ik. split.
      * apply (column_In _ _ _ _ _ _ Kg). destruct (Cg k d Ed) as (c' & Ec & Lc). assert (Ec' : mget f k = Some c) by (apply mget_iff; assumption). assert (c' = c) by congruence. subst c'.
        exists k, d, j. apply mget_In in Ed. repeat split; auto. lia.
      * rewrite key_vf. apply (in_map key) in I0. exact I0.
    + right. split; [exact Ew|]. intros J. apply in_map_iff in J. destruct J as ([e' [id' w']] & Eq & J). cbn [key fst snd] in Eq. injection Eq as -> ->.
      apply Ik in J. destruct J as [J _]. apply (column_In _ _ _ _ _ _ Kg) in J. destruct J as (k' & d & j' & J & _ & _ & Em' & _).
      rewrite (Inj k k' id Em Em') in Ed. apply mget_None_notin in Ed. apply Ed. apply (in_map fst) in J. exact J.
  - cbn [obind]. rewrite Nat2Z.id. destruct (layout_stands n (counting above E) [] maps _ G (gathered_nil n)) as (s & Es & St);
      [exact Oc| |apply filter_forall, (pr_id _ _ _ _ Pr)|exact (pr_filled _ _ _ _ Pr)|exact Fit|exists s; auto].
    intros e id v w I. right. split; [|cbn; tauto]. apply counting_In in I. destruct I as [I _]. apply (multi_In _ _ _ _ _ _ _ _ Kf) in I.
    destruct I as (k & c & j & _ & _ & _ & _ & _ & Ew). exact Ew.
Qed.
End Facts.

(** * Reading back *)
Lemma stands_same {V} (rnd : V -> V) n E E' s : stands_for rnd n E s -> stands_for rnd n E' s ->
  forall e id, (e < n)%nat -> (exists x, In (Z.of_nat e, (id, x)) E) <-> (exists x, In (Z.of_nat e, (id, x)) E').
Proof.
  cut (forall E E', stands_for rnd n E s -> stands_for rnd n E' s -> forall e id, (e < n)%nat -> (exists x, In (Z.of_nat e, (id, x)) E) -> (exists x, In (Z.of_nat e, (id, x)) E')).
  { intros H A B e id He. split; apply H; assumption. }
  clear. intros E E' (ls & Ln & R & _) (ls' & Ln' & R' & _) e id He [x I].
  destruct (nth_error ls e) as [l|] eqn:El; [|apply nth_error_None in El; lia]. destruct (nth_error ls' e) as [l'|] eqn:El'; [|apply nth_error_None in El'; lia].
  destruct (R e l El) as (_ & Il & Re). destruct (R' e l' El') as (_ & Il' & Re'). apply Il in I.
  assert (Eq : map fst l = map fst l').
  { unfold records in Re, Re'. destruct l as [|[a xa] [|b l]]; [destruct Re| |]; (destruct l' as [|[a' xa'] [|b' l']]; [destruct Re'| |]).
    - destruct Re as [Re _], Re' as [Re' _]. cbn. congruence.
    - destruct Re as [Re P], Re' as (sl & Re' & _). exfalso. rewrite Re in Re'. injection Re' as ->. lia.
    - destruct Re' as [Re' P], Re as (sl & Re & _). exfalso. rewrite Re in Re'. injection Re' as <-. lia.
    - destruct Re as (sl & Re & Ch & _ & Ma & _), Re' as (sl' & Re' & Ch' & _ & Ma' & _). rewrite Re in Re'. injection Re' as Re'.
      assert (Sa : mixed_total (firstn e ls) = mixed_total (firstn e ls')) by lia. rewrite <- Sa in Ch'.
      rewrite (chain_same _ _ _ _ Ch' Ch), Ma in Ma'. rewrite <- !(map_map fst Some) in Ma'.
      set (u := map fst ((a, xa) :: b :: l)) in *. set (v := map fst ((a', xa') :: b' :: l')) in *. clearbody u v. clear -Ma'. revert v Ma'.
      induction u as [|y u IH]; intros [|z v] H; try discriminate H; [reflexivity|]. cbn in H. injection H as -> H. f_equal. apply IH, H. }
  apply (in_map fst) in I. rewrite Eq in I. apply in_map_iff in I. destruct I as ([id' x'] & Ei & I). cbn [fst] in Ei. subst id'. exists x'. apply Il', I.
Qed.

(** * The integer type *)
Fixpoint type_leaves (n : types) : list tid := match n with TLeaf t => [t] | TNode l => flat_map type_leaves l end.
Section TypesInd.
Variable P : types -> Prop.
Hypothesis H1 : forall t, P (TLeaf t).
Hypothesis H2 : forall l, Forall P l -> P (TNode l).
Fixpoint types_ind' (n : types) : P n :=
  match n with
  | TLeaf t => H1 t
  | TNode l => H2 l ((fix go l := match l return Forall P l with [] => Forall_nil _ | x :: r => Forall_cons _ (types_ind' x) (go r) end) l)
  end.
End TypesInd.
Lemma widest_leaves d n : forall w, widest d n w = fold_right (wider d) w (type_leaves n).
Proof.
  induction n as [t|l IH] using types_ind'; intros w; [reflexivity|]. cbn [widest type_leaves]. induction IH as [|x l Hx _ IHl]; [reflexivity|].
  cbn [fold_right flat_map]. rewrite fold_right_app, <- IHl. apply Hx.
Qed.
Lemma wider_int t w : wider DEFAULT_INTS t w =
  if is_int t && (match w with Some w => default_bytes w | None => 0 end <? default_bytes t) then Some t else w.
Proof.
  unfold wider, DEFAULT_INTS, is_int. cbn [fold_left]. destruct t; cbn [same_kind is_real is_signed is_unsigned orb andb]; try reflexivity;
    destruct (_ <? _) eqn:E; rewrite ?Z.ltb_irrefl, ?E; try reflexivity.
Qed.
Lemma find_widest_law n : let w := find_widest DEFAULT_INTS n in
  is_int w = true /\ (forall t, In t (type_leaves n) -> is_int t = true -> default_bytes t <= default_bytes w) /\
  (In w (type_leaves n) \/ (w = INT32 /\ forall t, In t (type_leaves n) -> is_int t = false)).
Proof.
  unfold find_widest. rewrite widest_leaves. generalize (type_leaves n) as l. clear. intros l.
  assert (G : match fold_right (wider DEFAULT_INTS) None l with
    | Some w => is_int w = true /\ In w l /\ forall t, In t l -> is_int t = true -> default_bytes t <= default_bytes w
    | None => forall t, In t l -> is_int t = false end).
  { induction l as [|t l IH]; [intros t []|]. cbn [fold_right]. rewrite wider_int. destruct (is_int t) eqn:Et; cbn [andb].
    - assert (Pt : 0 < default_bytes t) by (destruct t; try discriminate Et; reflexivity). destruct (fold_right _ _ _) as [w|] eqn:Ew.
      + destruct IH as (A & B & C). destruct (Z.ltb_spec (default_bytes w) (default_bytes t)).
        * repeat split; [exact Et|left; reflexivity|]. intros t' [<-|I] H'; [lia|]. specialize (C t' I H'). lia.
        * repeat split; [exact A|right; exact B|]. intros t' [<-|I] H'; [lia|]. apply C; assumption.
      + destruct (Z.ltb_spec 0 (default_bytes t)); [|lia]. repeat split; [exact Et|left; reflexivity|]. intros t' [<-|I] H'; [lia|]. rewrite (IH t' I) in H'. discriminate.
    - destruct (fold_right _ _ _) as [w|] eqn:Ew.
      + destruct IH as (A & B & C). repeat split; [exact A|right; exact B|]. intros t' [<-|I] H'; [congruence|]. apply C; assumption.
      + intros t' [<-|I]; [exact Et|apply IH, I]. }
  destruct (fold_right _ _ _) as [w|]; cbn zeta.
  - destruct G as (A & B & C). auto.
  - cbn [hd DEFAULT_INTS]. split; [reflexivity|]. split; [|auto]. intros t I H. rewrite (G t I) in H. discriminate.
Qed.
