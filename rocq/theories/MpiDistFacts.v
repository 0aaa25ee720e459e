(** Specification of distribute, and the model meets it. *)
From Verif Require Import Base DType SpecTree Schema Codec Mem MemFacts Node SpecNode NodeFacts NodeSet NodeUpdateLaws NodeMerge NodeAlloc SchemaInv
  Json JsonSpec JsonFacts JsonSchema Save SaveFacts Contig ContigFacts Number NodeDiff ArrayOps NodeHist HistSpec HistFacts HistRun Mpi MpiFacts MpiNet MpiCollFacts MpiNetFacts MpiNetMore
  O2M O2MFacts MpiDist.
Local Open Scope Z_scope.

(** ---- specification ---- *)
(** all domains: id, rank and value *)
Definition domains (meshes : list (list Z)) (vals : list (list value)) : list (Z * (nat * value)) :=
  flat_map (fun r => map (fun e => (fst e, (r, snd e))) (combine (nth r meshes []) (nth r vals []))) (seq 0 (length meshes)).
Definition domain (meshes : list (list Z)) (vals : list (list value)) (i : Z) : option (nat * value) :=
  match find (fun e => fst e =? i) (domains meshes vals) with Some e => Some (snd e) | None => None end.
(** the map as (domain, destination) pairs *)
Definition orders (r : o2m) (d : list Z) : list (Z * Z) :=
  flat_map (fun i => map (pair (Z.of_nat i)) (values r d i)) (seq 0 (ones r)).
(** what rank [me] is due, in order: its own domains as they are, others as they arrive (C54) *)
Definition due (mach : endian) (meshes : list (list Z)) (vals : list (list value)) (me : nat) (l : list (Z * Z)) : list value :=
  flat_map (fun o => if snd o =? Z.of_nat me then
                       match domain meshes vals (fst o) with
                       | Some (s, v) => [if Nat.eqb s me then v else arrives (tmap (file_order mach) v)]
                       | None => []
                       end
                     else []) l.

(** ---- walking the map ---- *)
Section Walk.
  Variable r : o2m.
  Variable d : list Z.
  Hypothesis V : valid r.
  Hypothesis C : consecutive r.
  Hypothesis D : mget (o_data r) (L "values") = Some d.

  Lemma mget_in {A} (m : list (str * A)) k v : mget m k = Some v -> exists k', In (k', v) m.
  Proof. induction m as [|[k' v'] m IH]; cbn [mget]; [discriminate|]. destruct (str_eqb k k'); [intros [= <-]; eexists; left; reflexivity|]. intros E. destruct (IH E) as (x & I). exists x. right. exact I. Qed.
  Lemma dest_loop_ok i : (i < ones r)%nat -> forall m k fuel, (k + m = group_size r i)%nat -> (m < fuel)%nat ->
    dest_loop fuel r d (Z.of_nat i) (Z.of_nat i, Z.of_nat k)
    = Ok (map (pair (Z.of_nat i)) (map (fun p => nth (Z.to_nat p) d 0) (map (position r i) (seq k m))), (Z.of_nat i, Z.of_nat (group_size r i))).
  Proof.
    intros H. induction m as [|m IH]; intros k fuel E F; (destruct fuel as [|f]; [lia|]); cbn [dest_loop has_next]; unfold has_next_many; cbn [fst snd];
      rewrite elements_many_in by assumption; cbn [obind].
    - replace (_ <? _) with false by lia. cbn. do 3 f_equal. lia.
    - replace (_ <? _) with true by lia. cbn [next obind fst snd]. rewrite position_ok by (try assumption; lia). cbn [obind].
      destruct (v_in r V i k H ltac:(lia)) as (_ & _ & P). destruct (mget_in _ _ _ D) as (k' & I). rewrite Forall_forall in P. specialize (P _ I). cbn [snd] in P.
      rewrite at_z by exact P. cbn [obind]. replace (Z.of_nat k + 1) with (Z.of_nat (S k)) by lia. rewrite IH by lia. reflexivity.
  Qed.
  Lemma domain_loop_ok fuel : (forall i, (S i < ones r)%nat -> (0 < group_size r i)%nat) ->
    (ones r < fuel)%nat -> (forall i, (i < ones r)%nat -> (group_size r i + ones r < fuel)%nat) ->
    domain_loop fuel r d it_begin = Ok (orders r d).
  Proof.
    intros P F0 F. unfold orders.
    assert (G : forall m i f, (i + m = ones r)%nat -> (0 < i)%nat -> (forall j, (j < ones r)%nat -> (group_size r j + m < f)%nat) -> (m < f)%nat ->
      domain_loop f r d (Z.of_nat (i - 1), Z.of_nat (group_size r (i - 1))) = Ok (flat_map (fun i => map (pair (Z.of_nat i)) (values r d i)) (seq i m))).
    { induction m as [|m IH]; intros i f E Hi Fs Ff; (destruct f as [|f]; [lia|]); cbn [domain_loop has_next]; unfold has_next_one, has_next_many; cbn [fst snd]; rewrite elements_one_ok by exact V; cbn [obind].
      - replace (_ <? _) with false by lia. rewrite elements_many_in by (try assumption; lia). cbn [obind]. rewrite Z.ltb_irrefl. reflexivity.
      - replace (_ <? _) with true by lia. cbn [obind next]. specialize (P (i - 1)%nat ltac:(lia)).
        replace (Z.of_nat (group_size r (i - 1)) <? 1) with false by lia. cbn [obind]. unfold to_front. cbn [fst]. replace (Z.of_nat (i - 1) + 1) with (Z.of_nat i) by lia.
        change 0 with (Z.of_nat 0). rewrite (dest_loop_ok i ltac:(lia) (group_size r i) 0 (S f)) by (try lia; specialize (Fs i ltac:(lia)); lia). cbn [obind].
        specialize (IH (S i) f). replace (S i - 1)%nat with i in IH by lia. rewrite IH; [|lia|lia|intros j Hj; specialize (Fs j Hj); lia|lia]. cbn [obind seq flat_map]. reflexivity. }
    assert (Dl : forall f i, (i < ones r)%nat -> (group_size r i < f)%nat -> dest_loop f r d (Z.of_nat i) (Z.of_nat i, 0)
      = Ok (map (pair (Z.of_nat i)) (values r d i), (Z.of_nat i, Z.of_nat (group_size r i)))).
    { intros f i Hi Hf. exact (dest_loop_ok i Hi (group_size r i) 0 f eq_refl Hf). }
    destruct fuel as [|f]; [lia|]. unfold it_begin. cbn [domain_loop has_next]. unfold has_next_one, has_next_many. cbn [fst snd]. rewrite elements_one_ok by exact V. cbn [obind].
    destruct (Nat.eq_dec (ones r) 0) as [Z0|N0].
    - rewrite Z0. change (0 <? Z.of_nat 0 - 1) with false. cbn match. replace (elements_many r 0) with (@Ok Z 0) by (symmetry; apply (elements_many_out r V 0); lia). reflexivity.
    - assert (E0 : elements_many r 0 = Ok (Z.of_nat (group_size r 0))) by (apply (elements_many_in r V 0); lia). rewrite E0. cbn [obind].
      assert (Cs : (ones r = 1%nat /\ group_size r 0 = 0%nat) \/ (do b <- (if 0 <? Z.of_nat (ones r) - 1 then Ok true else Ok (0 <? Z.of_nat (group_size r 0))); Ok b) = Ok true).
      { destruct (Nat.eq_dec (ones r) 1) as [E1|N1]; [|right; replace (0 <? Z.of_nat (ones r) - 1) with true by lia; reflexivity].
        destruct (Nat.eq_dec (group_size r 0) 0) as [G0|G0]; [left; auto|right]. rewrite E1. change (0 <? Z.of_nat 1 - 1) with false. replace (0 <? Z.of_nat (group_size r 0)) with true by lia. reflexivity. }
      destruct Cs as [[E1 G0]|Cs].
      + rewrite E1, G0. cbn [seq flat_map]. unfold values, group. rewrite G0. reflexivity.
      + destruct (if 0 <? Z.of_nat (ones r) - 1 then Ok true else Ok (0 <? Z.of_nat (group_size r 0))) as [b| | |]; try discriminate. cbn [obind] in Cs. injection Cs as ->. cbn [obind].
        unfold next. change (0 <? 1) with true. cbn [obind to_front fst]. specialize (F 0%nat ltac:(lia)) as F1.
        specialize (Dl (S f) 0%nat ltac:(lia) ltac:(lia)). cbn [Z.of_nat] in Dl. rewrite Dl. cbn [obind].
        specialize (G (ones r - 1)%nat 1%nat f). cbn [Nat.sub] in G. change (Z.of_nat 0) with 0 in G. rewrite G; [|lia|lia|intros j Hj; specialize (F j Hj); lia|lia]. cbn [obind].
        replace (seq 0 (ones r)) with (0%nat :: seq 1 (ones r - 1)) by (destruct (ones r); [lia|]; cbn [seq]; repeat f_equal; lia). reflexivity.
  Qed.
End Walk.

(** ---- ids and owners ---- *)
Section Owners.
  Variable meshes : list (list Z).
  Hypothesis Nd : NoDup (concat meshes).
  Hypothesis Pos : Forall (Forall (fun i => 0 <= i)) meshes.
  (** domain [i] is variable [x] of rank [s] *)
  Definition owned_by (i : Z) (s x : nat) : Prop := (s < length meshes)%nat /\ nth_error (nth s meshes []) x = Some i.

  Lemma nodup_part s : (s < length meshes)%nat -> NoDup (nth s meshes []).
  Proof.
    clear Pos. revert s. induction meshes as [|l ms IH]; intros s H; [cbn in H; lia|]. cbn [concat] in Nd. destruct s as [|s]; cbn [nth].
    - clear -Nd. induction l as [|x l IH]; [constructor|]. cbn [app] in Nd. inversion_clear Nd as [|? ? A B]. constructor; [intros I; apply A, in_or_app; left; exact I|auto].
    - cbn [length] in H. apply IH; [|lia]. clear -Nd. induction l as [|x l IH]; [exact Nd|]. cbn [app] in Nd. inversion_clear Nd. auto.
  Qed.
  Lemma owner_unique i s x s' x' : owned_by i s x -> owned_by i s' x' -> s = s' /\ x = x'.
  Proof.
    intros [H1 E1] [H2 E2]. assert (Q : s = s').
    { clear Pos. revert s s' H1 E1 H2 E2. induction meshes as [|l ms IH]; intros s s' H1 E1 H2 E2; [cbn in H1; lia|]. cbn [concat length] in *.
      assert (X : forall q y, (q < length ms)%nat -> nth_error (nth q ms []) y = Some i -> In i (concat ms)).
      { intros q y Hq E. apply in_concat. exists (nth q ms []). split; [apply nth_In; exact Hq|eapply nth_error_In; exact E]. }
      assert (Y : In i l -> In i (concat ms) -> False).
      { clear -Nd. induction l as [|z l IH]; [intros []|]. cbn [app] in Nd. inversion_clear Nd as [|? ? A B]. intros [<-|I] J; [apply A, in_or_app; right; exact J|auto]. }
      destruct s as [|s], s' as [|s']; cbn [nth] in E1, E2; [reflexivity| | |].
      - exfalso. apply Y; [eapply nth_error_In; exact E1|]. eapply X; [|exact E2]. lia.
      - exfalso. apply Y; [eapply nth_error_In; exact E2|]. eapply X; [|exact E1]. lia.
      - f_equal. apply IH; try assumption; try lia. clear -Nd. induction l as [|z l IH]; [exact Nd|]. cbn [app] in Nd. inversion_clear Nd. auto. }
    subst s'. split; [reflexivity|]. pose proof (nodup_part s H1) as N. rewrite NoDup_nth_error in N. apply N; [apply nth_error_Some; congruence|congruence].
  Qed.
  Lemma local_some ids i x k : NoDup ids -> nth_error ids x = Some i -> local_domain ids i k = Some (k + x)%nat.
  Proof.
    revert x k. induction ids as [|id ids IH]; intros [|x] k N E; cbn [nth_error local_domain] in *; try discriminate; inversion_clear N as [|? ? A B].
    - injection E as ->. rewrite Z.eqb_refl. assert (X : forall k, local_domain ids i k = None).
      { clear -A. induction ids as [|z ids IH]; intros k; [reflexivity|]. cbn [local_domain]. rewrite IH by (intros I; apply A; right; exact I). destruct (Z.eqb_spec z i) as [->|]; [exfalso; apply A; left; reflexivity|reflexivity]. }
      rewrite X. f_equal. lia.
    - rewrite (IH x (S k) B E). f_equal. lia.
  Qed.
  Lemma local_none ids i k : ~ In i ids -> local_domain ids i k = None.
  Proof.
    revert k. induction ids as [|z ids IH]; intros k A; [reflexivity|]. cbn [local_domain]. rewrite IH by (intros I; apply A; right; exact I).
    destruct (Z.eqb_spec z i) as [->|]; [exfalso; apply A; left; reflexivity|reflexivity].
  Qed.
  Lemma local_owner i s x me : owned_by i s x -> (me < length meshes)%nat -> local_domain (nth me meshes []) i 0 = if Nat.eqb s me then Some x else None.
  Proof.
    intros O H. destruct (Nat.eqb_spec s me) as [->|N].
    - destruct O as [_ E]. exact (local_some _ _ _ 0 (nodup_part me H) E).
    - apply local_none. intros I. apply In_nth_error in I. destruct I as (y & E). apply N. destruct (owner_unique i s x me y O); [split; assumption|assumption].
  Qed.

  (** the rank map *)
  Lemma max_id_ge ids i : In i ids -> i <= max_id ids.
  Proof.
    unfold max_id. generalize (-1). assert (M : forall ids m, m <= fold_left (fun m id => if m <? id then id else m) ids m).
    { clear. induction ids as [|z ids IH]; intros m; cbn [fold_left]; [lia|]. specialize (IH (if m <? z then z else m)). destruct (Z.ltb_spec m z); lia. }
    induction ids as [|z ids IH]; intros m; cbn [fold_left]; [intros []|]. intros [->|I]; [|auto]. specialize (M ids (if m <? i then i else m)). destruct (Z.ltb_spec m i); lia.
  Qed.
  Lemma fold_max_ge l z x : x <= z \/ In x l -> x <= fold_left Z.max l z.
  Proof.
    revert z. induction l as [|y l IH]; intros z; cbn [fold_left]; [intros [H|[]]; exact H|]. intros [H|[->|I]]; apply IH; [left; lia|left; lia|right; exact I].
  Qed.
  Definition top := fold_left Z.max (map max_id meshes) (-1).
  Lemma top_ge i s x : owned_by i s x -> 0 <= i <= top.
  Proof.
    intros [H E]. apply nth_error_In in E. assert (I : In (nth s meshes []) meshes) by (apply nth_In; exact H). split.
    - rewrite Forall_forall in Pos. specialize (Pos _ I). rewrite Forall_forall in Pos. exact (Pos _ E).
    - apply Z.le_trans with (max_id (nth s meshes [])); [apply max_id_ge; exact E|]. apply fold_max_ge. right. apply in_map. exact I.
  Qed.
  Lemma fill_ok me ids : forall m, Forall (fun i => 0 <= i < zlen m) ids -> exists m', fill_map m me ids = Ok m' /\ length m' = length m /\
    forall i, nth i m' 0 = if existsb (Z.eqb (Z.of_nat i)) ids then me else nth i m 0.
  Proof.
    induction ids as [|z ids IH]; intros m F; cbn [fill_map existsb]; [exists m; auto|]. inversion_clear F as [|? ? Fz Fi].
    unfold put. replace ((0 <=? z) && (z <? zlen m)) with true by lia. cbn [obind]. destruct (IH (set_nth m (Z.to_nat z) me)) as (m' & E & Ln & Q).
    { unfold zlen in *. rewrite length_set_nth. exact Fi. }
    exists m'. split; [exact E|]. split; [rewrite Ln; apply length_set_nth|]. intros i. rewrite Q. destruct (existsb (Z.eqb (Z.of_nat i)) ids); [rewrite orb_true_r; reflexivity|]. rewrite orb_false_r.
    unfold zlen in Fz. destruct (Z.eqb_spec (Z.of_nat i) z) as [<-|N].
    - rewrite Nat2Z.id. apply nth_of. apply nth_error_set_nth_same. lia.
    - destruct (Nat.lt_ge_cases i (length m)) as [Hi|Hi].
      + apply nth_of. rewrite nth_error_set_nth_other by lia. apply nth_error_nth'. exact Hi.
      + rewrite !nth_overflow; [reflexivity|exact Hi|rewrite length_set_nth; exact Hi].
  Qed.
  Lemma max_each_nth a : forall b i, length a = length b -> nth i (max_each a b) 0 = if (i <? length a)%nat then Z.max (nth i a 0) (nth i b 0) else 0.
  Proof.
    induction a as [|x a IH]; intros [|y b] i E; cbn [length max_each nth] in *; try discriminate; [destruct i; reflexivity|]. destruct i as [|i]; cbn [nth]; [reflexivity|].
    rewrite IH by lia. reflexivity.
  Qed.
  Lemma max_each_length a : forall b, length a = length b -> length (max_each a b) = length a.
  Proof. induction a as [|x a IH]; intros [|y b] E; cbn [length max_each] in *; try discriminate; [reflexivity|]. rewrite IH by lia. reflexivity. Qed.
  Lemma fold_each l : forall a n, length a = n -> Forall (fun b => length b = n) l -> length (fold_left max_each l a) = n /\
    forall i z, (i < n)%nat -> nth i a 0 <= z -> Forall (fun b => nth i b 0 <= z) l -> (nth i a 0 = z \/ exists b, In b l /\ nth i b 0 = z) -> nth i (fold_left max_each l a) 0 = z.
  Proof.
    induction l as [|b l IH]; intros a n Ha Hl; cbn [fold_left].
    - split; [exact Ha|]. intros i z _ _ _ [E|(b & [] & _)]. exact E.
    - inversion_clear Hl as [|? ? Hb Hl']. destruct (IH (max_each a b) n) as [L1 Q]; [rewrite max_each_length; congruence|exact Hl'|]. split; [exact L1|].
      intros i z Hi Az F E. inversion_clear F as [|? ? Fb Fl]. apply Q; [exact Hi| |exact Fl|].
      + rewrite max_each_nth by congruence. destruct (Nat.ltb_spec i (length a)); lia.
      + rewrite max_each_nth by congruence. replace (i <? length a)%nat with true by (symmetry; apply Nat.ltb_lt; lia).
        destruct E as [E|(b' & [<-|I] & E)]; [left; lia|left; lia|right; eauto].
  Qed.
  Lemma rank_map_ok : (exists i s x, owned_by i s x) -> exists m, domain_to_rank meshes = Ok m /\
    forall i s x, owned_by i s x -> at_ m i = Ok (Z.of_nat s).
  Proof.
    intros (i0 & s0 & x0 & O0). pose proof (top_ge _ _ _ O0) as T0. unfold domain_to_rank. fold top.
    assert (Ms : exists ms, omapM (fun x => local_map top (fst x) (snd x)) (combine (seq 0 (length meshes)) meshes) = Ok ms /\ length ms = length meshes /\
      forall s, (s < length meshes)%nat -> length (nth s ms []) = Z.to_nat (top + 1) /\
        forall i, (i < Z.to_nat (top + 1))%nat -> nth i (nth s ms []) 0 = if existsb (Z.eqb (Z.of_nat i)) (nth s meshes []) then Z.of_nat s else -1).
    { assert (G : forall l a, (forall q, (q < length l)%nat -> nth q l [] = nth (a + q) meshes []) -> (a + length l = length meshes)%nat ->
        exists ms, omapM (fun x => local_map top (fst x) (snd x)) (combine (seq a (length l)) l) = Ok ms /\ length ms = length l /\
          forall s, (s < length l)%nat -> length (nth s ms []) = Z.to_nat (top + 1) /\
            forall i, (i < Z.to_nat (top + 1))%nat -> nth i (nth s ms []) 0 = if existsb (Z.eqb (Z.of_nat i)) (nth s l []) then Z.of_nat (a + s) else -1).
      { induction l as [|ids l IH]; intros a Hl Ha; cbn [length seq combine]; [exists []; repeat split; cbn in *; lia|].
        rewrite omapM_cons. cbn [fst snd]. unfold local_map at 1. replace (top + 1 <? 1) with false by lia.
        destruct (fill_ok (Z.of_nat a) ids (repeat (-1) (Z.to_nat (top + 1)))) as (m & E & Lm & Q).
        { apply Forall_forall. intros i I. unfold zlen. rewrite repeat_length. specialize (Hl 0%nat ltac:(cbn; lia)). cbn [nth] in Hl. rewrite Nat.add_0_r in Hl.
          rewrite Hl in I. apply In_nth_error in I. destruct I as (x & Ex). pose proof (top_ge i a x) as T. cbn [length] in Ha. specialize (T ltac:(split; [lia|exact Ex])). lia. }
        rewrite E. cbn [obind]. destruct (IH (S a)) as (ms & Em & Lms & Qm).
        { intros q Hq. specialize (Hl (S q) ltac:(cbn; lia)). cbn [nth] in Hl. rewrite Hl. f_equal. lia. } { cbn [length] in Ha. lia. }
        rewrite Em. cbn [obind]. exists (m :: ms). split; [reflexivity|]. split; [cbn [length]; lia|]. intros [|s] Hs; cbn [nth].
        - rewrite Lm, repeat_length. split; [reflexivity|]. intros i Hi. rewrite Q, Nat.add_0_r. destruct (existsb _ _); [reflexivity|]. apply nth_of. apply nth_error_repeat. exact Hi.
        - cbn [length] in Hs. destruct (Qm s ltac:(lia)) as [A B]. split; [exact A|]. intros i Hi. rewrite B by exact Hi. replace (S a + s)%nat with (a + S s)%nat by lia. reflexivity. }
      destruct (G meshes 0%nat) as (ms & A & B & C); [reflexivity|reflexivity|]. exists ms. auto. }
    destruct Ms as (ms & E & Ln & Q). rewrite E. cbn [obind]. eexists. split; [reflexivity|]. intros i s x O. pose proof (top_ge _ _ _ O) as T.
    unfold max_all. destruct ms as [|a ms]; [destruct O as [O _]; cbn in Ln; lia|].
    assert (All : forall q, (q < length meshes)%nat -> length (nth q (a :: ms) []) = Z.to_nat (top + 1)) by (intros q Hq; apply Q; exact Hq).
    assert (At : forall q, (q < length meshes)%nat -> nth (Z.to_nat i) (nth q (a :: ms) []) 0 = if Nat.eqb q s then Z.of_nat s else -1).
    { intros q Hq. destruct (Q q Hq) as [_ W]. rewrite W by lia. rewrite Z2Nat.id by lia. destruct (Nat.eqb_spec q s) as [->|N].
      - replace (existsb (Z.eqb i) (nth s meshes [])) with true; [reflexivity|]. symmetry. apply existsb_exists. exists i. split; [destruct O as [_ O]; eapply nth_error_In; exact O|apply Z.eqb_refl].
      - replace (existsb (Z.eqb i) (nth q meshes [])) with false; [reflexivity|]. symmetry. apply not_true_is_false. intros X. apply existsb_exists in X. destruct X as (j & J & Ej). apply Z.eqb_eq in Ej. subst j.
        apply In_nth_error in J. destruct J as (y & J). apply N. destruct (owner_unique i q y s x); [split; assumption|exact O|assumption]. }
    destruct (fold_each ms a (Z.to_nat (top + 1))) as [L1 M1].
    { exact (All 0%nat ltac:(cbn in Ln; lia)). }
    { apply Forall_forall. intros b Ib. apply In_nth with (d := []) in Ib. destruct Ib as (q & Hq & <-). exact (All (S q) ltac:(cbn in Ln; lia)). }
    rewrite at_z by (unfold zlen; lia). f_equal. apply M1; [lia| | |].
    - pose proof (At 0%nat ltac:(cbn in Ln; lia)) as X. cbn [nth] in X. rewrite X. destruct (Nat.eqb 0 s); lia.
    - apply Forall_forall. intros b Ib. apply In_nth with (d := []) in Ib. destruct Ib as (q & Hq & <-). pose proof (At (S q) ltac:(cbn in Ln; lia)) as X. cbn [nth] in X. rewrite X. destruct (Nat.eqb (S q) s); lia.
    - destruct O as [Hs _]. pose proof (At s Hs) as X. rewrite Nat.eqb_refl in X. destruct s as [|s]; cbn [nth] in X; [left; exact X|right]. exists (nth s ms []). split; [apply nth_In; cbn in Ln; lia|exact X].
  Qed.

  (** what a domain is *)
  Lemma domain_owner vals i s x : length vals = length meshes -> Forall2 (fun ids vs => length ids = length vs) meshes vals ->
    owned_by i s x -> exists v, nth_error (nth s vals []) x = Some v /\ domain meshes vals i = Some (s, v).
  Proof.
    intros Lv F O. pose proof O as [Hs E]. assert (Le : length (nth s meshes []) = length (nth s vals [])).
    { exact (F2_at _ meshes vals s (nth s meshes []) [] F (nth_some meshes s [] Hs)). }
    destruct (nth_error (nth s vals []) x) as [v|] eqn:Ev.
    2:{ exfalso. apply nth_error_None in Ev. assert (x < length (nth s meshes []))%nat by (apply nth_error_Some; congruence). lia. }
    exists v. split; [reflexivity|]. unfold domain.
    assert (In0 : In (i, (s, v)) (domains meshes vals)).
    { unfold domains. apply in_flat_map. exists s. split; [apply in_seq; lia|]. apply in_map_iff. exists (i, v). split; [reflexivity|].
      clear -E Ev. revert x E Ev. generalize (nth s meshes []) (nth s vals []). induction l as [|a l IH]; intros [|b l0] [|x] E Ev; cbn [nth_error combine] in *; try discriminate; [left; congruence|right; eauto]. }
    destruct (find (fun e => fst e =? i) (domains meshes vals)) as [[j [s' v']]|] eqn:Fd.
    2:{ pose proof (find_none _ _ Fd _ In0) as X. cbn [fst] in X. rewrite Z.eqb_refl in X. discriminate. }
    apply find_some in Fd. destruct Fd as [In1 X]. cbn [fst] in X. apply Z.eqb_eq in X. subst j. cbn [snd].
    unfold domains in In1. apply in_flat_map in In1. destruct In1 as (q & Hq & In1). apply in_seq in Hq. apply in_map_iff in In1. destruct In1 as ([j w] & Ej & In1). cbn [fst snd] in Ej. injection Ej as -> -> ->.
    assert (Y : exists y, nth_error (nth s' meshes []) y = Some i /\ nth_error (nth s' vals []) y = Some v').
    { clear -In1. revert In1. generalize (nth s' meshes []) (nth s' vals []). induction l as [|a l IH]; intros [|b l0] I; cbn [combine] in I; try contradiction.
      destruct I as [I|I]; [injection I as -> ->; exists 0%nat; auto|]. destruct (IH l0 I) as (y & A & B). exists (S y). auto. }
    destruct Y as (y & Y1 & Y2). destruct (owner_unique i s x s' y O) as [-> ->]; [split; [lia|exact Y1]|]. congruence.
  Qed.
End Owners.

(** ---- handing out ---- *)
Lemma inv_add s vs : inv s vs -> inv (add_output s) (vs ++ [none]).
Proof.
  intros ((V & G & P) & Lk & Nu). unfold add_output. split; [|split]; cbn [s_mem s_vars].
  - split; [|split].
    + apply Forall2_app; [exact V|]. constructor; [reflexivity|constructor].
    + apply Forall_app. split; [exact G|]. constructor; [apply good_nempty|constructor].
    + intros i j a b N Ei Ej.
      assert (X : forall k c, nth_error (s_vars s ++ [nempty]) k = Some c -> nth_error (s_vars s) k = Some c \/ c = nempty).
      { intros k c E. destruct (Nat.lt_ge_cases k (length (s_vars s))) as [H|H]; [left; rewrite nth_error_app1 in E by exact H; exact E|right].
        rewrite nth_error_app2 in E by exact H. destruct (k - length (s_vars s))%nat as [|[|q]]; [injection E as <-; reflexivity|discriminate|discriminate]. }
      destruct (X i a Ei) as [Fi| ->]; [destruct (X j b Ej) as [Fj| ->]; [exact (P i j a b N Fi Fj)|]|].
      * split; [intros q _; apply touches_nempty|]. split; [intros q _ []|intros x _ []].
      * split; [intros q T; destruct (touches_nempty q T)|]. split; [intros q T; destruct (touches_nempty q T)|intros x []].
  - intros b L0. destruct (Lk b L0) as (c & I & O). exists c. split; [apply in_or_app; left; exact I|exact O].
  - apply Forall_app. split; [exact Nu|]. constructor; [constructor|constructor].
Qed.

Section Hand.
  Variable mach : endian.
  Variable meshes : list (list Z).
  Variable vals : list (list value).
  Notation n := (length meshes).
  Hypothesis Nd : NoDup (concat meshes).
  Hypothesis Vl : Forall2 (fun ids vs => length ids = length vs) meshes vals.

  Definition own (i : Z) : nat * nat :=
    match find (fun r => existsb (Z.eqb i) (nth r meshes [])) (seq 0 n) with
    | Some r => (r, match local_domain (nth r meshes []) i 0 with Some x => x | None => O end)
    | None => (O, O)
    end.
  Lemma own_ok i s x : owned_by meshes i s x -> own i = (s, x).
  Proof.
    intros O. pose proof O as [Hs E]. unfold own. destruct (find _ _) as [r|] eqn:F.
    - apply find_some in F. destruct F as [Ir F]. apply in_seq in Ir. apply existsb_exists in F. destruct F as (j & J & Ej). apply Z.eqb_eq in Ej. subst j. apply In_nth_error in J. destruct J as (y & J).
      destruct (owner_unique meshes Nd i s x r y O) as [<- <-]; [split; [lia|exact J]|]. rewrite (local_owner meshes Nd i s x s O Hs), Nat.eqb_refl. reflexivity.
    - exfalso. apply find_none with (x := s) in F; [|apply in_seq; lia]. apply not_true_iff_false in F. apply F. apply existsb_exists. exists i. split; [eapply nth_error_In; exact E|apply Z.eqb_refl].
  Qed.
  Definition order_ok (o : Z * Z) : Prop := (exists s x, owned_by meshes (fst o) s x) /\ 0 <= snd o < Z.of_nat n.
  Definition outs (f : value -> value) (me : nat) (l : list (Z * Z)) : list value :=
    flat_map (fun o => if snd o =? Z.of_nat me then
                         match domain meshes vals (fst o) with Some (s, v) => [if Nat.eqb s me then v else f v] | None => [] end
                       else []) l.
  Lemma outs_app f me a b : outs f me (a ++ b) = outs f me a ++ outs f me b.
  Proof. apply flat_map_app. Qed.
  Lemma outs_length f g me l : length (outs f me l) = length (outs g me l).
  Proof.
    unfold outs. induction l as [|o l IH]; [reflexivity|]. cbn [flat_map]. rewrite !app_length, IH. f_equal. destruct (snd o =? Z.of_nat me); [|reflexivity]. destruct (domain meshes vals (fst o)) as [[s v]|]; reflexivity.
  Qed.
  Definition width (r : nat) : nat := length (nth r vals []).
  Fixpoint plan (before : list (Z * Z)) (tag : Z) (l : list (Z * Z)) : list transfer :=
    match l with
    | [] => []
    | o :: r =>
        (let (s, x) := own (fst o) in let d := Z.to_nat (snd o) in
         if Nat.eqb s d then [] else [mkT s x d (width d + length (outs (fun v => v) d before)) tag])
        ++ plan (before ++ [o]) (tag + 1) r
    end.
  Lemma vals_length : length vals = n.
  Proof. symmetry. clear -Vl. induction Vl as [|a b la lb H F IH]; cbn [length]; [reflexivity|]. f_equal. exact (IH F). Qed.
  Lemma inv_length s vs : inv s vs -> length (s_vars s) = length vs.
  Proof. intros ((V & _) & _). clear -V. induction V as [|a b la lb H F IH]; cbn [length]; [reflexivity|]. f_equal. exact IH. Qed.

  Lemma queue_ok d2r me : (forall i s x, owned_by meshes i s x -> at_ d2r i = Ok (Z.of_nat s)) -> (me < n)%nat -> forall l before tag s ops, Forall order_ok l -> 0 <= tag ->
    inv s (nth me vals [] ++ outs (fun _ => none) me before) ->
    exists s', hand_all mach me (nth me meshes []) d2r s ops tag l = Ok (s', ops ++ calls_of me (plan before tag l)) /\
      inv s' (nth me vals [] ++ outs (fun _ => none) me (before ++ l)) /\
      forall x, (x < width me)%nat -> nth_error (s_vars s') x = nth_error (s_vars s) x.
  Proof.
    intros Dr Hme. induction l as [|[i des] l IH]; intros before tag s ops Fo Ht I; cbn [hand_all plan].
    - exists s. rewrite !app_nil_r. auto.
    - inversion_clear Fo as [|? ? Oo Fo']. destruct Oo as [(s0 & x & O) Hd]. cbn [fst snd] in *.
      destruct (domain_owner meshes Nd vals i s0 x vals_length Vl O) as (v & Ev & Dv).
      rewrite (own_ok _ _ _ O). unfold hand_out. rewrite (local_owner meshes Nd i s0 x me O Hme).
      pose proof (inv_length _ _ I) as Ln. rewrite app_length in Ln. fold (width me) in Ln.
      assert (Step : forall one, outs (fun _ => none) me [(i, des)] = one ->
        forall s1 ops1, inv s1 (nth me vals [] ++ outs (fun _ => none) me before ++ one) ->
          (forall y, (y < width me)%nat -> nth_error (s_vars s1) y = nth_error (s_vars s) y) ->
          exists s', hand_all mach me (nth me meshes []) d2r s1 (ops ++ ops1) (tag + 1) l = Ok (s', ops ++ ops1 ++ calls_of me (plan (before ++ [(i, des)]) (tag + 1) l)) /\
            inv s' (nth me vals [] ++ outs (fun _ => none) me (before ++ (i, des) :: l)) /\
            forall y, (y < width me)%nat -> nth_error (s_vars s') y = nth_error (s_vars s) y).
      { intros one E1 s1 ops1 I1 K1. destruct (IH (before ++ [(i, des)]) (tag + 1) s1 (ops ++ ops1) Fo' ltac:(lia)) as (s' & E' & I' & K').
        - rewrite outs_app, E1. exact I1.
        - exists s'. rewrite E'. split; [rewrite <- app_assoc; reflexivity|]. split; [rewrite <- app_assoc in I'; exact I'|]. intros y Hy. rewrite K', K1 by exact Hy. reflexivity. }
      unfold calls_of. rewrite flat_map_app. fold (calls_of me (plan (before ++ [(i, des)]) (tag + 1) l)).
      assert (Add : forall k c, nth_error (s_vars s) k = Some c -> nth_error (s_vars s ++ [nempty]) k = Some c) by (intros k c E; rewrite nth_error_app1; [exact E|apply nth_error_Some; congruence]).
      destruct (Nat.eqb_spec s0 me) as [->|Ns].
      + destruct (Z.eqb_spec (Z.of_nat me) des) as [<-|Nx].
        * (* copied *)
          rewrite Nat2Z.id, Nat.eqb_refl. cbn [flat_map app].
          destruct (do_ok mach (add_output s) _ (length (s_vars s)) [] (ASet x []) none v v (inv_add _ _ I)) as (s1 & E1 & I1).
          { rewrite Ln, nth_error_app2 by (rewrite app_length; fold (width me); lia). rewrite app_length. fold (width me). rewrite Nat.sub_diag. reflexivity. }
          { cbn [argument arg_of]. assert (H : (x < width me)%nat) by (unfold width; apply nth_error_Some; rewrite Ev; discriminate). split; [lia|]. exists v. split; [|constructor].
            rewrite nth_error_app1 by (rewrite app_length; fold (width me); lia). rewrite nth_error_app1 by exact H. exact Ev. }
          { apply va_here. constructor. }
          cbn [add_output s_vars] in E1. unfold add_output in E1 at 1. cbn [s_vars s_mem] in E1. unfold add_output. rewrite E1. cbn [obind].
          specialize (Step [v]). rewrite app_nil_r in Step || idtac.
          destruct (Step ltac:(unfold outs; cbn [flat_map fst snd]; rewrite Z.eqb_refl, Dv, Nat.eqb_refl; reflexivity) s1 []) as (s' & E' & R').
          { rewrite Ln in I1. rewrite app_assoc. rewrite <- (app_nil_r [none]) in I1. replace (width me + length (outs (fun _ => none) me before))%nat with (length (nth me vals [] ++ outs (fun _ => none) me before)) in I1 by (rewrite app_length; reflexivity).
            cbn [app] in I1. rewrite set_nth_app in I1. exact I1. }
          { intros y Hy. cbn [exec1] in E1. clear -E1 Hy Ln. cbn [s_vars s_mem] in E1. destruct (deref (nth_error (s_vars s ++ [nempty]) (length (s_vars s)))); cbn [obind] in E1; try discriminate.
            destruct (match arg_of (ASet x []) with Some (j, q) => do x <- deref (nth_error (s_vars s ++ [nempty]) j); nsub x q | None => Ok nempty end); cbn [obind] in E1; try discriminate.
            destruct (at_path _ _ _ _) as [[m' n']| | |]; cbn [obind] in E1; try discriminate. injection E1 as <-. cbn [s_vars]. rewrite nth_error_set_nth_other by lia. rewrite nth_error_app1 by lia. reflexivity. }
          rewrite app_nil_r in E'. exists s'. split; [exact E'|exact R'].
        * (* sent *)
          replace (des <? 0) with false by lia. replace (Nat.eqb me (Z.to_nat des)) with false by (symmetry; apply Nat.eqb_neq; lia).
          unfold add_call. replace (tag <? 0) with false by lia. cbn [obind flat_map t_src t_dest t_from t_into t_tag app]. rewrite Nat.eqb_refl. replace (Nat.eqb (Z.to_nat des) me) with false by (symmetry; apply Nat.eqb_neq; lia).
          apply (Step []); [unfold outs; cbn [flat_map fst snd]; replace (des =? Z.of_nat me) with false by lia; reflexivity|rewrite app_nil_r; exact I|reflexivity].
      + destruct (Z.eqb_spec (Z.of_nat me) des) as [<-|Nx].
        * (* received *)
          rewrite (Dr _ _ _ O). cbn [obind]. replace (Z.of_nat s0 <? 0) with false by lia. rewrite !Nat2Z.id. replace (Nat.eqb s0 me) with false by (symmetry; apply Nat.eqb_neq; exact Ns).
          unfold add_call. replace (tag <? 0) with false by lia. cbn [obind flat_map t_src t_dest t_from t_into t_tag app]. rewrite Nat.eqb_refl. replace (Nat.eqb s0 me) with false by (symmetry; apply Nat.eqb_neq; exact Ns). cbn [app].
          rewrite Ln, (outs_length (fun _ => none) (fun v => v)).
          apply (Step [none]); [unfold outs; cbn [flat_map fst snd]; rewrite Z.eqb_refl, Dv; replace (Nat.eqb s0 me) with false by (symmetry; apply Nat.eqb_neq; exact Ns); reflexivity| |].
          -- rewrite app_assoc. apply inv_add. exact I.
          -- intros y Hy. unfold add_output. cbn [s_vars]. rewrite nth_error_app1 by lia. reflexivity.
        * (* not for this rank *)
          destruct (Step [] ltac:(unfold outs; cbn [flat_map fst snd]; replace (des =? Z.of_nat me) with false by lia; reflexivity) s []) as (s' & E' & R'); [rewrite app_nil_r; exact I|reflexivity|].
          rewrite app_nil_r in E'. cbn [app] in E'. cbn [obind]. exists s'. split; [|exact R'].
          destruct (Nat.eqb s0 (Z.to_nat des)); cbn [flat_map t_src t_dest t_from t_into t_tag app]; [exact E'|].
          replace (Nat.eqb s0 me) with false by (symmetry; apply Nat.eqb_neq; exact Ns). replace (Nat.eqb (Z.to_nat des) me) with false by (symmetry; apply Nat.eqb_neq; lia). exact E'.
  Qed.

  (** what the transfers of the plan bring *)
  Definition sent_vals (all : list (Z * Z)) : list (list value) := map (fun r => nth r vals [] ++ outs (fun _ => none) r all) (seq 0 n).
  Lemma sent_at all r : (r < n)%nat -> nth r (sent_vals all) [] = nth r vals [] ++ outs (fun _ => none) r all.
  Proof. intros H. apply nth_of. unfold sent_vals. rewrite nth_error_map, nth_some with (d := O) by (rewrite seq_length; exact H). rewrite seq_nth by exact H. reflexivity. Qed.
  Lemma plan_brings all me : (me < n)%nat -> Forall (Forall names_unique) vals -> forall l before tag, Forall order_ok l ->
    transferred mach (sent_vals all) me (plan before tag l)
      (nth me vals [] ++ due mach meshes vals me before ++ outs (fun _ => none) me l) (nth me vals [] ++ due mach meshes vals me (before ++ l)).
  Proof.
    intros Hme Nu. induction l as [|[i des] l IH]; intros before tag Fo; cbn [plan].
    - rewrite !app_nil_r. constructor.
    - inversion_clear Fo as [|? ? Oo Fo']. destruct Oo as [(s0 & x & O) Hd]. cbn [fst snd] in *.
      destruct (domain_owner meshes Nd vals i s0 x vals_length Vl O) as (v & Ev & Dv). rewrite (own_ok _ _ _ O).
      specialize (IH (before ++ [(i, des)]) (tag + 1) Fo'). rewrite <- app_assoc in IH. cbn [app] in IH.
      change (outs (fun _ => none) me ((i, des) :: l)) with (outs (fun _ => none) me ([(i, des)] ++ l)). rewrite outs_app.
      unfold due at 1 in IH. rewrite flat_map_app in IH. fold (due mach meshes vals me before) in IH. fold (due mach meshes vals me [(i, des)]) in IH. rewrite <- app_assoc in IH.
      destruct (Z.eqb_spec des (Z.of_nat me)) as [->|Nx].
      + rewrite Nat2Z.id. destruct (Nat.eqb_spec s0 me) as [->|Ns]; cbn [app].
        * assert (Q : outs (fun _ => none) me [(i, Z.of_nat me)] = due mach meshes vals me [(i, Z.of_nat me)]).
          { unfold outs, due. cbn [flat_map fst snd]. rewrite Z.eqb_refl, Dv, Nat.eqb_refl. reflexivity. }
          rewrite Q. exact IH.
        * pose proof O as [Hs0 Ex].
          assert (Uv : names_unique v). { rewrite Forall_forall in Nu. assert (A : In (nth s0 vals []) vals) by (apply nth_In; rewrite vals_length; exact Hs0). specialize (Nu _ A). rewrite Forall_forall in Nu. apply Nu. eapply nth_error_In; exact Ev. }
          assert (Q1 : outs (fun _ => none) me [(i, Z.of_nat me)] = [none]).
          { unfold outs. cbn [flat_map fst snd]. rewrite Z.eqb_refl, Dv. replace (Nat.eqb s0 me) with false by (symmetry; apply Nat.eqb_neq; exact Ns). reflexivity. }
          assert (Q2 : due mach meshes vals me [(i, Z.of_nat me)] = [arrives (tmap (file_order mach) v)]).
          { unfold due. cbn [flat_map fst snd]. rewrite Z.eqb_refl, Dv. replace (Nat.eqb s0 me) with false by (symmetry; apply Nat.eqb_neq; exact Ns). reflexivity. }
          rewrite Q1. rewrite Q2 in IH.
          assert (Lq : length (nth me vals [] ++ due mach meshes vals me before) = (width me + length (outs (fun v => v) me before))%nat).
          { rewrite app_length. unfold width. f_equal. apply (outs_length (fun v => arrives (tmap (file_order mach) v)) (fun v => v)). }
          assert (Nv : vupdate none (tmap (file_order mach) v) = arrives (tmap (file_order mach) v)) by (apply vupdate_none, nu_tmap; exact Uv).
          eapply tr_here with (w := v) (v := none); cbn [t_src t_dest t_from t_into t_tag].
          -- reflexivity.
          -- rewrite sent_at by exact Hs0. rewrite nth_error_app1; [exact Ev|apply nth_error_Some; congruence].
          -- rewrite app_assoc, <- Lq. rewrite nth_error_app2 by lia. rewrite Nat.sub_diag. reflexivity.
          -- apply none_clash.
          -- rewrite Nv, app_assoc, <- Lq. cbn [app]. rewrite set_nth_app. rewrite <- app_assoc. exact IH.
      + assert (Q1 : outs (fun _ => none) me [(i, des)] = []) by (unfold outs; cbn [flat_map fst snd]; replace (des =? Z.of_nat me) with false by lia; reflexivity).
        assert (Q2 : due mach meshes vals me [(i, des)] = []) by (unfold due; cbn [flat_map fst snd]; replace (des =? Z.of_nat me) with false by lia; reflexivity).
        rewrite Q1. rewrite Q2 in IH. cbn [app] in IH |- *. destruct (Nat.eqb s0 (Z.to_nat des)); cbn [app]; [exact IH|]. apply tr_other; [cbn [t_dest]; lia|exact IH].
  Qed.
  Lemma plan_in l : forall before tag x, Forall order_ok l -> In x (plan before tag l) ->
    exists o, In o l /\ owned_by meshes (fst o) (t_src x) (t_from x) /\ t_dest x = Z.to_nat (snd o) /\ t_src x <> t_dest x.
  Proof.
    induction l as [|[i des] l IH]; intros before tag y Fo I; cbn [plan] in I; [destruct I|]. inversion_clear Fo as [|? ? Oo Fo']. destruct Oo as [(s0 & x & O) Hd]. cbn [fst snd] in *.
    rewrite (own_ok _ _ _ O) in I. apply in_app_iff in I. destruct I as [I|I].
    - destruct (Nat.eqb_spec s0 (Z.to_nat des)) as [|N]; [destruct I|]. destruct I as [<-|[]]. exists (i, des). split; [left; reflexivity|]. cbn [fst snd t_src t_dest t_from]. auto.
    - destruct (IH _ _ _ Fo' I) as (o & Io & R). exists o. split; [right; exact Io|exact R].
  Qed.
  Lemma plan_has l : forall before tag o s x, Forall order_ok l -> In o l -> owned_by meshes (fst o) s x -> s <> Z.to_nat (snd o) ->
    exists t, In t (plan before tag l) /\ t_src t = s /\ t_dest t = Z.to_nat (snd o).
  Proof.
    induction l as [|[i des] l IH]; intros before tag o s x Fo I O N; [destruct I|]. inversion_clear Fo as [|? ? Oo Fo']. cbn [plan]. destruct I as [<-|I].
    - cbn [fst snd] in *. rewrite (own_ok _ _ _ O). replace (Nat.eqb s (Z.to_nat des)) with false by (symmetry; apply Nat.eqb_neq; exact N).
      eexists. split; [apply in_or_app; left; left; reflexivity|]. auto.
    - destruct (IH (before ++ [(i, des)]) (tag + 1) o s x Fo' I O N) as (t & It & R). exists t. split; [apply in_or_app; right; exact It|exact R].
  Qed.
End Hand.

Lemma plan_length meshes vals l : forall before tag, (length (plan meshes vals before tag l) <= length l)%nat.
Proof.
  induction l as [|o l IH]; intros before tag; cbn [plan length]; [lia|]. rewrite app_length. specialize (IH (before ++ [o]) (tag + 1)).
  destruct (own meshes (fst o)) as [s x]. destruct (Nat.eqb s (Z.to_nat (snd o))); cbn [length]; lia.
Qed.
Lemma distribute_ok mach fuel r d meshes sts vals :
  valid r -> consecutive r -> (forall i, (S i < ones r)%nat -> (0 < group_size r i)%nat) -> mget (o_data r) (L "values") = Some d ->
  (ones r < fuel)%nat -> (forall i, (i < ones r)%nat -> (group_size r i + ones r < fuel)%nat) ->
  NoDup (concat meshes) -> Forall (Forall (fun i => 0 <= i)) meshes -> (exists i s x, owned_by meshes i s x) ->
  Forall2 (fun ids vs => length ids = length vs) meshes vals -> Forall2 inv sts vals -> Forall (order_ok meshes) (orders r d) ->
  exists qs, distribute mach fuel r meshes sts = Ok qs /\
    map snd qs = map (fun me => calls_of me (plan meshes vals [] 422000 (orders r d))) (seq 0 (length meshes)) /\
    Forall2 inv (map fst qs) (sent_vals meshes vals (orders r d)) /\
    forall me s s', nth_error sts me = Some s -> nth_error (map fst qs) me = Some s' -> forall x, (x < length (nth me vals []))%nat -> nth_error (s_vars s') x = nth_error (s_vars s) x.
Proof.
  intros V C P D F0 F1 Nd Pos Ex Vl St Oo. destruct (rank_map_ok meshes Nd Pos Ex) as (d2r & Ed & Dr). unfold distribute. rewrite Ed, D. cbn [obind]. rewrite domain_loop_ok by assumption. cbn [obind].
  assert (Ls : length sts = length meshes) by (rewrite <- (vals_length meshes vals Vl); clear -St; induction St as [|a b la lb H F IH]; cbn [length]; [reflexivity|f_equal; exact IH]).
  assert (G : forall k a, (a + k = length meshes)%nat ->
    exists qs, omapM (fun x => hand_all mach (fst x) (fst (snd x)) d2r (snd (snd x)) [] 422000 (orders r d))
        (combine (seq a k) (combine (skipn a meshes) (skipn a sts))) = Ok qs /\
      map snd qs = map (fun me => calls_of me (plan meshes vals [] 422000 (orders r d))) (seq a k) /\
      Forall2 inv (map fst qs) (map (fun me => nth me vals [] ++ outs meshes vals (fun _ => none) me (orders r d)) (seq a k)) /\
      forall me s s', nth_error sts (a + me) = Some s -> nth_error (map fst qs) me = Some s' -> forall x, (x < length (nth (a + me) vals []))%nat -> nth_error (s_vars s') x = nth_error (s_vars s) x).
  { induction k as [|k IH]; intros a Ha; cbn [seq combine map].
    - exists []. split; [reflexivity|]. split; [reflexivity|]. split; [constructor|]. intros [|me] s s' _ E; discriminate.
    - destruct (nth_error sts a) as [s|] eqn:Es; [|apply nth_error_None in Es; lia].
      assert (Sk : forall {A} (l : list A) x, nth_error l a = Some x -> skipn a l = x :: skipn (S a) l).
      { clear. intros A l. revert a. induction l as [|y l IH]; intros [|a] x E; cbn [nth_error] in E; try discriminate; [injection E as ->; reflexivity|]. cbn [skipn]. rewrite (IH a x E). reflexivity. }
      rewrite (Sk _ sts s Es). rewrite (Sk _ meshes (nth a meshes []) (nth_some meshes a [] ltac:(lia))). cbn [combine]. rewrite omapM_cons. cbn [fst snd].
      destruct (queue_ok mach meshes vals Nd Vl d2r a Dr ltac:(lia) (orders r d) [] 422000 s [] Oo ltac:(lia)) as (s1 & E1 & I1 & K1).
      { cbn [outs flat_map]. rewrite app_nil_r. exact (F2_at inv sts vals a s [] St Es). }
      rewrite E1. cbn [app] in I1. cbn [obind app]. destruct (IH (S a) ltac:(lia)) as (qs & Eq & M2 & F2 & K2). rewrite Eq. cbn [obind]. eexists. split; [reflexivity|]. cbn [map fst snd]. split; [rewrite M2; reflexivity|]. split; [constructor; [exact I1|exact F2]|].
      intros [|me] t t' Et Et'.
      + rewrite Nat.add_0_r in *. cbn [nth_error] in Et'. injection Et' as <-. rewrite Es in Et. injection Et as <-. exact K1.
      + cbn [nth_error] in Et'. replace (a + S me)%nat with (S a + me)%nat in * by lia. exact (K2 me t t' Et Et'). }
  destruct (G (length meshes) 0%nat eq_refl) as (qs & Eq & M & F & K). exists qs. split; [exact Eq|]. split; [exact M|]. split; [exact F|]. exact K.
Qed.

Lemma distributed parse mach base ub eager fuel r d meshes sts vals :
  0 <= ub -> reads_json parse -> mach <> DEFAULT_E ->
  valid r -> consecutive r -> (forall i, (S i < ones r)%nat -> (0 < group_size r i)%nat) -> mget (o_data r) (L "values") = Some d ->
  (ones r < fuel)%nat -> (forall i, (i < ones r)%nat -> (group_size r i + ones r < fuel)%nat) ->
  NoDup (concat meshes) -> Forall (Forall (fun i => 0 <= i)) meshes ->
  Forall2 (fun ids vs => length ids = length vs) meshes vals -> Forall2 inv sts vals ->
  (forall i, (i < ones r)%nat -> In (Z.of_nat i) (concat meshes)) ->
  Forall (fun o => 0 <= snd o < Z.of_nat (length meshes)) (orders r d) ->
  (forall me, (me < length meshes)%nat -> exists i des s v, In (i, des) (orders r d) /\ domain meshes vals i = Some (s, v) /\ des <> Z.of_nat s /\ (s = me \/ des = Z.of_nat me)) ->
  meshes <> [] ->
  (forall me s x n v, nth_error sts me = Some s -> nth_error (s_vars s) x = Some n -> nth_error (nth me vals []) x = Some v -> sendable mach base n v) ->
  exists qs, distribute mach fuel r meshes sts = Ok qs /\
    forall k w, calls parse mach base ub eager k (mkW (map (fun q => begin (fst q) (snd q)) qs) []) w ->
      (k <= 2 * length (orders r d) + length meshes)%nat /\
      (forall me, exists o, advance parse mach base ub eager w me = Ok o) /\
      (all_done w \/ exists me w', advance parse mach base ub eager w me = Ok (Some w')) /\
      (all_done w -> w_net w = [] /\ length (w_ranks w) = length meshes /\
         forall me x, nth_error (w_ranks w) me = Some x -> inv (r_state x) (nth me vals [] ++ due mach meshes vals me (orders r d))).
Proof.
  intros Ub Pa Ma V C P D F0 F1 Nd Pos Vl St All Ds So Ne Se.
  assert (Own : forall i, In i (concat meshes) -> exists s x, owned_by meshes i s x).
  { intros i I. apply in_concat in I. destruct I as (ids & I1 & I2). apply In_nth with (d := []) in I1. destruct I1 as (s & Hs & <-). apply In_nth_error in I2. destruct I2 as (x & E). exists s, x. split; assumption. }
  assert (Io : forall o, In o (orders r d) -> In (fst o) (concat meshes)).
  { intros o I. unfold orders in I. apply in_flat_map in I. destruct I as (i & Hi & I). apply in_seq in Hi. apply in_map_iff in I. destruct I as (z & <- & _). apply All. lia. }
  assert (Oo : Forall (order_ok meshes) (orders r d)).
  { apply Forall_forall. intros o I. rewrite Forall_forall in Ds. split; [apply Own, Io; exact I|apply Ds; exact I]. }
  assert (Ex : exists i s x, owned_by meshes i s x).
  { destruct (So 0%nat) as (i & des & s & v & I & _); [destruct meshes; [contradiction|cbn; lia]|]. destruct (Own i (Io _ I)) as (s' & x & O). exists i, s', x. exact O. }
  destruct (distribute_ok mach fuel r d meshes sts vals) as (qs & Eq & M & F & K); try assumption. exists qs. split; [exact Eq|]. intros k w Cl.
  set (E := plan meshes vals [] 422000 (orders r d)) in *.
  assert (Lq : length (map fst qs) = length meshes).
  { rewrite map_length, <- (map_length snd), M, map_length, seq_length. reflexivity. }
  assert (W : map (fun q : state * list call => begin (fst q) (snd q)) qs = map (fun x : state * list call => begin (fst x) (snd x)) (combine (map fst qs) (map snd qs))).
  { f_equal. clear. induction qs as [|[a b] qs IH]; [reflexivity|]. cbn [map combine fst snd]. rewrite <- IH. reflexivity. }
  assert (Ls : length sts = length meshes) by (rewrite <- (vals_length meshes vals Vl); clear -St; induction St as [|a b la lb H F IH]; cbn [length]; [reflexivity|f_equal; exact IH]).
  rewrite W, M, <- Lq in Cl.
  destruct (exchange_transfers parse mach base ub eager E (map fst qs) (sent_vals meshes vals (orders r d)) (map (fun me => nth me vals [] ++ due mach meshes vals me (orders r d)) (seq 0 (length meshes))) k w) as (H1 & H2 & H3 & H4); try assumption.
  - rewrite Lq. apply Forall_forall. intros x I. destruct (plan_in meshes vals Nd _ _ _ _ Oo I) as (o & I1 & O & Ed & _). rewrite Forall_forall in Ds. specialize (Ds o I1). destruct O as [O _]. rewrite Ed. lia.
  - rewrite Lq. intros me Hme. destruct (So me Hme) as (i & des & s & v & I & Dv & Ns & H). destruct (Own i (Io _ I)) as (s' & x & O). cbn [fst] in O.
    destruct (domain_owner meshes Nd vals i s' x (vals_length meshes vals Vl) Vl O) as (v' & _ & Dv'). rewrite Dv in Dv'. injection Dv' as <- <-.
    rewrite Forall_forall in Ds. specialize (Ds _ I). cbn [snd] in Ds.
    destruct (plan_has meshes vals Nd (orders r d) [] 422000 (i, des) s x Oo I O) as (t & It & T1 & T2); [cbn [snd]; lia|]. exists t. split; [exact It|]. cbn [snd] in T2. destruct H as [H|H]; [left; lia|right; lia].
  - intros x s' I Es'. destruct (plan_in meshes vals Nd _ _ _ _ Oo I) as (o & I1 & O & _). destruct (domain_owner meshes Nd vals _ _ _ (vals_length meshes vals Vl) Vl O) as (v & Ev & _). pose proof O as [Hs _].
    destruct (nth_error sts (t_src x)) as [s|] eqn:Es; [|apply nth_error_None in Es; lia].
    assert (Hx : (t_from x < length (nth (t_src x) vals []))%nat) by (apply nth_error_Some; rewrite Ev; discriminate).
    pose proof (K _ _ _ Es Es' _ Hx) as Kx. pose proof (inv_length _ _ (F2_at inv sts vals _ s [] St Es)) as Lv.
    destruct (nth_error (s_vars s) (t_from x)) as [n|] eqn:En; [|apply nth_error_None in En; lia].
    exists n, v. split; [exact Kx|]. split; [|exact (Se _ _ _ _ _ Es En Ev)]. rewrite sent_at by exact Hs. rewrite nth_error_app1 by exact Hx. exact Ev.
  - rewrite Lq. intros me Hme. rewrite sent_at by exact Hme.
    assert (Nu : Forall (Forall names_unique) vals). { clear -St. induction St as [|a b la lb H F IH]; constructor; [|exact IH]. destruct H as (_ & _ & Nu). exact Nu. }
    pose proof (plan_brings mach meshes vals Nd Vl (orders r d) me Hme Nu (orders r d) [] 422000 Oo) as T. cbn [due flat_map app] in T.
    assert (Q : nth me (map (fun me => nth me vals [] ++ due mach meshes vals me (orders r d)) (seq 0 (length meshes))) [] = nth me vals [] ++ due mach meshes vals me (orders r d)).
    { apply nth_of. rewrite nth_error_map, nth_some with (d := O) by (rewrite seq_length; exact Hme). rewrite seq_nth by exact Hme. reflexivity. }
    rewrite Q. exact T.
  - rewrite Lq in *. split; [pose proof (plan_length meshes vals (orders r d) [] 422000); fold E in H; lia|]. split; [exact H2|]. split; [exact H3|]. intros Dn. destruct (H4 Dn) as (A & B & _ & R). split; [exact A|]. split; [exact B|].
    intros me x Ex'. specialize (R me x Ex'). assert (Hme : (me < length meshes)%nat) by (rewrite <- B; apply nth_error_Some; rewrite Ex'; discriminate).
    assert (Q : nth me (map (fun me => nth me vals [] ++ due mach meshes vals me (orders r d)) (seq 0 (length meshes))) [] = nth me vals [] ++ due mach meshes vals me (orders r d)).
    { apply nth_of. rewrite nth_error_map, nth_some with (d := O) by (rewrite seq_length; exact Hme). rewrite seq_nth by exact Hme. reflexivity. }
    rewrite Q in R. exact R.
Qed.
