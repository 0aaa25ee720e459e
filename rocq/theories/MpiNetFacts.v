(** Facts about ranks that exchange nodes (C56). *)
From Verif Require Import Base DType SpecTree Schema Codec Mem MemFacts Node SpecNode NodeFacts NodeSet NodeUpdateLaws NodeMerge NodeAlloc SchemaInv
  Json JsonSpec JsonFacts JsonSchema Save SaveFacts Contig ContigFacts Number NodeDiff ArrayOps NodeHist HistSpec HistFacts HistRun Mpi MpiFacts MpiNet MpiCollFacts.
Local Open Scope Z_scope.

(** ** What the exchange should do *)
(** the variables sent to [dest] with the tag [tag], in order *)
Definition sent_to (ops : list call) (dest : nat) (tag : Z) : list nat :=
  flat_map (fun c => match c with Isend v d t => if Nat.eqb d dest && (t =? tag) then [v] else [] | Irecv _ _ _ => [] end) ops.
(** the variables that receive from [src] with the tag [tag], in order *)
Definition recv_from (ops : list call) (src : nat) (tag : Z) : list nat :=
  flat_map (fun c => match c with Irecv v s t => if Nat.eqb s src && (t =? tag) then [v] else [] | Isend _ _ _ => [] end) ops.
Definition times (src : nat) (tag : Z) (seen : list (nat * Z)) : nat :=
  length (filter (fun x => Nat.eqb (fst x) src && (snd x =? tag)) seen).
(** The values of the variables of rank [me] after the receives in [ops], those in [seen] having
    been done before: the k-th receive for a source and a tag updates the variable with the
    value, before the exchange, of the k-th variable the source sends to [me] with that tag. *)
Inductive received (mach : endian) (progs : list (list call)) (vals : list (list value)) (me : nat)
  : list (nat * Z) -> list call -> list value -> list value -> Prop :=
| rc_end seen vs : received mach progs vals me seen [] vs vs
| rc_send seen i d t ops vs vs' : received mach progs vals me seen ops vs vs' ->
    received mach progs vals me seen (Isend i d t :: ops) vs vs'
| rc_recv seen i src tag ops x w v vs vs' :
    nth_error (sent_to (nth src progs []) me tag) (times src tag seen) = Some x ->
    nth_error (nth src vals []) x = Some w ->
    nth_error vs i = Some v -> no_clash v (tmap (file_order mach) w) ->
    received mach progs vals me (seen ++ [(src, tag)]) ops (set_nth vs i (vupdate v (tmap (file_order mach) w))) vs' ->
    received mach progs vals me seen (Irecv i src tag :: ops) vs vs'.
(** every message sent is received *)
Definition balanced (progs : list (list call)) : Prop :=
  forall s d t, length (sent_to (nth s progs []) d t) = length (recv_from (nth d progs []) s t).
Definition call_ok (n : nat) (ub : Z) (c : call) : Prop :=
  match c with Isend _ r t | Irecv _ r t => (r < n)%nat /\ 0 <= t <= ub end.
(** a node that can be sent (C54) *)
Definition sendable (mach : endian) (base : nat -> Z) (n : node) (v : value) : Prop :=
  all_names json_name (nschema n) /\
  (tis_compact (nschema n) = true -> is_contiguous base n = true -> packed (nschema n)) /\
  Z.of_nat (length (message mach (sent_text mach base n) (vbytes v))) < 2 ^ 31.
Definition sends_ok (mach : endian) (base : nat -> Z) (ops : list call) (s : state) (vs : list value) : Prop :=
  forall i d t, In (Isend i d t) ops -> exists n v, nth_error (s_vars s) i = Some n /\ nth_error vs i = Some v /\ sendable mach base n v.

(** ** Lists *)
Lemma safe_tag_id ub t : 0 <= t <= ub -> safe_tag ub t = t.
Proof. unfold safe_tag. intros H. replace (Z.max 0 t) with t by lia. replace (ub <? t) with false by lia. reflexivity. Qed.
Definition hits (p : nat) (t : Z) (x : nat * nat * Z) : bool := Nat.eqb (snd (fst x)) p && (snd x =? t).
Lemma sent_to_filter ops d t : sent_to ops d t = map (fun x => fst (fst x)) (filter (hits d t) (sends_in ops)).
Proof.
  unfold sent_to, sends_in. induction ops as [|[v d' t'|v s t'] ops IH]; cbn [flat_map app filter map]; [reflexivity|..].
  - unfold hits at 1. cbn [fst snd]. destruct (Nat.eqb d' d && (t' =? t)); cbn [app map]; rewrite IH; reflexivity.
  - exact IH.
Qed.
Lemma recv_from_filter ops s t : recv_from ops s t = map (fun x => fst (fst x)) (filter (hits s t) (recvs_in ops)).
Proof.
  unfold recv_from, recvs_in. induction ops as [|[v d' t'|v s' t'] ops IH]; cbn [flat_map app filter map]; [reflexivity|..].
  - exact IH.
  - unfold hits at 1. cbn [fst snd]. destruct (Nat.eqb s' s && (t' =? t)); cbn [app map]; rewrite IH; reflexivity.
Qed.
Definition netb (s d : nat) (t : Z) (net : list packet) : list (list byte) := map snd (filter (goes s d t) net).
Lemma take_first_some s d t net b net' : take_first s d t net = Some (b, net') ->
  netb s d t net = b :: netb s d t net' /\
  (forall s' d' t', (s', d', t') <> (s, d, t) -> netb s' d' t' net' = netb s' d' t' net) /\ incl net' net.
Proof.
  unfold netb. revert b net'. induction net as [|x net IH]; intros b net' E; cbn [take_first] in E; [discriminate|]. destruct (goes s d t x) eqn:G.
  - injection E as <- <-. cbn [filter]. rewrite G. split; [reflexivity|]. split; [|intros y I; right; exact I]. intros s' d' t' N.
    replace (goes s' d' t' x) with false; [reflexivity|]. symmetry. apply not_true_is_false. intros G'. apply N. destruct x as [[[a c] e] f]. cbn [goes] in *.
    apply andb_true_iff in G, G'. destruct G as [G G3], G' as [G' G3']. apply andb_true_iff in G, G'. destruct G as [G1 G2], G' as [G1' G2'].
    apply Nat.eqb_eq in G1, G2, G1', G2'. apply Z.eqb_eq in G3, G3'. congruence.
  - destruct (take_first s d t net) as [[b0 r]|]; [|discriminate]. injection E as <- <-. destruct (IH b0 r eq_refl) as (E1 & E2 & E3). cbn [filter]. rewrite G. split; [exact E1|]. split.
    + intros s' d' t' N. destruct (goes s' d' t' x); cbn [map]; rewrite (E2 _ _ _ N); reflexivity.
    + intros y [->|I]; [left; reflexivity|right; apply E3, I].
Qed.
Lemma take_first_none s d t net : take_first s d t net = None -> netb s d t net = [].
Proof.
  unfold netb. induction net as [|x net IH]; intros E; cbn [take_first filter] in *; [reflexivity|]. destruct (goes s d t x); [discriminate|].
  destruct (take_first s d t net) as [[b r]|]; [discriminate|]. auto.
Qed.
(** the bytes received for a source and a tag *)
Definition gotb (rs : list (nat * nat * Z)) (G : list (list byte)) (s : nat) (t : Z) : list (list byte) :=
  map snd (filter (fun x => hits s t (fst x)) (combine rs G)).
Lemma gotb_length rs G s t : length rs = length G -> length (gotb rs G s t) = length (filter (hits s t) rs).
Proof.
  unfold gotb. rewrite map_length. revert G. induction rs as [|x rs IH]; intros [|g G] L; try discriminate; [reflexivity|]. cbn [combine filter fst]. destruct (hits s t x); cbn [length]; rewrite IH by (cbn in L; lia); reflexivity.
Qed.
Lemma gotb_snoc rs G x b s t : length rs = length G -> gotb (rs ++ [x]) (G ++ [b]) s t = gotb rs G s t ++ (if hits s t x then [b] else []).
Proof.
  intros L. unfold gotb. revert G L. induction rs as [|y rs IH]; intros [|g G] L; try discriminate; cbn [app combine filter fst map].
  - destruct (hits s t x); reflexivity.
  - cbn in L. destruct (hits s t y); cbn [map app]; rewrite IH by lia; reflexivity.
Qed.
Lemma firstn_S_skipn {A} (l : list A) k x r : skipn k l = x :: r -> firstn (S k) l = firstn k l ++ [x] /\ skipn (S k) l = r.
Proof.
  revert l. induction k as [|k IH]; intros [|y l] E; try discriminate; cbn [skipn] in E.
  - injection E as -> ->. split; reflexivity.
  - destruct (IH l E) as [E1 E2]. cbn [firstn skipn] in *. rewrite E1. split; [reflexivity|exact E2].
Qed.
Lemma combine_snoc {A B} (l : list A) (l' : list B) x y : length l = length l' -> combine (l ++ [x]) (l' ++ [y]) = combine l l' ++ [(x, y)].
Proof. revert l'. induction l as [|a l IH]; intros [|b l'] E; try discriminate; [reflexivity|]. cbn [app combine]. rewrite IH by (cbn in E; lia). reflexivity. Qed.

(** ** Memory that has grown by a freed block *)
Lemma inv_grow m vars vs : inv (mkSt m vars) vs -> inv (mkSt (m ++ [None]) vars) vs.
Proof.
  intros ((V & G & P) & Lk & Nu). cbn [s_mem s_vars] in *.
  assert (Lv : forall b, live m b -> live (m ++ [None]) b).
  { intros b [l E]. exists l. rewrite nth_error_app1; [exact E|]. apply nth_error_Some. congruence. }
  assert (Rd : forall q, rd m q <> None -> rd (m ++ [None]) q = rd m q).
  { intros q. unfold rd. destruct (nth_error m (fst q)) as [x|] eqn:E; [|congruence]. intros _. rewrite nth_error_app1 by (apply nth_error_Some; congruence). rewrite E. reflexivity. }
  split; [|split; [|exact Nu]]; cbn [s_mem s_vars].
  - split; [|split; [|exact P]].
    + clear -V Rd. induction V as [|n v vars vs E V IH]; constructor; [|exact IH]. eapply nvalue_frame; [exact E|]. intros q T. apply Rd. eapply nvalue_readable; eassumption.
    + eapply Forall_impl; [|exact G]. intros n Gn. eapply good_keep; [exact Gn|]. auto.
  - intros b [l E]. apply Lk. exists l. destruct (Nat.lt_ge_cases b (length m)) as [H|H]; [rewrite nth_error_app1 in E by exact H; exact E|].
    rewrite nth_error_app2 in E by exact H. destruct (b - length m)%nat as [|[|j]]; discriminate.
Qed.

(** ** The exchange *)
Lemma nth_of {A} (l : list A) i x d : nth_error l i = Some x -> nth i l d = x.
Proof. intros E. erewrite nth_error_nth; eauto. Qed.
Lemma nth_some {A} (l : list A) i d : (i < length l)%nat -> nth_error l i = Some (nth i l d).
Proof. apply nth_error_nth'. Qed.
Lemma F2_at {A B} (R : A -> B -> Prop) l l' i x d : Forall2 R l l' -> nth_error l i = Some x -> R x (nth i l' d).
Proof. intros F. revert i. induction F as [|a b l l' H F IH]; intros [|i] E; try discriminate; cbn [nth nth_error] in *; [injection E as <-; exact H|apply IH, E]. Qed.
Lemma sends_recvs ops : (length (sends_in ops) + length (recvs_in ops) = length ops)%nat.
Proof. unfold sends_in, recvs_in. induction ops as [|[v d t|v s t] ops IH]; cbn [flat_map app length]; lia. Qed.
Section Exchange.
  Variable parse : str -> outcome jval.
  Variable mach : endian.
  Variable base : nat -> Z.
  Variable ub : Z.
  Variable eager : bool.
  Variable progs : list (list call).
  Variable sts : list state.
  Variable vals finals : list (list value).
  Hypothesis Parse : reads_json parse.
  Hypothesis Mach : mach <> DEFAULT_E.
  Hypothesis Start : Forall2 inv sts vals.
  Hypothesis Len : length sts = length progs.
  Hypothesis Some_calls : Forall (fun ops => ops <> []) progs.
  Hypothesis Calls : Forall (Forall (call_ok (length progs) ub)) progs.
  Hypothesis Sends : forall r s, nth_error sts r = Some s -> sends_ok mach base (nth r progs []) s (nth r vals []).
  Hypothesis Balanced : balanced progs.
  Hypothesis Final : forall r, (r < length progs)%nat -> received mach progs vals r [] (nth r progs []) (nth r vals []) (nth r finals []).

  Let n := length progs.
  Let prog r := nth r progs [].
  Let vars r := match nth_error sts r with Some s => s_vars s | None => [] end.
  (** the message for a variable of a rank *)
  Definition mbytes (r i : nat) : list byte :=
    match nth_error (match nth_error sts r with Some s => s_vars s | None => [] end) i, nth_error (nth r vals []) i with
    | Some x, Some v => message mach (schema_text mach x) (vbytes v)
    | _, _ => []
    end.
  Definition sentb (s : nat) (l : list (nat * nat * Z)) (d : nat) (t : Z) : list (list byte) :=
    map (fun x => mbytes s (fst (fst x))) (filter (hits d t) l).

  Lemma sentb_all s d t : sentb s (sends_in (prog s)) d t = map (mbytes s) (sent_to (prog s) d t).
  Proof. unfold sentb. rewrite sent_to_filter, map_map. reflexivity. Qed.
  Lemma sentb_app s l l' d t : sentb s (l ++ l') d t = sentb s l d t ++ sentb s l' d t.
  Proof. unfold sentb. rewrite filter_app, map_app. reflexivity. Qed.
  Lemma prog_call r c : In c (prog r) -> call_ok n ub c.
  Proof.
    intros I. unfold prog in I. destruct (Nat.lt_ge_cases r (length progs)) as [H|H]; [|rewrite nth_overflow in I by exact H; destruct I].
    rewrite Forall_forall in Calls. specialize (Calls _ (nth_In progs [] H)). rewrite Forall_forall in Calls. apply Calls, I.
  Qed.
  Lemma in_sends r i d t : In (i, d, t) (sends_in (prog r)) -> In (Isend i d t) (prog r).
  Proof. unfold sends_in. intros I. apply in_flat_map in I. destruct I as ([v d' t'|v s' t'] & I & X); [|destruct X]. destruct X as [X|[]]. injection X as -> -> ->. exact I. Qed.
  Lemma in_recvs r i s t : In (i, s, t) (recvs_in (prog r)) -> In (Irecv i s t) (prog r).
  Proof. unfold recvs_in. intros I. apply in_flat_map in I. destruct I as ([v d' t'|v s' t'] & I & X); [destruct X|]. destruct X as [X|[]]. injection X as -> -> ->. exact I. Qed.

  Definition rank_ok (r : nat) (k : rank) (sd : list (nat * nat * Z)) (G : list (list byte)) : Prop :=
    sends_in (prog r) = sd ++ r_sends k /\ (length G <= length (recvs_in (prog r)))%nat /\ r_recvs k = skipn (length G) (recvs_in (prog r)) /\
    (G = [] \/ r_sends k = []) /\ r_count k = length (prog r) /\
    (if r_done k then r_sends k = [] /\ r_recvs k = [] /\ inv (r_state k) (nth r finals [])
     else r_got k = combine (map (fun x => fst (fst x)) (firstn (length G) (recvs_in (prog r)))) G /\
          s_vars (r_state k) = vars r /\ inv (r_state k) (nth r vals [])).
  Definition good_world (w : world) : Prop := exists (sd : nat -> list (nat * nat * Z)) (G : nat -> list (list byte)),
    length (w_ranks w) = n /\
    (forall r k, nth_error (w_ranks w) r = Some k -> rank_ok r k (sd r) (G r)) /\
    (forall s d t, (s < n)%nat -> (d < n)%nat -> sentb s (sd s) d t = gotb (firstn (length (G d)) (recvs_in (prog d))) (G d) s t ++ netb s d t (w_net w)) /\
    Forall (fun x : packet => (fst (fst (fst x)) < n)%nat /\ (snd (fst (fst x)) < n)%nat) (w_net w).

  Definition first_world : world := mkW (map (fun x => begin (fst x) (snd x)) (combine sts progs)) [].
  Lemma first_good : good_world first_world.
  Proof.
    exists (fun _ => []), (fun _ => []). unfold first_world. cbn [w_ranks w_net]. split; [rewrite map_length, combine_length; unfold n; lia|].
    split; [|split; [|constructor]].
    - intros r k E. rewrite nth_error_map in E. destruct (nth_error (combine sts progs) r) as [[s ops]|] eqn:C; [|discriminate]. injection E as <-.
      assert (X : nth_error sts r = Some s /\ nth_error progs r = Some ops).
      { clear -C. revert progs r C. induction sts as [|a l IH]; intros [|b l'] [|r] C; try discriminate; cbn [combine nth_error] in *; [injection C as -> ->; auto|apply IH, C]. }
      destruct X as [X1 X2]. unfold rank_ok, begin, prog, vars. cbn [r_sends r_recvs r_count r_done r_got r_state fst snd length]. rewrite (nth_of _ _ _ [] X2), X1.
      split; [reflexivity|]. split; [lia|]. split; [reflexivity|]. split; [left; reflexivity|]. split; [reflexivity|]. split; [reflexivity|]. split; [reflexivity|].
      eapply F2_at; eassumption.
    - intros s d t _ _. reflexivity.
  Qed.

  (** the nodes received are built *)
  Lemma build_ok me : (me < n)%nat -> forall seen ops vs vs', received mach progs vals me seen ops vs vs' ->
    forall G s, length G = length (recvs_in ops) -> inv s vs -> Forall (call_ok n ub) ops ->
    (forall src t, (src < n)%nat -> exists pre post, map (mbytes src) (sent_to (prog src) me t) = pre ++ gotb (recvs_in ops) G src t ++ post /\ length pre = times src t seen) ->
    exists s', build parse s (combine (map (fun x => fst (fst x)) (recvs_in ops)) G) = Ok s' /\ inv s' vs'.
  Proof.
    intros Hme seen ops vs vs' R. induction R as [seen vs|seen i d t ops vs vs' R IH|seen i src tag ops x w v vs vs' Ex Ew Ei Nc R IH]; intros G s Lg I C H.
    - cbn. eauto.
    - apply IH; try assumption. inversion_clear C. assumption.
    - inversion_clear C as [|? ? C1 C2]. cbn [call_ok] in C1. destruct C1 as [C1 _].
      change (recvs_in (Irecv i src tag :: ops)) with ((i, src, tag) :: recvs_in ops) in *. destruct G as [|b G]; [discriminate|]. cbn [length] in Lg. cbn [map combine fst build].
      assert (Eb : b = mbytes src x).
      { destruct (H src tag C1) as (pre & post & E & Lp). unfold gotb in E. cbn [combine filter fst] in E. unfold hits in E at 1. cbn [fst snd] in E. rewrite Nat.eqb_refl, Z.eqb_refl in E. cbn [andb map app snd] in E.
        assert (Y : nth_error (map (mbytes src) (sent_to (prog src) me tag)) (times src tag seen) = Some (mbytes src x)) by (apply map_nth_error; exact Ex). rewrite E, <- Lp, nth_error_app2, Nat.sub_diag in Y by apply Nat.le_refl. cbn [nth_error] in Y. congruence. }
      pose proof I as (Sb & Lk & Nu). pose proof Sb as (Vs & Gs & Ps). destruct (F2_nth_value _ _ _ _ _ Vs Ei) as (nd & En & Ev). rewrite En. cbn [deref obind].
      (* the node that was sent *)
      assert (Hs : (src < length sts)%nat) by (rewrite Len; exact C1). destruct (nth_error sts src) as [s0|] eqn:E0; [|apply nth_error_None in E0; lia].
      assert (Is : In (Isend x me tag) (prog src)).
      { unfold prog. apply nth_error_In in Ex. unfold sent_to in Ex. apply in_flat_map in Ex. destruct Ex as ([v0 d0 t0|v0 d0 t0] & I0 & X0); [|destruct X0].
        destruct (Nat.eqb d0 me && (t0 =? tag)) eqn:Q; [|destruct X0]. destruct X0 as [->|[]]. apply andb_true_iff in Q. destruct Q as [Q1 Q2]. apply Nat.eqb_eq in Q1. apply Z.eqb_eq in Q2. subst. exact I0. }
      destruct (Sends src s0 E0 x me tag Is) as (n0 & v0 & En0 & Ev0 & (N0 & P0 & B0)). rewrite Ew in Ev0. injection Ev0 as <-.
      pose proof (F2_at _ _ _ _ _ [] Start E0) as (Sb0 & _ & Nu0). destruct Sb0 as (Vs0 & _). destruct (F2_nth_value _ _ _ _ _ Vs0 Ew) as (n0' & En0' & Ev0'). rewrite En0 in En0'. injection En0' as <-.
      assert (Un : names_unique (nschema n0)).
      { rewrite Forall_forall in Nu0. specialize (Nu0 w (nth_error_In _ _ Ew)). apply (nu_tmap (fun d => lv_kind (leaf_zero d))). rewrite <- (value_kinds _ _ _ Ev0'). apply nu_tmap. exact Nu0. }
      assert (Eb' : b = message mach (schema_text mach n0) (vbytes w)) by (rewrite Eb; unfold mbytes; rewrite E0, En0, Ew; reflexivity).
      assert (T0 : ttotal (nschema n0) < 2 ^ 63) by (rewrite message_length, (vbytes_length _ _ _ Ev0') in B0; lia).
      assert (Gn : good (s_mem s) nd) by (rewrite Forall_forall in Gs; apply Gs; eapply nth_error_In; exact En).
      destruct (recv_ok parse mach (s_mem s0) n0 w (s_mem s) nd v Parse Mach Ev0' Un N0 T0 (proj2 (healthy_good _ _) Gn) Ev Nc) as (m1 & r1 & E1 & V1 & H1 & S1).
      rewrite Eb'. unfold schema_text. rewrite E1. cbn [obind].
      assert (Up : upd (s_mem s) nd (vupdate v (tmap (file_order mach) w)) m1 r1) by (split; [exact V1|split; [apply healthy_good; exact H1|exact S1]]).
      destruct (sibs_set (s_mem s) (s_vars s) vs i nd _ m1 r1 Sb En Up) as [S' St].
      apply IH; [lia| |exact C2|].
      + split; [exact S'|]. split; [eapply live_step; [exact Lk|exact St]|]. apply Forall_set_nth; [exact Nu|]. apply vupdate_unique.
        * rewrite Forall_forall in Nu. apply Nu. eapply nth_error_In. exact Ei.
        * apply nu_tmap. rewrite Forall_forall in Nu0. apply Nu0. eapply nth_error_In. exact Ew.
      + intros src' t' Hs'. destruct (H src' t' Hs') as (pre & post & E & Lp). unfold gotb in E. cbn [combine filter fst] in E. unfold times. rewrite filter_app, app_length. cbn [filter fst snd].
        unfold hits in E at 1. cbn [fst snd] in E. destruct (Nat.eqb src src' && (tag =? t')) eqn:Q; cbn [map app snd length] in *.
        * exists (pre ++ [b]), post. split; [rewrite E, <- app_assoc; reflexivity|]. rewrite app_length. cbn [length]. unfold times in Lp. lia.
        * exists pre, post. split; [exact E|]. unfold times in Lp. lia.
  Qed.

  Definition left_of (k : rank) : nat := length (r_sends k) + length (r_recvs k) + (if r_done k then 0 else 1).
  Definition left (w : world) : nat := list_sum (map left_of (w_ranks w)).
  Lemma left_set l me (k k' : rank) : nth_error l me = Some k -> left_of k = S (left_of k') ->
    list_sum (map left_of l) = S (list_sum (map left_of (set_nth l me k'))).
  Proof.
    revert me. induction l as [|x l IH]; intros [|me] E L; try discriminate; cbn [nth_error] in E.
    - injection E as ->. cbn [set_nth map list_sum fold_right]. unfold list_sum in *. cbn [fold_right]. lia.
    - specialize (IH me E L). cbn [set_nth map]. unfold list_sum in *. cbn [fold_right]. lia.
  Qed.
  Definition at_ {A} (f : nat -> A) (i : nat) (x : A) (j : nat) : A := if Nat.eqb j i then x else f j.
  Lemma at_same {A} (f : nat -> A) i x : at_ f i x i = x.
  Proof. unfold at_. rewrite Nat.eqb_refl. reflexivity. Qed.
  Lemma at_other {A} (f : nat -> A) i x j : j <> i -> at_ f i x j = f j.
  Proof. unfold at_. intros H. replace (Nat.eqb j i) with false by (symmetry; apply Nat.eqb_neq; exact H). reflexivity. Qed.
  Lemma set_rank l me (k k' : rank) (P Q : nat -> rank -> Prop) : nth_error l me = Some k -> Q me k' -> (forall r x, r <> me -> P r x -> Q r x) ->
    (forall r x, nth_error l r = Some x -> P r x) -> forall r x, nth_error (set_nth l me k') r = Some x -> Q r x.
  Proof.
    intros E H O F r x Er. destruct (Nat.eq_dec r me) as [->|N].
    - rewrite nth_error_set_nth_same in Er by (apply nth_error_Some; congruence). injection Er as <-. exact H.
    - rewrite nth_error_set_nth_other in Er by congruence. apply O; auto.
  Qed.
  Lemma netb_snoc s d t net x : netb s d t (net ++ [x]) = netb s d t net ++ (if goes s d t x then [snd x] else []).
  Proof. unfold netb. rewrite filter_app, map_app. cbn [filter]. destruct (goes s d t x); reflexivity. Qed.

  Lemma advance_ok w me : good_world w ->
    exists o, advance parse mach base ub eager w me = Ok o /\ forall w', o = Some w' -> good_world w' /\ left w = S (left w').
  Proof.
    intros (sd & G & L & R & K & Nw). unfold advance. destruct (nth_error (w_ranks w) me) as [k|] eqn:Ek; [|exists None; split; [reflexivity|discriminate]].
    pose proof (R me k Ek) as (R1 & R2 & R3 & R4 & R5 & R6). assert (Hme : (me < n)%nat) by (rewrite <- L; apply nth_error_Some; congruence).
    destruct (r_done k) eqn:Dn; [exists None; split; [reflexivity|discriminate]|]. destruct R6 as (R6 & R7 & R8).
    destruct (r_sends k) as [|[[i dest] tag] rest] eqn:Es.
    - destruct (r_recvs k) as [|[[i src] tag] rest] eqn:Er.
      + (* the end *)
        assert (Lc : length (G me) = length (recvs_in (prog me))).
        { symmetry in R3. apply (f_equal (@length _)) in R3. rewrite skipn_length in R3. cbn [length] in R3. lia. }
        replace (Nat.eqb (r_count k) 0) with false.
        2:{ symmetry. apply Nat.eqb_neq. rewrite R5. rewrite Forall_forall in Some_calls. specialize (Some_calls (prog me) (nth_In _ _ Hme)). destruct (prog me); [contradiction|discriminate]. }
        destruct (negb eager && existsb (from me) (w_net w)); [exists None; split; [reflexivity|discriminate]|].
        assert (B : exists s', build parse (r_state k) (r_got k) = Ok s' /\ inv s' (nth me finals [])).
        { rewrite R6, Lc, firstn_all. apply (build_ok me Hme [] (prog me) (nth me vals []) (nth me finals []) (Final me Hme)); try assumption.
          - rewrite Forall_forall. intros c Ic. eapply prog_call. exact Ic.
          - intros src t Hs. specialize (K src me t Hs Hme). rewrite Lc, firstn_all in K.
            assert (exists k', nth_error (w_ranks w) src = Some k') as [k' Ek'] by (destruct (nth_error (w_ranks w) src) eqn:Q; [eauto|apply nth_error_None in Q; lia]).
            destruct (R src k' Ek') as (Q1 & _). exists [], (netb src me t (w_net w) ++ sentb src (r_sends k') me t). split; [|reflexivity].
            rewrite <- sentb_all, Q1, sentb_app, K. cbn [app]. rewrite <- app_assoc. reflexivity. }
        destruct B as (s' & -> & I'). cbn [obind]. eexists. split; [reflexivity|]. intros w' E. injection E as <-. split.
        * exists sd, G. cbn [w_ranks w_net]. split; [rewrite length_set_nth; exact L|]. split; [|split; assumption].
          eapply (set_rank _ me k _ (fun r x => rank_ok r x (sd r) (G r))); [exact Ek| |auto|exact R].
          unfold rank_ok. cbn [r_sends r_recvs r_count r_done r_state]. split; [exact R1|]. split; [exact R2|]. split; [exact R3|]. split; [right; reflexivity|]. split; [exact R5|]. auto.
        * unfold left. cbn [w_ranks]. eapply left_set; [exact Ek|]. unfold left_of. cbn [r_sends r_recvs r_done length]. rewrite Es, Er, Dn. reflexivity.
      + (* a receive *)
        symmetry in R3. destruct (firstn_S_skipn _ _ _ _ R3) as [F1 F2].
        assert (Ic : In (Irecv i src tag) (prog me)).
        { apply in_recvs. rewrite <- (firstn_skipn (length (G me)) (recvs_in (prog me))). rewrite R3. apply in_elt. }
        destruct (prog_call _ _ Ic) as [C1 C2]. replace (Nat.leb (length (w_ranks w)) src) with false by (symmetry; apply Nat.leb_gt; lia). rewrite safe_tag_id by exact C2.
        destruct (take_first src me tag (w_net w)) as [[b net']|] eqn:Tk; [|exists None; split; [reflexivity|discriminate]].
        destruct (take_first_some _ _ _ _ _ _ Tk) as (T1 & T2 & T3). eexists. split; [reflexivity|]. intros w' E. injection E as <-.
        assert (Lg : (S (length (G me)) <= length (recvs_in (prog me)))%nat).
        { apply (f_equal (@length _)) in R3. rewrite skipn_length in R3. cbn [length] in R3. lia. }
        assert (Lf : length (firstn (length (G me)) (recvs_in (prog me))) = length (G me)) by (rewrite firstn_length; lia). split.
        * exists sd, (at_ G me (G me ++ [b])). cbn [w_ranks w_net]. split; [rewrite length_set_nth; exact L|]. split; [|split].
          -- eapply (set_rank _ me k _ (fun r x => rank_ok r x (sd r) (G r))); [exact Ek| | |exact R].
             ++ rewrite at_same. unfold rank_ok. cbn [r_sends r_recvs r_count r_done r_state r_got]. rewrite app_length. cbn [length]. replace (length (G me) + 1)%nat with (S (length (G me))) by lia.
                split; [exact R1|]. split; [exact Lg|]. split; [symmetry; exact F2|]. split; [right; reflexivity|]. split; [exact R5|]. split; [|auto].
                rewrite F1, map_app, R6. cbn [map fst]. symmetry. apply combine_snoc. rewrite map_length. exact Lf.
             ++ intros r x Nr X. rewrite at_other by exact Nr. exact X.
          -- intros s d t Hs Hd. rewrite (K s d t Hs Hd). destruct (Nat.eq_dec d me) as [->|Nd].
             ++ rewrite at_same, app_length. cbn [length]. replace (length (G me) + 1)%nat with (S (length (G me))) by lia. rewrite F1, gotb_snoc by exact Lf.
                unfold hits. cbn [fst snd]. destruct (Nat.eqb_spec src s) as [->|Ns]; cbn [andb].
                ** destruct (Z.eqb_spec tag t) as [->|Nt]; [rewrite T1, <- app_assoc; reflexivity|]. rewrite app_nil_r, (T2 s me t) by congruence. reflexivity.
                ** rewrite app_nil_r, (T2 s me t) by congruence. reflexivity.
             ++ rewrite at_other by exact Nd. rewrite (T2 s d t) by congruence. reflexivity.
          -- rewrite Forall_forall in *. intros x Ix. apply Nw, T3, Ix.
        * unfold left. cbn [w_ranks]. eapply left_set; [exact Ek|]. unfold left_of. cbn [r_sends r_recvs r_done length]. rewrite Es, Er, Dn. cbn [length]. lia.
    - (* a send *)
      assert (Ic : In (Isend i dest tag) (prog me)) by (apply in_sends; rewrite R1; apply in_elt).
      destruct (prog_call _ _ Ic) as [C1 C2]. replace (Nat.leb (length (w_ranks w)) dest) with false by (symmetry; apply Nat.leb_gt; lia). rewrite safe_tag_id by exact C2.
      assert (G0 : G me = []) by (destruct R4 as [X|X]; [exact X|discriminate]).
      assert (Hs : (me < length sts)%nat) by (rewrite Len; exact Hme). destruct (nth_error sts me) as [s0|] eqn:E0; [|apply nth_error_None in E0; lia].
      destruct (Sends me s0 E0 i dest tag Ic) as (n0 & v0 & En0 & Ev0 & (N0 & P0 & B0)).
      unfold vars in R7. rewrite E0 in R7. rewrite R7, En0. cbn [deref obind]. pose proof R8 as ((Vs & _) & _ & Nu). rewrite R7 in Vs.
      destruct (F2_nth_value _ _ _ _ _ Vs Ev0) as (n1 & En1 & V1). rewrite En0 in En1. injection En1 as <-.
      assert (Un : names_unique (nschema n0)).
      { rewrite Forall_forall in Nu. specialize (Nu v0 (nth_error_In _ _ Ev0)). apply (nu_tmap (fun d => lv_kind (leaf_zero d))). rewrite <- (value_kinds _ _ _ V1). apply nu_tmap. exact Nu. }
      assert (Sc : sent_schema base n0 = tcompact (nschema n0) 0).
      { unfold sent_schema. destruct (tis_compact (nschema n0) && is_contiguous base n0) eqn:X; [|reflexivity].
        apply andb_true_iff in X. destruct X as [X1 X2]. destruct (P0 X1 X2) as [Y1 Y2]. symmetry. apply packed_compact; assumption. }
      rewrite (send_ok mach base _ n0 v0 V1 Un Sc B0). cbn [obind]. eexists. split; [reflexivity|]. intros w' E. injection E as <-.
      assert (Eb : message mach (sent_text mach base n0) (vbytes v0) = mbytes me i).
      { unfold mbytes. rewrite E0, En0, Ev0. unfold sent_text, schema_text. rewrite Sc. reflexivity. }
      rewrite Eb. split.
      + exists (at_ sd me (sd me ++ [(i, dest, tag)])), G. cbn [w_ranks w_net]. split; [rewrite length_set_nth; exact L|]. split; [|split].
        * eapply (set_rank _ me k _ (fun r x => rank_ok r x (sd r) (G r))); [exact Ek| | |exact R].
          -- rewrite at_same. unfold rank_ok. cbn [r_sends r_recvs r_count r_done r_state r_got s_vars]. split; [rewrite R1, <- app_assoc; reflexivity|]. split; [exact R2|]. split; [exact R3|]. split; [left; exact G0|]. split; [exact R5|].
             split; [exact R6|]. unfold vars. rewrite E0. split; [reflexivity|]. rewrite <- R7. destruct (r_state k) as [mm vv]. cbn [s_mem s_vars]. apply inv_grow. exact R8.
          -- intros r x Nr X. rewrite at_other by exact Nr. exact X.
        * intros s d t Hs' Hd. rewrite netb_snoc, app_assoc, <- (K s d t Hs' Hd). cbn [goes snd]. destruct (Nat.eq_dec s me) as [->|Ns].
          -- rewrite at_same, sentb_app, Nat.eqb_refl. cbn [andb]. f_equal. unfold sentb. cbn [filter]. unfold hits. cbn [fst snd]. destruct (Nat.eqb dest d && (tag =? t)); reflexivity.
          -- rewrite at_other by exact Ns. replace (Nat.eqb me s) with false by (symmetry; apply Nat.eqb_neq; congruence). cbn [andb]. rewrite app_nil_r. reflexivity.
        * apply Forall_app. split; [exact Nw|]. constructor; [|constructor]. cbn [fst snd]. auto.
      + unfold left. cbn [w_ranks]. eapply left_set; [exact Ek|]. unfold left_of. cbn [r_sends r_recvs r_done length]. rewrite Es, Dn. cbn [length]. lia.
  Qed.

  Lemma obind_some {A B} (x : outcome A) (f : A -> outcome (option B)) : (forall a, x = Ok a -> f a <> Ok None) -> obind x f <> Ok None.
  Proof. destruct x; cbn [obind]; intros H E; try discriminate. exact (H a eq_refl E). Qed.
  Lemma rank_cases (P : rank -> bool) l : (exists r k, nth_error l r = Some k /\ P k = true) \/ (forall r k, nth_error l r = Some k -> P k = false).
  Proof.
    induction l as [|x l [(r & k & E & H)|H]].
    - right. intros [|r] k E; discriminate.
    - left. exists (S r), k. auto.
    - destruct (P x) eqn:X; [left; exists 0%nat, x; auto|]. right. intros [|r] k E; [injection E as <-; exact X|exact (H r k E)].
  Qed.
  Lemma keep_advancing w me : good_world w -> advance parse mach base ub eager w me <> Ok None -> exists w', advance parse mach base ub eager w me = Ok (Some w').
  Proof. intros Gw N. destruct (advance_ok w me Gw) as ([w'|] & E & _); [eauto|contradiction]. Qed.
  Lemma sent_count (w : world) (sd : nat -> list (nat * nat * Z)) s k d t : sends_in (prog s) = sd s ++ r_sends k -> r_sends k = [] ->
    length (sentb s (sd s) d t) = length (filter (hits s t) (recvs_in (prog d))).
  Proof.
    intros E Z. rewrite Z, app_nil_r in E. rewrite <- E, sentb_all, map_length. unfold prog. rewrite (Balanced s d t), recv_from_filter, map_length. reflexivity.
  Qed.
  Lemma net_empty w : good_world w -> (forall r k, nth_error (w_ranks w) r = Some k -> r_sends k = [] /\ r_recvs k = []) -> w_net w = [].
  Proof.
    intros (sd & G & L & R & K & Nw) H. destruct (w_net w) as [|x net] eqn:En; [reflexivity|]. exfalso. inversion Nw as [|x' net' [Hs Hd] _]. subst x' net'.
    destruct x as [[[s d] t] b]. cbn [fst snd] in Hs, Hd. specialize (K s d t Hs Hd).
    destruct (nth_error (w_ranks w) s) as [ks|] eqn:Es; [|apply nth_error_None in Es; lia]. destruct (nth_error (w_ranks w) d) as [kd|] eqn:Ed; [|apply nth_error_None in Ed; lia].
    pose proof (R s ks Es) as (S1 & _). pose proof (R d kd Ed) as (_ & D2 & D3 & _). destruct (H s ks Es) as [H1 _]. destruct (H d kd Ed) as [_ H2].
    rewrite H2 in D3. symmetry in D3. apply (f_equal (@length _)) in D3. rewrite skipn_length in D3. cbn [length] in D3. replace (length (G d)) with (length (recvs_in (prog d))) in K by lia. rewrite firstn_all in K.
    apply (f_equal (@length _)) in K. rewrite app_length, gotb_length, (sent_count w sd s ks d t S1 H1) in K by lia.
    unfold netb in K. cbn [filter goes] in K. rewrite !Nat.eqb_refl, Z.eqb_refl in K. cbn [andb map length] in K. lia.
  Qed.
  Lemma progress w : good_world w -> all_done w \/ exists me w', advance parse mach base ub eager w me = Ok (Some w').
  Proof.
    intros Gw. pose proof Gw as (sd & G & L & R & K & Nw).
    destruct (rank_cases (fun k => match r_sends k with [] => false | _ => true end) (w_ranks w)) as [(r & k & E & H)|HA].
    { right. exists r. apply keep_advancing; [exact Gw|]. unfold advance. rewrite E. pose proof (R r k E) as (_ & _ & _ & _ & _ & Z). destruct (r_done k).
      - destruct Z as (Z & _). rewrite Z in H. discriminate.
      - destruct (r_sends k) as [|[[i d] t] l]; [discriminate|]. destruct (Nat.leb _ d); [discriminate|]. apply obind_some. intros x _. apply obind_some. intros [m b] _. discriminate. }
    assert (HA' : forall r k, nth_error (w_ranks w) r = Some k -> r_sends k = []) by (intros r k E; specialize (HA r k E); destruct (r_sends k); [reflexivity|discriminate]).
    destruct (rank_cases (fun k => match r_recvs k with [] => false | _ => true end) (w_ranks w)) as [(r & k & E & H)|HB].
    { right. exists r. apply keep_advancing; [exact Gw|]. unfold advance. rewrite E. pose proof (R r k E) as (_ & D2 & D3 & _ & _ & Z). destruct (r_done k).
      - destruct Z as (_ & Z & _). rewrite Z in H. discriminate.
      - rewrite (HA' r k E). destruct (r_recvs k) as [|[[i s] t] l] eqn:Er; [discriminate|]. destruct (Nat.leb (length (w_ranks w)) s) eqn:Ls; [discriminate|]. apply Nat.leb_gt in Ls.
        assert (Hr : (r < n)%nat) by (rewrite <- L; apply nth_error_Some; congruence).
        assert (Ic : In (Irecv i s t) (prog r)).
        { apply in_recvs. rewrite <- (firstn_skipn (length (G r)) (recvs_in (prog r))), <- D3. apply in_elt. }
        destruct (prog_call _ _ Ic) as [C1 C2]. rewrite safe_tag_id by exact C2.
        destruct (take_first s r t (w_net w)) as [[b net']|] eqn:Tk; [discriminate|]. exfalso. apply take_first_none in Tk.
        destruct (nth_error (w_ranks w) s) as [ks|] eqn:Es; [|apply nth_error_None in Es; lia]. pose proof (R s ks Es) as (S1 & _).
        specialize (K s r t C1 Hr). rewrite Tk, app_nil_r in K. apply (f_equal (@length _)) in K.
        rewrite gotb_length, (sent_count w sd s ks r t S1 (HA' s ks Es)) in K by (rewrite firstn_length; lia).
        rewrite <- (firstn_skipn (length (G r)) (recvs_in (prog r))) in K at 1. rewrite <- D3, filter_app, app_length in K. cbn [filter] in K.
        replace (hits s t (i, s, t)) with true in K by (unfold hits; cbn [fst snd]; rewrite Nat.eqb_refl, Z.eqb_refl; reflexivity). cbn [length] in K. lia. }
    assert (HB' : forall r k, nth_error (w_ranks w) r = Some k -> r_recvs k = []) by (intros r k E; specialize (HB r k E); destruct (r_recvs k); [reflexivity|discriminate]).
    destruct (rank_cases (fun k => negb (r_done k)) (w_ranks w)) as [(r & k & E & H)|HC].
    { right. exists r. apply keep_advancing; [exact Gw|]. unfold advance. rewrite E. apply negb_true_iff in H. rewrite H, (HA' r k E), (HB' r k E).
      destruct (Nat.eqb (r_count k) 0); [discriminate|]. rewrite (net_empty w Gw) by (intros r' k' E'; split; [exact (HA' r' k' E')|exact (HB' r' k' E')]). cbn [existsb]. rewrite andb_false_r.
      apply obind_some. intros s' _. discriminate. }
    left. apply Forall_forall. intros k I. destruct (In_nth_error _ _ I) as [r E]. specialize (HC r k E). apply negb_false_iff in HC. exact HC.
  Qed.

  Lemma calls_good k w : calls parse mach base ub eager k first_world w -> good_world w /\ (left first_world = k + left w)%nat.
  Proof.
    remember first_world as w0 eqn:E0. induction 1 as [w|k w w1 w2 me C IH A]; subst.
    - split; [apply first_good|reflexivity].
    - destruct (IH eq_refl) as [Gw Hl]. destruct (advance_ok w1 me Gw) as (o & E & H). rewrite A in E. injection E as <-. destruct (H w2 eq_refl) as [G2 L2]. split; [exact G2|]. lia.
  Qed.
  Lemma left_first : left first_world = (list_sum (map (@length call) progs) + length progs)%nat.
  Proof.
    unfold left, first_world. cbn [w_ranks]. rewrite map_map. clear - Len. revert sts Len. induction progs as [|p ps IH]; intros [|s ss] L; try discriminate; [reflexivity|].
    cbn [combine map fst snd]. unfold list_sum in *. cbn [fold_right length]. rewrite IH by (cbn in L; lia). unfold left_of, begin. cbn [r_sends r_recvs r_done]. pose proof (sends_recvs p). lia.
  Qed.

  Lemma exchange_ok k w : calls parse mach base ub eager k first_world w ->
    (k <= list_sum (map (@length call) progs) + length progs)%nat /\
    (forall me, exists o, advance parse mach base ub eager w me = Ok o) /\
    (all_done w \/ exists me w', advance parse mach base ub eager w me = Ok (Some w')) /\
    (all_done w -> w_net w = [] /\ length (w_ranks w) = length progs /\ k = (list_sum (map (@length call) progs) + length progs)%nat /\
                   forall r x, nth_error (w_ranks w) r = Some x -> inv (r_state x) (nth r finals [])).
  Proof.
    intros C. destruct (calls_good k w C) as [Gw Hl]. rewrite left_first in Hl. split; [lia|]. split; [intros me; destruct (advance_ok w me Gw) as (o & E & _); eauto|].
    split; [exact (progress w Gw)|]. intros D. pose proof Gw as (sd & G & L & R & _).
    assert (Z : forall r x, nth_error (w_ranks w) r = Some x -> r_sends x = [] /\ r_recvs x = [] /\ inv (r_state x) (nth r finals []) /\ r_done x = true).
    { intros r x E. destruct (R r x E) as (_ & _ & _ & _ & _ & Q). unfold all_done in D. rewrite Forall_forall in D. specialize (D x (nth_error_In _ _ E)). rewrite D in Q. destruct Q as (Q1 & Q2 & Q3). auto. }
    split; [apply net_empty; [exact Gw|]; intros r x E; destruct (Z r x E) as (A & B & _); auto|]. split; [exact L|]. split.
    - assert (left w = 0%nat); [|lia]. unfold left. clear - Z. assert (F : forall x, In x (w_ranks w) -> left_of x = 0%nat).
      { intros x I. destruct (In_nth_error _ _ I) as [r E]. destruct (Z r x E) as (A & B & _ & D). unfold left_of. rewrite A, B, D. reflexivity. }
      clear Z. induction (w_ranks w) as [|x l IH]; [reflexivity|]. cbn [map]. unfold list_sum in *. cbn [fold_right]. rewrite IH by (intros y I; apply F; right; exact I). rewrite F by (left; reflexivity). reflexivity.
    - intros r x E. destruct (Z r x E) as (_ & _ & I & _). exact I.
  Qed.
End Exchange.
