(** Exchanges with tags above MPI's bound, and exchanges read off one list of transfers (C56). *)
From Verif Require Import Base DType SpecTree Schema Codec Mem MemFacts Node SpecNode NodeFacts NodeSet NodeUpdateLaws NodeMerge NodeAlloc SchemaInv
  Json JsonSpec JsonFacts JsonSchema Save SaveFacts Contig ContigFacts Number NodeDiff ArrayOps NodeHist HistSpec HistFacts HistRun Mpi MpiFacts MpiNet MpiCollFacts MpiNetFacts.
Local Open Scope Z_scope.

(** ** Tags as MPI sees them *)
Definition clip (ub : Z) (c : call) : call :=
  match c with Isend v d t => Isend v d (Z.min ub (Z.max 0 t)) | Irecv v s t => Irecv v s (Z.min ub (Z.max 0 t)) end.
Definition clip3 (ub : Z) (x : nat * nat * Z) : nat * nat * Z := (fst x, Z.min ub (Z.max 0 (snd x))).
Lemma safe_tag_min ub t : 0 <= ub -> safe_tag ub t = Z.min ub (Z.max 0 t).
Proof. unfold safe_tag. intros H. destruct (Z.ltb_spec ub (Z.max 0 t)); lia. Qed.
Lemma safe_tag_clip ub t : 0 <= ub -> safe_tag ub (Z.min ub (Z.max 0 t)) = safe_tag ub t.
Proof. intros H. rewrite !safe_tag_min by exact H. lia. Qed.
Definition clip_rank (ub : Z) (k : rank) : rank :=
  mkRank (r_state k) (r_count k) (map (clip3 ub) (r_sends k)) (map (clip3 ub) (r_recvs k)) (r_got k) (r_done k).
Definition clip_world (ub : Z) (w : world) : world := mkW (map (clip_rank ub) (w_ranks w)) (w_net w).
Lemma map_set_nth {A B} (f : A -> B) l i x : map f (set_nth l i x) = set_nth (map f l) i (f x).
Proof. revert i. induction l as [|y l IH]; intros [|i]; cbn [set_nth map]; [reflexivity..|]. rewrite IH. reflexivity. Qed.
Lemma clip_sends ub ops : sends_in (map (clip ub) ops) = map (clip3 ub) (sends_in ops).
Proof. unfold sends_in. induction ops as [|[v d t|v s t] ops IH]; cbn [map flat_map app clip]; [reflexivity| |exact IH]. rewrite IH. reflexivity. Qed.
Lemma clip_recvs ub ops : recvs_in (map (clip ub) ops) = map (clip3 ub) (recvs_in ops).
Proof. unfold recvs_in. induction ops as [|[v d t|v s t] ops IH]; cbn [map flat_map app clip]; [reflexivity|exact IH|]. rewrite IH. reflexivity. Qed.

Section Clip.
  Variable parse : str -> outcome jval.
  Variable mach : endian.
  Variable base : nat -> Z.
  Variable ub : Z.
  Variable eager : bool.
  Hypothesis Ub : 0 <= ub.
  Notation adv := (advance parse mach base ub eager).

  Lemma advance_clip w me : adv (clip_world ub w) me = match adv w me with Ok o => Ok (option_map (clip_world ub) o) | Err => Err | UB => UB | Fuel => Fuel end.
  Proof.
    unfold advance. cbn [clip_world w_ranks w_net]. rewrite nth_error_map, map_length. destruct (nth_error (w_ranks w) me) as [k|]; [|reflexivity]. cbn [option_map].
    cbn [clip_rank r_done r_sends r_recvs r_state r_count r_got]. destruct (r_done k); [reflexivity|].
    destruct (r_sends k) as [|[[i d] t] rest]; cbn [map].
    - destruct (r_recvs k) as [|[[i s] t] rest]; cbn [map].
      + destruct (Nat.eqb (r_count k) 0); [reflexivity|]. destruct (negb eager && existsb (from me) (w_net w)); [reflexivity|].
        destruct (build parse (r_state k) (r_got k)); cbn [obind]; try reflexivity. unfold clip_world. cbn [option_map w_ranks w_net]. rewrite map_set_nth. reflexivity.
      + cbn [clip3 fst snd]. destruct (Nat.leb (length (w_ranks w)) s); [reflexivity|]. rewrite safe_tag_clip by exact Ub.
        destruct (take_first s me (safe_tag ub t) (w_net w)) as [[b net']|]; [|reflexivity]. unfold clip_world. cbn [option_map w_ranks w_net]. rewrite map_set_nth. reflexivity.
    - cbn [clip3 fst snd]. destruct (Nat.leb (length (w_ranks w)) d); [reflexivity|]. rewrite safe_tag_clip by exact Ub.
      destruct (deref (nth_error (s_vars (r_state k)) i)); cbn [obind]; try reflexivity. destruct (send_using_schema mach base (s_mem (r_state k)) a) as [[m b]| | |]; cbn [obind]; try reflexivity.
      unfold clip_world. cbn [option_map w_ranks w_net]. rewrite map_set_nth. reflexivity.
  Qed.
  Lemma calls_clip k w w' : calls parse mach base ub eager k w w' -> calls parse mach base ub eager k (clip_world ub w) (clip_world ub w').
  Proof.
    induction 1 as [w|k w w1 w2 me C IH A]; [constructor|]. eapply calls_S; [exact IH|]. rewrite advance_clip, A. reflexivity.
  Qed.
  Lemma clip_first sts progs : clip_world ub (first_world progs sts) = first_world (map (map (clip ub)) progs) sts.
  Proof.
    unfold clip_world, first_world. cbn [w_ranks w_net]. f_equal. rewrite map_map. revert progs. induction sts as [|s sts IH]; intros [|p progs]; cbn [combine map]; try reflexivity.
    rewrite IH. f_equal. unfold clip_rank, begin. cbn [fst snd r_state r_count r_sends r_recvs r_got r_done]. rewrite clip_sends, clip_recvs, map_length. reflexivity.
  Qed.
  Lemma clip_done w : all_done (clip_world ub w) <-> all_done w.
  Proof. unfold all_done. cbn [clip_world w_ranks]. rewrite Forall_map. reflexivity. Qed.
  Lemma clip_lengths (progs : list (list call)) : map (@length call) (map (map (clip ub)) progs) = map (@length call) progs.
  Proof. rewrite map_map. apply map_ext. intros l. apply map_length. Qed.
  Lemma clip_nth r progs : nth r (map (map (clip ub)) progs) [] = map (clip ub) (nth r progs []).
  Proof. exact (map_nth (map (clip ub)) progs [] r). Qed.

  (** any tags: matching goes by the tags as MPI sees them *)
  Lemma exchange_clip progs sts vals finals k w :
    reads_json parse -> mach <> DEFAULT_E -> Forall2 inv sts vals -> length sts = length progs ->
    Forall (fun ops => ops <> []) progs ->
    Forall (Forall (fun c => match c with Isend _ r _ | Irecv _ r _ => (r < length progs)%nat end)) progs ->
    (forall r s, nth_error sts r = Some s -> sends_ok mach base (nth r progs []) s (nth r vals [])) ->
    balanced (map (map (clip ub)) progs) ->
    (forall r, (r < length progs)%nat -> received mach (map (map (clip ub)) progs) vals r [] (map (clip ub) (nth r progs [])) (nth r vals []) (nth r finals [])) ->
    calls parse mach base ub eager k (first_world progs sts) w ->
    (k <= list_sum (map (@length call) progs) + length progs)%nat /\
    (forall me, exists o, adv w me = Ok o) /\
    (all_done w \/ exists me w', adv w me = Ok (Some w')) /\
    (all_done w -> w_net w = [] /\ length (w_ranks w) = length progs /\ k = (list_sum (map (@length call) progs) + length progs)%nat /\
                   forall r x, nth_error (w_ranks w) r = Some x -> inv (r_state x) (nth r finals [])).
  Proof.
    intros Pa Ma St Le So Ca Se Ba Fi C. apply calls_clip in C. rewrite clip_first in C.
    destruct (exchange_ok parse mach base ub eager (map (map (clip ub)) progs) sts vals finals) with (k := k) (w := clip_world ub w) as (H1 & H2 & H3 & H4); try assumption.
    - rewrite map_length. exact Le.
    - rewrite Forall_map. eapply Forall_impl; [|exact So]. intros [|c l] N; [contradiction|discriminate].
    - rewrite map_length, Forall_map. eapply Forall_impl; [|exact Ca]. intros l F. rewrite Forall_map. eapply Forall_impl; [|exact F]. intros [v d t|v s t] H; cbn [clip call_ok]; split; try exact H; lia.
    - intros r s E. rewrite clip_nth. intros i d t I. apply in_map_iff in I. destruct I as ([v d' t'|v s' t'] & E' & I); cbn [clip] in E'; [|discriminate]. injection E' as <- <- <-. exact (Se r s E v d' t' I).
    - intros r H. rewrite map_length in H. rewrite clip_nth. exact (Fi r H).
    - rewrite clip_lengths, map_length in H1, H4. split; [exact H1|]. split; [|split].
      + intros me. destruct (H2 me) as (o & E). rewrite advance_clip in E. destruct (adv w me); try discriminate. eauto.
      + destruct H3 as [D|(me & w' & E)]; [left; apply clip_done; exact D|]. right. exists me. rewrite advance_clip in E. destruct (adv w me) as [[w1|]| | |]; try discriminate. eauto.
      + intros D. destruct (H4 (proj2 (clip_done w) D)) as (N & Ln & K & F). cbn [clip_world w_net w_ranks] in N, Ln, F. rewrite map_length in Ln. split; [exact N|]. split; [exact Ln|]. split; [exact K|].
        intros r x E. specialize (F r (clip_rank ub x)). rewrite nth_error_map, E in F. exact (F eq_refl).
  Qed.
End Clip.

(** ** Transfers *)
(** source rank, its variable, destination rank, its variable, tag *)
Record transfer := mkT { t_src : nat; t_from : nat; t_dest : nat; t_into : nat; t_tag : Z }.
(** the operations of rank [me] *)
Definition calls_of (me : nat) (l : list transfer) : list call :=
  flat_map (fun x => (if Nat.eqb (t_src x) me then [Isend (t_from x) (t_dest x) (t_tag x)] else []) ++
                     (if Nat.eqb (t_dest x) me then [Irecv (t_into x) (t_src x) (t_tag x)] else [])) l.
(** the values of the variables of rank [me] after the transfers *)
Inductive transferred (mach : endian) (vals : list (list value)) (me : nat) : list transfer -> list value -> list value -> Prop :=
| tr_end vs : transferred mach vals me [] vs vs
| tr_other x l vs vs' : t_dest x <> me -> transferred mach vals me l vs vs' -> transferred mach vals me (x :: l) vs vs'
| tr_here x l w v vs vs' : t_dest x = me ->
    nth_error (nth (t_src x) vals []) (t_from x) = Some w -> nth_error vs (t_into x) = Some v -> no_clash v (tmap (file_order mach) w) ->
    transferred mach vals me l (set_nth vs (t_into x) (vupdate v (tmap (file_order mach) w))) vs' ->
    transferred mach vals me (x :: l) vs vs'.

Definition key (ub : Z) (s d : nat) (t : Z) (x : transfer) : bool := Nat.eqb (t_src x) s && Nat.eqb (t_dest x) d && (Z.min ub (Z.max 0 (t_tag x)) =? t).
Lemma sent_of ub l s d t : sent_to (map (clip ub) (calls_of s l)) d t = map t_from (filter (key ub s d t) l).
Proof.
  unfold calls_of. induction l as [|x l IH]; [reflexivity|]. cbn [flat_map filter]. rewrite map_app. unfold sent_to in *. rewrite flat_map_app, IH. unfold key at 2.
  destruct (Nat.eqb (t_src x) s); cbn [andb app map flat_map clip].
  - destruct (Nat.eqb (t_dest x) s); cbn [app map flat_map clip]; destruct (Nat.eqb (t_dest x) d && _); reflexivity.
  - destruct (Nat.eqb (t_dest x) s); reflexivity.
Qed.
Lemma recv_of ub l s d t : recv_from (map (clip ub) (calls_of d l)) s t = map t_into (filter (key ub s d t) l).
Proof.
  unfold calls_of. induction l as [|x l IH]; [reflexivity|]. cbn [flat_map filter]. rewrite map_app. unfold recv_from in *. rewrite flat_map_app, IH. unfold key at 2.
  destruct (Nat.eqb (t_src x) d); cbn [app map flat_map clip]; destruct (Nat.eqb (t_dest x) d); cbn [app map flat_map clip];
    destruct (Nat.eqb (t_src x) s); cbn [andb app]; try reflexivity; destruct (Z.min ub (Z.max 0 (t_tag x)) =? t); reflexivity.
Qed.
Lemma transfers_received mach ub progs vals me all l : nth_error progs me = Some (calls_of me all) \/ True ->
  (forall s, (s < length progs)%nat -> nth s progs [] = map (clip ub) (calls_of s all)) ->
  Forall (fun x => (t_src x < length progs)%nat) all ->
  forall before vs vs', all = before ++ l -> transferred mach vals me l vs vs' ->
  received mach progs vals me (flat_map (fun x => if Nat.eqb (t_dest x) me then [(t_src x, Z.min ub (Z.max 0 (t_tag x)))] else []) before)
    (map (clip ub) (calls_of me l)) vs vs'.
Proof.
  intros _ P Ok before vs vs' E T. revert before E. induction T as [vs|x l vs vs' N T IH|x l w v vs vs' D Ew Ev Nc T IH]; intros before E.
  - constructor.
  - unfold calls_of. cbn [flat_map]. replace (Nat.eqb (t_dest x) me) with false by (symmetry; apply Nat.eqb_neq; exact N). rewrite app_nil_r, map_app.
    specialize (IH (before ++ [x])). rewrite <- app_assoc in IH. specialize (IH E). rewrite flat_map_app in IH. cbn [flat_map] in IH.
    replace (Nat.eqb (t_dest x) me) with false in IH by (symmetry; apply Nat.eqb_neq; exact N). rewrite !app_nil_r in IH.
    destruct (Nat.eqb (t_src x) me); cbn [map app clip]; [apply rc_send|]; exact IH.
  - subst me. specialize (IH (before ++ [x])). rewrite <- app_assoc in IH. specialize (IH E). rewrite flat_map_app in IH. cbn [flat_map] in IH. rewrite Nat.eqb_refl, app_nil_r in IH.
    assert (R : received mach progs vals (t_dest x) (flat_map (fun y => if Nat.eqb (t_dest y) (t_dest x) then [(t_src y, Z.min ub (Z.max 0 (t_tag y)))] else []) before)
                  (Irecv (t_into x) (t_src x) (Z.min ub (Z.max 0 (t_tag x))) :: map (clip ub) (calls_of (t_dest x) l)) vs vs').
    { assert (Hs : (t_src x < length progs)%nat) by (rewrite Forall_forall in Ok; apply Ok; rewrite E; apply in_elt).
      eapply rc_recv; [|exact Ew|exact Ev|exact Nc|exact IH]. rewrite (P _ Hs), sent_of, E, filter_app, map_app.
      assert (Q : times (t_src x) (Z.min ub (Z.max 0 (t_tag x))) (flat_map (fun y => if Nat.eqb (t_dest y) (t_dest x) then [(t_src y, Z.min ub (Z.max 0 (t_tag y)))] else []) before)
                  = length (map t_from (filter (key ub (t_src x) (t_dest x) (Z.min ub (Z.max 0 (t_tag x)))) before))).
      { rewrite map_length. unfold times. clear. induction before as [|y b IH]; [reflexivity|]. cbn [flat_map]. rewrite filter_app, app_length, IH. cbn [filter]. unfold key at 2.
        destruct (Nat.eqb (t_dest y) (t_dest x)); cbn [filter fst snd app length]; [|rewrite andb_false_r; reflexivity]. rewrite andb_true_r.
        destruct (Nat.eqb (t_src y) (t_src x) && _); reflexivity. }
      rewrite nth_error_app2 by (rewrite Q; lia). rewrite Q, Nat.sub_diag. cbn [filter]. unfold key at 1. rewrite !Nat.eqb_refl, Z.eqb_refl. reflexivity. }
    unfold calls_of. cbn [flat_map]. rewrite Nat.eqb_refl, map_app. destruct (Nat.eqb (t_src x) (t_dest x)); cbn [map app clip]; [apply rc_send|]; exact R.
Qed.
Lemma transfers_balanced ub n l : Forall (fun x => (t_src x < n)%nat /\ (t_dest x < n)%nat) l -> balanced (map (map (clip ub)) (map (fun r => calls_of r l) (seq 0 n))).
Proof.
  intros F s d t. assert (Q : forall r, nth r (map (map (clip ub)) (map (fun r => calls_of r l) (seq 0 n))) [] = if (r <? n)%nat then map (clip ub) (calls_of r l) else []).
  { intros r. rewrite clip_nth. destruct (Nat.ltb_spec r n) as [H|H].
    - f_equal. rewrite nth_indep with (d' := calls_of 0 l) by (rewrite map_length, seq_length; exact H). rewrite (map_nth (fun r => calls_of r l)), seq_nth by exact H. reflexivity.
    - rewrite nth_overflow by (rewrite map_length, seq_length; exact H). reflexivity. }
  assert (Z : forall r, (n <= r)%nat -> forall s d t, r = s \/ r = d -> filter (key ub s d t) l = []).
  { clear Q. intros r H s' d' t' E. induction F as [|x l [F1 F2] F IH]; [reflexivity|]. cbn [filter]. unfold key at 1. destruct E as [<-|<-].
    - replace (Nat.eqb (t_src x) r) with false by (symmetry; apply Nat.eqb_neq; lia). exact IH.
    - replace (Nat.eqb (t_dest x) r) with false by (symmetry; apply Nat.eqb_neq; lia). rewrite andb_false_r. exact IH. }
  rewrite !Q. destruct (Nat.ltb_spec s n) as [Hs|Hs], (Nat.ltb_spec d n) as [Hd|Hd].
  - rewrite sent_of, recv_of, !map_length. reflexivity.
  - rewrite sent_of, (Z d Hd) by auto. reflexivity.
  - rewrite recv_of, (Z s Hs) by auto. reflexivity.
  - reflexivity.
Qed.
Lemma nth_calls l n r : (r < n)%nat -> nth r (map (fun r => calls_of r l) (seq 0 n)) [] = calls_of r l.
Proof. intros H. rewrite nth_indep with (d' := calls_of 0 l) by (rewrite map_length, seq_length; exact H). rewrite (map_nth (fun r => calls_of r l)), seq_nth by exact H. reflexivity. Qed.
Lemma nth_clipped ub l n r : (r < n)%nat -> nth r (map (map (clip ub)) (map (fun r => calls_of r l) (seq 0 n))) [] = map (clip ub) (calls_of r l).
Proof. intros H. rewrite clip_nth, nth_calls by exact H. reflexivity. Qed.

Lemma exchange_transfers parse mach base ub eager l sts vals finals k w :
  0 <= ub -> reads_json parse -> mach <> DEFAULT_E -> Forall2 inv sts vals ->
  Forall (fun x => (t_src x < length sts)%nat /\ (t_dest x < length sts)%nat) l ->
  (forall r, (r < length sts)%nat -> exists x, In x l /\ (t_src x = r \/ t_dest x = r)) ->
  (forall x s, In x l -> nth_error sts (t_src x) = Some s -> exists n v, nth_error (s_vars s) (t_from x) = Some n /\ nth_error (nth (t_src x) vals []) (t_from x) = Some v /\ sendable mach base n v) ->
  (forall r, (r < length sts)%nat -> transferred mach vals r l (nth r vals []) (nth r finals [])) ->
  calls parse mach base ub eager k (first_world (map (fun r => calls_of r l) (seq 0 (length sts))) sts) w ->
  (k <= 2 * length l + length sts)%nat /\
  (forall me, exists o, advance parse mach base ub eager w me = Ok o) /\
  (all_done w \/ exists me w', advance parse mach base ub eager w me = Ok (Some w')) /\
  (all_done w -> w_net w = [] /\ length (w_ranks w) = length sts /\ k = (2 * length l + length sts)%nat /\
                 forall r x, nth_error (w_ranks w) r = Some x -> inv (r_state x) (nth r finals [])).
Proof.
  intros Ub Pa Ma St Rk So Se Tr C. set (n := length sts) in *. set (progs := map (fun r => calls_of r l) (seq 0 n)) in *.
  assert (Lp : length progs = n) by (unfold progs; rewrite map_length, seq_length; reflexivity).
  assert (Sum : list_sum (map (@length call) progs) = (2 * length l)%nat).
  { unfold progs. rewrite map_map. clear -Rk. induction Rk as [|x l [H1 H2] Rk IH].
    - cbn [calls_of flat_map length]. generalize 0%nat at 2. clear. induction n as [|n IH]; intros a; [reflexivity|]. cbn [seq map]. unfold list_sum in *. cbn [fold_right]. rewrite IH. reflexivity.
    - cbn [length]. replace (2 * S (length l))%nat with (2 + 2 * length l)%nat by lia. rewrite <- IH. clear IH.
      assert (Q : forall a, (forall b, list_sum (map (fun r => if Nat.eqb b r then 1 else 0) (seq a n)) = if (a <=? b) && (b <? a + n) then 1 else 0)%nat).
      { clear. induction n as [|n IH]; intros a b; cbn [seq map].
        - destruct (Nat.leb_spec a b), (Nat.ltb_spec b (a + 0)); cbn [andb]; try reflexivity; lia.
        - unfold list_sum in *. cbn [fold_right]. rewrite IH. destruct (Nat.eqb_spec b a), (Nat.leb_spec (S a) b), (Nat.ltb_spec b (S a + n)), (Nat.leb_spec a b), (Nat.ltb_spec b (a + S n)); cbn [andb]; lia. }
      transitivity (list_sum (map (fun r => (if Nat.eqb (t_src x) r then 1 else 0) + ((if Nat.eqb (t_dest x) r then 1 else 0) + length (calls_of r l))) (seq 0 n)))%nat.
      { f_equal. apply map_ext. intros r. unfold calls_of. cbn [flat_map]. rewrite !app_length. destruct (Nat.eqb (t_src x) r), (Nat.eqb (t_dest x) r); cbn [length]; lia. }
      assert (A : forall (f g : nat -> nat) (s : list nat), list_sum (map (fun r => (f r + g r)%nat) s) = (list_sum (map f s) + list_sum (map g s))%nat).
      { clear. intros f g s. induction s as [|y s IH]; [reflexivity|]. cbn [map]. unfold list_sum in *. cbn [fold_right]. rewrite IH. lia. }
      rewrite A, A, !Q. destruct (Nat.ltb_spec (t_src x) (0 + n)), (Nat.ltb_spec (t_dest x) (0 + n)); cbn [Nat.leb andb]; lia. }
  rewrite <- Sum, <- Lp. apply exchange_clip with (sts := sts) (vals := vals); try assumption.
  - unfold n in Lp. symmetry. exact Lp.
  - apply Forall_forall. intros ops I. apply in_map_iff in I. destruct I as (r & <- & I). apply in_seq in I. destruct (So r) as (x & Ix & H); [lia|].
    intros E. unfold calls_of in E. assert (F : forall y, In y l -> (if Nat.eqb (t_src y) r then [Isend (t_from y) (t_dest y) (t_tag y)] else []) ++ (if Nat.eqb (t_dest y) r then [Irecv (t_into y) (t_src y) (t_tag y)] else []) = []).
    { clear -E. induction l as [|z l IH]; intros y Iy; [destruct Iy|]. cbn [flat_map] in E. apply app_eq_nil in E. destruct E as [E1 E2]. destruct Iy as [<-|Iy]; [exact E1|auto]. }
    specialize (F x Ix). destruct H as [<-|<-]; rewrite Nat.eqb_refl in F; [discriminate|]. apply app_eq_nil in F. destruct F as [_ F]. discriminate.
  - rewrite Lp. apply Forall_forall. intros ops I. apply in_map_iff in I. destruct I as (r & <- & I). apply Forall_forall. intros c J. unfold calls_of in J. apply in_flat_map in J. destruct J as (x & Ix & J).
    rewrite Forall_forall in Rk. destruct (Rk x Ix) as [H1 H2]. apply in_app_iff in J. destruct J as [J|J].
    + destruct (Nat.eqb (t_src x) r); [|destruct J]. destruct J as [<-|[]]. exact H2.
    + destruct (Nat.eqb (t_dest x) r); [|destruct J]. destruct J as [<-|[]]. exact H1.
  - intros r s E. assert (H : (r < n)%nat) by (apply nth_error_Some; congruence). unfold progs. rewrite nth_calls by exact H. intros i d t J. unfold calls_of in J. apply in_flat_map in J. destruct J as (x & Ix & J).
    apply in_app_iff in J. destruct J as [J|J].
    + destruct (Nat.eqb_spec (t_src x) r) as [<-|]; [|destruct J]. destruct J as [J|[]]. injection J as <- <- <-. exact (Se x s Ix E).
    + destruct (Nat.eqb (t_dest x) r); [|destruct J]. destruct J as [J|[]]. discriminate.
  - apply transfers_balanced. exact Rk.
  - rewrite Lp. intros r H. unfold progs at 2. rewrite nth_calls by exact H.
    refine (transfers_received mach ub (map (map (clip ub)) progs) vals r l l (or_intror I) _ _ [] _ _ eq_refl (Tr r H)).
    + rewrite map_length, Lp. intros s Hs. unfold progs. apply nth_clipped. exact Hs.
    + rewrite map_length, Lp. eapply Forall_impl; [|exact Rk]. intros x [Hx _]. exact Hx.
Qed.
