(** Lemmas for C65: what each write does to each column. *)
From Coq Require Import ZArith Floats.SpecFloat Lia List.
From Verif Require Import Base DType SpecTree Mem Node Number ArrayOps Json B64Json ValueJson NumConv FloatText MeshConv MeshFlat MeshFlatSpec.
Import ListNotations.

Lemma need_ok {A} (o : option A) x : need o = Ok x -> o = Some x.
Proof. destruct o; cbn; congruence. Qed.
Lemma slot_ok {A} (l : list A) i x : slot l i = Ok x -> nth_error l i = Some x.
Proof. unfold slot. destruct (nth_error l i); congruence. Qed.
Ltac ob H x E :=
  match type of H with obind ?o _ = Ok _ =>
    destruct o as [x| | |] eqn:E; cbn [obind] in H; try discriminate H end.

(** * Tables *)
Lemma mset_keys {V} (m : list (str * V)) k v : In k (map fst m) -> map fst (mset m k v) = map fst m.
Proof.
  induction m as [|[k' v'] m IH]; cbn; [intros []|]. intros H. destruct (str_eqb k k') eqn:E; cbn; [reflexivity|].
  f_equal. apply IH. destruct H as [H|H]; [|exact H]. subst. rewrite str_eqb_refl in E. discriminate.
Qed.
Lemma mset_new {V} (m : list (str * V)) k v : ~ In k (map fst m) -> map fst (mset m k v) = map fst m ++ [k].
Proof.
  induction m as [|[k' v'] m IH]; cbn; [reflexivity|]. intros H. destruct (str_eqb k k') eqn:E; cbn.
  - apply str_eqb_eq in E. exfalso. apply H. left. congruence.
  - f_equal. apply IH. tauto.
Qed.
Lemma mget_key {V} (m : list (str * V)) k v : mget m k = Some v -> In k (map fst m).
Proof.
  induction m as [|[k' v'] m IH]; cbn; [discriminate|]. destruct (str_eqb k k') eqn:E; [|tauto].
  apply str_eqb_eq in E. intros _. left. congruence.
Qed.
Lemma key_mget {V} (m : list (str * V)) k : In k (map fst m) -> exists v, mget m k = Some v.
Proof.
  induction m as [|[k' v'] m IH]; cbn; [intros []|]. destruct (str_eqb k k') eqn:E; [eauto|]. intros [H|H]; [|tauto].
  subst. rewrite str_eqb_refl in E. discriminate.
Qed.

(** a write of the rows w from off on *)
Definition wr (c c' : option col) (off : nat) (w : option (list number)) : Prop :=
  match w with
  | None => c' = c
  | Some ws => exists d, c = Some d /\ off + length ws <= length (c_vals d) /\ c' = Some (splice d off ws)
  end.
Lemma splice_nth c off ws r : off + length ws <= length (c_vals c) ->
  nth_error (c_vals (splice c off ws)) r =
  if Nat.ltb r off then nth_error (c_vals c) r
  else if Nat.ltb r (off + length ws) then nth_error ws (r - off) else nth_error (c_vals c) r.
Proof.
  intros H. unfold splice. cbn [c_vals]. set (l := c_vals c) in *. clearbody l.
  assert (F : length (firstn off l) = off) by (rewrite firstn_length; lia).
  destruct (Nat.ltb r off) eqn:E1.
  - apply Nat.ltb_lt in E1. rewrite nth_error_app1 by lia.
    revert off r E1 H F. induction l as [|x l IH]; intros off r E1 H F; [destruct r, off; reflexivity|].
    destruct off as [|off]; [lia|]. destruct r as [|r]; [reflexivity|]. cbn. cbn in H, F. apply IH; lia.
  - apply Nat.ltb_ge in E1. rewrite nth_error_app2 by lia. rewrite F.
    destruct (Nat.ltb r (off + length ws)) eqn:E2.
    + apply Nat.ltb_lt in E2. rewrite nth_error_app1 by lia. reflexivity.
    + apply Nat.ltb_ge in E2. rewrite nth_error_app2 by lia.
      replace r with ((off + length ws) + (r - off - length ws)) at 2 by lia. generalize (r - off - length ws).
      generalize (off + length ws). clear. intros n i. revert l. induction n as [|n IH]; intros l; [reflexivity|].
      destruct l as [|x l]; cbn; [destruct i; reflexivity|apply IH].
Qed.
Lemma splice_length c off ws : off + length ws <= length (c_vals c) ->
  length (c_vals (splice c off ws)) = length (c_vals c).
Proof. intros H. unfold splice. cbn. rewrite !app_length, firstn_length, skipn_length. lia. Qed.

(** * append_data *)
Definition casts (t : tid) (s : col) (n : nat) (ws : list number) : Prop :=
  length ws = n /\ forall j, j < n -> exists v w, nth_error (c_vals s) j = Some v /\ cast t v = Ok w /\ nth_error ws j = Some w.
Lemma omapM_seq {B} (f : nat -> outcome B) n : forall k ws,
  omapM f (seq k n) = Ok ws -> length ws = n /\ forall j, j < n -> exists w, f (k + j) = Ok w /\ nth_error ws j = Some w.
Proof.
  induction n as [|n IH]; intros k ws H; cbn [seq omapM] in H.
  - injection H as <-. split; [reflexivity|lia].
  - ob H w E. ob H ws' E'. injection H as <-. destruct (IH _ _ E') as [Hl Hn]. split; [cbn; lia|].
    intros [|j] Hj; [rewrite Nat.add_0_r; exists w; auto|].
    destruct (Hn j ltac:(lia)) as (w' & Hw & Hx). exists w'. rewrite <- Nat.add_succ_comm. auto.
Qed.
Lemma append_array_ok s d off n d' : append_array s d off n = Ok d' ->
  exists ws, d' = splice d off ws /\ casts (c_ty d) s n ws /\ off + n <= length (c_vals d).
Proof.
  unfold append_array. destruct (Nat.ltb _ _) eqn:E; [discriminate|]. apply Nat.ltb_ge in E.
  destruct (negb _); [discriminate|]. intros H. ob H ws Ew. injection H as <-. exists ws. split; [reflexivity|].
  destruct (omapM_seq _ _ _ _ Ew) as [Hl Hn]. split; [|exact E]. split; [exact Hl|]. intros j Hj.
  destruct (Hn j Hj) as (w & Hw & Hx). cbn [Nat.add] in Hw. ob Hw v Ev. apply slot_ok in Ev. eauto.
Qed.
(** what a source part writes *)
Definition source (t : tid) (s : option col) (n : nat) (w : option (list number)) : Prop :=
  match s with
  | None => w = None
  | Some s => exists ws, w = Some ws /\ casts t s n ws
  end.
Definition writes (c c' : option col) (off n : nat) (s : option col) : Prop :=
  match s with
  | None => c' = c
  | Some s => exists d ws, c = Some d /\ casts (c_ty d) s n ws /\ off + n <= length (c_vals d) /\ c' = Some (splice d off ws)
  end.
Lemma append_mc_ok off n : forall src dst dst', NoDup (map fst src) -> append_mc src dst off n = Ok dst' ->
  map fst dst' = map fst dst /\ forall a, writes (mget dst a) (mget dst' a) off n (mget src a).
Proof.
  unfold append_mc. induction src as [|[k s] src IH]; intros dst dst' ND H; cbn [for_] in H.
  - injection H as <-. split; [reflexivity|]. intros a. reflexivity.
  - inversion_clear ND as [|? ? Hk ND']. cbn [fst snd] in *. ob H d1 E1. ob E1 d0 E0. apply need_ok in E0. ob E1 d2 E2. injection E1 as <-.
    destruct (append_array_ok _ _ _ _ _ E2) as (ws & -> & C & Le).
    destruct (IH _ _ ND' H) as [Hf Hw]. split.
    { rewrite Hf. apply mset_keys. exact (mget_key _ _ _ E0). }
    intros a. specialize (Hw a). cbn [mget]. rewrite mget_mset in Hw. destruct (str_eqb a k) eqn:Ea.
    + apply str_eqb_eq in Ea. subst a. destruct (mget src k) as [s'|] eqn:Es.
      { exfalso. apply Hk. exact (mget_key _ _ _ Es). }
      cbn [writes] in *. exists d0, ws. auto.
    + exact Hw.
Qed.
Lemma append_vals_ok src d off n d' : (forall l, src = VMc l -> NoDup (map fst l)) -> append_vals src d off n = Ok d' ->
  forall a, writes (part d a) (part d' a) off n (part src a).
Proof.
  intros ND H a. destruct src as [s|s]; destruct d as [d|d]; cbn [append_vals] in H; try discriminate H.
  - ob H d1 E. injection H as <-. destruct (append_array_ok _ _ _ _ _ E) as (ws & -> & C & Le).
    destruct a; cbn [part writes]; [reflexivity|]. exists d, ws. auto.
  - destruct s; [injection H as <-|discriminate H]. destruct a; reflexivity.
  - assert (H' : (do d' <- append_mc s d off n; Ok (VMc d')) = Ok d') by (destruct s; exact H). clear H.
    ob H' d1 E. injection H' as <-. destruct (append_mc_ok _ _ _ _ _ (ND s eq_refl) E) as [_ Hw].
    destruct a; cbn [part]; [apply Hw|reflexivity].
Qed.
Lemma writes_wr c c' off n s t : writes c c' off n s -> (forall d, c = Some d -> c_ty d = t) ->
  exists w, wr c c' off w /\ source t s n w.
Proof.
  destruct s as [s|]; cbn [writes].
  - intros (d & ws & Hc & C & Le & Hc') T. exists (Some ws). split.
    + exists d. destruct C as [Hl _]. rewrite Hl. auto.
    + exists ws. split; [reflexivity|]. rewrite <- (T d Hc). exact C.
  - intros -> _. exists None. split; reflexivity.
Qed.

(** a table in which only the column n was changed *)
Definition only (n : str) (tb tb' : table) : Prop :=
  map fst tb' = map fst tb /\ forall k, k <> n -> mget tb' k = mget tb k.
Lemma only_mset n tb v : In n (map fst tb) -> only n tb (mset tb n v).
Proof. intros H. split; [exact (mset_keys _ _ _ H)|]. intros k Hk. apply mget_mset_other. exact Hk. Qed.
Lemma append_ok tb n src off m tb' : In n (map fst tb) -> (forall l, src = VMc l -> NoDup (map fst l)) ->
  append tb n src off m = Ok tb' ->
  only n tb tb' /\ forall a, writes (column tb n a) (column tb' n a) off m (part src a).
Proof.
  intros Hn ND. unfold append, touch. destruct (key_mget _ _ Hn) as [v Hv]. rewrite Hv. rewrite Hv. cbn [need obind].
  intros H. ob H v' E. injection H as <-. split; [exact (only_mset _ _ _ Hn)|]. intros a. unfold column.
  rewrite Hv, mget_mset_same. exact (append_vals_ok _ _ _ _ _ ND E a).
Qed.

(** * ids *)
Lemma overwrite_ok c off ws c' : overwrite c off ws = Ok c' -> off + length ws <= length (c_vals c) /\ c' = splice c off ws.
Proof. unfold overwrite. destruct (Nat.ltb _ _) eqn:E; [discriminate|]. apply Nat.ltb_ge in E. intros [= <-]. auto. Qed.
Lemma omapM_f2 {A B} (f : A -> outcome B) : forall l ws, omapM f l = Ok ws -> Forall2 (fun x w => f x = Ok w) l ws.
Proof.
  induction l as [|x l IH]; intros ws H; cbn [omapM] in H; [injection H as <-; constructor|].
  ob H w E. ob H ws' E'. injection H as <-. constructor; auto.
Qed.
Lemma set_range_ok tb n off zs tb' : set_range tb n off zs = Ok tb' ->
  only n tb tb' /\ exists c ws, column tb n None = Some c /\ Forall2 (fun z w => cast (c_ty c) (NI z) = Ok w) zs ws /\
    off + length ws <= length (c_vals c) /\ column tb' n None = Some (splice c off ws).
Proof.
  unfold set_range, column. destruct (mget tb n) as [[c|]|] eqn:E; try discriminate. destruct (negb _); [discriminate|].
  intros H. ob H ws Ew. ob H c' Ec. injection H as <-. destruct (overwrite_ok _ _ _ _ Ec) as [Le ->].
  split; [exact (only_mset _ _ _ (mget_key _ _ _ E))|]. exists c, ws. split; [reflexivity|]. split; [exact (omapM_f2 _ _ _ Ew)|].
  split; [exact Le|]. rewrite mget_mset_same. reflexivity.
Qed.
Definition ids_written (tb tb' : table) (n : str) (off : nat) (zs : list Z) : Prop :=
  exists c ws, column tb n None = Some c /\ Forall2 (fun z w => cast (c_ty c) (NI z) = Ok w) zs ws /\
    off + length ws <= length (c_vals c) /\ column tb' n None = Some (splice c off ws).
Lemma set_ids_ok tb ids off n id tb' : ids <> L "domain_id" -> set_ids tb ids off n id = Ok tb' ->
  map fst tb' = map fst tb /\ (forall k, k <> ids -> k <> L "domain_id" -> mget tb' k = mget tb k) /\
  (In ids (map fst tb) -> In (L "domain_id") (map fst tb) ->
     ids_written tb tb' (L "domain_id") off (repeat id n) /\ ids_written tb tb' ids off (map Z.of_nat (seq 0 n))).
Proof.
  intros Ne H. unfold set_ids in H. destruct (mget tb (L "domain_id")) as [v1|] eqn:E1.
  - destruct (mget tb ids) as [v2|] eqn:E2.
    + ob H tb1 T1. destruct (set_range_ok _ _ _ _ _ T1) as [[K1 O1] W1]. destruct (set_range_ok _ _ _ _ _ H) as [[K2 O2] W2].
      split; [congruence|]. split.
      { intros k Hk Hd. rewrite O2, O1 by assumption. reflexivity. }
      intros _ _. split.
      * destruct W1 as (c & ws & Hc & F & Le & Hc'). exists c, ws. repeat (split; [assumption|]).
        unfold column in *. rewrite O2 by congruence. exact Hc'.
      * destruct W2 as (c & ws & Hc & F & Le & Hc'). exists c, ws. split; [|auto].
        unfold column in *. rewrite O1 in Hc by congruence. exact Hc.
    + injection H as <-. split; [reflexivity|]. split; [reflexivity|]. intros I _. apply key_mget in I. destruct I as [v Hv]. congruence.
  - injection H as <-. split; [reflexivity|]. split; [reflexivity|]. intros _ I. apply key_mget in I. destruct I as [v Hv]. congruence.
Qed.
