(** Specification of one-to-many relations and facts about the model. *)
From Verif Require Import Base O2M.
Local Open Scope Z_scope.

(** ---- specification (docs/sphinx/blueprint_o2mrelation.rst) ---- *)
(** number of ones; size of group i; entries i of the indices used by group i
    start at [group_start]; data position of the k-th member of group i *)
Definition ones (r : o2m) : nat :=
  match o_sizes r, o_indices r, o_data r with
  | Some s, _, _ => length s
  | None, Some x, _ => length x
  | None, None, d :: _ => length (snd d)
  | None, None, [] => O
  end.
Definition group_size (r : o2m) (i : nat) : nat :=
  match o_sizes r with Some s => Z.to_nat (nth i s 0) | None => 1%nat end.
Definition group_start (r : o2m) (i : nat) : Z :=
  match o_offsets r with Some o => nth i o 0 | None => Z.of_nat i end.
Definition position (r : o2m) (i k : nat) : Z :=
  let j := group_start r i + Z.of_nat k in
  match o_indices r with Some x => nth (Z.to_nat j) x 0 | None => j end.
Definition group (r : o2m) (i : nat) : list Z := map (position r i) (seq 0 (group_size r i)).
Definition positions (r : o2m) : list Z := flat_map (group r) (seq 0 (ones r)).
(** values the relation assigns to one [i] in data array [d] *)
Definition values (r : o2m) (d : list Z) (i : nat) : list Z := map (fun p => nth (Z.to_nat p) d 0) (group r i).

(** A relation the protocol accepts, whose entries lie inside their arrays. *)
Record valid (r : o2m) : Prop := {
  v_data : o_data r <> [];
  v_sizes : forall s, o_sizes r = Some s -> Forall (fun z => 0 <= z) s;
  v_offsets : forall o, o_offsets r = Some o -> length o = ones r;
  v_both : o_sizes r <> None -> o_offsets r <> None;
  v_in : forall i k, (i < ones r)%nat -> (k < group_size r i)%nat ->
    0 <= group_start r i + Z.of_nat k /\
    (forall x, o_indices r = Some x -> group_start r i + Z.of_nat k < zlen x) /\
    Forall (fun d => 0 <= position r i k < zlen (snd d)) (o_data r) }.
(** within a group the indices run consecutively (always so without indices) *)
Definition consecutive (r : o2m) : Prop := forall i k, (i < ones r)%nat -> (k < group_size r i)%nat ->
  position r i k = position r i 0 + Z.of_nat k.

(** ---- lists of (one, many) pairs ---- *)
Definition pairs (sz : nat -> nat) (n : nat) : list (nat * nat) :=
  flat_map (fun i => map (pair i) (seq 0 (sz i))) (seq 0 n).
Lemma pairs_S sz n : pairs sz (S n) = pairs sz n ++ map (pair n) (seq 0 (sz n)).
Proof. unfold pairs. rewrite seq_S, flat_map_app. cbn [flat_map]. rewrite app_nil_r. reflexivity. Qed.
Definition psum (sz : nat -> nat) (i : nat) : nat := length (pairs sz i).
Lemma psum_S sz i : psum sz (S i) = (psum sz i + sz i)%nat.
Proof. unfold psum. rewrite pairs_S, app_length, map_length, seq_length. reflexivity. Qed.
Lemma psum_le sz i j : (i <= j)%nat -> (psum sz i <= psum sz j)%nat.
Proof. induction 1 as [|j _ IH]; [lia|]. rewrite psum_S. lia. Qed.
Lemma pairs_at sz n i k : (i < n)%nat -> (k < sz i)%nat -> nth_error (pairs sz n) (psum sz i + k) = Some (i, k).
Proof.
  induction n as [|n IH]; intros Hi Hk; [lia|]. rewrite pairs_S.
  assert (C : (i < n \/ i = n)%nat) by lia. destruct C as [C| ->].
  - rewrite nth_error_app1; [apply IH; assumption|]. pose proof (psum_le sz (S i) n ltac:(lia)). rewrite psum_S in H. unfold psum in *. lia.
  - rewrite nth_error_app2 by (unfold psum; lia). unfold psum. replace (_ + k - _)%nat with k by lia.
    rewrite nth_error_map, nth_error_nth' with (d := O) by (rewrite seq_length; lia). rewrite seq_nth by lia. reflexivity.
Qed.
Lemma pairs_find sz n p : (p < psum sz n)%nat -> exists i k, (i < n)%nat /\ (k < sz i)%nat /\ p = (psum sz i + k)%nat.
Proof.
  induction n as [|n IH]; intros H; [unfold psum in H; cbn in H; lia|]. rewrite psum_S in H.
  destruct (Nat.lt_ge_cases p (psum sz n)) as [C|C].
  - destruct (IH C) as (i & k & A & B & D). exists i, k. repeat split; [lia|exact B|exact D].
  - exists n, (p - psum sz n)%nat. repeat split; lia.
Qed.
Lemma flat_pairs {A} (f : nat -> nat -> A) sz n :
  flat_map (fun i => map (f i) (seq 0 (sz i))) (seq 0 n) = map (fun q => f (fst q) (snd q)) (pairs sz n).
Proof.
  induction n as [|n IH]; [reflexivity|]. rewrite pairs_S, seq_S, flat_map_app, map_app, IH. cbn [flat_map plus]. rewrite app_nil_r. f_equal.
  rewrite map_map. reflexivity.
Qed.
Lemma psum_zero sz i : (forall j, (j < i)%nat -> (0 < sz j)%nat) -> (i <= psum sz i)%nat.
Proof.
  induction i as [|i IH]; intros H; [lia|]. rewrite psum_S. specialize (H i ltac:(lia)) as Hi. specialize (IH ltac:(intros; apply H; lia)). lia.
Qed.

Lemma znth_nat {A} (l : list A) i : znth l (Z.of_nat i) = nth_error l i.
Proof. unfold znth. replace (Z.of_nat i <? 0) with false by lia. rewrite Nat2Z.id. reflexivity. Qed.
Lemma at_nat l i : (i < length l)%nat -> at_ l (Z.of_nat i) = Ok (nth i l 0).
Proof. intros H. unfold at_. rewrite znth_nat, nth_error_nth' with (d := 0) by exact H. reflexivity. Qed.
Lemma at_z l i : 0 <= i < zlen l -> at_ l i = Ok (nth (Z.to_nat i) l 0).
Proof. intros H. unfold zlen in H. rewrite <- (Z2Nat.id i) at 1 by lia. apply at_nat. lia. Qed.

Section Rel.
  Variable r : o2m.
  Hypothesis V : valid r.
  Notation n := (ones r).
  Notation sz := (group_size r).

  Lemma data_ok : exists d, it_data r = Ok (snd d) /\ hd_error (o_data r) = Some d.
  Proof. unfold it_data. pose proof (v_data r V). destruct (o_data r) as [|d l]; [congruence|]. exists d. split; reflexivity. Qed.
  Lemma elements_one_ok : elements_one r = Ok (Z.of_nat n).
  Proof.
    unfold elements_one, ones. destruct (o_sizes r); [reflexivity|]. destruct (o_indices r); [reflexivity|].
    destruct data_ok as (d & E & H). rewrite E. cbn. destruct (o_data r) as [|d' l]; [discriminate|]. injection H as ->. reflexivity.
  Qed.
  Lemma elements_many_in i : (i < n)%nat -> elements_many r (Z.of_nat i) = Ok (Z.of_nat (sz i)).
  Proof.
    intros H. unfold elements_many. rewrite elements_one_ok. cbn [obind]. replace (_ <? _) with true by lia.
    unfold group_size. destruct (o_sizes r) as [s|] eqn:E; [|reflexivity]. unfold ones in H. rewrite E in H. rewrite at_nat by exact H.
    f_equal. pose proof (v_sizes r V s E) as F. rewrite Forall_forall in F. specialize (F (nth i s 0) (nth_In _ _ H)). lia.
  Qed.
  Lemma elements_many_out i : (n <= i)%nat -> elements_many r (Z.of_nat i) = Ok 0.
  Proof. intros H. unfold elements_many. rewrite elements_one_ok. cbn [obind]. replace (_ <? _) with false by lia. reflexivity. Qed.
  Lemma start_ok i : (i < n)%nat -> (match o_offsets r with Some o => at_ o (Z.of_nat i) | None => Ok (Z.of_nat i) end) = Ok (group_start r i).
  Proof.
    intros H. unfold group_start. destruct (o_offsets r) as [o|] eqn:E; [|reflexivity]. rewrite at_nat; [reflexivity|]. rewrite (v_offsets r V o E). exact H.
  Qed.
  Lemma position_ok i k : (i < n)%nat -> (k < sz i)%nat -> consecutive r -> it_index_at r (Z.of_nat i) (Z.of_nat k + 1) = Ok (position r i k).
  Proof.
    intros H Hk C. unfold it_index_at. rewrite start_ok by exact H. cbn [obind]. rewrite (C i k H Hk). unfold position.
    destruct (o_indices r) as [x|] eqn:E; cbn [obind].
    - destruct (v_in r V i 0 H ltac:(lia)) as (P0 & P1 & _). specialize (P1 x E). rewrite at_z by lia. cbn [obind]. f_equal.
      rewrite Z.add_0_r. cbn [Z.of_nat]. lia.
    - f_equal. lia.
  Qed.

  (** ---- walking one group ---- *)
  Fixpoint many_walk (fuel : nat) (s : its) : outcome (list Z * its) :=
    match fuel with
    | O => Fuel
    | S f => do b <- has_next r s MANY;
             if b then do (_, s') <- next r s MANY; do i <- it_index_at r (fst s') (snd s');
                       do (l, s2) <- many_walk f s'; Ok (i :: l, s2)
             else Ok ([], s)
    end.
  Lemma many_walk_ok i : (i < n)%nat -> consecutive r -> forall m k fuel, (k + m = sz i)%nat -> (m < fuel)%nat ->
    many_walk fuel (Z.of_nat i, Z.of_nat k) = Ok (map (position r i) (seq k m), (Z.of_nat i, Z.of_nat (sz i))).
  Proof.
    intros H C. induction m as [|m IH]; intros k fuel E F; (destruct fuel as [|f]; [lia|]); cbn [many_walk has_next]; unfold has_next_many; cbn [fst snd];
      rewrite elements_many_in by exact H; cbn [obind].
    - replace (_ <? _) with false by lia. cbn. do 3 f_equal. lia.
    - replace (_ <? _) with true by lia. cbn [next obind fst snd]. rewrite position_ok by (try assumption; lia). cbn [obind].
      replace (Z.of_nat k + 1) with (Z.of_nat (S k)) by lia. rewrite IH by lia. reflexivity.
  Qed.

  (** ---- the cursor over all pairs ---- *)
  Hypothesis P : forall i, (i < n)%nat -> (0 < sz i)%nat.
  Hypothesis C : consecutive r.
  Notation T := (psum sz n).
  Definition state_at (p : nat) : its :=
    match p with
    | O => (0, 0)
    | S q => match nth_error (pairs sz n) q with
             | Some (i, k) => (Z.of_nat i, Z.of_nat k + 1)
             | None => (Z.of_nat n, 1)
             end
    end.
  Lemma positions_pairs : positions r = map (fun q => position r (fst q) (snd q)) (pairs sz n).
  Proof. unfold positions, group. apply flat_pairs. Qed.
  Lemma positions_len : length (positions r) = T.
  Proof. rewrite positions_pairs, map_length. reflexivity. Qed.
  Lemma positions_at i k : (i < n)%nat -> (k < sz i)%nat -> nth_error (positions r) (psum sz i + k) = Some (position r i k).
  Proof. intros H Hk. rewrite positions_pairs, nth_error_map, pairs_at by assumption. reflexivity. Qed.
  Lemma state_in i k : (i < n)%nat -> (k < sz i)%nat -> state_at (S (psum sz i + k)) = (Z.of_nat i, Z.of_nat k + 1).
  Proof. intros H Hk. cbn [state_at]. rewrite pairs_at by assumption. reflexivity. Qed.
  Lemma state_end : state_at (S T) = (Z.of_nat n, 1).
  Proof. cbn [state_at]. rewrite (proj2 (nth_error_None _ _)); [reflexivity|]. unfold psum. lia. Qed.
  Lemma T_zero : T = O -> n = O.
  Proof. intros E. pose proof (psum_zero sz n P). lia. Qed.

  Definition cur_has_next (p : nat) : bool := (p <? T)%nat.
  Definition cur_has_prev (p : nat) : bool := (2 <=? p)%nat.
  (** shape of a state between the first and the last pair *)
  Lemma cursor_cases p : (p <= S T)%nat -> p = O \/ p = S T \/ exists i k, (i < n)%nat /\ (k < sz i)%nat /\ p = S (psum sz i + k).
  Proof.
    intros H. destruct p as [|q]; [auto|]. destruct (Nat.eq_dec q T) as [->|N]; [auto|]. right. right.
    destruct (pairs_find sz n q ltac:(lia)) as (i & k & A & B & E). exists i, k. subst. auto.
  Qed.
  Lemma last_pair i k : (i < n)%nat -> (k < sz i)%nat -> (S (psum sz i + k) < T <-> (S i < n \/ S k < sz i))%nat.
  Proof.
    intros H Hk. pose proof (psum_le sz (S i) n ltac:(lia)) as L1. rewrite psum_S in L1. split.
    - intros L. destruct (Nat.lt_ge_cases (S k) (sz i)); [auto|]. left. destruct (Nat.eq_dec (S i) n) as [E|]; [|lia]. rewrite <- E, psum_S in L. lia.
    - intros [L|L]; [|lia]. pose proof (psum_le sz (S (S i)) n ltac:(lia)) as L2. rewrite !psum_S in L2. specialize (P (S i) L). lia.
  Qed.
  Lemma has_next_cur p : (p <= S T)%nat -> has_next r (state_at p) DATA = Ok (cur_has_next p).
  Proof.
    intros H. unfold has_next, has_next_one, has_next_many, cur_has_next. rewrite elements_one_ok. cbn [obind].
    destruct (cursor_cases p H) as [->|[->|(i & k & Hi & Hk & ->)]].
    - cbn [state_at fst snd]. destruct (0 <? Z.of_nat n - 1) eqn:E.
      + pose proof (psum_zero sz n P). f_equal. lia.
      + destruct (Nat.eq_dec n 0) as [E0|N0].
        * rewrite E0. cbn [psum pairs seq flat_map length]. pose proof (elements_many_out 0 ltac:(lia)) as EM. cbn [Z.of_nat] in EM. rewrite EM. reflexivity.
        * pose proof (elements_many_in 0 ltac:(lia)) as EM. cbn [Z.of_nat] in EM. rewrite EM. cbn [obind]. f_equal. pose proof (P 0%nat ltac:(lia)). pose proof (psum_zero sz n P). lia.
    - rewrite state_end. cbn [fst snd]. replace (_ <? _ - 1) with false by lia. rewrite elements_many_out by lia. cbn [obind]. f_equal. lia.
    - rewrite state_in by assumption. cbn [fst snd]. pose proof (last_pair i k Hi Hk) as Q.
      destruct (Z.of_nat i <? Z.of_nat n - 1) eqn:E; [f_equal; lia|]. rewrite elements_many_in by exact Hi. cbn [obind]. f_equal. lia.
  Qed.
  Lemma has_prev_cur p : (p <= S T)%nat -> has_previous (state_at p) DATA = cur_has_prev p.
  Proof.
    intros H. unfold has_previous, cur_has_prev.
    destruct (cursor_cases p H) as [->|[->|(i & k & Hi & Hk & ->)]].
    - reflexivity.
    - rewrite state_end. cbn [fst snd]. destruct (Nat.eq_dec n 0) as [E0|N0].
      + rewrite E0. reflexivity.
      + pose proof (psum_zero sz n P). lia.
    - rewrite state_in by assumption. cbn [fst snd]. destruct i as [|i]; [change (psum sz 0) with O; lia|].
      pose proof (psum_zero sz (S i) ltac:(intros; apply P; lia)). lia.
  Qed.
  Lemma next_cur p : (p < T)%nat -> next r (state_at p) DATA = Ok (nth p (positions r) 0, state_at (S p)) /\
    peek_next r (state_at p) DATA = Ok (nth p (positions r) 0).
  Proof.
    intros H. destruct (pairs_find sz n p H) as (i & k & Hi & Hk & E).
    assert (S1 : state_at (S p) = (Z.of_nat i, Z.of_nat k + 1)) by (rewrite E; apply state_in; assumption).
    assert (V1 : nth p (positions r) 0 = position r i k) by (apply nth_error_nth; rewrite E; apply positions_at; assumption).
    rewrite S1, V1.
    assert (PO : it_index_at r (Z.of_nat i) (Z.of_nat k + 1) = Ok (position r i k)) by (apply position_ok; assumption).
    assert (D : (let (one, many) := state_at p in exists m, elements_many r one = Ok m /\
       (many <? m = true /\ one = Z.of_nat i /\ many = Z.of_nat k \/ many <? m = false /\ one + 1 = Z.of_nat i /\ k = O))).
    { destruct p as [|q].
      - cbn [state_at]. assert (i = O /\ k = O) as [-> ->].
        { destruct i as [|i]; [change (psum sz 0) with O in E; lia|]. pose proof (psum_zero sz (S i) ltac:(intros; apply P; lia)). lia. }
        exists (Z.of_nat (sz 0)). split; [apply (elements_many_in 0 Hi)|]. left. repeat split. lia.
      - destruct k as [|k].
        + destruct i as [|i]; [change (psum sz 0) with O in E; lia|]. pose proof (P i ltac:(lia)) as Pi.
          assert (E2 : q = (psum sz i + (sz i - 1))%nat) by (rewrite psum_S in E; lia).
          rewrite E2, state_in by lia. exists (Z.of_nat (sz i)). split; [apply elements_many_in; lia|]. right. repeat split; lia.
        + assert (E2 : q = (psum sz i + k)%nat) by lia. rewrite E2, state_in by lia. exists (Z.of_nat (sz i)).
          split; [apply elements_many_in; lia|]. left. repeat split; lia. }
    unfold next, peek_next. destruct (state_at p) as [one many]. destruct D as (m & Em & D). rewrite Em. cbn [obind].
    destruct D as [(B & -> & ->)|(B & D1 & ->)]; rewrite B; cbn [fst snd].
    - rewrite PO. split; reflexivity.
    - rewrite D1. change (Z.of_nat 0 + 1) with 1 in *. rewrite PO. split; reflexivity.
  Qed.
  Lemma prev_cur p : (2 <= p <= S T)%nat -> previous r (state_at p) DATA = Ok (nth (p - 2) (positions r) 0, state_at (p - 1)) /\
    peek_previous r (state_at p) DATA = Ok (nth (p - 2) (positions r) 0).
  Proof.
    intros H. destruct (pairs_find sz n (p - 2) ltac:(lia)) as (i & k & Hi & Hk & E).
    assert (S1 : state_at (p - 1) = (Z.of_nat i, Z.of_nat k + 1)) by (replace (p - 1)%nat with (S (psum sz i + k)) by lia; apply state_in; assumption).
    assert (V1 : nth (p - 2) (positions r) 0 = position r i k) by (apply nth_error_nth; rewrite E; apply positions_at; assumption).
    rewrite S1, V1.
    assert (PO : it_index_at r (Z.of_nat i) (Z.of_nat k + 1) = Ok (position r i k)) by (apply position_ok; assumption).
    assert (D : state_at p = (Z.of_nat i, Z.of_nat k + 2) \/ (S k = sz i /\ state_at p = (Z.of_nat i + 1, 1))).
    { destruct (Nat.lt_ge_cases (S k) (sz i)) as [L|L].
      - left. replace p with (S (psum sz i + S k)) by lia. rewrite state_in by assumption. f_equal. lia.
      - right. split; [lia|]. destruct (Nat.eq_dec (S i) n) as [E2|N2].
        + replace p with (S T) by (rewrite <- E2, psum_S; lia). rewrite state_end. rewrite <- E2. f_equal. lia.
        + replace p with (S (psum sz (S i) + 0)) by (rewrite psum_S; lia). rewrite state_in; [f_equal; lia|lia|apply P; lia]. }
    unfold previous, peek_previous. destruct D as [->|[Ek ->]].
    - replace (1 <? Z.of_nat k + 2) with true by lia. cbn [obind fst snd]. replace (Z.of_nat k + 2 - 1) with (Z.of_nat k + 1) by lia. rewrite PO. split; reflexivity.
    - replace (1 <? 1) with false by reflexivity. replace (Z.of_nat i + 1 - 1) with (Z.of_nat i) by lia. rewrite elements_many_in by exact Hi. cbn [obind fst snd].
      replace (Z.of_nat (sz i)) with (Z.of_nat k + 1) by lia. rewrite PO. split; reflexivity.
  Qed.
  Lemma back_cur s : to_back r s DATA = Ok (state_at (S T)).
  Proof. unfold to_back. rewrite elements_one_ok, state_end. reflexivity. Qed.
  Lemma nexts_cur k : forall p, (p + k <= T)%nat -> nexts r k (state_at p) = Ok (state_at (p + k)).
  Proof.
    induction k as [|k IH]; intros p H; cbn [nexts]; [f_equal; f_equal; lia|].
    destruct (next_cur p ltac:(lia)) as [-> _]. cbn [obind]. rewrite IH by lia. f_equal. f_equal. lia.
  Qed.
  Lemma to_cur s i : 0 <= i < Z.of_nat T -> to_ r s i DATA = Ok (state_at (S (Z.to_nat i))).
  Proof.
    intros H. unfold to_. change (0, 0) with (state_at 0). destruct (next_cur 0 ltac:(lia)) as [-> _]. cbn [obind].
    rewrite nexts_cur by lia. reflexivity.
  Qed.
  Lemma walk_cur k : forall p fuel, (p + k = T)%nat -> (k < fuel)%nat -> walk fuel r (state_at p) = Ok (skipn p (positions r)).
  Proof.
    induction k as [|k IH]; intros p fuel E F; (destruct fuel as [|f]; [lia|]); cbn [walk]; rewrite has_next_cur by lia; cbn [obind]; unfold cur_has_next.
    - replace (_ <? _)%nat with false by lia. rewrite skipn_all2; [reflexivity|]. rewrite positions_len. lia.
    - replace (_ <? _)%nat with true by lia. destruct (next_cur p ltac:(lia)) as [-> _]. cbn [obind]. rewrite (IH (S p)) by lia. cbn [obind]. f_equal.
      assert (L : (p < length (positions r))%nat) by (rewrite positions_len; lia). revert L. clear. generalize (positions r). intros l. revert p.
      induction l as [|x l IHl]; intros p L; [cbn in L; lia|]. destruct p; [reflexivity|]. cbn [length nth skipn] in *. apply IHl. lia.
  Qed.

  (** the whole interface as operations on a cursor *)
  Inductive move := MNext | MPrev | MFront | MBack | MTo (i : Z).
  Record seen := { seen_move : option Z; seen_next : bool; seen_prev : bool; seen_peek_next : option Z; seen_peek_prev : option Z }.
  Definition observe (mv : option Z) (s : its) : outcome seen :=
    do hn <- has_next r s DATA;
    let hp := has_previous s DATA in
    do pn <- (if hn then do i <- peek_next r s DATA; Ok (Some i) else Ok None);
    do pp <- (if hp then do i <- peek_previous r s DATA; Ok (Some i) else Ok None);
    Ok {| seen_move := mv; seen_next := hn; seen_prev := hp; seen_peek_next := pn; seen_peek_prev := pp |}.
  (** moves guarded as the interface asks; an unguarded move is skipped *)
  Definition do_move (s : its) (m : move) : outcome (option Z * its) :=
    match m with
    | MNext => do b <- has_next r s DATA; if b then do (i, s') <- next r s DATA; Ok (Some i, s') else Ok (None, s)
    | MPrev => if has_previous s DATA then do (i, s') <- previous r s DATA; Ok (Some i, s') else Ok (None, s)
    | MFront => Ok (None, to_front s DATA)
    | MBack => do s' <- to_back r s DATA; Ok (None, s')
    | MTo i => do t <- elements_data r; if (0 <=? i) && (i <? t) then do s' <- to_ r s i DATA; Ok (None, s') else Ok (None, s)
    end.
  Fixpoint moves (s : its) (l : list move) : outcome (list seen) :=
    match l with
    | [] => Ok []
    | m :: l' => do (mv, s') <- do_move s m; do o <- observe mv s'; do os <- moves s' l'; Ok (o :: os)
    end.
  (** the abstract cursor: position p means p pairs have been passed, T + 1 is past the end *)
  Definition acursor_move (all : list Z) (p : nat) (m : move) : option Z * nat :=
    match m with
    | MNext => if (p <? length all)%nat then (Some (nth p all 0), S p) else (None, p)
    | MPrev => if (2 <=? p)%nat then (Some (nth (p - 2) all 0), (p - 1)%nat) else (None, p)
    | MFront => (None, O)
    | MBack => (None, S (length all))
    | MTo i => if (0 <=? i) && (i <? Z.of_nat (length all)) then (None, S (Z.to_nat i)) else (None, p)
    end.
  Definition acursor_see (all : list Z) (mv : option Z) (p : nat) : seen :=
    {| seen_move := mv; seen_next := (p <? length all)%nat; seen_prev := (2 <=? p)%nat;
       seen_peek_next := if (p <? length all)%nat then Some (nth p all 0) else None;
       seen_peek_prev := if (2 <=? p)%nat then Some (nth (p - 2) all 0) else None |}.
  Fixpoint acursor (all : list Z) (p : nat) (l : list move) : list seen :=
    match l with
    | [] => []
    | m :: l' => let (mv, p') := acursor_move all p m in acursor_see all mv p' :: acursor all p' l'
    end.
  Lemma observe_cur mv p : (p <= S T)%nat -> observe mv (state_at p) = Ok (acursor_see (positions r) mv p).
  Proof.
    intros H. unfold observe. rewrite has_next_cur, has_prev_cur by exact H. cbn [obind]. unfold acursor_see, cur_has_next, cur_has_prev. rewrite positions_len.
    destruct (p <? T)%nat eqn:E1; [destruct (next_cur p ltac:(lia)) as [_ ->]|]; cbn [obind];
      (destruct (2 <=? p)%nat eqn:E2; [destruct (prev_cur p ltac:(lia)) as [_ ->]|]); reflexivity.
  Qed.
  Lemma elements_data_ok : elements_data r = Ok (Z.of_nat T).
  Proof.
    clear P C. unfold elements_data. destruct (o_sizes r) as [s|] eqn:E.
    - f_equal. pose proof (v_sizes r V s E) as F.
      assert (G : forall k, (k <= length s)%nat -> Z.of_nat (psum sz k) = zsum (firstn k s)).
      { induction k as [|k IH]; intros Hk; [reflexivity|]. rewrite psum_S, Nat2Z.inj_add, IH by lia.
        assert (A : forall (l : list Z) j, (j < length l)%nat -> zsum (firstn (S j) l) = zsum (firstn j l) + nth j l 0).
        { clear. induction l as [|x l IHl]; intros j Hj; [cbn in Hj; lia|]. destruct j; [cbn; lia|]. cbn [firstn zsum nth]. cbn [length] in Hj. specialize (IHl j ltac:(lia)). cbn [firstn] in IHl. rewrite IHl. lia. }
        rewrite A by lia. f_equal. unfold group_size. rewrite E. rewrite Forall_forall in F. specialize (F (nth k s 0) (nth_In _ _ Hk)). lia. }
      rewrite G by (unfold ones; rewrite E; lia). unfold ones. rewrite E. rewrite firstn_all. reflexivity.
    - rewrite elements_one_ok. f_equal. assert (G : forall k, psum sz k = k). { induction k as [|k IH]; [reflexivity|]. rewrite psum_S, IH. unfold group_size. rewrite E. lia. } rewrite G. reflexivity.
  Qed.
  Lemma move_cur p m : (p <= S T)%nat -> let (mv, p') := acursor_move (positions r) p m in
    do_move (state_at p) m = Ok (mv, state_at p') /\ (p' <= S T)%nat.
  Proof.
    intros H. destruct m; cbn [acursor_move do_move].
    - rewrite has_next_cur by exact H. cbn [obind]. unfold cur_has_next. rewrite positions_len. destruct (p <? T)%nat eqn:E; [|split; [reflexivity|exact H]].
      destruct (next_cur p ltac:(lia)) as [-> _]. split; [reflexivity|lia].
    - rewrite has_prev_cur by exact H. unfold cur_has_prev. destruct (2 <=? p)%nat eqn:E; [|split; [reflexivity|exact H]].
      destruct (prev_cur p ltac:(lia)) as [-> _]. split; [reflexivity|lia].
    - split; [reflexivity|lia].
    - rewrite back_cur, positions_len. split; [reflexivity|lia].
    - rewrite elements_data_ok, positions_len. cbn [obind]. destruct ((0 <=? i) && _) eqn:E; [|split; [reflexivity|exact H]].
      rewrite to_cur by lia. split; [reflexivity|lia].
  Qed.
  Lemma moves_cur l : forall p, (p <= S T)%nat -> moves (state_at p) l = Ok (acursor (positions r) p l).
  Proof.
    induction l as [|m l IH]; intros p H; [reflexivity|]. cbn [moves acursor]. pose proof (move_cur p m H) as M.
    destruct (acursor_move (positions r) p m) as [mv p']. destruct M as [-> H']. cbn [obind]. rewrite observe_cur by exact H'. cbn [obind].
    rewrite IH by exact H'. reflexivity.
  Qed.
End Rel.
