(** Base layer: outcomes, byte strings, list and association-list helpers.

    Nothing in this file models conduit code except where a comment cites it;
    it is the vocabulary the model is written in. *)
From Coq Require Export String Ascii.
From Coq Require Export List Arith ZArith Lia Bool.
From Coq Require Export ZifyBool ZifyNat ZifyN.
Export ListNotations.
Local Open Scope list_scope.

(** Result of running a C++ function:
    [Ok a]  - returned [a];
    [Err]   - CONDUIT_ERROR: the default handler throws conduit::Error
              (src/libs/conduit/conduit_utils.cpp 425-446);
    [UB]    - undefined behaviour (out of bounds access, null or dangling
              dereference);
    [Fuel]  - the fuelled recursion ran out; "Fuel for every fuel" is how
              non-termination is stated. *)
Inductive outcome (A : Type) : Type :=
| Ok (a : A)
| Err
| UB
| Fuel.
Arguments Ok {A} a.
Arguments Err {A}.
Arguments UB {A}.
Arguments Fuel {A}.

Definition obind {A B} (o : outcome A) (f : A -> outcome B) : outcome B :=
  match o with
  | Ok a => f a
  | Err => Err
  | UB => UB
  | Fuel => Fuel
  end.
Notation "'do' x <- o ; k" := (obind o (fun x => k))
  (at level 200, x pattern, right associativity).

Definition omap_ok {A B} (f : A -> B) (o : outcome A) : outcome B :=
  do a <- o; Ok (f a).

(** Dereferencing something that must be there: absent = UB. *)
Definition deref {A} (o : option A) : outcome A :=
  match o with Some a => Ok a | None => UB end.

(** std::string: a list of bytes. *)
Definition str := list ascii.
Definition L (s : string) : str := list_ascii_of_string s.

Definition str_eqb (a b : str) : bool :=
  if list_eq_dec ascii_dec a b then true else false.

Lemma str_eqb_eq a b : str_eqb a b = true <-> a = b.
Proof. unfold str_eqb. destruct (list_eq_dec ascii_dec a b); split; congruence. Qed.
Lemma str_eqb_refl a : str_eqb a a = true.
Proof. apply str_eqb_eq; reflexivity. Qed.
Lemma str_eqb_neq a b : str_eqb a b = false <-> a <> b.
Proof. unfold str_eqb. destruct (list_eq_dec ascii_dec a b); split; congruence. Qed.

Lemma str_eqb_spec a b : reflect (a = b) (str_eqb a b).
Proof.
  destruct (str_eqb a b) eqn:E.
  - left; apply str_eqb_eq; exact E.
  - right; apply str_eqb_neq; exact E.
Qed.

(** std::map<std::string, index_t>: association list, at most one entry per
    key (see [keys_nodup] in the invariant).  Iteration order is not used in any
    observable way except short-circuiting. *)
Fixpoint mget {V} (m : list (str * V)) (k : str) : option V :=
  match m with
  | [] => None
  | (k', v) :: r => if str_eqb k k' then Some v else mget r k
  end.
(** operator[] used as an lvalue: overwrite or insert. *)
Fixpoint mset {V} (m : list (str * V)) (k : str) (v : V) : list (str * V) :=
  match m with
  | [] => [(k, v)]
  | (k', v') :: r => if str_eqb k k' then (k', v) :: r else (k', v') :: mset r k v
  end.
(** erase(key) *)
Fixpoint mdel {V} (m : list (str * V)) (k : str) : list (str * V) :=
  match m with
  | [] => []
  | (k', v') :: r => if str_eqb k k' then mdel r k else (k', v') :: mdel r k
  end.

Lemma mget_mset_same {V} (m : list (str * V)) k v : mget (mset m k v) k = Some v.
Proof.
  induction m as [|[k' v'] r IH]; simpl.
  - rewrite str_eqb_refl; reflexivity.
  - destruct (str_eqb k k') eqn:E; simpl; rewrite E; [reflexivity|exact IH].
Qed.
Lemma mget_mset_other {V} (m : list (str * V)) k k2 v :
  k2 <> k -> mget (mset m k v) k2 = mget m k2.
Proof.
  intro Hne. induction m as [|[k' v'] r IH]; simpl.
  - destruct (str_eqb_spec k2 k); congruence.
  - destruct (str_eqb_spec k k') as [->|Hk]; simpl.
    + destruct (str_eqb_spec k2 k'); [congruence|reflexivity].
    + destruct (str_eqb_spec k2 k'); [reflexivity|exact IH].
Qed.
Lemma mget_mset {V} (m : list (str * V)) k k2 v :
  mget (mset m k v) k2 = if str_eqb k2 k then Some v else mget m k2.
Proof.
  destruct (str_eqb_spec k2 k) as [->|H].
  - apply mget_mset_same.
  - apply mget_mset_other; exact H.
Qed.
Lemma mget_mdel {V} (m : list (str * V)) k k2 :
  mget (mdel m k) k2 = if str_eqb k2 k then None else mget m k2.
Proof.
  induction m as [|[k' v'] r IH]; simpl.
  - destruct (str_eqb k2 k); reflexivity.
  - destruct (str_eqb_spec k k') as [->|Hk]; simpl.
    + rewrite IH. destruct (str_eqb_spec k2 k'); reflexivity.
    + destruct (str_eqb_spec k2 k') as [->|Hk2].
      * destruct (str_eqb_spec k' k); [congruence|reflexivity].
      * exact IH.
Qed.

Lemma mget_In {V} (m : list (str * V)) k v : mget m k = Some v -> In (k, v) m.
Proof.
  induction m as [|[k' v'] r IH]; simpl; [discriminate|].
  destruct (str_eqb_spec k k') as [->|H]; intro E.
  - injection E as ->. left; reflexivity.
  - right; apply IH; exact E.
Qed.
Lemma mget_None_notin {V} (m : list (str * V)) k :
  mget m k = None <-> ~ In k (map fst m).
Proof.
  induction m as [|[k' v'] r IH]; simpl.
  - split; [intros _ []|reflexivity].
  - destruct (str_eqb_spec k k') as [->|H].
    + split; [discriminate|]. intro N; exfalso; apply N; left; reflexivity.
    + rewrite IH. split.
      * intros N [E|I]; [congruence|apply N; exact I].
      * intros N I; apply N; right; exact I.
Qed.
Lemma mget_Some_In_nodup {V} (m : list (str * V)) k v :
  NoDup (map fst m) -> In (k, v) m -> mget m k = Some v.
Proof.
  induction m as [|[k' v'] r IH]; simpl; [intros _ []|].
  intros ND [E|I].
  - injection E as -> ->. rewrite str_eqb_refl; reflexivity.
  - inversion ND as [|? ? Hn ND']; subst.
    destruct (str_eqb_spec k k') as [->|H].
    + exfalso; apply Hn. apply (in_map fst) in I; exact I.
    + apply IH; assumption.
Qed.
Lemma in_keys_mset {V} (m : list (str * V)) k v x :
  In x (map fst (mset m k v)) <-> x = k \/ In x (map fst m).
Proof.
  induction m as [|[k' v'] r IH]; simpl.
  - split; [intros [E|[]]; left; congruence|intros [E|[]]; left; congruence].
  - destruct (str_eqb_spec k k') as [->|H]; simpl.
    + split; [intros [E|I]; auto|intros [E|[E|I]]; auto].
    + rewrite IH. split; [intros [E|[E|I]]; auto|intros [E|[E|I]]; auto].
Qed.
Lemma nodup_mset {V} (m : list (str * V)) k v :
  NoDup (map fst m) -> NoDup (map fst (mset m k v)).
Proof.
  induction m as [|[k' v'] r IH]; simpl; intro ND.
  - constructor; [intros []|constructor].
  - inversion ND as [|? ? Hn ND']; subst.
    destruct (str_eqb_spec k k') as [->|H]; simpl.
    + exact ND.
    + constructor; [|apply IH; exact ND'].
      rewrite in_keys_mset. intros [E|I]; [congruence|contradiction].
Qed.
Lemma in_keys_mdel {V} (m : list (str * V)) k x :
  In x (map fst (mdel m k)) <-> x <> k /\ In x (map fst m).
Proof.
  induction m as [|[k' v'] r IH]; simpl.
  - split; [intros []|intros [_ []]].
  - destruct (str_eqb_spec k k') as [->|H]; simpl; rewrite IH.
    + split; [intros [A B]; auto|intros [A [B|B]]; [congruence|auto]].
    + split.
      * intros [E|[A B]]; [split; [congruence|auto]|auto].
      * intros [A [B|B]]; auto.
Qed.
Lemma nodup_mdel {V} (m : list (str * V)) k :
  NoDup (map fst m) -> NoDup (map fst (mdel m k)).
Proof.
  induction m as [|[k' v'] r IH]; simpl; intro ND; [constructor|].
  inversion ND as [|? ? Hn ND']; subst.
  destruct (str_eqb_spec k k') as [->|H]; simpl.
  - apply IH; exact ND'.
  - constructor; [|apply IH; exact ND'].
    rewrite in_keys_mdel. intros [_ I]; contradiction.
Qed.

(** std::vector access with a signed index cast to size_t: a negative index is
    a huge unsigned one, hence absent. *)
Definition znth {A} (l : list A) (i : Z) : option A :=
  if (i <? 0)%Z then None else nth_error l (Z.to_nat i).

(** vector.erase(begin() + i) *)
Fixpoint erase_nth {A} (l : list A) (i : nat) : list A :=
  match l, i with
  | [], _ => []
  | _ :: r, O => r
  | x :: r, S i' => x :: erase_nth r i'
  end.
(** v[i] = x *)
Fixpoint set_nth {A} (l : list A) (i : nat) (x : A) : list A :=
  match l, i with
  | [], _ => []
  | _ :: r, O => x :: r
  | y :: r, S i' => y :: set_nth r i' x
  end.

Lemma length_set_nth {A} (l : list A) i x : List.length (set_nth l i x) = List.length l.
Proof. revert i; induction l as [|y r IH]; intros [|i]; simpl; auto. Qed.
Lemma nth_error_set_nth_same {A} (l : list A) i x :
  i < List.length l -> nth_error (set_nth l i x) i = Some x.
Proof.
  revert i; induction l as [|y r IH]; intros [|i]; simpl; intro H; try lia; auto.
  apply IH; lia.
Qed.
Lemma nth_error_set_nth_other {A} (l : list A) i j x :
  i <> j -> nth_error (set_nth l i x) j = nth_error l j.
Proof.
  revert i j; induction l as [|y r IH]; intros [|i] [|j]; simpl; intro H; auto; try lia.
Qed.
Lemma length_erase_nth {A} (l : list A) i :
  i < List.length l -> List.length (erase_nth l i) = List.length l - 1.
Proof.
  revert i; induction l as [|y r IH]; intros [|i]; simpl; intro H; try lia.
  rewrite IH by lia. destruct r; simpl in *; lia.
Qed.
Lemma nth_error_erase_nth {A} (l : list A) i j :
  nth_error (erase_nth l i) j = if j <? i then nth_error l j else nth_error l (S j).
Proof.
  revert i j; induction l as [|y r IH]; intros i j.
  - simpl. destruct i, j; simpl; try reflexivity; destruct (_ <? _); reflexivity.
  - destruct i as [|i]; simpl.
    + reflexivity.
    + destruct j as [|j]; simpl; [reflexivity|].
      rewrite IH. change (S j <? S i) with (j <? i). reflexivity.
Qed.
Lemma erase_nth_app {A} (l1 : list A) x l2 :
  erase_nth (l1 ++ x :: l2) (List.length l1) = l1 ++ l2.
Proof. induction l1 as [|y r IH]; simpl; congruence. Qed.
Lemma set_nth_app {A} (l1 : list A) x y l2 :
  set_nth (l1 ++ x :: l2) (List.length l1) y = l1 ++ y :: l2.
Proof. induction l1 as [|z r IH]; simpl; congruence. Qed.

(** Generic facts about [combine]. *)
Lemma combine_app {A B} (a1 a2 : list A) (b1 b2 : list B) :
  List.length a1 = List.length b1 ->
  combine (a1 ++ a2) (b1 ++ b2) = combine a1 b1 ++ combine a2 b2.
Proof.
  revert b1; induction a1 as [|x a IH]; intros [|y b]; simpl; intro H; try discriminate; auto.
  f_equal. apply IH. lia.
Qed.
Lemma combine_erase_nth {A B} (a : list A) (b : list B) i :
  combine (erase_nth a i) (erase_nth b i) = erase_nth (combine a b) i.
Proof.
  revert b i; induction a as [|x a IH]; intros b i.
  - destruct i; simpl; [reflexivity|reflexivity].
  - destruct b as [|y b]; destruct i as [|i]; simpl; try reflexivity.
    + destruct a; reflexivity.
    + f_equal; apply IH.
Qed.

Lemma Forall2_len {A B} (R : A -> B -> Prop) l1 l2 : Forall2 R l1 l2 -> length l1 = length l2.
Proof. induction 1; simpl; congruence. Qed.
