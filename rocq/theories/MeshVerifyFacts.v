(** Checks of meshes: what each check returns, and the flag it leaves. *)
From Coq Require Import ZArith Lia.
From Verif Require Import Base DType SpecTree Mem Node Number ArrayOps NumConv Json MeshVerify MeshVerifySpec.
Import ListNotations.

Definition flag (i : itree) : option bool :=
  match mget (ikids i) (L "valid") with Some (IFlag b) => Some b | _ => None end.
Definition is_flag (i : itree) : Prop := exists b, i = IFlag b.
Fixpoint tidy (i : itree) : Prop :=
  match i with
  | IObj es => (fix go l := match l with [] => True | (k, c) :: r => (k = L "valid" -> is_flag c) /\ tidy c /\ go r end) es
  | _ => True
  end.
Fixpoint tidys (l : list (str * itree)) : Prop :=
  match l with [] => True | (k, c) :: r => (k = L "valid" -> is_flag c) /\ tidy c /\ tidys r end.
Lemma tidy_kids i : tidy i -> tidys (ikids i).
Proof. destruct i as [|es| |]; cbn [ikids]; try exact (fun _ => I). intro H. induction es as [|[k c] r IH]; [exact H|]. destruct H as [A [B C]]. split; [exact A|split; [exact B|exact (IH C)]]. Qed.
Lemma tidys_tidy l : tidys l -> tidy (IObj l).
Proof. intro H. induction l as [|[k c] r IH]; [exact H|]. destruct H as [A [B C]]. split; [exact A|split; [exact B|exact (IH C)]]. Qed.
Lemma tidys_get l k c : tidys l -> mget l k = Some c -> tidy c /\ (k = L "valid" -> is_flag c).
Proof.
  intros H G. apply mget_In in G. revert H G. induction l as [|[k' c'] r IH]; [intros _ []|].
  intros [A [B C]] [E|E]; [inversion E; subst; auto|exact (IH C E)].
Qed.
Lemma tidys_set l k c : tidys l -> tidy c -> (k = L "valid" -> is_flag c) -> tidys (mset l k c).
Proof.
  intros H T F. induction l as [|[k' c'] r IH]; [cbn; auto|]. destruct H as [A [B C]]. cbn.
  destruct (str_eqb k k') eqn:E; cbn; [|auto].
  apply str_eqb_eq in E. subst. auto.
Qed.
Lemma tidy_iget i k : tidy i -> tidy (iget i k).
Proof. intro H. unfold iget. destruct (mget (ikids i) k) eqn:G; [|exact I]. exact (proj1 (tidys_get _ _ _ (tidy_kids _ H) G)). Qed.
Lemma tidy_iput i k c : tidy i -> tidy c -> (k = L "valid" -> is_flag c) -> tidy (iput i k c).
Proof. intros H T F. apply tidys_tidy. apply tidys_set; [apply tidy_kids, H|exact T|exact F]. Qed.
Lemma flag_iput i k c : k <> L "valid" -> flag (iput i k c) = flag i.
Proof. intro K. unfold flag, iput. cbn [ikids]. rewrite mget_mset_other; [reflexivity|congruence]. Qed.
Lemma iget_iput_same i k c : iget (iput i k c) k = c.
Proof. unfold iget, iput. cbn [ikids]. rewrite mget_mset_same. reflexivity. Qed.
Lemma iget_iput_other i k q c : q <> k -> iget (iput i k c) q = iget i q.
Proof. intro K. unfold iget, iput. cbn [ikids]. rewrite mget_mset_other; [reflexivity|congruence]. Qed.

Definition upto (i : itree) : bool := match flag i with Some b => b | None => true end.
Lemma validation_ok i b : tidy i ->
  exists j, validation i b = Ok j /\ tidy j /\ flag j = Some (b && upto i) /\ (forall q, q <> L "valid" -> iget j q = iget i q).
Proof.
  intro T. assert (P : forall x, tidy (iput i (L "valid") (IFlag x)) /\ flag (iput i (L "valid") (IFlag x)) = Some x /\
    (forall q, q <> L "valid" -> iget (iput i (L "valid") (IFlag x)) q = iget i q)).
  { intro x. split; [apply tidy_iput; [exact T|exact I|intros _; exists x; reflexivity]|].
    split; [unfold flag, iput; cbn [ikids]; rewrite mget_mset_same; reflexivity|]. intros q Q. apply iget_iput_other, Q. }
  unfold validation, upto, flag. destruct (mget (ikids i) (L "valid")) as [c|] eqn:G.
  - destruct (proj2 (tidys_get _ _ _ (tidy_kids _ T) G) eq_refl) as [x ->].
    eexists. split; [reflexivity|]. destruct (P (b && x)) as [A [B C]]. auto.
  - eexists. split; [reflexivity|]. destruct (P b) as [A [B C]]. rewrite Bool.andb_true_r. auto.
Qed.

(** * What checks return *)
Definition ok (v : V) (b : bool) : Prop := forall i, tidy i -> exists i', v i = Ok (b, i') /\ tidy i' /\ (b = true -> upto i = true -> upto i' = true).
Definition keeps (v : V) (b : bool) : Prop := forall i, tidy i -> exists i', v i = Ok (b, i') /\ tidy i' /\ flag i' = flag i.
Lemma keeps_ok v b : keeps v b -> ok v b.
Proof. intros H i T. destruct (H i T) as [i' [A [B C]]]. exists i'. split; [exact A|split; [exact B|]]. unfold upto. rewrite C. auto. Qed.
Lemma keeps_eq v b c : keeps v b -> b = c -> keeps v c. Proof. intros H <-. exact H. Qed.
Lemma ok_eq v b c : ok v b -> b = c -> ok v c. Proof. intros H <-. exact H. Qed.
Lemma keeps_ret b : keeps (ret b) b.
Proof. intros i T. exists i. auto. Qed.
Lemma keeps_put k c v b : k <> L "valid" -> tidy c -> keeps v b -> keeps (tell (fun i => iput i k c) v) b.
Proof.
  intros K T H i Ti. destruct (H (iput i k c)) as [i' [A [B C]]]; [apply tidy_iput; [exact Ti|exact T|congruence]|].
  exists i'. split; [exact A|split; [exact B|]]. rewrite C. apply flag_iput, K.
Qed.
Ltac nv := let H := fresh in intro H; discriminate H.
Lemma keeps_info v b : keeps v b -> keeps (tell log_info v) b.
Proof. apply keeps_put; [nv|exact I]. Qed.
Lemma keeps_error v b : keeps v b -> keeps (tell log_error v) b.
Proof. apply keeps_put; [nv|exact I]. Qed.
Lemma keeps_optional v b : keeps v b -> keeps (tell log_optional v) b.
Proof. apply keeps_put; [nv|exact I]. Qed.
Lemma ok_tell f v b : (forall i, tidy i -> tidy (f i) /\ flag (f i) = flag i) -> ok v b -> ok (tell f v) b.
Proof.
  intros F H i T. destruct (F i T) as [A B]. destruct (H _ A) as [i' [C [D E]]]. exists i'. split; [exact C|split; [exact D|]].
  unfold upto in E. rewrite B in E. exact E.
Qed.
Lemma keeps_tell f v b : (forall i, tidy i -> tidy (f i) /\ flag (f i) = flag i) -> keeps v b -> keeps (tell f v) b.
Proof.
  intros F H i T. destruct (F i T) as [A B]. destruct (H _ A) as [i' [C [D E]]]. exists i'. rewrite <- B. auto.
Qed.
Lemma log_fine k i : k <> L "valid" -> tidy i -> tidy (iput i k IMsgs) /\ flag (iput i k IMsgs) = flag i.
Proof. intros K T. split; [apply tidy_iput; [exact T|exact I|congruence]|apply flag_iput, K]. Qed.
Lemma info_fine i : tidy i -> tidy (log_info i) /\ flag (log_info i) = flag i. Proof. apply log_fine. nv. Qed.
Lemma error_fine i : tidy i -> tidy (log_error i) /\ flag (log_error i) = flag i. Proof. apply log_fine. nv. Qed.
Lemma optional_fine i : tidy i -> tidy (log_optional i) /\ flag (log_optional i) = flag i. Proof. apply log_fine. nv. Qed.
Lemma keeps_fails : keeps fails false.
Proof. apply keeps_error, keeps_ret. Qed.
Lemma keeps_bind a k x y : keeps a x -> keeps (k x) y -> keeps (bindV a k) y.
Proof.
  intros A K i T. destruct (A i T) as [i1 [A1 [A2 A3]]]. destruct (K i1 A2) as [i2 [B1 [B2 B3]]].
  exists i2. unfold bindV. rewrite A1. cbn [obind fst snd]. rewrite B1. split; [reflexivity|split; [exact B2|congruence]].
Qed.
Lemma ok_bind a k x y : ok a x -> ok (k x) y -> (y = true -> x = true) -> ok (bindV a k) y.
Proof.
  intros A K Y i T. destruct (A i T) as [i1 [A1 [A2 A3]]]. destruct (K i1 A2) as [i2 [B1 [B2 B3]]].
  exists i2. unfold bindV. rewrite A1. cbn [obind fst snd]. rewrite B1. split; [reflexivity|split; [exact B2|auto]].
Qed.
Lemma ok_kb a k x y : keeps a x -> ok (k x) y -> ok (bindV a k) y.
Proof.
  intros A K i T. destruct (A i T) as [i1 [A1 [A2 A3]]]. destruct (K i1 A2) as [i2 [B1 [B2 B3]]].
  exists i2. unfold bindV. rewrite A1. cbn [obind fst snd]. rewrite B1. split; [reflexivity|split; [exact B2|]].
  unfold upto in *. rewrite A3 in B3. exact B3.
Qed.
Lemma keeps_at k v b : k <> L "valid" -> ok v b -> keeps (at_ k v) b.
Proof.
  intros K H i T. destruct (H _ (tidy_iget i k T)) as [i' [A [B _]]].
  exists (iput i k i'). unfold at_. rewrite A. cbn [obind fst snd]. split; [reflexivity|].
  split; [apply tidy_iput; [exact T|exact B|congruence]|apply flag_iput, K].
Qed.
Lemma ok_valid b : ok (valid b) b.
Proof.
  intros i T. destruct (validation_ok i b T) as [j [A [B [C _]]]]. exists j. unfold valid. rewrite A.
  split; [reflexivity|split; [exact B|]]. intros -> U. unfold upto at 1. rewrite C, U. reflexivity.
Qed.
Lemma ok_finish v b : ok v b -> ok (finish v) b.
Proof. intro H. apply ok_bind with (x := b); [exact H|apply ok_valid|auto]. Qed.
Lemma ok_reset v b : ok v b -> ok (reset v) b.
Proof. intros H i T. destruct (H INone I) as [i' [A [B C]]]. exists i'. split; [exact A|split; [exact B|]]. auto. Qed.
(** a check that starts afresh leaves its result as flag *)
Lemma fresh_flag v b : ok v b -> forall i, exists i', reset (finish v) i = Ok (b, i') /\ tidy i' /\ flag i' = Some b.
Proof.
  intros H i. destruct (H INone I) as [j [A [B C]]]. destruct (validation_ok j b B) as [i' [D [E [F _]]]].
  exists i'. unfold reset, finish, bindV, valid. rewrite A. cbn [obind fst snd]. rewrite D. split; [reflexivity|split; [exact E|]].
  rewrite F. destruct b; [rewrite (C eq_refl eq_refl)|]; reflexivity.
Qed.
Lemma ok_andb a b x y : ok a x -> (x = true -> ok b y) -> ok (andb_ a b) (x && y).
Proof.
  intros A B. unfold andb_. destruct x.
  - apply ok_bind with (x := true); auto.
  - apply ok_bind with (x := false); [exact A|apply keeps_ok, keeps_ret|auto].
Qed.
Lemma keeps_andb a b x y : keeps a x -> (x = true -> keeps b y) -> keeps (andb_ a b) (x && y).
Proof.
  intros A B. unfold andb_. destruct x; [apply keeps_bind with (x := true); auto|].
  apply keeps_bind with (x := false); [exact A|apply keeps_ret].
Qed.
Lemma ok_also a b x y : ok a x -> ok b y -> ok (also a b) (x && y).
Proof.
  intros A B. unfold also. destruct x, y.
  - apply ok_bind with (x := true); auto. apply ok_bind with (x := true); auto. apply keeps_ok, keeps_ret.
  - apply ok_bind with (x := true); auto. apply ok_bind with (x := false); auto. apply keeps_ok, keeps_ret.
  - apply ok_bind with (x := false); auto. apply ok_bind with (x := true); auto. apply keeps_ok, keeps_ret.
  - apply ok_bind with (x := false); auto. apply ok_bind with (x := false); auto. apply keeps_ok, keeps_ret.
Qed.
Lemma keeps_also a b x y : keeps a x -> keeps b y -> keeps (also a b) (x && y).
Proof. intros A B. unfold also. apply keeps_bind with (x := x); [exact A|]. apply keeps_bind with (x := y); [exact B|]. apply keeps_ret. Qed.
Lemma ok_all_nil : ok (all_ []) true. Proof. apply keeps_ok, keeps_ret. Qed.
Lemma ok_all_cons v l x y : ok v x -> ok (all_ l) y -> ok (all_ (v :: l)) (x && y).
Proof. apply ok_also. Qed.
Lemma ok_each {A} (f : A -> V) g l : (forall x, In x l -> ok (f x) (g x)) -> ok (each f l) (forallb g l).
Proof.
  induction l as [|a l IH]; intro H; [apply ok_all_nil|]. cbn [forallb]. apply ok_also; [apply H; left; reflexivity|].
  apply IH. intros x X. apply H. right. exact X.
Qed.
Lemma keeps_each {A} (f : A -> V) g l : (forall x, In x l -> keeps (f x) (g x)) -> keeps (each f l) (forallb g l).
Proof.
  induction l as [|a l IH]; intro H; [apply keeps_ret|]. cbn [forallb]. apply keeps_also; [apply H; left; reflexivity|].
  apply IH. intros x X. apply H. right. exact X.
Qed.
Lemma ok_when c v b : (c = true -> ok v b) -> ok (when c v) (negb c || b).
Proof. intro H. destruct c; [exact (H eq_refl)|apply keeps_ok, keeps_ret]. Qed.
Lemma keeps_when c v b : (c = true -> keeps v b) -> keeps (when c v) (negb c || b).
Proof. intro H. destruct c; [exact (H eq_refl)|apply keeps_ret]. Qed.
Lemma keeps_test (c : bool) : keeps (if c then ret true else fails) c.
Proof. destruct c; [apply keeps_ret|apply keeps_fails]. Qed.
Lemma keeps_test_info (c : bool) : keeps (if c then tell log_info (ret true) else fails) c.
Proof. destruct c; [apply keeps_info, keeps_ret|apply keeps_fails]. Qed.

(** * Fields *)
Lemma has_given n f : has n f = given f n. Proof. reflexivity. Qed.
Lemma int_eq n : is_integer n = int_ n. Proof. destruct n as [| | | |t vs]; try reflexivity. destruct t; reflexivity. Qed.
Lemma num_eq n : is_number n = num_ n. Proof. destruct n as [| | | |t vs]; try reflexivity. destruct t; reflexivity. Qed.
Lemma str_eq n : is_string n = string_ n. Proof. reflexivity. Qed.
Lemma obj_eq n : object_like false false 0 n = object_ n.
Proof. destruct n as [|[|e es]|[|t ts]| |]; reflexivity. Qed.
Lemma numel_eq n : numel n = len n. Proof. reflexivity. Qed.
Lemma must_ext f p q n : (forall c, p c = q c) -> must f p n = must f q n.
Proof. intro H. unfold must. destruct (kid n f); auto. Qed.
Lemma keeps_exists n f : f <> L "valid" -> keeps (exists_ n f) (given f n).
Proof.
  intro F. unfold exists_. apply keeps_bind with (x := given f n); [change (has n f) with (given f n); apply keeps_test|].
  apply keeps_at; [exact F|apply ok_valid].
Qed.
Lemma touch_fine f i : f <> L "valid" -> tidy i -> tidy (iput i f (iget i f)) /\ flag (iput i f (iget i f)) = flag i.
Proof. intros F T. split; [apply tidy_iput; [exact T|apply tidy_iget, T|congruence]|apply flag_iput, F]. Qed.
Lemma keeps_typed p n f : f <> L "valid" -> keeps (typed p n f) (must f p n).
Proof.
  intro F. unfold typed. apply keeps_bind with (x := given f n).
  - apply keeps_tell; [intros i T; apply touch_fine; [exact F|exact T]|apply keeps_exists, F].
  - apply keeps_bind with (x := must f p n).
    + unfold must, given. destruct (kid n f) as [c|]; [apply keeps_test|apply keeps_ret].
    + apply keeps_at; [exact F|apply ok_valid].
Qed.
Lemma keeps_int n f : f <> L "valid" -> keeps (v_int n f) (must f int_ n).
Proof. intro F. eapply keeps_eq; [apply keeps_typed, F|apply must_ext, int_eq]. Qed.
Lemma keeps_num n f : f <> L "valid" -> keeps (v_num n f) (must f num_ n).
Proof. intro F. eapply keeps_eq; [apply keeps_typed, F|apply must_ext, num_eq]. Qed.
Lemma keeps_str n f : f <> L "valid" -> keeps (v_str n f) (must f string_ n).
Proof. intro F. apply keeps_typed, F. Qed.
Lemma keeps_obj n f : f <> L "valid" -> keeps (v_obj n f) (must f object_ n).
Proof. intro F. eapply keeps_eq; [apply keeps_typed, F|apply must_ext, obj_eq]. Qed.
Lemma ok_self p n : ok (typed_self p n) (p n).
Proof. apply ok_finish, keeps_ok, keeps_test. Qed.
Lemma keeps_enum n f ws : f <> L "valid" -> keeps (v_enum n f ws) (must f (word ws) n).
Proof.
  intro F. unfold v_enum. apply keeps_bind with (x := must f string_ n); [apply keeps_str, F|].
  apply keeps_bind with (x := must f (word ws) n); [|apply keeps_at; [exact F|apply ok_valid]].
  unfold must. destruct (kid n f) as [c|]; [|apply keeps_ret].
  destruct c; try (apply keeps_ret). cbn [string_]. apply keeps_test_info.
Qed.
Lemma ok_enum_self n ws : ok (v_enum_self n ws) (word ws n).
Proof.
  unfold v_enum_self. apply ok_bind with (x := string_ n); [apply ok_self| |destruct n; cbn; congruence].
  apply ok_finish. apply keeps_ok. destruct n; try apply keeps_ret. apply keeps_test_info.
Qed.
Lemma ok_name ws n : ok (v_name ws n) (word ws n).
Proof. apply ok_reset, ok_finish, ok_enum_self. Qed.
Lemma keeps_by v g n f : f <> L "valid" -> (forall c, kid n f = Some c -> ok (v c) (g c)) -> keeps (v_by v n f) (must f g n).
Proof.
  intros F H. unfold v_by. apply keeps_bind with (x := given f n).
  - apply keeps_tell; [intros i T; apply touch_fine; [exact F|exact T]|apply keeps_exists, F].
  - apply keeps_bind with (x := must f g n); [|apply keeps_at; [exact F|apply ok_valid]].
    unfold must, given. destruct (kid n f) as [c|] eqn:K; [|apply keeps_ret].
    apply keeps_bind with (x := g c); [apply keeps_at; [exact F|apply H; reflexivity]|].
    apply keeps_tell; [|apply keeps_ret]. intros i T. destruct (g c); [apply info_fine, T|apply error_fine, T].
Qed.
Lemma keeps_need o n k b : o = Ok n -> keeps (k n) b -> keeps (need o k) b.
Proof. intros -> H. exact H. Qed.
Lemma ok_need o n k b : o = Ok n -> ok (k n) b -> ok (need o k) b.
Proof. intros -> H. exact H. Qed.
Lemma fetch_kid n f c : kid n f = Some c -> fetch n f = Ok c.
Proof. intro K. unfold fetch. rewrite K. reflexivity. Qed.
(** a step on a child that has been seen to be there *)
Lemma keeps_seen n f p g (k : tree -> V) : (forall c, kid n f = Some c -> p c = true -> keeps (k c) (g c)) ->
  forall a, keeps a (must f p n) -> keeps (andb_ a (need (fetch n f) k)) (must f (fun c => p c && g c) n).
Proof.
  intros H a A. unfold must in *. destruct (kid n f) as [c|] eqn:K.
  - apply keeps_andb; [exact A|]. intro P. eapply keeps_need; [apply fetch_kid, K|]. apply H; auto.
  - eapply keeps_eq; [apply keeps_andb with (x := false) (y := false); [exact A|discriminate]|reflexivity].
Qed.
Lemma keeps_sub g h n f : f <> L "valid" -> (forall c, kid n f = Some c -> ok (g c) (h c)) -> keeps (v_sub g n f) (must f h n).
Proof.
  intros F H. unfold v_sub. eapply keeps_eq.
  - apply keeps_seen with (p := fun _ => true) (g := h); [|eapply keeps_eq; [apply keeps_exists, F|unfold given, must; destruct (kid n f); reflexivity]].
    intros c K _. apply keeps_at; [exact F|apply H, K].
  - reflexivity.
Qed.
Lemma keeps_objsub g h n f : f <> L "valid" -> (forall c, kid n f = Some c -> object_ c = true -> ok (g c) (h c)) ->
  keeps (v_objsub g n f) (must f (fun c => object_ c && h c) n).
Proof.
  intros F H. apply keeps_seen; [|apply keeps_obj, F]. intros c K O. apply keeps_at; [exact F|apply H; auto].
Qed.
Lemma keeps_given g h n f : f <> L "valid" -> (forall c, kid n f = Some c -> ok (g c) (h c)) -> keeps (v_given g n f) (may f h n).
Proof.
  intros F H. unfold v_given, may. unfold has. destruct (kid n f) as [c|] eqn:K; cbn [when]; [|apply keeps_ret].
  eapply keeps_need; [apply fetch_kid, K|]. apply keeps_at; [exact F|apply H; reflexivity].
Qed.
Lemma keeps_option g h n f : f <> L "valid" -> (forall c, kid n f = Some c -> ok (g c) (h c)) -> keeps (v_option g n f) (may f h n).
Proof.
  intros F H. unfold v_option, may. unfold has. destruct (kid n f) as [c|] eqn:K; cbn [when]; [|apply keeps_ret].
  apply keeps_optional. eapply keeps_need; [apply fetch_kid, K|]. apply keeps_at; [exact F|apply H; reflexivity].
Qed.
Lemma may_must n f p : negb (has n f) || must f p n = may f p n.
Proof. unfold has, must, may. destruct (kid n f); reflexivity. Qed.
Lemma keeps_maybe v p n f : keeps v (must f p n) -> keeps (when (has n f) v) (may f p n).
Proof. intro H. rewrite <- may_must. apply keeps_when. intros _. exact H. Qed.

(** * Arrays and relations *)
Lemma mc_lens_spec l : forall num,
  (let '(a, b) := mc_lens num l in a && b) =
  forallb (fun e => num_ (snd e)) l &&
  (if Nat.eqb num 0 then agree (map (fun e => len (snd e)) l) else forallb (Nat.eqb num) (map (fun e => len (snd e)) l)).
Proof.
  induction l as [|[k c] r IH]; intro num; [destruct (Nat.eqb num 0); reflexivity|].
  cbn [mc_lens forallb map snd]. rewrite num_eq. destruct (num_ c); cbn [andb].
  - specialize (IH (if Nat.eqb num 0 then numel c else num)).
    destruct (mc_lens (if Nat.eqb num 0 then numel c else num) r) as [a b].
    rewrite numel_eq in *. destruct (Nat.eqb num 0) eqn:E.
    + rewrite Nat.eqb_refl, Bool.andb_true_r, IH. cbn [agree]. destruct (len c); reflexivity.
    + rewrite E in IH. rewrite (Nat.eqb_sym (len c)). destruct (Nat.eqb num (len c)); cbn [andb];
        [rewrite Bool.andb_true_r; exact IH|rewrite Bool.andb_false_r; rewrite Bool.andb_false_r; reflexivity].
  - destruct (mc_lens num r). apply Bool.andb_false_r.
Qed.
Lemma ok_mcarray n : ok (mcarray n) (components n).
Proof.
  unfold mcarray. apply ok_reset, ok_finish. eapply ok_eq.
  - apply ok_also; [apply keeps_ok, keeps_test|]. pose proof (mc_lens_spec (kids n) 0) as H.
    destruct (mc_lens 0 (kids n)) as [a b]. apply keeps_ok. eapply keeps_eq; [apply keeps_test|exact H].
  - cbn [Nat.eqb]. unfold components, every. destruct n; cbn [is_object is_list orb andb]; try reflexivity; rewrite ?Bool.andb_assoc; reflexivity.
Qed.
Lemma depth_height n : depth n = height n.
Proof. reflexivity. Qed.
Lemma level_row d n : level d n = row d n.
Proof.
  revert n. induction d as [|d IH]; intro n; [reflexivity|]. cbn [level row].
  induction (kids n) as [|e l IHl]; [reflexivity|]. cbn [flat_map]. rewrite IH, IHl. reflexivity.
Qed.
Lemma inside_spec a b : inside a b = true <-> (forall x, In x a -> In x b).
Proof.
  unfold inside. rewrite forallb_forall. split; intros H x X; specialize (H x X).
  - apply existsb_exists in H. destruct H as [y [Y E]]. apply str_eqb_eq in E. subst. exact Y.
  - apply existsb_exists. exists x. split; [exact H|]. apply str_eqb_eq. reflexivity.
Qed.
Lemma bool_eq a b : (a = true <-> b = true) -> a = b.
Proof. destruct a, b; intros [A B]; try reflexivity; [discriminate (A eq_refl)|discriminate (B eq_refl)]. Qed.
Lemma same_level l :
  match l with [] => true | x :: _ => forallb (fun y => same_set (child_names y) (child_names x)) l end =
  forallb (fun x => forallb (fun y => inside (names x) (names y)) l) l.
Proof.
  destruct l as [|a l]; [reflexivity|]. apply bool_eq. rewrite !forallb_forall. split; intro H.
  - intros x X. apply forallb_forall. intros y Y. apply inside_spec. intros z Z.
    pose proof (H x X) as P. pose proof (H y Y) as Q. unfold same_set in *. apply andb_prop in P, Q.
    apply (proj1 (inside_spec (names a) (names y)) (proj2 Q)). exact (proj1 (inside_spec (names x) (names a)) (proj1 P) z Z).
  - intros x X. unfold same_set. assert (A : In a (a :: l)) by (left; reflexivity).
    change (inside (names x) (names a) && inside (names a) (names x) = true).
    rewrite (proj1 (forallb_forall _ _) (H x X) a A). exact (proj1 (forallb_forall _ _) (H a A) x X).
Qed.
Lemma forallb_ext' {A} (f g : A -> bool) l : (forall x, f x = g x) -> forallb f l = forallb g l.
Proof. intro H. induction l as [|a l IH]; [reflexivity|]. cbn. rewrite H, IH. reflexivity. Qed.
Lemma ok_mlarray hi n : ok (mlarray 0 hi n) (levels hi n).
Proof.
  unfold mlarray. apply ok_reset. apply keeps_ok. eapply keeps_eq; [apply keeps_test|]. unfold levels. rewrite depth_height.
  f_equal; [f_equal; [f_equal|]|].
  - apply forallb_ext'. intro d. rewrite level_row. apply same_level.
  - rewrite level_row. apply forallb_ext', num_eq.
  - destruct (Nat.ltb_spec hi (height n)), (Nat.leb_spec (height n) hi); cbn; try reflexivity; lia.
Qed.
Lemma word_names (s : str) ws : word ws (TStr s) = existsb (str_eqb s) ws. Proof. reflexivity. Qed.
Lemma existsb_ext' {A} (f g : A -> bool) l : (forall x, f x = g x) -> existsb f l = existsb g l.
Proof. intro H. induction l as [|a l IH]; [reflexivity|]. cbn. rewrite H, IH. reflexivity. Qed.
Lemma ok_o2m n : ok (o2m n) (relation n).
Proof.
  unfold o2m. apply ok_finish. eapply ok_eq.
  - repeat (apply ok_all_cons; [apply keeps_ok; first [apply keeps_test|apply keeps_test_info]|]). apply ok_all_nil.
  - unfold relation, o2m_meta, o2m_paths. cbn [forallb]. unfold may. rewrite !Bool.andb_true_r.
    assert (E : forall p, match kid n p with Some c => is_integer c | None => true end = match kid n p with Some c => int_ c | None => true end)
      by (intro p; destruct (kid n p); [apply int_eq|reflexivity]).
    rewrite !E. unfold o2m_pair, o2m_data.
    destruct n as [|es| | |]; cbn [is_object any_object andb]; try reflexivity.
    rewrite !Bool.andb_assoc.
    assert (X : existsb (fun e => is_number (snd e) && negb (existsb (str_eqb (fst e)) [L "sizes"; L "offsets"; L "indices"])) (kids (TObj es)) =
                existsb (fun e => num_ (snd e) && negb (word [L "sizes"; L "offsets"; L "indices"] (TStr (fst e)))) (kids (TObj es)))
      by (apply existsb_ext'; intros [k c]; cbn [snd fst]; rewrite num_eq; reflexivity).
    rewrite <- X. f_equal.
Qed.
