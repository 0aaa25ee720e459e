(** The schema model refines the specification tree of SpecTree.v. *)
From Verif Require Import Base DType Path SpecTree Schema PathFacts SchemaInv.
Local Open Scope Z_scope.

Lemma abs_kids s : wf s -> tkids (abs s) = map abs (s_kids s).
Proof.
  intros H; destruct H as [d Hd|m o ks Ho Hf|ks Hf]; simpl; auto.
  destruct Ho as (_ & Hl & _ & _).
  assert (X : forall (a : list str) (b : list (tree dtype)),
             length a = length b -> map snd (combine a b) = b).
  { induction a as [|x a IH]; intros [|y b] E; simpl in *; try discriminate; auto.
    f_equal; apply IH; lia. }
  apply X. rewrite map_length; exact Hl.
Qed.

Lemma get_at_abs p : forall s, wf s -> tget (abs s) p = option_map abs (get_at s p).
Proof.
  induction p as [|i p IH]; intros s H; [reflexivity|].
  cbn [tget get_at]. rewrite abs_kids by exact H. rewrite nth_error_map.
  destruct (nth_error (s_kids s) i) as [k|] eqn:N; simpl; [|reflexivity].
  apply IH. apply nth_error_In in N. apply wf_kids in H.
  rewrite Forall_forall in H. auto.
Qed.

Lemma map_set_nth {A B} (f : A -> B) l i x : map f (set_nth l i x) = set_nth (map f l) i (f x).
Proof. revert i; induction l as [|y l IH]; intros [|i]; simpl; congruence. Qed.
Lemma combine_set_nth {A B} (a : list A) (b : list B) i y k :
  nth_error a i = Some k ->
  combine a (set_nth b i y) = set_nth (combine a b) i (k, y).
Proof.
  revert b i; induction a as [|x a IH]; intros b i H.
  - destruct i; discriminate.
  - destruct b as [|z b]; destruct i as [|i]; simpl in *; try reflexivity.
    + injection H as ->; reflexivity.
    + f_equal; apply IH; exact H.
Qed.
Lemma nth_error_combine {A B} (a : list A) (b : list B) i :
  nth_error (combine a b) i =
  match nth_error a i, nth_error b i with Some x, Some y => Some (x, y) | _, _ => None end.
Proof.
  revert b i; induction a as [|x a IH]; intros b i; simpl.
  - destruct i; reflexivity.
  - destruct b as [|y b].
    + destruct i as [|i]; simpl; [reflexivity|]. destruct (nth_error a i); reflexivity.
    + destruct i as [|i]; simpl; [reflexivity|apply IH].
Qed.

Lemma put_at_abs p : forall s x, wf s ->
  tput (abs s) p (abs x) = option_map abs (put_at s p x).
Proof.
  induction p as [|i p IH]; intros s x H; [reflexivity|].
  destruct H as [d Hd|m o ks Ho Hf|ks Hf]; cbn [put_at s_kids tput abs].
  - destruct i; reflexivity.
  - destruct Ho as (_ & Hl & _ & _).
    rewrite nth_error_combine, nth_error_map.
    destruct (nth_error ks i) as [k|] eqn:N; simpl.
    + destruct (nth_error o i) as [nm|] eqn:NO.
      * rewrite IH by (apply nth_error_In in N; rewrite Forall_forall in Hf; auto).
        destruct (put_at k p x) as [k'|]; simpl; [|reflexivity].
        rewrite map_set_nth, (combine_set_nth _ _ _ _ nm) by exact NO. reflexivity.
      * exfalso. apply nth_error_None in NO.
        assert (i < length ks)%nat by (apply nth_error_Some; congruence). lia.
    + destruct (nth_error o i); reflexivity.
  - rewrite nth_error_map. destruct (nth_error ks i) as [k|] eqn:N; simpl; [|reflexivity].
    rewrite IH by (apply nth_error_In in N; rewrite Forall_forall in Hf; auto).
    destruct (put_at k p x) as [k'|]; simpl; [|reflexivity].
    rewrite map_set_nth. reflexivity.
Qed.

Lemma match_nonnil {A B} (l : list A) (a b : B) :
  l <> [] -> match l with [] => a | _ :: _ => b end = b.
Proof. destruct l; [congruence|reflexivity]. Qed.

(** ---- dictionary lemmas ---- *)
Lemma combine_nil_r {A B} (a : list A) : combine a (@nil B) = [].
Proof. destruct a; reflexivity. Qed.

Lemma abs_entries_lookup m o ks k :
  obj_ok m o (length ks) ->
  mget (combine o (map abs ks)) k =
  match mget m k with Some i => option_map abs (znth ks i) | None => None end.
Proof.
  intros H. rewrite (obj_lookup m o (length ks)); auto using map_length.
  destruct (mget m k); [apply znth_map|reflexivity].
Qed.
Lemma obj_ok_znth m o (ks : list schema) k i :
  obj_ok m o (length ks) -> mget m k = Some i ->
  exists x, znth ks i = Some x /\ nth_error ks (Z.to_nat i) = Some x /\
            znth o i = Some k /\ nth_error o (Z.to_nat i) = Some k.
Proof.
  intros H M. pose proof (obj_ok_index m o _ k H) as X. rewrite M in X.
  destruct X as (_ & R & N).
  destruct (znth_some ks i R) as [x Hx]. exists x. split; [exact Hx|].
  split; [apply znth_range in Hx; apply Hx|].
  split; [|exact N]. unfold znth. destruct (i <? 0) eqn:E; [lia|exact N].
Qed.

Lemma abs_add_child s k :
  wf s -> abs (add_child s k) = TObj (od_add (tentries (abs s)) k (TLeaf dt_empty)).
Proof.
  intros H. unfold add_child, has_child.
  destruct H as [d Hd|m o ks Ho Hf|ks Hf]; simpl; try reflexivity.
  unfold od_add. rewrite (abs_entries_lookup m) by exact Ho.
  destruct (mget m k) as [i|] eqn:M; simpl.
  - destruct (obj_ok_znth m o ks k i Ho M) as (x & Hx & _). rewrite Hx. reflexivity.
  - rewrite map_app. simpl. rewrite combine_app; [reflexivity|].
    rewrite map_length. apply Ho.
Qed.

Lemma filter_combine_erase {V} (o : list str) (vs : list V) i k :
  NoDup o -> length o = length vs -> nth_error o i = Some k ->
  od_remove (combine o vs) k = erase_nth (combine o vs) i.
Proof.
  unfold od_remove. revert vs i; induction o as [|x o IH]; intros vs i ND HL N.
  - destruct i; discriminate.
  - destruct vs as [|v vs]; [discriminate|]. inversion ND as [|? ? Hn ND']; subst.
    destruct i as [|i]; simpl in *.
    + injection N as ->. rewrite str_eqb_refl. simpl.
      clear IH. assert (HL' : length o = length vs) by lia. clear HL ND.
      revert vs HL'. induction o as [|y o IHo]; intros vs HL'; [reflexivity|].
      destruct vs as [|w vs]; [reflexivity|]. simpl.
      assert (k <> y) by (intros ->; apply Hn; left; reflexivity).
      destruct (str_eqb_spec k y); [contradiction|]. simpl. f_equal.
      inversion ND'; subst. apply IHo; auto. intros I; apply Hn; right; exact I.
    + assert (k <> x) by (intros ->; apply Hn; eapply nth_error_In; eauto).
      destruct (str_eqb_spec k x); [contradiction|]. simpl. f_equal. apply IH; auto.
Qed.

Lemma map_erase_nth {A B} (f : A -> B) l i : map f (erase_nth l i) = erase_nth (map f l) i.
Proof. revert i; induction l as [|y l IH]; intros [|i]; simpl; congruence. Qed.

Lemma abs_obj_erase m o ks i k :
  abs (obj_erase m o ks i k) = TObj (erase_nth (combine o (map abs ks)) i).
Proof. unfold obj_erase; cbn [abs]. rewrite map_erase_nth, combine_erase_nth. reflexivity. Qed.

Definition opt_of {A} (o : outcome A) : option A := match o with Ok a => Some a | _ => None end.
Definition no_ub {A} (o : outcome A) : Prop := o <> UB /\ o <> Fuel.

Lemma no_ub_ok {A} (a : A) : no_ub (Ok a).
Proof. split; discriminate. Qed.
Lemma no_ub_err {A} : no_ub (@Err A).
Proof. split; discriminate. Qed.
#[export] Hint Resolve no_ub_ok no_ub_err : core.

Lemma remove_child_spec s k :
  wf s -> no_ub (remove_child s k) /\
  option_map abs (opt_of (remove_child s k)) = tremove (abs s) [k].
Proof.
  intros H; destruct H as [d Hd|m o ks Ho Hf|ks Hf]; simpl; auto.
  rewrite (abs_entries_lookup m) by exact Ho.
  destruct (mget m k) as [i|] eqn:M; simpl; auto.
  destruct (obj_ok_znth m o ks k i Ho M) as (x & Hx & Hx' & Hk & Hk').
  rewrite Hx, Hk. split; [apply no_ub_ok|]. cbn [opt_of option_map].
  rewrite abs_obj_erase. f_equal. f_equal. symmetry.
  apply filter_combine_erase; auto; [apply Ho|].
  rewrite map_length; apply Ho.
Qed.

Lemma remove_at_spec s i :
  wf s -> no_ub (remove_at s i) /\
  option_map abs (opt_of (remove_at s i)) = spec_op (abs s) (OpRemoveAt i).
Proof.
  intros H; destruct H as [d Hd|m o ks Ho Hf|ks Hf]; simpl; auto; unfold in_range.
  - assert (Hl : length o = length ks) by apply Ho.
    rewrite combine_length, map_length, Hl, Nat.min_id.
    destruct ((i <? 0) || (Z.of_nat (length ks) <=? i)) eqn:B.
    + replace ((0 <=? i) && (i <? Z.of_nat (length ks))) with false by lia. auto.
    + replace ((0 <=? i) && (i <? Z.of_nat (length ks))) with true by lia.
      destruct (znth_some o i) as [k Hk]; [lia|]. rewrite Hk.
      split; [apply no_ub_ok|]. cbn [opt_of option_map]. rewrite abs_obj_erase. reflexivity.
  - rewrite map_length.
    destruct ((i <? 0) || (Z.of_nat (length ks) <=? i)) eqn:B.
    + replace ((0 <=? i) && (i <? Z.of_nat (length ks))) with false by lia. auto.
    + replace ((0 <=? i) && (i <? Z.of_nat (length ks))) with true by lia.
      split; [apply no_ub_ok|]. simpl. rewrite map_erase_nth. reflexivity.
Qed.

Lemma od_rename_combine {V} (o : list str) (vs : list V) a b i :
  NoDup o -> length o = length vs -> nth_error o i = Some a ->
  od_rename (combine o vs) a b = combine (set_nth o i b) vs.
Proof.
  unfold od_rename. revert vs i; induction o as [|x o IH]; intros vs i ND HL N.
  - destruct i; discriminate.
  - destruct vs as [|v vs]; [discriminate|]. inversion ND as [|? ? Hn ND']; subst.
    destruct i as [|i]; simpl in *.
    + injection N as ->. rewrite str_eqb_refl. f_equal.
      clear IH. assert (HL' : length o = length vs) by lia. clear HL ND.
      revert vs HL'. induction o as [|y o IHo]; intros vs HL'; [reflexivity|].
      destruct vs as [|w vs]; [reflexivity|]. simpl.
      assert (a <> y) by (intros ->; apply Hn; left; reflexivity).
      destruct (str_eqb_spec a y); [contradiction|]. f_equal.
      inversion ND'; subst. apply IHo; auto. intros I; apply Hn; right; exact I.
    + assert (a <> x) by (intros ->; apply Hn; eapply nth_error_In; eauto).
      destruct (str_eqb_spec a x); [contradiction|]. f_equal. apply IH; auto.
Qed.

Lemma rename_child_spec s a b :
  wf s -> no_ub (rename_child s a b) /\
  option_map abs (opt_of (rename_child s a b)) = spec_op (abs s) (OpRename a b).
Proof.
  intros H; destruct H as [d Hd|m o ks Ho Hf|ks Hf]; simpl; auto.
  rewrite !(abs_entries_lookup m) by exact Ho.
  destruct (mget m a) as [i|] eqn:Ma; simpl; auto.
  destruct (obj_ok_znth m o ks a i Ho Ma) as (x & Hx & Hx' & Hk & Hk').
  rewrite Hx; simpl.
  destruct (mget m b) as [j|] eqn:Mb; simpl.
  - destruct (obj_ok_znth m o ks b j Ho Mb) as (y & Hy & _). rewrite Hy. simpl. auto.
  - rewrite Hk. split; [apply no_ub_ok|]. simpl. f_equal. f_equal. symmetry.
    apply od_rename_combine; auto; [apply Ho|]. rewrite map_length; apply Ho.
Qed.

Lemma abs_append s :
  wf s -> abs (s_append s) =
          TList (match abs s with TList ts => ts | _ => [] end ++ [TLeaf dt_empty]).
Proof.
  intros H; destruct H as [d Hd|m o ks Ho Hf|ks Hf]; simpl; try reflexivity.
  unfold s_append; simpl. rewrite map_app. reflexivity.
Qed.

(** ---- has_path ---- *)
Lemma strip_slash_plain c r : c <> [] -> ~ In slash c -> strip_slash (c ++ r) = c ++ r.
Proof.
  intros Hc Hs. destruct c as [|x c]; [congruence|]. simpl.
  destruct (ascii_dec x slash) as [->|]; [exfalso; apply Hs; left; reflexivity|reflexivity].
Qed.

(** Totality: with enough fuel has_path is neither UB nor out of fuel. *)
Lemma strip_slash_len p : (length (strip_slash p) <= length p)%nat.
Proof. destruct p as [|c r]; simpl; [lia|]. destruct (ascii_dec c slash); simpl; lia. Qed.

Lemma has_path_total f : forall s path,
  wf s -> (length path < f)%nat -> exists b, has_path_f f s path = Ok b.
Proof.
  induction f as [|f IH]; intros s path H Hf; [lia|].
  destruct H as [d Hd|m o ks Ho Hk|ks Hk]; cbn [has_path_f]; eauto.
  destruct (split_path (strip_slash path)) as [c n] eqn:E.
  destruct (mget m c) as [i|] eqn:M; eauto.
  destruct n as [|x n]; eauto.
  destruct (obj_ok_znth m o ks c i Ho M) as (k & Hk1 & Hk2 & _). rewrite Hk1. simpl.
  apply IH.
  - apply nth_error_In in Hk2. rewrite Forall_forall in Hk. auto.
  - pose proof (split_path_len _ _ _ E) as [_ X].
    pose proof (strip_slash_len path). specialize (X ltac:(discriminate)). lia.
Qed.

Lemma has_path_fuel f : forall g s path b,
  has_path_f f s path = Ok b -> (f <= g)%nat -> has_path_f g s path = Ok b.
Proof.
  induction f as [|f IH]; intros g s path b H Hg; [discriminate|].
  destruct g as [|g]; [lia|]. cbn [has_path_f] in *.
  destruct s as [d|m o ks|ks]; auto.
  destruct (split_path (strip_slash path)) as [c n].
  destruct (mget m c) as [i|]; auto. destruct n as [|x n]; auto.
  destruct (deref (znth ks i)) as [k| | |]; cbn [obind] in *; try discriminate.
  apply IH; auto; lia.
Qed.

(** A single component without a slash: has_path is membership. *)
Lemma has_path_component s c :
  wf s -> ~ In slash c -> has_path s c = Ok (has_child s c).
Proof.
  intros H Hc. unfold has_path. destruct H as [d Hd|m o ks Ho Hk|ks Hk]; cbn [has_path_f has_child]; auto.
  assert (E : strip_slash c = c).
  { destruct c as [|x c]; [reflexivity|]. simpl.
    destruct (ascii_dec x slash) as [->|]; [exfalso; apply Hc; left; reflexivity|reflexivity]. }
  rewrite E, split_path_none by exact Hc.
  destruct (mget m c); reflexivity.
Qed.

Lemma has_path_plain_f cs : forall f s,
  wf s -> Forall plain cs -> cs <> [] -> (length (path_of cs) < f)%nat ->
  has_path_f f s (path_of cs) =
  Ok (match tlookup (abs s) cs with Some _ => true | None => false end).
Proof.
  induction cs as [|c cs IH]; intros f s H Hp Hne Hf; [congruence|].
  destruct f as [|f]; [lia|].
  pose proof (split_path_of c cs Hp) as Hs.
  inversion Hp as [|? ? Hc Hcs]; subst.
  assert (St : strip_slash (path_of (c :: cs)) = path_of (c :: cs)).
  { destruct Hc as (Hc & Hc2 & _). destruct cs as [|d cs].
    - cbn [path_of]. rewrite <- (app_nil_r c). apply strip_slash_plain; auto.
    - rewrite path_of_cons by discriminate. apply strip_slash_plain; auto. }
  destruct H as [d Hd|m o ks Ho Hk|ks Hk]; cbn [has_path_f]; auto.
  rewrite St, Hs. cbn [tlookup abs]. rewrite (abs_entries_lookup m) by exact Ho.
  destruct (mget m c) as [i|] eqn:M; [|reflexivity].
  destruct (obj_ok_znth m o ks c i Ho M) as (k & Hk1 & Hk2 & _). rewrite Hk1.
  cbn [option_map deref obind].
  destruct cs as [|d cs].
  - reflexivity.
  - pose proof (path_of_nonempty (d :: cs) Hcs ltac:(discriminate)) as PE.
    rewrite (match_nonnil (path_of (d :: cs))) by exact PE.
    apply IH; auto; [|discriminate|].
    + apply nth_error_In in Hk2. rewrite Forall_forall in Hk. auto.
    + pose proof (split_path_len _ _ _ Hs) as [_ X]. specialize (X PE). lia.
Qed.

(** ---- put_at algebra ---- *)
Lemma put_at_app p : forall s q x y,
  get_at s p = Some y ->
  put_at s (p ++ q) x =
  match put_at y q x with Some y' => put_at s p y' | None => None end.
Proof.
  induction p as [|i p IH]; intros s q x y E; simpl in *.
  - injection E as <-. destruct (put_at s q x); reflexivity.
  - destruct (nth_error (s_kids s) i) as [k|] eqn:N; [|discriminate].
    rewrite (IH k q x y E). destruct (put_at y q x) as [y'|]; [|reflexivity].
    destruct (put_at k p y'); reflexivity.
Qed.
Lemma set_nth_twice {A} (l : list A) i x y : set_nth (set_nth l i x) i y = set_nth l i y.
Proof. revert i; induction l as [|z l IH]; intros [|i]; simpl; congruence. Qed.
Lemma put_put p : forall s x s' y,
  put_at s p x = Some s' -> put_at s' p y = put_at s p y.
Proof.
  induction p as [|i p IH]; intros s x s' y E; simpl in *; [reflexivity|].
  destruct (nth_error (s_kids s) i) as [k|] eqn:N; [|discriminate].
  destruct (put_at k p x) as [k'|] eqn:P; [|discriminate]. injection E as <-.
  assert (Hn : s_kids s <> []) by (intros Z; rewrite Z in N; destruct i; discriminate).
  rewrite s_kids_set_kids by exact Hn.
  rewrite nth_error_set_nth_same by (apply nth_error_Some; congruence).
  rewrite (IH k x k' y P). destruct (put_at k p y); [|reflexivity].
  rewrite set_nth_twice. destruct s; reflexivity.
Qed.
Lemma set_nth_id {A} (l : list A) i x : nth_error l i = Some x -> set_nth l i x = l.
Proof.
  revert i; induction l as [|z l IH]; intros [|i] H; simpl in *; try discriminate.
  - congruence.
  - f_equal; auto.
Qed.
Lemma put_get p : forall s x, get_at s p = Some x -> put_at s p x = Some s.
Proof.
  induction p as [|i p IH]; intros s x E; simpl in *; [congruence|].
  destruct (nth_error (s_kids s) i) as [k|] eqn:N; [|discriminate].
  rewrite (IH k x E). rewrite set_nth_id by exact N. destruct s; reflexivity.
Qed.

(** ---- fetch ---- *)
Lemma init_add_child s c :
  (if has_child (init_object s) c then init_object s
   else match init_object s with
        | SObj m o ks => push_named m o ks c
        | _ => init_object s
        end) = add_child s c.
Proof.
  unfold add_child. destruct s as [d|m o ks|ks]; reflexivity.
Qed.

Lemma add_child_index s c :
  wf s -> exists m o ks i k, add_child s c = SObj m o ks /\ mget m c = Some i /\
    znth ks i = Some k /\ nth_error ks (Z.to_nat i) = Some k /\ wf k.
Proof.
  intros H. pose proof (wf_add_child s c H) as W.
  assert (Hc : has_child (add_child s c) c = true).
  { unfold add_child. destruct (has_child s c) eqn:E; [exact E|].
    destruct s as [d|m o ks|ks]; simpl; try rewrite str_eqb_refl; try reflexivity.
    rewrite mget_mset_same. reflexivity. }
  destruct (add_child s c) as [d|m o ks|ks] eqn:E; try discriminate Hc.
  simpl in Hc. destruct (mget m c) as [i|] eqn:M; [|discriminate].
  inversion W as [|? ? ? Ho Hf|]; subst.
  destruct (obj_ok_znth m o ks c i Ho M) as (k & Hk1 & Hk2 & _).
  exists m, o, ks, i, k. repeat split; auto.
  apply nth_error_In in Hk2. rewrite Forall_forall in Hf. auto.
Qed.

Lemma fetch_child_spec root p t c :
  wf root -> get_at root p = Some t -> ~ In slash c ->
  exists root' m o ks i k,
    fetch_child root p (init_object t) c = Ok (root', p ++ [i]) /\
    put_at root p (SObj m o ks) = Some root' /\ wf root' /\
    add_child t c = SObj m o ks /\ wf (SObj m o ks) /\
    mget m c = Some (Z.of_nat i) /\ nth_error ks i = Some k /\ wf k.
Proof.
  intros W G Hc. pose proof (wf_get_at p root t W G) as Wt.
  unfold fetch_child.
  rewrite has_path_component by (auto using wf_init_object). cbn [obind].
  rewrite init_add_child.
  destruct (add_child_index t c Wt) as (m & o & ks & i & k & E & M & Z1 & Z2 & Wk).
  rewrite E. pose proof (wf_add_child t c Wt) as Wa. rewrite E in Wa.
  destruct (put_at_some p root t (SObj m o ks) G) as [root' P].
  rewrite P. cbn [deref obind child_index]. rewrite M. cbn [obind s_kids].
  rewrite Z1. cbn [deref obind].
  exists root', m, o, ks, (Z.to_nat i), k.
  apply znth_range in Z1. repeat split; auto.
  - eapply wf_put_at; eauto.
  - rewrite M. f_equal. lia.
Qed.

(** mset on the entry list of a well-formed object. *)
Lemma mset_combine_in {V} (o : list str) (vs : list V) k i v :
  NoDup o -> length o = length vs -> nth_error o i = Some k ->
  mset (combine o vs) k v = combine o (set_nth vs i v).
Proof.
  revert vs i; induction o as [|x o IH]; intros vs i ND HL N.
  - destruct i; discriminate.
  - destruct vs as [|w vs]; [discriminate|]. inversion ND as [|? ? Hn ND']; subst.
    destruct i as [|i]; simpl in *.
    + injection N as ->. rewrite str_eqb_refl. reflexivity.
    + assert (k <> x) by (intros ->; apply Hn; eapply nth_error_In; eauto).
      destruct (str_eqb_spec k x); [contradiction|]. f_equal. apply IH; auto.
Qed.
Lemma mset_notin {V} (d : list (str * V)) k v :
  mget d k = None -> mset d k v = d ++ [(k, v)].
Proof.
  induction d as [|[k' v'] d IH]; simpl; [reflexivity|].
  destruct (str_eqb k k'); [discriminate|]. intros H. f_equal; auto.
Qed.
Lemma mset_mset {V} (d : list (str * V)) k v w : mset (mset d k v) k w = mset d k w.
Proof.
  induction d as [|[k' v'] d IH]; simpl.
  - rewrite str_eqb_refl. reflexivity.
  - destruct (str_eqb k k') eqn:E; simpl; rewrite E; congruence.
Qed.

Lemma od_add_mset {V} (d : list (str * V)) k v w :
  mset (od_add d k v) k w = mset d k w.
Proof.
  unfold od_add. destruct (mget d k) eqn:E; [reflexivity|].
  rewrite <- mset_notin by exact E. apply mset_mset.
Qed.
Lemma od_add_mget {V} (d : list (str * V)) k v :
  mget (od_add d k v) k = Some (match mget d k with Some u => u | None => v end).
Proof.
  unfold od_add. destruct (mget d k) eqn:E; [exact E|].
  rewrite <- mset_notin by exact E. apply mget_mset_same.
Qed.

Lemma fetch_plain_f cs : forall f root p t,
  wf root -> get_at root p = Some t -> Forall plain cs -> cs <> [] ->
  (length (path_of cs) < f)%nat ->
  exists root' t' q k,
    fetch_f f root p (path_of cs) = Ok (root', p ++ q) /\
    wf root' /\ put_at root p t' = Some root' /\
    abs t' = tensure dt_empty (abs t) cs /\
    get_at t' q = Some k /\ tlookup (abs t') cs = Some (abs k) /\
    tnames (abs t') q = Some cs.
Proof.
  induction cs as [|c cs IH]; intros f root p t W G Hp Hne Hf; [congruence|].
  destruct f as [|f]; [lia|].
  pose proof (split_path_of c cs Hp) as Hs.
  inversion Hp as [|? ? Hc Hcs]; subst.
  destruct Hc as (Hc0 & Hc1 & Hc2).
  pose proof (wf_get_at p root t W G) as Wt.
  destruct (fetch_child_spec root p t c W G Hc1)
    as (r1 & m & o & ks & i & k & Fc & P & Wr & Ea & Ws & M & N & Wk).
  assert (Ents : combine o (map abs ks) = od_add (tentries (abs t)) c (TLeaf dt_empty)).
  { pose proof (abs_add_child t c Wt) as X. rewrite Ea in X. cbn [abs] in X. congruence. }
  inversion Ws as [|? ? ? Ho Hf2|]; subst.
  destruct (obj_ok_znth m o ks c _ Ho M) as (k2 & Hk2 & Hk2' & Ho1 & Ho2).
  rewrite Nat2Z.id in Hk2', Ho2. assert (k2 = k) by congruence. subst k2.
  assert (Ek : abs k = match mget (tentries (abs t)) c with Some u => u | None => TLeaf dt_empty end).
  { assert (X : mget (combine o (map abs ks)) c = Some (abs k)).
    { rewrite (abs_entries_lookup m) by exact Ho. rewrite M. rewrite Hk2. reflexivity. }
    rewrite Ents, od_add_mget in X. congruence. }
  assert (Dd : str_eqb c dotdot = false) by (apply str_eqb_neq; exact Hc2).
  cbn [fetch_f]. rewrite G. cbn [deref obind]. rewrite Hs, Dd. cbn [andb].
  rewrite Fc. cbn [obind].
  assert (Hreplace : forall k', abs (SObj m o (set_nth ks i k')) =
                                TObj (mset (tentries (abs t)) c (abs k'))).
  { intros k'. cbn [abs]. f_equal. rewrite map_set_nth.
    rewrite <- (mset_combine_in o (map abs ks) c i); auto.
    - rewrite Ents, od_add_mset. reflexivity.
    - apply Ho.
    - rewrite map_length. apply Ho. }
  destruct cs as [|d cs].
  - exists r1, (SObj m o ks), [i], k.
    repeat split; auto.
    + rewrite <- (set_nth_id ks i k N) at 1. rewrite Hreplace. cbn [tensure]. rewrite Ek. reflexivity.
    + simpl. rewrite N. reflexivity.
    + cbn [tlookup abs]. rewrite (abs_entries_lookup m) by exact Ho. rewrite M, Hk2. reflexivity.
    + cbn [tnames abs]. rewrite nth_error_combine, Ho2, nth_error_map, N. reflexivity.
  - pose proof (path_of_nonempty (d :: cs) Hcs ltac:(discriminate)) as PE.
    rewrite (match_nonnil (path_of (d :: cs))) by exact PE.
    assert (G1 : get_at r1 (p ++ [i]) = Some k).
    { rewrite get_at_app, (get_put_same p root (SObj m o ks) r1 P). simpl. rewrite N. reflexivity. }
    assert (Lf : (length (path_of (d :: cs)) < f)%nat).
    { pose proof (split_path_len _ _ _ Hs) as [_ X]. specialize (X PE). lia. }
    destruct (IH f r1 (p ++ [i]) k Wr G1 Hcs ltac:(discriminate) Lf)
      as (r2 & k' & q & kk & F2 & W2 & P2 & A2 & G2 & L2 & T2).
    rewrite F2.
    exists r2, (SObj m o (set_nth ks i k')), (i :: q), kk.
    assert (Hi : (i < length ks)%nat) by (apply nth_error_Some; congruence).
    repeat split; auto.
    + rewrite <- app_assoc. reflexivity.
    + rewrite (put_at_app p r1 [i] k' (SObj m o ks)) in P2
        by (apply (get_put_same p root); exact P).
      simpl in P2. rewrite N in P2. rewrite <- P2. symmetry. eapply put_put; eauto.
    + rewrite Hreplace. cbn [tensure]. rewrite <- Ek, A2. reflexivity.
    + simpl. rewrite nth_error_set_nth_same by exact Hi. exact G2.
    + rewrite Hreplace. cbn [tlookup]. rewrite mget_mset_same. exact L2.
    + cbn [tnames abs]. rewrite nth_error_combine, Ho2, nth_error_map.
      rewrite nth_error_set_nth_same by exact Hi. cbn [option_map]. rewrite T2. reflexivity.
Qed.

(** fetch never fails, whatever the path string. *)
Lemma fetch_total_f f : forall root p path t,
  wf root -> get_at root p = Some t -> (S (length path) < f)%nat ->
  exists root' p' t', fetch_f f root p path = Ok (root', p') /\ wf root' /\
                      get_at root' p' = Some t'.
Proof.
  induction f as [|f IH]; intros root p path t W G Hf; [lia|].
  pose proof (wf_get_at p root t W G) as Wt.
  cbn [fetch_f]. rewrite G. cbn [deref obind].
  destruct (split_path path) as [c n] eqn:E.
  pose proof (split_path_noslash _ _ _ E) as Hc.
  destruct (split_path_len _ _ _ E) as [Ln1 Ln2].
  destruct (str_eqb c dotdot && match p with [] => false | _ => true end) eqn:D.
  - apply andb_prop in D. destruct D as [D1 D2]. apply str_eqb_eq in D1. subst c.
    destruct (put_at_some p root t (init_object t) G) as [r1 P]. rewrite P. cbn [deref obind].
    assert (W1 : wf r1) by (eapply wf_put_at; eauto using wf_init_object).
    assert (Gp : exists tp, get_at r1 (removelast p) = Some tp).
    { pose proof (get_put_same p root _ r1 P) as Gs.
      destruct p as [|a p] using rev_ind; [discriminate|].
      rewrite removelast_last. rewrite get_at_app in Gs.
      destruct (get_at r1 p); [eauto|discriminate]. }
    destruct Gp as [tp Gp]. apply (IH r1 (removelast p) n tp); auto.
    assert ((length n < length path)%nat); [|lia].
    destruct n as [|x n]; [|apply Ln2; discriminate].
    destruct path as [|a path]; [|simpl; lia].
    vm_compute in E. discriminate.
  - destruct (fetch_child_spec root p t c W G Hc)
      as (r1 & m & o & ks & i & k & Fc & P & Wr & Ea & Ws & M & N & Wk).
    rewrite Fc. cbn [obind].
    assert (G1 : get_at r1 (p ++ [i]) = Some k).
    { rewrite get_at_app, (get_put_same p root (SObj m o ks) r1 P). simpl. rewrite N. reflexivity. }
    destruct n as [|x n].
    + exists r1, (p ++ [i]), k. auto.
    + apply (IH r1 (p ++ [i]) (x :: n) k); auto.
      specialize (Ln2 ltac:(discriminate)). lia.
Qed.

(** ---- fetch_existing on ordinary paths ---- *)
Lemma fetch_existing_plain_f cs : forall f root p t,
  wf root -> get_at root p = Some t -> Forall plain cs -> cs <> [] ->
  (length (path_of cs) < f)%nat ->
  match tlookup (abs t) cs with
  | Some u => exists q k, fetch_existing_f f root p (path_of cs) = Ok (p ++ q) /\
                          get_at t q = Some k /\ abs k = u
  | None => fetch_existing_f f root p (path_of cs) = Err
  end.
Proof.
  induction cs as [|c cs IH]; intros f root p t W G Hp Hne Hf; [congruence|].
  destruct f as [|f]; [lia|].
  pose proof (split_path_of c cs Hp) as Hs.
  inversion Hp as [|? ? Hc Hcs]; subst. destruct Hc as (Hc0 & Hc1 & Hc2).
  pose proof (wf_get_at p root t W G) as Wt.
  assert (Dd : str_eqb c dotdot = false) by (apply str_eqb_neq; exact Hc2).
  cbn [fetch_existing_f]. rewrite G. cbn [deref obind].
  destruct Wt as [d Hd|m o ks Ho Hk|ks Hk]; cbn [tlookup abs]; auto.
  rewrite Hs, Dd. cbn [child_index].
  rewrite (abs_entries_lookup m) by exact Ho.
  destruct (mget m c) as [i|] eqn:M; cbn [obind]; [|reflexivity].
  destruct (obj_ok_znth m o ks c i Ho M) as (k & Hk1 & Hk2 & _). rewrite Hk1.
  cbn [option_map].
  assert (G1 : get_at root (p ++ [Z.to_nat i]) = Some k).
  { rewrite get_at_app, G. simpl. rewrite Hk2. reflexivity. }
  assert (Hgk : forall q x, get_at k q = x -> get_at (SObj m o ks) (Z.to_nat i :: q) = x).
  { intros q x Hx. simpl. rewrite Hk2. exact Hx. }
  destruct cs as [|d cs].
  - cbn [path_of tlookup]. rewrite G1. exists [Z.to_nat i], k. auto.
  - pose proof (path_of_nonempty (d :: cs) Hcs ltac:(discriminate)) as PE.
    rewrite (match_nonnil (path_of (d :: cs))) by exact PE.
    assert (Lf : (length (path_of (d :: cs)) < f)%nat).
    { pose proof (split_path_len _ _ _ Hs) as [_ X]. specialize (X PE). lia. }
    specialize (IH f root (p ++ [Z.to_nat i]) k W G1 Hcs ltac:(discriminate) Lf).
    destruct (tlookup (abs k) (d :: cs)) as [u|].
    + destruct IH as (q & kk & F & Gq & A). exists (Z.to_nat i :: q), kk.
      rewrite F, <- app_assoc. auto.
    + exact IH.
Qed.

(** ---- remove_path on ordinary paths ---- *)
Lemma tremove_cons {A} (es : list (str * tree A)) k d r :
  tremove (TObj es) (k :: d :: r) =
  match mget es k with
  | Some u => match tremove u (d :: r) with
              | Some u' => Some (TObj (mset es k u'))
              | None => None
              end
  | None => None
  end.
Proof. reflexivity. Qed.

Lemma remove_path_plain_f cs : forall f s,
  wf s -> Forall plain cs -> cs <> [] -> (length (path_of cs) < f)%nat ->
  no_ub (remove_path_f f s (path_of cs)) /\
  (forall s', remove_path_f f s (path_of cs) = Ok s' -> wf s') /\
  option_map abs (opt_of (remove_path_f f s (path_of cs))) = tremove (abs s) cs.
Proof.
  induction cs as [|c cs IH]; intros f s H Hp Hne Hf; [congruence|].
  destruct f as [|f]; [lia|].
  pose proof (split_path_of c cs Hp) as Hs.
  inversion Hp as [|? ? Hc Hcs]; subst.
  destruct (s) as [d|m o ks|ks] eqn:Es; cbn [remove_path_f];
    try (split; [auto|split; [discriminate|destruct cs; reflexivity]]).
  rewrite <- Es in *. rewrite Hs.
  destruct cs as [|d cs].
  - cbn [path_of]. pose proof (remove_child_spec s c H) as [A B].
    split; [exact A|]. split; [|exact B].
    intros s' E. eapply wf_remove_child; eauto.
  - pose proof (path_of_nonempty (d :: cs) Hcs ltac:(discriminate)) as PE.
    rewrite (match_nonnil (path_of (d :: cs))) by exact PE.
    rewrite Es in *. clear Es s.
    inversion H as [|? ? ? Ho Hk|]; subst.
    cbn [child_index]. cbn [abs]. rewrite tremove_cons. rewrite (abs_entries_lookup m) by exact Ho.
    destruct (mget m c) as [i|] eqn:M; cbn [obind]; [|split; [auto|split; [discriminate|reflexivity]]].
    destruct (obj_ok_znth m o ks c i Ho M) as (k & Hk1 & Hk2 & Ho1 & Ho2). rewrite Hk1.
    cbn [option_map deref obind].
    assert (Wk : wf k) by (apply nth_error_In in Hk2; rewrite Forall_forall in Hk; auto).
    assert (Lf : (length (path_of (d :: cs)) < f)%nat).
    { pose proof (split_path_len _ _ _ Hs) as [_ X]. specialize (X PE). lia. }
    destruct (IH f k Wk Hcs ltac:(discriminate) Lf) as (A & B & C).
    rewrite <- C.
    destruct (remove_path_f f k (path_of (d :: cs))) as [k'| | |] eqn:R; cbn [obind opt_of option_map].
    + split; [auto|]. split.
      * intros s' E; injection E as <-. constructor.
        -- rewrite length_set_nth. exact Ho.
        -- apply Forall_set_nth; auto.
      * cbn [abs]. rewrite map_set_nth.
        rewrite <- (mset_combine_in o (map abs ks) c); auto; [apply Ho|].
        rewrite map_length; apply Ho.
    + split; [auto|split; [discriminate|reflexivity]].
    + destruct A as [A _]. exfalso; apply A; reflexivity.
    + destruct A as [_ A]. exfalso; apply A; reflexivity.
Qed.

(** wf preservation and totality for arbitrary path strings. *)
Lemma remove_path_total_f f : forall s path,
  wf s -> (length path < f)%nat ->
  no_ub (remove_path_f f s path) /\ (forall s', remove_path_f f s path = Ok s' -> wf s').
Proof.
  induction f as [|f IH]; intros s path H Hf; [lia|].
  destruct s as [d|m o ks|ks] eqn:Es; cbn [remove_path_f];
    try (split; [auto|discriminate]).
  destruct (split_path path) as [c n] eqn:E.
  destruct n as [|x n].
  - split; [apply remove_child_spec; exact H|]. intros s' R; eapply wf_remove_child; eauto.
  - inversion H as [|? ? ? Ho Hk|]; subst. cbn [child_index].
    destruct (mget m c) as [i|] eqn:M; cbn [obind]; [|split; [auto|discriminate]].
    destruct (obj_ok_znth m o ks c i Ho M) as (k & Hk1 & Hk2 & Ho1 & Ho2). rewrite Hk1.
    cbn [deref obind].
    assert (Wk : wf k) by (apply nth_error_In in Hk2; rewrite Forall_forall in Hk; auto).
    destruct (split_path_len _ _ _ E) as [_ X]. specialize (X ltac:(discriminate)).
    destruct (IH k (x :: n) Wk ltac:(lia)) as (A & B).
    destruct (remove_path_f f k (x :: n)) as [k'| | |]; cbn [obind].
    + split; [auto|]. intros s' Q; injection Q as <-. constructor.
      * rewrite length_set_nth; exact Ho.
      * apply Forall_set_nth; auto.
    + split; [auto|discriminate].
    + destruct A as [A _]. exfalso; apply A; reflexivity.
    + destruct A as [_ A]. exfalso; apply A; reflexivity.
Qed.

(** ---- histories ---- *)
Definition op_ok (op : sop) : Prop :=
  match op with
  | OpFetch cs | OpRemovePath cs => Forall plain cs /\ cs <> []
  | _ => True
  end.

Lemma abs_set_dtype d :
  abs (s_set_dtype d) = match dt_id d with OBJECT => TObj [] | LIST => TList [] | _ => TLeaf d end.
Proof. unfold s_set_dtype. destruct (dt_id d); reflexivity. Qed.

Lemma apply_op_spec root p t op :
  wf root -> get_at root p = Some t -> op_ok op ->
  no_ub (apply_op root p op) /\
  (forall r, apply_op root p op = Ok r -> wf r) /\
  option_map abs (opt_of (apply_op root p op)) =
  match spec_op (abs t) op with Some u => tput (abs root) p u | None => None end.
Proof.
  intros W G Hop. pose proof (wf_get_at p root t W G) as Wt.
  assert (Put : forall s' u, wf s' -> abs s' = u ->
     no_ub (deref (put_at root p s')) /\
     (forall r, deref (put_at root p s') = Ok r -> wf r) /\
     option_map abs (opt_of (deref (put_at root p s'))) = tput (abs root) p u).
  { intros s' u Ws <-. rewrite put_at_abs by exact W.
    destruct (put_at_some p root t s' G) as [r P]. rewrite P. simpl.
    split; [auto|]. split; [|reflexivity].
    intros r' E; injection E as <-. eapply wf_put_at; eauto. }
  assert (PutO : forall (o : outcome schema) (ou : option (tree dtype)),
     no_ub o -> (forall s', o = Ok s' -> wf s') -> option_map abs (opt_of o) = ou ->
     no_ub (do s' <- o; deref (put_at root p s')) /\
     (forall r, (do s' <- o; deref (put_at root p s')) = Ok r -> wf r) /\
     option_map abs (opt_of (do s' <- o; deref (put_at root p s'))) =
     match ou with Some u => tput (abs root) p u | None => None end).
  { intros o ou N Wo <-. destruct o as [s'| | |]; cbn [obind opt_of option_map].
    - apply Put; auto.
    - split; [auto|split; [discriminate|reflexivity]].
    - destruct N as [N _]; exfalso; apply N; reflexivity.
    - destruct N as [_ N]; exfalso; apply N; reflexivity. }
  unfold apply_op. rewrite G. cbn [deref obind].
  destruct op as [k|cs|i|k|cs|a b| |d|]; cbn [spec_op].
  - apply Put; [apply wf_add_child; auto|apply abs_add_child; auto].
  - destruct Hop as [Hp Hne].
    destruct (fetch_plain_f cs (2 + length (path_of cs)) root p t W G Hp Hne ltac:(lia))
      as (r & t' & q & k & F & Wr & P & A & _).
    unfold fetch. rewrite F. cbn [obind opt_of option_map].
    split; [auto|]. split; [intros r' E; injection E as <-; exact Wr|].
    rewrite <- A. rewrite put_at_abs by exact W. rewrite P. reflexivity.
  - apply PutO; [apply remove_at_spec; auto|intros; eapply wf_remove_at; eauto|apply remove_at_spec; auto].
  - apply PutO; [apply remove_child_spec; auto|intros; eapply wf_remove_child; eauto|apply remove_child_spec; auto].
  - destruct Hop as [Hp Hne].
    destruct (remove_path_plain_f cs (S (length (path_of cs))) t Wt Hp Hne ltac:(lia)) as (A & B & C).
    apply PutO; auto.
  - apply PutO; [apply rename_child_spec; auto|intros; eapply wf_rename_child; eauto|apply rename_child_spec; auto].
  - apply Put; [apply wf_append; auto|apply abs_append; auto].
  - apply Put; [apply wf_set_dtype|apply abs_set_dtype].
  - apply Put; [apply wf_empty|reflexivity].
Qed.

Lemma step_op_spec root po :
  wf root -> op_ok (snd po) ->
  wf (step_op root po) /\ abs (step_op root po) = spec_step (abs root) po.
Proof.
  destruct po as [p op]. cbn [fst snd]. intros W Hop. unfold step_op, spec_step. cbn [fst snd].
  rewrite get_at_abs by exact W.
  destruct (get_at root p) as [t|] eqn:G; cbn [option_map].
  - destruct (apply_op_spec root p t op W G Hop) as (N & Wr & E).
    destruct (apply_op root p op) as [r| | |]; cbn [opt_of option_map] in E.
    + split; [auto|]. destruct (spec_op (abs t) op) as [u|]; [|discriminate].
      rewrite <- E. reflexivity.
    + split; [exact W|]. destruct (spec_op (abs t) op) as [u|]; [|reflexivity].
      rewrite <- E. reflexivity.
    + destruct N as [N _]; exfalso; apply N; reflexivity.
    + destruct N as [_ N]; exfalso; apply N; reflexivity.
  - unfold apply_op. rewrite G. cbn [deref obind]. auto.
Qed.

Lemma run_ops_spec h : forall root,
  wf root -> Forall (fun po => op_ok (snd po)) h ->
  wf (run_ops root h) /\ abs (run_ops root h) = spec_run (abs root) h.
Proof.
  unfold run_ops, spec_run. induction h as [|po h IH]; intros root W H; simpl; [auto|].
  inversion H; subst. destruct (step_op_spec root po W) as [W1 E1]; auto.
  rewrite <- E1. apply IH; auto.
Qed.
