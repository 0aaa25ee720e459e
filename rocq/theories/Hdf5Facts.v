(** Trees kept in HDF5 files: the file is the tree, operation by operation. *)
From Verif Require CsvNum.
From Verif Require Import Base DType SpecTree Mem Node SpecNode NodeFacts Json JsonSpec MatSet MatSetFacts AdjSet AdjSetFacts Hdf5 Hdf5Spec.
Local Open Scope Z_scope.
Import ListNotations.

(** * Names *)
Lemma h_split_plain s : ~ In "/"%char s -> forall acc, h_split s acc = [rev acc ++ s].
Proof.
  induction s as [|c s IH]; intros N acc; cbn [h_split]; [rewrite app_nil_r; reflexivity|].
  destruct (Ascii.eqb c "/") eqn:E; [apply Ascii.eqb_eq in E; subst; destruct N; left; reflexivity|].
  rewrite IH by (intros H; apply N; right; exact H). cbn [rev]. rewrite <- app_assoc. reflexivity.
Qed.
Lemma comps_plain k : plain_name k -> h_comps k = [k].
Proof.
  intros (N1 & N2 & N3 & _). unfold h_comps. rewrite h_split_plain by exact N2. cbn [rev app filter].
  rewrite (proj2 (str_eqb_neq k []) N1), (proj2 (str_eqb_neq k (L ".")) N3). reflexivity.
Qed.
Lemma plain_rel k : plain_name k -> absolute k = false.
Proof.
  intros (N1 & N2 & _). destruct k as [|c k]; [congruence|]. cbn. destruct (Ascii.eqb c "/") eqn:E; [|reflexivity].
  apply Ascii.eqb_eq in E; subst. destruct N2. left. reflexivity.
Qed.
Lemma open_plain b ls k : plain_name k -> h_open (HGroup b ls) k = Ok (mget ls k).
Proof.
  intros P. unfold h_open. destruct k as [|c k'] eqn:E; [destruct P; congruence|]. rewrite <- E in *. rewrite plain_rel, comps_plain by exact P.
  cbn [h_find]. destruct (mget ls k); reflexivity.
Qed.
Lemma put_plain b ls k f : plain_name k -> h_put (HGroup b ls) k f =
  (let '(h, mv, s) := f (mget ls k) in
   (match h with None => HGroup b ls | Some x => HGroup b (if mv then mdel ls k ++ [(k, x)] else mset ls k x) end, s)).
Proof.
  intros P. unfold h_put. destruct k as [|c k'] eqn:E; [destruct P; congruence|]. rewrite <- E in *. rewrite plain_rel, comps_plain by exact P.
  reflexivity.
Qed.
Lemma digit_plain_char c : digit c -> c <> "/"%char /\ c <> "."%char.
Proof. unfold digit. cbn [L list_ascii_of_string In]. intros H. repeat (destruct H as [<-|H]; [split; discriminate|]); destruct H. Qed.
Lemma show_plain i : 0 <= i -> plain_name (show_Z i).
Proof.
  intros I. assert (D : digits (show_Z i)).
  { destruct (CsvNum.show_Z_text i) as (s & D & _ & E). rewrite E. replace (i <? 0) with false by lia. exact D. }
  destruct D as [D1 D2]. rewrite Forall_forall in D2. repeat split.
  - exact D1.
  - intros H. apply D2 in H. apply digit_plain_char in H. destruct H; congruence.
  - intros H. rewrite H in D2. destruct (digit_plain_char "."%char); [apply D2; left; reflexivity|congruence].
  - intros H. rewrite H in D2. destruct (digit_plain_char "."%char); [apply D2; left; reflexivity|congruence].
Qed.

(** * The file of a tree *)
Fixpoint enc (s : tree leafval) : hobj :=
  match s with
  | TLeaf None => HNull
  | TLeaf (Some (t, e, es)) => HDset (t, e) es (large t es)
  | TObj d => HGroup false (map (fun e => (fst e, enc (snd e))) d)
  | TList ts => HGroup true (combine (entry_names (length ts)) (map enc ts))
  end.

Lemma map_mset {A B} (g : A -> B) (l : list (str * A)) k v :
  map (fun c => (fst c, g (snd c))) (mset l k v) = mset (map (fun c => (fst c, g (snd c))) l) k (g v).
Proof. induction l as [|[k' v'] l IH]; [reflexivity|]. cbn [mset map fst snd]. destruct (str_eqb k k'); cbn [map fst snd]; [reflexivity|rewrite IH; reflexivity]. Qed.
Lemma mset_same {A} (l : list (str * A)) k v : mget l k = Some v -> mset l k v = l.
Proof.
  induction l as [|[k' v'] l IH]; cbn [mget mset]; [discriminate|]. destruct (str_eqb_spec k k') as [->|]; intros H; [injection H as ->; reflexivity|].
  rewrite IH by exact H. reflexivity.
Qed.
Lemma map_mdel {A B} (g : A -> B) (l : list (str * A)) k :
  map (fun c => (fst c, g (snd c))) (mdel l k) = mdel (map (fun c => (fst c, g (snd c))) l) k.
Proof. induction l as [|[k' v'] l IH]; [reflexivity|]. cbn [mdel map fst snd]. destruct (str_eqb k k'); cbn [map fst snd]; rewrite IH; reflexivity. Qed.

Lemma snd_combine {A B} (l1 : list A) (l2 : list B) : length l1 = length l2 -> map snd (combine l1 l2) = l2.
Proof. revert l2. induction l1 as [|x l1 IH]; intros [|y l2] H; try discriminate; [reflexivity|]. cbn. rewrite IH by (injection H; auto). reflexivity. Qed.
Lemma snd_entries (d : list (tree leafval)) : map snd (combine (entry_names (length d)) (map enc d)) = map enc d.
Proof. apply snd_combine. unfold entry_names. rewrite !map_length, seq_length. reflexivity. Qed.
(** names of list entries from place [a] *)
Definition names_from (a n : nat) : list str := map (fun i => show_Z (Z.of_nat i)) (seq a n).
Lemma entry_names_from n : entry_names n = names_from 0 n.
Proof. reflexivity. Qed.
Lemma names_cons a n : names_from a (S n) = show_Z (Z.of_nat a) :: names_from (S a) n.
Proof. reflexivity. Qed.
Lemma show_nat_inj i j : show_Z (Z.of_nat i) = show_Z (Z.of_nat j) -> i = j.
Proof. intros H. apply show_inj in H. lia. Qed.
Lemma mget_entry {A} (l : list A) : forall a i, mget (combine (names_from a (length l)) l) (show_Z (Z.of_nat (a + i))) = nth_error l i.
Proof.
  induction l as [|x l IH]; intros a i; [destruct i; reflexivity|]. cbn [length]. rewrite names_cons. cbn [combine mget].
  destruct i as [|i].
  - rewrite Nat.add_0_r, str_eqb_refl. reflexivity.
  - destruct (str_eqb_spec (show_Z (Z.of_nat (a + S i))) (show_Z (Z.of_nat a))) as [E|_]; [apply show_nat_inj in E; lia|].
    replace (a + S i)%nat with (S a + i)%nat by lia. apply IH.
Qed.
Lemma mset_entry {A} (l1 l2 : list A) x y : forall a,
  mset (combine (names_from a (length (l1 ++ x :: l2))) (l1 ++ x :: l2)) (show_Z (Z.of_nat (a + length l1))) y =
  combine (names_from a (length (l1 ++ y :: l2))) (l1 ++ y :: l2).
Proof.
  induction l1 as [|z l1 IH]; intros a; cbn [app length]; rewrite !names_cons; cbn [combine mset].
  - rewrite Nat.add_0_r, str_eqb_refl. reflexivity.
  - destruct (str_eqb_spec (show_Z (Z.of_nat (a + S (length l1)))) (show_Z (Z.of_nat a))) as [E|_]; [apply show_nat_inj in E; lia|].
    f_equal. replace (a + S (length l1))%nat with (S a + length l1)%nat by lia. apply IH.
Qed.
Lemma mset_entry_new {A} (l : list A) y : forall a,
  mset (combine (names_from a (length l)) l) (show_Z (Z.of_nat (a + length l))) y =
  combine (names_from a (length (l ++ [y]))) (l ++ [y]).
Proof.
  induction l as [|z l IH]; intros a; cbn [app length].
  - rewrite Nat.add_0_r. reflexivity.
  - rewrite !names_cons. cbn [combine mset].
    destruct (str_eqb_spec (show_Z (Z.of_nat (a + S (length l)))) (show_Z (Z.of_nat a))) as [E|_]; [apply show_nat_inj in E; lia|].
    f_equal. replace (a + S (length l))%nat with (S a + length l)%nat by lia. apply IH.
Qed.

Section Machine.
  Variable mach : endian.
  Hypothesis Hm : mach <> DEFAULT_E.

  (** * What the check says *)
  Definition says (r : outcome bool) (b : bool) : Prop := r = Ok b \/ (r = Err /\ b = false).
  Lemma says_all {A} (f : A -> outcome bool) (g : A -> bool) l : Forall (fun x => says (f x) (g x)) l -> says (c_all (map f l)) (forallb g l).
  Proof.
    induction 1 as [|x l [H|[H1 H2]] _ IH]; cbn [map c_all forallb]; [left; reflexivity| |].
    - rewrite H. destruct (g x); [exact IH|left; reflexivity].
    - rewrite H1, H2. right. split; reflexivity.
  Qed.
  Lemma fits_none v : fits mach None v = true.
  Proof.
    induction v as [l|es IH|ts IH] using tree_ind''; [reflexivity| |].
    - cbn [fits entries mget]. apply forallb_forall. rewrite Forall_forall in IH. exact IH.
    - cbn [fits items]. destruct ts; reflexivity.
  Qed.
  Lemma ftype_stored t e : ftype_of mach t e = (t, if tid_eqb t CHAR8_STR then DEFAULT_E else resolve mach e).
  Proof. reflexivity. Qed.
  Lemma check_enc v : storable v -> forall s, same_kinds (Some s) v -> says (c_node mach no_opts v (enc s)) (fits mach (Some s) v).
  Proof.
    induction v as [l|es IH|ts IH] using tree_ind''; intros St s K.
    - cbn [c_node fits]. destruct s as [l0|d|d].
      + destruct l0 as [[[t0 e0] x]|]; destruct l as [[[t e] y]|]; cbn [enc c_leaf leaf_fits stored].
        * left. f_equal. unfold ftype_eqb, ftype_of. cbn [fst snd given no_opts w_off w_str]. rewrite !orb_false_r.
          f_equal; [f_equal|].
          -- destruct (tid_eqb t t0) eqn:E; [apply tid_eqb_eq in E; subst; symmetry; apply tid_eqb_refl|].
             symmetry. destruct (tid_eqb t0 t) eqn:E2; [apply tid_eqb_eq in E2; subst; rewrite tid_eqb_refl in E; discriminate|reflexivity].
          -- unfold endian_eqb. destruct (endian_eq_dec _ _) as [E|E], (endian_eq_dec e0 _) as [E2|E2]; congruence.
          -- f_equal. apply Nat.eqb_sym.
        * right. split; reflexivity.
        * left. reflexivity.
        * left. reflexivity.
      + left. reflexivity.
      + left. reflexivity.
    - inversion St as [|? Nd F|]; subst. cbn [c_node].
      assert (G : forall b ls, (forall k, plain_name k -> mget ls k = option_map enc (mget (entries (Some s)) k)) ->
        Forall (fun e => same_kinds (mget (entries (Some s)) (fst e)) (snd e)) es ->
        says (c_all (map (fun e => do c <- h_open (HGroup b ls) (fst e); match c with Some u => c_node mach no_opts (snd e) u | None => Ok true end) es))
             (forallb (fun e => fits mach (mget (entries (Some s)) (fst e)) (snd e)) es)).
      { intros b ls E Ks. apply says_all. rewrite Forall_forall in *. intros e He. destruct (F e He) as [P S1].
        rewrite open_plain by exact P. cbn [obind]. rewrite E by exact P. specialize (Ks e He).
        destruct (mget (entries (Some s)) (fst e)) as [u|]; cbn [option_map].
        - apply IH; assumption.
        - left. rewrite fits_none. reflexivity. }
      destruct s as [l|d|d]; cbn [enc].
      + left. destruct l as [[[? ?] ?]|]; reflexivity.
      + apply G; [intros k _; cbn [entries]; rewrite mget_map_val; reflexivity|].
        inversion K; subst; assumption.
      + inversion K; subst. destruct d; [|discriminate]. apply G; [reflexivity|assumption].
    - inversion St as [| |? Ln F]; subst. cbn [c_node].
      assert (G : forall us ls, map snd ls = map enc us ->
        (forall i c, nth_error ts i = Some c -> same_kinds (nth_error us i) c) ->
        says ((fix go (ts : list (tree leafval)) (us : list (str * hobj)) : outcome bool :=
               match ts, us with
               | [], _ | _, [] => Ok true
               | c :: ts', u :: us' => match c_node mach no_opts c (snd u) with Ok true => go ts' us' | x => x end
               end) ts ls)
             ((fix go (ts us : list (tree leafval)) : bool :=
                match ts, us with
                | c :: ts', u :: us' => fits mach (Some u) c && go ts' us'
                | _, _ => true
                end) ts us)).
      { clear - IH F. induction ts as [|c ts IHt]; intros us ls E Ks; [left; reflexivity|].
        inversion IH as [|? ? I1 I2]; subst. inversion F as [|? ? F1 F2]; subst.
        destruct us as [|u us]; destruct ls as [|x ls]; try discriminate; [left; reflexivity|]. cbn [map] in E. injection E as E1 E2. rewrite E1.
        destruct (I1 F1 u (Ks O c eq_refl)) as [H|[H1 H2]].
        - rewrite H. destruct (fits mach (Some u) c); [|left; reflexivity]. cbn [andb]. apply IHt; auto. intros i c' H'. apply (Ks (S i) c' H').
        - rewrite H1, H2. right. split; reflexivity. }
      destruct s as [l|d|d]; cbn [enc fits items].
      + left. destruct l as [[[? ?] ?]|]; reflexivity.
      + inversion K; subst. destruct d; [|discriminate]. apply (G [] []); [reflexivity|assumption].
      + inversion K; subst. apply G; [apply snd_entries|assumption].
  Qed.

  (** * Writing one leaf *)
  Lemma size_mono t (x y : list elem) : (length x <= length y)%nat -> leaf_size t x <= leaf_size t y.
  Proof. unfold leaf_size. intros H. apply Z.mul_le_mono_nonneg_l; [destruct t; cbn; lia|lia]. Qed.
  Lemma unlimited_large t es : unlimited false t es = large t es.
  Proof.
    unfold unlimited, large, compact_threshold, chunk_threshold. cbn [negb andb orb]. change (default_bytes t * Z.of_nat (length es)) with (leaf_size t es).
    destruct (leaf_size t es <=? 1024) eqn:E; [|reflexivity]. symmetry. lia.
  Qed.
  Lemma nth_over (es old : list elem) z j : (j < length (es ++ skipn (length es) old))%nat ->
    nth j (es ++ skipn (length es) old) z = if (j <? length es)%nat then nth j es z else nth j old z.
  Proof.
    intros H. destruct (Nat.ltb_spec j (length es)) as [B|B].
    - apply app_nth1, B.
    - rewrite app_nth2 by exact B. rewrite <- (firstn_skipn (length es) old) at 2.
      rewrite app_length, skipn_length in H. rewrite app_nth2; rewrite firstn_length; [|lia]. f_equal. lia.
  Qed.
  Lemma slab_front t (es old : list elem) :
    map (slab_at 0 1 t es old) (seq 0 (Nat.max (length old) (length es))) = es ++ skipn (length es) old.
  Proof.
    assert (Ln : length (es ++ skipn (length es) old) = Nat.max (length old) (length es)) by (rewrite app_length, skipn_length; lia).
    apply nth_ext with (d := slab_at 0 1 t es old 0) (d' := zero_elem t); [rewrite map_length, seq_length; symmetry; exact Ln|].
    intros j H. rewrite map_length, seq_length in H. rewrite map_nth, seq_nth by exact H. rewrite nth_over by lia.
    unfold slab_at. cbn [Nat.add]. rewrite Z.sub_0_r, Z.mod_1_r, Z.div_1_r, Nat2Z.id. replace (0 <=? Z.of_nat j) with true by lia. cbn [andb Z.eqb].
    destruct (Nat.ltb_spec j (length es)); destruct (Z.ltb_spec (Z.of_nat j) (Z.of_nat (length es))); try lia; reflexivity.
  Qed.
  Lemma ftype_eqb_refl a : ftype_eqb a a = true.
  Proof. unfold ftype_eqb. rewrite tid_eqb_refl, endian_eqb_refl. reflexivity. Qed.
  Lemma dset_over t e es old unl : Z.of_nat (length es) < 2 ^ 63 ->
    unl = true \/ length es = length old ->
    w_dset mach no_opts t e es (ftype_of mach t e) old unl = (Some (HDset (ftype_of mach t e) (es ++ skipn (length es) old) unl), false, Ok tt).
  Proof.
    intros B H. unfold w_dset. cbn [no_opts w_off w_str or_else]. cbn [Z.eqb]. rewrite ftype_eqb_refl. cbn [negb andb].
    destruct unl; cbn [negb andb].
    - replace ((_ <? 0) || _) with false by lia. do 4 f_equal.
      rewrite <- (slab_front t). f_equal. f_equal. lia.
    - destruct H as [H|H]; [discriminate|]. change (0 =? 0) with true. change (1 =? 1) with true. cbn [andb].
      rewrite <- H, Nat.ltb_irrefl, firstn_all. rewrite skipn_all2 by lia. rewrite app_nil_r. reflexivity.
  Qed.
  Lemma w_leaf_new t e es : Z.of_nat (length es) < 2 ^ 63 ->
    w_leaf mach no_opts t e es None = (Some (enc (TLeaf (stored mach (Some (t, e, es))))), false, Ok tt).
  Proof.
    intros B. unfold w_leaf. cbn [no_opts w_off given]. fold no_opts. rewrite unlimited_large.
    rewrite dset_over; [|exact B|right; symmetry; apply map_length].
    rewrite skipn_all2 by (rewrite map_length; lia). rewrite app_nil_r. reflexivity.
  Qed.
  Lemma w_leaf_old t e es t0 e0 x : Z.of_nat (length es) < 2 ^ 63 -> leaf_fits (Some (t0, e0, x)) (stored mach (Some (t, e, es))) = true ->
    w_leaf mach no_opts t e es (Some (enc (TLeaf (Some (t0, e0, x))))) =
    (Some (enc (TLeaf (leaf_over (Some (t0, e0, x)) (stored mach (Some (t, e, es)))))), false, Ok tt).
  Proof.
    intros B F. cbn [leaf_fits stored] in F. apply andb_prop in F. destruct F as [F F3]. apply andb_prop in F. destruct F as [F1 F2].
    apply tid_eqb_eq in F1. apply endian_eqb_eq in F2. subst t0 e0. cbn [enc w_leaf leaf_over stored].
    change (t, if tid_eqb t CHAR8_STR then DEFAULT_E else resolve mach e) with (ftype_of mach t e).
    assert (C : large t x = true \/ length es = length x).
    { destruct (large t x); [left; reflexivity|right]. cbn [orb] in F3. apply Nat.eqb_eq in F3. lia. }
    rewrite dset_over by assumption. do 4 f_equal. destruct C as [C|C].
    - rewrite C. symmetry. unfold large in *. change (default_bytes t * Z.of_nat (length x)) with (leaf_size t x) in C.
      change (default_bytes t * Z.of_nat (length (es ++ skipn (length es) x))) with (leaf_size t (es ++ skipn (length es) x)).
      pose proof (size_mono t x (es ++ skipn (length es) x)) as S1. rewrite app_length, skipn_length in S1. specialize (S1 ltac:(lia)). lia.
    - unfold large. rewrite app_length, skipn_length, C, Nat.sub_diag, Nat.add_0_r. reflexivity.
  Qed.

  (** * Writing a node *)
  (** what the file has after the child *)
  Definition does (r : option hobj * bool * outcome unit) (old : option (tree leafval)) (new : tree leafval) : Prop :=
    exists h, r = (h, false, Ok tt) /\ (h = Some (enc new) \/ (h = None /\ old = Some new)).
  Definition puts_obj := fix go (es : list (str * tree leafval)) (d : list (str * tree leafval)) :=
    match es with [] => d | e :: r => go r (mset d (fst e) (put mach (mget d (fst e)) (snd e))) end.
  Definition puts_list := fix go (ts us : list (tree leafval)) : list (tree leafval) :=
    match ts, us with
    | [], _ => us
    | c :: ts', [] => put mach None c :: go ts' []
    | c :: ts', u :: us' => put mach (Some u) c :: go ts' us'
    end.
  Definition fits_list := fix go (ts us : list (tree leafval)) : bool :=
    match ts, us with
    | c :: ts', u :: us' => fits mach (Some u) c && go ts' us'
    | _, _ => true
    end.
  Definition kid_does (v : tree leafval) : Prop := forall old, same_kinds old v -> fits mach old v = true ->
    does (w_kid mach no_opts (w_children mach no_opts v) v (option_map enc old)) old (put mach old v).
  Lemma does_put b d k v : plain_name k ->
    does (w_kid mach no_opts (w_children mach no_opts v) v (option_map enc (mget d k))) (mget d k) (put mach (mget d k) v) ->
    h_put (HGroup b (map (fun e => (fst e, enc (snd e))) d)) k (w_kid mach no_opts (w_children mach no_opts v) v) =
    (HGroup b (map (fun e => (fst e, enc (snd e))) (mset d k (put mach (mget d k) v))), Ok tt).
  Proof.
    intros P (h & E & H). rewrite put_plain by exact P. rewrite mget_map_val, E. destruct H as [->|[-> H]].
    - rewrite map_mset. reflexivity.
    - rewrite mset_same by exact H. reflexivity.
  Qed.
  Lemma seq_obj es : Forall (fun e => kid_does (snd e)) es -> NoDup (map fst es) -> Forall (fun e => plain_name (fst e)) es -> forall d,
    Forall (fun e => same_kinds (mget d (fst e)) (snd e)) es -> forallb (fun e => fits mach (mget d (fst e)) (snd e)) es = true ->
    w_seq (map (fun e => (fst e, w_kid mach no_opts (w_children mach no_opts (snd e)) (snd e))) es) (HGroup false (map (fun e => (fst e, enc (snd e))) d)) =
    (HGroup false (map (fun e => (fst e, enc (snd e))) (puts_obj es d)), Ok tt).
  Proof.
    induction es as [|e es IH]; intros K N P d S F; [reflexivity|].
    inversion K as [|? ? K1 K2]; subst. inversion P as [|? ? P1 P2]; subst. inversion S as [|? ? S1 S2]; subst.
    cbn [map] in N. inversion N as [|? ? N1 N2]; subst. cbn [forallb] in F. apply andb_prop in F. destruct F as [F1 F2].
    cbn [map w_seq puts_obj]. rewrite does_put; [|exact P1|apply K1; assumption].
    assert (Q : forall x, In x es -> mget (mset d (fst e) (put mach (mget d (fst e)) (snd e))) (fst x) = mget d (fst x)).
    { intros x Hx. apply mget_mset_other. intros E. apply N1. rewrite <- E. apply in_map, Hx. }
    apply IH; auto.
    - rewrite Forall_forall in *. intros x Hx. rewrite Q by exact Hx. apply S2, Hx.
    - apply forallb_forall. intros x Hx. rewrite Q by exact Hx. rewrite forallb_forall in F2. apply F2, Hx.
  Qed.
  Lemma names_app a n : combine (names_from a n) (@nil hobj) = [].
  Proof. destruct n; reflexivity. Qed.
  Definition elist (l : list (tree leafval)) : hobj := HGroup true (combine (names_from 0 (length l)) (map enc l)).
  Lemma elist_get l i : mget (combine (names_from 0 (length l)) (map enc l)) (show_Z (Z.of_nat i)) = option_map enc (nth_error l i).
  Proof. rewrite <- (map_length enc l). rewrite <- nth_error_map. exact (mget_entry (map enc l) 0 i). Qed.
  Lemma seq_list ts : Forall kid_does ts -> forall done us,
    (forall i c, nth_error ts i = Some c -> same_kinds (nth_error us i) c) -> fits_list ts us = true ->
    w_seq (combine (names_from (length done) (length ts)) (map (fun c => w_kid mach no_opts (w_children mach no_opts c) c) ts)) (elist (done ++ us)) =
    (elist (done ++ puts_list ts us), Ok tt).
  Proof.
    induction ts as [|c ts IH]; intros K done us S F; [reflexivity|].
    inversion K as [|? ? K1 K2]; subst. cbn [length]. rewrite names_cons. cbn [map combine w_seq puts_list].
    unfold elist at 1. rewrite put_plain by (apply show_plain; lia). rewrite elist_get.
    pose proof (S O c eq_refl) as S1.
    destruct us as [|u us]; cbn [nth_error] in S1.
    - rewrite app_nil_r. rewrite (proj2 (nth_error_None done (length done))) by lia. cbn [option_map].
      destruct (K1 None S1 (fits_none c)) as (h & E & H). cbn [option_map] in E. rewrite E. destruct H as [->|[_ H]]; [|discriminate].
      assert (Q : mset (combine (names_from 0 (length done)) (map enc done)) (show_Z (Z.of_nat (length done))) (enc (put mach None c)) =
        combine (names_from 0 (length (done ++ [put mach None c]))) (map enc (done ++ [put mach None c]))).
      { pose proof (mset_entry_new (map enc done) (enc (put mach None c)) 0) as Q. rewrite map_length in Q.
        change [enc (put mach None c)] with (map enc [put mach None c]) in Q. rewrite <- map_app, map_length in Q. exact Q. }
      rewrite Q. change (HGroup true (combine (names_from 0 (length (done ++ [put mach None c]))) (map enc (done ++ [put mach None c])))) with (elist (done ++ [put mach None c])).
      replace (Datatypes.S (length done)) with (length (done ++ [put mach None c])) by (rewrite app_length; cbn; lia).
      rewrite <- (app_nil_r (done ++ [put mach None c])) at 2. rewrite IH; [rewrite <- app_assoc; reflexivity|exact K2| |destruct ts; reflexivity].
      intros i c' H'. specialize (S (Datatypes.S i) c' H'). cbn in S. destruct i; exact S.
    - rewrite nth_error_app2 by lia. rewrite Nat.sub_diag. cbn [nth_error option_map].
      cbn [fits_list] in F. apply andb_prop in F. destruct F as [F1 F2].
      destruct (K1 (Some u) S1 F1) as (h & E & H). cbn [option_map] in E. rewrite E.
      assert (G : (match h with None => HGroup true (combine (names_from 0 (length (done ++ u :: us))) (map enc (done ++ u :: us)))
                   | Some x => HGroup true (mset (combine (names_from 0 (length (done ++ u :: us))) (map enc (done ++ u :: us))) (show_Z (Z.of_nat (length done))) x) end)
              = elist ((done ++ [put mach (Some u) c]) ++ us)).
      { rewrite <- app_assoc. cbn [app]. destruct H as [->|[-> H]].
        - unfold elist. f_equal.
          pose proof (mset_entry (map enc done) (map enc us) (enc u) (enc (put mach (Some u) c)) 0) as Q.
          change (enc u :: map enc us) with (map enc (u :: us)) in Q. change (enc (put mach (Some u) c) :: map enc us) with (map enc (put mach (Some u) c :: us)) in Q.
          rewrite <- !map_app, !map_length in Q. exact Q.
        - injection H as H. rewrite <- H. reflexivity. }
      rewrite G. replace (Datatypes.S (length done)) with (length (done ++ [put mach (Some u) c])) by (rewrite app_length; cbn; lia).
      rewrite IH; [rewrite <- app_assoc; reflexivity|exact K2| |exact F2]. intros i c' H'. apply (S (Datatypes.S i) c' H').
  Qed.
  (** an object or a list over a group that holds none of the other kind *)
  Lemma children_obj es : Forall (fun e => kid_does (snd e)) es -> NoDup (map fst es) -> Forall (fun e => plain_name (fst e)) es -> forall s,
    same_kinds (Some s) (TObj es) -> fits mach (Some s) (TObj es) = true ->
    w_children mach no_opts (TObj es) (enc s) = (enc (put mach (Some s) (TObj es)), Ok tt).
  Proof.
    intros K N P s S F. cbn [w_children]. assert (E : mark false (enc s) = HGroup false (map (fun e => (fst e, enc (snd e))) (entries (Some s)))).
    { destruct s as [l|d|d]; [destruct l; discriminate|reflexivity|]. inversion S as [| | |? ? D _|]; subst. destruct d; [reflexivity|discriminate]. }
    rewrite E. cbn [put enc]. fold puts_obj. apply seq_obj; auto.
    - inversion S; subst; [apply Forall_forall; intros x _; exact (sk_none _)|assumption].
    - cbn [fits] in F. destruct s; [discriminate|exact F|exact F].
  Qed.
  Lemma children_list ts : Forall kid_does ts -> forall s,
    same_kinds (Some s) (TList ts) -> fits mach (Some s) (TList ts) = true ->
    w_children mach no_opts (TList ts) (enc s) = (enc (put mach (Some s) (TList ts)), Ok tt).
  Proof.
    intros K s S F. cbn [w_children]. assert (E : mark true (enc s) = elist (items (Some s))).
    { destruct s as [l|d|d]; [destruct l; discriminate| |reflexivity]. inversion S as [| | | |? ? D _]; subst. destruct d; [reflexivity|discriminate]. }
    rewrite E. cbn [put enc]. fold puts_list. rewrite entry_names_from. apply (seq_list ts K [] (items (Some s))).
    - inversion S; subst; [discriminate|assumption].
    - cbn [fits] in F. destruct s; [discriminate|exact F|exact F].
  Qed.
  Lemma kid_ok v : storable v -> kid_does v.
  Proof.
    induction v as [l|es IH|ts IH] using tree_ind''; intros St old K F.
    - inversion St as [? Lk| |]; subst. destruct l as [[[t e] es]|]; cbn [w_kid].
      + destruct Lk as [_ B]. destruct old as [[l0|d|d]|]; cbn [option_map]; try discriminate F.
        * destruct l0 as [[[t0 e0] x]|]; [|discriminate F]. rewrite w_leaf_old by assumption. eexists. split; [reflexivity|left; reflexivity].
        * rewrite w_leaf_new by exact B. eexists. split; [reflexivity|left; reflexivity].
      + destruct old as [[l0|d|d]|]; cbn [option_map]; try discriminate F; eexists; (split; [reflexivity|]).
        * destruct l0 as [[[t0 e0] x]|]; [discriminate F|]. right. split; reflexivity.
        * left. reflexivity.
    - inversion St as [|? Nd Fo|]; subst.
      assert (K1 : Forall (fun e => kid_does (snd e)) es) by (rewrite Forall_forall in *; intros e He; apply IH; [exact He|apply Fo, He]).
      assert (K2 : Forall (fun e => plain_name (fst e)) es) by (rewrite Forall_forall in *; intros e He; apply Fo, He).
      cbn [w_kid]. destruct old as [s|].
      + destruct s as [l|d|d]; [cbn [fits] in F; discriminate F| |]; cbn [option_map].
        * rewrite (children_obj es K1 Nd K2 (TObj d)) by assumption. eexists. split; [reflexivity|left; reflexivity].
        * rewrite (children_obj es K1 Nd K2 (TList d)) by assumption. eexists. split; [reflexivity|left; reflexivity].
      + cbn [option_map]. change (HGroup false []) with (enc (TObj [])).
        rewrite (children_obj es K1 Nd K2 (TObj [])).
        * eexists. split; [reflexivity|left; reflexivity].
        * constructor; [reflexivity|]. apply Forall_forall. intros x _. exact (sk_none _).
        * exact F.
    - inversion St as [| |? Ln Fo]; subst.
      assert (K1 : Forall kid_does ts) by (rewrite Forall_forall in *; intros e He; apply IH; [exact He|apply Fo, He]).
      cbn [w_kid]. destruct old as [s|].
      + destruct s as [l|d|d]; [cbn [fits] in F; discriminate F| |]; cbn [option_map].
        * rewrite (children_list ts K1 (TObj d)) by assumption. eexists. split; [reflexivity|left; reflexivity].
        * rewrite (children_list ts K1 (TList d)) by assumption. eexists. split; [reflexivity|left; reflexivity].
      + cbn [option_map]. change (HGroup false []) with (enc (TObj [])).
        rewrite (children_list ts K1 (TObj [])).
        * eexists. split; [reflexivity|left; reflexivity].
        * constructor; [reflexivity|]. intros i c _. cbn. destruct i; exact (sk_none _).
        * exact F.
  Qed.
End Machine.
