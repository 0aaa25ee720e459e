(** Proofs about tables written as comma separated text and read back. *)
From Coq Require Import ZArith Lia Floats.SpecFloat.
From Verif Require Import Base DType Mem Number ArrayOps Codec Json JsonSpec JsonSchema FloatText Node NodeFacts MatSet HistFacts Csv.
Local Open Scope nat_scope.

(** * What is claimed *)
(** element [c], read as a number of type [t], is [x] *)
Definition back (t : tid) (c : cell) (x : spec_float) : Prop := exists i, stox t (show c) = Ok (x, i).
Definition leaf_back (t : tid) (l : list cell) (n : rnode) : Prop :=
  exists xs, n = RLeaf xs /\ Forall2 (back t) l xs.
Definition col_back (t : tid) (c : col) (n : rnode) : Prop :=
  match c with
  | Leaf l => leaf_back t l n
  | Group g => exists ks, n = RObj ks /\
                 Forall2 (fun a b => fst a = fst b /\ leaf_back t (snd a) (snd b)) (named g) ks
  end.
Definition table_back (t : tid) (v : values) (n : rnode) : Prop :=
  exists ks, n = RObj ks /\ Forall2 (fun a b => fst a = fst b /\ col_back t (snd a) (snd b)) (named v) ks.

(** names that survive *)
Definition blank_free (s : str) : Prop :=
  forall c r, s = c :: r \/ s = r ++ [c] -> c_space c = false.
Definition good_name (s : str) : Prop :=
  s <> [] /\ s <> L ".." /\ ~ In ","%char s /\ ~ In c_nl s /\ ~ In slash s /\ blank_free s.
(** the entries of the first line *)
Definition titles (v : values) : list str :=
  flat_map (fun e => match snd e with
                     | Leaf _ => [fst e]
                     | Group g => map (fun c => fst e ++ slash :: fst c) (named g)
                     end) (named v).
Definition a_number (s : str) : Prop := exists x, stox FLOAT64 s = Ok (x, length s).
Definition good_table (t : tid) (n : nat) (v : values) : Prop :=
  NoDup (map fst (named v)) /\
  Forall (fun e => good_name (fst e) /\
            match snd e with
            | Leaf l => length l = n /\ Forall (fun c => exists x, back t c x) l
            | Group g => 2 <= length (named g) /\ NoDup (map fst (named g)) /\
                Forall (fun e' => good_name (fst e') /\ length (snd e') = n /\
                                  Forall (fun c => exists x, back t c x) (snd e')) (named g)
            end) (named v) /\
  Exists (fun s => ~ a_number s) (titles v).

(** * Text *)
Lemma pieces_none sep s : ~ In sep s -> pieces sep s = [s].
Proof.
  induction s as [|c r IH]; cbn [pieces]; intros H; [reflexivity|].
  destruct (Ascii.eqb_spec c sep) as [E|_]; [elim H; left; exact E|].
  rewrite IH by (intros I; apply H; right; exact I). reflexivity.
Qed.
Lemma pieces_app sep a b : ~ In sep a -> pieces sep (a ++ sep :: b) = a :: pieces sep b.
Proof.
  induction a as [|c r IH]; cbn [pieces app]; intros H.
  - rewrite Ascii.eqb_refl. reflexivity.
  - destruct (Ascii.eqb_spec c sep) as [E|_]; [elim H; left; exact E|].
    rewrite IH by (intros I; apply H; right; exact I). reflexivity.
Qed.
Definition spaced (l : list str) : list str :=
  match l with [] => [[]] | x :: r => x :: map (cons " "%char) r end.
Lemma pieces_join l : Forall (fun s => ~ In ","%char s) l -> pieces "," (join l) = spaced l.
Proof.
  induction l as [|x r IH]; intros H; [reflexivity|]. inversion_clear H as [|? ? H1 H2].
  destruct r as [|y r]; [cbn; apply pieces_none, H1|].
  change (join (x :: y :: r)) with (x ++ ","%char :: " "%char :: join (y :: r)).
  rewrite pieces_app by exact H1. cbn [spaced map]. f_equal.
  specialize (IH H2). remember (join (y :: r)) as s. cbn [pieces].
  change (Ascii.eqb " " ",") with false. cbv iota. rewrite IH. reflexivity.
Qed.
Lemma join_cons x y r : join (x :: y :: r) = x ++ L ", " ++ join (y :: r).
Proof. reflexivity. Qed.
Lemma join_app a : forall b, a <> [] -> b <> [] -> join (a ++ b) = join a ++ L ", " ++ join b.
Proof.
  induction a as [|x [|y a] IH]; intros b A B; [congruence| |].
  - destruct b as [|z b]; [congruence|]. reflexivity.
  - change ((x :: y :: a) ++ b) with (x :: y :: (a ++ b)). rewrite join_cons.
    change (y :: (a ++ b)) with ((y :: a) ++ b). rewrite IH by (congruence || exact B).
    rewrite join_cons, <- !app_assoc. reflexivity.
Qed.
Lemma join_join ls : Forall (fun l => l <> []) ls -> join (map join ls) = join (concat ls).
Proof.
  induction ls as [|x [|y r] IH]; intros H; [reflexivity| |].
  - cbn. rewrite app_nil_r. reflexivity.
  - inversion_clear H as [|? ? H1 H2]. cbn [map]. rewrite join_cons.
    change (concat (x :: y :: r)) with (x ++ concat (y :: r)). rewrite join_app; [|exact H1|].
    + f_equal. f_equal. rewrite <- IH by exact H2. reflexivity.
    + inversion_clear H2. destruct y; [congruence|]. cbn. discriminate.
Qed.
Lemma join_free c l : ~ In c (L ", ") -> Forall (fun s => ~ In c s) l -> ~ In c (join l).
Proof.
  intros N. induction l as [|x [|y r] IH]; intros H; [intros []| |]; inversion_clear H as [|? ? H1 H2]; [exact H1|].
  rewrite join_cons, !in_app_iff. intros [I|[I|I]]; [exact (H1 I)|exact (N I)|exact (IH H2 I)].
Qed.
Lemma pieces_lines rows : Forall (fun s => ~ In c_nl s) rows ->
  pieces c_nl (concat (map (fun s => s ++ [c_nl]) rows)) = rows ++ [[]].
Proof.
  induction rows as [|x r IH]; intros H; [reflexivity|]. inversion_clear H as [|? ? H1 H2].
  cbn [map concat app]. rewrite <- app_assoc. change ([c_nl] ++ ?s) with (c_nl :: s).
  rewrite pieces_app by exact H1. rewrite IH by exact H2. reflexivity.
Qed.
Lemma drop_last l : drop_last_empty (l ++ [[]]) = l.
Proof.
  induction l as [|x r IH]; [reflexivity|]. cbn [app]. destruct (r ++ [[]]) as [|y z] eqn:E.
  - destruct r; discriminate.
  - cbn [drop_last_empty] in *. rewrite IH. destruct x; reflexivity.
Qed.
Lemma lines_ok rows : Forall (fun s => ~ In c_nl s) rows ->
  lines (concat (map (fun s => s ++ [c_nl]) rows)) = rows.
Proof. intros H. unfold lines. rewrite pieces_lines by exact H. apply drop_last. Qed.

Lemma ltrim_id s : (forall c r, s = c :: r -> c_space c = false) -> ltrim s = s.
Proof.
  intros H. destruct s as [|c r]; [reflexivity|]. unfold ltrim. cbn [take_while].
  rewrite (H c r eq_refl). reflexivity.
Qed.
Lemma trim_id s : blank_free s -> trim s = s.
Proof.
  intros H. unfold trim. rewrite (ltrim_id s) by (intros c r E; exact (H c r (or_introl E))).
  rewrite ltrim_id; [apply rev_involutive|]. intros c r E. apply (H c (rev r)). right.
  rewrite <- (rev_involutive s), E. reflexivity.
Qed.
Lemma trim_space s : trim (" "%char :: s) = trim s.
Proof.
  unfold trim. replace (ltrim (" "%char :: s)) with (ltrim s); [reflexivity|].
  unfold ltrim. cbn [take_while]. change (c_space " ") with true. cbv iota.
  destruct (take_while c_space s). reflexivity.
Qed.
Lemma trim_spaced l : l <> [] -> Forall blank_free l -> map trim (spaced l) = l.
Proof.
  intros E H. destruct l as [|x r]; [congruence|]. inversion_clear H as [|? ? H1 H2].
  cbn [spaced map]. f_equal; [apply trim_id, H1|]. rewrite map_map.
  rewrite <- (map_id r) at 2. apply map_ext_in. intros a I. rewrite trim_space. apply trim_id.
  rewrite Forall_forall in H2. exact (H2 a I).
Qed.

(** * Numbers *)
Lemma strto_space p m s : c_strto p m (" "%char :: s) = c_strto p m s.
Proof.
  unfold c_strto. replace (snd (take_while c_space (" "%char :: s))) with (snd (take_while c_space s)); [reflexivity|].
  cbn [take_while]. change (c_space " ") with true. cbv iota. destruct (take_while c_space s). reflexivity.
Qed.
Definition reads (t : tid) (s : str) (x : spec_float) : Prop := exists i, stox t s = Ok (x, i).
Lemma reads_space t s x : reads t s x -> reads t (" "%char :: s) x.
Proof.
  intros (i & H). unfold reads, stox in *. rewrite strto_space.
  destruct (c_strto (prec_of t) (emax_of t) s) as [[v e] [r|]]; [|discriminate].
  destruct e; [discriminate|]. inversion H; subst. eexists; reflexivity.
Qed.
Lemma number_iff s : is_number_text s = true -> s <> [] -> a_number s.
Proof.
  unfold is_number_text, a_number. intros H N. apply Nat.eqb_eq in H.
  destruct (stox FLOAT64 s) as [[x i]| | |]; try (destruct s; [congruence|discriminate]).
  subst. exists x. reflexivity.
Qed.

Lemma Forall2_len {A B} (R : A -> B -> Prop) l l' : Forall2 R l l' -> length l = length l'.
Proof. induction 1; cbn; congruence. Qed.
Lemma combine_app {A B} (a a' : list A) : forall (b b' : list B), length a = length b ->
  combine (a ++ a') (b ++ b') = combine a b ++ combine a' b'.
Proof. induction a as [|x a IH]; intros [|y b] b' E; try discriminate; [reflexivity|]. cbn. f_equal. apply IH. cbn in E. lia. Qed.

(** * The nodes *)
Section Tree.
  Variable t : tid.
  Variable n : nat.
  Notation zero := (S754_zero false).
  (** the columns, as they will be at the end *)
  Definition fcol : Type := list spec_float + list (str * list spec_float).
  Variable g : list spec_float -> list spec_float.
  Definition leaves (l : list (str * list spec_float)) : list (str * rnode) :=
    map (fun e => (fst e, RLeaf (g (snd e)))) l.
  Definition node_of (c : fcol) : rnode :=
    match c with inl xs => RLeaf (g xs) | inr l => RObj (leaves l) end.
  Definition nodes (F : list (str * fcol)) : list (str * rnode) := map (fun e => (fst e, node_of (snd e))) F.
End Tree.
Definition titles_of (F : list (str * fcol)) : list str :=
  flat_map (fun e => match snd e with
                     | inl _ => [fst e]
                     | inr l => map (fun c => fst e ++ slash :: fst c) l
                     end) F.
Definition good_cols (n : nat) (F : list (str * fcol)) : Prop :=
  NoDup (map fst F) /\
  Forall (fun e => good_name (fst e) /\
            match snd e with
            | inl xs => length xs = n
            | inr l => l <> [] /\ NoDup (map fst l) /\ Forall (fun e' => good_name (fst e') /\ length (snd e') = n) l
            end) F.

Lemma mget_mid {A} (a : list (str * A)) k x b : ~ In k (map fst a) -> mget (a ++ (k, x) :: b) k = Some x.
Proof.
  induction a as [|[k' y] r IH]; cbn [map fst app mget]; intros H.
  - rewrite str_eqb_refl. reflexivity.
  - destruct (str_eqb_spec k k') as [E|E]; [elim H; left; congruence|]. apply IH. intros I. apply H. right. exact I.
Qed.
Lemma mset_mid {A} (a : list (str * A)) k x b y : ~ In k (map fst a) -> mset (a ++ (k, x) :: b) k y = a ++ (k, y) :: b.
Proof.
  induction a as [|[k' z] r IH]; cbn [map fst app mset]; intros H.
  - rewrite str_eqb_refl. reflexivity.
  - destruct (str_eqb_spec k k') as [E|E]; [elim H; left; congruence|]. f_equal. apply IH. intros I. apply H. right. exact I.
Qed.
Lemma mset_end {A} (a : list (str * A)) k y : ~ In k (map fst a) -> mset a k y = a ++ [(k, y)].
Proof. intros H. apply mset_new, mget_None_notin, H. Qed.
Lemma at_mid k f l1 x x' l2 r : ~ In k (map fst l1) -> at_path r f x = Ok x' ->
  at_path (k :: r) f (RObj (l1 ++ (k, x) :: l2)) = Ok (RObj (l1 ++ (k, x') :: l2)).
Proof. intros H E. cbn [at_path]. rewrite mget_mid, E by exact H. cbn [obind]. rewrite mset_mid by exact H. reflexivity. Qed.
Lemma at_end k f l1 x' r : ~ In k (map fst l1) -> at_path r f RNone = Ok x' ->
  at_path (k :: r) f (RObj l1) = Ok (RObj (l1 ++ [(k, x')])).
Proof.
  intros H E. cbn [at_path]. apply mget_None_notin in H. rewrite H, E. cbn [obind].
  rewrite mset_new by exact H. reflexivity.
Qed.

Lemma path_one s : good_name s -> path_of s = Ok [s].
Proof.
  intros (N & D & _ & _ & S' & _). unfold path_of. rewrite pieces_none by exact S'. cbn [filter].
  destruct (str_eqb_spec s []); [congruence|]. cbn [negb existsb].
  destruct (str_eqb_spec (L "..") s); [congruence|]. reflexivity.
Qed.
Lemma path_two s u : good_name s -> good_name u -> path_of (s ++ slash :: u) = Ok [s; u].
Proof.
  intros (N & D & _ & _ & S' & _) (N1 & D1 & _ & _ & S1 & _). unfold path_of.
  rewrite pieces_app, pieces_none by assumption. cbn [filter].
  destruct (str_eqb_spec s []); [congruence|]. destruct (str_eqb_spec u []); [congruence|]. cbn [negb existsb].
  destruct (str_eqb_spec (L "..") s); [congruence|]. destruct (str_eqb_spec (L "..") u); [congruence|]. reflexivity.
Qed.
Lemma rsplit_one s : good_name s -> rsplit s = None.
Proof. intros (_ & _ & _ & _ & S' & _). unfold rsplit. rewrite pieces_none by exact S'. reflexivity. Qed.
Lemma rsplit_two s u : good_name s -> good_name u -> rsplit (s ++ slash :: u) = Some (s, u).
Proof.
  intros (_ & _ & _ & _ & S' & _) (_ & _ & _ & _ & S1 & _). unfold rsplit.
  rewrite pieces_app, pieces_none by assumption. cbn [rev app]. f_equal. f_equal.
  rewrite app_length. cbn [length]. replace (length s + S (length u) - length u - 1) with (length s) by lia.
  rewrite firstn_app, Nat.sub_diag, firstn_all. cbn. apply app_nil_r.
Qed.
Lemma nodes_ext g h F : (forall xs, g xs = h xs) -> nodes g F = nodes h F.
Proof.
  intros E. unfold nodes. apply map_ext. intros [k [xs|l]]; cbn [fst snd node_of]; [rewrite E; reflexivity|].
  do 2 f_equal. unfold leaves. apply map_ext. intros e. rewrite E. reflexivity.
Qed.
Lemma keys_nodes g F : map fst (nodes g F) = map fst F.
Proof. unfold nodes. rewrite map_map. apply map_ext. reflexivity. Qed.
Lemma keys_leaves g F : map fst (leaves g F) = map fst F.
Proof. unfold leaves. rewrite map_map. apply map_ext. reflexivity. Qed.
Lemma ofold_app {A B} (f : B -> A -> outcome B) l1 : forall l2 b, ofold f (l1 ++ l2) b = do b' <- ofold f l1 b; ofold f l2 b'.
Proof.
  induction l1 as [|x r IH]; intros l2 b; cbn [app ofold obind]; [reflexivity|].
  destruct (f b x); cbn [obind]; auto.
Qed.
Lemma notin_mid {A} (a : list A) k b : NoDup (a ++ k :: b) -> ~ In k a.
Proof. intros H I. apply NoDup_remove_2 in H. apply H. apply in_or_app. left. exact I. Qed.

(** * The first line *)
Section Header.
  Variable n : nat.
  Notation zeros := (fun _ : list spec_float => repeat (S754_zero false) n).
  Lemma add_leaf F k xs : ~ In k (map fst F) -> good_name k ->
    add_column n (RObj (nodes zeros F)) k = Ok (RObj (nodes zeros (F ++ [(k, inl xs)]))).
  Proof.
    intros H G. unfold add_column. rewrite rsplit_one by exact G. destruct k as [|c r] eqn:E; [destruct G; congruence|].
    rewrite <- E in *. unfold add_child. erewrite at_end; [|rewrite keys_nodes; exact H|reflexivity].
    unfold nodes. rewrite map_app. reflexivity.
  Qed.
  Lemma add_comp K k l1 k' xs : ~ In k (map fst K) -> good_name k -> good_name k' -> ~ In k' (map fst l1) ->
    add_column n (RObj (K ++ match l1 with [] => [] | _ => [(k, RObj (leaves zeros l1))] end)) (k ++ slash :: k') =
    Ok (RObj (K ++ [(k, RObj (leaves zeros (l1 ++ [(k', xs)])))])).
  Proof.
    intros H G G' N. unfold add_column. rewrite rsplit_two by assumption.
    destruct (k ++ slash :: k') eqn:E; [destruct k; discriminate|]. clear E.
    rewrite path_one by exact G. cbn [obind]. unfold add_child.
    replace (leaves zeros (l1 ++ [(k', xs)])) with (leaves zeros l1 ++ [(k', RLeaf (repeat (S754_zero false) n))])
      by (unfold leaves; rewrite map_app; reflexivity).
    destruct l1 as [|y l1].
    - rewrite app_nil_r. apply at_end; [exact H|]. reflexivity.
    - apply at_mid; [exact H|].
      assert (N' : ~ In k' (map fst (leaves zeros (y :: l1)))) by (rewrite keys_leaves; exact N).
      exact (at_end k' _ (leaves zeros (y :: l1)) _ [] N' eq_refl).
  Qed.
  Lemma add_comps K k : forall l2 l1, ~ In k (map fst K) -> good_name k ->
    NoDup (map fst (l1 ++ l2)) -> Forall (fun e : str * list spec_float => good_name (fst e)) l2 -> l2 <> [] ->
    ofold (add_column n) (map (fun c => k ++ slash :: fst c) l2)
      (RObj (K ++ match l1 with [] => [] | _ => [(k, RObj (leaves zeros l1))] end)) =
    Ok (RObj (K ++ [(k, RObj (leaves zeros (l1 ++ l2)))])).
  Proof.
    induction l2 as [|[k' xs] r IH]; intros l1 H G D Q N; [congruence|]. inversion_clear Q as [|? ? Q1 Q2].
    cbn [map ofold fst]. rewrite (add_comp K k l1 k' xs); try assumption.
    2:{ rewrite map_app in D. exact (notin_mid _ _ _ D). }
    cbn [obind]. destruct r as [|y r]; [reflexivity|].
    replace (l1 ++ (k', xs) :: y :: r) with ((l1 ++ [(k', xs)]) ++ y :: r) in * by (rewrite <- app_assoc; reflexivity).
    rewrite <- IH; [|assumption..|discriminate]. destruct l1; reflexivity.
  Qed.
  Lemma add_cols : forall F2 F1, good_cols n (F1 ++ F2) ->
    ofold (add_column n) (titles_of F2) (RObj (nodes zeros F1)) = Ok (RObj (nodes zeros (F1 ++ F2))).
  Proof.
    induction F2 as [|[k c] r IH]; intros F1 [D Q]; [rewrite app_nil_r; reflexivity|].
    pose proof Q as Q0. apply Forall_app in Q0. destruct Q0 as [_ Q0]. inversion_clear Q0 as [|? ? [G1 G2] _].
    rewrite map_app in D. cbn [map fst snd] in *. pose proof (notin_mid _ _ _ D) as N.
    change (titles_of ((k, c) :: r)) with ((match c with inl _ => [k] | inr l => map (fun c => k ++ slash :: fst c) l end) ++ titles_of r).
    assert (T : ofold (add_column n) (match c with inl _ => [k] | inr l => map (fun c => k ++ slash :: fst c) l end) (RObj (nodes zeros F1)) =
                Ok (RObj (nodes zeros (F1 ++ [(k, c)])))).
    { destruct c as [xs|l].
      - cbn [ofold]. rewrite (add_leaf F1 k xs N G1). reflexivity.
      - destruct G2 as (L1 & L2 & L3).
        assert (N' : ~ In k (map fst (nodes zeros F1))) by (rewrite keys_nodes; exact N).
        pose proof (add_comps (nodes zeros F1) k l [] N' G1 L2) as A. rewrite app_nil_r in A. rewrite A.
        + unfold nodes. rewrite map_app. reflexivity.
        + eapply Forall_impl; [|exact L3]. intros e E; apply E.
        + exact L1. }
    rewrite ofold_app, T. cbn [obind]. rewrite IH; rewrite <- app_assoc; [reflexivity|].
    split; [rewrite map_app; exact D|exact Q].
  Qed.
  Lemma add_cols_all F : F <> [] -> good_cols n F -> add_columns (titles_of F) n RNone = Ok (RObj (nodes zeros F)).
  Proof.
    intros N G. pose proof (add_cols F [] G) as A. cbn [app] in A. rewrite <- A. unfold add_columns.
    destruct G as [_ Q]. destruct F as [|[k c] r]; [congruence|]. inversion_clear Q as [|? ? [G1 G2] _]. cbn [fst snd] in *.
    assert (K : forall s, (exists k', good_name k' /\ s = k ++ slash :: k') \/ s = k ->
                          add_column n RNone s = add_column n (RObj []) s).
    { intros s [(k' & G' & ->)| ->]; unfold add_column.
      - rewrite rsplit_two, path_one by assumption. reflexivity.
      - rewrite rsplit_one by exact G1. reflexivity. }
    change (RObj (nodes zeros [])) with (RObj []).
    change (titles_of ((k, c) :: r)) with ((match c with inl _ => [k] | inr l => map (fun c => k ++ slash :: fst c) l end) ++ titles_of r).
    destruct c as [xs|[|[k' xs] l]].
    - cbn [app ofold]. rewrite K by (right; reflexivity). reflexivity.
    - destruct G2; congruence.
    - destruct G2 as (_ & _ & L3). inversion_clear L3 as [|? ? [G' _] _]. cbn [app map fst ofold].
      rewrite K by (left; exists k'; split; [exact G'|reflexivity]). reflexivity.
  Qed.
End Header.

(** * The rows *)
Section Rows.
  Variable t : tid.
  Variable n : nat.
  Notation zero := (S754_zero false).
  (** a column after [r] rows *)
  Definition part (r : nat) (xs : list spec_float) : list spec_float := firstn r xs ++ repeat zero (n - r).
  Lemma put_part r xs s : length xs = n -> r < n -> reads t s (nth r xs zero) ->
    put_num t r s (RLeaf (part r xs)) = Ok (RLeaf (part (S r) xs)).
  Proof.
    intros E H (i & R). unfold put_num, part.
    replace (n - r) with (S (n - S r)) by lia. cbn [repeat].
    assert (LE : length (firstn r xs) = r) by (rewrite firstn_length; lia).
    rewrite nth_error_app2 by lia. rewrite LE, Nat.sub_diag. cbn [nth_error]. rewrite R. cbn [obind fst].
    pose proof (set_nth_mid (firstn r xs) zero (repeat zero (n - S r)) (nth r xs zero)) as SM. rewrite LE in SM. rewrite SM. f_equal. f_equal.
    change (?a ++ ?x :: ?b) with (a ++ [x] ++ b). rewrite app_assoc. f_equal.
    rewrite <- (firstn_skipn r xs) at 3. rewrite firstn_app, LE.
    replace (S r - r) with 1 by lia. rewrite firstn_firstn. replace (Nat.min (S r) r) with r by lia. f_equal.
    rewrite <- (firstn_skipn r xs) at 1. rewrite app_nth2 by lia. rewrite LE, Nat.sub_diag.
    destruct (skipn r xs) eqn:Q; [|reflexivity]. assert (length (skipn r xs) = 0) by (rewrite Q; reflexivity).
    rewrite skipn_length in *. lia.
  Qed.
  Definition step (r : nat) (v : rnode) (e : str * str) : outcome rnode :=
    do p <- path_of (fst e); at_path p (put_num t r (snd e)) v.
  Lemma entries r : forall texts h1 h2 v, length texts = length h2 ->
    ofold (read_entry t (h1 ++ h2) r) (combine (seq (length h1) (length texts)) texts) v =
    ofold (step r) (combine h2 texts) v.
  Proof.
    induction texts as [|x texts IH]; intros h1 [|h h2] v E; try discriminate; [reflexivity|].
    cbn [length seq combine ofold]. unfold read_entry at 1. cbn [fst snd].
    rewrite app_length. replace (length h1 + length (h :: h2) <? length h1) with false
      by (symmetry; apply Nat.ltb_ge; lia).
    rewrite nth_error_app2, Nat.sub_diag by lia. cbn [nth_error deref obind].
    unfold step at 1. cbn [fst snd].
    destruct (do p <- path_of h; at_path p (put_num t r x) v) as [v'| | |]; cbn [obind]; try reflexivity.
    specialize (IH (h1 ++ [h]) h2 v' ltac:(cbn in E; lia)).
    rewrite <- app_assoc in IH. cbn [app] in IH. rewrite app_length in IH. cbn [length] in IH.
    rewrite Nat.add_comm in IH. exact IH.
  Qed.
  (** row [r] of the columns *)
  Definition row_of (r : nat) (F : list (str * fcol)) : list spec_float :=
    flat_map (fun e => match snd e with
                       | inl xs => [nth r xs zero]
                       | inr l => map (fun c => nth r (snd c) zero) l
                       end) F.
  Lemma step_comps r K1 K2 k : r < n -> ~ In k (map fst K1) -> good_name k ->
    forall l2 l1 texts, NoDup (map fst (l1 ++ l2)) ->
    Forall (fun e : str * list spec_float => good_name (fst e) /\ length (snd e) = n) l2 ->
    Forall2 (reads t) texts (map (fun c => nth r (snd c) zero) l2) ->
    ofold (step r) (combine (map (fun c => k ++ slash :: fst c) l2) texts)
      (RObj (K1 ++ (k, RObj (leaves (part (S r)) l1 ++ leaves (part r) l2)) :: K2)) =
    Ok (RObj (K1 ++ (k, RObj (leaves (part (S r)) (l1 ++ l2))) :: K2)).
  Proof.
    intros R N G. induction l2 as [|[k' xs] l2 IH]; intros l1 texts D Q T.
    - cbn [map leaves combine ofold]. rewrite !app_nil_r. reflexivity.
    - cbn [map snd fst] in *. inversion T as [|s ? texts' ? T1 T2]; subst. inversion_clear Q as [|? ? [Q1 Q2] Q3].
      cbn [combine ofold]. unfold step at 1. cbn [fst snd] in *. rewrite path_two by assumption. cbn [obind].
      change (leaves (part r) ((k', xs) :: l2)) with ((k', RLeaf (part r xs)) :: leaves (part r) l2).
      rewrite (at_mid k _ K1 _ (RObj (leaves (part (S r)) (l1 ++ [(k', xs)]) ++ leaves (part r) l2))); [|exact N|].
      + cbn [obind].
        replace (l1 ++ (k', xs) :: l2) with ((l1 ++ [(k', xs)]) ++ l2) in * by (rewrite <- app_assoc; reflexivity).
        apply IH; assumption.
      + replace (leaves (part (S r)) (l1 ++ [(k', xs)]) ++ leaves (part r) l2)
          with (leaves (part (S r)) l1 ++ (k', RLeaf (part (S r) xs)) :: leaves (part r) l2)
          by (unfold leaves; rewrite map_app, <- app_assoc; reflexivity).
        apply at_mid.
        * rewrite keys_leaves. rewrite map_app in D. exact (notin_mid _ _ _ D).
        * cbn [at_path]. apply put_part; assumption.
  Qed.
  Lemma step_cols r : r < n -> forall F2 F1 texts, good_cols n (F1 ++ F2) ->
    Forall2 (reads t) texts (row_of r F2) ->
    ofold (step r) (combine (titles_of F2) texts) (RObj (nodes (part (S r)) F1 ++ nodes (part r) F2)) =
    Ok (RObj (nodes (part (S r)) (F1 ++ F2))).
  Proof.
    intros R. induction F2 as [|[k c] F2 IH]; intros F1 texts GC T.
    - cbn [nodes map titles_of flat_map combine ofold]. rewrite !app_nil_r. reflexivity.
    - pose proof GC as [D Q]. apply Forall_app in Q. destruct Q as [_ Q].
      inversion_clear Q as [|? ? [G1 G2] _]. rewrite map_app in D. cbn [map fst snd] in *.
      pose proof (notin_mid _ _ _ D) as N.
      assert (N' : ~ In k (map fst (nodes (part (S r)) F1))) by (rewrite keys_nodes; exact N).
      change (row_of r ((k, c) :: F2)) with
        ((match c with inl xs => [nth r xs zero] | inr l => map (fun c => nth r (snd c) zero) l end) ++ row_of r F2) in T.
      change (titles_of ((k, c) :: F2)) with
        ((match c with inl _ => [k] | inr l => map (fun c => k ++ slash :: fst c) l end) ++ titles_of F2).
      apply Forall2_app_inv_r in T. destruct T as (T1 & T2 & P1 & P2 & ->).
      assert (LE : length T1 = length (match c with inl _ => [k] | inr l => map (fun c => k ++ slash :: fst c) l end)).
      { clear - P1. induction c.
        - inversion P1 as [|? ? ? ? _ Q]; subst. inversion Q. reflexivity.
        - rewrite map_length. revert T1 P1. induction b as [|y b IH]; intros T1 P1; cbn [map] in P1;
          inversion P1; subst; [reflexivity|]. cbn [length]. f_equal. apply IH. assumption. }
      rewrite combine_app by (symmetry; exact LE). rewrite ofold_app.
      change (nodes (part r) ((k, c) :: F2)) with ((k, node_of (part r) c) :: nodes (part r) F2).
      assert (E : ofold (step r) (combine (match c with inl _ => [k] | inr l => map (fun c => k ++ slash :: fst c) l end) T1)
                    (RObj (nodes (part (S r)) F1 ++ (k, node_of (part r) c) :: nodes (part r) F2)) =
                  Ok (RObj (nodes (part (S r)) F1 ++ (k, node_of (part (S r)) c) :: nodes (part r) F2))).
      { destruct c as [xs|l].
        - inversion P1 as [|s ? ? ? P3 P4]; subst. inversion P4; subst. cbn [combine ofold]. unfold step. cbn [fst snd].
          rewrite path_one by exact G1. cbn [obind node_of].
          rewrite (at_mid k _ _ _ (RLeaf (part (S r) xs))); [reflexivity|exact N'|]. cbn [at_path]. apply put_part; assumption.
        - destruct G2 as (_ & L2 & L3). cbn [node_of].
          exact (step_comps r _ _ k R N' G1 l [] T1 L2 L3 P1). }
      rewrite E. cbn [obind].
      replace (nodes (part (S r)) F1 ++ (k, node_of (part (S r)) c) :: nodes (part r) F2)
        with (nodes (part (S r)) (F1 ++ [(k, c)]) ++ nodes (part r) F2)
        by (unfold nodes; rewrite map_app, <- app_assoc; reflexivity).
      rewrite IH; [rewrite <- app_assoc; reflexivity|rewrite <- app_assoc; exact GC|exact P2].
  Qed.
  Lemma rows_ok F : good_cols n F -> forall rows r,
    (forall i s, nth_error rows i = Some s -> Forall2 (reads t) (pieces "," s) (row_of (r + i) F)) ->
    r + length rows = n ->
    ofold (read_row t (titles_of F)) (combine (seq r (length rows)) rows) (RObj (nodes (part r) F)) =
    Ok (RObj (nodes (part n) F)).
  Proof.
    intros G. induction rows as [|s rows IH]; intros r H E.
    - cbn [length] in E. rewrite Nat.add_0_r in E. subst. reflexivity.
    - cbn [length seq combine ofold]. cbn [length] in E.
      unfold read_row at 1. cbn [fst snd]. unfold numbered.
      assert (T : Forall2 (reads t) (pieces "," s) (row_of r F)) by (rewrite <- (Nat.add_0_r r); apply H; reflexivity).
      assert (LE : length (pieces "," s) = length (titles_of F)).
      { rewrite (Forall2_len _ _ _ T). clear. induction F as [|[k c] F IH]; [reflexivity|].
        unfold row_of, titles_of in *. cbn [flat_map snd fst]. rewrite !app_length, IH. f_equal.
        destruct c; [reflexivity|]. rewrite !map_length. reflexivity. }
      rewrite (entries r (pieces "," s) [] (titles_of F)) by exact LE.
      rewrite (step_cols r ltac:(lia) F [] (pieces "," s) G T : ofold _ _ (RObj (nodes (part r) F)) = _). cbn [obind app].
      apply IH; [|lia]. intros i u U. rewrite Nat.add_succ_comm. apply (H (S i)). exact U.
  Qed.
End Rows.

(** * What the elements look like *)
Definition plain (c : ascii) : Prop := c <> ","%char /\ c <> c_nl.
Lemma plain_const s : forallb (fun c => negb (Ascii.eqb c ",") && negb (Ascii.eqb c c_nl)) s = true -> Forall plain s.
Proof.
  intros H. rewrite forallb_forall in H. apply Forall_forall. intros c I. specialize (H c I).
  apply andb_true_iff in H. destruct H as [H1 H2]. split; intros ->; rewrite Ascii.eqb_refl in *; discriminate.
Qed.
Lemma plain_digits s : Forall digit s -> Forall plain s.
Proof.
  apply Forall_impl. intros c D. unfold digit in D. split; intros ->; cbn in D; intuition discriminate.
Qed.
Lemma plain_Z z : Forall plain (show_Z z).
Proof.
  unfold show_Z. destruct (Z.ltb z 0).
  - constructor; [split; discriminate|]. destruct (show_N_spec (Z.to_N (- z))) as ((_ & D) & _). apply plain_digits, D.
  - destruct (show_N_spec (Z.to_N z)) as ((_ & D) & _). apply plain_digits, D.
Qed.
Lemma plain_strip s : Forall plain s -> Forall plain (strip_zeros s).
Proof.
  induction 1 as [|c r C _ IH]; [constructor|]. cbn [strip_zeros]. destruct (strip_zeros r).
  - destruct (Ascii.eqb c "0"); repeat constructor; apply C.
  - constructor; assumption.
Qed.
Lemma plain_frac a f : Forall plain a -> Forall plain f -> Forall plain (with_frac a f).
Proof.
  intros A F. unfold with_frac. apply plain_strip in F. destruct (strip_zeros f); [exact A|].
  apply Forall_app. split; [exact A|]. constructor; [split; discriminate|exact F].
Qed.
Lemma plain_show c : Forall plain (show c).
Proof.
  assert (G : forall x, Forall plain (gfmt 6 x)).
  { intros x. unfold gfmt.
    assert (S' : forall (s : bool) u, Forall plain u -> Forall plain (if s then "-"%char :: u else u))
      by (intros [] u U; [constructor; [split; discriminate|exact U]|exact U]).
    destruct x as [s|s| |s m e]; try (apply S'); try (apply plain_const; reflexivity).
    destruct (if Z.leb 0 e then _ else _) as [r k]. apply S'. unfold show_g.
    assert (P : Forall plain (show_Z r)) by apply plain_Z.
    assert (P1 : forall i, Forall plain (firstn i (show_Z r)))
      by (intros i; rewrite <- (firstn_skipn i (show_Z r)) in P; apply Forall_app in P; apply P).
    assert (P2 : forall i, Forall plain (skipn i (show_Z r)))
      by (intros i; rewrite <- (firstn_skipn i (show_Z r)) in P; apply Forall_app in P; apply P).
    destruct (_ || _).
    - apply Forall_app. split; [apply plain_frac; auto|]. constructor; [split; discriminate|].
      assert (T : forall z, Forall plain (two_digits z)).
      { intros z. unfold two_digits. destruct (Z.ltb z 10); [constructor; [split; discriminate|]|]; apply plain_Z. }
      destruct (Z.ltb k 0); constructor; auto; split; discriminate.
    - destruct (Z.leb 0 k); [apply plain_frac; auto|]. apply plain_frac; [apply plain_const; reflexivity|].
      apply Forall_app. split; [|exact P]. apply Forall_forall. intros a I. apply repeat_spec in I. subst. split; discriminate. }
  destruct c; cbn [show]; [apply plain_Z|apply plain_Z|apply G|apply G].
Qed.
Lemma plain_free s : Forall plain s -> ~ In ","%char s /\ ~ In c_nl s.
Proof. intros H. rewrite Forall_forall in H. split; intros I; destruct (H _ I); congruence. Qed.

(** * The whole table *)
Definition col_is (t : tid) (c : col) (f : fcol) : Prop :=
  match c, f with
  | Leaf l, inl xs => Forall2 (back t) l xs
  | Group g, inr ks => Forall2 (fun a b => fst a = fst b /\ Forall2 (back t) (snd a) (snd b)) (named g) ks
  | _, _ => False
  end.
Definition table_is (t : tid) (es : list (str * col)) (F : list (str * fcol)) : Prop :=
  Forall2 (fun a b => fst a = fst b /\ col_is t (snd a) (snd b)) es F.
Lemma choose {A B} (R : A -> B -> Prop) l : Forall (fun a => exists b, R a b) l -> exists bs, Forall2 R l bs.
Proof.
  induction 1 as [|a l (b & H) _ (bs & IH)]; [exists []; constructor|]. exists (b :: bs). constructor; assumption.
Qed.
Lemma table_is_exists t n v : good_table t n v -> exists F, table_is t (named v) F.
Proof.
  intros (_ & H & _). unfold table_is. apply choose. eapply Forall_impl; [|exact H].
  intros [k c] (_ & C). cbn [fst snd] in *. destruct c as [l|g].
  - destruct C as (_ & C). apply choose in C. destruct C as (xs & C). exists (k, inl xs). split; [reflexivity|exact C].
  - destruct C as (_ & _ & C).
    assert (Q : Forall (fun a => exists b : str * list spec_float, fst a = fst b /\ Forall2 (back t) (snd a) (snd b)) (named g)).
    { eapply Forall_impl; [|exact C]. intros [k' l] (_ & _ & X). cbn [fst snd] in *. apply choose in X.
      destruct X as (xs & X). exists (k', xs). split; [reflexivity|exact X]. }
    apply choose in Q. destruct Q as (ks & Q). exists (k, inr ks). split; [reflexivity|exact Q].
Qed.
Lemma keys_same {A B} (P : A -> B -> Prop) (l : list (str * A)) (l' : list (str * B)) :
  Forall2 (fun a b => fst a = fst b /\ P (snd a) (snd b)) l l' -> map fst l = map fst l'.
Proof. induction 1 as [|a b l l' [H _] _ IH]; [reflexivity|]. cbn. congruence. Qed.
Lemma titles_same t es F : table_is t es F ->
  flat_map (fun e => match snd e with
                     | Leaf _ => [fst e]
                     | Group g => map (fun c => fst e ++ slash :: fst c) (named g)
                     end) es = titles_of F.
Proof.
  induction 1 as [|[k c] [k' f] es F [E C] _ IH]; [reflexivity|]. cbn [fst snd] in *. subst.
  unfold titles_of in *. cbn [flat_map fst snd]. rewrite IH. f_equal. destruct c as [l|g], f as [xs|ks]; try contradiction; [reflexivity|].
  cbn in C. apply keys_same in C. transitivity (map (fun x : str => k' ++ slash :: x) (map fst (named g))); [rewrite map_map; reflexivity|rewrite C, map_map; reflexivity].
Qed.
Lemma good_cols_of t n v F : good_table t n v -> table_is t (named v) F -> good_cols n F.
Proof.
  intros (D & H & _) T. split; [rewrite <- (keys_same _ _ _ T); exact D|]. clear D.
  induction T as [|[k c] [k' f] es F [E C] _ IH]; [constructor|]. inversion_clear H as [|? ? [H1 H2] H3].
  constructor; [|apply IH, H3]. cbn [fst snd] in *. subst. split; [exact H1|].
  destruct c as [l|g], f as [xs|ks]; try contradiction; cbn in C.
  - rewrite <- (Forall2_len _ _ _ C). apply H2.
  - destruct H2 as (N & D & G). split; [|split].
    + apply Forall2_len in C. destruct ks; [cbn in C; lia|discriminate].
    + rewrite <- (keys_same _ _ _ C). exact D.
    + clear N D. induction C as [|[a la] [b lb] l l' [E C] _ IH']; [constructor|].
      inversion_clear G as [|? ? (G1 & G2 & _) G3]. constructor; [|apply IH', G3]. cbn [fst snd] in *. subst. split; [exact G1|].
      rewrite <- (Forall2_len _ _ _ C). reflexivity.
Qed.
Lemma back_nodes t n v F : table_is t (named v) F -> good_cols n F -> table_back t v (RObj (nodes (part n n) F)).
Proof.
  intros T [_ G]. eexists. split; [reflexivity|].
  assert (P : forall xs, length xs = n -> part n n xs = xs).
  { intros xs E. unfold part. rewrite Nat.sub_diag. cbn [repeat]. rewrite app_nil_r. apply firstn_all2. lia. }
  induction T as [|[k c] [k' f] es F [E C] _ IH]; [constructor|]. inversion_clear G as [|? ? [_ G1] G2].
  constructor; [|apply IH, G2]. cbn [fst snd] in *. split; [exact E|].
  destruct c as [l|g], f as [xs|ks]; try contradiction; cbn in C; cbn [col_back node_of].
  - exists xs. split; [f_equal; apply P, G1|exact C].
  - eexists. split; [reflexivity|]. destruct G1 as (_ & _ & G1). clear - C G1 P.
    induction C as [|[a la] [b lb] l l' [E C] _ IH]; [constructor|]. inversion_clear G1 as [|? ? [_ G] G'].
    constructor; [|apply IH, G']. cbn [fst snd] in *. split; [exact E|]. exists lb. split; [f_equal; apply P, G|exact C].
Qed.

(** the entries of row [r] *)
Definition entry (r : nat) (l : list cell) : str := match nth_error l r with Some c => show c | None => [] end.
Definition texts_of (r : nat) (e : str * col) : list str :=
  match snd e with Leaf l => [entry r l] | Group g => map (fun c => entry r (snd c)) (named g) end.
Lemma write_at_ok r l : r < length l -> write_at r l = Ok (entry r l).
Proof.
  intros H. unfold write_at, entry. destruct (nth_error l r) eqn:E; [reflexivity|]. apply nth_error_None in E. lia.
Qed.
Lemma omapM_all {A B} (f : A -> outcome B) (h : A -> B) l : Forall (fun a => f a = Ok (h a)) l -> omapM f l = Ok (map h l).
Proof. induction 1 as [|a l E _ IH]; [reflexivity|]. rewrite omapM_cons, E. cbn [obind]. rewrite IH. reflexivity. Qed.
Lemma row_text t n v r : good_table t n v -> r < n ->
  write_row v r = Ok (join (flat_map (texts_of r) (named v)) ++ [c_nl]).
Proof.
  intros (_ & H & _) R. unfold write_row.
  assert (E : omapM (write_col r) (named v) = Ok (map (fun e => join (texts_of r e)) (named v))).
  { apply omapM_all. eapply Forall_impl; [|exact H]. intros [k c] (_ & C). cbn [snd] in C.
    unfold write_col, texts_of. cbn [snd]. destruct c as [l|g].
    - apply write_at_ok. lia.
    - erewrite (omapM_all _ (fun c => entry r (snd c))); [reflexivity|].
      destruct C as (_ & _ & C). eapply Forall_impl; [|exact C]. intros [k' l] (_ & C' & _). apply write_at_ok. cbn in *. lia. }
  rewrite E. cbn [obind]. do 2 f_equal. rewrite <- (map_map (texts_of r) join), join_join, <- flat_map_concat_map; [reflexivity|].
  apply Forall_map. eapply Forall_impl; [|exact H]. intros [k c] (_ & C). cbn [snd] in C. unfold texts_of. cbn [snd].
  destruct c as [l|g]; [discriminate|]. destruct C as (N & _). destruct (named g); [cbn in N; lia|discriminate].
Qed.
Lemma header_text t n v : good_table t n v -> write_header v = join (titles v) ++ [c_nl].
Proof.
  intros (_ & H & _). unfold write_header, titles. f_equal.
  rewrite flat_map_concat_map, <- join_join.
  - rewrite map_map. f_equal. apply map_ext_in. intros [k c] I. rewrite Forall_forall in H. specialize (H _ I).
    unfold header_of. cbn [fst snd] in *. destruct H as (_ & C). destruct c as [l|g]; [reflexivity|].
    destruct C as (N & _). destruct (named g) as [|a [|b r]]; cbn in N; try lia. reflexivity.
  - apply Forall_map. eapply Forall_impl; [|exact H]. intros [k c] (_ & C). cbn [fst snd] in *.
    destruct c as [l|g]; [discriminate|]. destruct C as (N & _). destruct (named g); [cbn in N; lia|discriminate].
Qed.
Lemma nonempty t n v : good_table t n v -> named v <> [].
Proof. intros (_ & _ & E) N. unfold titles in E. rewrite N in E. inversion E. Qed.
Lemma nrows_ok t n v : good_table t n v -> get_nrows v = n.
Proof.
  intros G. pose proof (nonempty _ _ _ G) as N. destruct G as (_ & H & _). unfold get_nrows.
  destruct (named v) as [|[k c] r]; [congruence|]. inversion_clear H as [|? ? [_ H1] _]. cbn [snd] in *.
  destruct c as [l|g]; [apply H1|]. destruct H1 as (L2 & _ & H1). destruct (named g) as [|[k' l] g']; [cbn in L2; lia|].
  inversion_clear H1 as [|? ? (_ & E & _) _]. exact E.
Qed.
Lemma verify_ok t n v : good_table t n v -> verify_values v = true.
Proof.
  intros (_ & H & _). unfold verify_values.
  assert (E : Forall (fun o => o = Some n) (map (fun e => col_rows (snd e)) (named v))).
  { apply Forall_map. eapply Forall_impl; [|exact H]. intros [k c] (_ & C). cbn [snd] in *. destruct c as [l|g]; cbn [col_rows].
    - f_equal. apply C.
    - destruct C as (N & _ & C). destruct (named g) as [|[k' l] r]; [cbn in N; lia|]. cbn [map snd].
      inversion_clear C as [|? ? (_ & C1 & _) C2]. cbn [snd] in C1. rewrite C1.
      replace (forallb (fun l' => length l' =? n) (map snd r)) with true; [reflexivity|].
      symmetry. apply forallb_forall. intros l' I. apply in_map_iff in I. destruct I as ([k2 l2] & <- & I).
      rewrite Forall_forall in C2. destruct (C2 _ I) as (_ & C3 & _). apply Nat.eqb_eq. exact C3. }
  destruct (map _ (named v)) as [|o r]; [reflexivity|]. inversion_clear E as [|? ? E1 E2]. subst.
  apply forallb_forall. intros o I. rewrite Forall_forall in E2. rewrite (E2 _ I). apply Nat.eqb_refl.
Qed.
Lemma texts_plain r es : Forall (fun s => Forall plain s) (flat_map (texts_of r) es).
Proof.
  assert (P : forall l, Forall plain (entry r l)).
  { intros l. unfold entry. destruct (nth_error l r); [apply plain_show|constructor]. }
  induction es as [|[k c] es IH]; [constructor|]. cbn [flat_map]. apply Forall_app. split; [|exact IH].
  unfold texts_of. cbn [snd]. destruct c; [constructor; [apply P|constructor]|].
  apply Forall_map, Forall_forall. intros. apply P.
Qed.
Lemma back_at t r l xs : Forall2 (back t) l xs -> r < length l -> reads t (entry r l) (nth r xs (S754_zero false)).
Proof.
  intros H. revert r. induction H as [|c x l xs H _ IH]; intros r R; [cbn in R; lia|].
  destruct r; [exact H|]. cbn in R. apply (IH r). lia.
Qed.
Lemma texts_read t n v F r : good_table t n v -> table_is t (named v) F -> r < n ->
  Forall2 (reads t) (flat_map (texts_of r) (named v)) (row_of r F).
Proof.
  intros (_ & H & _) T R. induction T as [|[k c] [k' f] es F [E C] _ IH]; [constructor|].
  inversion_clear H as [|? ? [_ H2] H3]. unfold row_of in *. cbn [flat_map]. apply Forall2_app; [|apply IH, H3].
  unfold texts_of. cbn [fst snd] in *. destruct c as [l|g], f as [xs|ks]; try contradiction; cbn in C.
  - constructor; [|constructor]. apply back_at; [exact C|]. lia.
  - destruct H2 as (_ & _ & H2). clear - C H2 R. induction C as [|[a la] [b lb] l l' [E C] _ IH]; [constructor|].
    inversion_clear H2 as [|? ? (_ & G & _) G']. cbn [map fst snd] in *. constructor; [|apply IH, G'].
    apply back_at; [exact C|]. lia.
Qed.
Lemma spaced_read t l xs : l <> [] -> Forall2 (reads t) l xs -> Forall2 (reads t) (spaced l) xs.
Proof.
  intros N H. destruct H as [|s x l xs H1 H2]; [congruence|]. cbn [spaced]. constructor; [exact H1|].
  clear - H2. induction H2; cbn [map]; constructor; [apply reads_space|]; assumption.
Qed.
Lemma blank_two s u : good_name s -> good_name u -> blank_free (s ++ slash :: u).
Proof.
  intros (N & _ & _ & _ & _ & B) (N1 & _ & _ & _ & _ & B1) c r [E|E].
  - destruct s as [|a s]; [congruence|]. inversion E; subst. exact (B c s (or_introl eq_refl)).
  - destruct (exists_last N1) as (u' & a & ->).
    change (s ++ slash :: u' ++ [a]) with (s ++ (slash :: u') ++ [a]) in E. rewrite app_assoc in E.
    apply app_inj_tail in E. destruct E as [_ <-]. exact (B1 a u' (or_intror eq_refl)).
Qed.
Lemma titles_good t n v : good_table t n v ->
  Forall (fun s => s <> [] /\ ~ In ","%char s /\ ~ In c_nl s /\ blank_free s) (titles v).
Proof.
  intros (_ & H & _). unfold titles. induction H as [|[k c] es [G H] _ IH]; [constructor|].
  cbn [flat_map]. apply Forall_app. split; [|exact IH]. cbn [fst snd] in *. destruct c as [l|g].
  - constructor; [|constructor]. destruct G as (G1 & _ & G2 & G3 & _ & G4). repeat (split; [assumption|]). assumption.
  - destruct H as (_ & _ & H). apply Forall_map. eapply Forall_impl; [|exact H]. intros [k' l] (G' & _). cbn [fst] in *.
    split; [destruct k; discriminate|]. split; [|split; [|apply blank_two; assumption]].
    + rewrite in_app_iff. destruct G as (_ & _ & G & _), G' as (_ & _ & G' & _). intros [I|[I|I]]; [exact (G I)|discriminate|exact (G' I)].
    + rewrite in_app_iff. destruct G as (_ & _ & _ & G & _), G' as (_ & _ & _ & G' & _). intros [I|[I|I]]; [exact (G I)|discriminate|exact (G' I)].
Qed.
Lemma names_read t n v : good_table t n v -> read_column_names (join (titles v)) = titles v.
Proof.
  intros G. pose proof (titles_good _ _ _ G) as T. unfold read_column_names.
  assert (N : titles v <> []) by (destruct G as (_ & _ & E); intros Q; rewrite Q in E; inversion E).
  rewrite pieces_join by (eapply Forall_impl; [|exact T]; intros s (_ & A & _); exact A).
  rewrite trim_spaced; [|exact N|eapply Forall_impl; [|exact T]; intros s (_ & _ & _ & A); exact A].
  destruct (forallb is_number_text (titles v)) eqn:E; [|reflexivity]. exfalso.
  destruct G as (_ & _ & X). apply Exists_exists in X. destruct X as (s & I & X). apply X. apply number_iff.
  - rewrite forallb_forall in E. exact (E s I).
  - rewrite Forall_forall in T. apply (T s I).
Qed.

Theorem table_round_trip t n v : good_table t n v ->
  exists text x, write_csv v = Ok text /\ read_table t text = Ok x /\ table_back t v x.
Proof.
  intros G. destruct (table_is_exists _ _ _ G) as (F & T).
  pose proof (good_cols_of _ _ _ _ G T) as GC.
  set (rows := map (fun r => join (flat_map (texts_of r) (named v))) (seq 0 n)).
  assert (W : write_csv v = Ok (concat (map (fun s => s ++ [c_nl]) (join (titles v) :: rows)))).
  { unfold write_csv. rewrite (verify_ok _ _ _ G). unfold write_table. rewrite (nrows_ok _ _ _ G).
    rewrite (omapM_all _ (fun r => join (flat_map (texts_of r) (named v)) ++ [c_nl])).
    - cbn [obind map concat]. rewrite (header_text _ _ _ G). do 3 f_equal. unfold rows. rewrite map_map. reflexivity.
    - apply Forall_forall. intros r I. apply in_seq in I. apply (row_text _ _ _ _ G). lia. }
  eexists. exists (RObj (nodes (part n n) F)). split; [exact W|]. split; [|exact (back_nodes _ _ _ _ T GC)].
  pose proof (titles_good _ _ _ G) as TG.
  unfold read_table. rewrite lines_ok.
  2:{ constructor.
      - apply join_free; [cbn; intuition discriminate|]. eapply Forall_impl; [|exact TG]. intros s (_ & _ & A & _); exact A.
      - unfold rows. apply Forall_map, Forall_forall. intros r _. apply join_free; [cbn; intuition discriminate|].
        eapply Forall_impl; [|apply texts_plain]. intros s P. apply plain_free, P. }
  rewrite (names_read _ _ _ G).
  assert (TS : titles v = titles_of F) by exact (titles_same _ _ _ T).
  assert (N : titles v <> []) by (destruct G as (_ & _ & E); intros Q; rewrite Q in E; inversion E).
  assert (RL : length rows = n) by (unfold rows; rewrite map_length, seq_length; reflexivity).
  replace (match titles v with [] => join (titles v) :: rows | _ :: _ => rows end) with rows by (destruct (titles v); [congruence|reflexivity]).
  rewrite TS, RL. rewrite (add_cols_all n F); [|intros ->; apply N; rewrite TS; reflexivity|exact GC].
  cbn [obind]. unfold read_csv_data, numbered.
  pose proof (rows_ok t n F GC rows 0) as R. rewrite (nodes_ext (part n 0) (fun _ => repeat (S754_zero false) n)) in R
    by (intros xs; unfold part; rewrite Nat.sub_0_r; reflexivity).
  apply R; [|exact RL]. intros i s I. cbn [Nat.add].
  assert (B : i < n) by (rewrite <- RL; apply nth_error_Some; congruence).
  unfold rows in I. rewrite nth_error_map in I.
  rewrite (nth_error_nth' (seq 0 n) 0) in I by (rewrite seq_length; exact B). rewrite seq_nth in I by exact B. cbn in I.
  assert (I' : s = join (flat_map (texts_of i) (named v))) by congruence. rewrite I'. clear I I'.
  pose proof (texts_read _ _ _ _ i G T B) as TR.
  rewrite pieces_join.
  - apply spaced_read; [|exact TR]. intros Q. rewrite Q in TR. inversion TR as [E|].
    destruct F as [|[k f] F]; [apply N; rewrite TS; reflexivity|]. unfold row_of in E. cbn [flat_map snd] in E.
    destruct GC as [_ GC]. inversion_clear GC as [|? ? [_ GC1] _]. cbn [snd] in GC1. destruct f as [xs|[|l ls]]; try discriminate.
    apply GC1. reflexivity.
  - eapply Forall_impl; [|apply texts_plain]. intros u P. apply plain_free, P.
Qed.
