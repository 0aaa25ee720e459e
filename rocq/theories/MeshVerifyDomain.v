(** Checks of whole domains and meshes: references and the flags they read. *)
From Coq Require Import ZArith Lia Btauto.
From Verif Require Import Base DType SpecTree Mem Node Number ArrayOps NumConv Json MeshVerify MeshVerifySpec MeshVerifyFacts MeshVerifyParts MeshVerifySets Hdf5Facts.
Import ListNotations.

(** checks that leave one entry of the report changed, besides messages *)
Definition only (v : V) (b : bool) (f : str) : Prop := forall i, tidy i -> exists i', v i = Ok (b, i') /\ tidy i' /\ flag i' = flag i /\
  (forall q, q <> f -> ~ In q reserved -> iget i' q = iget i q).
Lemma only_bind a k x y f : only a x f -> only (k x) y f -> only (bindV a k) y f.
Proof.
  intros A K i T. destruct (A i T) as (i1 & A1 & A2 & A3 & A4). destruct (K i1 A2) as (i2 & B1 & B2 & B3 & B4).
  exists i2. unfold bindV. rewrite A1. cbn [obind fst snd]. rewrite B1. split; [reflexivity|split; [exact B2|split; [congruence|]]].
  intros q Q R. rewrite B4, A4; auto.
Qed.
Lemma only_ret b f : only (ret b) b f. Proof. intros i T. exists i. auto. Qed.
Lemma only_fails f : only fails false f.
Proof.
  intros i T. exists (log_error i). destruct (error_fine i T) as [A B]. split; [reflexivity|split; [exact A|split; [exact B|]]].
  intros q _ R. apply iget_iput_other. intro E. apply R. subst. vm_compute. tauto.
Qed.
Lemma only_at f v b : f <> L "valid" -> ok v b -> only (at_ f v) b f.
Proof.
  intros F H i T. destruct (H _ (tidy_iget i f T)) as [i' [A [B _]]].
  exists (iput i f i'). unfold at_. rewrite A. cbn [obind fst snd]. split; [reflexivity|].
  split; [apply tidy_iput; [exact T|exact B|congruence]|split; [apply flag_iput, F|]]. intros q Q _. apply iget_iput_other, Q.
Qed.
Lemma only_typed p n f : f <> L "valid" -> only (typed p n f) (must f p n) f.
Proof.
  intro F. unfold typed. apply only_bind with (x := given f n).
  - intros i T. destruct (touch_fine f i F T) as [A B].
    assert (X : only (exists_ n f) (given f n) f).
    { apply only_bind with (x := given f n); [|apply only_at; [exact F|apply ok_valid]].
      change (has n f) with (given f n). destruct (given f n); [apply only_ret|apply only_fails]. }
    destruct (X _ A) as (i' & C & D & E & G). exists i'. split; [exact C|split; [exact D|split; [congruence|]]].
    intros q Q R. rewrite G by assumption. apply iget_iput_other, Q.
  - apply only_bind with (x := must f p n); [|apply only_at; [exact F|apply ok_valid]].
    unfold must, given. destruct (kid n f) as [c|]; [destruct (p c); [apply only_ret|apply only_fails]|apply only_ret].
Qed.

(** * Reports of children *)
Definition step (p k : str) (i i' : itree) : Prop :=
  tidy i' /\ flag i' = flag i /\ (forall q, q <> p -> iget i' q = iget i q) /\ (forall s, s <> k -> iget (iget i' p) s = iget (iget i p) s).
Lemma step_refl p k i : tidy i -> step p k i i. Proof. intro T. split; [exact T|auto]. Qed.
Lemma step_trans p k i j l : step p k i j -> step p k j l -> step p k i l.
Proof.
  intros (A1 & A2 & A3 & A4) (B1 & B2 & B3 & B4). split; [exact B1|split; [congruence|split]]; intros; [rewrite B3, A3|rewrite B4, A4]; auto.
Qed.
Lemma inner p k v i b j : p <> L "valid" -> k <> L "valid" -> tidy i -> v (iget (iget i p) k) = Ok (b, j) -> tidy j ->
  exists i', at_ p (at_ k v) i = Ok (b, i') /\ step p k i i' /\ iget (iget i' p) k = j.
Proof.
  intros P K T E J. exists (iput i p (iput (iget i p) k j)). unfold at_. rewrite E. cbn [obind fst snd]. split; [reflexivity|].
  split; [|rewrite !iget_iput_same; reflexivity]. split.
  - apply tidy_iput; [exact T| |congruence]. apply tidy_iput; [apply tidy_iget, T|exact J|congruence].
  - split; [apply flag_iput, P|split]; intros q Q; [apply iget_iput_other, Q|rewrite iget_iput_same; apply iget_iput_other, Q].
Qed.
Lemma inner_keeps p k v i b : p <> L "valid" -> k <> L "valid" -> tidy i -> keeps v b ->
  exists i', at_ p (at_ k v) i = Ok (b, i') /\ step p k i i' /\ flag (iget (iget i' p) k) = flag (iget (iget i p) k).
Proof.
  intros P K T H. destruct (H _ (tidy_iget _ k (tidy_iget i p T))) as (j & A & B & C).
  destruct (inner p k v i b j P K T A B) as (i' & D & E & F). exists i'. rewrite F. auto.
Qed.

(** what the flags of a section show *)
Definition shows (d : tree) (p : str) (g : tree -> bool) (i : itree) : Prop :=
  forall sec s c, kid d p = Some sec -> kid sec s = Some c -> flag (iget (iget i p) s) = Some (g c).
Lemma flag_read i x : flag i = Some x -> mget (ikids i) (L "valid") = Some (IFlag x).
Proof. unfold flag. destruct (mget (ikids i) (L "valid")) as [[| |b|]|]; congruence. Qed.
Lemma ref_ok d p k c f rp g i : p <> L "valid" -> k <> L "valid" -> f <> L "valid" -> rp <> p -> tidy i -> shows d rp g i ->
  exists i', v_ref d p k c f rp i = Ok (names_good d f rp g c, i') /\ step p k i i' /\
    flag (iget (iget i' p) k) = Some (names_good d f rp g c && upto (iget (iget i p) k)).
Proof.
  intros P K F RP T S. unfold v_ref.
  destruct (inner_keeps p k (v_str c f) i _ P K T (keeps_str c f F)) as (i1 & A1 & A2 & A3).
  unfold bindV at 1. rewrite A1. cbn [obind fst snd].
  assert (M : exists i2, (match kid c f with
         | Some (TStr s) =>
             if negb (match kid d rp with Some t => has t s | None => false end) then at_ p (at_ k fails)
             else fun i => match mget (ikids (iget (iget i rp) s)) (L "valid") with
                           | Some (IFlag true) => Ok (true, i)
                           | Some (IFlag false) => at_ p (at_ k fails) i
                           | _ => Err
                           end
         | _ => ret false
         end) i1 = Ok (names_good d f rp g c, i2) /\ step p k i1 i2 /\ flag (iget (iget i2 p) k) = flag (iget (iget i1 p) k)).
  { pose proof (inner_keeps p k fails i1 false P K (proj1 A2) keeps_fails) as X.
    assert (Y : step p k i1 i1) by apply step_refl, A2.
    unfold names_good. unfold must at 1. destruct (kid c f) as [x|]; [|exists i1; auto].
    destruct x as [| | |s|]; try (exists i1; auto; fail). unfold must at 1.
    destruct (kid d rp) as [sec|] eqn:KD; [|exact X].
    unfold has, must. destruct (kid sec s) as [t|] eqn:KS; cbn [negb]; [|rewrite Bool.andb_false_r; exact X].
    assert (O : object_ sec = true) by (destruct sec as [|[|]| | |]; try discriminate KS; reflexivity). rewrite O. cbn [andb].
    assert (E : iget i1 rp = iget i rp) by (apply A2; exact RP).
    rewrite E, (flag_read _ _ (S sec s t KD KS)). destruct (g t); [exists i1; auto|exact X]. }
  destruct M as (i2 & M1 & M2 & M3). unfold bindV at 1. rewrite M1. cbn [obind fst snd].
  set (b := names_good d f rp g c) in *. set (n := iget (iget i2 p) k).
  assert (TN : tidy n) by apply tidy_iget, tidy_iget, M2.
  destruct (keeps_at f (valid b) b F (ok_valid b) n TN) as (j1 & B1 & B2 & B3).
  destruct (validation_ok j1 b B2) as (j2 & C1 & C2 & C3 & _).
  destruct (inner p k (bindV (at_ f (valid b)) valid) i2 b j2 P K (proj1 M2)) as (i3 & D1 & D2 & D3).
  - fold n. unfold bindV. rewrite B1. cbn [obind fst snd]. unfold valid. rewrite C1. reflexivity.
  - exact C2.
  - exists i3. split; [exact D1|]. split; [exact (step_trans _ _ _ _ _ A2 (step_trans _ _ _ _ _ M2 D2))|].
    rewrite D3, C3. do 2 f_equal. unfold upto. rewrite B3. unfold n. rewrite M3, A3. reflexivity.
Qed.
Lemma also_run a b i x i1 y i2 : a i = Ok (x, i1) -> b i1 = Ok (y, i2) -> also a b i = Ok (x && y, i2).
Proof. intros A B. unfold also, bindV. rewrite A. cbn [obind fst snd]. rewrite B. reflexivity. Qed.
Lemma each_cons {A} (f : A -> V) a l : each f (a :: l) = also (f a) (each f l).
Proof. reflexivity. Qed.
Section Domain.
  Variables (d : tree) (G : str -> tree -> bool).
  Definition known (done : list str) (i : itree) : Prop := forall p, In p done -> shows d p (G p) i.
  Lemma known_step done p k i i' : ~ In p done -> step p k i i' -> known done i -> known done i'.
  Proof.
    intros P S K q Q sec s c A B. destruct S as (_ & _ & S & _). rewrite (S q); [apply (K q Q sec s c A B)|]. intro E. subst. auto.
  Qed.
  Definition refs_value (refs : list (str * str)) (c : tree) : bool := forallb (fun r => names_good d (fst r) (snd r) (G (snd r)) c) refs.
  Lemma refs_ok done p k c refs : p <> L "valid" -> k <> L "valid" -> ~ In p done ->
    (forall r, In r refs -> fst r <> L "valid" /\ In (snd r) done) -> forall i x, tidy i -> known done i -> flag (iget (iget i p) k) = Some x ->
    exists i', each (fun r => v_ref d p k c (fst r) (snd r)) refs i = Ok (refs_value refs c, i') /\ step p k i i' /\
      flag (iget (iget i' p) k) = Some (x && refs_value refs c).
  Proof.
    intros P K ND. induction refs as [|r refs IH]; intros R i x T KN F.
    - exists i. split; [reflexivity|split; [apply step_refl, T|]]. cbn. rewrite Bool.andb_true_r. exact F.
    - destruct (R r (or_introl eq_refl)) as [R1 R2].
      destruct (ref_ok d p k c (fst r) (snd r) (G (snd r)) i P K R1) as (i1 & A1 & A2 & A3); [intro E; apply ND; congruence|exact T|exact (KN _ R2)|].
      destruct (IH (fun r' H => R r' (or_intror H)) i1 _ (proj1 A2) (known_step _ _ _ _ _ ND A2 KN) A3) as (i2 & B1 & B2 & B3).
      exists i2. rewrite each_cons. split; [exact (also_run _ _ _ _ _ _ _ A1 B1)|split; [exact (step_trans _ _ _ _ _ A2 B2)|]].
      rewrite B3. unfold upto. rewrite F. cbn [refs_value forallb]. f_equal. unfold refs_value. bt.
  Qed.
  (** a check that starts afresh *)
  Definition fresh (v : V) (b : bool) : Prop := forall i, exists i', v i = Ok (b, i') /\ tidy i' /\ flag i' = Some b.
  Lemma children_ok done p v vb refs : p <> L "valid" -> ~ In p done ->
    (forall c r, In r (refs c) -> fst r <> L "valid" /\ In (snd r) done) ->
    forall l, NoDup (map fst l) -> (forall k c, In (k, c) l -> k <> L "valid" /\ fresh (v c) (vb c)) -> forall i, tidy i -> known done i ->
    exists i', each (fun e => also (at_ p (at_ (fst e) (v (snd e))))
                               (each (fun r => v_ref d p (fst e) (snd e) (fst r) (snd r)) (refs (snd e)))) l i =
        Ok (forallb (fun e => vb (snd e) && refs_value (refs (snd e)) (snd e)) l, i') /\
      tidy i' /\ flag i' = flag i /\ (forall q, q <> p -> iget i' q = iget i q) /\
      (forall s, ~ In s (map fst l) -> iget (iget i' p) s = iget (iget i p) s) /\
      (forall k c, In (k, c) l -> flag (iget (iget i' p) k) = Some (vb c && refs_value (refs c) c)).
  Proof.
    intros P ND R. induction l as [|[k c] l IH]; intros N H i T KN.
    - exists i. split; [reflexivity|]. split; [exact T|]. split; [reflexivity|]. split; [reflexivity|]. split; [reflexivity|]. intros k c [].
    - inversion N as [|x y N1 N2]; subst. destruct (H k c (or_introl eq_refl)) as [K FR].
      destruct (FR (iget (iget i p) k)) as (j & F1 & F2 & F3).
      destruct (inner p k (v c) i _ j P K T F1 F2) as (i1 & A1 & A2 & A3).
      assert (X : flag (iget (iget i1 p) k) = Some (vb c)) by (rewrite A3; exact F3).
      destruct (refs_ok done p k c (refs c) P K ND (R c) i1 _ (proj1 A2) (known_step _ _ _ _ _ ND A2 KN) X) as (i2 & B1 & B2 & B3).
      pose proof (step_trans _ _ _ _ _ A2 B2) as S.
      destruct (IH N2 (fun k' c' M => H k' c' (or_intror M)) i2 (proj1 B2) (known_step _ _ _ _ _ ND S KN)) as (i3 & C1 & C2 & C3 & C4 & C5 & C6).
      exists i3. rewrite each_cons. cbn [fst snd forallb]. destruct S as (S1 & S2 & S3 & S4).
      split; [exact (also_run _ _ _ _ _ _ _ (also_run _ _ _ _ _ _ _ A1 B1) C1)|]. split; [exact C2|]. split; [congruence|]. split; [intros q Q; rewrite C4, S3; auto|]. split.
      + intros s M. rewrite C5; [apply S4; intro E; apply M; left; auto|intro E; apply M; right; exact E].
      + intros k' c' [E|E]; [|apply C6, E]. inversion E; subst. rewrite C5; [exact B3|exact N1].
  Qed.
  (** steps of the check of a domain *)
  Definition stage (v : V) (b : bool) (before after : itree -> Prop) : Prop := forall i, tidy i -> before i ->
    exists i', v i = Ok (b, i') /\ tidy i' /\ flag i' = flag i /\ after i'.
  Lemma stage_also a b x y P Q R : stage a x P Q -> stage b y Q R -> stage (also a b) (x && y) P R.
  Proof.
    intros A B i T K. destruct (A i T K) as (i1 & A1 & A2 & A3 & A4). destruct (B i1 A2 A4) as (i2 & B1 & B2 & B3 & B4).
    exists i2. split; [exact (also_run _ _ _ _ _ _ _ A1 B1)|]. split; [exact B2|split; [congruence|exact B4]].
  Qed.
  Lemma stage_end P : stage (all_ []) true P P.
  Proof. intros i T K. exists i. auto. Qed.
  Lemma known_only done p i i' : ~ In p done -> (forall q, In q done -> ~ In q reserved) ->
    (forall q, q <> p -> ~ In q reserved -> iget i' q = iget i q) -> known done i -> known done i'.
  Proof.
    intros P R S K q Q sec s c A B. rewrite (S q); [apply (K q Q sec s c A B)|intro E; subst; auto|exact (R q Q)].
  Qed.
  Hypothesis C : clean d.
  Lemma stage_section done p v vb refs : ~ In p reserved -> ~ In p done -> (forall q, In q done -> ~ In q reserved) ->
    (forall c r, In r (refs c) -> fst r <> L "valid" /\ In (snd r) done) ->
    (forall sec k c, kid d p = Some sec -> In (k, c) (kids sec) -> fresh (v c) (vb c)) ->
    (forall c, G p c = vb c && refs_value (refs c) c) ->
    stage (section d p v refs) (must p (all_good (G p)) d) (known done) (known (p :: done)).
  Proof.
    intros P ND RES R FR E i T KN. pose proof (not_valid _ P) as PV.
    destruct (only_typed (object_like false false 0) d p PV i T) as (i1 & A1 & A2 & A3 & A4).
    pose proof (known_only _ _ _ _ ND RES A4 KN) as K1.
    assert (OB : must p (object_like false false 0) d = must p object_ d) by apply must_ext, obj_eq.
    unfold section, andb_. unfold bindV at 1. unfold v_obj. rewrite A1. cbn [obind fst snd]. rewrite OB.
    destruct (kid d p) as [sec|] eqn:KS.
    2: { rewrite (must_none _ _ _ KS), (must_none _ _ _ KS). exists i1. split; [reflexivity|]. split; [exact A2|split; [exact A3|]].
         intros q [<-|Q]; [intros sec s c X; congruence|exact (K1 q Q)]. }
    rewrite !(must_some _ _ _ _ KS). unfold all_good. destruct (object_ sec) eqn:O; cbn [andb].
    2: { exists i1. split; [reflexivity|]. split; [exact A2|split; [exact A3|]].
         intros q [<-|Q]; [|exact (K1 q Q)]. intros sec' s c X Y. assert (sec' = sec) by congruence. subst.
         destruct sec as [|[|]| | |]; discriminate. }
    pose proof (clean_kid _ _ _ C KS) as CS.
    assert (NDS : NoDup (map fst (kids sec))) by (destruct sec; try discriminate O; apply clean_obj, CS).
    destruct (children_ok done p v vb refs PV ND R (kids sec) NDS) with (i := i1) as (i2 & B1 & B2 & B3 & B4 & B5 & B6).
    { intros k c H. split; [exact (kids_nv _ _ _ CS H)|exact (FR _ _ _ eq_refl H)]. }
    { exact A2. } { exact K1. }
    rewrite (fetch_kid _ _ _ KS). unfold need. cbn [obind]. unfold bindV. rewrite B1. cbn [obind fst snd].
    set (b := forallb _ _) in *. unfold at_, valid.
    destruct (validation_ok (iget i2 p) b (tidy_iget _ _ B2)) as (j & D1 & D2 & D3 & D4). rewrite D1. cbn [obind fst snd].
    exists (iput i2 p j). split.
    { f_equal. f_equal. unfold b, every. apply forallb_ext'. intro e. symmetry. apply E. }
    split; [apply tidy_iput; [exact B2|exact D2|congruence]|]. split; [rewrite flag_iput by exact PV; congruence|].
    intros q [<-|Q].
    - intros sec' s c X Y. assert (sec' = sec) by congruence. subst sec'. rewrite iget_iput_same. rewrite D4 by exact (kids_nv _ _ _ CS (kid_kids _ _ _ Y)).
      rewrite (B6 s c (kid_kids _ _ _ Y)), E. reflexivity.
    - intros sec' s c X Y. assert (QP : q <> p) by (intro; subst; auto). rewrite iget_iput_other by exact QP. rewrite B4 by exact QP. exact (K1 q Q sec' s c X Y).
  Qed.
  Lemma stage_may done p v b : stage v (must p b d) (known done) (known (p :: done)) -> stage (when (has d p) v) (may p b d) (known done) (known (p :: done)).
  Proof.
    intros H. unfold has, may. unfold must in H. destruct (kid d p) eqn:K; [exact H|]. intros i T KN. exists i. split; [reflexivity|].
    split; [exact T|split; [reflexivity|]]. intros q [<-|Q]; [intros sec s c X; congruence|exact (KN q Q)].
  Qed.
  Definition grid (c : tree) : bool :=
    negb (given (L "grid_function") c) || names_good d (L "grid_function") (L "fields") (G (L "fields")) c.
  Lemma grid_children done l : ~ In (L "topologies") done -> In (L "fields") done -> (forall k c, In (k, c) l -> k <> L "valid") ->
    forall i, tidy i -> known done i -> exists i',
      each (fun e => when (has (snd e) (L "grid_function"))
                               (v_ref d (L "topologies") (fst e) (snd e) (L "grid_function") (L "fields"))) l i
        = Ok (forallb (fun e => grid (snd e)) l, i') /\ tidy i' /\ flag i' = flag i /\
      (forall q, q <> L "topologies" -> iget i' q = iget i q) /\
      (forall s, ~ In s (map fst l) -> iget (iget i' (L "topologies")) s = iget (iget i (L "topologies")) s) /\
      (NoDup (map fst l) -> forall k c x, In (k, c) l -> flag (iget (iget i (L "topologies")) k) = Some x ->
        flag (iget (iget i' (L "topologies")) k) = Some (x && grid c)).
  Proof.
    intros ND F. induction l as [|[k c] l IH]; intros H i T KN; [exists i; repeat split; auto; intros _ ? ? ? []|].
    assert (A : exists i1, when (has c (L "grid_function")) (v_ref d (L "topologies") k c (L "grid_function") (L "fields")) i = Ok (grid c, i1) /\
      step (L "topologies") k i i1 /\ forall x, flag (iget (iget i (L "topologies")) k) = Some x -> flag (iget (iget i1 (L "topologies")) k) = Some (x && grid c)).
    { unfold grid. change (has c (L "grid_function")) with (given (L "grid_function") c).
      destruct (given (L "grid_function") c); cbn [when negb orb].
      2: { exists i. split; [reflexivity|split; [apply step_refl, T|intros x X; rewrite Bool.andb_true_r; exact X]]. }
      destruct (ref_ok d (L "topologies") k c (L "grid_function") (L "fields") (G (L "fields")) i) as (i1 & A1 & A2 & A3);
        [nv|apply (H k c); left; reflexivity|nv|nv|exact T|exact (KN _ F)|].
      exists i1. split; [exact A1|split; [exact A2|]]. intros x X. rewrite A3. unfold upto. rewrite X. f_equal. apply Bool.andb_comm. }
    destruct A as (i1 & A1 & A2 & A3).
    destruct (IH (fun k' c' M => H k' c' (or_intror M)) i1 (proj1 A2) (known_step _ _ _ _ _ ND A2 KN)) as (i2 & B1 & B2 & B3 & B4 & B5 & B6).
    destruct A2 as (A21 & A22 & A23 & A24).
    exists i2. rewrite each_cons. split; [exact (also_run _ _ _ _ _ _ _ A1 B1)|]. split; [exact B2|]. split; [congruence|]. split; [|split].
    - intros q Q. rewrite B4, A23; auto.
    - intros s S. cbn in S. rewrite B5, A24; auto.
    - intros N k' c' x M X. inversion N as [|? ? N1 N2]; subst. destruct M as [M|M].
      + injection M as <- <-. rewrite B5 by exact N1. apply A3, X.
      + apply B6; [exact N2|exact M|]. rewrite A24; [exact X|]. intro E. subst. apply N1. apply in_map_iff. exists (k, c'). auto.
  Qed.
End Domain.

(** * Whole domains *)
Lemma fresh_of v b : ok v b -> fresh (reset (finish v)) b.
Proof. intros H i. exact (fresh_flag v b H i). Qed.
Definition goods (d : tree) (p : str) : tree -> bool :=
  if str_eqb p (L "coordsets") then coordset_ok else if str_eqb p (L "topologies") then topo_good d
  else if str_eqb p (L "matsets") then mat_good d else if str_eqb p (L "specsets") then spec_good d
  else if str_eqb p (L "fields") then field_good d else if str_eqb p (L "adjsets") then adj_good d else nest_good d.
Ltac reserved_ := let H := fresh in intro H; vm_compute in H; intuition discriminate.
Lemma every_In p n k c : every p n = true -> In (k, c) (kids n) -> p c = true.
Proof. unfold every. rewrite forallb_forall. intros H I. exact (H (k, c) I). Qed.
Lemma domain_stage d : clean d -> readable_domain d = true ->
  stage (all_
    [section d (L "coordsets") coordset (fun _ => []);
     section d (L "topologies") topology (fun _ => [(L "coordset", L "coordsets")]);
     when (has d (L "matsets")) (section d (L "matsets") matset to_topology);
     when (has d (L "specsets")) (section d (L "specsets") specset (fun _ => [(L "matset", L "matsets")]));
     when (has d (L "fields")) (section d (L "fields") field field_refs);
     when (has d (L "adjsets")) (section d (L "adjsets") adjset to_topology);
     when (has d (L "nestsets")) (section d (L "nestsets") nestset to_topology);
     v_grid d]) (domain_ok d) (fun _ => True) (fun i => forall p, In p sections -> shows d p (marks d p) i).
Proof.
  intros C R. apply andb_prop in R. destruct R as [R1 R2].
  assert (CL : forall p sec k c, kid d p = Some sec -> In (k, c) (kids sec) -> clean c).
  { intros p sec k c K H. exact (proj2 (kids_fine sec k c (clean_kid _ _ _ C K) H)). }
  set (K := known d (goods d)). set (done1 := [L "coordsets"]). set (done2 := L "topologies" :: done1). set (done3 := L "matsets" :: done2). set (done4 := L "specsets" :: done3).
  set (done5 := L "fields" :: done4). set (done6 := L "adjsets" :: done5). set (done7 := L "nestsets" :: done6).
  assert (RES : forall q, In q done7 -> ~ In q reserved).
  { intros q Q. cbn in Q. intuition subst; match goal with H : In _ reserved |- _ => vm_compute in H; intuition discriminate end. }
  assert (S1 : stage (section d (L "coordsets") coordset (fun _ => [])) (must (L "coordsets") (all_good coordset_ok) d) (K []) (K done1)).
  { apply (stage_section d (goods d) C) with (vb := coordset_ok); [reserved_|intros []|intros q []|intros c r []| |].
    - intros sec k c _ _. apply fresh_of, ok_coordset.
    - intro c. symmetry. apply Bool.andb_true_r. }
  assert (S2 : stage (section d (L "topologies") topology (fun _ => [(L "coordset", L "coordsets")])) (must (L "topologies") (all_good (topo_good d)) d) (K done1) (K done2)).
  { apply (stage_section d (goods d) C) with (vb := topology_ok); [reserved_|reserved_| | | |].
    - intros q Q. apply RES. do 6 right. exact Q.
    - intros c r [<-|[]]. split; [nv|left; reflexivity].
    - intros sec k c KS H. apply fresh_of, ok_topology; [exact (CL _ _ _ _ KS H)|]. rewrite (may_some _ _ _ _ KS) in R1. exact (every_In _ _ _ _ R1 H).
    - intro c. unfold refs_value. cbn [forallb fst snd]. rewrite Bool.andb_true_r. reflexivity. }
  assert (TT : forall done, In (L "topologies") done -> forall c r, In r (to_topology c) -> fst r <> L "valid" /\ In (snd r) done).
  { intros done H c r [<-|[]]. split; [nv|exact H]. }
  assert (S3 : stage (when (has d (L "matsets")) (section d (L "matsets") matset to_topology)) (may (L "matsets") (all_good (mat_good d)) d) (K done2) (K done3)).
  { apply stage_may. apply (stage_section d (goods d) C) with (vb := matset_ok); [reserved_|reserved_| | | |].
    - intros q Q. apply RES. do 5 right. exact Q.
    - apply TT. left. reflexivity.
    - intros sec k c KS H. apply fresh_of, ok_matset, (CL _ _ _ _ KS H).
    - intro c. unfold refs_value, to_topology. cbn [forallb fst snd]. rewrite Bool.andb_true_r. reflexivity. }
  assert (S4 : stage (when (has d (L "specsets")) (section d (L "specsets") specset (fun _ => [(L "matset", L "matsets")]))) (may (L "specsets") (all_good (spec_good d)) d) (K done3) (K done4)).
  { apply stage_may. apply (stage_section d (goods d) C) with (vb := specset_ok); [reserved_|reserved_| | | |].
    - intros q Q. apply RES. do 4 right. exact Q.
    - intros c r [<-|[]]. split; [nv|left; reflexivity].
    - intros sec k c KS H. apply fresh_of, ok_specset; [exact (CL _ _ _ _ KS H)|]. rewrite (may_some _ _ _ _ KS) in R2. exact (every_In _ _ _ _ R2 H).
    - intro c. unfold refs_value. cbn [forallb fst snd]. rewrite Bool.andb_true_r. reflexivity. }
  assert (S5 : stage (when (has d (L "fields")) (section d (L "fields") field field_refs)) (may (L "fields") (all_good (field_good d)) d) (K done4) (K done5)).
  { apply stage_may. apply (stage_section d (goods d) C) with (vb := field_ok); [reserved_|reserved_| | | |].
    - intros q Q. apply RES. do 3 right. exact Q.
    - intros c r H. unfold field_refs in H. apply in_app_or in H.
      destruct H as [H|H]; [destruct (has c (L "topology"))|destruct (has c (L "matset"))]; try destruct H; try match goal with X : _ = r |- _ => subst r end; try contradiction; (split; [nv|cbn; tauto]).
    - intros sec k c KS H. apply fresh_of, ok_field.
    - intro c. unfold refs_value, field_refs. change (has c (L "topology")) with (given (L "topology") c). change (has c (L "matset")) with (given (L "matset") c).
      change (goods d (L "fields") c) with (field_good d c). unfold field_good. change (goods d) with (goods d).
      destruct (given (L "topology") c), (given (L "matset") c); cbn [app forallb fst snd negb orb];
        change (goods d (L "topologies")) with (topo_good d); change (goods d (L "matsets")) with (mat_good d); bt. }
  assert (S6 : stage (when (has d (L "adjsets")) (section d (L "adjsets") adjset to_topology)) (may (L "adjsets") (all_good (adj_good d)) d) (K done5) (K done6)).
  { apply stage_may. apply (stage_section d (goods d) C) with (vb := adjset_ok); [reserved_|reserved_| | | |].
    - intros q Q. apply RES. do 2 right. exact Q.
    - apply TT. cbn. tauto.
    - intros sec k c KS H. apply fresh_of, ok_adjset, (CL _ _ _ _ KS H).
    - intro c. unfold refs_value, to_topology. cbn [forallb fst snd]. rewrite Bool.andb_true_r. reflexivity. }
  assert (S7 : stage (when (has d (L "nestsets")) (section d (L "nestsets") nestset to_topology)) (may (L "nestsets") (all_good (nest_good d)) d) (K done6) (K done7)).
  { apply stage_may. apply (stage_section d (goods d) C) with (vb := nestset_ok); [reserved_|reserved_| | | |].
    - intros q Q. apply RES. right. exact Q.
    - apply TT. cbn. tauto.
    - intros sec k c KS H. apply fresh_of, ok_nestset, (CL _ _ _ _ KS H).
    - intro c. unfold refs_value, to_topology. cbn [forallb fst snd]. rewrite Bool.andb_true_r. reflexivity. }
  assert (S8 : stage (v_grid d) (may (L "topologies") (every (grid_good d)) d) (K done7) (fun i => forall p, In p sections -> shows d p (marks d p) i)).
  { intros i T KN. unfold v_grid, may. change (has d (L "topologies")) with (given (L "topologies") d). unfold given at 1.
    assert (OLD : forall p, In p sections -> p <> L "topologies" -> shows d p (marks d p) i).
    { intros p P N sec s c X Y. assert (E : marks d p c = goods d p c).
      { unfold sections in P. cbn [In] in P. destruct P as [<-|[E|P]]; [reflexivity|congruence|].
        repeat (destruct P as [<-|P]; [reflexivity|]). destruct P. }
      rewrite E. apply (KN p) with (sec := sec); [cbn in P; cbn; tauto|exact X|exact Y]. }
    destruct (kid d (L "topologies")) as [sec|] eqn:KS; cbn [when].
    2: { exists i. split; [reflexivity|split; [exact T|split; [reflexivity|]]]. intros p P.
         destruct (str_eqb_spec p (L "topologies")) as [E|N]; [subst p; intros sec s c X; congruence|exact (OLD p P N)]. }
    rewrite (fetch_kid _ _ _ KS). unfold need. cbn [obind].
    destruct (grid_children d (goods d) [L "fields"] (kids sec)) with (i := i) as (i1 & A1 & A2 & A3 & A4 & A5 & A6).
    { reserved_. } { left. reflexivity. } { intros k c H. exact (kids_nv _ _ _ (clean_kid _ _ _ C KS) H). } { exact T. }
    { intros q [<-|[]]. apply KN. cbn. tauto. }
    unfold bindV. rewrite A1. cbn [obind fst snd]. unfold at_, valid. set (b := forallb _ _).
    destruct (validation_ok (iget i1 (L "topologies")) b (tidy_iget _ _ A2)) as (j & D1 & D2 & D3 & D4). rewrite D1. cbn [obind fst snd].
    exists (iput i1 (L "topologies") j). split; [reflexivity|]. split; [apply tidy_iput; [exact A2|exact D2|intro; discriminate]|].
    split; [rewrite flag_iput by nv; exact A3|]. intros p P.
    destruct (str_eqb_spec p (L "topologies")) as [E|N].
    - subst p. intros sec' s c X Y. assert (sec' = sec) by congruence. subst sec'. rewrite iget_iput_same.
      pose proof (kid_kids _ _ _ Y) as M. pose proof (clean_kid _ _ _ C KS) as CS. rewrite D4 by exact (kids_nv _ _ _ CS M).
      change (marks d (L "topologies") c) with (goods d (L "topologies") c && grid d (goods d) c). apply A6; [|exact M|].
      + destruct sec; try discriminate Y. apply clean_obj, CS.
      + apply (KN (L "topologies")) with (sec := sec); [cbn; tauto|exact KS|exact Y].
    - intros sec' s c X Y. rewrite iget_iput_other by exact N. rewrite A4 by exact N. exact (OLD p P N sec' s c X Y). }
  assert (W := stage_also _ _ _ _ _ _ _ S1 (stage_also _ _ _ _ _ _ _ S2 (stage_also _ _ _ _ _ _ _ S3 (stage_also _ _ _ _ _ _ _ S4
    (stage_also _ _ _ _ _ _ _ S5 (stage_also _ _ _ _ _ _ _ S6 (stage_also _ _ _ _ _ _ _ S7 (stage_also _ _ _ _ _ _ _ S8 (stage_end _))))))))).
  intros i T _. destruct (W i T) as (i' & A1 & A2 & A3 & A4); [intros q []|]. exists i'. split; [|split; [exact A2|split; [exact A3|exact A4]]].
  unfold all_. cbn [fold_right]. etransitivity; [exact A1|]. do 2 f_equal.
  unfold domain_ok. destruct (kid d (L "topologies")) as [sec|] eqn:KS;
    [rewrite !(must_some _ (L "topologies") _ _ KS), (may_some _ (L "topologies") _ _ KS)|rewrite !(must_none _ (L "topologies") _ KS); bt].
  assert (E : all_good (topo_good d) sec && every (grid_good d) sec = all_good (fun c => topo_good d c && grid_good d c) sec).
  { unfold all_good, every. rewrite <- Bool.andb_assoc. f_equal. induction (kids sec) as [|e l IH]; [reflexivity|]. cbn [forallb]. rewrite <- IH. bt. }
  rewrite <- E. bt.
Qed.
Definition tells (d : tree) (i : itree) : Prop := flag i = Some (domain_ok d) /\ forall p, In p sections -> shows d p (marks d p) i.
Lemma domain_report d : clean d -> readable_domain d = true -> forall i, exists i', single_domain d i = Ok (domain_ok d, i') /\ tidy i' /\ tells d i'.
Proof.
  intros C R i. unfold single_domain, reset, finish.
  assert (T : tidy INone) by exact I. destruct (domain_stage d C R INone T I) as (i1 & A1 & A2 & A3 & A4).
  unfold bindV at 1. rewrite A1. cbn [obind fst snd]. unfold valid.
  destruct (validation_ok i1 (domain_ok d) A2) as (j & D1 & D2 & D3 & D4). rewrite D1. cbn [obind fst snd].
  exists j. split; [reflexivity|split; [exact D2|split]]; [rewrite D3; unfold upto; rewrite A3; cbn; f_equal; apply Bool.andb_true_r|].
  intros p P sec s c X Y. rewrite D4; [exact (A4 p P sec s c X Y)|]. intro E. subst p. vm_compute in P. intuition discriminate.
Qed.
Lemma domain_fresh d : clean d -> readable_domain d = true -> fresh (single_domain d) (domain_ok d).
Proof. intros C R i. destruct (domain_report d C R i) as (i' & A & B & D & _). exists i'. auto. Qed.
Lemma fresh_ok v b : fresh v b -> ok v b.
Proof. intros H i T. destruct (H i) as (i' & A & B & D). exists i'. split; [exact A|split; [exact B|]]. intros -> _. unfold upto. rewrite D. reflexivity. Qed.
Lemma kids_distinct n : clean n -> NoDup (map fst (kids n)).
Proof.
  destruct n as [|es|ts| |]; cbn [kids]; intro C; try constructor; [apply clean_obj, C|].
  assert (E : forall (l : list str) (m : list tree), length l = length m -> map fst (combine l m) = l).
  { induction l as [|x l IH]; intros [|y m] H; try discriminate; [reflexivity|]. cbn. f_equal. apply IH. cbn in H. lia. }
  rewrite E by (rewrite map_length, seq_length; reflexivity). apply FinFun.Injective_map_NoDup; [|apply seq_NoDup].
  intros i j H. exact (show_nat_inj _ _ H).
Qed.
Definition reports (n : tree) (i : itree) : Prop :=
  if given (L "coordsets") n then tells n i else forall k c, In (k, c) (kids n) -> tells c (iget i k).
Lemma domains_ok l : NoDup (map fst l) -> (forall k c, In (k, c) l -> k <> L "valid" /\ clean c /\ readable_domain c = true) ->
  forall i, tidy i -> exists i', each (fun e => at_ (fst e) (single_domain (snd e))) l i = Ok (forallb (fun e => domain_ok (snd e)) l, i') /\ tidy i' /\
    flag i' = flag i /\ (forall q, ~ In q (map fst l) -> iget i' q = iget i q) /\ (forall k c, In (k, c) l -> tells c (iget i' k)).
Proof.
  induction l as [|[k c] l IH]; intros N H i T; [exists i; split; [reflexivity|split; [exact T|split; [reflexivity|split; [auto|intros ? ? []]]]]|].
  inversion N as [|? ? N1 N2]; subst. destruct (H k c (or_introl eq_refl)) as (H1 & H2 & H3).
  destruct (domain_report c H2 H3 (iget i k)) as (j & A1 & A2 & A3).
  assert (A : at_ k (single_domain c) i = Ok (domain_ok c, iput i k j)) by (unfold at_; rewrite A1; reflexivity).
  destruct (IH N2 (fun k' c' M => H k' c' (or_intror M)) (iput i k j)) as (i2 & B1 & B2 & B3 & B4 & B5).
  { apply tidy_iput; [exact T|exact A2|congruence]. }
  exists i2. rewrite each_cons. split; [exact (also_run _ _ _ _ _ _ _ A B1)|]. split; [exact B2|].
  split; [rewrite B3; apply flag_iput, H1|]. split.
  - intros q Q. cbn in Q. rewrite B4 by tauto. apply iget_iput_other. intro E. apply Q. left. congruence.
  - intros k' c' [M|M]; [|exact (B5 _ _ M)]. injection M as <- <-. cbn in N1. rewrite B4 by exact N1. rewrite iget_iput_same. exact A3.
Qed.
Lemma verify_ok n : clean n -> readable n = true ->
  exists i, mesh_verify n = Ok (mesh_ok n, i) /\ flag i = Some (mesh_ok n) /\ reports n i.
Proof.
  intros C R. unfold mesh_verify, mesh_ok, readable, reports in *. change (has n (L "coordsets")) with (given (L "coordsets") n).
  destruct (given (L "coordsets") n).
  - destruct (domain_report n C R INone) as (i & A & _ & B). exists i. split; [exact A|split; [apply B|exact B]].
  - unfold multi_domain, reset, finish.
    destruct (domains_ok (kids n) (kids_distinct n C)) with (i := INone) as (i & A1 & A2 & A3 & A4 & A5).
    { intros k c H. destruct (kids_fine _ _ _ C H) as [F G]. split; [apply not_valid, F|split; [exact G|exact (every_In _ _ _ _ R H)]]. }
    { exact I. }
    set (w := bindV _ (fun r => tell log_info (ret r))).
    assert (X : exists j, bindV w valid INone = Ok (every domain_ok n, j) /\ flag j = Some (every domain_ok n) /\ forall k c, In (k, c) (kids n) -> tells c (iget j k)).
    { unfold w, tell. unfold bindV at 2. unfold bindV at 1. rewrite A1. cbn [obind fst snd]. unfold ret. cbn [obind fst snd]. unfold valid.
      destruct (info_fine i A2) as [B1 B2].
      destruct (validation_ok (log_info i) (every domain_ok n) B1) as (j & D1 & D2 & D3 & D4). fold (every domain_ok n). rewrite D1. cbn [obind fst snd].
      exists j. split; [reflexivity|]. split; [rewrite D3; unfold upto; rewrite B2, A3; cbn; f_equal; apply Bool.andb_true_r|].
      intros k c H. destruct (kids_fine _ _ _ C H) as [F G]. rewrite D4 by apply not_valid, F.
      assert (E : iget (log_info i) k = iget i k) by (apply iget_iput_other; intro E; apply F; subst; vm_compute; tauto). rewrite E. exact (A5 k c H). }
    destruct n; first [exact X|clear X].
    + unfold bindV, fails. cbn [obind fst snd]. unfold valid. eexists. split; [reflexivity|]. split; [reflexivity|intros ? ? []].
    + unfold bindV, fails. cbn [obind fst snd]. unfold valid. eexists. split; [reflexivity|]. split; [reflexivity|intros ? ? []].
Qed.
(** * Single parts *)
Lemma part_run v b : ok v b -> forall i, exists i', reset (finish v) i = Ok (b, i') /\ flag i' = Some b.
Proof. intros H i. destruct (fresh_flag v b H i) as (i' & A & _ & B). exists i'. auto. Qed.
Lemma coordset_run n i : exists i', coordset n i = Ok (coordset_ok n, i') /\ flag i' = Some (coordset_ok n).
Proof. apply part_run, ok_coordset. Qed.
Lemma topology_run n i : clean n -> readable_topology n = true -> exists i', topology n i = Ok (topology_ok n, i') /\ flag i' = Some (topology_ok n).
Proof. intros C R. apply part_run, ok_topology; assumption. Qed.
Lemma matset_run n i : clean n -> exists i', matset n i = Ok (matset_ok n, i') /\ flag i' = Some (matset_ok n).
Proof. intros C. apply part_run, ok_matset, C. Qed.
Lemma field_run n i : exists i', field n i = Ok (field_ok n, i') /\ flag i' = Some (field_ok n).
Proof. apply part_run, ok_field. Qed.
Lemma specset_run n i : clean n -> readable_specset n = true -> exists i', specset n i = Ok (specset_ok n, i') /\ flag i' = Some (specset_ok n).
Proof. intros C R. apply part_run, ok_specset; assumption. Qed.
Lemma adjset_run n i : clean n -> exists i', adjset n i = Ok (adjset_ok n, i') /\ flag i' = Some (adjset_ok n).
Proof. intros C. apply part_run, ok_adjset, C. Qed.
Lemma nestset_run n i : clean n -> exists i', nestset n i = Ok (nestset_ok n, i') /\ flag i' = Some (nestset_ok n).
Proof. intros C. apply part_run, ok_nestset, C. Qed.
