From Coq Require Import ZArith Lia Permutation.
From Verif Require Import Base Path PathFacts Node NodeFacts SchemaInv MeshIO MeshIOSpec MeshIOFacts.
Local Open Scope Z_scope.

Section Rounds.
Context {V : Type}.
Variable upd : V -> V -> V.
Notation op := (@op V). Notation disk := (@disk V). Notation file := (@file V). Notation rank := (@rank V). Notation item := (@item V).
Notation put := (@put V upd). Notation do_ops := (@do_ops V upd). Notation upd_item := (@upd_item V upd).

(** * One file at a time *)
Definition step (c : option file) (o : op) : option file :=
  Some (put (match o_mode o with RdWr => match c with Some x => x | None => [] end | _ => [] end) (canon (o_key o)) (o_val o)).
Definition on (name : str) (o : op) : bool := str_eqb (o_file o) name.
Lemma do_ops_at name tr : forall d, mget (do_ops d tr) name = fold_left step (filter (on name) tr) (mget d name).
Proof.
  induction tr as [|o tr IH]; intros d; [reflexivity|]. unfold MeshIO.do_ops in *. cbn [fold_left filter]. rewrite IH. unfold do_op. rewrite mget_mset.
  unfold on at 2. destruct (str_eqb_spec name (o_file o)) as [->|N].
  - rewrite str_eqb_refl. cbn [fold_left]. apply (f_equal (fold_left step _)). unfold step, start, old. destruct (o_mode o); reflexivity.
  - destruct (str_eqb_spec (o_file o) name) as [E|_]; [congruence|]. reflexivity.
Qed.
Lemma do_ops_app d a b : do_ops d (a ++ b) = do_ops (do_ops d a) b.
Proof. apply fold_left_app. Qed.
Definition entries (c : option file) : file := match c with Some x => x | None => [] end.
(** writes that keep what is there, to different places *)
Lemma puts_at ops : forall c, Forall (fun o => o_mode o = RdWr) ops -> NoDup (map (fun o => canon (o_key o)) ops) ->
  (forall o, In o ops -> mget (entries (fold_left step ops c)) (canon (o_key o)) = Some (upd_item (mget (entries c) (canon (o_key o))) (o_val o))) /\
  (forall k, ~ In k (map (fun o => canon (o_key o)) ops) -> mget (entries (fold_left step ops c)) k = mget (entries c) k).
Proof.
  induction ops as [|o ops IH]; intros c F N; [split; [intros ? []|reflexivity]|].
  inversion F as [|x l Fo Fr]; subst x l. cbn [map] in N. inversion N as [|x l No Nr]; subst x l. cbn [fold_left].
  destruct (IH (step c o) Fr Nr) as [A B].
  assert (S : forall k, mget (entries (step c o)) k = if str_eqb k (canon (o_key o)) then Some (upd_item (mget (entries c) k) (o_val o)) else mget (entries c) k).
  { intros k. unfold step. rewrite Fo. cbn [entries]. unfold MeshIO.put. rewrite mget_mset. unfold entries. destruct (str_eqb_spec k (canon (o_key o))) as [->|Q]; destruct c; reflexivity. }
  split.
  - intros o' [<-|I].
    + rewrite B by exact No. rewrite S, str_eqb_refl. reflexivity.
    + rewrite A by exact I. rewrite S. destruct (str_eqb_spec (canon (o_key o')) (canon (o_key o))) as [E|_]; [|reflexivity].
      exfalso. apply No. rewrite <- E. apply (in_map (fun o => canon (o_key o))), I.
  - intros k H. cbn [map In] in H. rewrite B by tauto. rewrite S. destruct (str_eqb_spec k (canon (o_key o))) as [->|_]; [tauto|reflexivity].
Qed.
(** the same when the first write starts the file anew *)
Lemma trunc_at o ops c : o_mode o = Trunc -> fold_left step (o :: ops) c = fold_left step (mkOp (o_file o) RdWr (o_key o) (o_val o) :: ops) None.
Proof. intros E. cbn [fold_left]. f_equal. unfold step. rewrite E. reflexivity. Qed.

Section Batons.
Variable fails : nat -> Z -> bool.
Variable sched : nat -> list (list op) -> list op.
Hypothesis sched_ok : forall n ls, merge_of ls (sched n ls).
Variable truncate : bool.
Variable dir ext mesh : str.
Variable d2f : list Z.
Variable nf : Z.
Notation file_name := (file_name dir ext). Notation dom_path := (dom_path mesh). Notation wants := (@wants V d2f).
Notation write_doms := (@write_doms V fails truncate dir ext mesh d2f).
Notation turn := (@turn V fails truncate dir ext mesh d2f).
Notation rounds := (@rounds V upd fails sched truncate dir ext mesh d2f nf).
Notation batons := (@batons V d2f nf). Notation made := (@made V nf). Notation request := (@request V d2f nf).
Hypothesis name_inj : forall f g, 0 <= f < nf -> 0 <= g < nf -> file_name f = file_name g -> f = g.

Definition dop (f : Z) (m : omode) (d : Z * V * bool) : op := mkOp (file_name f) m (dom_path (fst (fst d))) (Dom (snd (fst d))).
Definition mark (f : Z) (g : bool) (ds : list (Z * V * bool)) : list op :=
  match ds with [] => [] | d :: r => dop f (if (truncate && negb g)%bool then Trunc else RdWr) d :: map (dop f RdWr) r end.
Definition some {A} (l : list A) : bool := match l with [] => false | _ => true end.
Definition clear (f : Z) (ds : list (Z * V * bool)) : list (Z * V * bool) := map (fun d => if wants f d then (fst d, false) else d) ds.
Definition pend (f : Z) (r : rank) : list (Z * V * bool) := filter (wants f) (r_doms r).

Lemma mark_app f g a b : mark f g (a ++ b) = mark f g a ++ mark f (g || (truncate && some a)) b.
Proof.
  destruct a as [|x a]; cbn [app mark some]; [rewrite andb_false_r, orb_false_r; reflexivity|].
  rewrite map_app. cbn [app]. do 2 f_equal. destruct b as [|y b]; [reflexivity|]. cbn [mark map]. f_equal. f_equal.
  destruct truncate, g; reflexivity.
Qed.
Lemma mark_file f g ds o : In o (mark f g ds) -> o_file o = file_name f.
Proof. destruct ds as [|d r]; cbn [mark]; [intros []|]. intros [<-|I]; [reflexivity|]. apply in_map_iff in I. destruct I as (x & <- & _). reflexivity. Qed.
Lemma filter_mark f h g ds : 0 <= f < nf -> 0 <= h < nf -> filter (on (file_name h)) (mark f g ds) = if f =? h then mark f g ds else [].
Proof.
  intros F H. destruct (Z.eqb_spec f h) as [->|N].
  - assert (A : forall l, (forall o, In o l -> o_file o = file_name h) -> filter (on (file_name h)) l = l).
    { induction l as [|o l IH]; intros X; [reflexivity|]. cbn [filter]. unfold on at 1. rewrite X by (left; reflexivity). rewrite str_eqb_refl. f_equal. apply IH. intros; apply X; right; assumption. }
    apply A. intros o I. eapply mark_file, I.
  - assert (A : forall l, (forall o, In o l -> o_file o = file_name f) -> filter (on (file_name h)) l = []).
    { induction l as [|o l IH]; intros X; [reflexivity|]. cbn [filter]. unfold on at 1. rewrite X by (left; reflexivity).
      destruct (str_eqb_spec (file_name f) (file_name h)) as [E|_]; [exfalso; apply N, name_inj; assumption|]. apply IH. intros; apply X; right; assumption. }
    apply A. intros o I. eapply mark_file, I.
Qed.

Lemma write_doms_ok n f ds : forall g ops g' ds', write_doms n f g ds = (ops, g', ds', true) ->
  ops = mark f g (filter (wants f) ds) /\ g' = (g || (truncate && some (filter (wants f) ds)))%bool /\ ds' = clear f ds /\
  Forall (fun d => fails n (fst (fst d)) = false) (filter (wants f) ds).
Proof.
  induction ds as [|d ds IH]; intros g ops g' ds' E; cbn [MeshIO.write_doms filter clear map] in *.
  - injection E as <- <- <-. cbn [some]. rewrite andb_false_r, orb_false_r. repeat split. constructor.
  - destruct (wants f d) eqn:W.
    + destruct (fails n (fst (fst d))) eqn:Fl; [discriminate E|].
      destruct (write_doms n f (g || truncate) ds) as [[[o2 g2] d2] ok] eqn:R. injection E as <- <- <- ->.
      destruct (IH _ _ _ _ R) as (A & B & C & D). subst o2 g2 d2. split; [|split; [|split; [reflexivity|constructor; assumption]]].
      * cbn [mark]. unfold dop at 1. f_equal. destruct (filter (wants f) ds) as [|x l]; [reflexivity|]. cbn [mark map]. f_equal. f_equal. destruct truncate, g; reflexivity.
      * cbn [some]. destruct truncate, g, (some (filter (wants f) ds)); reflexivity.
    + destruct (write_doms n f g ds) as [[[o2 g2] d2] ok] eqn:R. injection E as <- <- <- ->.
      destruct (IH _ _ _ _ R) as (A & B & C & D). subst. repeat split; try assumption.
Qed.
Lemma write_doms_good n f ds : forall g, (forall i, fails n i = false) -> exists ops g' ds', write_doms n f g ds = (ops, g', ds', true).
Proof.
  induction ds as [|d ds IH]; intros g NF; cbn [MeshIO.write_doms]; [repeat eexists|].
  destruct (wants f d).
  - rewrite NF. destruct (IH (g || truncate)%bool NF) as (a & b & c & E). rewrite E. repeat eexists.
  - destruct (IH g NF) as (a & b & c & E). rewrite E. repeat eexists.
Qed.
Lemma wants_clear f h d : wants h (if wants f d then (fst d, false) else d) = (negb (f =? h) && wants h d)%bool.
Proof.
  destruct (wants f d) eqn:W.
  - unfold MeshIO.wants in *. cbn [snd fst andb]. destruct (snd d); [|cbn [andb]; rewrite andb_false_r; reflexivity].
    cbn [andb] in *. destruct (znth d2f (fst (fst d))) as [g|]; [|discriminate W]. apply Z.eqb_eq in W. subst g.
    destruct (Z.eqb_spec f h); reflexivity.
  - destruct (Z.eqb_spec f h) as [->|N]; [|reflexivity]. rewrite W. reflexivity.
Qed.
Lemma pend_clear f h ds : filter (wants h) (clear f ds) = if f =? h then [] else filter (wants h) ds.
Proof.
  induction ds as [|d ds IH]; cbn [clear map filter]; [destruct (f =? h); reflexivity|]. fold (clear f ds). rewrite wants_clear, IH.
  destruct (Z.eqb_spec f h) as [->|N]; cbn [negb andb]; [reflexivity|].
  destruct (wants h d) eqn:W; [|reflexivity]. f_equal.
  destruct (wants f d) eqn:X; [|reflexivity]. exfalso. unfold MeshIO.wants in *. destruct (snd d); [|discriminate W]. cbn [andb] in *.
  destruct (znth d2f (fst (fst d))) as [g|]; [|discriminate W]. apply Z.eqb_eq in W, X. congruence.
Qed.

Definition inb (f : Z) (fs : list Z) : bool := existsb (Z.eqb f) fs.
Lemma inb_in f fs : inb f fs = true <-> In f fs.
Proof. unfold inb. rewrite existsb_exists. split; [intros (x & I & E); apply Z.eqb_eq in E; congruence|]. intros I. exists f. split; [exact I|apply Z.eqb_refl]. Qed.
Lemma znth_set {A} (l : list A) f x h : 0 <= f -> znth (set_nth l (Z.to_nat f) x) h = if (f =? h) && (f <? Z.of_nat (length l)) then Some x else znth l h.
Proof.
  intros F. unfold znth. destruct (Z.ltb_spec h 0) as [N|P]; [destruct (Z.eqb_spec f h); [lia|reflexivity]|].
  destruct (Z.eqb_spec f h) as [->|N]; cbn [andb].
  - destruct (Z.ltb_spec h (Z.of_nat (length l))) as [Y|Y].
    + apply nth_error_set_nth_same. lia.
    + transitivity (@None A); [|symmetry]; apply nth_error_None; rewrite ?length_set_nth; lia.
  - apply nth_error_set_nth_other. lia.
Qed.

(** what one rank does in its turn *)
Lemma turn_ok n bat mk fs : forall r ops r', turn n bat mk r fs = (ops, r', true) -> NoDup fs ->
  Forall (fun f => 0 <= f < nf) fs -> length (r_made r) = Z.to_nat nf -> length bat = Z.to_nat nf -> length mk = Z.to_nat nf ->
  r_id r' = r_id r /\ length (r_made r') = Z.to_nat nf /\ map fst (r_doms r') = map fst (r_doms r) /\
  (forall f b, znth bat f = Some b -> pend f r' = (if inb f fs && (b =? r_id r) then [] else pend f r)) /\
  (forall f b g, 0 <= f < nf -> znth bat f = Some b -> znth mk f = Some g ->
     znth (r_made r') f = if inb f fs && (b =? r_id r) && truncate && some (pend f r) && negb g then Some true else znth (r_made r) f) /\
  (forall f b g, 0 <= f < nf -> znth bat f = Some b -> znth mk f = Some g ->
     filter (on (file_name f)) ops = if inb f fs && (b =? r_id r) then mark f g (pend f r) else []) /\
  (forall o, In o ops -> exists f, In f fs /\ znth bat f = Some (r_id r) /\ o_file o = file_name f) /\
  (forall f, In f fs -> znth bat f = Some (r_id r) -> Forall (fun d => fails n (fst (fst d)) = false) (pend f r)).
Proof.
  induction fs as [|f fs IH]; intros r ops r' E N F Lr Lb Lm; cbn [MeshIO.turn] in E.
  - injection E as <- <-. split; [reflexivity|]. split; [exact Lr|]. split; [reflexivity|]. split; [reflexivity|]. split; [reflexivity|]. split; [reflexivity|].
    split; [intros o []|intros f []].
  - inversion N as [|x l Nf Nr]; subst x l. inversion F as [|x l Ff Fr]; subst x l.
    assert (Gb : exists b, znth bat f = Some b).
    { unfold znth. destruct (Z.ltb_spec f 0); [lia|]. destruct (nth_error bat (Z.to_nat f)) as [b|] eqn:Q; [eexists; reflexivity|]. apply nth_error_None in Q. lia. }
    assert (Gm : exists g, znth mk f = Some g).
    { unfold znth. destruct (Z.ltb_spec f 0); [lia|]. destruct (nth_error mk (Z.to_nat f)) as [b|] eqn:Q; [eexists; reflexivity|]. apply nth_error_None in Q. lia. }
    destruct Gb as [b Gb], Gm as [g Gm]. rewrite Gb, Gm in E.
    destruct (Z.eqb_spec b (r_id r)) as [->|Nb].
    + destruct (write_doms n f g (r_doms r)) as [[[o1 g1] d1] k1] eqn:W. destruct k1; [|discriminate E].
      destruct (write_doms_ok _ _ _ _ _ _ _ W) as (-> & Eg & -> & Nfl). clear W.
      set (r1 := mkR (r_id r) (clear f (r_doms r)) _) in E.
      destruct (turn n bat mk r1 fs) as [[o2 r2] k2] eqn:T. injection E as <- <- ->.
      assert (Lr1 : length (r_made r1) = Z.to_nat nf).
      { unfold r1. cbn [r_made]. destruct (g1 && negb g)%bool; [rewrite length_set_nth|]; exact Lr. }
      destruct (IH r1 o2 r2 T Nr Fr Lr1 Lb Lm) as (I1 & I2 & I3 & I4 & I5 & I6 & I7 & I8).
      assert (P1 : forall h, pend h r1 = if f =? h then [] else pend h r) by (intros h; apply pend_clear).
      assert (Rid : r_id r1 = r_id r) by reflexivity. rewrite Rid in *.
      split; [exact I1|]. split; [exact I2|]. split.
      { rewrite I3. unfold r1. cbn [r_doms]. unfold clear. rewrite map_map. apply map_ext. intros d. destruct (wants f d); reflexivity. }
      split; [|split; [|split; [|split]]].
      * intros h c Bh. rewrite (I4 h c Bh), P1. cbn [inb existsb]. fold (inb h fs). rewrite (Z.eqb_sym h f).
        destruct (Z.eqb_spec f h) as [->|Nh]; cbn [orb].
        -- rewrite Gb in Bh. injection Bh as <-. rewrite Z.eqb_refl. destruct (inb h fs); reflexivity.
        -- reflexivity.
      * intros h c g2 Hh Bh Mh. rewrite (I5 h c g2 Hh Bh Mh), P1. cbn [inb existsb]. fold (inb h fs). rewrite (Z.eqb_sym h f).
        assert (Mr : znth (r_made r1) h = if (f =? h) && truncate && some (pend h r) && negb g then Some true else znth (r_made r) h).
        { unfold r1. cbn [r_made]. subst g1. change (filter (wants f) (r_doms r)) with (pend f r).
          destruct (Z.eqb_spec f h) as [->|Nh]; cbn [andb].
          - destruct truncate, g, (some (pend h r)); cbn [andb orb negb]; try reflexivity. rewrite znth_set by lia. rewrite Z.eqb_refl. destruct (Z.ltb_spec h (Z.of_nat (length (r_made r)))); [reflexivity|lia].
          - match goal with |- context [if ?c then _ else _] => destruct c end; [|reflexivity]. rewrite znth_set by lia. destruct (Z.eqb_spec f h); [contradiction|]. reflexivity. }
        rewrite Mr. destruct (Z.eqb_spec f h) as [->|Nh]; cbn [orb andb].
        -- rewrite Gb in Bh. injection Bh as <-. rewrite Gm in Mh. injection Mh as <-. rewrite Z.eqb_refl. cbn [some andb]. rewrite !andb_false_r. cbn [andb]. reflexivity.
        -- reflexivity.
      * intros h c g2 Hh Bh Mh. rewrite filter_app, (I6 h c g2 Hh Bh Mh), P1, filter_mark by assumption. cbn [inb existsb]. fold (inb h fs). rewrite (Z.eqb_sym h f).
        destruct (Z.eqb_spec f h) as [->|Nh]; cbn [orb andb].
        -- rewrite Gb in Bh. injection Bh as <-. rewrite Gm in Mh. injection Mh as <-. rewrite Z.eqb_refl. cbn [mark]. destruct (inb h fs && true)%bool; apply app_nil_r.
        -- reflexivity.
      * intros o I. apply in_app_iff in I. destruct I as [I|I].
        -- exists f. split; [left; reflexivity|]. split; [exact Gb|]. eapply mark_file, I.
        -- destruct (I7 o I) as (h & J & K). exists h. split; [right; exact J|exact K].
      * intros h [<-|I] Bh; [exact Nfl|]. specialize (I8 h I Bh). rewrite P1 in I8. destruct (Z.eqb_spec f h) as [->|Nh]; [contradiction|exact I8].
    + destruct (IH r ops r' E Nr Fr Lr Lb Lm) as (I1 & I2 & I3 & I4 & I5 & I6 & I7 & I8).
      split; [exact I1|]. split; [exact I2|]. split; [exact I3|]. split; [|split; [|split; [|split]]].
      * intros h c Bh. rewrite (I4 h c Bh). cbn [inb existsb]. fold (inb h fs). destruct (Z.eqb_spec h f) as [->|Nh]; cbn [orb]; [|reflexivity].
        rewrite Gb in Bh. injection Bh as <-. destruct (Z.eqb_spec b (r_id r)); [contradiction|]. rewrite andb_false_r. reflexivity.
      * intros h c g2 Hh Bh Mh. rewrite (I5 h c g2 Hh Bh Mh). cbn [inb existsb]. fold (inb h fs). destruct (Z.eqb_spec h f) as [->|Nh]; cbn [orb]; [|reflexivity].
        rewrite Gb in Bh. injection Bh as <-. destruct (Z.eqb_spec b (r_id r)); [contradiction|]. rewrite andb_false_r. reflexivity.
      * intros h c g2 Hh Bh Mh. rewrite (I6 h c g2 Hh Bh Mh). cbn [inb existsb]. fold (inb h fs). destruct (Z.eqb_spec h f) as [->|Nh]; cbn [orb]; [|reflexivity].
        rewrite Gb in Bh. injection Bh as <-. destruct (Z.eqb_spec b (r_id r)); [contradiction|]. rewrite andb_false_r. reflexivity.
      * intros o I. destruct (I7 o I) as (h & J & K). exists h. split; [right; exact J|exact K].
      * intros h [<-|I] Bh; [congruence|]. apply I8; assumption.
Qed.
Lemma turn_good n bat mk fs : (forall i, fails n i = false) -> forall r, exists ops r', turn n bat mk r fs = (ops, r', true).
Proof.
  intros NF. induction fs as [|f fs IH]; intros r; cbn [MeshIO.turn]; [repeat eexists|].
  destruct (znth bat f) as [b|]; [|repeat eexists]. destruct (znth mk f) as [g|]; [|repeat eexists].
  destruct (b =? r_id r); [|apply IH].
  destruct (write_doms_good n f (r_doms r) g NF) as (o1 & g1 & d1 & ->).
  match goal with |- context [turn n bat mk ?x fs] => destruct (IH x) as (o2 & r2 & ->) end. repeat eexists.
Qed.

(** * The batons and the flags *)
Lemma some_filter {A} (p : A -> bool) l : some (filter p l) = existsb p l.
Proof. induction l as [|x l IH]; [reflexivity|]. cbn [filter existsb]. destruct (p x); [reflexivity|exact IH]. Qed.
Lemma vmax_nth a : forall b i, nth_error (vmax a b) i = match nth_error a i, nth_error b i with Some x, Some y => Some (Z.max x y) | _, _ => None end.
Proof. induction a as [|x a IH]; intros [|y b] [|i]; cbn [vmax nth_error]; try reflexivity; [destruct (nth_error a i); reflexivity|apply IH]. Qed.
Lemma vor_nth a : forall b i, nth_error (vor a b) i = match nth_error a i, nth_error b i with Some x, Some y => Some (x || y)%bool | _, _ => None end.
Proof. induction a as [|x a IH]; intros [|y b] [|i]; cbn [vor nth_error]; try reflexivity; [destruct (nth_error a i); reflexivity|apply IH]. Qed.
Lemma vmax_len a : forall b, length a = length b -> length (vmax a b) = length a.
Proof. induction a as [|x a IH]; intros [|y b] E; try discriminate E; [reflexivity|]. cbn. f_equal. apply IH. injection E; auto. Qed.
Lemma vor_len a : forall b, length a = length b -> length (vor a b) = length a.
Proof. induction a as [|x a IH]; intros [|y b] E; try discriminate E; [reflexivity|]. cbn. f_equal. apply IH. injection E; auto. Qed.
Lemma request_len r : length (request r) = Z.to_nat nf.
Proof. unfold MeshIO.request. rewrite map_length. apply length_zseq. Qed.
Lemma request_at r f : 0 <= f < nf -> nth_error (request r) (Z.to_nat f) = Some (if some (pend f r) then r_id r else -1).
Proof. intros H. unfold MeshIO.request. rewrite nth_error_map, zseq_nth by exact H. cbn [option_map]. unfold pend. rewrite some_filter. reflexivity. Qed.
Lemma bat_fold f : 0 <= f < nf -> forall w base b0, length base = Z.to_nat nf -> nth_error base (Z.to_nat f) = Some b0 -> -1 <= b0 ->
  length (fold_left vmax (map request w) base) = Z.to_nat nf /\
  exists b, nth_error (fold_left vmax (map request w) base) (Z.to_nat f) = Some b /\ b0 <= b /\
  (forall r, In r w -> some (pend f r) = true -> r_id r <= b) /\ (b = b0 \/ exists r, In r w /\ r_id r = b /\ some (pend f r) = true).
Proof.
  intros H. induction w as [|r w IH]; intros base b0 Lb E B; cbn [map fold_left].
  - split; [exact Lb|]. exists b0. split; [exact E|]. split; [lia|]. split; [intros r []|left; reflexivity].
  - assert (E2 : nth_error (vmax base (request r)) (Z.to_nat f) = Some (Z.max b0 (if some (pend f r) then r_id r else -1))).
    { rewrite vmax_nth, E, request_at by exact H. reflexivity. }
    destruct (IH _ _ ltac:(rewrite vmax_len; [exact Lb|rewrite request_len; exact Lb]) E2 ltac:(lia)) as (L & b & Eb & Lo & Al & Ex).
    split; [exact L|]. exists b. split; [exact Eb|]. split; [lia|]. split.
    + intros s [<-|I] P; [rewrite P in Lo; lia|apply Al; assumption].
    + destruct Ex as [->|(s & I & J)]; [|right; exists s; split; [right; exact I|exact J]].
      destruct (some (pend f r)) eqn:P; [|left; lia]. destruct (Z.max_spec b0 (r_id r)) as [[M ->]|[M ->]]; [right|left; reflexivity].
      exists r. split; [left; reflexivity|split; [reflexivity|exact P]].
Qed.
Lemma batons_spec w f : 0 <= f < nf -> exists b, znth (batons w) f = Some b /\ -1 <= b /\
  (forall r, In r w -> some (pend f r) = true -> r_id r <= b) /\ (b = -1 \/ exists r, In r w /\ r_id r = b /\ some (pend f r) = true).
Proof.
  intros H. unfold znth. destruct (Z.ltb_spec f 0); [lia|]. unfold MeshIO.batons.
  destruct (bat_fold f H w (map (fun _ => -1) (zseq nf)) (-1)) as (_ & b & E & R); [rewrite map_length; apply length_zseq|rewrite nth_error_map, zseq_nth by exact H; reflexivity|lia|].
  exists b. split; [exact E|]. destruct R as (R1 & R2 & R3). split; [lia|]. split; assumption.
Qed.
Lemma batons_len w : length (batons w) = Z.to_nat nf.
Proof.
  unfold MeshIO.batons. assert (A : forall base, length base = Z.to_nat nf -> length (fold_left vmax (map request w) base) = Z.to_nat nf).
  { induction w as [|r w IH]; intros base E; [exact E|]. cbn [map fold_left]. apply IH. rewrite vmax_len; [exact E|rewrite request_len; exact E]. }
  apply A. rewrite map_length. apply length_zseq.
Qed.
Definition made_at (f : Z) (r : rank) : bool := match znth (r_made r) f with Some true => true | _ => false end.
Lemma made_len w : Forall (fun r => length (r_made r) = Z.to_nat nf) w -> length (made w) = Z.to_nat nf.
Proof.
  intros Fw. unfold MeshIO.made. assert (A : forall base, length base = Z.to_nat nf -> length (fold_left vor (map r_made w) base) = Z.to_nat nf).
  { induction Fw as [|r w R Fw IH]; intros base E; [exact E|]. cbn [map fold_left]. apply IH. rewrite vor_len; [exact E|rewrite R; exact E]. }
  apply A. rewrite map_length. apply length_zseq.
Qed.
Lemma made_spec w f : 0 <= f < nf -> Forall (fun r => length (r_made r) = Z.to_nat nf) w -> znth (made w) f = Some (existsb (made_at f) w).
Proof.
  intros H Fw. unfold znth. destruct (Z.ltb_spec f 0); [lia|]. unfold MeshIO.made.
  assert (A : forall base g, nth_error base (Z.to_nat f) = Some g -> nth_error (fold_left vor (map r_made w) base) (Z.to_nat f) = Some (g || existsb (made_at f) w)%bool).
  { induction Fw as [|r w R Fw IH]; intros base g E; cbn [map fold_left existsb]; [rewrite orb_false_r; exact E|].
    assert (X : nth_error (vor base (r_made r)) (Z.to_nat f) = Some (g || made_at f r)%bool).
    { rewrite vor_nth, E. unfold made_at, znth. destruct (Z.ltb_spec f 0); [lia|]. destruct (nth_error (r_made r) (Z.to_nat f)) as [[]|] eqn:Q; try reflexivity. apply nth_error_None in Q. lia. }
    rewrite (IH _ _ X), orb_assoc. reflexivity. }
  rewrite (A _ false); [reflexivity|]. rewrite nth_error_map, zseq_nth by exact H. reflexivity.
Qed.

(** * One round *)
Definition wf (w : list rank) : Prop := forall i r, nth_error w i = Some r -> r_id r = Z.of_nat i /\ length (r_made r) = Z.to_nat nf.
Lemma wf_made w : wf w -> Forall (fun r => length (r_made r) = Z.to_nat nf) w.
Proof. intros W. apply Forall_forall. intros r I. apply In_nth_error in I. destruct I as [i I]. apply (W i r I). Qed.
Definition queue (f : Z) (w : list rank) : list (Z * V * bool) := concat (rev (map (pend f) w)).
Lemma concat_nils {A} (l : list (list A)) : (forall x, In x l -> x = []) -> concat l = [].
Proof. induction l as [|x l IH]; intros H; [reflexivity|]. cbn [concat]. rewrite (H x) by (left; reflexivity). apply IH. intros; apply H; right; assumption. Qed.
Lemma queue_step w (T : rank -> rank) f k r : nth_error w k = Some r ->
  (forall j s, nth_error w j = Some s -> (k < j)%nat -> pend f s = []) ->
  (forall j s, nth_error w j = Some s -> pend f (T s) = if (j =? k)%nat then [] else pend f s) ->
  queue f w = pend f r ++ queue f (map T w).
Proof.
  intros E Hi Tr. destruct (nth_error_split w k E) as (a & b & -> & La). unfold queue. rewrite !map_app. cbn [map]. rewrite !rev_app_distr. cbn [rev].
  rewrite !concat_app. cbn [concat]. rewrite !app_nil_r.
  assert (B1 : concat (rev (map (pend f) b)) = []).
  { apply concat_nils. intros x I. apply in_rev in I. apply in_map_iff in I. destruct I as (s & <- & I). apply In_nth_error in I. destruct I as [j I].
    apply (Hi (k + S j)%nat); [|lia]. rewrite nth_error_app2 by lia. rewrite La. replace (k + S j - k)%nat with (S j) by lia. exact I. }
  assert (B2 : concat (rev (map (pend f) (map T b))) = []).
  { apply concat_nils. intros x I. apply in_rev in I. rewrite map_map in I. apply in_map_iff in I. destruct I as (s & <- & I). apply In_nth_error in I. destruct I as [j I].
    assert (N : nth_error (a ++ r :: b) (k + S j) = Some s) by (rewrite nth_error_app2 by lia; rewrite La; replace (k + S j - k)%nat with (S j) by lia; exact I).
    rewrite (Tr _ _ N). destruct (Nat.eqb_spec (k + S j) k); [reflexivity|]. apply (Hi _ _ N). lia. }
  rewrite B1, B2. cbn [app]. rewrite (Tr k r) by exact E. rewrite Nat.eqb_refl. cbn [app]. f_equal. f_equal. f_equal. rewrite map_map. apply map_ext_in. intros s I. apply In_nth_error in I. destruct I as [j I].
  assert (N : nth_error (a ++ r :: b) j = Some s) by (rewrite nth_error_app1; [exact I|apply nth_error_Some; congruence]).
  rewrite (Tr _ _ N). destruct (Nat.eqb_spec j k) as [->|]; [|reflexivity]. assert ((k < length a)%nat) by (apply nth_error_Some; congruence). lia.
Qed.
Lemma queue_same w (T : rank -> rank) f : (forall s, In s w -> pend f (T s) = pend f s) -> queue f (map T w) = queue f w.
Proof. intros H. unfold queue. rewrite map_map. f_equal. f_equal. apply map_ext_in. exact H. Qed.
Lemma merge_none {A} (p : A -> bool) ls t : merge_of ls t -> (forall l, In l ls -> filter p l = []) -> filter p t = [].
Proof.
  intros M H. destruct (filter p t) as [|x l] eqn:E; [reflexivity|]. exfalso.
  assert (I : In x (filter p t)) by (rewrite E; left; reflexivity). apply filter_In in I. destruct I as [I P].
  apply (merge_in _ _ M) in I. destruct I as (m & J & K). assert (X : In x (filter p m)) by (apply filter_In; split; assumption). rewrite (H m J) in X. destruct X.
Qed.

Section Round.
Variable n : nat.
Variable w : list rank.
Hypothesis W : wf w.
Let tr (r : rank) := turn n (batons w) (made w) r (zseq nf).
Hypothesis ok : forallb (fun t => snd t) (map tr w) = true.
Let T (r : rank) := snd (fst (tr r)).
Let ls := map (fun t => fst (fst t)) (map tr w).
Lemma zseq_nodup m : NoDup (zseq m).
Proof. unfold zseq. apply FinFun.Injective_map_NoDup; [intros x y E; lia|apply seq_NoDup]. Qed.
Lemma round_turn r : In r w ->
  r_id (T r) = r_id r /\ length (r_made (T r)) = Z.to_nat nf /\
  forall f b g, 0 <= f < nf -> znth (batons w) f = Some b -> znth (made w) f = Some g ->
   pend f (T r) = (if b =? r_id r then [] else pend f r) /\
   znth (r_made (T r)) f = (if (b =? r_id r) && truncate && some (pend f r) && negb g then Some true else znth (r_made r) f) /\
   filter (on (file_name f)) (fst (fst (tr r))) = (if b =? r_id r then mark f g (pend f r) else []) /\
   (b = r_id r -> Forall (fun d => fails n (fst (fst d)) = false) (pend f r)).
Proof.
  intros I. assert (K : snd (tr r) = true).
  { rewrite forallb_forall in ok. apply ok. apply in_map, I. }
  unfold T. destruct (tr r) as [[ops r'] k] eqn:E. cbn [snd fst] in *. subst k. unfold tr in E.
  assert (Fz : Forall (fun f => 0 <= f < nf) (zseq nf)) by (apply Forall_forall; intros f J; apply in_zseq in J; exact J).
  pose proof (wf_made w W) as Fm. assert (Lr : length (r_made r) = Z.to_nat nf) by (rewrite Forall_forall in Fm; apply Fm, I).
  destruct (turn_ok n _ _ _ _ _ _ E (zseq_nodup nf) Fz Lr (batons_len w) (made_len w Fm)) as (I1 & I2 & _ & I4 & I5 & I6 & _ & I8).
  split; [exact I1|]. split; [exact I2|]. intros f b g H Bf Gf.
  assert (In1 : inb f (zseq nf) = true) by (apply inb_in, in_zseq, H).
  split; [rewrite (I4 f b Bf), In1; reflexivity|]. split; [rewrite (I5 f b g H Bf Gf), In1; reflexivity|]. split; [rewrite (I6 f b g H Bf Gf), In1; reflexivity|].
  intros ->. apply I8; [apply in_zseq, H|exact Bf].
Qed.
Lemma round_wf : wf (map T w).
Proof.
  intros i r E. rewrite nth_error_map in E. destruct (nth_error w i) as [s|] eqn:Es; [|discriminate E]. injection E as <-.
  destruct (round_turn s (nth_error_In _ _ Es)) as (A & B & _). rewrite A. split; [apply (W i s Es)|exact B].
Qed.
Lemma round_file f g t : 0 <= f < nf -> znth (made w) f = Some g -> merge_of ls t ->
  exists A, filter (on (file_name f)) t = mark f g A /\ queue f w = A ++ queue f (map T w) /\
    znth (made (map T w)) f = Some (g || (truncate && some A))%bool /\ Forall (fun d => fails n (fst (fst d)) = false) A /\
    (znth (batons w) f = Some (-1) -> queue f w = []) /\
    (forall k, (forall i r, nth_error w i = Some r -> (S k <= i)%nat -> pend f r = []) -> forall i r, nth_error (map T w) i = Some r -> (k <= i)%nat -> pend f r = []).
Proof.
  intros H Gf M. destruct (batons_spec w f H) as (b & Bf & B1 & Mx & Ex).
  assert (Mt : znth (made (map T w)) f = Some (existsb (made_at f) (map T w))) by (apply made_spec; [exact H|apply wf_made, round_wf]).
  assert (Mo : g = existsb (made_at f) w) by (rewrite (made_spec w f H (wf_made w W)) in Gf; congruence).
  destruct Ex as [->|(r & I & Rb & Pr)].
  - assert (No : forall r, In r w -> pend f r = []).
    { intros r I. destruct (pend f r) as [|x l] eqn:P; [reflexivity|]. exfalso. pose proof (Mx r I ltac:(rewrite P; reflexivity)) as Y. apply In_nth_error in I. destruct I as [i I]. destruct (W i r I) as [Q _]. lia. }
    assert (Nid : forall r, In r w -> -1 =? r_id r = false).
    { intros r I. apply In_nth_error in I. destruct I as [i I]. destruct (W i r I) as [Q _]. rewrite Q. destruct (Z.eqb_spec (-1) (Z.of_nat i)); [lia|reflexivity]. }
    assert (Q0 : queue f w = []).
    { apply concat_nils. intros x I. apply in_rev, in_map_iff in I. destruct I as (r & <- & I). apply No, I. }
    exists []. split; [|split; [|split; [|split; [|split]]]].
    + cbn [mark]. apply (merge_none _ _ _ M). intros l I. unfold ls in I. rewrite map_map in I. apply in_map_iff in I. destruct I as (r & <- & I).
      destruct (round_turn r I) as (_ & _ & R). destruct (R f _ g H Bf Gf) as (_ & _ & R3 & _). rewrite R3, (Nid r I). reflexivity.
    + cbn [app]. symmetry. apply queue_same. intros s I. destruct (round_turn s I) as (_ & _ & R). destruct (R f _ g H Bf Gf) as (R1 & _). rewrite R1, (Nid s I). reflexivity.
    + cbn [some]. rewrite andb_false_r, orb_false_r, Mt, Mo. f_equal.
      assert (X : forall l, (forall r, In r l -> In r w) -> existsb (made_at f) (map T l) = existsb (made_at f) l).
      { induction l as [|r l IH]; intros Sub; [reflexivity|]. cbn [map existsb]. rewrite IH by (intros; apply Sub; right; assumption). f_equal.
        destruct (round_turn r (Sub r (or_introl eq_refl))) as (_ & _ & R). destruct (R f _ g H Bf Gf) as (_ & R2 & _). unfold made_at. rewrite R2, (Nid r (Sub r (or_introl eq_refl))). reflexivity. }
      apply X. auto.
    + constructor.
    + intros _. exact Q0.
    + intros k _ i r E _. rewrite nth_error_map in E. destruct (nth_error w i) as [s|] eqn:Es; [|discriminate E]. injection E as <-.
      destruct (round_turn s (nth_error_In _ _ Es)) as (_ & _ & R). destruct (R f _ g H Bf Gf) as (R1 & _). rewrite R1, (No s (nth_error_In _ _ Es)). destruct (-1 =? r_id s); reflexivity.
  - apply In_nth_error in I. destruct I as [k I]. destruct (W k r I) as [Rk _].
    assert (Eid : forall j s, nth_error w j = Some s -> (b =? r_id s) = (j =? k)%nat).
    { intros j s E. destruct (W j s E) as [Q _]. rewrite Q. destruct (Z.eqb_spec b (Z.of_nat j)), (Nat.eqb_spec j k); lia || reflexivity. }
    assert (Hi : forall j s, nth_error w j = Some s -> (k < j)%nat -> pend f s = []).
    { intros j s E Lt. destruct (pend f s) as [|x l] eqn:P; [reflexivity|]. exfalso. pose proof (Mx s (nth_error_In _ _ E) ltac:(rewrite P; reflexivity)). destruct (W j s E) as [Q _]. lia. }
    assert (PT : forall j s, nth_error w j = Some s -> pend f (T s) = if (j =? k)%nat then [] else pend f s).
    { intros j s E. destruct (round_turn s (nth_error_In _ _ E)) as (_ & _ & R). destruct (R f _ g H Bf Gf) as (R1 & _). rewrite R1, (Eid j s E). reflexivity. }
    exists (pend f r). split; [|split; [|split; [|split; [|split]]]].
    + apply (merge_filter _ _ _ M k).
      * unfold ls. rewrite map_map, nth_error_map, I. cbn [option_map]. f_equal.
        destruct (round_turn r (nth_error_In _ _ I)) as (_ & _ & R). destruct (R f _ g H Bf Gf) as (_ & _ & R3 & _). rewrite R3, (Eid k r I), Nat.eqb_refl. reflexivity.
      * intros j m J E. unfold ls in E. rewrite map_map, nth_error_map in E. destruct (nth_error w j) as [s|] eqn:Es; [|discriminate E]. cbn [option_map] in E. injection E as <-.
        destruct (round_turn s (nth_error_In _ _ Es)) as (_ & _ & R). destruct (R f _ g H Bf Gf) as (_ & _ & R3 & _). rewrite R3, (Eid j s Es). destruct (Nat.eqb_spec j k); [contradiction|reflexivity].
    + apply (queue_step w T f k r I Hi PT).
    + rewrite Mt. f_equal. rewrite Pr, andb_true_r.
      assert (MT : forall s, In s w -> made_at f (T s) = ((b =? r_id s) && truncate && some (pend f s) && negb g || made_at f s)%bool).
      { intros s J. destruct (round_turn s J) as (_ & _ & R). destruct (R f _ g H Bf Gf) as (_ & R2 & _). unfold made_at. rewrite R2. destruct ((b =? r_id s) && truncate && some (pend f s) && negb g)%bool; reflexivity. }
      assert (Ir : In r w) by (eapply nth_error_In, I).
      apply Bool.eq_iff_eq_true. rewrite orb_true_iff, existsb_exists. split.
      * intros (s' & J & K). apply in_map_iff in J. destruct J as (s & <- & J). rewrite (MT s J) in K. apply orb_true_iff in K. destruct K as [K|K].
        -- right. apply andb_true_iff in K. destruct K as [K _]. apply andb_true_iff in K. destruct K as [K _]. apply andb_true_iff in K. apply K.
        -- left. rewrite Mo. apply existsb_exists. exists s. split; assumption.
      * intros [K|K].
        -- rewrite Mo in K. apply existsb_exists in K. destruct K as (s & J & K). exists (T s). split; [apply in_map, J|]. rewrite (MT s J), K, orb_true_r. reflexivity.
        -- destruct g.
           ++ symmetry in Mo. apply existsb_exists in Mo. destruct Mo as (s & J & K2). exists (T s). split; [apply in_map, J|]. rewrite (MT s J), K2, orb_true_r. reflexivity.
           ++ exists (T r). split; [apply in_map, Ir|]. rewrite (MT r Ir), Rb, Z.eqb_refl, K, Pr. reflexivity.
    + destruct (round_turn r (nth_error_In _ _ I)) as (_ & _ & R). destruct (R f _ g H Bf Gf) as (_ & _ & _ & R4). apply R4. symmetry. exact Rb.
    + intros E. rewrite Bf in E. injection E as E. lia.
    + intros k0 Up i s E Le. rewrite nth_error_map in E. destruct (nth_error w i) as [s0|] eqn:Es; [|discriminate E]. injection E as <-. rewrite (PT i s0 Es).
      destruct (Nat.eqb_spec i k) as [->|N]; [reflexivity|].
      destruct (le_lt_dec (S k0) i) as [A|A]; [apply (Up i s0 Es A)|].
      destruct (le_lt_dec k i) as [B|B]; [apply (Hi i s0 Es); lia|].
      exfalso. (* the holder is above k0 *)
      assert (X : pend f r = []) by (apply (Up k r I); lia). rewrite X in Pr. discriminate Pr.
Qed.
Lemma round_other name t : (forall f, 0 <= f < nf -> file_name f <> name) -> merge_of ls t -> filter (on name) t = [].
Proof.
  intros H M. apply (merge_none _ _ _ M). intros l I. unfold ls in I. rewrite map_map in I. apply in_map_iff in I. destruct I as (r & <- & I).
  assert (K : snd (tr r) = true) by (rewrite forallb_forall in ok; apply ok, in_map, I).
  destruct (tr r) as [[ops r'] k] eqn:E. cbn [snd fst] in *. subst k. unfold tr in E.
  assert (Fz : Forall (fun f => 0 <= f < nf) (zseq nf)) by (apply Forall_forall; intros f J; apply in_zseq in J; exact J).
  pose proof (wf_made w W) as Fm. assert (Lr : length (r_made r) = Z.to_nat nf) by (rewrite Forall_forall in Fm; apply Fm, I).
  destruct (turn_ok n _ _ _ _ _ _ E (zseq_nodup nf) Fz Lr (batons_len w) (made_len w Fm)) as (_ & _ & _ & _ & _ & _ & I7 & _).
  destruct (filter (on name) ops) as [|x l] eqn:F; [reflexivity|]. exfalso.
  assert (J : In x (filter (on name) ops)) by (rewrite F; left; reflexivity). apply filter_In in J. destruct J as [J P].
  destruct (I7 x J) as (f & K & _ & Q). apply in_zseq in K. apply (H f K). unfold on in P. apply str_eqb_eq in P. congruence.
Qed.
(** two ranks never write to the same file in a round *)
Lemma round_exclusive i j a b x y : i <> j -> nth_error ls i = Some a -> nth_error ls j = Some b -> In x a -> In y b -> o_file x <> o_file y.
Proof.
  intros N A B X Y E. unfold ls in A, B. rewrite map_map, nth_error_map in A, B.
  destruct (nth_error w i) as [r|] eqn:Er; [|discriminate A]. destruct (nth_error w j) as [s|] eqn:Es; [|discriminate B].
  cbn [option_map] in A, B. injection A as <-. injection B as <-.
  assert (G : forall i r, nth_error w i = Some r -> forall o, In o (fst (fst (tr r))) -> exists f, 0 <= f < nf /\ znth (batons w) f = Some (Z.of_nat i) /\ o_file o = file_name f).
  { intros i0 r0 E0 o I. assert (I0 : In r0 w) by (eapply nth_error_In, E0). assert (K : snd (tr r0) = true) by (rewrite forallb_forall in ok; apply ok, in_map, I0).
    destruct (tr r0) as [[ops r'] k] eqn:Et. cbn [snd fst] in *. subst k. unfold tr in Et.
    assert (Fz : Forall (fun f => 0 <= f < nf) (zseq nf)) by (apply Forall_forall; intros f J; apply in_zseq in J; exact J).
    pose proof (wf_made w W) as Fm. destruct (W i0 r0 E0) as [Q Lr].
    destruct (turn_ok n _ _ _ _ _ _ Et (zseq_nodup nf) Fz Lr (batons_len w) (made_len w Fm)) as (_ & _ & _ & _ & _ & _ & I7 & _).
    destruct (I7 o I) as (f & J & K & L). apply in_zseq in J. exists f. rewrite <- Q. auto. }
  destruct (G i r Er x X) as (f & F1 & F2 & F3). destruct (G j s Es y Y) as (h & H1 & H2 & H3).
  assert (f = h) by (apply name_inj; congruence). subst h. rewrite F2 in H2. injection H2 as H2. lia.
Qed.
End Round.

(** * All rounds *)
Lemma rounds_ok fuel : forall n w d d', wf w -> rounds fuel n w d = Ok d' ->
  (forall f g, 0 <= f < nf -> znth (made w) f = Some g -> mget d' (file_name f) = fold_left step (mark f g (queue f w)) (mget d (file_name f))) /\
  (forall name, (forall f, 0 <= f < nf -> file_name f <> name) -> mget d' name = mget d name) /\
  (forall f x, 0 <= f < nf -> In x (queue f w) -> exists k, fails k (fst (fst x)) = false).
Proof.
  induction fuel as [|fuel IH]; intros n w d d' W E; [discriminate E|]. cbn [MeshIO.rounds] in E.
  set (ts := map (fun r => turn n (batons w) (made w) r (zseq nf)) w) in E.
  destruct (forallb (fun t => snd t) ts) eqn:K; [|discriminate E].
  set (t := sched n (map (fun t => fst (fst t)) ts)) in E.
  assert (M : merge_of (map (fun t => fst (fst t)) ts) t) by apply sched_ok.
  assert (ET : map (fun t => snd (fst t)) ts = map (fun r => snd (fst (turn n (batons w) (made w) r (zseq nf)))) w) by (unfold ts; rewrite map_map; reflexivity).
  set (w' := map (fun t => snd (fst t)) ts) in E.
  assert (W' : wf w') by (unfold w'; rewrite ET; apply round_wf; assumption).
  assert (Fr : forall f g, 0 <= f < nf -> znth (made w) f = Some g -> exists A, filter (on (file_name f)) t = mark f g A /\ queue f w = A ++ queue f w' /\
     znth (made w') f = Some (g || (truncate && some A))%bool /\ Forall (fun d => fails n (fst (fst d)) = false) A /\ (znth (batons w) f = Some (-1) -> queue f w = [])).
  { intros f g H Gf. destruct (round_file n w W K f g t H Gf M) as (A & A1 & A2 & A3 & A4 & A5 & _). exists A. unfold w'. rewrite ET. split; [exact A1|]. split; [exact A2|]. split; [exact A3|]. split; assumption. }
  destruct (existsb (fun b => negb (b =? -1)) (batons w)) eqn:Go.
  - destruct (IH _ _ _ _ W' E) as (R1 & R2 & R3). split; [|split].
    + intros f g H Gf. destruct (Fr f g H Gf) as (A & A1 & A2 & A3 & _). rewrite (R1 f _ H A3), do_ops_at, A1, A2, mark_app, fold_left_app. reflexivity.
    + intros name H. rewrite (R2 name H), do_ops_at, (round_other n w W K name t H M). reflexivity.
    + intros f x H I. destruct (Fr f _ H (made_spec w f H (wf_made w W))) as (A & _ & A2 & _ & A4 & _). rewrite A2 in I. apply in_app_iff in I. destruct I as [I|I]; [|apply (R3 f x H I)].
      exists n. rewrite Forall_forall in A4. apply A4, I.
  - injection E as <-.
    assert (Q0 : forall f, 0 <= f < nf -> queue f w = []).
    { intros f H. destruct (Fr f _ H (made_spec w f H (wf_made w W))) as (A & _ & _ & _ & _ & A5). apply A5.
      destruct (batons_spec w f H) as (b & Bf & _). rewrite Bf. f_equal. destruct (Z.eqb_spec b (-1)) as [|N]; [assumption|]. exfalso.
      assert (X : existsb (fun b => negb (b =? -1)) (batons w) = true); [|congruence].
      apply existsb_exists. exists b. split; [|destruct (Z.eqb_spec b (-1)); [contradiction|reflexivity]].
      unfold znth in Bf. destruct (f <? 0); [discriminate Bf|]. eapply nth_error_In, Bf. }
    split; [|split].
    + intros f g H Gf. destruct (Fr f g H Gf) as (A & A1 & A2 & _). rewrite do_ops_at, A1. rewrite (Q0 f H) in *. symmetry in A2. apply app_eq_nil in A2. destruct A2 as [-> _]. reflexivity.
    + intros name H. rewrite do_ops_at, (round_other n w W K name t H M). reflexivity.
    + intros f x H I. rewrite (Q0 f H) in I. destruct I.
Qed.
(** one more round than there are ranks is enough *)
Lemma rounds_fuel k : forall n w d, wf w -> (forall f i r, 0 <= f < nf -> nth_error w i = Some r -> (k <= i)%nat -> pend f r = []) ->
  rounds (S k) n w d = Err \/ exists d', rounds (S k) n w d = Ok d'.
Proof.
  induction k as [|k IH]; intros n w d W Up; cbn [MeshIO.rounds];
  set (ts := map (fun r => turn n (batons w) (made w) r (zseq nf)) w); destruct (forallb (fun t => snd t) ts) eqn:K; try (left; reflexivity).
  - destruct (existsb (fun b => negb (b =? -1)) (batons w)) eqn:Go; [|right; eexists; reflexivity]. exfalso.
    apply existsb_exists in Go. destruct Go as (b & I & Nb). apply In_nth_error in I. destruct I as [i I].
    assert (Hi : (i < Z.to_nat nf)%nat) by (rewrite <- (batons_len w); apply nth_error_Some; congruence).
    destruct (batons_spec w (Z.of_nat i) ltac:(lia)) as (b' & Bf & _ & _ & Ex). rewrite znth_of_nat, I in Bf. injection Bf as <-.
    destruct Ex as [->|(r & J & _ & P)]; [discriminate Nb|]. apply In_nth_error in J. destruct J as [j J]. rewrite (Up (Z.of_nat i) j r ltac:(lia) J ltac:(lia)) in P. discriminate P.
  - destruct (existsb (fun b => negb (b =? -1)) (batons w)) eqn:Go; [|right; eexists; reflexivity].
    assert (ET : map (fun t => snd (fst t)) ts = map (fun r => snd (fst (turn n (batons w) (made w) r (zseq nf)))) w) by (unfold ts; rewrite map_map; reflexivity).
    apply IH; rewrite ET; [apply round_wf; assumption|].
    intros f i r H E Le. destruct (round_file n w W K f _ (sched n (map (fun t => fst (fst t)) ts)) H (made_spec w f H (wf_made w W)) (sched_ok n _)) as (A & _ & _ & _ & _ & _ & A6).
    apply (A6 k) with (i := i); [|exact E|exact Le]. intros j s Es Lj. apply (Up f j s H Es Lj).
Qed.
Lemma rounds_no_err fuel : (forall k i, fails k i = false) -> forall n w d, rounds fuel n w d <> Err.
Proof.
  intros NF. induction fuel as [|fuel IH]; intros n w d; cbn [MeshIO.rounds]; [discriminate|].
  set (ts := map (fun r => turn n (batons w) (made w) r (zseq nf)) w).
  assert (K : forallb (fun t => snd t) ts = true).
  { apply forallb_forall. intros t I. apply in_map_iff in I. destruct I as (r & <- & _). destruct (turn_good n (batons w) (made w) (zseq nf) (NF n) r) as (o & r' & ->). reflexivity. }
  rewrite K. destruct (existsb _ (batons w)); [apply IH|discriminate].
Qed.
End Batons.
End Rounds.
