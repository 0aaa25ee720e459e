From Coq Require Import ZArith Lia Permutation FinFun.
From Verif Require Import Base Path PathFacts Json JsonSpec Node NodeFacts SchemaInv MeshIO MeshIOSpec MeshIOFacts MeshIORounds MeshIONames MeshIOTrip.
Local Open Scope Z_scope.

Lemma path_split p : path_ok p -> exists pre base, p = pre ++ base /\ pre_ok pre /\ free ":"%char pre /\ base <> [] /\ simple base /\ (~ In "/"%char p -> pre = []).
Proof.
  intros (base & N & S & [->|(dir & -> & Nd & La & Co)]).
  - exists [], base. split; [reflexivity|]. split; [left; reflexivity|]. split; [intros []|]. auto.
  - exists (dir ++ [slash]), base. split; [rewrite <- app_assoc; reflexivity|]. split; [right; exists dir; auto|]. split.
    + intros I. apply in_app_iff in I. destruct I as [I|[I|[]]]; [apply Co, I|discriminate I].
    + split; [exact N|]. split; [exact S|]. intros H. destruct H. apply in_app_iff. right. left. reflexivity.
Qed.

(** nothing is there under this name, or what is there is dropped *)
Definition anew {V} (path sfx : str) (o : opts) (d : @disk V) : Prop := op_trunc o = true \/ forall name c, mget d name = Some c -> prefixb (path ++ sfx) name = false.
(** several domains go to the root file only if it is not in a directory *)
Definition root_here (path : str) (o : opts) (n : Z) : Prop := op_style o = RootOnly -> n <> 1 -> ~ In "/"%char path.

Lemma here_pre path o n (pre : str) : root_here path o n -> (~ In "/"%char path -> pre = []) -> style_of o n = true -> n <> 1 -> 1 <= n -> pre = [].
Proof.
  intros H P St N1 Hn. apply P, H; [|exact N1]. unfold style_of in St. destruct (op_style o); [|reflexivity|discriminate St].
  destruct (Z.ltb_spec 1 n); [discriminate St|lia].
Qed.
Section More.
Context {V : Type}.
Variable setid : Z -> V -> V.
Variable upd : V -> V -> V.
Variable fails : nat -> Z -> bool.
Variable sched : nat -> list (list (@op V)) -> list (@op V).
Hypothesis sched_ok : forall n ls, merge_of ls (sched n ls).
Variable mpi : bool.
Variable path sfx proto : str.
Hypothesis Hpath : path_ok path.
Hypothesis Ssfx : simple sfx.
Hypothesis Sproto : simple proto.
Notation root := (root_name path sfx).
Notation write := (write_mesh setid upd fails sched mpi path sfx proto).
Notation count ranks := (Z.of_nat (length (concat ranks))).
Notation anew := (@anew V path sfx). Notation root_here := (root_here path).
Lemma round_trip_path o ranks d d' p : mesh_ok (op_mesh o) -> concat ranks <> [] -> anew o d -> 1 <= p -> root_here o (count ranks) -> write o ranks d = Ok d' ->
  exists parts, omap_list (read_mesh d' root (op_mesh o) p) (zseq p) = Ok parts /\ concat parts = shown setid (concat ranks) /\
    forall r l, nth_error parts r = Some l -> Z.of_nat (length l) = count ranks / p \/ Z.of_nat (length l) = count ranks / p + 1.
Proof.
  intros Hm N C Hp Hh E. destruct (path_split path Hpath) as (pre & base & -> & A1 & A2 & A3 & A4 & A5).
  destruct (round_trip setid upd fails sched sched_ok mpi pre base sfx proto A1 A2 A3 A4 Ssfx Sproto o Hm ranks d d' p N) as (parts & P1 & P2 & P3).
  - exact C.
  - exact Hp.
  - intros St N1. apply (here_pre (pre ++ base) o (count ranks)); auto; [lia|]. destruct (concat ranks); [congruence|cbn [length]; lia].
  - exact E.
  - exists parts. split; [exact P1|]. split; [exact P2|]. intros r l R. destruct (P3 r l R) as [_ ->]. unfold read_size. destruct (Z.of_nat r <? count ranks mod p); lia.
Qed.
Lemma ends_path o ranks d : concat ranks <> [] -> write o ranks d = Err \/ exists d', write o ranks d = Ok d'.
Proof. intros N. destruct (path_split path Hpath) as (pre & base & -> & A1 & A2 & A3 & A4 & A5). apply ends; assumption. Qed.
Lemma completes_path o ranks d : concat ranks <> [] -> (forall k i, fails k i = false) -> exists d', write o ranks d = Ok d'.
Proof. intros N F. destruct (path_split path Hpath) as (pre & base & -> & A1 & A2 & A3 & A4 & A5). apply completes; assumption. Qed.
Lemma failure_path o ranks d i : mesh_ok (op_mesh o) -> op_style o = MultiFile -> 0 < op_files o < count ranks -> 0 <= i < count ranks -> (forall k, fails k i = true) -> write o ranks d = Err.
Proof.
  intros Hm So Fo Hi F. destruct (path_split path Hpath) as (pre & base & -> & A1 & A2 & A3 & A4 & A5). apply (failure setid upd fails sched sched_ok mpi pre base sfx proto A2 A3 A4 Ssfx o Hm ranks d i); [|unfold style_of; rewrite So; reflexivity|exact Hi|exact F].
  intros X. rewrite X in Hi. cbn in Hi. lia.
Qed.

(** * A second mesh in the same files *)
Lemma second_mesh oa ob ra rb d d1 d2 p r : mesh_ok (op_mesh oa) -> mesh_ok (op_mesh ob) -> op_mesh oa <> op_mesh ob ->
  concat ra <> [] -> anew oa d -> root_here oa (count ra) -> write oa ra d = Ok d1 ->
  op_trunc ob = false -> (style_of ob (count rb) = true \/ 0 < op_files ob < count rb) -> write ob rb d1 = Ok d2 ->
  1 <= p -> 0 <= r < p ->
  read_mesh d2 root (op_mesh oa) p r = read_mesh d1 root (op_mesh oa) p r.
Proof.
  intros Ha Hb Nm N C Hh Ea Tb Sb Eb Hp Hr. destruct (concat rb) as [|v0 vb] eqn:Eb0.
  { assert (Z0 : concat (number setid 0 rb) = []) by (rewrite number_concat, Eb0; reflexivity). unfold write_mesh in Eb. rewrite Z0 in Eb. cbn [length Z.of_nat Z.eqb] in Eb. destruct mpi; [discriminate Eb|]. injection Eb as <-. reflexivity. }
  assert (Nb : concat rb <> []) by (rewrite Eb0; discriminate). rewrite <- Eb0 in Sb. clear v0 vb Eb0.
  destruct (path_split path Hpath) as (pre & base & -> & A1 & A2 & A3 & A4 & A5).
  destruct (write_result setid upd fails sched sched_ok mpi pre base sfx proto A2 A3 A4 Ssfx oa Ha ra d d1 N C Ea) as [W1 W2].
  assert (Os : own_style ob (count rb) = false).
  { unfold own_style, files_of. destruct Sb as [->|Sb]; [reflexivity|]. destruct (Z.leb_spec (op_files ob) 0); [lia|]. destruct (Z.ltb_spec (count rb) (op_files ob)); [lia|]. destruct (Z.eqb_spec (count rb) (op_files ob)); [lia|]. apply andb_false_r. }
  destruct (write_keeps setid upd fails sched sched_ok mpi pre base sfx proto A2 A3 A4 Ssfx ob Hb rb d1 d2 Nb Tb Os Eb) as [K1 K2].
  assert (Pa : style_of oa (count ra) = true -> length (concat ra) <> 1%nat -> pre = []).
  { intros St N1. apply (here_pre (pre ++ base) oa (count ra)); auto; [lia|]. destruct (concat ra); [congruence|cbn [length]; lia]. }
  assert (Fa : free slash (op_mesh oa)) by (apply simple_free with (1 := proj1 (proj2 Ha)); left; reflexivity).
  assert (Fb : free slash (op_mesh ob)) by (apply simple_free with (1 := proj1 (proj2 Hb)); left; reflexivity).
  assert (Fd : forall i, 0 <= i -> free slash (dom_name i)) by (intros i H; apply simple_free with (1 := simple_dom i H); left; reflexivity).
  assert (Kne : forall n i m j, 0 <= i -> 0 <= j -> snd (place pre base sfx proto oa n i) <> snd (place pre base sfx proto ob m j)).
  { assert (X : forall i j, 0 <= i -> 0 <= j -> mkey oa <> mkey ob /\ mkey oa <> dkey ob j /\ dkey oa i <> mkey ob /\ dkey oa i <> dkey ob j).
    { intros i j Hi Hj. split; [|split; [|split]]; unfold dkey, mkey; intros X.
      - apply app_inv_tail in X. congruence.
      - apply two_parts in X; [|exact Fa|apply Fd, Hj]. destruct X as [_ X]. destruct (op_mesh ob); discriminate X.
      - apply two_parts in X; [|apply Fd, Hi|exact Fb]. destruct X as [_ X]. destruct (op_mesh oa); discriminate X.
      - apply two_parts in X; [|apply Fd, Hi|apply Fd, Hj]. destruct X as [_ X]. apply app_inv_tail in X. congruence. }
    intros n i m j Hi Hj. destruct (X i j Hi Hj) as (X1 & X2 & X3 & X4). unfold place. destruct (style_of oa n), (style_of ob m); cbn [snd];
      repeat match goal with |- context [if ?b then _ else _] => destruct b end; cbn [snd]; assumption. }
  set (n := count ra) in *.
  destruct (root_entry (pre ++ base) sfx proto oa n) as [[[pat pm] fp] tp] eqn:R. destruct (W2 _ _ _ _ eq_refl) as (c & Ec & Ei & _). clear W2.
  assert (Ne : index_key (op_mesh oa) <> index_key (op_mesh ob)).
  { rewrite !index_key_eq by (apply Ha || apply Hb). intros X. apply app_inv_head in X. apply app_inv_tail in X. congruence. }
  assert (Ni : index_key (op_mesh oa) <> legacy_key) by (apply index_legacy; apply Ha).
  destruct (K2 _ _ Ec) as [c2 Ec2].
  assert (Ei2 : mget c2 (index_key (op_mesh oa)) = Some (Index (Some (pat, pm)))).
  { pose proof (K1 (root_name (pre ++ base) sfx) (index_key (op_mesh oa))) as X. unfold at_ in X. cbn [fst snd] in X. rewrite Ec, Ec2 in X. cbn [entries] in X. rewrite X, Ei; [reflexivity| |auto].
    intros i Hi Q. apply (f_equal snd) in Q. cbn [snd] in Q. symmetry in Q. revert Q. apply place_key; [exact Hb|apply Ha|apply Ha]. }
  rewrite (read_mesh_part d1 _ _ p r c pat pm Ec Ei), (read_mesh_part d2 _ _ p r c2 pat pm Ec2 Ei2).
  assert (Hn : (1 <= length (concat ra))%nat) by (destruct (concat ra); [congruence|cbn [length]; lia]).
  assert (Nn : match pm with Some m => zmax_list (pm_domain m) + 1 | None => 1 end = n) by (apply (read_at setid fails sched sched_ok pre base sfx proto A1 A3 A4 Ssfx Sproto oa Ha d1 (length (concat ra)) 0 Hn ltac:(lia) Pa pat pm fp tp R)).
  rewrite Nn.
  assert (Rg : forall i, In i (read_range n p r) -> 0 <= i < n).
  { intros i I. apply in_zseq. rewrite <- (ranges_tile n p) by lia. apply in_concat. exists (read_range n p r). split; [apply in_map, in_zseq, Hr|exact I]. }
  assert (Rd : forall i, In i (read_range n p r) -> read_dom d2 (root_name (pre ++ base) sfx) (op_mesh oa) (part_paths pat pm) i = read_dom d1 (root_name (pre ++ base) sfx) (op_mesh oa) (part_paths pat pm) i).
  { intros i I. apply Rg in I.
    destruct (read_at setid fails sched sched_ok pre base sfx proto A1 A3 A4 Ssfx Sproto oa Ha d1 (length (concat ra)) i Hn I Pa pat pm fp tp R) as [-> _].
    destruct (read_at setid fails sched sched_ok pre base sfx proto A1 A3 A4 Ssfx Sproto oa Ha d2 (length (concat ra)) i Hn I Pa pat pm fp tp R) as [-> _].
    fold n. destruct (nth_error (concat ra) (Z.to_nat i)) as [v|] eqn:E; [|apply nth_error_None in E; lia]. destruct (W1 _ _ E) as (c0 & E0 & E1). rewrite Z2Nat.id in * by lia.
    rewrite (dom_of_ok d1 i _ c0 _ E0 E1). destruct (K2 _ _ E0) as [c3 E3].
    apply (dom_of_ok d2 i _ c3 _ E3). pose proof (K1 (fst (place pre base sfx proto oa n i)) (snd (place pre base sfx proto oa n i))) as X. unfold at_ in X. cbn [fst snd] in X. rewrite E0, E3 in X. cbn [entries] in X.
    rewrite X, E1; [reflexivity| |].
    - intros j Hj Q. apply (f_equal snd) in Q. cbn [snd] in Q. revert Q. apply Kne; lia.
    - intros _. apply place_key; [exact Ha|apply Hb|apply Hb]. }
  revert Rd. generalize (read_range n p r). induction l as [|i l IH]; intros H; [reflexivity|]. cbn [omap_list]. rewrite H by (left; reflexivity). rewrite IH by (intros j J; apply H; right; exact J). reflexivity.
Qed.

(** * Root files without a partition pattern *)
Lemma find_skip c r s t : free c s -> find_sub (c :: r) (s ++ t) = option_map (fun k => (length s + k)%nat) (find_sub (c :: r) t).
Proof.
  unfold free. induction s as [|x s IH]; intros F; [cbn [app length Nat.add]; destruct (find_sub (c :: r) t); reflexivity|].
  cbn [app find_sub prefixb]. destruct (ascii_dec c x) as [->|_]; [destruct F; left; reflexivity|]. rewrite IH by (intros I; apply F; right; exact I).
  destruct (find_sub (c :: r) t); reflexivity.
Qed.
Lemma expand_plain s i : free "%"%char s -> expand s i = s.
Proof.
  intros F. unfold expand. rewrite (find_none "%" ["d"%char]) by exact F. cbn [seq expand_width].
  repeat (change (L "%0") with ("%"%char :: L "0"); cbn [app]; rewrite find_none by exact F). reflexivity.
Qed.
Lemma expand_six a b i : free "%"%char a -> free "%"%char b -> expand (a ++ L "%06d" ++ b) i = a ++ pad 6 i ++ b.
Proof.
  intros A B. set (t := L "%06d" ++ b). assert (T : forall r x, prefixb ("%"%char :: r) (L "%06d" ++ b) = false -> x = find_sub ("%"%char :: r) t -> x = None).
  { intros r x P ->. unfold t. change (L "%06d" ++ b) with ("%"%char :: (L "06d" ++ b)) in *. cbn [find_sub]. rewrite P. rewrite find_none; [reflexivity|]. intros I. cbn [L list_ascii_of_string app] in I. destruct I as [I|[I|[I|I]]]; try discriminate I. apply B, I. }
  unfold expand. change (L "%d") with ("%"%char :: ["d"%char]). rewrite (find_skip "%" ["d"%char] a t A). rewrite (T ["d"%char] _ eq_refl eq_refl). cbn [option_map].
  cbn [seq expand_width].
  replace (L "%0" ++ show_Z (Z.of_nat 2) ++ L "d") with ("%"%char :: L "02d") by reflexivity. rewrite (find_skip "%" _ a t A), (T (L "02d") _ eq_refl eq_refl). cbn [option_map].
  replace (L "%0" ++ show_Z (Z.of_nat 3) ++ L "d") with ("%"%char :: L "03d") by reflexivity. rewrite (find_skip "%" _ a t A), (T (L "03d") _ eq_refl eq_refl). cbn [option_map].
  replace (L "%0" ++ show_Z (Z.of_nat 4) ++ L "d") with ("%"%char :: L "04d") by reflexivity. rewrite (find_skip "%" _ a t A), (T (L "04d") _ eq_refl eq_refl). cbn [option_map].
  replace (L "%0" ++ show_Z (Z.of_nat 5) ++ L "d") with ("%"%char :: L "05d") by reflexivity. rewrite (find_skip "%" _ a t A), (T (L "05d") _ eq_refl eq_refl). cbn [option_map].
  replace (L "%0" ++ show_Z (Z.of_nat 6) ++ L "d") with ("%"%char :: L "06d") by reflexivity. rewrite (find_skip "%" _ a t A).
  assert (F : find_sub ("%"%char :: L "06d") t = Some 0%nat) by reflexivity. rewrite F. cbn [option_map]. unfold replace4. rewrite Nat.add_0_r.
  rewrite firstn_app, Nat.sub_diag, firstn_all, firstn_O, app_nil_r. f_equal. f_equal.
  rewrite skipn_app. rewrite (skipn_all2 a) by lia. cbn [app]. replace (length a + 4 - length a)%nat with 4%nat by lia. reflexivity.
Qed.
Lemma same_paths o n i : 1 <= n -> 0 <= i < n -> root_here o n ->
  forall pat pm fp tp, root_entry path sfx proto o n = (pat, pm, fp, tp) ->
  legacy_paths fp tp (files_of o n) n i = part_paths pat pm i.
Proof.
  intros Hn Hi Hh pat pm fp tp E. destruct (path_split path Hpath) as (pre & base & Ep & A1 & A2 & A3 & A4 & A5).
  set (fname := base ++ sfx). assert (Sf : simple fname) by (apply simple_app; assumption).
  assert (Pf : forall s, simple s -> free "%"%char s) by (intros s S; apply simple_free with (1 := S); cbn; tauto).
  assert (Re : root = pre ++ fname ++ L ".root") by (rewrite Ep; apply root_eq).
  assert (Oe : out_dir path sfx = pre ++ fname) by (rewrite Ep; apply odir_eq).
  assert (Sr : simple (fname ++ L ".root")) by (apply simple_app; [exact Sf|exact simple_root]).
  destruct (rsplit_pre pre (fname ++ L ".root") A1 ltac:(apply simple_free with (1 := Sr); left; reflexivity)) as [Rf _]. rewrite <- Re in Rf.
  assert (Sl : free slash fname) by (apply simple_free with (1 := Sf); left; reflexivity).
  destruct (rsplit_pre pre fname A1 Sl) as [Of _]. rewrite <- Oe in Of.
  assert (B : fst (rsplit_path (fst (rsplit_path (out_dir path sfx)))) = fname) by (rewrite Of, rsplit_path_none by exact Sl; reflexivity).
  assert (Nf : fname <> []) by (unfold fname; destruct base; [congruence|discriminate]).
  assert (Jf : forall s, join_file_path fname s = fname ++ slash :: s) by (intros s; apply (join_file_eq [] fname s Nf Sf)).
  unfold root_entry in E. rewrite Rf, B, !Jf in E.
  assert (Et : expand (L "/") i = L "/") by (apply expand_plain; intros [X|[]]; discriminate X).
  assert (Ed : forall q, expand (L "/domain_%06d" ++ q) i = slash :: dom_name i ++ q \/ ~ free "%"%char q).
  { intros q. destruct (in_dec ascii_dec "%"%char q) as [I|I]; [right; intros X; apply X, I|left].
    change (L "/domain_%06d" ++ q) with (L "/domain_" ++ L "%06d" ++ q). rewrite expand_six; [unfold dom_name; rewrite <- app_assoc; reflexivity|intros X; cbn in X; repeat (destruct X as [X|X]; [discriminate X|]); destruct X|exact I]. }
  replace n with (Z.of_nat (Z.to_nat n)) in * by lia. set (k := Z.to_nat n) in *. clearbody k. clear n. unfold legacy_paths.
  destruct (style_of o (Z.of_nat k)) eqn:St.
  - assert (X : forall f, expand (fname ++ L ".root") f = fname ++ L ".root") by (intros f; apply expand_plain, Pf, Sr).
    assert (Y : exists f, (if Z.of_nat k =? files_of o (Z.of_nat k) then Ok i else if files_of o (Z.of_nat k) =? 1 then Ok 0 else if files_of o (Z.of_nat k) <=? 0 then UB else deref (znth (d2f_map (Z.of_nat k) (files_of o (Z.of_nat k))) i)) = Ok f).
    { pose proof (files_range setid fails o (Z.of_nat k) Hn) as Fr. destruct (Z.eqb_spec (Z.of_nat k) (files_of o (Z.of_nat k))); [eexists; reflexivity|]. destruct (Z.eqb_spec (files_of o (Z.of_nat k)) 1); [eexists; reflexivity|].
      destruct (Z.leb_spec (files_of o (Z.of_nat k)) 0); [lia|]. destruct (d2f_total _ _ Fr i Hi) as (f & Ef & _). rewrite Ef. eexists. reflexivity. }
    destruct Y as [f Y]. rewrite Y. cbn [obind].
    destruct (Z.eqb_spec (Z.of_nat k) 1) as [N1|N1]; injection E as <- <- <- <-; rewrite X.
    + assert (I0 : i = 0) by lia. rewrite I0 in *. transitivity (Ok (fname ++ L ".root", end_slash (expand (L "/") 0))); [reflexivity|]. rewrite Et. symmetry. apply (part_none _ Sr).
    + rewrite Re. assert (Pn : pre = []) by (apply (here_pre path o (Z.of_nat k)); auto). rewrite Pn. cbn [app].
      etransitivity; [|symmetry; exact (part_root setid fails sched sched_ok base sfx A4 Ssfx k i Hi)]. destruct (Ed (L "/")) as [Q|Q]; [|exfalso; apply Q; intros [Z|[]]; discriminate Z].
      change (L "/domain_%06d" ++ L "/") with (L "/domain_%06d/") in Q. transitivity (Ok (fname ++ L ".root", end_slash (expand (L "/domain_%06d/") i))); [reflexivity|]. rewrite Q. change (slash :: dom_name i ++ L "/") with ((slash :: dom_name i) ++ [slash]). unfold end_slash. rewrite last_app by discriminate. reflexivity.
  - destruct (Z.eqb_spec (Z.of_nat k) (files_of o (Z.of_nat k))) as [Nk|Nk].
    + injection E as <- <- <- <-. etransitivity; [|symmetry; exact (part_own setid fails sched sched_ok base sfx proto A4 Ssfx Sproto k i Hi)]. fold fname. cbn [obind]. transitivity (Ok (expand (fname ++ slash :: L "domain_%06d." ++ proto) i, end_slash (expand (L "/") i))); [reflexivity|]. rewrite Et.
      replace (fname ++ slash :: L "domain_%06d." ++ proto) with ((fname ++ L "/domain_") ++ L "%06d" ++ (L "." ++ proto)) by (rewrite <- !app_assoc; reflexivity).
      rewrite expand_six; [rewrite <- !app_assoc; reflexivity| |apply Pf, simple_app; [exact simple_dot|exact Sproto]].
      intros I. apply in_app_iff in I. destruct I as [I|I]; [revert I; apply Pf, Sf|]. cbn in I. repeat (destruct I as [I|I]; [discriminate I|]). destruct I.
    + injection E as <- <- <- <-. pose proof (files_range setid fails o (Z.of_nat k) Hn) as Fr. destruct (d2f_total _ _ Fr i Hi) as (f & Ef & Rg).
      etransitivity; [|symmetry; exact (part_files setid fails sched sched_ok base sfx proto A4 Ssfx Sproto k _ i f Hi Ef ltac:(lia))]. fold fname.
      assert (Y : (if files_of o (Z.of_nat k) =? 1 then Ok 0 else if files_of o (Z.of_nat k) <=? 0 then UB else deref (znth (d2f_map (Z.of_nat k) (files_of o (Z.of_nat k))) i)) = Ok f).
      { destruct (Z.eqb_spec (files_of o (Z.of_nat k)) 1) as [F1|_]; [f_equal; lia|]. destruct (Z.leb_spec (files_of o (Z.of_nat k)) 0); [lia|]. rewrite Ef. reflexivity. }
      rewrite Y. cbn [obind]. destruct (Ed []) as [Q|Q]; [|exfalso; apply Q; intros []]. rewrite !app_nil_r in Q. transitivity (Ok (expand (fname ++ slash :: L "file_%06d." ++ proto) f, end_slash (expand (L "/domain_%06d") i))); [reflexivity|]. rewrite Q. rewrite tree_dom by lia.
      replace (fname ++ slash :: L "file_%06d." ++ proto) with ((fname ++ L "/file_") ++ L "%06d" ++ (L "." ++ proto)) by (rewrite <- !app_assoc; reflexivity).
      rewrite expand_six; [rewrite <- !app_assoc; reflexivity| |apply Pf, simple_app; [exact simple_dot|exact Sproto]].
      intros I. apply in_app_iff in I. destruct I as [I|I]; [revert I; apply Pf, Sf|]. cbn in I. repeat (destruct I as [I|I]; [discriminate I|]). destruct I.
Qed.
Lemma old_reader o ranks d d' c p r : mesh_ok (op_mesh o) -> concat ranks <> [] -> anew o d -> root_here o (count ranks) -> write o ranks d = Ok d' ->
  mget d' root = Some c -> 1 <= p -> 0 <= r < p ->
  read_mesh (mset d' root (mset c (index_key (op_mesh o)) (Index None))) root (op_mesh o) p r = read_mesh d' root (op_mesh o) p r.
Proof.
  intros Hm N C Hh E Ec Hp Hr. set (n := count ranks) in *. assert (Hn : (1 <= length (concat ranks))%nat) by (destruct (concat ranks); [congruence|cbn [length]; lia]).
  set (d2 := mset d' root _).
  pose proof (fun i => same_paths o n i ltac:(unfold n; lia)) as Sp.
  destruct (path_split path Hpath) as (pre & base & Ep & A1 & A2 & A3 & A4 & A5). unfold d2 in *. clear d2. rewrite Ep in *.
  set (d2 := mset d' _ _).
  destruct (write_result setid upd fails sched sched_ok mpi pre base sfx proto A2 A3 A4 Ssfx o Hm ranks d d' N C E) as [W1 W2]. fold n in W1, W2.
  assert (Pa : style_of o n = true -> length (concat ranks) <> 1%nat -> pre = []) by (intros St N1; apply (here_pre (pre ++ base) o n); auto; unfold n; lia).
  destruct (root_entry (pre ++ base) sfx proto o n) as [[[pat pm] fp] tp] eqn:R. destruct (W2 _ _ _ _ eq_refl) as (c0 & Ec0 & Ei & El). assert (c0 = c) by congruence. subst c0.
  rewrite (read_mesh_part d' _ _ p r c pat pm Ec Ei).
  assert (Nn : match pm with Some m => zmax_list (pm_domain m) + 1 | None => 1 end = n) by (apply (read_at setid fails sched sched_ok pre base sfx proto A1 A3 A4 Ssfx Sproto o Hm d' (length (concat ranks)) 0 Hn ltac:(lia) Pa pat pm fp tp R)).
  rewrite Nn. assert (Il : index_key (op_mesh o) <> legacy_key) by (apply index_legacy; apply Hm).
  assert (Lg : read_mesh d2 (root_name (pre ++ base) sfx) (op_mesh o) p r = omap_list (read_dom d2 (root_name (pre ++ base) sfx) (op_mesh o) (legacy_paths fp tp (files_of o n) n)) (read_range n p r)).
  { unfold read_mesh. replace (mget d2 (root_name (pre ++ base) sfx)) with (Some (mset c (index_key (op_mesh o)) (Index None))) by (symmetry; apply mget_mset_same). cbv iota beta.
    replace (mget (mset c (index_key (op_mesh o)) (Index None)) (index_key (op_mesh o))) with (Some (@Index V None)) by (symmetry; apply mget_mset_same). cbv iota beta.
    replace (mget (mset c (index_key (op_mesh o)) (Index None)) legacy_key) with (Some (@Legacy V (files_of o n) n fp tp)) by (rewrite mget_mset_other by congruence; symmetry; exact El). reflexivity. }
  rewrite Lg.
  assert (Rd : forall i, In i (read_range n p r) -> read_dom d2 (root_name (pre ++ base) sfx) (op_mesh o) (legacy_paths fp tp (files_of o n) n) i = read_dom d' (root_name (pre ++ base) sfx) (op_mesh o) (part_paths pat pm) i).
  { intros i I. assert (Hi : 0 <= i < n) by (apply in_zseq; rewrite <- (ranges_tile n p) by (unfold n; lia); apply in_concat; exists (read_range n p r); split; [apply in_map, in_zseq, Hr|exact I]).
    transitivity (read_dom d2 (root_name (pre ++ base) sfx) (op_mesh o) (part_paths pat pm) i).
    - unfold read_dom. rewrite (Sp i Hi Hh pat pm fp tp eq_refl). reflexivity.
    - destruct (read_at setid fails sched sched_ok pre base sfx proto A1 A3 A4 Ssfx Sproto o Hm d' (length (concat ranks)) i Hn Hi Pa pat pm fp tp R) as [-> _].
      destruct (read_at setid fails sched sched_ok pre base sfx proto A1 A3 A4 Ssfx Sproto o Hm d2 (length (concat ranks)) i Hn Hi Pa pat pm fp tp R) as [-> _]. fold n.
      destruct (nth_error (concat ranks) (Z.to_nat i)) as [v|] eqn:Ev; [|apply nth_error_None in Ev; lia]. destruct (W1 _ _ Ev) as (c0 & E0 & E1). rewrite Z2Nat.id in * by lia.
      rewrite (dom_of_ok d' i _ c0 _ E0 E1). destruct (str_eqb_spec (fst (place pre base sfx proto o n i)) (root_name (pre ++ base) sfx)) as [Pr|Pr].
      + rewrite Pr in E0. assert (c0 = c) by congruence. subst c0.
        apply (dom_of_ok d2 i _ (mset c (index_key (op_mesh o)) (Index None)) _); [unfold d2; rewrite Pr; apply mget_mset_same|].
        rewrite mget_mset_other; [exact E1|]. first [apply place_key|apply not_eq_sym, place_key]; [exact Hm|apply Hm|apply Hm].
      + apply (dom_of_ok d2 i _ c0 _); [unfold d2; rewrite mget_mset_other by congruence; exact E0|exact E1]. }
  revert Rd. generalize (read_range n p r). induction l as [|i l IH]; intros H; [reflexivity|]. cbn [omap_list]. rewrite H by (left; reflexivity). rewrite IH by (intros j J; apply H; right; exact J). reflexivity.
Qed.
End More.

Lemma files_balanced n nf : 1 <= nf <= n ->
  length (d2f_map n nf) = Z.to_nat n /\
  (forall d f, znth (d2f_map n nf) d = Some f <-> 0 <= f < nf /\ first_of n nf f <= d < first_of n nf (f + 1)) /\
  first_of n nf 0 = 0 /\ first_of n nf nf = n /\
  forall f, 0 <= f < nf -> first_of n nf (f + 1) - first_of n nf f = n / nf \/ first_of n nf (f + 1) - first_of n nf f = n / nf + 1.
Proof.
  intros H. split; [apply d2f_len; exact H|]. split; [intros d f; apply d2f_iff, H|]. destruct (first_bounds n nf H) as (A & B & C). split; [exact A|]. split; [exact B|].
  intros f _. rewrite C. destruct (f <? n mod nf); lia.
Qed.
Lemma merge_concat {A} (ls : list (list A)) : merge_of ls (concat ls).
Proof.
  assert (G : forall ls es : list (list A), (forall l, In l es -> l = []) -> merge_of (es ++ ls) (concat ls)).
  { clear ls. induction ls as [|l ls IH]; intros es E; [apply mo_done; intros l I; rewrite app_nil_r in I; apply E, I|]. cbn [concat].
    induction l as [|x l IHl].
    - cbn [app]. replace (es ++ [] :: ls) with ((es ++ [[]]) ++ ls) by (rewrite <- app_assoc; reflexivity). apply IH. intros l I. apply in_app_iff in I. destruct I as [I|[I|[]]]; [apply E, I|symmetry; exact I].
    - cbn [app]. apply (mo_step _ (length es) x l); [rewrite nth_error_app2, Nat.sub_diag by lia; reflexivity|].
      replace (set_nth (es ++ (x :: l) :: ls) (length es) l) with (es ++ l :: ls); [exact IHl|]. clear. induction es as [|e es IH]; [reflexivity|]. cbn [app length set_nth]. f_equal. exact IH. }
  exact (G ls [] (fun l I => match I with end)).
Qed.

(** * A map in any order *)
Lemma zmax_le l : forall m b, (forall x, In x l -> x <= b) -> m <= b -> fold_left Z.max l m <= b.
Proof. induction l as [|x l IH]; intros m b A B; [exact B|]. cbn [fold_left]. apply IH; [intros y I; apply A; right; exact I|]. specialize (A x (or_introl eq_refl)). lia. Qed.
Lemma zmax_ge l : forall m, m <= fold_left Z.max l m /\ forall x, In x l -> x <= fold_left Z.max l m.
Proof.
  induction l as [|y l IH]; intros m; cbn [fold_left]; [split; [lia|intros x []]|]. destruct (IH (Z.max m y)) as [A B]. split; [lia|].
  intros x [<-|I]; [lia|apply B, I].
Qed.
Lemma zmax_perm l n : Permutation l (zseq n) -> 0 <= n -> zmax_list l = n - 1.
Proof.
  intros P H. unfold zmax_list. destruct (zmax_ge l (-1)) as [A B].
  assert (U : fold_left Z.max l (-1) <= n - 1). { apply zmax_le; [|lia]. intros x I. apply (Permutation_in _ P), in_zseq in I. lia. }
  destruct (Z.eq_dec n 0) as [->|]; [lia|]. assert (I : In (n - 1) l) by (apply (Permutation_in _ (Permutation_sym P)), in_zseq; lia). apply B in I. lia.
Qed.
Lemma nodup_nth_inj {A} (l : list A) i j x : NoDup l -> nth_error l i = Some x -> nth_error l j = Some x -> i = j.
Proof. intros N E F. rewrite NoDup_nth_error in N. apply N; [apply nth_error_Some; rewrite E; discriminate|congruence]. Qed.
Lemma tree_any doms n : NoDup doms -> length doms = n -> (forall x, In x doms -> 0 <= x < Z.of_nat n) ->
  forall k i acc, (i + k)%nat = n -> length acc = n ->
  (forall j d, (j < i)%nat -> nth_error doms j = Some d -> nth_error acc (Z.to_nat d) = Some (Z.of_nat j)) ->
  exists t, dom_to_tree doms (Z.of_nat i) k acc = Ok t /\ forall j d, nth_error doms j = Some d -> nth_error t (Z.to_nat d) = Some (Z.of_nat j).
Proof.
  intros N Ld R. induction k as [|k IH]; intros i acc H La A; cbn [dom_to_tree].
  - exists acc. split; [reflexivity|]. intros j d E. apply A; [|exact E]. assert (j < length doms)%nat by (apply nth_error_Some; rewrite E; discriminate). lia.
  - rewrite znth_of_nat. destruct (nth_error doms i) as [d|] eqn:D; [|apply nth_error_None in D; lia]. cbn [deref obind].
    assert (Hd : 0 <= d < Z.of_nat n) by (apply R; eapply nth_error_In; exact D).
    unfold znth at 1. destruct (Z.ltb_spec d 0); [lia|]. destruct (nth_error acc (Z.to_nat d)) as [x|] eqn:X; [|apply nth_error_None in X; lia]. cbn [deref obind].
    replace (Z.of_nat i + 1) with (Z.of_nat (Datatypes.S i)) by lia. apply IH; [lia|rewrite length_set_nth; exact La|].
    intros j e Hj E. destruct (Nat.eq_dec i j) as [<-|Nij].
    + replace e with d by congruence. apply nth_error_set_nth_same. lia.
    + rewrite nth_error_set_nth_other; [apply A; [lia|exact E]|]. intros Q. apply Nij. apply (nodup_nth_inj doms i j d N D).
      assert (0 <= e) by (apply (R e); eapply nth_error_In; exact E). replace d with e by lia. exact E.
Qed.
Lemma nodup_zseq n : NoDup (zseq n).
Proof. unfold zseq. apply FinFun.Injective_map_NoDup; [intros a b; lia|apply seq_NoDup]. Qed.
(** the entry that names a domain says in which file it is, wherever it stands *)
Theorem map_any pat (es : list (Z * Z)) n f i : Permutation (map snd es) (zseq n) -> In (f, i) es ->
  full_path pat (Some (mkPM (Some (map fst es)) (map snd es))) i = fmt [(L "file", f); (L "domain", i)] None pat.
Proof.
  intros P I. assert (Hn : 0 <= n). { destruct (Z_le_gt_dec 0 n); [assumption|]. apply (in_map snd) in I. apply (Permutation_in _ P), in_zseq in I. lia. }
  pose proof (in_map snd _ _ I) as Ii. apply (Permutation_in _ P), in_zseq in Ii. cbn [snd] in Ii.
  apply In_nth_error in I. destruct I as [j E]. unfold full_path. cbn [pm_domain pm_file]. rewrite (zmax_perm _ _ P Hn). replace (n - 1 + 1) with n by lia.
  destruct (tree_any (map snd es) (Z.to_nat n)) with (k := Z.to_nat n) (i := 0%nat) (acc := map (fun _ : Z => 0) (zseq n)) as (t & T & K).
  - apply (Permutation_NoDup (Permutation_sym P)), nodup_zseq.
  - rewrite (Permutation_length P), length_zseq. reflexivity.
  - intros x Ix. apply (Permutation_in _ P), in_zseq in Ix. lia.
  - lia.
  - rewrite map_length, length_zseq. reflexivity.
  - intros; lia.
  - change (Z.of_nat 0) with 0 in T. rewrite T. cbn [obind].
    assert (F : nth_error (map snd es) j = Some i) by (rewrite nth_error_map, E; reflexivity).
    assert (X : znth t i = Some (Z.of_nat j)) by (unfold znth; destruct (Z.ltb_spec i 0); [lia|apply K, F]).
    rewrite X. cbn [deref obind]. rewrite !znth_of_nat, F. cbn [deref obind]. rewrite nth_error_map, E. reflexivity.
Qed.
