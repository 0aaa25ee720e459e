From Coq Require Import ZArith Lia.
From Verif Require Import Base Path MeshIONames IOHandle IOHandleSpec.

Lemma set_same {A} (f : str -> A) k v : set f k v k = v.
Proof. unfold set. rewrite str_eqb_refl. reflexivity. Qed.
Lemma set_other {A} (f : str -> A) k v x : x <> k -> set f k v x = f x.
Proof. intros N. unfold set. destruct (str_eqb_spec x k); [contradiction|reflexivity]. Qed.

Lemma mode_ok m r w t : smode m = Some (r, w, t) -> exists a, parse_mode m = (mkF r w a t, true) /\ (r || w)%bool = true.
Proof.
  destruct m as [m|]; cbn [smode parse_mode]; [|intros E; injection E as <- <- <-; eexists; split; reflexivity].
  unfold valid, has_char. set (R := existsb (Ascii.eqb "r") m). set (W := existsb (Ascii.eqb "w") m). set (A := existsb (Ascii.eqb "a") m). set (U := existsb (Ascii.eqb "t") m).
  destruct R, W, A, U; cbn; intros E; try discriminate E; injection E as <- <- <-; eexists; split; reflexivity.
Qed.
Lemma mode_bad m : smode m = None -> snd (parse_mode m) = false.
Proof.
  destruct m as [m|]; cbn [smode parse_mode]; [|discriminate].
  unfold valid, has_char. set (R := existsb (Ascii.eqb "r") m). set (W := existsb (Ascii.eqb "w") m). set (A := existsb (Ascii.eqb "a") m). set (U := existsb (Ascii.eqb "t") m).
  destruct R, W, A, U; cbn; intros E; try discriminate E; reflexivity.
Qed.

Lemma mget_mdel_same {V} (m : list (str * V)) k : mget (mdel m k) k = None.
Proof. rewrite mget_mdel, str_eqb_refl. reflexivity. Qed.
Lemma mget_mdel_other {V} (m : list (str * V)) k k2 : k2 <> k -> mget (mdel m k) k2 = mget m k2.
Proof. intros N. rewrite mget_mdel. destruct (str_eqb_spec k2 k); [contradiction|reflexivity]. Qed.

Section Facts.
Context {T B : Type}.
Variable empty : T.
Variable upd : T -> T -> T.
Variable put : str -> T -> T -> T * outcome unit.
Variable rem : str -> T -> T * outcome unit.
Variable sub : str -> T -> option T.
Variable names : T -> list str.
Variable save : str -> T -> B.
Variable load : str -> B -> outcome T.
Variable can_write : str -> bool.
Variable identify : str -> str.
Variable kept : str -> T -> T.
Variable good : str -> T -> Prop.
Hypothesis load_save : forall p t, good p t -> load p (save p t) = Ok (kept p t).
Notation state := (@state T B).
Notation close_h := (@close_h T B save). Notation sclose := (@sclose T kept).
Notation step := (@step T B empty upd put rem sub names save load can_write identify).
Notation sstep := (@sstep T empty upd put rem sub names kept).

Definition linked (s : state) (ss : @sstate T) (h : str) : Prop :=
  match objs ss h with
  | Off => mget (s_handles s) h = None
  | Failed => exists x, mget (s_handles s) h = Some x /\ h_open x = false
  | On p r w => exists x f e, mget (s_handles s) h = Some x /\ h_open x = true /\ h_flags x = Some f /\ h_path x = p /\ f_read f = r /\ f_write f = w /\ (r || w)%bool = true /\
      files ss p = Some e /\ h_proto x = f_proto e /\ h_node x = f_now e
  end.
Definition on_disk (d : @disk B) (f : str -> option (@sfile T)) : Prop :=
  forall p, match f p with None => mget d p = None | Some e => exists b, mget d p = Some b /\ load (f_proto e) b = Ok (f_safe e) end.
Record R (s : state) (ss : @sstate T) : Prop := mkR {
  r_disk : on_disk (s_disk s) (files ss);
  r_link : forall h, linked s ss h;
  r_idle : forall p e, files ss p = Some e -> (forall g r, objs ss g <> On p r true) -> f_now e = f_safe e;
  r_one : forall p g r g' r' w', objs ss g = On p r true -> objs ss g' = On p r' w' -> g = g' }.

Lemma link_other s ss s' ss' h : mget (s_handles s') h = mget (s_handles s) h -> objs ss' h = objs ss h ->
  (forall p r w, objs ss h = On p r w -> files ss' p = files ss p) -> linked s ss h -> linked s' ss' h.
Proof.
  intros A O F Li. unfold linked in *. rewrite O, A. destruct (objs ss h) as [|p r w|]; [exact Li| |exact Li].
  destruct Li as (x & f & e & Q). exists x, f, e. rewrite (F p r w eq_refl). exact Q.
Qed.
Lemma close_ok s ss h : R s ss -> can_close good ss h -> R (close_h s h) (sclose ss h) /\ mget (s_handles (close_h s h)) h = None /\ objs (sclose ss h) h = Off.
Proof.
  intros [D Li Id One] Cc. unfold can_close in Cc. unfold IOHandle.close_h, IOHandleSpec.sclose. pose proof (Li h) as Lh. unfold linked in Lh.
  assert (Ht : forall s0 : state, mget (mdel (s_handles s0) h) h = None) by (intros; apply mget_mdel_same).
  destruct (objs ss h) as [|p r w|] eqn:Oh.
  - rewrite Lh. split; [|split; [exact Lh|apply set_same]]. constructor; cbn [files objs].
    + exact D.
    + intros g. destruct (str_eqb_spec g h) as [->|N]; [unfold linked; cbn [objs]; rewrite set_same; exact Lh|].
      apply (link_other s ss); [reflexivity|cbn [objs]; rewrite set_other by exact N; reflexivity|reflexivity|apply Li].
    + intros p e E Q. apply (Id p e E). intros g r X. apply (Q g r). rewrite set_other; [exact X|]. intros ->. congruence.
    + intros p g r g' r' w' X Y. destruct (str_eqb_spec g h) as [->|N]; [rewrite set_same in X; discriminate X|]. destruct (str_eqb_spec g' h) as [->|N']; [rewrite set_same in Y; discriminate Y|].
      rewrite set_other in X, Y by assumption. apply (One p g r g' r' w' X Y).
  - destruct Lh as (x & f & e & Ex & Xo & Xf & Xp & Xr & Xw & Rw & Ep & Xq & Xn). rewrite Ex. cbn [s_handles s_disk].
    unfold close_file. rewrite Xf, Xo. unfold read_only. rewrite Xr, Xw, Xp, Xq, Xn. cbn [andb].
    destruct w.
    + rewrite andb_false_r. cbn [negb]. rewrite Ep. split; [|split; [apply Ht|apply set_same]]. constructor; cbn [files objs s_disk s_handles].
      * intros q. destruct (str_eqb_spec q p) as [->|N].
        -- rewrite set_same. eexists. split; [apply mget_mset_same|]. cbn [f_proto f_safe]. apply load_save, Cc, Ep.
        -- rewrite set_other by exact N. rewrite mget_mset_other by congruence. apply D.
      * intros g. destruct (str_eqb_spec g h) as [->|N]; [unfold linked; cbn [objs s_handles]; rewrite set_same; apply Ht|].
        apply (link_other s ss); cbn [s_handles objs files]; [rewrite mget_mdel_other by congruence; reflexivity|rewrite set_other by exact N; reflexivity| |apply Li].
        intros q r' w' Og. rewrite set_other; [reflexivity|]. intros ->. apply N. symmetry. apply (One p h r g r' w' Oh Og).
      * intros q e' E Q. destruct (str_eqb_spec q p) as [->|N]; [rewrite set_same in E; injection E as <-; reflexivity|]. rewrite set_other in E by exact N. apply (Id q e' E).
        intros g r' X. apply (Q g r'). rewrite set_other; [exact X|]. intros ->. congruence.
      * intros q g r1 g' r' w' X Y. destruct (str_eqb_spec g h) as [->|N]; [rewrite set_same in X; discriminate X|]. destruct (str_eqb_spec g' h) as [->|N']; [rewrite set_same in Y; discriminate Y|].
        rewrite set_other in X, Y by assumption. apply (One q g r1 g' r' w' X Y).
    + assert (r = true) by (destruct r; [reflexivity|discriminate Rw]). subst r. cbn [negb andb]. rewrite H. cbn [andb negb].
      split; [|split; [apply Ht|apply set_same]]. constructor; cbn [files objs s_disk s_handles].
      * exact D.
      * intros g. destruct (str_eqb_spec g h) as [->|N]; [unfold linked; cbn [objs s_handles]; rewrite set_same; apply Ht|].
        apply (link_other s ss); cbn [s_handles objs files]; [rewrite mget_mdel_other by congruence; reflexivity|rewrite set_other by exact N; reflexivity|reflexivity|apply Li].
      * intros q e' E Q. apply (Id q e' E). intros g r' X. apply (Q g r'). rewrite set_other; [exact X|]. intros ->. congruence.
      * intros q g r1 g' r' w' X Y. destruct (str_eqb_spec g h) as [->|N]; [rewrite set_same in X; discriminate X|]. destruct (str_eqb_spec g' h) as [->|N']; [rewrite set_same in Y; discriminate Y|].
        rewrite set_other in X, Y by assumption. apply (One q g r1 g' r' w' X Y).
  - destruct Lh as (x & Ex & Xo). rewrite Ex. cbn [s_handles s_disk].
    assert (C : close_file save (s_disk s) x = s_disk s) by (unfold close_file; rewrite Xo; destruct (h_flags x); reflexivity). rewrite C.
    split; [|split; [apply Ht|apply set_same]]. constructor; cbn [files objs s_disk s_handles].
    + exact D.
    + intros g. destruct (str_eqb_spec g h) as [->|N]; [unfold linked; cbn [objs s_handles]; rewrite set_same; apply Ht|].
      apply (link_other s ss); cbn [s_handles objs files]; [rewrite mget_mdel_other by congruence; reflexivity|rewrite set_other by exact N; reflexivity|reflexivity|apply Li].
    + intros q e' E Q. apply (Id q e' E). intros g r' X. apply (Q g r'). rewrite set_other; [exact X|]. intros ->. congruence.
    + intros q g r1 g' r' w' X Y. destruct (str_eqb_spec g h) as [->|N]; [rewrite set_same in X; discriminate X|]. destruct (str_eqb_spec g' h) as [->|N']; [rewrite set_same in Y; discriminate Y|].
      rewrite set_other in X, Y by assumption. apply (One q g r1 g' r' w' X Y).
Qed.

(** a closed object becomes one whose open failed *)
Lemma fail_ok s ss h x : R s ss -> objs ss h = Off -> h_open x = false ->
  R (mkS (s_disk s) (mset (s_handles s) h x)) (mkSS (files ss) (set (objs ss) h Failed)).
Proof.
  intros [D Li Id One] Oh Xo. constructor; cbn [files objs s_disk s_handles].
  - exact D.
  - intros g. destruct (str_eqb_spec g h) as [->|N]; [unfold linked; cbn [objs s_handles]; rewrite set_same; exists x; split; [apply mget_mset_same|exact Xo]|].
    apply (link_other s ss); cbn [s_handles objs files]; [rewrite mget_mset_other by congruence; reflexivity|rewrite set_other by exact N; reflexivity|reflexivity|apply Li].
  - intros q e' E Q. apply (Id q e' E). intros g r' X. apply (Q g r'). rewrite set_other; [exact X|]. intros ->. congruence.
  - intros q g r1 g' r' w' X Y. destruct (str_eqb_spec g h) as [->|N]; [rewrite set_same in X; discriminate X|]. destruct (str_eqb_spec g' h) as [->|N']; [rewrite set_same in Y; discriminate Y|].
    rewrite set_other in X, Y by assumption. apply (One q g r1 g' r' w' X Y).
Qed.
(** ... or an open one: [e] is what the file is taken to be from now on *)
Lemma live_ok s ss h x p r w f e d' : R s ss -> objs ss h = Off ->
  h_open x = true -> h_flags x = Some f -> h_path x = p -> f_read f = r -> f_write f = w -> (r || w)%bool = true -> h_proto x = f_proto e -> h_node x = f_now e ->
  (forall g r' w', objs ss g = On p r' w' -> w' = false /\ w = false) ->
  on_disk d' (set (files ss) p (Some e)) ->
  (w = false -> files ss p = Some e) ->
  R (mkS d' (mset (s_handles s) h x)) (mkSS (set (files ss) p (Some e)) (set (objs ss) h (On p r w))).
Proof.
  intros [D Li Id One] Oh Xo Xf Xp Xr Xw Rw Xq Xn Ex Dd Wf. constructor; cbn [files objs s_disk s_handles].
  - exact Dd.
  - intros g. destruct (str_eqb_spec g h) as [->|N].
    + unfold linked. cbn [objs s_handles files]. rewrite set_same. exists x, f, e. rewrite mget_mset_same, set_same. auto 12.
    + apply (link_other s ss); cbn [s_handles objs files]; [rewrite mget_mset_other by congruence; reflexivity|rewrite set_other by exact N; reflexivity| |apply Li].
      intros q r' w' Og. destruct (str_eqb_spec q p) as [->|Nq]; [|apply set_other, Nq]. rewrite set_same. symmetry. apply Wf. apply (Ex g r' w' Og).
  - intros q e' E Q. destruct (str_eqb_spec q p) as [->|Nq].
    + destruct w; [exfalso; apply (Q h r); apply set_same|]. rewrite set_same in E. injection E as <-. apply (Id p e (Wf eq_refl)). intros g r' X. destruct (Ex g r' true X) as [Y _]. discriminate Y.
    + rewrite set_other in E by exact Nq. apply (Id q e' E). intros g r' X. apply (Q g r'). rewrite set_other; [exact X|]. intros ->. congruence.
  - intros q g r1 g' r' w' X Y. destruct (str_eqb_spec g h) as [->|N].
    + rewrite set_same in X. injection X as <- <- ->. destruct (str_eqb_spec g' h) as [->|N']; [reflexivity|]. rewrite set_other in Y by exact N'. destruct (Ex g' r' w' Y) as [_ Z]. discriminate Z.
    + rewrite set_other in X by exact N. destruct (str_eqb_spec g' h) as [->|N'].
      * rewrite set_same in Y. injection Y as <- <- <-. destruct (Ex g r1 true X) as [Z _]. discriminate Z.
      * rewrite set_other in Y by exact N'. apply (One q g r1 g' r' w' X Y).
Qed.
Lemma R_ext s f f' g : (forall x, f x = f' x) -> R s (mkSS f g) -> R s (mkSS f' g).
Proof.
  intros E [D Li Id One]. constructor; cbn [files objs] in *.
  - intros p. rewrite <- E. apply D.
  - intros h. apply (link_other s (mkSS f g)); [reflexivity|reflexivity|intros; symmetry; apply E|apply Li].
  - intros p e. rewrite <- E. apply Id.
  - exact One.
Qed.
Lemma open_ok s ss h p proto m : R s ss -> fair empty kept can_write good ss (Open h p proto m) ->
  R (fst (step s (Open h p proto m))) (fst (sstep ss (Open h p proto m))) /\ snd (step s (Open h p proto m)) = snd (sstep ss (Open h p proto m)).
Proof.
  intros R0 F. cbn [IOHandle.step IOHandleSpec.sstep]. unfold open_h, sopen. cbn [fair] in F.
  destruct F as (Fk & Fg & Fb & Fc & Fw & Fp & Fx & Fm).
  destruct (close_ok s ss h R0 Fk) as (R1 & H1 & O1). set (s1 := close_h s h) in *. set (ss1 := sclose ss h) in *.
  assert (Ep : match proto with [] => identify p | _ => proto end = proto) by (destruct proto; [discriminate Fb|reflexivity]). rewrite Ep, Fb. cbn [negb].
  rewrite (not_bad p Fc).
  destruct (smode m) as [[[r w] t]|] eqn:Sm.
  2: { pose proof (mode_bad m Sm) as Bm. destruct (parse_mode m) as [f ok]. cbn [snd] in Bm. subst ok. cbn [negb fst snd]. split; [|reflexivity]. apply fail_ok; [exact R1|exact O1|reflexivity]. }
  destruct (mode_ok m r w t Sm) as (a & Pm & Rw). rewrite Pm. cbn [negb]. cbn [f_read f_trunc]. destruct Fm as [Fm1 Fm2].
  assert (Ex : forall g r' w', objs ss1 g = On p r' w' -> w' = false /\ w = false) by (intros g r' w' X; apply (Fx g r' w' X)).
  pose proof (r_disk _ _ R1 p) as Dp. destruct (files ss1 p) as [e|] eqn:Ef.
  - destruct Dp as (b & Db & Lb). rewrite Db. pose proof (Fp e eq_refl) as Pe.
    assert (Idle : w = true -> f_now e = f_safe e).
    { intros W. apply (r_idle _ _ R1 p e Ef). intros g r' X. destruct (Ex g r' true X) as [Y _]. discriminate Y. }
    assert (Idle2 : f_now e = f_safe e).
    { apply (r_idle _ _ R1 p e Ef). intros g r' X. destruct (Ex g r' true X) as [Y _]. discriminate Y. }
    destruct t.
    + rewrite andb_false_r. cbn [fst snd]. split; [|reflexivity].
      apply (live_ok s1 ss1 h _ p r w (mkF r w a true) (mkSF (f_proto e) empty (f_safe e))); try reflexivity; try assumption.
      * cbn [h_proto f_proto]. symmetry. exact Pe.
      * intros q. destruct (str_eqb_spec q p) as [->|N]; [rewrite set_same; exists b; split; [exact Db|exact Lb]|rewrite set_other by exact N; apply (r_disk _ _ R1)].
      * rewrite (Fm1 eq_refl). discriminate.
    + destruct r; [|destruct (Fm2 eq_refl) as [X|X]; discriminate X]. cbn [andb negb]. rewrite <- Pe, Lb. cbn [fst snd]. split; [|reflexivity].
      apply (R_ext _ (set (files ss1) p (Some e))); [intros q; destruct (str_eqb_spec q p) as [->|N]; [rewrite set_same; symmetry; exact Ef|apply set_other, N]|].
      apply (live_ok s1 ss1 h _ p true w (mkF true w a false) e); try reflexivity; try assumption.
      * cbn [h_node]. symmetry. exact Idle2.
      * intros q. destruct (str_eqb_spec q p) as [->|N]; [rewrite set_same; exists b; split; [exact Db|exact Lb]|rewrite set_other by exact N; apply (r_disk _ _ R1)].
      * intros _. exact Ef.
  - rewrite Dp. unfold read_only. cbn [f_read f_write]. destruct w.
    + rewrite andb_false_r, Fw. cbn [fst snd]. split; [|reflexivity].
      apply (live_ok s1 ss1 h _ p r true (mkF r true a t) (mkSF proto empty (kept proto empty))); try reflexivity; try assumption.
      * intros q. destruct (str_eqb_spec q p) as [->|N].
        -- rewrite set_same. eexists. split; [apply mget_mset_same|apply load_save, Fg].
        -- rewrite set_other by exact N. rewrite mget_mset_other by congruence. apply (r_disk _ _ R1).
      * discriminate.
    + assert (r = true) by (destruct r; [reflexivity|discriminate Rw]). subst r. cbn [andb negb fst snd]. split; [|reflexivity]. apply fail_ok; [exact R1|exact O1|reflexivity].
Qed.

Lemma read_ok s ss h k k2 : R s ss -> objs ss h <> Failed -> (forall x, snd (k x) = Ok (k2 (h_node x)) /\ fst (k x) = h_node x) ->
  R (fst (with_h s h write_only k)) ss /\ snd (with_h s h write_only k) = sread ss h k2.
Proof.
  intros R0 Nf K. pose proof (r_link _ _ R0 h) as Lh. unfold linked in Lh. unfold with_h, sread. destruct (objs ss h) as [|p r w|]; [|  |congruence].
  - rewrite Lh. split; [exact R0|reflexivity].
  - destruct Lh as (x & f & e & Ex & Xo & Xf & Xp & Xr & Xw & Rw & Ep & Xq & Xn). rewrite Ex, Xf. unfold write_only. rewrite Xr, Xw. destruct r.
    + rewrite andb_false_r. destruct (K x) as [K1 K2]. destruct (k x) as [t o]. cbn [fst snd] in *. subst t o. rewrite Ep, Xn. split; [|reflexivity].
      destruct R0 as [D Li Id One]. constructor; cbn [s_disk]; try assumption. intros g. destruct (str_eqb_spec g h) as [->|N].
      * pose proof (Li h) as Q. unfold linked in *. cbn [s_handles]. destruct (objs ss h) as [|p' r' w'|]; [congruence| |].
        -- destruct Q as (x' & f' & e' & Ex' & Q). assert (x' = x) by congruence. subst x'. eexists _, f', e'. split; [apply mget_mset_same|]. cbn [h_open h_flags h_path h_proto h_node]. rewrite <- Xf. intuition congruence.
        -- destruct Q as (x' & Ex' & Q). eexists. split; [apply mget_mset_same|]. cbn [h_open]. congruence.
      * apply (link_other s ss); cbn [s_handles]; [rewrite mget_mset_other by congruence; reflexivity|reflexivity|reflexivity|apply Li].
    + assert (w = true) by (destruct w; [reflexivity|discriminate Rw]). subst w. rewrite H. cbn [andb negb fst snd]. split; [exact R0|reflexivity].
Qed.
Lemma write_ok s ss h k k2 : R s ss -> objs ss h <> Failed -> (forall x, k x = unit_res (k2 (h_node x))) ->
  R (fst (with_h s h read_only k)) (fst (swrite ss h k2)) /\ snd (with_h s h read_only k) = snd (swrite ss h k2).
Proof.
  intros R0 Nf K. pose proof (r_link _ _ R0 h) as Lh. unfold linked in Lh. unfold with_h, swrite. destruct (objs ss h) as [|p r w|] eqn:Oh; [|  |congruence].
  - rewrite Lh. split; [exact R0|reflexivity].
  - destruct Lh as (x & f & e & Ex & Xo & Xf & Xp & Xr & Xw & Rw & Ep & Xq & Xn). rewrite Ex, Xf. unfold read_only. rewrite Xr, Xw. destruct w.
    + rewrite andb_false_r. rewrite K, Xn, Ep. destruct (k2 (f_now e)) as [t o]. unfold unit_res. cbn [fst snd]. split; [|reflexivity].
      destruct R0 as [D Li Id One]. constructor; cbn [s_disk files objs].
      * intros q. destruct (str_eqb_spec q p) as [->|N]; [rewrite set_same; cbn [f_proto f_safe]; pose proof (D p) as Dp; rewrite Ep in Dp; exact Dp|rewrite set_other by exact N; apply D].
      * intros g. destruct (str_eqb_spec g h) as [->|N].
        -- unfold linked. cbn [objs s_handles files]. rewrite Oh. eexists _, f, _. split; [apply mget_mset_same|]. cbn [h_open h_flags h_path h_proto h_node]. rewrite set_same. split; [exact Xo|]. split; [reflexivity|]. split; [exact Xp|]. split; [exact Xr|]. split; [exact Xw|]. split; [exact Rw|]. split; [reflexivity|]. split; [exact Xq|reflexivity].
        -- apply (link_other s ss); cbn [s_handles objs files]; [rewrite mget_mset_other by congruence; reflexivity|reflexivity| |apply Li].
           intros q r' w' Og. rewrite set_other; [reflexivity|]. intros ->. apply N. symmetry. apply (One p h r g r' w' Oh Og).
      * intros q e' E Q. destruct (str_eqb_spec q p) as [->|N]; [exfalso; apply (Q h r Oh)|]. rewrite set_other in E by exact N. apply (Id q e' E Q).
      * exact One.
    + assert (r = true) by (destruct r; [reflexivity|discriminate Rw]). subst r. rewrite H. cbn [andb negb fst snd]. split; [exact R0|reflexivity].
Qed.
Lemma step_ok s ss c : R s ss -> fair empty kept can_write good ss c -> R (fst (step s c)) (fst (sstep ss c)) /\ snd (step s c) = snd (sstep ss c).
Proof.
  intros R0 F. destruct c as [h p proto m|h|h path|h v|h path v|h path|h path|h [path|]|h]; cbn [fair] in F.
  - apply open_ok; assumption.
  - cbn [IOHandle.step IOHandleSpec.sstep fst snd]. split; [exact R0|]. pose proof (r_link _ _ R0 h) as Lh. unfold linked in Lh. destruct (objs ss h) as [|p r w|].
    + rewrite Lh. reflexivity.
    + destruct Lh as (x & f & e & Ex & Xo & _). rewrite Ex, Xo. reflexivity.
    + destruct Lh as (x & Ex & Xo). rewrite Ex, Xo. reflexivity.
  - apply read_ok; [exact R0|exact F|]. intros x. split; reflexivity.
  - apply write_ok; [exact R0|exact F|]. intros x. reflexivity.
  - apply write_ok; [exact R0|exact F|]. intros x. reflexivity.
  - apply write_ok; [exact R0|exact F|]. intros x. reflexivity.
  - apply read_ok; [exact R0|exact F|]. intros x. split; reflexivity.
  - apply read_ok; [exact R0|exact F|]. intros x. split; reflexivity.
  - apply read_ok; [exact R0|exact F|]. intros x. split; reflexivity.
  - cbn [IOHandle.step IOHandleSpec.sstep fst snd]. split; [apply close_ok; assumption|reflexivity].
Qed.
Lemma run_ok cs : forall s ss, R s ss -> all_fair empty upd put rem sub names kept can_write good ss cs ->
  R (fst (run empty upd put rem sub names save load can_write identify s cs)) (fst (srun empty upd put rem sub names kept ss cs)) /\
  snd (run empty upd put rem sub names save load can_write identify s cs) = snd (srun empty upd put rem sub names kept ss cs).
Proof.
  induction cs as [|c cs IH]; intros s ss R0 F; cbn [run srun].
  - split; [exact R0|reflexivity].
  - cbn [all_fair] in F. destruct F as [F1 F2]. destruct (step_ok s ss c R0 F1) as [R1 E1].
    destruct (step s c) as [s1 o] eqn:S1. destruct (sstep ss c) as [ss1 o2] eqn:S2. cbn [fst snd] in *. destruct (IH s1 ss1 R1 F2) as [R2 E2].
    destruct (run empty upd put rem sub names save load can_write identify s1 cs) as [s2 os]. destruct (srun empty upd put rem sub names kept ss1 cs) as [ss2 os2]. cbn [fst snd] in *. split; [exact R2|congruence].
Qed.
Lemma start_ok d f0 : (forall p e, f0 p = Some e -> f_now e = f_safe e) -> on_disk d f0 -> R (mkS d []) (mkSS f0 (fun _ => Off)).
Proof.
  intros A D. constructor; cbn [s_disk files objs].
  - exact D.
  - intros h. unfold linked. cbn [objs]. reflexivity.
  - intros p e E _. apply (A p e E).
  - discriminate.
Qed.
Lemma programs d f0 cs : (forall p e, f0 p = Some e -> f_now e = f_safe e) -> on_disk d f0 ->
  all_fair empty upd put rem sub names kept can_write good (mkSS f0 (fun _ => Off)) cs ->
  snd (run empty upd put rem sub names save load can_write identify (mkS d []) cs) = snd (srun empty upd put rem sub names kept (mkSS f0 (fun _ => Off)) cs) /\
  on_disk (s_disk (fst (run empty upd put rem sub names save load can_write identify (mkS d []) cs))) (files (fst (srun empty upd put rem sub names kept (mkSS f0 (fun _ => Off)) cs))).
Proof. intros A D F. destruct (run_ok cs _ _ (start_ok d f0 A D) F) as [R1 E1]. split; [exact E1|apply (r_disk _ _ R1)]. Qed.
End Facts.
