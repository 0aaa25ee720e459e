From Coq Require Import ZArith Lia.
From Verif Require Import Base Path IOHandle IOHandleFacts.

Section More.
Context {T B : Type}.
Variable empty : T.
Variable upd : T -> T -> T.
Variable put : str -> T -> T -> T * outcome unit.
Variable rem : str -> T -> T * outcome unit.
Variable sub : str -> T -> option T.
Variable names : T -> list str.
Variable save : str -> T -> B.
Variable load : str -> B -> outcome T.
Variable can_write : str -> bool.
Variable identify : str -> str.
Notation step := (@step T B empty upd put rem sub names save load can_write identify).
Notation run := (@run T B empty upd put rem sub names save load can_write identify).

(** every object that has the file [p] open cannot write it *)
Definition tame (p : str) (s : @state T B) : Prop :=
  forall h x f, mget (s_handles s) h = Some x -> h_path x = p -> h_open x = true -> h_flags x = Some f -> f_write f = false /\ f_read f = true.
Lemma close_tame p s h : tame p s -> tame p (close_h save s h) /\ mget (s_disk (close_h save s h)) p = mget (s_disk s) p.
Proof.
  intros M. unfold close_h. destruct (mget (s_handles s) h) as [x|] eqn:E; [|split; [exact M|reflexivity]]. cbn [s_disk s_handles]. split.
  - intros g y f G. cbn [s_handles] in G. rewrite mget_mdel in G. destruct (str_eqb g h); [discriminate G|]. apply (M g y f G).
  - unfold close_file. destruct (h_flags x) as [f|] eqn:Xf; [|reflexivity]. destruct (h_open x) eqn:Xo; [|reflexivity]. cbn [andb].
    destruct (read_only f) eqn:Ro; [reflexivity|]. cbn [negb]. apply mget_mset_other. intros Q. destruct (M h x f E (eq_sym Q) Xo Xf) as [W1 W2]. unfold read_only in Ro. rewrite W1, W2 in Ro. discriminate Ro.
Qed.
Lemma set_tame p d s h x : tame p s -> (h_path x = p -> h_open x = true -> forall f, h_flags x = Some f -> f_write f = false /\ f_read f = true) -> tame p (mkS d (mset (s_handles s) h x)).
Proof.
  intros M X g y f G. cbn [s_handles] in G. rewrite mget_mset in G. destruct (str_eqb g h); [injection G as <-; intros A1 A2 A3; apply (X A1 A2 f A3)|apply (M g y f G)].
Qed.
Lemma parse_no_w m f : has_char "w" m = false -> parse_mode (Some m) = (f, true) -> f_write f = false /\ f_read f = true.
Proof.
  unfold parse_mode. intros W. rewrite W. destruct (has_char "r" m), (has_char "a" m), (has_char "t" m); cbn; intros E; injection E; intros; subst; try discriminate; split; reflexivity.
Qed.
(** a command leaves the file alone when it does not open it for writing *)
Definition harmless (p : str) (c : @cmd T) : Prop :=
  match c with Open _ q _ m => q = p -> exists m', m = Some m' /\ has_char "w" m' = false | _ => True end.
Lemma with_tame p s h bad k : tame p s -> tame p (fst (@with_h T B s h bad k)) /\ mget (s_disk (fst (with_h s h bad k))) p = mget (s_disk s) p.
Proof.
  intros M. unfold with_h. destruct (mget (s_handles s) h) as [x|] eqn:E; [|split; [exact M|reflexivity]]. destruct (h_flags x) as [f|] eqn:Xf; [|split; [exact M|reflexivity]].
  destruct (bad f); [split; [exact M|reflexivity]|]. destruct (k x) as [t r]. cbn [fst s_disk]. split; [|reflexivity]. apply set_tame; [exact M|]. cbn [h_path h_open h_flags]. intros A1 A2 f' A3. injection A3 as <-. apply (M h x f E A1 A2 Xf).
Qed.
Lemma step_tame p s c : tame p s -> harmless p c -> tame p (fst (step s c)) /\ mget (s_disk (fst (step s c))) p = mget (s_disk s) p.
Proof.
  intros M H. destruct c as [h q proto m|h|h path|h v|h path v|h path|h path|h path|h]; cbn [IOHandle.step]; try (apply with_tame; exact M).
  - cbn [harmless] in H. unfold open_h. destruct (close_tame p s h M) as [M1 D1]. set (s1 := close_h save s h) in *. cbv zeta.
    destruct (negb (basic _)); [split; assumption|]. destruct (match snd (split_file_path q [":"%char]) with [] => false | _ => true end).
    { cbn [fst s_disk]. split; [|exact D1]. apply set_tame; [exact M1|]. cbn [h_open]. discriminate. }
    destruct (parse_mode m) as [f ok] eqn:Pm. destruct ok; cbn [negb].
    2: { cbn [fst s_disk]. split; [|exact D1]. apply set_tame; [exact M1|]. cbn [h_open]. discriminate. }
    assert (Live : forall d t pr, tame p (mkS d (mset (s_handles s1) h (mkH q pr (Some f) true t)))).
    { intros d t pr. apply set_tame; [exact M1|]. cbn [h_path h_flags]. intros Q _ f' F. injection F as <-. destruct (H Q) as (m' & -> & W). apply (parse_no_w m' f W Pm). }
    assert (Dead : forall d t pr, tame p (mkS d (mset (s_handles s1) h (mkH q pr (Some f) false t)))).
    { intros d t pr. apply set_tame; [exact M1|]. cbn [h_open]. discriminate. }
    destruct (mget (s_disk s1) q) as [b|].
    + destruct (f_read f && negb (f_trunc f)); [|split; [apply Live|exact D1]]. destruct (load _ b); cbn [fst s_disk]; (split; [try apply Live; apply Dead|exact D1]).
    + destruct (read_only f) eqn:Ro; [split; [apply Dead|exact D1]|]. destruct (can_write q); [|split; [apply Dead|exact D1]]. cbn [fst s_disk]. split; [apply Live|].
      rewrite mget_mset_other; [exact D1|]. intros Q. symmetry in Q. destruct (H Q) as (m' & -> & W). destruct (parse_no_w m' f W Pm) as [W1 W2]. unfold read_only in Ro. rewrite W1, W2 in Ro. discriminate Ro.
  - cbn [fst]. split; [exact M|reflexivity].
  - cbn [fst]. apply close_tame, M.
Qed.
Lemma run_tame p cs : forall s, tame p s -> Forall (harmless p) cs -> mget (s_disk (fst (run s cs))) p = mget (s_disk s) p.
Proof.
  induction cs as [|c cs IH]; intros s M F; cbn [IOHandle.run]; [reflexivity|]. inversion F as [|? ? F1 F2]; subst.
  destruct (step_tame p s c M F1) as [M1 D1]. destruct (step s c) as [s1 o]. cbn [fst] in *. specialize (IH s1 M1 F2). destruct (run s1 cs) as [s2 os]. cbn [fst] in *. rewrite IH. exact D1.
Qed.
Lemma untouched p d cs : (forall h proto m, In (Open h p proto m) cs -> exists m', m = Some m' /\ ~ In "w"%char m') ->
  mget (s_disk (fst (run (mkS d []) cs))) p = mget d p.
Proof.
  intros H. rewrite (run_tame p cs); [reflexivity| |].
  - intros h x f E. discriminate E.
  - apply Forall_forall. intros c I. destruct c as [h q proto m| | | | | | | |]; try exact Logic.I. cbn [harmless]. intros ->. destruct (H h proto m I) as (m' & -> & N). exists m'. split; [reflexivity|].
    unfold has_char. destruct (existsb (Ascii.eqb "w") m') eqn:Q; [|reflexivity]. apply existsb_exists in Q. destruct Q as (c & I' & E). apply Ascii.eqb_eq in E. subst c. contradiction.
Qed.

(** the disk between opening and closing *)
Lemma quiet s c : match c with Open _ _ _ _ | Close _ => False | _ => True end -> s_disk (fst (step s c)) = s_disk s.
Proof.
  intros H. destruct c as [h q proto m|h|h path|h v|h path v|h path|h path|h path|h]; try contradiction; cbn [IOHandle.step]; try reflexivity;
    unfold with_h; destruct (mget (s_handles s) h) as [x|]; try reflexivity; destruct (h_flags x); try reflexivity; match goal with |- context [if ?b then _ else _] => destruct b end; try reflexivity.
Qed.
Lemma closed s c h : mget (s_handles s) h = None -> match c with Read g _ | WriteAll g _ | Write g _ _ | Remove g _ | HasPath g _ | ListNames g _ => g = h | _ => False end ->
  step s c = (s, Err).
Proof.
  intros E H. destruct c as [g q proto m|g|g path|g v|g path v|g path|g path|g path|g]; try contradiction; subst g; cbn [IOHandle.step]; unfold with_h; rewrite E; reflexivity.
Qed.
Lemma close_null s h : mget (s_handles (fst (step s (Close h)))) h = None.
Proof.
  cbn [IOHandle.step fst]. unfold close_h. destruct (mget (s_handles s) h) as [x|] eqn:E; [|exact E]. cbn [s_handles]. apply mget_mdel_same.
Qed.
End More.
