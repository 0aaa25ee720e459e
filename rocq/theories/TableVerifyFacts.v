(** Facts about TableVerify.v *)
From Coq Require Import ZArith Lia FinFun.
From Verif Require Import Base Json MeshVerify MeshVerifySpec MeshVerifyFacts TableVerify TableVerifySpec.
From Verif Require ValueFacts.
Import ListNotations.
Local Open Scope nat_scope.

Lemma show_inj a b : show_Z a = show_Z b -> a = b.
Proof. intros E. pose proof (ValueFacts.show_Z_int a) as H. rewrite E, ValueFacts.show_Z_int in H. congruence. Qed.
Lemma mc_run n i : exists i', mcarray n i = Ok (components n, i') /\ tidy i' /\ flag i' = Some (components n).
Proof.
  unfold mcarray. apply fresh_flag. eapply ok_eq.
  - apply ok_also; [apply keeps_ok, keeps_test|]. pose proof (mc_lens_spec (kids n) 0) as H.
    destruct (mc_lens 0 (kids n)) as [a b]. apply keeps_ok. eapply keeps_eq; [apply keeps_test|exact H].
  - cbn [Nat.eqb]. unfold components, every. destruct n; cbn [is_object is_list orb andb]; try reflexivity; rewrite ?Bool.andb_assoc; reflexivity.
Qed.
Lemma tidy_inum k : tidy (inum k).
Proof.
  split; [|split; exact I]. intros E. exfalso. pose proof (ValueFacts.show_Z_int (Z.of_nat k)) as H. rewrite E in H. vm_compute in H. discriminate H.
Qed.
Lemma inum_inj a b : inum a = inum b -> a = b.
Proof. intros E. injection E as E. apply show_inj in E. lia. Qed.

(** the end of a column *)
Lemma column_end nm (g : bool) ic info : tidy ic -> tidy info -> nm <> L "valid" -> (g = true -> upto ic = true) ->
  exists info', (do ic' <- validation ic g; Ok (iput (if g then info else log_error info) nm ic')) = Ok info' /\
    tidy info' /\ flag info' = flag info /\ (forall q, q <> nm -> q <> L "errors" -> iget info' q = iget info q) /\
    flag (iget info' nm) = Some g /\ iget (iget info' nm) (L "elements") = iget ic (L "elements").
Proof.
  intros T1 T2 N U. destruct (validation_ok ic g T1) as (j & -> & Tj & Fj & Oj). cbn [obind].
  assert (E : tidy (if g then info else log_error info) /\ flag (if g then info else log_error info) = flag info /\
              forall q, q <> L "errors" -> iget (if g then info else log_error info) q = iget info q).
  { destruct g; [auto|]. destruct (error_fine info T2) as [A B]. split; [exact A|]. split; [exact B|]. intros q Q. apply iget_iput_other, Q. }
  destruct E as (E1 & E2 & E3).
  eexists. split; [reflexivity|]. split; [apply tidy_iput; [exact E1|exact Tj|congruence]|]. split; [rewrite flag_iput by exact N; exact E2|].
  split; [intros q Q1 Q2; rewrite iget_iput_other by exact Q1; apply E3, Q2|]. rewrite iget_iput_same. split.
  - rewrite Fj. destruct g; [rewrite U by reflexivity|]; reflexivity.
  - apply Oj. discriminate.
Qed.
Lemma upto_elements ic k : upto (iput ic (L "elements") k) = upto ic.
Proof. unfold upto. rewrite flag_iput by discriminate. reflexivity. Qed.
Lemma column_run res first rows nm c info : tidy info -> nm <> L "valid" -> iget info nm = INone -> (res = true -> filled c = true) ->
  exists g rows' info', column res first rows nm c info = Ok (g, rows', info') /\
    tidy info' /\ flag info' = flag info /\ (forall q, q <> nm -> q <> L "errors" -> iget info' q = iget info q) /\
    flag (iget info' nm) = Some g /\
    (res = true -> g = judged first rows c /\
       (g = true -> rows_of c = Some rows' /\ (first = false -> rows' = rows) /\ iget (iget info' nm) (L "elements") = inum rows')).
Proof.
  intros T N G F. unfold column.
  destruct (is_list c || is_object c) eqn:LO.
  - destruct (mc_run c (iget info nm)) as (ic & -> & Tic & Fic). cbn [obind fst snd].
    assert (RC : rows_of c = if components c then match map snd (kids c) with x :: _ => Some (len x) | [] => None end else None).
    { destruct c; try discriminate LO; reflexivity. }
    assert (K : exists k, (if res then match kids c with [] => Err | (_, y) :: _ => Ok (numel y) end else Ok 0) = Ok k /\
                (res = true -> rows_of c = if components c then Some k else None)).
    { destruct res; [|exists 0; split; [reflexivity|discriminate]]. specialize (F eq_refl).
      destruct (kids c) as [|[a y] l] eqn:KC.
      - exfalso. destruct c as [|es|ts| |]; try discriminate LO; cbn [kids filled] in *; [destruct es; discriminate|destruct ts; [discriminate|]].
        cbn [length seq map combine] in KC. discriminate KC.
      - exists (numel y). split; [reflexivity|]. intros _. rewrite RC. cbn [map snd]. reflexivity. }
    destruct K as (k & -> & RK). cbn [obind].
    set (rows1 := if components c && first then k else rows).
    set (g := components c && Nat.eqb rows1 k).
    assert (T1 : tidy (if components c then iput ic (L "elements") (inum k) else ic)).
    { destruct (components c); [apply tidy_iput; [exact Tic|apply tidy_inum|discriminate]|exact Tic]. }
    assert (U1 : g = true -> upto (if components c then iput ic (L "elements") (inum k) else ic) = true).
    { unfold g. intros E. destruct (components c); [|discriminate]. rewrite upto_elements. unfold upto. rewrite Fic. reflexivity. }
    destruct (column_end nm g _ info T1 T N U1) as (info' & E & A1 & A2 & A3 & A4 & A5).
    exists g, rows1, info'. split.
    { destruct (validation (if components c then iput ic (L "elements") (inum k) else ic) g); cbn [obind] in *; congruence. }
    split; [exact A1|]. split; [exact A2|]. split; [exact A3|]. split; [exact A4|]. intros R. specialize (RK R). split.
    + unfold judged. rewrite RK. unfold g, rows1. destruct (components c); [|reflexivity]. cbn [andb]. destruct first; [rewrite Nat.eqb_refl; reflexivity|reflexivity].
    + intros Gt. rewrite A5, RK. unfold g, rows1 in *. destruct (components c); [|discriminate]. cbn [andb] in *. apply Nat.eqb_eq in Gt.
      rewrite iget_iput_same. split; [destruct first; congruence|]. split; [intros ->; reflexivity|]. destruct first; congruence.
  - rewrite G. destruct (match c with TNone => true | _ => false end) eqn:NO.
    + destruct c; try discriminate NO. cbn [obind andb].
      destruct (column_end nm false INone info I T N ltac:(discriminate)) as (info' & E & A1 & A2 & A3 & A4 & _).
      exists false, rows, info'. split.
      { cbn [obind] in *. destruct (validation INone false); cbn [obind] in *; congruence. }
      split; [exact A1|]. split; [exact A2|]. split; [exact A3|]. split; [exact A4|]. intros _. split; [reflexivity|discriminate].
    + assert (RC : rows_of c = Some (numel c)) by (destruct c; try discriminate LO; try discriminate NO; reflexivity).
      assert (EX : match c with TNone => Ok (false, 0, INone) | _ => Ok (true, numel c, INone) end = Ok (true, numel c, INone)) by (destruct c; try discriminate NO; reflexivity).
      rewrite EX. cbn [obind andb]. set (rows1 := if first then numel c else rows). set (g := Nat.eqb rows1 (numel c)).
      assert (T1 : tidy (iput INone (L "elements") (inum (numel c)))) by (apply tidy_iput; [exact I|apply tidy_inum|discriminate]).
      destruct (column_end nm g (iput INone (L "elements") (inum (numel c))) info T1 T N ltac:(intros _; rewrite upto_elements; reflexivity)) as (info' & E & A1 & A2 & A3 & A4 & A5).
      exists g, rows1, info'. split.
      { destruct (validation (iput INone (L "elements") (inum (numel c))) g); cbn [obind] in *; congruence. }
      split; [exact A1|]. split; [exact A2|]. split; [exact A3|]. split; [exact A4|]. intros R. split.
      * unfold judged. rewrite RC. unfold g, rows1. destruct first; [apply Nat.eqb_refl|reflexivity].
      * intros Gt. rewrite A5, RC. unfold g, rows1 in *. apply Nat.eqb_eq in Gt. rewrite iget_iput_same.
        split; [congruence|]. split; [intros ->; reflexivity|congruence].
Qed.

(** all columns *)
Definition fresh (l : list (str * tree)) (info : itree) : Prop :=
  NoDup (map fst l) /\ (forall k, In k (map fst l) -> ~ In k [L "valid"; L "errors"; L "columns"; L "rows"; L "tables"] /\ iget info k = INone).
Lemma fresh_next nm c l info info' : fresh ((nm, c) :: l) info -> (forall q, q <> nm -> q <> L "errors" -> iget info' q = iget info q) -> fresh l info'.
Proof.
  intros [N F] Q. cbn [map fst] in *. inversion N as [|? ? N1 N2]; subst. split; [exact N2|].
  intros k K. destruct (F k (or_intror K)) as [A B]. split; [exact A|]. rewrite Q; [exact B|congruence|].
  intros ->. apply A. cbn [In]. tauto.
Qed.
Definition rest_same (l : list (str * tree)) (info info' : itree) : Prop :=
  forall q, ~ In q (map fst l) -> q <> L "errors" -> iget info' q = iget info q.
Lemma columns_bad l : forall first rows num info, tidy info -> fresh l info ->
  exists rows' num' info', columns false first rows num l info = Ok (false, rows', num', info') /\ tidy info' /\ flag info' = flag info /\ rest_same l info info'.
Proof.
  induction l as [|[nm c] l IH]; intros first rows num info T F.
  - exists rows, num, info. split; [reflexivity|]. split; [exact T|]. split; [reflexivity|]. intros q _ _. reflexivity.
  - pose proof F as [_ F2]. destruct (F2 nm (or_introl eq_refl)) as [W G].
    destruct (column_run false first rows nm c info T ltac:(intros ->; apply W; cbn [In]; tauto) G ltac:(discriminate)) as (g & r1 & i1 & E & T1 & F1 & S1 & _).
    cbn [columns]. rewrite E. cbn [obind andb].
    destruct (IH false r1 (S num) i1 T1 (fresh_next _ _ _ _ _ F S1)) as (r2 & n2 & i2 & E2 & T2 & F3 & S2).
    exists r2, n2, i2. split; [exact E2|]. split; [exact T2|]. split; [congruence|].
    intros q Q1 Q2. cbn [map fst In] in Q1. rewrite S2, S1 by (first [congruence | intros QQ; apply Q1; (left; congruence) || (right; exact QQ)]). reflexivity.
Qed.
Fixpoint fine (first : bool) (rows : nat) (l : list (str * tree)) : option nat :=
  match l with
  | [] => Some rows
  | (_, c) :: r => match rows_of c with Some k => if first || Nat.eqb rows k then fine false k r else None | None => None end
  end.
Lemma columns_run l : forall first rows num info, tidy info -> fresh l info -> forallb filled (map snd l) = true ->
  exists rows' num' info', columns true first rows num l info = Ok (match fine first rows l with Some _ => true | None => false end, rows', num', info') /\
    tidy info' /\ flag info' = flag info /\ rest_same l info info' /\ told first rows l info' /\
    (forall k, fine first rows l = Some k -> rows' = k /\ num' = num + length l).
Proof.
  induction l as [|[nm c] l IH]; intros first rows num info T F FL.
  - exists rows, num, info. cbn. split; [reflexivity|]. split; [exact T|]. split; [reflexivity|]. split; [intros q _ _; reflexivity|].
    split; [exact I|]. intros k E. injection E as <-. split; [reflexivity|lia].
  - cbn [map snd forallb] in FL. apply Bool.andb_true_iff in FL. destruct FL as [FL1 FL2].
    pose proof F as [ND F2]. destruct (F2 nm (or_introl eq_refl)) as [W G].
    destruct (column_run true first rows nm c info T ltac:(intros ->; apply W; cbn [In]; tauto) G (fun _ => FL1)) as (g & r1 & i1 & E & T1 & F1 & S1 & Fg & J).
    destruct (J eq_refl) as [-> J2]. clear J. cbn [columns]. rewrite E. cbn [obind andb].
    pose proof (fresh_next _ _ _ _ _ F S1) as FN. cbn [map fst] in ND. inversion ND as [|? ? ND1 ND2]; subst.
    assert (NE : nm <> L "errors") by (intros ->; apply W; cbn [In]; tauto).
    cbn [fine told length]. destruct (judged first rows c) eqn:JD.
    + destruct (J2 eq_refl) as (RC & RF & RE). unfold judged in JD. rewrite RC in *. rewrite JD.
      destruct (IH false r1 (S num) i1 T1 FN FL2) as (r2 & n2 & i2 & E2 & T2 & F3 & S2 & TD & FD).
      exists r2, n2, i2. split; [exact E2|]. split; [exact T2|]. split; [congruence|].
      assert (SN : iget i2 nm = iget i1 nm) by (apply S2; assumption).
      split; [intros q Q1 Q2; cbn [map fst In] in Q1; rewrite S2, S1 by (first [congruence | intros QQ; apply Q1; (left; congruence) || (right; exact QQ)]); reflexivity|].
      split; [split; [rewrite SN; exact Fg|intros _; exists r1; rewrite SN; auto]|].
      intros k K. destruct (FD k K) as [-> ->]. split; [reflexivity|lia].
    + assert (FE : (match rows_of c with Some k => if first || Nat.eqb rows k then fine false k l else None | None => None end) = None).
      { unfold judged in JD. destruct (rows_of c); [rewrite JD|]; reflexivity. }
      rewrite FE. destruct (columns_bad l false r1 (S num) i1 T1 FN) as (r2 & n2 & i2 & E2 & T2 & F3 & S2).
      exists r2, n2, i2. split; [exact E2|]. split; [exact T2|]. split; [congruence|].
      assert (SN : iget i2 nm = iget i1 nm) by (apply S2; assumption).
      split; [intros q Q1 Q2; cbn [map fst In] in Q1; rewrite S2, S1 by (first [congruence | intros QQ; apply Q1; (left; congruence) || (right; exact QQ)]); reflexivity|].
      split; [split; [rewrite SN; exact Fg|discriminate]|]. discriminate.
Qed.

Lemma told_ext l : forall first rows i j, (forall k, In k (map fst l) -> iget j k = iget i k) -> told first rows l i -> told first rows l j.
Proof.
  induction l as [|[nm c] l IH]; intros first rows i j SJ TD; [exact I|].
  cbn [told map fst] in *. rewrite SJ by (left; reflexivity). destruct TD as [A B]. split; [exact A|].
  intros J. destruct (B J) as (k & K1 & K2 & K3). exists k. split; [exact K1|]. split; [exact K2|].
  apply (IH false k i j); [|exact K3]. intros q Q. apply SJ. right. exact Q.
Qed.
Lemma members_columns n : map snd (members n) = columns_of n.
Proof.
  destruct n as [|es|ts| |]; try reflexivity. cbn [members columns_of].
  generalize 0. induction ts as [|t ts IH]; intros a; [reflexivity|]. cbn [length seq map combine snd]. rewrite IH. reflexivity.
Qed.
Lemma fine_all k l : fine false k l = if all_rows k (map snd l) then Some k else None.
Proof.
  induction l as [|[nm c] l IH]; [reflexivity|]. cbn [fine map snd all_rows orb].
  destruct (rows_of c) as [j|]; [|reflexivity]. destruct (Nat.eqb_spec k j) as [<-|N]; [exact IH|reflexivity].
Qed.
Lemma fine_height v : is_object v || is_list v = true -> fine true 0 (members v) = height_of v.
Proof.
  intros O. assert (H : height_of v = match columns_of v with [] => Some 0 | c :: r => match rows_of c with Some k => if all_rows k r then Some k else None | None => None end end)
    by (destruct v; try discriminate O; reflexivity).
  rewrite H, <- members_columns. destruct (members v) as [|[nm c] l]; [reflexivity|]. cbn [fine map snd orb].
  destruct (rows_of c); [apply fine_all|reflexivity].
Qed.
Lemma bracket_inj i j : L "[" ++ show_Z (Z.of_nat i) ++ L "]" = L "[" ++ show_Z (Z.of_nat j) ++ L "]" -> i = j.
Proof. intros E. apply app_inv_head in E. apply app_inv_tail in E. apply show_inj in E. lia. Qed.
Lemma names_list ts : map fst (members (TList ts)) = map (fun i => L "[" ++ show_Z (Z.of_nat i) ++ L "]") (seq 0 (length ts)).
Proof.
  cbn [members]. generalize 0. induction ts as [|t ts IH]; intros a; [reflexivity|]. cbn [length seq map combine fst]. rewrite IH. reflexivity.
Qed.
Lemma members_fresh v info : named_well v -> (forall k, In k (map fst (members v)) -> iget info k = INone) -> fresh (members v) info.
Proof.
  intros W G. destruct v as [|es|ts| |]; try (split; [constructor|intros k []]).
  - destruct W as [N W]. split; [exact N|]. intros k K. split; [apply W, K|apply G, K].
  - split.
    + rewrite names_list. apply FinFun.Injective_map_NoDup; [exact bracket_inj|apply seq_NoDup].
    + intros k K. split; [|apply G, K]. rewrite names_list in K. apply in_map_iff in K. destruct K as (i & <- & _).
      cbn [In L list_ascii_of_string app]. intuition discriminate.
Qed.
Lemma values_run v : is_object v || is_list v = true -> named_well v -> forallb filled (columns_of v) = true ->
  exists iv, table_values v INone = Ok (match height_of v with Some _ => true | None => false end, iv) /\ tidy iv /\
    flag iv = Some (match height_of v with Some _ => true | None => false end) /\ told true 0 (members v) iv /\ counts_of v iv.
Proof.
  intros O W FL. rewrite <- members_columns in FL.
  destruct (columns_run (members v) true 0 0 INone I (members_fresh v INone W (fun _ _ => eq_refl)) FL) as (r & n & i & E & T & Fl & S & TD & FD).
  rewrite fine_height in * by exact O. unfold table_values. rewrite E. cbn [obind]. unfold valid.
  set (b := match height_of v with Some _ => true | None => false end) in *.
  set (i1 := if b then iput (iput i (L "columns") (inum n)) (L "rows") (inum r) else i).
  assert (I1 : tidy i1 /\ flag i1 = flag i /\ forall q, q <> L "columns" -> q <> L "rows" -> iget i1 q = iget i q).
  { unfold i1. destruct b; [|auto]. split; [apply tidy_iput; [apply tidy_iput; [exact T|apply tidy_inum|discriminate]|apply tidy_inum|discriminate]|].
    split; [rewrite !flag_iput by discriminate; reflexivity|]. intros q Q1 Q2. rewrite !iget_iput_other by assumption. reflexivity. }
  destruct I1 as (T1 & F1 & S1). destruct (validation_ok i1 b T1) as (j & -> & Tj & Fj & Oj). cbn [obind].
  exists j. split; [reflexivity|]. split; [exact Tj|]. split.
  { rewrite Fj. unfold upto. rewrite F1, Fl. cbn. rewrite Bool.andb_true_r. reflexivity. }
  split.
  - assert (NM : forall k, In k (map fst (members v)) -> ~ In k [L "valid"; L "errors"; L "columns"; L "rows"; L "tables"]).
    { intros k K. apply (proj2 (members_fresh v INone W (fun _ _ => eq_refl))). exact K. }
    assert (SJ : forall k, In k (map fst (members v)) -> iget j k = iget i k).
    { intros k K. specialize (NM k K). cbn [In] in NM. rewrite Oj by (intros ->; tauto). apply S1; intros ->; tauto. }
    apply (told_ext (members v) true 0 i); [exact SJ|exact TD].
  - intros k K. assert (B : b = true) by (unfold b; rewrite K; reflexivity). destruct (FD k K) as [-> ->].
    rewrite !Oj by discriminate. unfold i1. rewrite B. rewrite iget_iput_same.
    rewrite iget_iput_other by discriminate. rewrite iget_iput_same. rewrite <- members_columns, map_length. split; reflexivity.
Qed.

(** * Tables *)
Lemma members_entries n : members n = entries n.
Proof.
  destruct n as [|es|ts| |]; try reflexivity. cbn [members entries]. generalize 0.
  induction ts as [|t ts IH]; intros a; [reflexivity|]. cbn [length seq map combine numbered]. rewrite IH. reflexivity.
Qed.
Lemma single_run n : well n -> exists i, single n INone = Ok (table_ok n, i) /\ tidy i /\ told_single n i.
Proof.
  unfold well, single, table_ok, must. intros W. unfold told_single, table_ok, must. destruct (kid n (L "values")) as [v|] eqn:KV.
  - destruct W as [W1 W2]. destruct (is_object v || is_list v) eqn:OL.
    + destruct (values_run v OL W1 W2) as (iv & E & T & F & TD & C). unfold finish, bindV, at_.
      change (iget INone (L "values")) with INone. rewrite E. cbn [obind fst snd]. unfold valid.
      set (b := match height_of v with Some _ => true | None => false end) in *.
      assert (T1 : tidy (iput INone (L "values") iv)) by (apply tidy_iput; [exact I|exact T|discriminate]).
      destruct (validation_ok _ b T1) as (j & -> & Tj & Fj & Oj). cbn [obind]. exists j. split; [reflexivity|]. split; [exact Tj|].
      split; [rewrite Fj; unfold upto; rewrite flag_iput by discriminate; cbn; rewrite Bool.andb_true_r; reflexivity|].
      intros v' V' _. injection V' as <-. rewrite Oj by discriminate. rewrite iget_iput_same, <- members_entries. auto.
    + assert (H : height_of v = None) by (destruct v; try discriminate OL; reflexivity). rewrite H.
      unfold finish, bindV, at_, fails, tell, ret. cbn [obind fst snd]. unfold valid.
      set (x := iput INone _ _).
      assert (T1 : tidy x).
      { unfold x. apply tidy_iput; [exact I| |discriminate]. apply error_fine. exact I. }
      destruct (validation_ok x false T1) as (j & -> & Tj & Fj & Oj). cbn [obind]. exists j. split; [reflexivity|]. split; [exact Tj|].
      split; [exact Fj|]. intros v' V' O'. injection V' as <-. congruence.
  - unfold finish, bindV, fails, tell, ret. cbn [obind fst snd]. unfold valid.
    destruct (validation_ok (log_error INone) false (proj1 (error_fine INone I))) as (j & -> & Tj & Fj & Oj). cbn [obind].
    exists j. split; [reflexivity|]. split; [exact Tj|]. split; [exact Fj|discriminate].
Qed.
Lemma each_single l : forall info, tidy info -> fresh l info -> (forall c, In c (map snd l) -> well c) ->
  exists info', each (fun e => at_ (fst e) (single (snd e))) l info = Ok (forallb table_ok (map snd l), info') /\ tidy info' /\ flag info' = flag info /\
    rest_same l info info' /\ (forall nm c, In (nm, c) l -> told_single c (iget info' nm)).
Proof.
  induction l as [|[nm c] l IH]; intros info T F W.
  - exists info. split; [reflexivity|]. split; [exact T|]. split; [reflexivity|]. split; [intros q _ _; reflexivity|intros ? ? []].
  - pose proof F as [ND F2]. destruct (F2 nm (or_introl eq_refl)) as [WN G].
    assert (NV : nm <> L "valid") by (intros ->; apply WN; cbn [In]; tauto).
    assert (NE : nm <> L "errors") by (intros ->; apply WN; cbn [In]; tauto).
    destruct (single_run c (W c (or_introl eq_refl))) as (ic & E & Tc & TS).
    unfold each. cbn [map all_ fold_right]. unfold also at 1, bindV at 1, at_ at 1. cbn [fst snd]. rewrite G, E. cbn [obind fst snd].
    set (i1 := iput info nm ic).
    assert (T1 : tidy i1) by (apply tidy_iput; [exact T|exact Tc|congruence]).
    assert (S1 : forall q, q <> nm -> q <> L "errors" -> iget i1 q = iget info q) by (intros q Q _; apply iget_iput_other, Q).
    destruct (IH i1 T1 (fresh_next _ _ _ _ _ F S1) (fun x X => W x (or_intror X))) as (i2 & E2 & T2 & F3 & S2 & TD).
    unfold each, all_ in E2. unfold bindV. rewrite E2. cbn [obind fst snd]. exists i2. split; [reflexivity|]. split; [exact T2|].
    split; [rewrite F3; apply flag_iput, NV|]. cbn [map fst] in ND. inversion ND as [|? ? ND1 ND2]; subst. split.
    + intros q Q1 Q2. cbn [map fst In] in Q1. rewrite S2, S1 by (first [congruence | intros QQ; apply Q1; (left; congruence) || (right; exact QQ)]). reflexivity.
    + intros a b [AB|AB]; [|apply TD, AB]. injection AB as <- <-. rewrite S2 by assumption. unfold i1. rewrite iget_iput_same. exact TS.
Qed.
Lemma verify_one n : well n -> given (L "values") n = true ->
  exists i, table_verify n = Ok (table_ok n, i) /\ told_single n i.
Proof.
  intros W G. unfold table_verify. change (has n (L "values")) with (given (L "values") n). rewrite G.
  destruct (single_run n W) as (i & E & _ & TS). exists i. auto.
Qed.
Lemma verify_many n : given (L "values") n = false -> named_well n -> (forall c, In c (columns_of n) -> well c) ->
  exists i, table_verify n = Ok (tables_ok n, i) /\ flag i = Some (tables_ok n) /\
    (forall nm c, In (nm, c) (entries n) -> told_single c (iget i nm)) /\
    (tables_ok n = true -> iget i (L "tables") = inum (length (columns_of n))).
Proof.
  intros G W WC. unfold table_verify. change (has n (L "values")) with (given (L "values") n). rewrite G. unfold many, bindV.
  assert (FR : fresh (members n) INone) by (apply members_fresh; [exact W|reflexivity]).
  rewrite <- members_columns in WC.
  destruct (each_single (members n) INone I FR WC) as (i & E & T & Fl & S & TD). rewrite E. cbn [obind fst snd].
  assert (TO : forallb table_ok (map snd (members n)) && negb (Nat.eqb (length (members n)) 0) = tables_ok n).
  { unfold tables_ok. rewrite G, <- members_columns. destruct (members n) as [|e l]; [reflexivity|]. cbn [length Nat.eqb negb map]. rewrite Bool.andb_true_r. reflexivity. }
  rewrite TO. unfold tell, valid. set (i1 := if tables_ok n then _ else i).
  assert (I1 : tidy i1 /\ flag i1 = flag i /\ forall q, q <> L "tables" -> iget i1 q = iget i q).
  { unfold i1. destruct (tables_ok n); [|auto]. split; [apply tidy_iput; [exact T|apply tidy_inum|discriminate]|].
    split; [apply flag_iput; discriminate|]. intros q Q. apply iget_iput_other, Q. }
  destruct I1 as (T1 & F1 & S1). destruct (validation_ok i1 (tables_ok n) T1) as (j & -> & Tj & Fj & Oj). cbn [obind].
  exists j. split; [reflexivity|]. split; [rewrite Fj; unfold upto; rewrite F1, Fl; cbn; rewrite Bool.andb_true_r; reflexivity|]. split.
  - intros nm c IN. rewrite <- members_entries in IN. assert (IK : In nm (map fst (members n))) by (apply in_map_iff; exists (nm, c); auto).
    destruct (proj2 FR nm IK) as [WN _]. cbn [In] in WN. rewrite Oj by (intros ->; tauto). rewrite S1 by (intros ->; tauto). apply TD, IN.
  - intros TR. rewrite Oj by discriminate. unfold i1. rewrite TR, iget_iput_same, <- members_columns, map_length. reflexivity.
Qed.
Lemma verify_answer n : all_well n -> exists i, table_verify n = Ok (tables_ok n, i) /\ flag i = Some (tables_ok n).
Proof.
  unfold all_well. intros W. destruct (given (L "values") n) eqn:G.
  - assert (E : tables_ok n = table_ok n) by (unfold tables_ok; rewrite G; reflexivity). rewrite E.
    destruct (verify_one n W G) as (i & A & B & _). exists i. auto.
  - destruct W as [W1 W2]. destruct (verify_many n G W1 W2) as (i & A & B & _). exists i. auto.
Qed.
Lemma all_rows_means k l : all_rows k l = true <-> Forall (fun c => rows_of c = Some k) l.
Proof.
  induction l as [|c l IH]; [split; [constructor|reflexivity]|]. cbn [all_rows]. split.
  - intros H. destruct (rows_of c) as [j|] eqn:R; [|discriminate]. apply Bool.andb_true_iff in H. destruct H as [H1 H2].
    apply Nat.eqb_eq in H1. subst j. constructor; [exact R|]. apply IH, H2.
  - intros H. inversion H as [|? ? H1 H2]; subst. rewrite H1, Nat.eqb_refl. apply IH, H2.
Qed.
Lemma height_means v k : columns_of v <> [] -> (height_of v = Some k <-> Forall (fun c => rows_of c = Some k) (columns_of v)).
Proof.
  intros N. assert (O : height_of v = match columns_of v with [] => Some 0 | c :: r => match rows_of c with Some k => if all_rows k r then Some k else None | None => None end end)
    by (destruct v; try (exfalso; apply N; reflexivity); reflexivity).
  rewrite O. destruct (columns_of v) as [|c r]; [exfalso; apply N; reflexivity|]. split.
  - intros H. destruct (rows_of c) as [j|] eqn:R; [|discriminate]. destruct (all_rows j r) eqn:A; [|discriminate]. injection H as ->.
    constructor; [exact R|]. apply all_rows_means, A.
  - intros H. inversion H as [|? ? H1 H2]; subst. rewrite H1. apply all_rows_means in H2. rewrite H2. reflexivity.
Qed.
