(** Path facts on hierarchies: frame of fetch, path() of a node, Node's walk. *)
From Verif Require Import Base DType Path SpecTree Schema NodePath PathFacts SchemaInv SchemaRefine.
Local Open Scope nat_scope.

(** ---- frame of tensure ---- *)
Lemma mset_mget_id {V} (d : list (str * V)) k v : mget d k = Some v -> mset d k v = d.
Proof.
  induction d as [|[x w] d IH]; simpl; [discriminate|].
  destruct (str_eqb_spec k x) as [->|N]; [congruence|]. intros H. rewrite IH by exact H. reflexivity.
Qed.
Lemma tensure_existing {A} (e : A) cs : forall t u, tlookup t cs = Some u -> tensure e t cs = t.
Proof.
  induction cs as [|c cs IH]; intros t u H; [reflexivity|].
  destruct t as [a|es|ts]; simpl in H; try discriminate.
  destruct (mget es c) as [w|] eqn:M; [|discriminate].
  cbn [tensure tentries]. rewrite M, (IH w u H), mset_mget_id by exact M. reflexivity.
Qed.
Lemma tlookup_leaf {A} (e : A) cs : cs <> [] -> tlookup (TLeaf e) cs = None.
Proof. destruct cs; [congruence|reflexivity]. Qed.
Lemma tensure_target {A} (e : A) cs : forall t, cs <> [] ->
  tlookup (tensure e t cs) cs = Some (match tlookup t cs with Some u => u | None => TLeaf e end).
Proof.
  induction cs as [|c cs IH]; intros t H; [congruence|].
  cbn [tensure tlookup]. rewrite mget_mset_same.
  assert (E : match t with
              | TObj es => match mget es c with Some t' => tlookup t' cs | None => None end
              | _ => None end =
              match mget (tentries t) c with Some t' => tlookup t' cs | None => None end)
    by (destruct t; reflexivity).
  rewrite E. destruct cs as [|d cs].
  - simpl. destruct (mget (tentries t) c); reflexivity.
  - rewrite IH by discriminate. destruct (mget (tentries t) c); [reflexivity|].
    reflexivity.
Qed.
Lemma tensure_frame {A} (e : A) cs : forall t ds u,
  tlookup t ds = Some u -> ~ sprefix ds cs -> tlookup (tensure e t cs) ds = Some u.
Proof.
  induction cs as [|c cs IH]; intros t ds u H NP; [exact H|].
  destruct ds as [|d ds]; [exfalso; apply NP; exists (c :: cs); reflexivity|].
  destruct t as [a|es|ts]; simpl in H; try discriminate.
  cbn [tensure tentries tlookup]. destruct (mget es d) as [w|] eqn:M; [|discriminate].
  rewrite mget_mset. destruct (str_eqb_spec d c) as [->|N].
  - rewrite M. apply IH; [exact H|]. intros [r E]. apply NP. exists r. simpl. congruence.
  - rewrite M. exact H.
Qed.

(** Names: a path of plain names determines the position. *)
Lemma fetch_existing_names cs : forall f root p t q,
  wf root -> get_at root p = Some t -> Forall plain cs -> cs <> [] ->
  length (path_of cs) < f -> tnames (abs t) q = Some cs ->
  fetch_existing_f f root p (path_of cs) = Ok (p ++ q).
Proof.
  induction cs as [|c cs IH]; intros f root p t q W G Hp Hne Hf T; [congruence|].
  destruct f as [|f]; [lia|].
  destruct q as [|i q]; [discriminate|].
  pose proof (split_path_of c cs Hp) as Hs.
  inversion Hp as [|? ? Hc Hcs]; subst. destruct Hc as (Hc0 & Hc1 & Hc2).
  pose proof (wf_get_at p root t W G) as Wt.
  assert (Dd : str_eqb c dotdot = false) by (apply str_eqb_neq; exact Hc2).
  cbn [fetch_existing_f]. rewrite G. cbn [deref obind].
  destruct Wt as [d Hd|m o ks Ho Hk|ks Hk]; cbn [tnames abs] in T; try discriminate.
  rewrite Hs, Dd. cbn [child_index].
  rewrite nth_error_combine in T.
  destruct (nth_error o i) as [k0|] eqn:No; [|discriminate].
  rewrite nth_error_map in T.
  destruct (nth_error ks i) as [k|] eqn:Nk; simpl in T; [|discriminate].
  destruct (tnames (abs k) q) as [cs'|] eqn:Tk; simpl in T; [|discriminate].
  injection T as -> ->.
  assert (M : mget m c = Some (Z.of_nat i)).
  { apply Ho. split; [lia|]. rewrite Nat2Z.id. exact No. }
  rewrite M. cbn [obind]. rewrite Nat2Z.id.
  assert (G1 : get_at root (p ++ [i]) = Some k).
  { rewrite get_at_app, G. simpl. rewrite Nk. reflexivity. }
  destruct cs as [|d cs].
  - cbn [path_of]. rewrite G1. destruct q as [|j q]; [reflexivity|].
    exfalso. destruct k as [dd|mm oo kk|kk]; cbn in Tk; try discriminate.
    destruct (nth_error (combine oo (map abs kk)) j) as [[? ?]|]; [|discriminate].
    destruct (tnames t q); discriminate.
  - pose proof (path_of_nonempty (d :: cs) Hcs ltac:(discriminate)) as PE.
    rewrite (match_nonnil (path_of (d :: cs))) by exact PE.
    assert (Lf : length (path_of (d :: cs)) < f).
    { pose proof (split_path_len _ _ _ Hs) as [_ X]. specialize (X PE). lia. }
    rewrite (IH f root (p ++ [i]) k q W G1 Hcs ltac:(discriminate) Lf Tk).
    rewrite <- app_assoc. reflexivity.
Qed.

Lemma tnames_app {A} p : forall (t u : tree A) q cs,
  tnames t p = Some cs -> tget t p = Some u ->
  tnames t (p ++ q) = option_map (fun ds => cs ++ ds) (tnames u q).
Proof.
  induction p as [|i p IH]; intros t u q cs T G.
  - injection T as <-. injection G as <-. simpl. destruct (tnames t q); reflexivity.
  - cbn [app tnames tget] in *. destruct t as [a|es|ts]; try discriminate. simpl in G.
    rewrite nth_error_map in G. destruct (nth_error es i) as [[k w]|]; [|discriminate].
    simpl in G. destruct (tnames w p) as [cs'|] eqn:Tw; [|discriminate]. injection T as <-.
    rewrite (IH w u q cs' Tw G). destruct (tnames u q); reflexivity.
Qed.

Lemma tnames_get {A} p : forall (t : tree A) cs, tnames t p = Some cs -> exists u, tget t p = Some u.
Proof.
  induction p as [|i p IH]; intros t cs T; [eexists; reflexivity|].
  cbn [tnames tget] in *. destruct t as [a|es|ts]; try discriminate. simpl.
  rewrite nth_error_map. destruct (nth_error es i) as [[k w]|]; [|discriminate]. simpl.
  destruct (tnames w p) as [cs'|] eqn:Tw; [|discriminate]. eapply IH; eauto.
Qed.
Lemma tnames_prefix {A} p : forall (t : tree A) q cs,
  tnames t (p ++ q) = Some cs -> exists ds, tnames t p = Some ds.
Proof.
  induction p as [|i p IH]; intros t q cs T; [eexists; reflexivity|].
  cbn [app tnames] in *. destruct t as [a|es|ts]; try discriminate.
  destruct (nth_error es i) as [[k w]|]; [|discriminate].
  destruct (tnames w (p ++ q)) as [cs'|] eqn:Tw; [|discriminate].
  destruct (IH w q cs' Tw) as [ds ->]. eexists; reflexivity.
Qed.

Lemma path_of_snoc cs c : cs <> [] -> path_of (cs ++ [c]) = path_of cs ++ slash :: c.
Proof.
  induction cs as [|x cs IH]; intros H; [congruence|].
  destruct cs as [|y cs]; [reflexivity|].
  change ((x :: y :: cs) ++ [c]) with (x :: (y :: cs) ++ [c]).
  rewrite path_of_cons by (destruct cs; discriminate).
  rewrite IH by discriminate. rewrite (path_of_cons x (y :: cs)) by discriminate.
  rewrite <- app_assoc. reflexivity.
Qed.

Lemma has_slash_false k : ~ In slash k -> has_slash k = false.
Proof.
  intros H. unfold has_slash. destruct (existsb _ k) eqn:E; [|reflexivity]. exfalso.
  apply existsb_exists in E. destruct E as (c & I & Q). destruct (ascii_dec c slash); [congruence|discriminate].
Qed.

Lemma s_path_names p : forall root cs,
  wf root -> tnames (abs root) p = Some cs -> Forall plain cs -> s_path root p = path_of cs.
Proof.
  unfold s_path.
  induction p as [|i p IH] using rev_ind; intros root cs W T Hp.
  - injection T as <-. reflexivity.
  - rewrite app_length. simpl. rewrite Nat.add_1_r. cbn [s_path_f].
    destruct (tnames_prefix p (abs root) [i] cs T) as [ds Td].
    destruct (tnames_get p (abs root) ds Td) as [u Gu].
    rewrite (tnames_app p (abs root) u [i] ds Td Gu) in T.
    rewrite get_at_abs in Gu by exact W.
    destruct (get_at root p) as [s|] eqn:G; [|discriminate]. injection Gu as <-.
    pose proof (wf_get_at p root s W G) as Ws.
    destruct Ws as [d Hd|m o ks Ho Hk|ks Hk]; cbn [tnames abs] in T; try discriminate.
    rewrite nth_error_combine in T.
    destruct (nth_error o i) as [k0|] eqn:No; [|discriminate].
    rewrite nth_error_map in T. destruct (nth_error ks i) as [k|] eqn:Nk; simpl in T; [|discriminate].
    injection T as <-. apply Forall_app in Hp. destruct Hp as [Hds Hk0]. inversion Hk0; subst.
    destruct H1 as (K0 & K1 & K2).
    assert (Nm : s_name root (p ++ [i]) = k0).
    { unfold s_name. rewrite removelast_last, last_last, G. cbn [child_name].
      unfold znth. replace (Z.of_nat i <? 0)%Z with false by lia.
      rewrite Nat2Z.id, No. rewrite has_slash_false by exact K1.
      destruct p; reflexivity. }
    rewrite (match_nonnil (p ++ [i])) by (destruct p; discriminate).
    rewrite removelast_last, Nm, (IH root ds W Td Hds).
    destruct ds as [|d ds].
    + reflexivity.
    + pose proof (path_of_nonempty (d :: ds) Hds ltac:(discriminate)) as PE.
      rewrite path_of_snoc by discriminate.
      destruct (path_of (d :: ds)); [congruence|reflexivity].
Qed.

(** ---- Node::fetch_existing ---- *)
Lemma written_nonempty cs p : written cs p -> cs <> [].
Proof. induction 1; congruence. Qed.
Lemma nfetch_written cs path : written cs path -> forall f root p t,
  wf root -> get_at root p = Some t -> Forall plain cs ->
  length path < f ->
  match tlookup (abs t) cs with
  | Some u => exists q k, nfetch_existing_f f root p path = Ok (p ++ q) /\
                          get_at t q = Some k /\ abs k = u
  | None => nfetch_existing_f f root p path = Err
  end.
Proof.
  assert (Step : forall c n cs f root p t m o ks,
    t = SObj m o ks -> wf root -> get_at root p = Some t -> plain c ->
    (forall k i, get_at root (p ++ [i]) = Some k ->
      match tlookup (abs k) cs with
      | Some u => exists q kk, match n with [] => Ok (p ++ [i]) | _ => nfetch_existing_f f root (p ++ [i]) n end
                                = Ok ((p ++ [i]) ++ q) /\ get_at k q = Some kk /\ abs kk = u
      | None => match n with [] => Ok (p ++ [i]) | _ => nfetch_existing_f f root (p ++ [i]) n end = Err
      end) ->
    match tlookup (abs t) (c :: cs) with
    | Some u => exists q k,
        match mget m c with
        | None => Err
        | Some i => match n with
                    | [] => match znth ks i with Some _ => Ok (p ++ [Z.to_nat i]) | None => UB end
                    | _ => nfetch_existing_f f root (p ++ [Z.to_nat i]) n end
        end = Ok (p ++ q) /\ get_at t q = Some k /\ abs k = u
    | None => match mget m c with
        | None => Err
        | Some i => match n with
                    | [] => match znth ks i with Some _ => Ok (p ++ [Z.to_nat i]) | None => UB end
                    | _ => nfetch_existing_f f root (p ++ [Z.to_nat i]) n end
        end = Err
    end).
  { intros c n cs0 f root p t m o ks -> W G Hc Next.
    pose proof (wf_get_at p root _ W G) as Wt. inversion Wt as [|? ? ? Ho Hk|]; subst.
    cbn [tlookup abs]. rewrite (abs_entries_lookup m) by exact Ho.
    destruct (mget m c) as [i|] eqn:M; [|reflexivity].
    destruct (obj_ok_znth m o ks c i Ho M) as (k & Hk1 & Hk2 & _). rewrite Hk1. cbn [option_map].
    assert (G1 : get_at root (p ++ [Z.to_nat i]) = Some k).
    { rewrite get_at_app, G. simpl. rewrite Hk2. reflexivity. }
    specialize (Next k (Z.to_nat i) G1).
    destruct (tlookup (abs k) cs0) as [u|].
    - destruct Next as (q & kk & E & Gq & A). exists (Z.to_nat i :: q), kk.
      split; [|split; [simpl; rewrite Hk2; exact Gq|exact A]].
      rewrite E, <- app_assoc. reflexivity.
    - exact Next. }
  assert (NotObj : forall t c cs, (forall m o ks, t <> SObj m o ks) -> tlookup (abs t) (c :: cs) = None).
  { intros t c cs0 H. destruct t; try reflexivity. exfalso. eapply H; reflexivity. }
  induction 1 as [c|c|c cs p' H IH|cs p' H IH]; intros f root p t W G Hp Hf;
    (destruct f as [|f]; [lia|]); cbn [nfetch_existing_f]; rewrite G; cbn [deref obind].
  - inversion Hp as [|? ? Hc _]; subst. pose proof Hc as (Hc0 & Hc1 & Hc2).
    destruct t as [d|m o ks|ks]; [reflexivity| |reflexivity].
    rewrite split_path_none by exact Hc1.
    destruct c as [|a c]; [congruence|].
    rewrite (proj2 (str_eqb_neq (a :: c) dotdot) Hc2).
    apply (Step (a :: c) [] [] f root p _ m o ks eq_refl W G Hc).
    intros k i _. cbn [tlookup]. exists [], k. rewrite app_nil_r. auto.
  - inversion Hp as [|? ? Hc _]; subst. pose proof Hc as (Hc0 & Hc1 & Hc2).
    destruct t as [d|m o ks|ks]; [reflexivity| |reflexivity].
    rewrite split_path_app by exact Hc1.
    destruct c as [|a c]; [congruence|].
    rewrite (proj2 (str_eqb_neq (a :: c) dotdot) Hc2).
    apply (Step (a :: c) [] [] f root p _ m o ks eq_refl W G Hc).
    intros k i _. cbn [tlookup]. exists [], k. rewrite app_nil_r. auto.
  - inversion Hp as [|? ? Hc Hcs]; subst. pose proof Hc as (Hc0 & Hc1 & Hc2).
    destruct t as [d|m o ks|ks]; [reflexivity| |reflexivity].
    rewrite split_path_app by exact Hc1.
    assert (NE : p' <> []).
    { intros E. destruct H; try discriminate E; try (destruct c0; discriminate E).
      subst. inversion Hcs; subst. destruct H1; congruence. }
    destruct c as [|a c]; [congruence|].
    rewrite (proj2 (str_eqb_neq (a :: c) dotdot) Hc2).
    apply (Step (a :: c) p' cs f root p _ m o ks eq_refl W G Hc).
    intros k i G1.
    assert (Lf : length p' < f) by (simpl in Hf; rewrite app_length in Hf; simpl in Hf; lia).
    specialize (IH f root (p ++ [i]) k W G1 Hcs Lf).
    destruct p' as [|b p']; [congruence|]. exact IH.
  - assert (Ss : split_path (slash :: p') = ([], p')) by (apply (split_path_app [] p'); intros []).
    destruct t as [d|m o ks|ks].
    + pose proof (written_nonempty _ _ H). destruct cs; [congruence|reflexivity].
    + change ("/"%char) with slash. rewrite Ss. apply IH; auto. simpl in Hf; lia.
    + pose proof (written_nonempty _ _ H). destruct cs; [congruence|reflexivity].
Qed.

(** The walk never comes back from an empty remainder. *)
Lemma nfetch_empty_loops f : forall root p m o ks,
  get_at root p = Some (SObj m o ks) -> nfetch_existing_f f root p [] = Fuel.
Proof.
  induction f as [|f IH]; intros root p m o ks G; [reflexivity|].
  cbn [nfetch_existing_f]. rewrite G. cbn [deref obind]. exact (IH root p m o ks G).
Qed.

(** ---- fetch again ---- *)
Lemma fetch_existing_then_fetch cs : forall f root p t q,
  wf root -> get_at root p = Some t -> Forall plain cs -> cs <> [] ->
  length (path_of cs) < f ->
  fetch_existing_f f root p (path_of cs) = Ok q ->
  fetch_f f root p (path_of cs) = Ok (root, q).
Proof.
  induction cs as [|c cs IH]; intros f root p t q W G Hp Hne Hf E; [congruence|].
  destruct f as [|f]; [lia|].
  pose proof (split_path_of c cs Hp) as Hs.
  inversion Hp as [|? ? Hc Hcs]; subst. destruct Hc as (Hc0 & Hc1 & Hc2).
  pose proof (wf_get_at p root t W G) as Wt.
  assert (Dd : str_eqb c dotdot = false) by (apply str_eqb_neq; exact Hc2).
  cbn [fetch_existing_f] in E. cbn [fetch_f]. rewrite G in *. cbn [deref obind] in *.
  destruct Wt as [d Hd|m o ks Ho Hk|ks Hk]; try discriminate.
  rewrite Hs, Dd in *. cbn [andb init_object]. cbn [child_index] in E.
  destruct (mget m c) as [i|] eqn:M; cbn [obind] in E; [|discriminate].
  destruct (obj_ok_znth m o ks c i Ho M) as (k & Hk1 & Hk2 & _).
  assert (Fc : fetch_child root p (SObj m o ks) c = Ok (root, p ++ [Z.to_nat i])).
  { unfold fetch_child. rewrite has_path_component; [|constructor; auto|exact Hc1].
    cbn [has_child]. rewrite M. cbn [obind]. rewrite (put_get p root (SObj m o ks)) by exact G.
    cbn [deref obind child_index]. rewrite M. cbn [obind s_kids]. rewrite Hk1. reflexivity. }
  rewrite Fc. cbn [obind].
  assert (G1 : get_at root (p ++ [Z.to_nat i]) = Some k).
  { rewrite get_at_app, G. simpl. rewrite Hk2. reflexivity. }
  destruct cs as [|d cs].
  - cbn [path_of] in *. rewrite G1 in E. injection E as <-. reflexivity.
  - pose proof (path_of_nonempty (d :: cs) Hcs ltac:(discriminate)) as PE.
    rewrite (match_nonnil (path_of (d :: cs))) in E by exact PE.
    rewrite (match_nonnil (path_of (d :: cs))) by exact PE.
    assert (Lf : length (path_of (d :: cs)) < f).
    { pose proof (split_path_len _ _ _ Hs) as [_ X]. specialize (X PE). lia. }
    eapply IH; eauto. discriminate.
Qed.
