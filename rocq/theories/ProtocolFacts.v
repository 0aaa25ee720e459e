(** Facts about Protocol.v *)
From Coq Require Import ZArith Lia.
From Verif Require Import Base DType Number Path PathFacts MeshVerify MeshVerifySpec MeshVerifyFacts MeshVerifyParts MeshVerifySets MeshVerifyDomain MeshIndex MeshIndexSpec MeshIndexFacts TableVerify Protocol ProtocolSpec.
From Verif Require TableVerifySpec TableVerifyFacts.
Import ListNotations.

Definition answers (o : outcome (bool * itree)) (b : bool) : Prop := exists i, o = Ok (b, i) /\ flag i = Some b.
Lemma zfp_run n i : answers (zfparray n i) (zfp_ok n).
Proof.
  unfold zfparray. apply part_run. eapply ok_eq.
  - apply ok_all_cons; [apply keeps_ok, keeps_test|]. apply ok_all_cons; [|apply ok_all_cons; [|apply ok_all_nil]]; apply keeps_ok.
    + instantiate (1 := must (L "zfp_header") (of_types [UINT8]) n). unfold must. destruct (kid n (L "zfp_header")) as [h|]; [|apply keeps_fails].
      eapply keeps_eq; [apply keeps_test|]. destruct h as [| | | |t vs]; try reflexivity; destruct t; reflexivity.
    + instantiate (1 := must (L "zfp_compressed_data") (of_types [UINT8; UINT16; UINT32; UINT64]) n). unfold must. destruct (kid n (L "zfp_compressed_data")) as [h|]; [|apply keeps_fails].
      eapply keeps_eq; [apply keeps_test|]. destruct h as [| | | |t vs]; try reflexivity; destruct t; reflexivity.
  - unfold zfp_ok. rewrite Bool.andb_true_r. destruct n; reflexivity.
Qed.
Lemma o2m_run n : answers (o2m n INone) (relation n).
Proof.
  assert (E : reset (o2m n) INone = o2m n INone) by reflexivity. 
  pose proof (ok_o2m n) as H. destruct (H INone I) as (i & A & T & U). exists i. split; [exact A|].
  unfold o2m, finish, bindV in A. destruct (all_ _ INone) as [[b j]| | |] eqn:Q in A; cbn [obind fst snd] in A; try discriminate.
  unfold valid, validation in A. destruct (mget (ikids j) (L "valid")) as [[| |x|]|] eqn:G; cbn [obind] in A; try discriminate; injection A as A1 A2; subst b i.
  - unfold flag, iput. cbn [ikids]. rewrite mget_mset_same. destruct (relation n); [|reflexivity].
    specialize (U eq_refl eq_refl). unfold upto, flag, iput in U. cbn [ikids] in U. rewrite mget_mset_same in U. cbn [andb] in *. rewrite U. reflexivity.
  - unfold flag, iput. cbn [ikids]. rewrite mget_mset_same. reflexivity.
Qed.
Lemma answer p g n : In (p, g) protocols -> fit p n -> answers (protocol_verify p n) (g n).
Proof.
  intros H (C & F1 & F2 & F3 & F4). unfold protocols, tops, subs in H. cbn [map app fst snd In] in H.
  repeat (destruct H as [H|H]; [injection H as <- <-; unfold answers|]); try contradiction.
  - change (protocol_verify (L "mesh") n) with (mesh_verify n). destruct (verify_ok n C (F1 eq_refl)) as (i & A & B & _). exists i. auto.
  - change (protocol_verify (L "mcarray") n) with (mcarray n INone). destruct (TableVerifyFacts.mc_run n INone) as (i & A & _ & B). exists i. auto.
  - change (protocol_verify (L "table") n) with (table_verify n). exact (TableVerifyFacts.verify_answer n (F4 eq_refl)).
  - exact (o2m_run n).
  - exact (zfp_run n INone).
  - exact (coordset_run n INone).
  - exact (topology_run n INone C (F2 eq_refl)).
  - exact (matset_run n INone C).
  - exact (specset_run n INone C (F3 eq_refl)).
  - exact (field_run n INone).
  - exact (adjset_run n INone C).
  - exact (nestset_run n INone C).
  - change (protocol_verify _ n) with (index_verify n). destruct (index_report n C) as (i & A & B & _). exists i. auto.
  - exact (part_run _ _ (ok_coordset_entry n) INone).
  - exact (part_run _ _ (ok_topology_entry n) INone).
  - exact (part_run _ _ (ok_matset_entry n) INone).
  - exact (part_run _ _ (ok_specset_entry n) INone).
  - exact (part_run _ _ (ok_field_entry n) INone).
  - exact (part_run _ _ (ok_meeting_entry n) INone).
  - exact (part_run _ _ (ok_meeting_entry n) INone).
Qed.
Lemma not_eqb {B} a (l : list (str * B)) k g : mget l a = None -> In (k, g) l -> str_eqb a k = false.
Proof.
  intros H I. destruct (str_eqb_spec a k) as [->|]; [|reflexivity]. exfalso. induction l as [|[k' g'] l IH]; [exact I|].
  cbn [mget] in H. destruct (str_eqb_spec k k') as [->|N]; [discriminate|]. destruct I as [E|I]; [injection E as <- <-; apply N; reflexivity|exact (IH H I)].
Qed.
Ltac notin H := repeat (erewrite (not_eqb _ _ _ _ H) by (cbn; repeat (first [left; reflexivity | right]))).
Lemma unknown a r n : ~ In slash a -> mget tops a = None -> protocol_verify a n = Err /\ protocol_verify (a ++ slash :: r) n = Err.
Proof.
  intros S H. unfold protocol_verify. rewrite split_path_none, split_path_app by exact S. notin H. destruct r; auto.
Qed.
Lemma nested_none a g r n : In (a, g) tops -> a <> L "mesh" -> r <> [] -> answers (protocol_verify (a ++ slash :: r) n) false.
Proof.
  intros H N R. unfold tops in H. cbn [In] in H.
  repeat (destruct H as [H|H]; [injection H as <- <-; try (exfalso; apply N; reflexivity)|]); try contradiction;
  unfold protocol_verify; rewrite split_path_app by (cbn; intuition discriminate); (destruct r; [exfalso; apply R; reflexivity|]);
  eexists; split; reflexivity.
Qed.
Lemma nested_mesh r n : mget subs r = None -> r <> [] -> exists i, protocol_verify (L "mesh" ++ slash :: r) n = Ok (false, i).
Proof.
  intros H R. exists INone. unfold protocol_verify. rewrite split_path_app by (cbn; intuition discriminate).
  destruct r as [|x r]; [exfalso; apply R; reflexivity|]. change (str_eqb (L "mesh") (L "mesh")) with true. cbv iota.
  unfold mesh_protocol. notin H. reflexivity.
Qed.
Lemma last_slash a n : ~ In slash a -> protocol_verify (a ++ [slash]) n = protocol_verify a n.
Proof. intros S. unfold protocol_verify. rewrite (split_path_app a []), split_path_none by exact S. reflexivity. Qed.
