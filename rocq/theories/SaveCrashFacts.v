(** Facts about SaveCrash.v *)
From Verif Require Import Base DType Path SpecTree Schema Codec Mem MemFacts Node Json JsonSpec SpecNode NodeSet
  NodeAlloc SchemaInv Save SaveFacts SaveCrash.

Lemma growing_in fs name bytes x : In x (growing fs name bytes) -> exists k, x = mset fs name (firstn k bytes).
Proof. intros I. apply in_map_iff in I. destruct I as (k & <- & _). exists k. reflexivity. Qed.
Lemma growing_last fs name bytes d : last (growing fs name bytes) d = mset fs name bytes.
Proof.
  unfold growing. rewrite seq_S, map_app. cbn [map plus]. rewrite last_last. rewrite firstn_all. reflexivity.
Qed.
Lemma last_app_r {A} (l1 l2 : list A) d : l2 <> [] -> last (l1 ++ l2) d = last l2 d.
Proof.
  intros N. destruct (exists_last N) as (l & x & ->). rewrite app_assoc, !last_last. reflexivity.
Qed.
Lemma crash_ok mach m fs src base m1 fs1 : nsave mach m fs src base = Ok (m1, fs1) ->
  exists l, nsave_crash mach m fs src base = Ok l /\ hd_error l = Some fs /\ last l fs = fs1 /\
    forall x, In x l ->
      (forall name, name <> base -> name <> base ++ L "_json" -> mget x name = mget fs name) /\
      (mget x base = mget fs base \/ mget x (base ++ L "_json") = mget fs1 (base ++ L "_json")).
Proof.
  unfold nsave, nsave_crash. intros H.
  destruct (ncompact_to m src nempty) as [[m0 r]| | |]; try discriminate H. cbn [obind] in *.
  destruct (nstream m0 r) as [bytes| | |]; try discriminate H. cbn [obind] in *.
  destruct (nfree m0 r) as [m2| | |]; try discriminate H. cbn [obind] in *.
  injection H as <- <-. set (text := to_json mach (schema_of_tree (nschema r))).
  eexists. split; [reflexivity|]. split; [reflexivity|]. split.
  { match goal with |- last (fs :: ?a ++ ?b) fs = _ => change (fs :: a ++ b) with ((fs :: a) ++ b) end.
    rewrite last_app_r by (unfold growing; discriminate). apply growing_last. }
  assert (SB : base <> schema_file base) by (intros E; symmetry in E; revert E; apply schema_file_ne).
  fold (schema_file base).
  intros x [<-|I].
  - split; [reflexivity|left; reflexivity].
  - apply in_app_iff in I. destruct I as [I|I]; apply growing_in in I; destruct I as (k & ->).
    + split; [intros name N1 N2; apply mget_mset_other; exact N2|].
      left. apply mget_mset_other. exact SB.
    + split.
      * intros name N1 N2. rewrite !mget_mset_other by assumption. reflexivity.
      * right. assert (BS : schema_file base <> base) by apply schema_file_ne.
        rewrite (mget_mset_other _ base (schema_file base) _ BS), (mget_mset_other _ base (schema_file base) _ BS). reflexivity.
Qed.
