(** Facts about ProtocolMpi.v *)
From Coq Require Import ZArith Lia.
From Verif Require Import Base Path PathFacts MeshVerify MeshVerifySpec MeshVerifyFacts MeshVerifyDomain ProtocolSpec ProtocolMpi.
Import ListNotations.
Local Open Scope Z_scope.

Lemma ranks_run ns : (forall n, In n ns -> clean n /\ readable n = true) ->
  exists rs, on_ranks ns = Ok rs /\ Forall2 (fun n r => fst r = mesh_ok n /\ flag (snd r) = Some (mesh_ok n)) ns rs.
Proof.
  induction ns as [|n ns IH]; intros H; [exists []; split; [reflexivity|constructor]|].
  destruct (H n (or_introl eq_refl)) as [C R]. destruct (verify_ok n C R) as (i & A & B & _).
  destruct IH as (rs & E & F); [intros x X; apply H; right; exact X|]. exists ((mesh_ok n, i) :: rs).
  cbn [on_ranks]. rewrite A. cbn [obind]. rewrite E. cbn [obind]. split; [reflexivity|]. constructor; [split; [reflexivity|exact B]|exact F].
Qed.
Section Count.
Let ones (l : list bool) := fold_right Z.add 0 (map (fun b : bool => if b then 1 else 0) l).
Lemma ones_le l : 0 <= ones l <= Z.of_nat (length l).
Proof. induction l as [|b l IH]; [cbn; lia|]. unfold ones in *. cbn [map fold_right length]. destruct b; lia. Qed.
Lemma ones_all l : (ones l =? Z.of_nat (length l)) = forallb (fun b => b) l.
Proof.
  induction l as [|b l IH]; [reflexivity|]. pose proof (ones_le l) as B. cbn [forallb]. rewrite <- IH. unfold ones in *. cbn [map fold_right length].
  destruct b; cbn [andb]; rewrite Nat2Z.inj_succ.
  - destruct (Z.eqb_spec (fold_right Z.add 0 (map (fun b : bool => if b then 1 else 0) l)) (Z.of_nat (length l))) as [->|N]; [apply Z.eqb_eq; lia|apply Z.eqb_neq; lia].
  - apply Z.eqb_neq. lia.
Qed.
End Count.
Lemma parallel ns p : p = L "mesh" \/ (exists r, p = L "mesh/" ++ r) -> (forall n, In n ns -> clean n /\ readable n = true) ->
  exists is, mpi_verify p ns = Ok (forallb mesh_ok ns, is) /\ Forall2 (fun n i => flag i = Some (mesh_ok n)) ns is.
Proof.
  intros P H. assert (E : mpi_verify p ns = mpi_mesh_verify ns).
  { unfold mpi_verify. destruct P as [->|[r ->]]; [reflexivity|]. change (L "mesh/" ++ r) with (L "mesh" ++ slash :: r).
    rewrite split_path_app by (cbn; intuition discriminate). reflexivity. }
  rewrite E. destruct (ranks_run ns H) as (rs & R & F). unfold mpi_mesh_verify. rewrite R. cbn [obind]. exists (map snd rs).
  assert (A : map fst rs = map mesh_ok ns) by (clear - F; induction F as [|n r ns' rs' [X _] F IH]; [reflexivity|]; cbn [map]; rewrite X, IH; reflexivity).
  assert (LN : length ns = length (map fst rs)) by (rewrite A, map_length; reflexivity).
  rewrite <- (map_map fst (fun b : bool => if b then 1 else 0)), LN, ones_all, A. split.
  - f_equal. f_equal. clear. induction ns as [|n ns IH]; [reflexivity|]. cbn [map forallb]. rewrite IH. reflexivity.
  - clear - F. induction F as [|n r ns' rs' [_ X] F IH]; constructor; assumption.
Qed.
Lemma parallel_other p ns : ~ In slash p -> p <> L "mesh" -> forall r,
  mpi_verify p ns = Ok (false, map (fun _ => INone) ns) /\ mpi_verify (p ++ slash :: r) ns = Ok (false, map (fun _ => INone) ns).
Proof.
  intros S N r. unfold mpi_verify. rewrite split_path_none, split_path_app by exact S.
  destruct (str_eqb_spec p (L "mesh")) as [E|_]; [contradiction|]. split; reflexivity.
Qed.
