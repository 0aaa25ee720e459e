(** C51: looking up points by position. *)
From Coq Require Import Permutation QArith Floats.SpecFloat.
From Verif Require Import Base DType SpecTree Mem Node Number ArrayOps O2M MeshConv MeshConvFacts KdTree KdTreeFacts.
Local Open Scope Z_scope.
Import ListNotations.

(** with exact arithmetic, for every set of points: the tree is built without fault, its
    order names every point once; a point that is found is one of the set and closer than
    the tolerance; every point of the set is found *)
Theorem C51_tree sort levels coords len tol2 : sorts sort -> (0 < len)%nat -> (0 < length coords)%nat -> Forall (fun c => (len <= length c)%nat) coords -> (0 < tol2)%Q ->
  exists t, initialize exact sort levels coords len = Ok t /\ Permutation (zseq (Z.of_nat len)) (t_index t) /\
    (forall pt, length pt = length coords ->
       find_point exact coords tol2 t pt = Ok None \/ exists j, find_point exact coords tol2 t pt = Ok (Some j) /\ 0 <= j < Z.of_nat len /\ (dist2 exact coords pt j < tol2)%Q) /\
    (forall j pt, 0 <= j < Z.of_nat len -> point coords j = map Some pt -> exists i, find_point exact coords tol2 t pt = Ok (Some i)).
Proof. exact (kd_exact sort levels coords len tol2). Qed.
Print Assumptions C51_tree.
(** the same with IEEE arithmetic of any precision for finite coordinates, if the boxes have
    no NaN bounds and the outer one holds all points *)
Theorem C51_tree_float prec emax sort levels coords len tol2 : sorts sort -> (0 < len)%nat -> (0 < length coords)%nat -> Forall (fun c => (len <= length c)%nat) coords ->
  Forall (fun c => Forall finite (firstn len c)) coords -> Forall (box_num number) (cuts (ieee prec emax) (levels len) (extents (ieee prec emax) coords len)) -> inside (ieee prec emax) coords len ->
  SFltb (S754_zero false) tol2 = true ->
  exists t, initialize (ieee prec emax) sort levels coords len = Ok t /\ Permutation (zseq (Z.of_nat len)) (t_index t) /\
    (forall pt, length pt = length coords -> Forall number pt ->
       find_point (ieee prec emax) coords tol2 t pt = Ok None \/ exists j, find_point (ieee prec emax) coords tol2 t pt = Ok (Some j) /\ 0 <= j < Z.of_nat len /\ SFltb (dist2 (ieee prec emax) coords pt j) tol2 = true) /\
    (forall j pt, 0 <= j < Z.of_nat len -> point coords j = map Some pt -> exists i, find_point (ieee prec emax) coords tol2 t pt = Ok (Some i)).
Proof. exact (kd_float prec emax sort levels coords len tol2). Qed.
Print Assumptions C51_tree_float.
(** the search without a tree gives the first point closer than the tolerance, if any *)
Theorem C51_search {F} (ar : arith F) coords len tol2 pt :
  match search ar coords len tol2 pt with
  | Some j => 0 <= j < Z.of_nat len /\ lt ar (dist2_n ar coords pt j) tol2 = true /\ forall i, 0 <= i < j -> lt ar (dist2_n ar coords pt i) tol2 = false
  | None => forall i, 0 <= i < Z.of_nat len -> lt ar (dist2_n ar coords pt i) tol2 = false
  end.
Proof. exact (search_law ar coords len tol2 pt). Qed.
Print Assumptions C51_search.

(** floor of the binary logarithm *)
Definition log2 (n : nat) : nat := Nat.log2 n.
(** a float, and a double, with the given integer value *)
Definition f32 (n : positive) : spec_float := binary_normalize 24 128 (Zpos n) 0 false.
Definition f64 (n : positive) : spec_float := binary_normalize 53 1024 (Zpos n) 0 false.
Definition float_tol2 : spec_float := SFmul 24 128 (tolerance 24 128) (tolerance 24 128).
Definition double_tol2 : spec_float := SFmul 53 1024 (tolerance 53 1024) (tolerance 53 1024).
(** single precision, all points in the plane y = 1: none of them is found, because widening
    the box by 1e-9 has no effect and its upper bound is excluded *)
Definition plane : list (list spec_float) := [map f32 [1; 2; 3; 4]%positive; map f32 [1; 1; 1; 1]%positive].
Theorem C51_plane_refuted : SFltb (S754_zero false) float_tol2 = true /\ forall j, 0 <= j < 4 -> exists pt, point plane j = map Some pt /\
  lookup (ieee 24 128) isort log2 plane 4 float_tol2 pt = Ok None /\ search (ieee 24 128) plane 4 float_tol2 pt = Some j.
Proof.
  split; [vm_compute; reflexivity|]. intros j H. assert (C : j = 0 \/ j = 1 \/ j = 2 \/ j = 3) by lia.
  destruct C as [->|[->|[->| ->]]]; [exists [f32 1; f32 1]|exists [f32 2; f32 1]|exists [f32 3; f32 1]|exists [f32 4; f32 1]]; (split; [reflexivity|]); split; vm_compute; reflexivity.
Qed.
Print Assumptions C51_plane_refuted.
(** double precision, y = 100000000 *)
Definition plane64 : list (list spec_float) := [map f64 [1; 2; 3; 4]%positive; map f64 [100000000; 100000000; 100000000; 100000000]%positive].
Theorem C51_plane_double_refuted : SFltb (S754_zero false) double_tol2 = true /\ forall j, 0 <= j < 4 -> exists pt, point plane64 j = map Some pt /\
  lookup (ieee 53 1024) isort log2 plane64 4 double_tol2 pt = Ok None /\ search (ieee 53 1024) plane64 4 double_tol2 pt = Some j.
Proof.
  split; [vm_compute; reflexivity|]. intros j H. assert (C : j = 0 \/ j = 1 \/ j = 2 \/ j = 3) by lia.
  destruct C as [->|[->|[->| ->]]]; [exists [f64 1; f64 100000000]|exists [f64 2; f64 100000000]|exists [f64 3; f64 100000000]|exists [f64 4; f64 100000000]]; (split; [reflexivity|]); split; vm_compute; reflexivity.
Qed.
Print Assumptions C51_plane_double_refuted.
(** exact arithmetic, a point closer than the tolerance to point 4 but on the other side of
    the first cut: found without a tree, not found with it *)
Definition row : list (list Q) := [[0; 10; 2; 8; 49999999999 # 10000000000]; [0; 0; 0; 0; 0]]%Q.
Theorem C51_near_refuted : exists pt, (dist2 exact row pt 4 < 1 # 1000000000000000000)%Q /\
  search exact row 5 (1 # 1000000000000000000) pt = Some 4 /\ lookup exact isort log2 row 5 (1 # 1000000000000000000) pt = Ok None.
Proof. exists [50000000001 # 10000000000; 0]%Q. split; [vm_compute; reflexivity|]. split; vm_compute; reflexivity. Qed.
Print Assumptions C51_near_refuted.
(** no points at all *)
Theorem C51_empty_refuted : exists coords : list (list Q), length coords = 2%nat /\ initialize exact isort log2 coords 0 = UB.
Proof. exists [[]; []]. split; reflexivity. Qed.
Print Assumptions C51_empty_refuted.

(** the hypotheses are met *)
Definition some_points : list (list spec_float) := [map f64 [1; 7; 3; 4; 9]%positive; map f64 [2; 5; 8; 1; 6]%positive].
Example C51_float_hyps : sorts isort /\ Forall (fun c => Forall finite (firstn 5 c)) some_points /\
  Forall (box_num number) (cuts (ieee 53 1024) (log2 5) (extents (ieee 53 1024) some_points 5)) /\ inside (ieee 53 1024) some_points 5 /\ SFltb (S754_zero false) double_tol2 = true.
Proof.
  split; [exact isort_sorts|]. split; [repeat (constructor; [repeat (constructor; [exact I|]); constructor|]); constructor|]. split; [|split].
  - vm_compute. repeat (constructor; [repeat (constructor; [split; discriminate|]); constructor|]). constructor.
  - intros j pt Hj Pj. assert (J : In j (zseq 5)) by (apply in_zseq; exact Hj). cbn in J.
    destruct J as [<-|[<-|[<-|[<-|[<-|[]]]]]].
    + change (map Some [f64 1; f64 2] = map Some pt) in Pj. apply map_Some_inj in Pj. subst pt. vm_compute. reflexivity.
    + change (map Some [f64 7; f64 5] = map Some pt) in Pj. apply map_Some_inj in Pj. subst pt. vm_compute. reflexivity.
    + change (map Some [f64 3; f64 8] = map Some pt) in Pj. apply map_Some_inj in Pj. subst pt. vm_compute. reflexivity.
    + change (map Some [f64 4; f64 1] = map Some pt) in Pj. apply map_Some_inj in Pj. subst pt. vm_compute. reflexivity.
    + change (map Some [f64 9; f64 6] = map Some pt) in Pj. apply map_Some_inj in Pj. subst pt. vm_compute. reflexivity.
  - vm_compute. reflexivity.
Qed.
Example C51_run : lookup (ieee 53 1024) isort log2 some_points 5 double_tol2 [f64 3; f64 8] = Ok (Some 2) /\ lookup (ieee 53 1024) isort log2 some_points 5 double_tol2 [f64 3; f64 7] = Ok None /\
  lookup exact isort log2 row 5 (1 # 1000000) [8; 0]%Q = Ok (Some 3).
Proof. repeat split; vm_compute; reflexivity. Qed.
