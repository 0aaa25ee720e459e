(** C52: joining coordinate sets. *)
From Coq Require Import QArith.
From Verif Require Import Base DType SpecTree Mem Node Number MeshConv KdTree KdTreeFacts PointMerge PointMergeFacts.
Local Open Scope Z_scope.
Import ListNotations.

(** points put one by one into the tree, each with a number, and a point looked up: the number
    of a point that is near, if there is one *)
Theorem C52_tree : forall lowest sort, sorts sort -> forall dim bucket ps tol p,
  (2 <= bucket)%nat -> Forall (fun q => length (fst q) = dim) ps -> length p = dim -> (0 <= tol)%Q ->
  exists t, inserts lowest sort bucket ps None = Ok t /\
    match find_root exact p tol t with
    | Some x => exists q, In (q, x) ps /\ near tol p q
    | None => forall q x, In (q, x) ps -> ~ near tol p q
    end.
Proof. exact tree_law. Qed.
Print Assumptions C52_tree.
Definition low : Q := (- inject_Z (2 ^ 1024))%Q.
Example C52_tree_ex : exists t, inserts low isort 2 [([1; 1]%Q, 7); ([2; 5]%Q, 8); ([4; 0]%Q, 9); ([4; 1]%Q, 10)] None = Ok (Some t) /\
  map (fun p => find_root exact p (1 # 2)%Q (Some t)) [[4; 1 # 2]; [2; 5]; [3; 3]]%Q = [Some 9; Some 8; None].
Proof. eexists. vm_compute. split; reflexivity. Qed.

(** the points of several sets merged one after the other: one number for each point *)
Theorem C52_merge : forall lowest sort, sorts sort -> forall dim bucket tol sets,
  (2 <= bucket)%nat -> (0 <= tol)%Q -> Forall (Forall (fun p => length p = dim)) sets ->
  exists s ms, merge_sets exact lowest sort bucket tol sets nothing = Ok (s, ms) /\
    Forall2 (fun ps is => length is = length ps) sets ms /\ merged tol (concat sets) (concat ms) (f_new s).
Proof. exact merge_law. Qed.
Print Assumptions C52_merge.
Example C52_merge_ex : match merge_sets exact low isort 2 (1 # 2)%Q [[[0]; [1]; [2]; [3]]; [[5 # 2]; [9]; [0]]]%Q nothing with Ok r => Some (f_new (fst r), snd r) | _ => None end =
  Some ([[0]; [1]; [2]; [3]; [9]]%Q, [[0; 1; 2; 3]; [2; 4; 0]]).
Proof. vm_compute. reflexivity. Qed.

(** explicit cartesian sets: every point is near its new point, and every new point is one of
    the points. If two sets have a point in common then no new points are near each other. If
    points are equal or not near, then points of different sets have the same number just if
    they are equal *)
Theorem C52_combine : forall lowest sort, sorts sort -> forall to_xyz to_rtp fofz ftrunc tol sets,
  (0 <= tol)%Q -> (2 <= length sets)%nat -> Forall plain sets ->
  exists maps new,
    execute exact lowest sort to_xyz to_rtp fofz ftrunc tol (map (fun c => Some (explicit c)) sets) =
      Ok (Merged (columns (fold_left Nat.max (map (@length _) sets) 0%nat) new) maps) /\
    Forall2 (fun c m => length m = length (points c)) sets maps /\
    (forall a k p i, point_of sets a k p -> id_of maps a k i -> exists q, znth new i = Some q /\ near tol p q) /\
    (forall i q, znth new i = Some q -> exists a k, point_of sets a k q /\ id_of maps a k i) /\
    (touching sets -> merged tol (concat (map points sets)) (concat maps) new) /\
    (separate tol (concat (map points sets)) -> forall a b k l p q i j, a <> b ->
       point_of sets a k p -> point_of sets b l q -> id_of maps a k i -> id_of maps b l j -> (i = j <-> same p q)).
Proof. exact execute_law. Qed.
Print Assumptions C52_combine.
Definition id3 (p : list Q) : list Q := p.
Definition trunc (x : Q) : Z := Z.quot (Qnum x) (Zpos (Qden x)).
Notation exec := (execute exact low isort id3 id3 inject_Z trunc).
Example C52_combine_ex :
  Forall plain [[[0; 1; 2]; [0; 0; 0]]; [[2; 3]; [0; 0]]]%Q /\ touching [[[0; 1; 2]; [0; 0; 0]]; [[2; 3]; [0; 0]]]%Q /\
  exec (1 # 4)%Q (map (fun c => Some (explicit c)) [[[0; 1; 2]; [0; 0; 0]]; [[2; 3]; [0; 0]]]%Q) =
    Ok (Merged [(L "x", [0; 1; 2; 3]%Q); (L "y", [0; 0; 0; 0]%Q)] [[0; 1; 2]; [2; 3]]).
Proof.
  split; [|split; [|vm_compute; reflexivity]].
  - constructor; [split; [cbn; lia|exists 3%nat; repeat constructor]|]. constructor; [split; [cbn; lia|exists 2%nat; repeat constructor]|constructor].
  - exists 0%nat, 1%nat, 2%nat, 0%nat, [2; 0; 0]%Q, [2; 0; 0]%Q. split; [lia|]. split; [eexists; split; reflexivity|]. split; [eexists; split; reflexivity|apply same_refl].
Qed.

(** points nearer than the tolerance are not merged if the boxes of the sets do not meet *)
Theorem C52_near_refuted : exists tol p q, near tol p q /\
  exec tol (map (fun c => Some (explicit c)) [[[nth 0 p 0%Q]]; [[nth 0 q 0%Q]]]) = Ok (Merged [(L "x", [nth 0 p 0%Q; nth 0 q 0%Q])] [[0]; [1]]).
Proof. exists 1%Q, [0; 0; 0]%Q, [1 # 10; 0; 0]%Q. split; [vm_compute; discriminate|vm_compute; reflexivity]. Qed.
Print Assumptions C52_near_refuted.
(** equal points of one set are merged or not, depending on another set *)
Theorem C52_within_refuted :
  exec 1%Q (map (fun c => Some (explicit c)) [[[0; 0]]; [[0]]]%Q) = Ok (Merged [(L "x", [0]%Q)] [[0; 0]; [0]]) /\
  exec 1%Q (map (fun c => Some (explicit c)) [[[0; 0]]; [[5]]]%Q) = Ok (Merged [(L "x", [0; 0; 5]%Q)] [[0; 1]; [2]]).
Proof. split; vm_compute; reflexivity. Qed.
Print Assumptions C52_within_refuted.
(** equal points of two overlapping sets with different numbers: between two new points *)
Definition line : list Q := ([0; 4 # 5; 3 # 2] ++ map (fun k => inject_Z (- 2 * Z.of_nat k)) (seq 1 15) ++ map (fun k => inject_Z (2 * Z.of_nat k) + (3 # 2)) (seq 1 16))%Q.
Theorem C52_equal_refuted : exists vs m j,
  exec 1%Q (map (fun c => Some (explicit c)) [[line]; [[4 # 5]]]%Q) = Ok (Merged vs [m; [j]]) /\
  nth_error line 1 = Some (4 # 5)%Q /\ nth_error m 1 = Some 0 /\ j = 1.
Proof. eexists _, _, _. split; [vm_compute; reflexivity|]. repeat split. Qed.
Print Assumptions C52_equal_refuted.
(** a uniform set from 1/2 to 1 and one from 1 to 2 share the point 1, but the origin 1/2 is
    taken as 0 for the extents *)
Definition uni (n : Z) (o s : Q) : source :=
  Implicit Uniform {| c_dims := [(L "i", n)]; c_origin := Some [(L "x", (FLOAT64, o))]; c_spacing := Some [(L "dx", (FLOAT64, s))]; c_values := [] |}.
Theorem C52_uniform_refuted : exists vs,
  exec (1 # 1000)%Q [Some (uni 3 (1 # 2) (1 # 4)); Some (uni 2 1 1)]%Q = Ok (Merged [(L "x", vs)] [[0; 1; 2]; [3; 4]]) /\ map Qred vs = [1 # 2; 3 # 4; 1; 1; 2]%Q.
Proof. eexists. split; [vm_compute; reflexivity|vm_compute; reflexivity]. Qed.
Print Assumptions C52_uniform_refuted.
(** a set with the axes x and z: its z is lost *)
Theorem C52_axes_refuted :
  exec (1 # 1000)%Q [Some (Explicit [(L "x", [0; 0]); (L "z", [1; 2])]); Some (Explicit [(L "x", [0]); (L "z", [5])])]%Q =
    Ok (Merged [(L "x", [0; 0; 0]); (L "y", [0; 0; 0])]%Q [[0; 1]; [2]]).
Proof. vm_compute. reflexivity. Qed.
Print Assumptions C52_axes_refuted.
(** overlapping spherical sets: x, y, z under the names r, theta, phi. The point r = 1,
    theta = phi = 0 is x = y = 0, z = 1 *)
Definition spherical (r t p : Q) : source := Explicit [(L "r", [r]); (L "theta", [t]); (L "phi", [p])].
Theorem C52_spherical_refuted : forall to_xyz, to_xyz [1; 0; 0]%Q = [0; 0; 1]%Q ->
  execute exact low isort to_xyz id3 inject_Z trunc (1 # 1000)%Q [Some (spherical 1 0 0); Some (spherical 1 0 0)] =
    Ok (Merged [(L "r", [0]); (L "theta", [0]); (L "phi", [1])]%Q [[0]; [0]]).
Proof. intros f E. cbv -[merge_sets output append_sets low isort exact nothing]. rewrite E. vm_compute. reflexivity. Qed.
Print Assumptions C52_spherical_refuted.
(** the same point in a spherical and in a cartesian set: extents of different systems are
    compared, and the point is there twice *)
Theorem C52_systems_refuted : forall to_xyz, to_xyz [1; 0; 0]%Q = [0; 0; 1]%Q ->
  execute exact low isort to_xyz id3 inject_Z trunc (1 # 1000)%Q [Some (spherical 1 0 0); Some (explicit [[0]; [0]; [1]]%Q)] =
    Ok (Merged [(L "x", [0; 0]); (L "y", [0; 0]); (L "z", [1; 1])]%Q [[0]; [1]]).
Proof. intros f E. cbv -[merge_sets output append_sets low isort exact nothing]. rewrite E. vm_compute. reflexivity. Qed.
Print Assumptions C52_systems_refuted.
(** r and theta only: the point is at z = 1, the output has x = y = 0 and no z *)
Theorem C52_planar_refuted : forall to_xyz, to_xyz [1; 0; 0]%Q = [0; 0; 1]%Q ->
  execute exact low isort to_xyz id3 inject_Z trunc (1 # 1000)%Q [Some (Explicit [(L "r", [1]); (L "theta", [0])]); Some (explicit [[5]; [5]])]%Q =
    Ok (Merged [(L "x", [0; 5]); (L "y", [0; 5])]%Q [[0]; [1]]).
Proof. intros f E. cbv -[merge_sets output append_sets low isort exact nothing zero]. change (zero exact) with 0%Q. rewrite E. vm_compute. reflexivity. Qed.
Print Assumptions C52_planar_refuted.
(** one set: the output is no coordinate set, but has one as its child coordsets/coords *)
Theorem C52_single_refuted : exists s, exec 0%Q [Some s] = Ok (Wrapped s).
Proof. exists (explicit [[0]]%Q). reflexivity. Qed.
Print Assumptions C52_single_refuted.
(** with a set of logical coordinates: nothing happens, or a name is read past the end *)
Theorem C52_logical_refuted :
  exec 0%Q [Some (Explicit [(L "i", [0])]); Some (Explicit [(L "i", [1])])]%Q = Ok Untouched /\
  exec 0%Q [Some (Explicit [(L "z", [0]); (L "r", [1])]); Some (Explicit [(L "i", [0]); (L "j", [1]); (L "k", [2])])]%Q = UB.
Proof. split; vm_compute; reflexivity. Qed.
Print Assumptions C52_logical_refuted.
