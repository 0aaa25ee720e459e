(** C48: uniform, rectilinear and structured meshes as explicit points and unstructured cells. *)
From Verif Require Import Base DType SpecTree Mem Node Number ArrayOps ArrayOpsFacts MeshConv MeshConvFacts.
Local Open Scope Z_scope.
Import ListNotations.

(** The axes are those of the coordinate system that are named, in its order, whatever the
    order of the names. *)
Theorem C48_axes : forall sys names, In sys axis_systems -> (forall n, In n names -> exists a, In a sys /\ gives_axis n a) ->
  exists f, axes_of names = filter f sys /\ forall a, In a sys -> (f a = true <-> exists n, In n names /\ gives_axis n a).
Proof. exact axes_given. Qed.
Print Assumptions C48_axes.
Theorem C48_axes_order : forall names names', (forall n, In n names <-> In n names') -> axes_of names = axes_of names'.
Proof. exact axes_same. Qed.
Print Assumptions C48_axes_order.

Section Any.
Context {F : Type} (fadd fmul : F -> F -> F) (fofz : Z -> F) (f0 f1 : F) (cast : tid -> tid -> F -> F).
(** Every point of the grid is written once, at the place given by its indices with the
    first axis fastest, with the number of each index on its axis. *)
Theorem C48_explicit : forall b (c : @cset F) lens, b <> Structured -> grid_dims b c lens -> coords_ok b c ->
  exists vs, to_explicit fadd fmul fofz f0 f1 cast b c = Ok (float_type c, vs) /\ map fst vs = axes b c /\
    forall i ax vals, nth_error vs i = Some (ax, vals) ->
      Z.of_nat (length vals) = places lens /\ (forall v, In v vals -> v <> None) /\
      forall idx d, in_grid lens idx -> nth_error idx i = Some d ->
        exists t x, coordinate fadd fmul fofz f0 f1 cast b c ax d t x /\
          nth_error vals (Z.to_nat (grid_index lens idx)) = Some (Some (cast t (float_type c) x)).
Proof. exact (explicit_law fadd fmul fofz f0 f1 cast). Qed.
Theorem C48_rectilinear : forall (c : @cset F) lens, grid_dims Uniform c lens -> coords_ok Uniform c ->
  exists vs, to_rectilinear fadd fmul fofz f0 f1 cast c = Ok (float_type c, vs) /\ map fst vs = axes Uniform c /\
    forall i ax vals, nth_error vs i = Some (ax, vals) ->
      nth_error lens i = Some (Z.of_nat (length vals)) /\
      forall d v, nth_error vals d = Some v ->
        exists x, coordinate fadd fmul fofz f0 f1 cast Uniform c ax (Z.of_nat d) FLOAT64 x /\ v = cast FLOAT64 (float_type c) x.
Proof. exact (rectilinear_law fadd fmul fofz f0 f1 cast). Qed.
(** Uniform to explicit directly or by way of rectilinear: the same coordinate set. *)
Theorem C48_routes : forall (c : @cset F) lens, grid_dims Uniform c lens -> coords_ok Uniform c -> axes Uniform c <> [] ->
  (forall t x, cast t t x = x) ->
  exists t vs, to_rectilinear fadd fmul fofz f0 f1 cast c = Ok (t, vs) /\
    to_explicit fadd fmul fofz f0 f1 cast Rectilinear (rect_set t vs) = to_explicit fadd fmul fofz f0 f1 cast Uniform c.
Proof. exact (routes_agree fadd fmul fofz f0 f1 cast). Qed.
(** A structured topology has one cell less than points along each axis. *)
Theorem C48_structured : forall b (c : @cset F) lens leaves, grid_dims b c lens -> b <> Structured ->
  let t := find_widest int_defaults leaves in Forall (fun n => 1 <= n <= int_max t) lens ->
  to_structured b c leaves = Ok (t, map (fun n => n - 1) lens).
Proof. exact structured_law. Qed.
(** Each cell lists the numbers of its corners. *)
Theorem C48_unstructured : forall b (c : @cset F) sdims leaves ed,
  let t := find_widest int_defaults leaves in let pts := map (fun n => n + 1) ed in
  cell_dims b c sdims ed -> Forall (fun n => 0 <= n < 2 ^ 31 - 1) ed -> ed <> [] -> places pts - 1 <= int_max t ->
  exists ids, to_unstructured b c sdims leaves = Ok (t, ids) /\
    Z.of_nat (length ids) = Z.of_nat (2 ^ length ed) * places ed /\
    forall cell, in_grid ed cell -> row (2 ^ length ed) ids (grid_index ed cell) = map (grid_index pts) (corners cell).
Proof. exact unstructured_law. Qed.
(** Both together: the corners of every cell are where the axes put them. *)
Theorem C48_cells : forall b (c : @cset F) lens leaves,
  let t := find_widest int_defaults leaves in let ed := map (fun n => n - 1) lens in
  b <> Structured -> grid_dims b c lens -> coords_ok b c -> lens <> [] -> Forall (fun n => 1 <= n < 2 ^ 31) lens -> places lens - 1 <= int_max t ->
  exists ids vs, to_unstructured b c [] leaves = Ok (t, ids) /\ to_explicit fadd fmul fofz f0 f1 cast b c = Ok (float_type c, vs) /\ map fst vs = axes b c /\
    Forall (fun p => 0 <= p < places lens) ids /\
    forall cell m q, in_grid ed cell -> nth_error (corners cell) m = Some q ->
      exists p, nth_error ids (2 ^ length ed * Z.to_nat (grid_index ed cell) + m) = Some p /\
        forall i ax vals d, nth_error vs i = Some (ax, vals) -> nth_error q i = Some d ->
          exists ty x, coordinate fadd fmul fofz f0 f1 cast b c ax d ty x /\ nth_error vals (Z.to_nat p) = Some (Some (cast ty (float_type c) x)).
Proof. exact (cells_law fadd fmul fofz f0 f1 cast). Qed.
End Any.
Print Assumptions C48_explicit.
Print Assumptions C48_rectilinear.
Print Assumptions C48_routes.
Print Assumptions C48_structured.
Print Assumptions C48_unstructured.
Print Assumptions C48_cells.
(** The type of the ids is the widest integer type of the topology, int32 if there is none. *)
Theorem C48_id_type : forall leaves, let t := find_widest int_defaults leaves in is_int t = true /\
  ((t = INT32 /\ Forall (fun u => is_int u = false) leaves) \/
   (In t leaves /\ Forall (fun u => is_int u = true -> default_bytes u <= default_bytes t) leaves)).
Proof. exact int_type_ok. Qed.
Print Assumptions C48_id_type.
(** Every number of a grid is the number of exactly one place. *)
Theorem C48_numbering : forall dims, Forall (fun n => 0 <= n) dims ->
  (forall idx, in_grid dims idx -> 0 <= grid_index dims idx < places dims) /\
  (forall a b, in_grid dims a -> in_grid dims b -> grid_index dims a = grid_index dims b -> a = b) /\
  (forall p, 0 <= p < places dims -> exists idx, in_grid dims idx /\ grid_index dims idx = p).
Proof. intros dims N. split; [exact (grid_nonneg dims)|]. split; [exact (grid_inj dims)|exact (grid_onto dims N)]. Qed.
Print Assumptions C48_numbering.

(** integers as numbers of an axis; conversion to float32 keeps 24 significant bits, ties
    to even (exact for the integers used below) *)
Definition round24 (x : Z) : Z :=
  let s := 2 ^ Z.max 0 (Z.log2 (Z.abs x) - 23) in
  let q := x / s in let r := x mod s in
  if (2 * r <? s) || ((2 * r =? s) && Z.even q) then q * s else (q + 1) * s.
Definition castz (t u : tid) (x : Z) : Z := match t, u with FLOAT32, FLOAT32 => x | _, FLOAT32 => round24 x | _, _ => x end.
Definition exz := to_explicit Z.add Z.mul (fun z => z) 0 1 castz.
Definition uni : @cset Z :=
  {| c_dims := [(L "j", 3); (L "i", 2)]; c_origin := Some [(L "y", (FLOAT64, 100)); (L "x", (FLOAT64, 10))];
     c_spacing := Some [(L "dx", (INT32, 1)); (L "dy", (INT32, 5))]; c_values := [] |}.
Definition rect : @cset Z :=
  {| c_dims := []; c_origin := None; c_spacing := None;
     c_values := [(L "x", (FLOAT64, [0; 7])); (L "y", (FLOAT32, [1; 4])); (L "z", (FLOAT64, [2; 3; 9]))] |}.
Example C48_run : exz Uniform uni = Ok (FLOAT64,
    [(L "x", map Some [10; 11; 10; 11; 10; 11]); (L "y", map Some [100; 100; 105; 105; 110; 110])]) /\
  to_unstructured Uniform uni [] [CHAR8_STR] = Ok (INT32, [0; 1; 3; 2; 2; 3; 5; 4]) /\
  exz Rectilinear rect = Ok (FLOAT64,
    [(L "x", map Some [0; 7; 0; 7; 0; 7; 0; 7; 0; 7; 0; 7]); (L "y", map Some [1; 1; 4; 4; 1; 1; 4; 4; 1; 1; 4; 4]);
     (L "z", map Some [2; 2; 2; 2; 3; 3; 3; 3; 9; 9; 9; 9])]) /\
  to_unstructured Rectilinear rect [] [CHAR8_STR] = Ok (INT32, [0; 1; 3; 2; 4; 5; 7; 6; 4; 5; 7; 6; 8; 9; 11; 10]) /\
  to_structured Uniform uni [CHAR8_STR] = Ok (INT32, [1; 2]).
Proof. repeat split; vm_compute; reflexivity. Qed.
Example C48_hyps : grid_dims Uniform uni [2; 3] /\ coords_ok Uniform uni /\ grid_dims Rectilinear rect [2; 2; 3] /\ coords_ok Rectilinear rect /\
  axes Uniform uni <> [] /\ (forall t x, castz t t x = x) /\ places [2; 2; 3] - 1 <= int_max (find_widest int_defaults [CHAR8_STR]) /\
  cell_dims Structured rect [(L "i", 4); (L "j", 4); (L "k", 1)] [4; 4; 1].
Proof.
  split; [split; [reflexivity|]; split; [|repeat constructor; lia]|].
  { intros i ax n A B. destruct i as [|[|i]]; vm_compute in A; [injection A as <-|injection A as <-|destruct i; discriminate]; cbn in B; injection B as <-; eexists; split; reflexivity. }
  split. { intros ax [<-|[<-|[]]]; split; vm_compute; discriminate. }
  split; [split; [reflexivity|]; split; [|repeat constructor; lia]|].
  { intros i ax n A B. destruct i as [|[|[|i]]]; vm_compute in A; [injection A as <-|injection A as <-|injection A as <-|destruct i; discriminate]; cbn in B; injection B as <-; eexists; eexists; split; reflexivity. }
  split; [exact I|]. split; [vm_compute; discriminate|]. split; [intros t x; destruct t; reflexivity|]. split; [vm_compute; discriminate|].
  split; [reflexivity|]. intros i n E. destruct i as [|[|[|i]]]; cbn in E; [injection E as <-..|destruct i; discriminate]; eexists; split; reflexivity.
Qed.

(** Ids are stored in the widest integer type of the topology itself: a structured topology
    whose dims are int8 gets int8 ids, and these wrap. *)
Theorem C48_narrow_ids_refuted : exists (c : @cset Z) sdims ed cell ids, cell_dims Structured c sdims ed /\
  Forall (fun n => 0 <= n < 2 ^ 31 - 1) ed /\ in_grid ed cell /\ to_unstructured Structured c sdims [INT8; INT8; CHAR8_STR] = Ok (INT8, ids) /\
  map (grid_index (map (fun n => n + 1) ed)) (corners cell) = [130; 131; 142; 141] /\
  row 4 ids (grid_index ed cell) = [-126; -125; -114; -115].
Proof.
  exists {| c_dims := []; c_origin := None; c_spacing := None; c_values := [(L "x", (FLOAT64, [])); (L "y", (FLOAT64, []))] |}, [(L "i", 10); (L "j", 20)], [10; 20], [9; 11].
  eexists. split; [split; [reflexivity|]; intros i n E; destruct i as [|[|i]]; cbn in E; [injection E as <-..|destruct i; discriminate]; eexists; split; reflexivity|].
  split; [repeat constructor; lia|]. split; [repeat constructor; lia|]. split; [vm_compute; reflexivity|]. split; vm_compute; reflexivity.
Qed.
Print Assumptions C48_narrow_ids_refuted.
(** A uniform grid without points gets a cell. *)
Theorem C48_empty_grid_refuted : exists c : @cset Z, grid_dims Uniform c [0; 0] /\ coords_ok Uniform c /\
  exz Uniform c = Ok (FLOAT32, [(L "i", []); (L "j", [])]) /\
  to_unstructured Uniform c [] [CHAR8_STR] = Ok (INT32, [0; 1; 1; 0]).
Proof.
  exists {| c_dims := [(L "i", 0); (L "j", 0)]; c_origin := None; c_spacing := None; c_values := [] |}.
  split; [split; [reflexivity|]; split; [|repeat constructor; lia]|].
  { intros i ax n A B. destruct i as [|[|i]]; vm_compute in A; [injection A as <-|injection A as <-|destruct i; discriminate]; cbn in B; injection B as <-; eexists; split; reflexivity. }
  split; [intros ax _; split; exact I|]. split; vm_compute; reflexivity.
Qed.
Print Assumptions C48_empty_grid_refuted.
(** Integer axes become float32: two different points of an int64 axis get the same place. *)
Theorem C48_integer_axis_refuted : exists c : @cset Z, grid_dims Rectilinear c [2] /\
  mget (c_values c) (L "x") = Some (INT64, [16777216; 16777217]) /\
  exz Rectilinear c = Ok (FLOAT32, [(L "x", [Some 16777216; Some 16777216])]).
Proof.
  exists {| c_dims := []; c_origin := None; c_spacing := None; c_values := [(L "x", (INT64, [16777216; 16777217]))] |}.
  split; [split; [reflexivity|]; split; [|repeat constructor; lia]|].
  { intros i ax n A B. destruct i as [|i]; vm_compute in A; [injection A as <-|destruct i; discriminate]; cbn in B; injection B as <-; eexists; eexists; split; reflexivity. }
  split; vm_compute; reflexivity.
Qed.
Print Assumptions C48_integer_axis_refuted.
