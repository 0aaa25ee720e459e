(** C65: the tables of mesh::flatten hold every vertex and element of every domain once, with
    the values of the fields. *)
From Coq Require Import ZArith Floats.SpecFloat List Lia.
From Verif Require Import Base DType Number NumConv FloatText MeshConv MeshFlat MeshFlatSpec MeshFlatFacts MeshFlatSingle MeshFlatRun MeshFlatAlloc MeshFlatMain MeshFlatCols MeshFlatTotal.
Import ListNotations.
Local Open Scope Z_scope.

(** * Examples *)
Definition fl (z : Z) (e : Z) : number := NF (binary_normalize 53 1024 z e false).
Definition ints (l : list Z) : col := Col INT32 (map NI l).
Definition reals (l : list Z) : col := Col FLOAT64 (map (fun z => fl z 0) l).
Definition o_all : opts := Opts [] [] (S754_zero false) (-1) true true true.
Definition tri : topo := Topo (L "coords") [[0; 1; 2]; [1; 3; 2]]%nat.
Definition xy : cset := Cset None [(L "x", reals [0; 3; 0; 3]); (L "y", reals [0; 0; 6; 6])].
Definition fld (tn a : str) (v : vals) : field := Field (Some tn) false (Some a) v.
Definition vf := fld (L "mesh") (L "vertex").
Definition ef := fld (L "mesh") (L "element").
Definition dom0 : dom := Dom (Some 7) [(L "mesh", tri)] [(L "coords", xy)]
  (Some [(L "p", vf (VArr (ints [1; 2; 3; 4]))); (L "vel", ef (VMc [(L "u", reals [5; 6]); (L "v", reals [7; 8])]))]).
Definition dom1 : dom := Dom (Some 9) [(L "mesh", tri)] [(L "coords", xy)]
  (Some [(L "q", ef (VArr (ints [30; 40]))); (L "p", vf (VArr (ints [11; 12; 13; 14])))]).
Definition value (tb : table) (n : str) (a : option str) : option (list number) :=
  match column tb n a with Some c => Some (c_vals c) | None => None end.
Definition two := flatten o_all [dom0; dom1].
Example flatten_two : exists vt et, two = Ok (vt, et) /\
  map fst vt = [L "coords"; L "p"; L "domain_id"; L "vertex_id"] /\
  map fst et = [L "element_centers"; L "vel"; L "q"; L "domain_id"; L "element_id"] /\
  value vt (L "p") None = Some (map NI [1; 2; 3; 4; 11; 12; 13; 14]) /\
  value et (L "q") None = Some (map NI [-1; -1; 30; 40]) /\
  value et (L "vel") (Some (L "v")) = Some (map (fun z => fl z 0) [7; 8; 0; 0]) /\
  value et (L "element_centers") (Some (L "y")) = Some (map (fun z => fl z 0) [2; 4; 2; 4]) /\
  value vt (L "domain_id") None = Some (map NI [7; 7; 7; 7; 9; 9; 9; 9]).
Proof. eexists. eexists. split; [vm_compute; reflexivity|]. vm_compute. repeat split. Qed.
Example fits_two : fits o_all (L "mesh") (L "coords") [L "x"; L "y"] [dom0; dom1].
Proof.
  constructor.
  - exists dom0. split; [reflexivity|]. split; [exists tri; reflexivity|exists xy; reflexivity].
  - split; [discriminate|reflexivity].
  - repeat constructor.
  - cbn. intuition discriminate.
  - constructor.
  - intros n Hn. vm_compute in Hn. destruct Hn as [<-|[<-|[<-|[]]]]; cbn; intuition discriminate.
  - intros n d f Hn Hd Hf. vm_compute in Hn.
    destruct Hn as [<-|[<-|[<-|[]]]]; destruct Hd as [<-|[<-|[]]]; vm_compute in Hf; try discriminate Hf; injection Hf as <-;
    (split; [reflexivity|split; [intros g Hg; vm_compute in Hg; injection Hg as <-; reflexivity|]]); intros l Hl; try discriminate Hl; injection Hl as <-;
    repeat (constructor; [cbn; intuition discriminate|]); constructor.
Qed.
Lemma ready_ints l n zs : (n <= length zs)%nat -> ready l n (ints zs).
Proof.
  intros H. split; [reflexivity|]. split; [cbn; rewrite map_length; exact H|]. intros t _. cbn. rewrite Forall_map. apply Forall_forall. intros z _. right. exists z. reflexivity.
Qed.
Lemma ready_reals l n zs : l <> [] -> Forall (fun u => u = FLOAT64) l -> (n <= length zs)%nat -> ready l n (reals zs).
Proof.
  intros Ne Fl H. split; [reflexivity|]. split; [cbn; rewrite map_length; exact H|]. intros t Ht. rewrite (widest_same FLOAT64 l t eq_refl Ne Fl Ht).
  apply Forall_forall. intros v _. left. reflexivity.
Qed.
Example whole_two : whole o_all (L "mesh") [dom0; dom1].
Proof.
  constructor.
  - intros d [<-|[<-|[]]]; discriminate.
  - intros d n f [<-|[<-|[]]] Hf; cbn in Hf; destruct Hf as [E|[E|[]]]; injection E as <- <-; left; discriminate.
  - intros d e i [<-|[<-|[]]] He Hi; cbn in He; destruct He as [<-|[<-|[]]]; cbn in Hi; (destruct Hi as [<-|[<-|[<-|[]]]]; cbn; lia).
  - intros d a c [<-|[<-|[]]] Hc; cbn in Hc; destruct Hc as [E|[E|[]]]; injection E as <- <-; apply ready_reals; try discriminate; repeat constructor.
  - intros d c c' [<-|[<-|[]]] _ Hc Hc'; cbn in Hc, Hc'; destruct Hc as [<-|[<-|[]]]; destruct Hc' as [<-|[<-|[]]]; reflexivity.
  - intros n d f Hn Hd Hf. vm_compute in Hn. destruct Hn as [<-|[<-|[<-|[]]]]; destruct Hd as [<-|[<-|[]]]; vm_compute in Hf; try discriminate Hf; injection Hf as <-; auto.
  - intros n d f g Hn Hd Hf Hg. vm_compute in Hn. destruct Hn as [<-|[<-|[<-|[]]]]; destruct Hd as [<-|[<-|[]]]; cbv - [fl ints reals L] in Hf; try discriminate Hf; cbv - [fl ints reals L] in Hg; injection Hf as <-; injection Hg as <-; cbn [f_vals].
    1-2: apply ready_ints; cbv; lia.
    2: apply ready_ints; cbv; lia.
    intros a c [E|[E|[]]]; injection E as <- <-; (split; [cbn; auto|]); apply ready_reals; try discriminate; repeat constructor.
Qed.

(** * Theorems *)
(** a whole mesh is flattened: no case fails, and nothing is read or written out of bounds *)
Theorem C65_total : forall o tn cs axes ds, fits o tn cs axes ds -> whole o tn ds -> exists s, flatten o ds = Ok s.
Proof. exact flat_total. Qed.
(** the columns, in order *)
Theorem C65_columns : forall o tn cs axes ds vt et, fits o tn cs axes ds -> flatten o ds = Ok (vt, et) ->
  map fst vt = id_columns o ((if o_verts o then [cs] else []) ++ filter (of_assoc ds (L "vertex")) (chosen o tn ds)) (L "vertex_id") /\
  map fst et = id_columns o ((if o_centers o then [L "element_centers"] else []) ++ filter (of_assoc ds (L "element")) (chosen o tn ds)) (L "element_id").
Proof. exact flat_columns. Qed.
(** a row for each vertex of each domain, with its coordinates *)
Theorem C65_coordinates : forall o tn cs axes ds vt et a, fits o tn cs axes ds -> flatten o ds = Ok (vt, et) ->
  o_verts o = true -> In a axes ->
  exists t, widest (coord_leaves o ds) t /\ column_ok o ds (verts o) (column vt cs (Some a)) t (fun d => mget (coords o d) a).
Proof. exact flat_coords. Qed.
(** the values of the fields, or the fill value where a domain has no such field or component *)
Theorem C65_fields : forall o tn cs axes ds vt et n f a c, fits o tn cs axes ds -> flatten o ds = Ok (vt, et) ->
  In n (chosen o tn ds) -> first_field ds n = Some f -> part (f_vals f) a = Some c ->
  exists t, widest (leaves_of (f_vals f)) t /\
    (f_assoc f = Some (L "vertex") -> column_ok o ds (verts o) (column vt n a) t (fun d => field_part d n a)) /\
    (f_assoc f = Some (L "element") -> column_ok o ds (elems o) (column et n a) t (fun d => field_part d n a)).
Proof. exact flat_fields. Qed.
(** the means of the coordinates of the vertices of each element *)
Theorem C65_centers : forall o tn cs axes ds vt et a, fits o tn cs axes ds -> flatten o ds = Ok (vt, et) ->
  o_centers o = true -> In a axes ->
  column_by ds (elems o) (column et (L "element_centers") (Some a)) FLOAT64
    (fun d _ j w => exists c e, mget (coords o d) a = Some c /\ nth_error (cells o d) j = Some e /\ mean_of c e w).
Proof. exact flat_centers. Qed.
(** the domain a row comes from and its place there *)
Theorem C65_ids : forall o tn cs axes ds vt et, fits o tn cs axes ds -> flatten o ds = Ok (vt, et) ->
  (In (L "vertex_id") (map fst vt) -> column_by ds (verts o) (column vt (L "domain_id") None) INT64 (domain_row ds) /\
     column_by ds (verts o) (column vt (L "vertex_id") None) INT64 local_row) /\
  (In (L "element_id") (map fst et) -> column_by ds (elems o) (column et (L "domain_id") None) INT64 (domain_row ds) /\
     column_by ds (elems o) (column et (L "element_id") None) INT64 local_row).
Proof. exact flat_ids. Qed.

(** * What goes wrong *)
(** a field of that name on another topology of a later domain is read as if it were on this
    one, past its end if there are fewer values *)
Definition other (v : vals) : dom := Dom None [(L "mesh", tri)] [(L "coords", xy)] (Some [(L "p", fld (L "other") (L "vertex") v)]).
Theorem C65_other_topology_refuted : exists d1 d2 vt et f,
  field_of d1 (L "p") = Some f /\ on (L "mesh") f = false /\
  flatten o_all [dom0; d1] = Ok (vt, et) /\ value vt (L "p") None = Some (map NI [1; 2; 3; 4; 21; 22; 23; 24]) /\
  field_of d2 (L "p") <> None /\ flatten o_all [dom0; d2] = UB.
Proof.
  exists (other (VArr (ints [21; 22; 23; 24]))), (other (VArr (ints [21]))). eexists. eexists. eexists.
  split; [reflexivity|]. split; [reflexivity|]. split; [vm_compute; reflexivity|]. split; [reflexivity|]. split; [discriminate|]. vm_compute. reflexivity.
Qed.
(** the type of a column is that of the first domain that has the field: 0.5 becomes 0 *)
Definition half : number := fl 1 (-1).
Definition with_p (v : vals) : dom := Dom None [(L "mesh", tri)] [(L "coords", xy)] (Some [(L "p", vf v)]).
Theorem C65_first_type_refuted : exists vt et,
  flatten o_all [with_p (VArr (ints [1; 2; 3; 4])); with_p (VArr (Col FLOAT64 [half; half; half; half]))] = Ok (vt, et) /\
  value vt (L "p") None = Some (map NI [1; 2; 3; 4; 0; 0; 0; 0]).
Proof. eexists. eexists. split; [vm_compute; reflexivity|]. reflexivity. Qed.
(** components of different types: the float32 one is cut to integers when another is int64 *)
Theorem C65_component_type_refuted : exists vt et,
  flatten o_all [with_p (VMc [(L "u", Col FLOAT32 [half; half; half; half]); (L "v", Col INT64 (map NI [1; 2; 3; 4]))])] = Ok (vt, et) /\
  value vt (L "p") (Some (L "u")) = Some (map NI [0; 0; 0; 0]).
Proof. eexists. eexists. split; [vm_compute; reflexivity|]. reflexivity. Qed.
(** the coordinates of a uniform mesh are cut to integers when dims is wider than origin and
    spacing: spacing 0.5 puts the first two vertices at 0 *)
Definition uniform : cset :=
  Cset (Some [INT64; INT64; FLOAT32; FLOAT32])
    [(L "x", Col FLOAT64 [fl 0 0; half; fl 0 0; half]); (L "y", Col FLOAT64 [fl 0 0; fl 0 0; half; half])].
Theorem C65_uniform_refuted : exists vt et,
  flatten o_all [Dom None [(L "mesh", tri)] [(L "coords", uniform)] (Some [])] = Ok (vt, et) /\
  value vt (L "coords") (Some (L "x")) = Some (map NI [0; 0; 0; 0]).
Proof. eexists. eexists. split; [vm_compute; reflexivity|]. reflexivity. Qed.
(** coordinates of different types are an error when centers are asked for *)
Theorem C65_mixed_coordinates_refuted : exists d,
  map fst (coords o_all d) = [L "x"; L "y"] /\ Forall (fun c => length (c_vals (snd c)) = 4%nat) (coords o_all d) /\
  flatten o_all [d] = Err.
Proof.
  exists (Dom None [(L "mesh", tri)] [(L "coords", Cset None [(L "x", reals [0; 3; 0; 3]); (L "y", ints [0; 0; 6; 6])])] (Some [])).
  split; [reflexivity|]. split; [repeat constructor|]. vm_compute. reflexivity.
Qed.
(** a domain without fields is an error *)
Theorem C65_no_fields_refuted : exists d, topo_of o_all d = Some (L "mesh", tri) /\ cset_of o_all d = Some (L "coords", xy) /\
  d_fields d = None /\ flatten o_all [d] = Err.
Proof. exists (Dom None [(L "mesh", tri)] [(L "coords", xy)] None). split; [reflexivity|]. split; [reflexivity|]. split; [reflexivity|]. vm_compute. reflexivity. Qed.
(** a field called domain_id takes the place of the numbers of the domains *)
Theorem C65_domain_id_refuted : exists d vt et,
  d_id d = Some 7 /\ flatten o_all [d] = Ok (vt, et) /\ value et (L "domain_id") None = Some (map NI [40; 50]).
Proof.
  exists (Dom (Some 7) [(L "mesh", tri)] [(L "coords", xy)] (Some [(L "domain_id", ef (VArr (ints [40; 50])))])). eexists. eexists.
  split; [reflexivity|]. split; [vm_compute; reflexivity|]. reflexivity.
Qed.
(** coordinates stored y first: the means of y come out as x *)
Definition yx : cset := Cset None [(L "y", reals [0; 0; 6; 6]); (L "x", reals [0; 3; 0; 3])].
Theorem C65_swapped_centers_refuted : exists d vt et,
  mget (coords o_all d) (L "x") = Some (reals [0; 3; 0; 3]) /\ flatten o_all [d] = Ok (vt, et) /\
  value et (L "element_centers") (Some (L "x")) = Some (map (fun z => fl z 0) [2; 4]).
Proof. exists (Dom None [(L "mesh", tri)] [(L "coords", yx)] (Some [])). eexists. eexists. split; [reflexivity|]. split; [vm_compute; reflexivity|]. reflexivity. Qed.
(** fewer values than vertices: memory after the array is read *)
Theorem C65_short_field_refuted : exists v, (length (c_vals v) < verts o_all (with_p (VArr v)))%nat /\ flatten o_all [with_p (VArr v)] = UB.
Proof. exists (ints [1; 2; 3]). split; [cbn; lia|]. vm_compute. reflexivity. Qed.

Print Assumptions C65_total.
Print Assumptions C65_columns.
Print Assumptions C65_coordinates.
Print Assumptions C65_fields.
Print Assumptions C65_centers.
Print Assumptions C65_ids.
Print Assumptions C65_other_topology_refuted.
Print Assumptions C65_first_type_refuted.
Print Assumptions C65_component_type_refuted.
Print Assumptions C65_uniform_refuted.
Print Assumptions C65_mixed_coordinates_refuted.
Print Assumptions C65_no_fields_refuted.
Print Assumptions C65_domain_id_refuted.
Print Assumptions C65_swapped_centers_refuted.
Print Assumptions C65_short_field_refuted.
