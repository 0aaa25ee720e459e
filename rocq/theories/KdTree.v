(** Looking up points by position:
    src/libs/blueprint/conduit_blueprint_mesh_kdtree.hpp (class kdtree) and
    src/libs/blueprint/conduit_blueprint_mesh_utils.cpp 3580-3900 (PointQuery).
    Coordinates have an arbitrary type with its arithmetic; NDIMS is the number of coordinate
    arrays. Ids and offsets are unbounded. *)
From Coq Require Import QArith Floats.SpecFloat.
From Verif Require Import Base DType SpecTree Mem Node Number ArrayOps O2M MeshConv.
Local Open Scope Z_scope.
Import ListNotations.

(** the arithmetic of CoordinateType: a < b, a <= b, a - b, a + b, a * b, (a + b) / 2,
    a / 200, 0, numeric_limits::max() and min(), DEFAULT_POINT_TOLERANCE * 200 *)
Record arith (F : Type) := {
  lt : F -> F -> bool; le : F -> F -> bool; sub : F -> F -> F; add : F -> F -> F; mul : F -> F -> F;
  half : F -> F -> F; part200 : F -> F; zero : F; num_max : F; num_min : F; min_expansion : F }.
Arguments lt {F}. Arguments le {F}. Arguments sub {F}. Arguments add {F}. Arguments mul {F}. Arguments half {F}.
Arguments part200 {F}. Arguments zero {F}. Arguments num_max {F}. Arguments num_min {F}. Arguments min_expansion {F}.

Section Kd.
Context {F : Type}.
Variable ar : arith F.
(** std::sort with a comparison; floor(log(n) / log(2)), hpp 486 *)
Variable sort : (Z -> Z -> bool) -> list Z -> list Z.
Variable levels : nat -> nat.

Definition box := list (F * F).
Definition min_ (a b : F) : F := if lt ar b a then b else a.
Definition max_ (a b : F) : F := if lt ar a b then b else a.
(** calculateExtents, 450-474 *)
Definition extent (c : list F) : F * F := fold_left (fun b x => (min_ (fst b) x, max_ (snd b) x)) c (num_max ar, num_min ar).
Definition expand (b : F * F) : F * F :=
  let d := part200 ar (max_ (sub ar (snd b) (fst b)) (min_expansion ar)) in (sub ar (fst b) d, add ar (snd b) d).
Definition extents (coords : list (list F)) (len : nat) : box := map (fun c => expand (extent (firstn len c))) coords.
(** cutBox, 287-302 *)
Definition mid (b : box) (d : nat) : F := let p := nth d b (zero ar, zero ar) in half ar (fst p) (snd p).
Definition cut_lo (b : box) (d : nat) : box := set_nth b d (fst (nth d b (zero ar, zero ar)), mid b d).
Definition cut_hi (b : box) (d : nat) : box := set_nth b d (mid b d, snd (nth d b (zero ar, zero ar))).
(** longest, 547-560: each side is compared with the first one *)
Definition side (p : F * F) : F := sub ar (snd p) (fst p).
Definition longest (b : box) : nat :=
  fold_left (fun rv i => if lt ar (side (nth 0 b (zero ar, zero ar))) (side (nth i b (zero ar, zero ar))) then i else rv) (seq 1 (length b - 1)) 0%nat.
(** pointInBox, 580-589 *)
Definition in_box (pt : list F) (b : box) : bool := forallb (fun xp => le ar (fst (snd xp)) (fst xp) && lt ar (fst xp) (snd (snd xp))) (combine pt b).

(** coords[d][i]; [initialize] below makes sure that these are in range *)
Definition val (coords : list (list F)) (d : nat) (i : Z) : F := nth (Z.to_nat i) (nth d coords []) (zero ar).
(** BoxInfo, 136-145 *)
Record info := { child : option nat; dim : nat; off : nat; size : nat }.
(** cutRange, 304-328: the size of A *)
Fixpoint below (coords : list (list F)) (d : nat) (m : F) (l : list Z) : nat :=
  match l with [] => O | i :: r => if lt ar (val coords d i) m then S (below coords d m r) else O end.
Definition slice {A} (l : list A) (o n : nat) : list A := firstn n (skipn o l).
(** sortIndexRange, 562-578 *)
Definition sort_range (coords : list (list F)) (d o n : nat) (idx : list Z) : outcome (list Z) :=
  if (length idx <? o + n)%nat then UB else
  if (1 <? n)%nat then Ok (firstn o idx ++ sort (fun i j => lt ar (val coords d i) (val coords d j)) (slice idx o n) ++ skipn (o + n) idx) else Ok idx.
(** constructBox, 506-545; [rem] = maxLevels - level. The state is boxes and index *)
Fixpoint build (coords : list (list F)) (rem bp o n : nat) (b : box) (s : list info * list Z) : outcome (list info * list Z) :=
  do i <- deref (nth_error (fst s) bp);
  let leaf x := {| child := None; dim := dim x; off := off x; size := size x |} in
  match n with
  | O => Ok (set_nth (fst s) bp (leaf i), snd s)
  | _ =>
      let d := longest b in
      let i' := {| child := child i; dim := d; off := o; size := n |} in
      do idx <- sort_range coords d o n (snd s);
      let na := below coords d (mid b d) (slice idx o n) in
      match rem with
      | O => Ok (set_nth (fst s) bp (leaf i'), idx)
      | S r =>
          match child i' with
          | None => UB
          | Some c =>
              do s1 <- build coords r c o na (cut_lo b d) (set_nth (fst s) bp i', idx);
              build coords r (S c) (o + na) (n - na) (cut_hi b d) s1
          end
      end
  end.
(** initialize, 210-224, and construct, 476-504. For no points the logarithm is minus
    infinity, and its conversion to int undefined *)
Record tree := { t_box : box; t_infos : list info; t_index : list Z }.
Definition initialize (coords : list (list F)) (len : nat) : outcome tree :=
  if existsb (fun c => (length c <? len)%nat) coords then UB else
  match len with
  | O => UB
  | _ =>
      let b := extents coords len in
      let n := (2 ^ (levels len + 1) - 1)%nat in
      do s <- build coords (levels len) 0 0 len b (map (fun i => {| child := Some (2 * i + 1)%nat; dim := 0; off := 0; size := 0 |}) (seq 0 n), zseq (Z.of_nat len));
      Ok {| t_box := b; t_infos := fst s; t_index := snd s |}
  end.
(** pointEqual, 435-447 *)
Definition dist2 (coords : list (list F)) (pt : list F) (i : Z) : F :=
  fold_left (fun s dx => let d := sub ar (snd dx) (val coords (fst dx) i) in add ar s (mul ar d d)) (combine (seq 0 (length coords)) pt) (zero ar).
(** findPoint, 356-433: the loop down the tree gives prevbp *)
Fixpoint descend (fuel : nat) (infos : list info) (pt : list F) (bp prev : nat) (b : box) : outcome nat :=
  match fuel with
  | O => Fuel
  | S f =>
      do i <- deref (nth_error infos bp);
      match child i with
      | None => Ok prev
      | Some c => if in_box pt (cut_lo b (dim i)) then descend f infos pt c bp (cut_lo b (dim i)) else descend f infos pt (S c) bp (cut_hi b (dim i))
      end
  end.
Definition find_point (coords : list (list F)) (tol2 : F) (t : tree) (pt : list F) : outcome (option Z) :=
  if in_box pt (t_box t) then
    do p <- descend (S (length (t_infos t))) (t_infos t) pt 0 0 (t_box t);
    do i <- deref (nth_error (t_infos t) p);
    if (length (t_index t) <? off i + size i)%nat then UB else
    Ok (find (fun j => lt ar (dist2 coords pt j) tol2) (slice (t_index t) (off i) (size i)))
  else Ok None.
(** a tree made, and a point looked up *)
Definition lookup (coords : list (list F)) (len : nat) (tol2 : F) (pt : list F) : outcome (option Z) :=
  do t <- initialize coords len; find_point coords tol2 t pt.
(** normalSearch, utils.cpp 3801-3895: x[ptid] - searchPt[0], so the difference is the other
    way round; the first point close enough. Its squares are added from left to right *)
Definition dist2_n (coords : list (list F)) (pt : list F) (i : Z) : F :=
  match map (fun dx => let d := sub ar (val coords (fst dx) i) (snd dx) in mul ar d d) (combine (seq 0 (length coords)) pt) with
  | [] => zero ar
  | x :: r => fold_left (add ar) r x
  end.
Definition search (coords : list (list F)) (len : nat) (tol2 : F) (pt : list F) : option Z :=
  find (fun j => lt ar (dist2_n coords pt j) tol2) (zseq (Z.of_nat len)).
End Kd.

(** ---- arithmetics ---- *)
(** exact *)
Definition exact : arith Q := {|
  lt := fun a b => negb (Qle_bool b a); le := Qle_bool; sub := Qminus; add := Qplus; mul := Qmult;
  half := fun a b => ((a + b) / 2)%Q; part200 := fun a => (a / 200)%Q; zero := 0%Q;
  num_max := inject_Z (2 ^ 1024); num_min := (1 # 2 ^ 1022)%Q; min_expansion := (2 # 10000000)%Q |}.
(** IEEE, rounding to nearest: 53, 1024 for double and 24, 128 for float *)
Section Ieee.
Variables prec emax : Z.
Definition small (n : positive) : spec_float := binary_normalize prec emax (Zpos n) 0 false.
(** 1e-9, rounded once *)
Definition tolerance : spec_float := SFdiv prec emax (small 1) (small 1000000000).
Definition ieee : arith spec_float := {|
  lt := SFltb; le := SFleb; sub := SFsub prec emax; add := SFadd prec emax; mul := SFmul prec emax;
  half := fun a b => SFdiv prec emax (SFadd prec emax a b) (small 2); part200 := fun a => SFdiv prec emax a (small 200); zero := S754_zero false;
  num_max := S754_finite false (2 ^ Z.to_pos prec - 1) (emax - prec); num_min := binary_normalize prec emax 1 (3 - emax - 1) false;
  min_expansion := SFmul prec emax tolerance (small 200) |}.
End Ieee.
