(** Generalized Hilbert curves, src/libs/blueprint/conduit_blueprint_curves.hpp 73-424.
    IndexType is unbounded (no overflow).  The consumer is modelled by the list of
    cells it is called with, in order.  The recursions carry fuel; running out of it
    (a recursion that does not end: stack overflow) is the distinct outcome [Fuel]. *)
From Verif Require Import Base.
Local Open Scope Z_scope.

(** sgn, iabs, hpp 73-85 *)
Definition sgn (x : Z) : Z := if x <? 0 then -1 else if 0 <? x then 1 else 0.
Definition iabs (x : Z) : Z := if x <? 0 then - x else x.
(** [(w2 % 2) && (w > 2)], hpp 140, 152, 250-266 *)
Definition odd_step (w2 w : Z) : bool := negb (Z.rem w2 2 =? 0) && (2 <? w).

(** the row and column loops, hpp 104-128: [n] steps of (dx,dy) *)
Fixpoint run2 (n : nat) (x y dx dy : Z) : list (Z * Z) :=
  match n with
  | O => []
  | S k => (x, y) :: run2 k (x + dx) (y + dy) dx dy
  end.

(** generate2d, hpp 88-165 *)
Fixpoint generate2d (fuel : nat) (x y ax ay bx by_ : Z) : outcome (list (Z * Z)) :=
  match fuel with
  | O => Fuel
  | S f =>
      let w := iabs (ax + ay) in
      let h := iabs (bx + by_) in
      let dax := sgn ax in let day := sgn ay in
      let dbx := sgn bx in let dby := sgn by_ in
      if h =? 1 then Ok (run2 (Z.to_nat w) x y dax day)
      else if w =? 1 then Ok (run2 (Z.to_nat h) x y dbx dby)
      else
        let ax2 := Z.quot ax 2 in let ay2 := Z.quot ay 2 in
        let bx2 := Z.quot bx 2 in let by2 := Z.quot by_ 2 in
        let w2 := iabs (ax2 + ay2) in
        let h2 := iabs (bx2 + by2) in
        if 3 * h <? 2 * w then
          let o := odd_step w2 w in
          let ax2 := if o then ax2 + dax else ax2 in
          let ay2 := if o then ay2 + day else ay2 in
          do l1 <- generate2d f x y ax2 ay2 bx by_;
          do l2 <- generate2d f (x + ax2) (y + ay2) (ax - ax2) (ay - ay2) bx by_;
          Ok (l1 ++ l2)
        else
          let o := odd_step h2 h in
          let bx2 := if o then bx2 + dbx else bx2 in
          let by2 := if o then by2 + dby else by2 in
          do l1 <- generate2d f x y bx2 by2 ax2 ay2;
          do l2 <- generate2d f (x + bx2) (y + by2) ax ay (bx - bx2) (by_ - by2);
          do l3 <- generate2d f (x + (ax - dax) + (bx2 - dbx)) (y + (ay - day) + (by2 - dby))
                     (- bx2) (- by2) (- (ax - ax2)) (- (ay - ay2));
          Ok (l1 ++ l2 ++ l3)
  end.
(** gilbert2d, hpp 374-382 *)
Definition gilbert2d (fuel : nat) (width height : Z) : outcome (list (Z * Z)) :=
  if height <=? width then generate2d fuel 0 0 width 0 0 height
  else generate2d fuel 0 0 0 height width 0.

(** three components; the code spells the componentwise operations out *)
Definition v3 : Type := Z * Z * Z.
Definition vadd (a b : v3) : v3 := let '(a1, a2, a3) := a in let '(b1, b2, b3) := b in (a1 + b1, a2 + b2, a3 + b3).
Definition vsub (a b : v3) : v3 := let '(a1, a2, a3) := a in let '(b1, b2, b3) := b in (a1 - b1, a2 - b2, a3 - b3).
Definition vneg (a : v3) : v3 := let '(a1, a2, a3) := a in (- a1, - a2, - a3).
Definition vsgn (a : v3) : v3 := let '(a1, a2, a3) := a in (sgn a1, sgn a2, sgn a3).
Definition vhalf (a : v3) : v3 := let '(a1, a2, a3) := a in (Z.quot a1 2, Z.quot a2 2, Z.quot a3 2).
Definition vsize (a : v3) : Z := let '(a1, a2, a3) := a in iabs (a1 + a2 + a3).
(** the loops of hpp 194-226 *)
Fixpoint run3 (n : nat) (p d : v3) : list v3 :=
  match n with
  | O => []
  | S k => p :: run3 k (vadd p d) d
  end.

(** generate3d, hpp 168-356 *)
Fixpoint generate3d (fuel : nat) (p a b c : v3) : outcome (list v3) :=
  match fuel with
  | O => Fuel
  | S f =>
      let w := vsize a in let h := vsize b in let d := vsize c in
      let da := vsgn a in let db := vsgn b in let dc := vsgn c in
      if (h =? 1) && (d =? 1) then Ok (run3 (Z.to_nat w) p da)
      else if (w =? 1) && (d =? 1) then Ok (run3 (Z.to_nat h) p db)
      else if (w =? 1) && (h =? 1) then Ok (run3 (Z.to_nat d) p dc)
      else
        let a2 := vhalf a in let b2 := vhalf b in let c2 := vhalf c in
        let w2 := vsize a2 in let h2 := vsize b2 in let d2 := vsize c2 in
        let a2 := if odd_step w2 w then vadd a2 da else a2 in
        let b2 := if odd_step h2 h then vadd b2 db else b2 in
        let c2 := if odd_step d2 d then vadd c2 dc else c2 in
        if (3 * h <? 2 * w) && (3 * d <? 2 * w) then
          do l1 <- generate3d f p a2 b c;
          do l2 <- generate3d f (vadd p a2) (vsub a a2) b c;
          Ok (l1 ++ l2)
        else if 4 * d <? 3 * h then
          do l1 <- generate3d f p b2 c a2;
          do l2 <- generate3d f (vadd p b2) a (vsub b b2) c;
          do l3 <- generate3d f (vadd (vadd p (vsub a da)) (vsub b2 db)) (vneg b2) c (vneg (vsub a a2));
          Ok (l1 ++ l2 ++ l3)
        else if 4 * h <? 3 * d then
          do l1 <- generate3d f p c2 a2 b;
          do l2 <- generate3d f (vadd p c2) a b (vsub c c2);
          do l3 <- generate3d f (vadd (vadd p (vsub a da)) (vsub c2 dc)) (vneg c2) (vneg (vsub a a2)) b;
          Ok (l1 ++ l2 ++ l3)
        else
          do l1 <- generate3d f p b2 c2 a2;
          do l2 <- generate3d f (vadd p b2) c a2 (vsub b b2);
          do l3 <- generate3d f (vadd (vadd p (vsub b2 db)) (vsub c dc)) a (vneg b2) (vneg (vsub c c2));
          do l4 <- generate3d f (vadd (vadd (vadd p (vsub a da)) b2) (vsub c dc)) (vneg c) (vneg (vsub a a2)) (vsub b b2);
          do l5 <- generate3d f (vadd (vadd p (vsub a da)) (vsub b2 db)) (vneg b2) c2 (vneg (vsub a a2));
          Ok (l1 ++ l2 ++ l3 ++ l4 ++ l5)
  end.
(** gilbert3d, hpp 396-424 *)
Definition gilbert3d (fuel : nat) (width height depth : Z) : outcome (list v3) :=
  if (height <=? width) && (depth <=? width) then
    generate3d fuel (0, 0, 0) (width, 0, 0) (0, height, 0) (0, 0, depth)
  else if (width <=? height) && (depth <=? height) then
    generate3d fuel (0, 0, 0) (0, height, 0) (width, 0, 0) (0, 0, depth)
  else
    generate3d fuel (0, 0, 0) (0, 0, depth) (width, 0, 0) (0, height, 0).
