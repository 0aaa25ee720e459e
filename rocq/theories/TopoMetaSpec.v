(** What the points, lines and faces of a topology and the maps between them should be. *)
From Verif Require Import Base Node TopoMeta.
From Coq Require Import Permutation Sorting.Sorted.
Local Open Scope Z_scope.
Import ListNotations.

(** a function that sorts, for every comparison std::sort accepts *)
Definition strict_weak {A} (lt : A -> A -> bool) : Prop :=
  (forall x y, lt x y = true -> lt y x = false) /\ (forall x y z, lt y x = false -> lt z y = false -> lt z x = false).
Definition sorts (srt : forall A : Type, (A -> A -> bool) -> list A -> list A) : Prop :=
  forall A lt l, strict_weak lt -> Permutation (srt A lt l) l /\ StronglySorted (fun x y => lt y x = false) (srt A lt l).

(** the parts of a shape, by the points they join.  Wedges and pyramids come in triangles. *)
Inductive solid := Tri | Quad | Tet | Hex | Wedge | Pyramid.
Definition solid_name (s : solid) : str :=
  match s with Tri => L "tri" | Quad => L "quad" | Tet => L "tet" | Hex => L "hex" | Wedge => L "wedge" | Pyramid => L "pyramid" end.
Definition corners (s : solid) : nat := match s with Tri => 3 | Quad => 4 | Tet => 4 | Hex => 8 | Wedge => 6 | Pyramid => 5 end.
Definition solid_dim (s : solid) : Z := match s with Tri | Quad => 2 | _ => 3 end.
Definition parts (s : solid) : list (list nat) :=
  match s with
  | Tri => [[0;1];[1;2];[2;0]]
  | Quad => [[0;1];[1;2];[2;3];[3;0]]
  | Tet => [[0;2;1];[0;1;3];[0;3;2];[1;2;3]]
  | Hex => [[0;3;2;1];[0;1;5;4];[1;2;6;5];[2;3;7;6];[3;0;4;7];[4;5;6;7]]
  | Wedge => [[0;1;2];[0;1;3];[1;3;4];[1;2;4];[2;4;5];[2;0;5];[0;5;3];[3;4;5]]
  | Pyramid => [[0;1;2];[3;2;0];[0;1;4];[1;2;4];[2;3;4];[3;0;4]]
  end%nat.
Definition parts_of (s : solid) (el : list Z) : list (list Z) := map (map (fun i => nth i el 0)) (parts s).
(** the edges of a polygon: each point with the next, the last with the first *)
Definition cycle (f : list Z) : list (list Z) :=
  match f with [] => [] | a :: r => map (fun xy => [fst xy; snd xy]) (combine f (r ++ [a])) end.

(** [ds] has every entity of [fs] once, in the order of first mention and as mentioned first;
    [refs] says which one each mention is.  Entities are the same when they have the same points. *)
Record numbered (fs ds : list (list Z)) (refs : list Z) : Prop := mkNumbered {
  n_len : length refs = length fs;
  n_ref : forall j f, nth_error fs j = Some f -> exists i d, nth_error refs j = Some (Z.of_nat i) /\ nth_error ds i = Some d /\ Permutation f d;
  n_once : forall i i' d d', nth_error ds i = Some d -> nth_error ds i' = Some d' -> Permutation d d' -> i = i';
  n_first : forall i d, nth_error ds i = Some d -> exists j, nth_error fs j = Some d /\ nth_error refs j = Some (Z.of_nat i) /\
              forall j', (j' < j)%nat -> exists r, nth_error refs j' = Some r /\ r < Z.of_nat i }.

(** the hash tells these entities apart *)
Definition told_apart (fs : list (list Z)) : Prop :=
  forall f g f' g', In f fs -> In g fs -> Permutation f f' -> Permutation g g' -> StronglySorted Z.le f' -> StronglySorted Z.le g' ->
    hash f' = hash g' -> Permutation f g.
(** and with the larger end of a line first *)
Definition told_apart_down (ls : list (list Z)) : Prop :=
  forall f g f' g', In f ls -> In g ls -> Permutation f f' -> Permutation g g' -> StronglySorted Z.ge f' -> StronglySorted Z.ge g' ->
    hash f' = hash g' -> Permutation f g.

(** a map that holds these rows, one after the other *)
Definition holds (m : omap) (rows : list (list Z)) : Prop :=
  m_values m = concat rows /\ m_sizes m = map (fun r => Z.of_nat (length r)) rows /\
  length (m_offsets m) = length rows /\
  forall i o, nth_error (m_offsets m) i = Some o -> o = Z.of_nat (length (concat (firstn i rows))).
(** [back] has, for each of [n] children, its parents in [rows], ascending, as often as they list it *)
Definition times (x : Z) (l : list Z) : nat := count_occ Z.eq_dec l x.
Definition parents (rows : list (list Z)) (n : Z) (back : list (list Z)) : Prop :=
  Z.of_nat (length back) = n /\
  forall c row, nth_error back c = Some row -> StronglySorted Z.le row /\
    (forall p, In p row -> 0 <= p < Z.of_nat (length rows)) /\
    forall p r, nth_error rows p = Some r -> times (Z.of_nat p) row = times (Z.of_nat c) r.

(** faces with the same points have the same edges *)
Definition untwisted (fs : list (list Z)) : Prop :=
  forall f g e, In f fs -> In g fs -> Permutation f g -> In e (cycle f) -> exists e', In e' (cycle g) /\ Permutation e e'.
(** the edges of a solid *)
Definition edges_of (s : solid) (el : list Z) : list (list Z) := concat (map cycle (parts_of s el)).
Definition edge_count (s : solid) : nat := match s with Tri => 3 | Quad => 4 | Tet => 6 | Hex => 12 | Wedge => 12 | Pyramid => 9 end.
(** line [i] is the edge [e] *)
Definition is_line (ds : list (list Z)) (e : list Z) (i : Z) : Prop := exists k d, i = Z.of_nat k /\ nth_error ds k = Some d /\ Permutation e d.
(** a mesh of solids, no two of whose faces or edges the hash takes for one another, and whose
    shared faces go round their points in the same order *)
Record solid_hyp (s : solid) (els : list (list Z)) : Prop := {
  sh_dim : solid_dim s = 3;
  sh_len : Forall (fun el => length el = corners s) els;
  sh_faces : told_apart (concat (map (parts_of s) els));
  sh_lines : told_apart (concat (map (edges_of s) els));
  sh_down : told_apart_down (concat (map (edges_of s) els));
  sh_flat : untwisted (concat (map (parts_of s) els)) }.
