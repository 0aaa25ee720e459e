(** Property theorems C35 (space-filling curves).  Specification at the top of
    GilbertFacts.v: [edge2], [touch2], [edge3], [touch3], [consecutive], [breaks]. *)
From Verif Require Import Base Gilbert GilbertFacts Gilbert3Facts.
Local Open Scope Z_scope.

(** 2-D: for every width and height that are not both zero the call ends, every cell of
    the rectangle is passed to the consumer exactly once and no other cell is,
    consecutive cells touch, all but at most one consecutive pair share an edge, and
    all do when the longer side is even or the shorter side is odd. *)
Theorem C35_gilbert2d : forall w h, 0 <= w -> 0 <= h -> 0 < w + h ->
  exists l, (forall fuel, w + h <= Z.of_nat fuel -> gilbert2d fuel w h = Ok l) /\
    NoDup l /\ (forall i j, In (i, j) l <-> 0 <= i < w /\ 0 <= j < h) /\
    consecutive touch2 l /\ (breaks edge2 l <= 1)%nat /\
    (Z.max w h mod 2 = 0 \/ Z.min w h mod 2 = 1 -> breaks edge2 l = 0%nat).
Proof. exact gilbert2d_law. Qed.
Print Assumptions C35_gilbert2d.
(** 3-D: the same for positive sizes; with all sizes even every step crosses a face. *)
Theorem C35_gilbert3d : forall w h d, 1 <= w -> 1 <= h -> 1 <= d ->
  exists l, (forall fuel, w + h + d <= Z.of_nat fuel -> gilbert3d fuel w h d = Ok l) /\
    NoDup l /\ (forall i j k, In (i, j, k) l <-> 0 <= i < w /\ 0 <= j < h /\ 0 <= k < d) /\
    consecutive touch3 l /\
    (w mod 2 = 0 -> h mod 2 = 0 -> d mod 2 = 0 -> breaks edge3 l = 0%nat).
Proof. exact gilbert3d_law. Qed.
Print Assumptions C35_gilbert3d.
(** The one diagonal step does occur: 5 x 4. *)
Example C35_instance : (exists l, gilbert2d 9 5 4 = Ok l /\ length l = 20%nat /\ breaks edge2 l = 1%nat) /\
  (exists l, gilbert3d 9 2 4 3 = Ok l /\ length l = 24%nat).
Proof. split; eexists; (split; [vm_compute; reflexivity|]); vm_compute; auto. Qed.

(** FINDING.  On an empty block (0 x 0) the 2-D recursion never ends: no stack is deep enough. *)
Theorem C35_empty_block_refuted : exists w h, 0 <= w /\ 0 <= h /\ forall fuel, gilbert2d fuel w h = Fuel.
Proof. exists 0, 0. split; [lia|]. split; [lia|]. intros fuel. apply gen2_zero. Qed.
Print Assumptions C35_empty_block_refuted.
(** FINDING.  In 3-D one side of length 0 is enough: 0 x 2 x 3. *)
Theorem C35_flat_block_refuted : exists w h d, 0 <= w /\ 1 <= h /\ 1 <= d /\ forall fuel, gilbert3d fuel w h d = Fuel.
Proof. exists 0, 2, 3. split; [lia|]. split; [lia|]. split; [lia|]. exact gilbert3d_zero. Qed.
Print Assumptions C35_flat_block_refuted.
