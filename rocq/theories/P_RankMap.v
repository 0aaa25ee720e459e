(** C71: which rank has a domain *)
From Coq Require Import ZArith Lia.
From Verif Require Import Base RankMap RankMapSpec RankMapFacts.
Import ListNotations.
Local Open Scope Z_scope.

(** the map tells for every number the last rank that has such a domain *)
Theorem C71_map : forall rs, (exists r id, has_domain rs r id) -> (forall r id, has_domain rs r id -> 0 <= id) ->
  exists m, rank_map rs = Ok m /\ tells rs m.
Proof. exact told_map. Qed.
(** so a number that only one rank has is found at that rank *)
Theorem C71_found : forall rs, (exists r id, has_domain rs r id) -> (forall r id, has_domain rs r id -> 0 <= id) ->
  exists m, rank_map rs = Ok m /\
    forall r id, has_domain rs r id -> (forall r', has_domain rs r' id -> r' = r) -> nth_error m (Z.to_nat id) = Some (Z.of_nat r).
Proof.
  intros rs E P. destruct (told_map rs E P) as (m & M & T). exists m. split; [exact M|]. intros r id. exact (told_once rs m r id T).
Qed.

(** * Ranks to try *)
Definition ranks1 : list (list (option Z)) := [[Some 4; Some 0]; []; [None; Some 5]].
Example C71_meets : (exists r id, has_domain ranks1 r id) /\ (forall r id, has_domain ranks1 r id -> 0 <= id).
Proof.
  split; [exists 0%nat, 4, [Some 4; Some 0]; split; [reflexivity|left; left; reflexivity]|].
  intros [|[|[|r]]] id (ds & N & H); cbn in N; try (destruct r; discriminate N); injection N as <-; cbn in H;
    repeat (destruct H as [H|H]); try discriminate; try contradiction; try (injection H as <-); lia.
Qed.
Example C71_example : rank_map ranks1 = Ok [0; -1; 2; -1; 0; 2]. Proof. reflexivity. Qed.

(** * What is not so *)
(** every numbered domain is found where it is: a domain without a number takes the place of
    another one *)
Theorem C71_taken_refuted : exists rs m r id ds, rank_map rs = Ok m /\ nth_error rs r = Some ds /\ In (Some id) ds /\
  (forall r' ds', nth_error rs r' = Some ds' -> In (Some id) ds' -> r' = r) /\ nth_error m (Z.to_nat id) <> Some (Z.of_nat r).
Proof.
  exists [[Some 1]; [None]], [-1; 1], 0%nat, 1, [Some 1]. split; [reflexivity|]. split; [reflexivity|]. split; [left; reflexivity|]. split; [|discriminate].
  intros [|[|r']] ds' N I; [reflexivity| |destruct r'; discriminate N]. injection N as <-. destruct I as [I|[]]. discriminate I.
Qed.
(** two domains of a rank have two places: not without numbers *)
Theorem C71_two_refuted : exists rs m, rank_map rs = Ok m /\
  (length (filter (fun k => 0 <=? k)%Z m) < length (concat rs))%nat /\ NoDup (filter (fun d => match d with Some _ => true | None => false end) (concat rs)).
Proof. exists [[None; None]], [0]. split; [reflexivity|]. split; [cbn; lia|constructor]. Qed.
(** nothing undefined happens: not for a negative number, and not without any domain *)
Theorem C71_negative_refuted : exists rs, (exists r id, has_domain rs r id) /\ rank_map rs = UB.
Proof. exists [[Some (-1); Some 2]]. split; [exists 0%nat, 2, [Some (-1); Some 2]; split; [reflexivity|left; right; left; reflexivity]|reflexivity]. Qed.
Theorem C71_none_refuted : exists rs, rs <> [] /\ (forall r id, has_domain rs r id -> 0 <= id) /\ rank_map rs = UB.
Proof.
  exists [[]; []]. split; [discriminate|]. split; [|reflexivity].
  intros [|[|r]] id (ds & N & H); cbn in N; try (destruct r; discriminate N); injection N as <-; cbn in H; tauto.
Qed.

Print Assumptions C71_map.
Print Assumptions C71_found.
Print Assumptions C71_taken_refuted.
Print Assumptions C71_two_refuted.
Print Assumptions C71_negative_refuted.
Print Assumptions C71_none_refuted.
