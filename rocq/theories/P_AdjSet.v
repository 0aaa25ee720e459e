(** C53: adjacency sets. *)
From Coq Require Import Permutation Sorting.Sorted.
From Verif Require Import Base Path DType Mem Node Json JsonSpec Number ArrayOps ArrayOpsFacts O2M MeshElemFacts PureJson AdjSet AdjSetFacts.
Local Open Scope Z_scope.
Import ListNotations.

(** canonicalize gives every group the name made of its domains and changes nothing else;
    is_canonical accepts the result. *)
Theorem C53_canonical d a r : well a -> canonicalize d a = Ok r -> map snd r = map snd a /\ NoDup (map fst r) /\
  (forall k g, In (k, g) r -> named d (nbrs g) k) /\
  ((forall k g, In (k, g) a -> nbrs g <> [] /\ NoDup (d :: nbrs g) /\ Forall (in_type INT32) (d :: nbrs g)) -> is_canonical r = Ok true).
Proof. exact (canonical_law d a r). Qed.
(** It succeeds if no two groups have the same neighbors and no group has the name another
    one is to get. *)
Theorem C53_canonical_total d a : well a ->
  (forall k g k' g', In (k, g) a -> In (k', g') a -> Permutation (nbrs g) (nbrs g') -> k = k') ->
  (forall k g k' g', In (k, g) a -> In (k', g') a -> named d (nbrs g) k' -> k = k') -> exists r, canonicalize d a = Ok r.
Proof. exact (canonical_total d a). Qed.

(** The pairwise form has one group for each neighbor; it lists what the groups with this
    neighbor list, in the order of their names. *)
Theorem C53_pairwise d a gs : well a -> Forall (fun p => NoDup (nbrs (snd p))) a -> Permutation gs a -> sorted_by_name gs ->
  exists r, to_pairwise d a = Ok r /\ is_pairwise r = true /\ NoDup (map fst r) /\
    (forall k g, In (k, g) r -> exists n, nbrs g = [n] /\ named d [n] k /\ neighbor a n /\ vals g = shared gs n) /\
    (forall n, neighbor a n -> exists k g, In (k, g) r /\ nbrs g = [n]).
Proof.
  intros W N P S. destruct (pairwise_law d a gs W N P S) as (r & E & Wr & G & X). exists r. split; [exact E|].
  split; [|split; [apply Wr|split; [|exact X]]].
  - apply pairwise_iff. intros k g I. destruct (G k g I) as (n & -> & _). reflexivity.
  - intros k g I. destruct (G k g I) as (n & A & _ & B). exists n. auto.
Qed.
(** Domains whose common groups agree still agree in the pairwise form: the group of the one
    for the other has the same name in both and lists the same entities in the same order. *)
Theorem C53_across (R : Z -> Z -> Prop) da db a b ra rb : well a -> well b ->
  Forall (fun p => NoDup (nbrs (snd p))) a -> Forall (fun p => NoDup (nbrs (snd p))) b ->
  agree R da db a b -> to_pairwise da a = Ok ra -> to_pairwise db b = Ok rb ->
  forall k g, In (k, g) ra -> nbrs g = [db] -> exists h, In (k, h) rb /\ nbrs h = [da] /\ Forall2 R (vals g) (vals h).
Proof. exact (across_law R da db a b ra rb). Qed.

(** The max-share form has every entity in exactly one group, whose neighbors are all the
    domains the entity is shared with. *)
Theorem C53_maxshare d a : well a -> exists r, to_maxshare d a = Ok r /\ is_maxshare r = true /\ NoDup (map fst r) /\
  (forall k g, In (k, g) r -> named d (nbrs g) k /\ NoDup (nbrs g) /\ vals g <> []) /\
  (forall k g e, In (k, g) r -> In e (vals g) -> entity a e /\ forall n, In n (nbrs g) <-> shares a e n) /\
  (forall e, entity a e -> exists k g, In (k, g) r /\ In e (vals g)) /\
  (forall k g k' g' e, In (k, g) r -> In (k', g') r -> In e (vals g) -> In e (vals g') -> k = k' /\ g = g').
Proof.
  intros W. destruct (maxshare_law d a (MatSet.by_name a) W (MatSetFacts.by_name_perm a) (by_name_sorted a (proj1 W))) as (r & E & Wr & G & X).
  destruct (maxshare_sharers d a r W E) as (S1 & S2 & S3 & S4). exists r. split; [exact E|]. split; [exact (maxshare_tests d a r W E)|]. split; [apply Wr|].
  split; [|auto]. intros k g I. destruct (G k g I) as (_ & A & _ & B & _). destruct (S4 k g I) as [_ C]. auto.
Qed.
(** Its groups list the entities in the order of their first appearance. *)
Theorem C53_maxshare_order d a gs r : well a -> Permutation gs a -> sorted_by_name gs -> to_maxshare d a = Ok r ->
  forall k g, In (k, g) r -> exists f, (forall e, f e = true <-> forall n, shares a e n <-> In n (nbrs g)) /\
    vals g = distinct (filter f (concat (map (fun p => vals (snd p)) gs))).
Proof.
  intros W P S E k g I. destruct (maxshare_law d a gs W P S) as (r' & E' & _ & G & _). rewrite E in E'. injection E' as <-.
  destruct (G k g I) as (_ & _ & _ & _ & F). exact F.
Qed.
(** From max-share to pairwise and back: the same groups. *)
Theorem C53_back d a p r : well a -> NoDup (concat (map (fun q => vals (snd q)) a)) ->
  Forall (fun q => NoDup (nbrs (snd q)) /\ nbrs (snd q) <> [] /\ vals (snd q) <> []) a ->
  (forall k g k' g', In (k, g) a -> In (k', g') a -> Permutation (nbrs g) (nbrs g') -> k = k') ->
  to_pairwise d a = Ok p -> to_maxshare d p = Ok r ->
  (forall k g, In (k, g) a -> exists k' g', In (k', g') r /\ named d (nbrs g) k' /\ Permutation (nbrs g') (nbrs g) /\ vals g' = vals g) /\
  (forall k' g', In (k', g') r -> exists k g, In (k, g) a /\ Permutation (nbrs g') (nbrs g) /\ vals g' = vals g).
Proof. exact (back_law d a p r). Qed.
(** The tests say what they are for. *)
Theorem C53_tests a : well a ->
  (is_pairwise a = true <-> forall k g, In (k, g) a -> length (nbrs g) = 1%nat) /\
  (is_maxshare a = true <-> NoDup (concat (map (fun q => vals (snd q)) a))).
Proof. intros W. split; [apply pairwise_iff|apply maxshare_iff, W]. Qed.

(** ---- cases ---- *)
Definition grp (ns vs : list Z) : group := Group (INT32, ns) (INT32, vs).
Definition adj : adjset := [(L "b", grp [1; 2] [5; 6]); (L "a", grp [2] [7])].
Example ex_well : well adj.
Proof.
  split; [repeat constructor; cbn; intuition discriminate|].
  repeat (apply Forall_cons; [split; (split; [reflexivity|repeat (apply Forall_cons; [cbv; split; discriminate|]); apply Forall_nil])|]); apply Forall_nil.
Qed.
Example ex_order : Permutation [(L "a", grp [2] [7]); (L "b", grp [1; 2] [5; 6])] adj /\ sorted_by_name [(L "a", grp [2] [7]); (L "b", grp [1; 2] [5; 6])].
Proof. split; [apply perm_swap|]. repeat constructor. Qed.
Example ex_pairwise : to_pairwise 0 adj = Ok [(L "group_0_1", grp [1] [5; 6]); (L "group_0_2", grp [2] [7; 5; 6])].
Proof. vm_compute. reflexivity. Qed.
Example ex_maxshare : (do p <- to_pairwise 0 adj; to_maxshare 0 p) = Ok [(L "group_0_1_2", grp [1; 2] [5; 6]); (L "group_0_2", grp [2] [7])].
Proof. vm_compute. reflexivity. Qed.
Example ex_canonical : canonicalize 4 adj = Ok [(L "group_1_2_4", grp [1; 2] [5; 6]); (L "group_2_4", grp [2] [7])] /\
  is_canonical [(L "group_1_2_4", grp [1; 2] [5; 6]); (L "group_2_4", grp [2] [7])] = Ok true /\ is_canonical adj = Ok false.
Proof. vm_compute. auto. Qed.
Example ex_tests : is_maxshare adj = true /\ is_pairwise adj = false.
Proof. vm_compute. auto. Qed.
Example ex_agree : agree Z.lt 0 1 adj [(L "b", grp [0] [15; 16])].
Proof.
  split.
  - intros k. split.
    + intros (g & [E|[E|[]]] & I); injection E as <- <-; [|cbn in I; intuition discriminate]. exists (grp [0] [15; 16]). split; left; reflexivity.
    + intros (h & [E|[]] & I); injection E as <- <-. exists (grp [1; 2] [5; 6]). split; left; reflexivity.
  - intros k g h [E|[E|[]]] I; injection E as <- <-; [|cbn in I; intuition discriminate]. intros [E|[]] _; injection E as <-. repeat constructor.
Qed.

(** ---- what does not hold ---- *)
(** Two groups that have each other's name cannot be renamed. *)
Theorem C53_rename_refuted : exists d a, well a /\
  (forall k g k' g', In (k, g) a -> In (k', g') a -> Permutation (nbrs g) (nbrs g') -> k = k') /\ canonicalize d a = Err.
Proof.
  exists 0, [(L "group_0_1", grp [2] [5]); (L "group_0_2", grp [1] [6])]. split; [|split].
  - split; [repeat constructor; cbn; intuition discriminate|].
    repeat (apply Forall_cons; [split; (split; [reflexivity|repeat (apply Forall_cons; [cbv; split; discriminate|]); apply Forall_nil])|]); apply Forall_nil.
  - intros k g k' g' [E|[E|[]]] [E'|[E'|[]]] P; injection E as <- <-; injection E' as <- <-; try reflexivity; apply Permutation_length_1 in P; discriminate.
  - vm_compute. reflexivity.
Qed.
(** is_canonical does not look at the neighbors, and takes any name that begins with
    "group". *)
Theorem C53_is_canonical_refuted : exists d a, is_canonical a = Ok true /\ exists k g, In (k, g) a /\ ~ named d (nbrs g) k.
Proof.
  exists 0, [(L "groupies_1_2", grp [7] [5])]. split; [vm_compute; reflexivity|]. exists (L "groupies_1_2"), (grp [7] [5]). split; [left; reflexivity|].
  intros (l & ts & _ & _ & F & E). cbn in E. destruct F as [|t n ts l]; cbn in E; discriminate E.
Qed.
(** Names made from domain ids that are no int are not read. *)
Theorem C53_big_domain_refuted : exists d a r, well a /\ canonicalize d a = Ok r /\ is_canonical r = UB.
Proof.
  exists 0, [(L "a", Group (INT64, [2147483648]) (INT32, [5]))]. eexists. split; [|split; [vm_compute; reflexivity|vm_compute; reflexivity]].
  split; [repeat constructor; cbn; intuition discriminate|].
  repeat (apply Forall_cons; [split; (split; [reflexivity|repeat (apply Forall_cons; [cbv; split; discriminate|]); apply Forall_nil])|]); apply Forall_nil.
Qed.
(** The pairwise form lists an entity twice if two groups share it with the same domain. *)
Theorem C53_twice_refuted : exists d a r k g, well a /\ Forall (fun p => NoDup (nbrs (snd p)) /\ NoDup (vals (snd p))) a /\
  to_pairwise d a = Ok r /\ In (k, g) r /\ ~ NoDup (vals g).
Proof.
  exists 0, [(L "a", grp [1; 2] [5]); (L "b", grp [1] [5; 6])]. eexists. exists (L "group_0_1"), (grp [1] [5; 5; 6]). split; [|split; [|split; [vm_compute; reflexivity|split; [left; reflexivity|]]]].
  - split; [repeat constructor; cbn; intuition discriminate|].
    repeat (apply Forall_cons; [split; (split; [reflexivity|repeat (apply Forall_cons; [cbv; split; discriminate|]); apply Forall_nil])|]); apply Forall_nil.
  - repeat (apply Forall_cons; [split; repeat constructor; cbn; intuition discriminate|]). apply Forall_nil.
  - intros N. inversion N as [|? ? N1 _]. apply N1. left. reflexivity.
Qed.
(** Three domains that agree need not agree in the max-share form: the same group lists the
    entities in different orders. *)
Definition dom0 : adjset := [(L "g1", grp [2] [12]); (L "g2", grp [1] [11; 12]); (L "g3", grp [2] [11])].
Definition dom1 : adjset := [(L "g2", grp [0] [21; 22]); (L "g4", grp [2] [21; 22])].
Definition dom2 : adjset := [(L "g1", grp [0] [32]); (L "g3", grp [0] [31]); (L "g4", grp [1] [31; 32])].
Definition same_digit (x y : Z) : Prop := x mod 10 = y mod 10.
Ltac pick := first [left; reflexivity|right; pick].
Ltac agreeing :=
  split;
  [ intros k; split; intros (g & I & J);
    (cbn in I; repeat (destruct I as [I|I]; [injection I as <- <-; cbn in J; first [exfalso; intuition discriminate|eexists; split; [pick|cbn; pick]]|]); destruct I)
  | intros k g h I J I' J';
    (cbn in I; repeat (destruct I as [I|I]; [injection I as <- <-; cbn in J; first [exfalso; intuition discriminate|
      cbn in I'; repeat (destruct I' as [I'|I']; [first [discriminate I'|injection I' as <-; cbn in J'; first [exfalso; intuition discriminate|repeat constructor]]|]); destruct I']|]); destruct I) ].
Theorem C53_maxshare_across_refuted :
  agree same_digit 0 1 dom0 dom1 /\ agree same_digit 0 2 dom0 dom2 /\ agree same_digit 1 2 dom1 dom2 /\
  exists r0 r1 k g h, to_maxshare 0 dom0 = Ok r0 /\ to_maxshare 1 dom1 = Ok r1 /\ In (k, g) r0 /\ In (k, h) r1 /\ ~ Forall2 same_digit (vals g) (vals h).
Proof.
  split; [agreeing|]. split; [agreeing|]. split; [agreeing|].
  do 2 eexists. exists (L "group_0_1_2"), (grp [1; 2] [12; 11]), (grp [0; 2] [21; 22]).
  split; [vm_compute; reflexivity|]. split; [vm_compute; reflexivity|]. split; [left; reflexivity|]. split; [left; reflexivity|].
  intros F. inversion F as [|? ? ? ? Q]; subst. vm_compute in Q. discriminate.
Qed.
(** An entity that one domain shares with the two others in different groups is in
    differently named groups. *)
Theorem C53_view_refuted : exists a b ra rb k g, agree Z.eq 0 1 a b /\ to_maxshare 0 a = Ok ra /\ to_maxshare 1 b = Ok rb /\
  In (k, g) ra /\ In 1 (nbrs g) /\ ~ In k (map fst rb).
Proof.
  exists [(L "g1", grp [1] [10])], [(L "g1", grp [0] [10]); (L "g2", grp [2] [10])]. do 2 eexists. exists (L "group_0_1"), (grp [1] [10]).
  split; [agreeing|]. split; [vm_compute; reflexivity|]. split; [vm_compute; reflexivity|]. split; [left; reflexivity|]. split; [left; reflexivity|].
  intros [E|[]]; discriminate E.
Qed.
(** With signed and unsigned leaves of the same size an id can be lost. *)
Theorem C53_unsigned_refuted : exists d a r k g e, Forall (fun p => is_int (fst (g_vals (snd p))) = true /\ Forall (in_type (fst (g_vals (snd p)))) (vals (snd p))) a /\
  to_pairwise d a = Ok r /\ In (k, g) r /\ In e (vals g) /\ ~ entity a e.
Proof.
  exists 0, [(L "a", Group (INT32, [1]) (UINT32, [3000000000])); (L "b", Group (INT32, [2]) (INT32, [5]))]. eexists.
  exists (L "group_0_1"), (grp [1] [-1294967296]), (-1294967296). split; [|split; [vm_compute; reflexivity|split; [left; reflexivity|split; [left; reflexivity|]]]].
  - repeat (apply Forall_cons; [split; [reflexivity|repeat (apply Forall_cons; [cbv; split; discriminate|]); apply Forall_nil]|]); apply Forall_nil.
  - intros (k & g & I & J). cbn in I. destruct I as [I|[I|[]]]; injection I as <- <-; cbn in J; intuition discriminate.
Qed.

Print Assumptions C53_canonical.
Print Assumptions C53_canonical_total.
Print Assumptions C53_pairwise.
Print Assumptions C53_across.
Print Assumptions C53_maxshare.
Print Assumptions C53_maxshare_order.
Print Assumptions C53_back.
Print Assumptions C53_tests.
Print Assumptions C53_rename_refuted.
Print Assumptions C53_is_canonical_refuted.
Print Assumptions C53_big_domain_refuted.
Print Assumptions C53_twice_refuted.
Print Assumptions C53_maxshare_across_refuted.
Print Assumptions C53_view_refuted.
Print Assumptions C53_unsigned_refuted.
