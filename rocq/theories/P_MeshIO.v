(** Theorems about saving meshes to files and reading them back. *)
From Coq Require Import ZArith Lia Permutation.
From Verif Require Import Base Path Json Node MeshIO MeshIOSpec MeshIOFacts MeshIORounds MeshIONames MeshIOTrip MeshIOMore.
Local Open Scope Z_scope.

(** ** Domains to files *)
Theorem C60_files_balanced n nf : 1 <= nf <= n ->
  length (d2f_map n nf) = Z.to_nat n /\
  (forall d f, znth (d2f_map n nf) d = Some f <-> 0 <= f < nf /\ first_of n nf f <= d < first_of n nf (f + 1)) /\
  first_of n nf 0 = 0 /\ first_of n nf nf = n /\
  forall f, 0 <= f < nf -> first_of n nf (f + 1) - first_of n nf f = n / nf \/ first_of n nf (f + 1) - first_of n nf f = n / nf + 1.
Proof. exact (files_balanced n nf). Qed.
Example files_ex : d2f_map 7 3 = [0; 0; 0; 1; 1; 2; 2]. Proof. vm_compute. reflexivity. Qed.

(** ** In one round no two ranks write to the same file *)
Theorem C60_one_writer {V} (fails : nat -> Z -> bool) (sched : nat -> list (list (@op V)) -> list op) (truncate : bool) (dir ext mesh : str) d2f nf :
  (forall n ls, merge_of ls (sched n ls)) ->
  (forall f g, 0 <= f < nf -> 0 <= g < nf -> file_name dir ext f = file_name dir ext g -> f = g) ->
  forall round (w : list (@rank V)),
  (forall i r, nth_error w i = Some r -> r_id r = Z.of_nat i /\ length (r_made r) = Z.to_nat nf) ->
  let ts := map (fun r => turn fails truncate dir ext mesh d2f round (batons d2f nf w) (made nf w) r (zseq nf)) w in
  forallb (fun t => snd t) ts = true ->
  forall i j a b x y, i <> j -> nth_error (map (fun t => fst (fst t)) ts) i = Some a -> nth_error (map (fun t => fst (fst t)) ts) j = Some b ->
  In x a -> In y b -> o_file x <> o_file y.
Proof. intros A B round w W ts O. exact (round_exclusive fails sched A truncate dir ext mesh d2f nf B round w W O). Qed.
Example one_writer_ex : let w := new_ranks 2 0 [[(0, 10); (1, 11)]; [(2, 12); (3, 13)]] in
  let ts := map (fun r => turn (fun _ _ => false) true (L "out") (L "json") (L "m") (d2f_map 4 2) 0 (batons (d2f_map 4 2) 2 w) (made 2 w) r (zseq 2)) w in
  (forall i r, nth_error w i = Some r -> r_id r = Z.of_nat i /\ length (r_made r) = Z.to_nat 2) /\ forallb (fun t => snd t) ts = true /\
  map (fun t => map o_file (fst (fst t))) ts = [[L "out/file_000000.json"; L "out/file_000000.json"]; [L "out/file_000001.json"; L "out/file_000001.json"]].
Proof. split; [intros [|[|[|i]]] r E; cbn in E; try discriminate E; injection E as <-; split; reflexivity|]. split; vm_compute; reflexivity. Qed.

(** ** Round trip *)
Theorem C60_round_trip {V} (setid : Z -> V -> V) (upd : V -> V -> V) (fails : nat -> Z -> bool) (sched : nat -> list (list (@op V)) -> list op) (mpi : bool) (path sfx proto : str) (o : opts) (ranks : list (list V)) (d d' : @disk V) (p : Z) :
  (forall n ls, merge_of ls (sched n ls)) ->
  path_ok path -> simple sfx -> simple proto -> mesh_ok (op_mesh o) ->
  concat ranks <> [] -> 1 <= p ->
  (op_trunc o = true \/ forall name c, mget d name = Some c -> prefixb (path ++ sfx) name = false) ->
  (op_style o = RootOnly -> Z.of_nat (length (concat ranks)) <> 1 -> ~ In "/"%char path) ->
  write_mesh setid upd fails sched mpi path sfx proto o ranks d = Ok d' ->
  exists parts,
    omap_list (read_mesh d' (path ++ sfx ++ L ".root") (op_mesh o) p) (zseq p) = Ok parts /\
    concat parts = map (fun iv => (dom_name (fst iv), Some (setid (fst iv) (snd iv)))) (combine (zseq (Z.of_nat (length (concat ranks)))) (concat ranks)) /\
    forall r l, nth_error parts r = Some l ->
      Z.of_nat (length l) = Z.of_nat (length (concat ranks)) / p \/ Z.of_nat (length l) = Z.of_nat (length (concat ranks)) / p + 1.
Proof. intros A B C D E F G H I J. exact (round_trip_path setid upd fails sched A mpi path sfx proto B C D o ranks d d' p E F H G I J). Qed.

(** ** Writing ends, with an error if something could not be written *)
Theorem C60_completes {V} (setid : Z -> V -> V) (upd : V -> V -> V) (fails : nat -> Z -> bool) (sched : nat -> list (list (@op V)) -> list op) (mpi : bool) (path sfx proto : str) (o : opts) (ranks : list (list V)) (d : @disk V) :
  (forall n ls, merge_of ls (sched n ls)) -> path_ok path -> simple sfx -> concat ranks <> [] ->
  (write_mesh setid upd fails sched mpi path sfx proto o ranks d = Err \/ exists d', write_mesh setid upd fails sched mpi path sfx proto o ranks d = Ok d') /\
  ((forall k i, fails k i = false) -> exists d', write_mesh setid upd fails sched mpi path sfx proto o ranks d = Ok d').
Proof. intros A B C D. exact (conj (ends_path setid upd fails sched A mpi path sfx proto B C o ranks d D) (completes_path setid upd fails sched A mpi path sfx proto B C o ranks d D)). Qed.
Theorem C60_failure {V} (setid : Z -> V -> V) (upd : V -> V -> V) (fails : nat -> Z -> bool) (sched : nat -> list (list (@op V)) -> list op) (mpi : bool) (path sfx proto : str) (o : opts) (ranks : list (list V)) (d : @disk V) i :
  (forall n ls, merge_of ls (sched n ls)) -> path_ok path -> simple sfx -> mesh_ok (op_mesh o) ->
  op_style o = MultiFile -> 0 < op_files o < Z.of_nat (length (concat ranks)) ->
  0 <= i < Z.of_nat (length (concat ranks)) -> (forall k, fails k i = true) ->
  write_mesh setid upd fails sched mpi path sfx proto o ranks d = Err.
Proof. intros A B C D E F G H. exact (failure_path setid upd fails sched A mpi path sfx proto B C o ranks d i D E F G H). Qed.

(** ** A second mesh written to the same files leaves the first as it was *)
Theorem C60_second_mesh {V} (setid : Z -> V -> V) (upd : V -> V -> V) (fails : nat -> Z -> bool) (sched : nat -> list (list (@op V)) -> list op) (mpi : bool) (path sfx proto : str) (oa ob : opts) (ra rb : list (list V)) (d d1 d2 : @disk V) (p r : Z) :
  (forall n ls, merge_of ls (sched n ls)) ->
  path_ok path -> simple sfx -> simple proto -> mesh_ok (op_mesh oa) -> mesh_ok (op_mesh ob) -> op_mesh oa <> op_mesh ob ->
  concat ra <> [] ->
  (op_trunc oa = true \/ forall name c, mget d name = Some c -> prefixb (path ++ sfx) name = false) ->
  (op_style oa = RootOnly -> Z.of_nat (length (concat ra)) <> 1 -> ~ In "/"%char path) ->
  write_mesh setid upd fails sched mpi path sfx proto oa ra d = Ok d1 ->
  op_trunc ob = false ->
  (op_style ob = RootOnly \/ op_style ob = Default /\ length (concat rb) = 1%nat \/ 0 < op_files ob < Z.of_nat (length (concat rb))) ->
  write_mesh setid upd fails sched mpi path sfx proto ob rb d1 = Ok d2 ->
  1 <= p -> 0 <= r < p ->
  read_mesh d2 (path ++ sfx ++ L ".root") (op_mesh oa) p r = read_mesh d1 (path ++ sfx ++ L ".root") (op_mesh oa) p r.
Proof.
  intros A B C D E F G H I J K M N O P Q. refine (second_mesh setid upd fails sched A mpi path sfx proto B C D oa ob ra rb d d1 d2 p r E F G H I J K M _ O P Q).
  unfold style_of. destruct N as [->|[[-> ->]|N]]; [left; reflexivity|left; reflexivity|right; exact N].
Qed.

(** ** Readers that know only file_pattern and tree_pattern find the same *)
Theorem C60_old_reader {V} (setid : Z -> V -> V) (upd : V -> V -> V) (fails : nat -> Z -> bool) (sched : nat -> list (list (@op V)) -> list op) (mpi : bool) (path sfx proto : str) (o : opts) (ranks : list (list V)) (d d' : @disk V) c (p r : Z) :
  (forall n ls, merge_of ls (sched n ls)) ->
  path_ok path -> simple sfx -> simple proto -> mesh_ok (op_mesh o) ->
  concat ranks <> [] ->
  (op_trunc o = true \/ forall name c, mget d name = Some c -> prefixb (path ++ sfx) name = false) ->
  (op_style o = RootOnly -> Z.of_nat (length (concat ranks)) <> 1 -> ~ In "/"%char path) ->
  write_mesh setid upd fails sched mpi path sfx proto o ranks d = Ok d' ->
  mget d' (path ++ sfx ++ L ".root") = Some c -> 1 <= p -> 0 <= r < p ->
  read_mesh (mset d' (path ++ sfx ++ L ".root") (mset c (index_key (op_mesh o)) (Index None))) (path ++ sfx ++ L ".root") (op_mesh o) p r
  = read_mesh d' (path ++ sfx ++ L ".root") (op_mesh o) p r.
Proof. intros A B C D E F G H I J K M. exact (old_reader setid upd fails sched A mpi path sfx proto B C D o ranks d d' c p r E F G H I J K M). Qed.

(** ** A partition map may list the domains in any order: the entry that names a domain says its file *)
Theorem C60_map pat (es : list (Z * Z)) n f i : Permutation (map snd es) (zseq n) -> In (f, i) es ->
  full_path pat (Some (mkPM (Some (map fst es)) (map snd es))) i = fmt [(L "file", f); (L "domain", i)] None pat.
Proof. exact (map_any pat es n f i). Qed.
Example map_ex : let es := [(5, 2); (7, 0); (6, 1)] in Permutation (map snd es) (zseq 3) /\
  map (part_paths (L "run/f_{file:06d}.json:/dom_{domain:06d}") (Some (mkPM (Some (map fst es)) (map snd es)))) (zseq 3)
  = [Ok (L "run/f_000007.json", L "/dom_000000/"); Ok (L "run/f_000006.json", L "/dom_000001/"); Ok (L "run/f_000005.json", L "/dom_000002/")].
Proof.
  cbn zeta. split; [|vm_compute; reflexivity]. change (zseq 3) with ([0; 1] ++ 2 :: []). apply Permutation_cons_app. reflexivity.
Qed.

(** ** Cases that meet the hypotheses *)
Definition one_after_other {A} (n : nat) (ls : list (list A)) : list A := concat ls.
Example sched_ex {A} : forall n (ls : list (list A)), merge_of ls (one_after_other n ls). Proof. intros n ls. apply merge_concat. Qed.
Definition tag (i v : Z) : Z := 1000 * i + v.
Definition newer (a b : Z) : Z := b.
Definition never (k : nat) (i : Z) : bool := false.
Definition wr (o : opts) (path : string) (ranks : list (list Z)) (d : @disk Z) := write_mesh tag newer never one_after_other true (L path) (L ".cycle_000100") (L "json") o ranks d.
Definition rd (d : outcome (@disk Z)) (path mesh : string) (p r : Z) := do x <- d; read_mesh x (L path ++ L ".cycle_000100" ++ L ".root") (L mesh) p r.
Lemma simple_by s : forallb (fun c => negb (existsb (Ascii.eqb c) (L "/{}:%")) && negb (Ascii.eqb c "000"))%bool s = true -> simple s.
Proof.
  intros H c I. rewrite forallb_forall in H. specialize (H c I). apply andb_true_iff in H. destruct H as [H1 H2]. split.
  - intros J. assert (E : existsb (Ascii.eqb c) (L "/{}:%") = true) by (apply existsb_exists; exists c; split; [exact J|apply Ascii.eqb_refl]). rewrite E in H1. discriminate H1.
  - intros ->. discriminate H2.
Qed.
Example path_ex : path_ok (L "out/run") /\ simple (L ".cycle_000100") /\ simple (L "json") /\ mesh_ok (L "mesh").
Proof.
  split; [|split; [|split]]; try (apply simple_by; reflexivity).
  - exists (L "run"). split; [discriminate|]. split; [apply simple_by; reflexivity|]. right. exists (L "out"). repeat split; try discriminate. intros I. cbn in I. repeat (destruct I as [I|I]; [discriminate I|]). destruct I.
  - split; [discriminate|]. split; [apply simple_by; reflexivity|]. intros I. cbn in I. repeat (destruct I as [I|I]; [discriminate I|]). destruct I.
Qed.
(** five domains on three ranks to two files; read by two ranks *)
Example trip_ex : let d := wr (mkO Default (L "mesh") 2 true) "out/run" [[1; 2]; []; [3; 4; 5]] [] in
  rd d "out/run" "mesh" 2 0 = Ok [(L "domain_000000", Some 1); (L "domain_000001", Some 1002); (L "domain_000002", Some 2003)] /\
  rd d "out/run" "mesh" 2 1 = Ok [(L "domain_000003", Some 3004); (L "domain_000004", Some 4005)] /\
  (do x <- d; Ok (map fst x)) = Ok [L "out/run.cycle_000100/file_000000.json"; L "out/run.cycle_000100/file_000001.json"; L "out/run.cycle_000100.root"].
Proof. vm_compute. repeat split; reflexivity. Qed.
Example own_ex : let d := wr (mkO Default (L "mesh") (-1) true) "out/run" [[1; 2]; [3]] [] in
  rd d "out/run" "mesh" 1 0 = Ok [(L "domain_000000", Some 1); (L "domain_000001", Some 1002); (L "domain_000002", Some 2003)].
Proof. vm_compute. reflexivity. Qed.
Example second_ex : let d := wr (mkO MultiFile (L "a") 2 true) "run" [[1; 2]; [3]] [] in
  let d2 := do x <- d; wr (mkO MultiFile (L "b") 1 false) "run" [[5]; [6]] x in
  rd d2 "run" "a" 1 0 = rd d "run" "a" 1 0 /\ rd d2 "run" "b" 1 0 = Ok [(L "domain_000000", Some 5); (L "domain_000001", Some 1006)].
Proof. vm_compute. split; reflexivity. Qed.
Example failure_ex : write_mesh tag newer (fun k i => i =? 2) one_after_other true (L "run") [] (L "json") (mkO MultiFile (L "a") 2 true) [[1; 2]; [3]] [] = Err.
Proof. vm_compute. reflexivity. Qed.

(** ** Refutations *)
(** several domains in the root file: a path with a directory names the directory twice *)
Theorem C60_root_only_dir_refuted : exists path ranks, path_ok (L path) /\ (exists d, wr (mkO RootOnly (L "mesh") (-1) true) path ranks [] = Ok d) /\
  rd (wr (mkO RootOnly (L "mesh") (-1) true) path ranks []) path "mesh" 1 0 = Err.
Proof. exists "out/run"%string, [[1; 2]]. split; [apply path_ex|]. split; [eexists; vm_compute; reflexivity|vm_compute; reflexivity]. Qed.
(** a mesh without domains: nothing to do in serial, an error with MPI *)
Theorem C60_no_domains_refuted : exists ranks, concat ranks = @nil Z /\
  write_mesh tag newer never one_after_other false (L "run") [] (L "json") (mkO Default (L "mesh") (-1) true) ranks [] = Ok [] /\
  write_mesh tag newer never one_after_other true (L "run") [] (L "json") (mkO Default (L "mesh") (-1) true) ranks [] = Err.
Proof. exists [[]; []]. vm_compute. repeat split; reflexivity. Qed.
(** files in the top directory are looked for in the current one *)
Theorem C60_top_directory_refuted : exists path ranks, (exists d, wr (mkO Default (L "mesh") (-1) true) path ranks [] = Ok d) /\
  rd (wr (mkO Default (L "mesh") (-1) true) path ranks []) path "mesh" 1 0 = Err.
Proof. exists "/run"%string, [[1; 2]]. split; [eexists; vm_compute; reflexivity|vm_compute; reflexivity]. Qed.
(** braces in a file name are taken for a field of the pattern *)
Theorem C60_braces_refuted : exists path ranks, (exists d, wr (mkO Default (L "mesh") (-1) true) path ranks [] = Ok d) /\
  rd (wr (mkO Default (L "mesh") (-1) true) path ranks []) path "mesh" 1 0 = Err.
Proof. exists "run{1}"%string, [[1; 2]]. split; [eexists; vm_compute; reflexivity|vm_compute; reflexivity]. Qed.
(** a second mesh, one file per domain (the default): the first mesh is gone although truncation was not asked for *)
Theorem C60_second_mesh_refuted : exists ra rb d1 d2, wr (mkO Default (L "a") (-1) true) "run" ra [] = Ok d1 /\ wr (mkO Default (L "b") (-1) false) "run" rb d1 = Ok d2 /\
  rd (Ok d1) "run" "a" 1 0 = Ok [(L "domain_000000", Some 1); (L "domain_000001", Some 1002)] /\
  rd (Ok d2) "run" "a" 1 0 = Ok [(L "domain_000000", None); (L "domain_000001", None)].
Proof. exists [[1; 2]], [[5; 6]]. eexists _, _. split; [vm_compute; reflexivity|]. split; [vm_compute; reflexivity|]. split; vm_compute; reflexivity. Qed.
(** writing the mesh again with fewer domains, without truncation: the old domains are still read *)
Theorem C60_rewrite_fewer_refuted : exists ra rb d1 d2, wr (mkO MultiFile (L "a") 1 true) "run" ra [] = Ok d1 /\ wr (mkO MultiFile (L "a") 1 false) "run" rb d1 = Ok d2 /\
  length (concat rb) = 2%nat /\
  rd (Ok d2) "run" "a" 1 0 = Ok [(L "domain_000000", Some 7); (L "domain_000001", Some 1008); (L "domain_000002", Some 2003)].
Proof. exists [[1; 2; 3]], [[7; 8]]. eexists _, _. split; [vm_compute; reflexivity|]. split; [vm_compute; reflexivity|]. split; vm_compute; reflexivity. Qed.
(** ... and with one domain in the root file: it is read as often as there were domains before *)
Theorem C60_rewrite_one_refuted : exists ra rb d1 d2, wr (mkO RootOnly (L "a") (-1) true) "run" ra [] = Ok d1 /\ wr (mkO Default (L "a") (-1) false) "run" rb d1 = Ok d2 /\
  length (concat rb) = 1%nat /\
  rd (Ok d2) "run" "a" 1 0 = Ok [(L "domain_000000", Some 7); (L "domain_000001", Some 7)].
Proof. exists [[1; 2]], [[7]]. eexists _, _. split; [vm_compute; reflexivity|]. split; [vm_compute; reflexivity|]. split; vm_compute; reflexivity. Qed.
(** an older root file whose pattern has %d: the two characters after it are lost *)
Theorem C60_old_pattern_refuted : exists i, legacy_paths (L "run/domain_%d.json") (L "/") 4 4 i = Ok (L "run/domain_3son", L "/").
Proof. exists 3. vm_compute. reflexivity. Qed.
(** a partition map that does not list the domains 0 to n-1 is read out of bounds *)
Theorem C60_sparse_ids_refuted : exists doms, NoDup doms /\ (forall x, In x doms -> 0 <= x) /\
  part_paths (L "run.root:/domain_{domain:06d}") (Some (mkPM None doms)) 0 = UB.
Proof. exists [0; 2]. split; [repeat constructor; cbn; intuition lia|]. split; [intros x [<-|[<-|[]]]; lia|]. vm_compute. reflexivity. Qed.
(** the colon marks a path inside a file: a name with a colon is refused *)
Theorem C60_colon_refuted : exists path ranks, concat ranks <> [] /\ wr (mkO Default (L "mesh") (-1) true) path ranks [] = Err.
Proof. exists "run:1"%string, [[1]]. split; [discriminate|vm_compute; reflexivity]. Qed.

Print Assumptions C60_files_balanced.
Print Assumptions C60_one_writer.
Print Assumptions C60_round_trip.
Print Assumptions C60_completes.
Print Assumptions C60_failure.
Print Assumptions C60_second_mesh.
Print Assumptions C60_old_reader.
Print Assumptions C60_map.
Print Assumptions C60_root_only_dir_refuted.
Print Assumptions C60_no_domains_refuted.
Print Assumptions C60_top_directory_refuted.
Print Assumptions C60_braces_refuted.
Print Assumptions C60_second_mesh_refuted.
Print Assumptions C60_rewrite_fewer_refuted.
Print Assumptions C60_rewrite_one_refuted.
Print Assumptions C60_old_pattern_refuted.
Print Assumptions C60_sparse_ids_refuted.
Print Assumptions C60_colon_refuted.
