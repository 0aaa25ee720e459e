From Coq Require Import ZArith Lia Permutation.
From Verif Require Import Base Path PathFacts Json JsonSpec JsonSchema Node NodeFacts SchemaInv MeshIO MeshIOSpec MeshIOFacts MeshIORounds MeshIONames.
Local Open Scope Z_scope.

Section Trip.
Context {V : Type}.
Variable setid : Z -> V -> V.
Variable upd : V -> V -> V.
Variable fails : nat -> Z -> bool.
Variable sched : nat -> list (list (@op V)) -> list (@op V).
Hypothesis sched_ok : forall n ls, merge_of ls (sched n ls).
Variable mpi : bool.
Variable pre base sfx proto : str.
Hypothesis Hpre : pre_ok pre.
Hypothesis Hcolon : free ":"%char pre.
Hypothesis Hbase : base <> [].
Hypothesis Sbase : simple base.
Hypothesis Ssfx : simple sfx.
Hypothesis Sproto : simple proto.
Variable o : opts.
Hypothesis Hmesh : mesh_ok (op_mesh o).
Let path := pre ++ base.
Let fname := base ++ sfx.
Notation root := (root_name path sfx).
Notation odir := (out_dir path sfx).
Notation step := (@step V upd). Notation upd_item := (@upd_item V upd). Notation disk := (@disk V).

Lemma Sfname : simple fname. Proof. apply simple_app; assumption. Qed.
Lemma Nfname : fname <> []. Proof. unfold fname. destruct base; [congruence|discriminate]. Qed.
Lemma root_eq : root = pre ++ (fname ++ L ".root").
Proof. unfold root_name, path, fname. rewrite <- !app_assoc. reflexivity. Qed.
Lemma odir_eq : odir = pre ++ fname.
Proof. unfold out_dir, path, fname. rewrite <- !app_assoc. reflexivity. Qed.
Lemma own_eq i : own_file path sfx proto i = pre ++ fname ++ slash :: dom_name i ++ L "." ++ proto.
Proof. unfold own_file. rewrite odir_eq. apply join_file_eq; [exact Nfname|exact Sfname]. Qed.
Lemma file_eq f : file_name odir proto f = pre ++ fname ++ slash :: L "file_" ++ pad 6 f ++ L "." ++ proto.
Proof. unfold file_name. rewrite odir_eq. apply join_file_eq; [exact Nfname|exact Sfname]. Qed.
Lemma file_inj f g : 0 <= f -> 0 <= g -> file_name odir proto f = file_name odir proto g -> f = g.
Proof.
  intros F G E. rewrite !file_eq in E. apply app_inv_head in E. apply app_inv_head in E. injection E as E.
  apply app_inv_tail in E. apply pad_inj in E; assumption.
Qed.
Lemma own_inj f g : 0 <= f -> 0 <= g -> own_file path sfx proto f = own_file path sfx proto g -> f = g.
Proof.
  intros F G E. rewrite !own_eq in E. apply app_inv_head in E. apply app_inv_head in E. injection E as E.
  apply app_inv_tail in E. apply pad_inj in E; assumption.
Qed.
Lemma root_not x : root <> pre ++ fname ++ slash :: x.
Proof. rewrite root_eq. intros E. apply app_inv_head in E. apply app_inv_head in E. discriminate E. Qed.

Notation mesh := (op_mesh o).
Lemma Nmesh : mesh <> []. Proof. apply Hmesh. Qed.
Lemma Smesh : simple mesh. Proof. apply Hmesh. Qed.
Definition mkey : str := mesh ++ [slash].
Definition dkey (i : Z) : str := dom_name i ++ slash :: mkey.
Lemma canon_mesh : canon mesh = mkey. Proof. apply canon_one; [exact Nmesh|exact Smesh]. Qed.
Lemma canon_dom i : 0 <= i -> canon (dom_name i ++ slash :: mesh) = dkey i.
Proof. intros H. rewrite canon_app by (discriminate || apply simple_dom, H). rewrite canon_mesh. reflexivity. Qed.
Lemma dkey_inj i j : 0 <= i -> 0 <= j -> dkey i = dkey j -> i = j.
Proof. intros A B E. unfold dkey in E. apply app_inv_tail in E. apply dom_name_inj; assumption. Qed.
Lemma index_key_eq m : m <> [] -> simple m -> index_key m = L "blueprint_index/" ++ m ++ [slash].
Proof.
  intros N S. unfold index_key. change (L "blueprint_index/" ++ m) with (L "blueprint_index" ++ slash :: m).
  rewrite canon_app; [|discriminate|simple_lit]. rewrite canon_one by assumption. reflexivity.
Qed.
Lemma legacy_key_eq : legacy_key = L "file_pattern/". Proof. reflexivity. Qed.

(** where domain i of n is written *)
Definition place (n i : Z) : str * str :=
  if style_of o n then (root, if n =? 1 then mkey else dkey i)
  else if n =? files_of o n then (own_file path sfx proto i, mkey)
  else (file_name odir proto (match znth (d2f_map n (files_of o n)) i with Some f => f | None => -1 end), dkey i).

Lemma files_range n : 1 <= n -> 1 <= files_of o n <= n.
Proof. intros H. unfold files_of. destruct (Z.leb_spec (op_files o) 0); [rewrite Z.ltb_irrefl; lia|]. destruct (Z.ltb_spec n (op_files o)); lia. Qed.

(** * Reading *)
Lemma tree_root : end_slash (slash :: L "") = L "/". Proof. reflexivity. Qed.
Lemma tree_dom i : 0 <= i -> end_slash (slash :: dom_name i) = slash :: dom_name i ++ [slash].
Proof.
  intros H. unfold end_slash. change (slash :: dom_name i) with ([slash] ++ dom_name i). rewrite last_app by discriminate.
  destruct (ascii_dec (last (dom_name i) "000"%char) slash) as [E|_]; [|reflexivity]. exfalso. revert E. apply last_free; [discriminate|]. apply simple_free with (1 := simple_dom i H). left. reflexivity.
Qed.
Lemma part_none s : simple s -> part_paths (s ++ L ":/") None 0 = Ok (s, L "/").
Proof.
  intros S. unfold part_paths, full_path. cbn [obind]. change (L ":/") with (L ":/" ++ []) at 1. rewrite split_colon by (apply simple_free with (1 := S); cbn; tauto). reflexivity.
Qed.
Lemma fmt_end args : fmt args None [] = Ok []. Proof. reflexivity. Qed.
Lemma part_own n i : 0 <= i < Z.of_nat n ->
  part_paths (fname ++ slash :: L "domain_{domain:06d}." ++ proto ++ L ":/") (Some (mkPM (Some (zseq (Z.of_nat n))) (zseq (Z.of_nat n)))) i
  = Ok (fname ++ slash :: dom_name i ++ L "." ++ proto, L "/").
Proof.
  intros H. unfold part_paths. rewrite (full_path_ok _ _ _ _ [(L "file", i); (L "domain", i)]) by solve [exact H|unfold args_of, znth; destruct (Z.ltb_spec i 0); [lia|]; rewrite zseq_nth by lia; reflexivity].
  replace (fname ++ slash :: L "domain_{domain:06d}." ++ proto ++ L ":/") with (fname ++ L "/domain_" ++ L "{domain:06d}" ++ L "." ++ proto ++ L ":/") by reflexivity.
  rewrite fmt_simple by exact Sfname. rewrite (fmt_lit _ (L "/domain_")) by (intros X; cbn in X; repeat (destruct X as [X|X]; [discriminate X|]); destruct X).
  rewrite (fmt_domain _ i) by reflexivity. rewrite (fmt_simple _ (L ".")) by exact simple_dot. rewrite fmt_simple by exact Sproto.
  change (fmt [(L "file", i); (L "domain", i)] None (L ":/")) with (Ok (L ":/")). cbn [obind].
  replace (fname ++ L "/domain_" ++ pad 6 i ++ L "." ++ proto ++ L ":/") with ((fname ++ slash :: dom_name i ++ L "." ++ proto) ++ L ":/" ++ [])
    by (unfold dom_name; rewrite app_nil_r, <- !app_assoc; cbn [app]; rewrite <- ?app_assoc; reflexivity).
  rewrite split_colon; [reflexivity|]. intros I. apply in_app_iff in I. destruct I as [I|[I|I]]; [|discriminate I|].
  - revert I. apply (simple_free fname ":"); [exact Sfname|cbn; tauto].
  - revert I. apply (simple_free (dom_name i ++ L "." ++ proto) ":"); [apply simple_app; [apply simple_dom; lia|apply simple_app; [apply simple_dot|exact Sproto]]|cbn; tauto].
Qed.
Lemma part_files n d2f i f : 0 <= i < Z.of_nat n -> znth d2f i = Some f -> 0 <= f ->
  part_paths (fname ++ slash :: L "file_{file:06d}." ++ proto ++ L ":/domain_{domain:06d}") (Some (mkPM (Some d2f) (zseq (Z.of_nat n)))) i
  = Ok (fname ++ slash :: L "file_" ++ pad 6 f ++ L "." ++ proto, slash :: dom_name i ++ [slash]).
Proof.
  intros H E F. unfold part_paths. rewrite (full_path_ok _ _ _ _ [(L "file", f); (L "domain", i)]) by solve [exact H|unfold args_of; rewrite E; reflexivity].
  replace (fname ++ slash :: L "file_{file:06d}." ++ proto ++ L ":/domain_{domain:06d}") with (fname ++ L "/file_" ++ L "{file:06d}" ++ L "." ++ proto ++ L ":/domain_" ++ L "{domain:06d}" ++ []) by reflexivity.
  rewrite fmt_simple by exact Sfname. rewrite (fmt_lit _ (L "/file_")) by (intros X; cbn in X; repeat (destruct X as [X|X]; [discriminate X|]); destruct X).
  rewrite (fmt_file _ f) by reflexivity. rewrite (fmt_simple _ (L ".")) by exact simple_dot. rewrite fmt_simple by exact Sproto.
  rewrite (fmt_lit _ (L ":/domain_")) by (intros X; cbn in X; repeat (destruct X as [X|X]; [discriminate X|]); destruct X).
  rewrite (fmt_domain _ i) by reflexivity. rewrite fmt_end. cbn [obind].
  replace (fname ++ L "/file_" ++ pad 6 f ++ L "." ++ proto ++ L ":/domain_" ++ pad 6 i ++ []) with ((fname ++ slash :: L "file_" ++ pad 6 f ++ L "." ++ proto) ++ L ":/" ++ dom_name i)
    by (unfold dom_name; rewrite app_nil_r, <- !app_assoc; cbn [app]; rewrite <- ?app_assoc; reflexivity).
  rewrite split_colon; [rewrite tree_dom by lia; reflexivity|]. intros I. apply in_app_iff in I. destruct I as [I|[I|I]]; [|discriminate I|].
  - revert I. apply (simple_free fname ":"); [exact Sfname|cbn; tauto].
  - revert I. apply (simple_free (L "file_" ++ pad 6 f ++ L "." ++ proto) ":"); [|cbn; tauto].
    apply simple_app; [apply simple_file|]. apply simple_app; [apply simple_pad, F|]. apply simple_app; [apply simple_dot|exact Sproto].
Qed.
Lemma part_root n i : 0 <= i < Z.of_nat n ->
  part_paths ((fname ++ L ".root") ++ L ":/domain_{domain:06d}") (Some (mkPM None (zseq (Z.of_nat n)))) i = Ok (fname ++ L ".root", slash :: dom_name i ++ [slash]).
Proof.
  intros H. unfold part_paths. rewrite (full_path_ok _ _ _ _ [(L "domain", i)]) by solve [exact H|reflexivity].
  replace ((fname ++ L ".root") ++ L ":/domain_{domain:06d}") with ((fname ++ L ".root") ++ L ":/domain_" ++ L "{domain:06d}" ++ []) by reflexivity.
  assert (S : simple (fname ++ L ".root")) by (apply simple_app; [exact Sfname|exact simple_root]).
  rewrite fmt_simple by exact S. rewrite (fmt_lit _ (L ":/domain_")) by (intros X; cbn in X; repeat (destruct X as [X|X]; [discriminate X|]); destruct X).
  rewrite (fmt_domain _ i) by reflexivity. rewrite fmt_end. cbn [obind].
  replace ((fname ++ L ".root") ++ L ":/domain_" ++ pad 6 i ++ []) with ((fname ++ L ".root") ++ L ":/" ++ dom_name i) by (unfold dom_name; rewrite app_nil_r; reflexivity).
  rewrite split_colon; [rewrite tree_dom by lia; reflexivity|]. apply simple_free with (1 := S). cbn. tauto.
Qed.
Lemma canon_root : canon (join_path (L "/") mesh) = mkey.
Proof. unfold join_path. cbn [L list_ascii_of_string last]. destruct (ascii_dec "/" slash) as [_|N]; [|exfalso; apply N; reflexivity]. cbn [app]. change ("/"%char :: mesh) with (slash :: mesh). rewrite canon_slash. exact canon_mesh. Qed.
Lemma canon_tree i : 0 <= i -> canon (join_path (slash :: dom_name i ++ [slash]) mesh) = dkey i.
Proof.
  intros H. unfold join_path. change (slash :: dom_name i ++ [slash]) with ((slash :: dom_name i) ++ [slash]). rewrite last_app by discriminate. cbn [last].
  destruct ((slash :: dom_name i) ++ [slash]) as [|c l] eqn:E; [discriminate E|]. destruct (ascii_dec slash slash) as [_|N]; [|congruence]. rewrite <- E.
  rewrite <- app_assoc. cbn [app]. rewrite canon_slash. apply canon_dom, H.
Qed.
Definition dom_of (d : disk) (i : Z) (p : str * str) : outcome (str * option V) :=
  match mget d (fst p) with
  | None => Err
  | Some c => Ok (dom_name i, match mget c (snd p) with Some (Dom v) => Some v | _ => None end)
  end.
Lemma slash_free : free slash (fname ++ L ".root").
Proof. apply simple_free with (s := fname ++ L ".root"); [apply simple_app; [exact Sfname|exact simple_root]|left; reflexivity]. Qed.
Lemma read_at d n i : (1 <= n)%nat -> 0 <= i < Z.of_nat n -> (style_of o (Z.of_nat n) = true -> n <> 1%nat -> pre = []) ->
  forall pat pm fp tp, root_entry path sfx proto o (Z.of_nat n) = (pat, pm, fp, tp) ->
  read_dom d root mesh (part_paths pat pm) i = dom_of d i (place (Z.of_nat n) i) /\ match pm with Some m => zmax_list (pm_domain m) + 1 | None => 1 end = Z.of_nat n.
Proof.
  intros Hn Hi Hd pat pm fp tp E. unfold root_entry in E.
  destruct (rsplit_pre pre (fname ++ L ".root") Hpre slash_free) as [Rf Rj]. rewrite <- root_eq in Rf, Rj.
  assert (Sl : free slash fname) by (apply simple_free with (1 := Sfname); left; reflexivity).
  destruct (rsplit_pre pre fname Hpre Sl) as [Of _]. rewrite <- odir_eq in Of.
  assert (B : fst (rsplit_path (fst (rsplit_path odir))) = fname) by (rewrite Of, rsplit_path_none by exact Sl; reflexivity).
  rewrite Rf, B in E. unfold place, read_dom.
  assert (Jf : forall s, join_file_path fname s = fname ++ slash :: s) by (intros s; apply (join_file_eq [] fname s Nfname Sfname)).
  rewrite !Jf in E. destruct (rsplit_path root) as [cur next] eqn:RS. cbn [snd] in Rj.
  assert (Go : forall f t k, f <> [] -> part_paths pat pm i = Ok (f, t) -> canon (join_path t mesh) = k ->
     (do ft <- part_paths pat pm i; match mget d (join_path next (fst ft)) with None => Err | Some c => Ok (dom_name i, match mget c (canon (join_path (snd ft) mesh)) with Some (Dom v) => Some v | _ => None end) end) = dom_of d i (pre ++ f, k)).
  { intros f t k Nf P K. rewrite P. cbn [obind fst snd]. rewrite Rj by exact Nf. rewrite K. reflexivity. }
  assert (Zm : zmax_list (zseq (Z.of_nat n)) + 1 = Z.of_nat n) by (rewrite zmax_zseq; lia).
  destruct (style_of o (Z.of_nat n)) eqn:St.
  - rewrite root_eq. destruct (Z.eqb_spec (Z.of_nat n) 1) as [N1|N1].
    + injection E as <- <- <- <-. assert (i = 0) by lia. subst i. split; [|lia].
      apply (Go _ (L "/")); [destruct fname; discriminate|apply part_none, simple_app; [exact Sfname|exact simple_root]|exact canon_root].
    + injection E as <- <- <- <-. split; [|exact Zm]. apply (Go _ (slash :: dom_name i ++ [slash])); [destruct fname; discriminate| |apply canon_tree; lia].
      rewrite root_eq, Hd by lia. cbn [app]. apply part_root, Hi.
  - destruct (Z.eqb_spec (Z.of_nat n) (files_of o (Z.of_nat n))) as [Nf|Nf].
    + injection E as <- <- <- <-. split; [|exact Zm]. rewrite own_eq. apply (Go _ (L "/")); [destruct fname; discriminate|apply part_own, Hi|exact canon_root].
    + injection E as <- <- <- <-. split; [|exact Zm].
      pose proof (files_range (Z.of_nat n) ltac:(lia)) as Fr. destruct (d2f_total _ _ Fr i Hi) as (f & Ef & Rg). rewrite Ef, file_eq.
      apply (Go _ (slash :: dom_name i ++ [slash])); [destruct fname; discriminate|apply part_files; [exact Hi|exact Ef|lia]|apply canon_tree; lia].
Qed.

(** * Writing *)
Lemma number_concat ranks : forall i, concat (number setid i ranks) = number_from setid i (concat ranks).
Proof. clear - setid ranks.
  induction ranks as [|vs r IH]; intros i; [reflexivity|]. cbn [number concat]. rewrite IH. clear IH.
  revert i. induction vs as [|v vs IH]; intros i; cbn [number_from length app]; [f_equal; lia|]. f_equal. rewrite <- IH. do 2 f_equal. lia.
Qed.
Lemma number_from_len vs : forall i, length (number_from setid i vs) = length vs.
Proof. induction vs as [|v vs IH]; intros i; cbn; [reflexivity|]. f_equal. apply IH. Qed.
Lemma number_from_nth vs : forall i k, nth_error (number_from setid i vs) k = option_map (fun v => (i + Z.of_nat k, setid (i + Z.of_nat k) v)) (nth_error vs k).
Proof.
  induction vs as [|v vs IH]; intros i k; [destruct k; reflexivity|]. destruct k as [|k]; cbn [number_from nth_error].
  - cbn [option_map]. rewrite Z.add_0_r. reflexivity.
  - rewrite IH. destruct (nth_error vs k); [|reflexivity]. cbn [option_map]. replace (i + 1 + Z.of_nat k) with (i + Z.of_nat (S k)) by lia. reflexivity.
Qed.
Lemma number_ids vs : map fst (number_from setid 0 vs) = zseq (Z.of_nat (length vs)).
Proof.
  unfold zseq. rewrite Nat2Z.id. change 0 with (Z.of_nat 0). generalize 0%nat. induction vs as [|v vs IH]; intros a; [reflexivity|].
  cbn [number_from map fst length seq]. f_equal. rewrite <- IH. do 2 f_equal. lia.
Qed.
Lemma zseq_nodup m : NoDup (zseq m).
Proof. unfold zseq. apply FinFun.Injective_map_NoDup; [intros x y E; lia|apply seq_NoDup]. Qed.

(** a first write that may start the file anew, then writes that keep what is there *)
Lemma first_then (x : @op V) ops c b : o_mode x = (if b : bool then Trunc else RdWr) -> Forall (fun o => o_mode o = RdWr) ops -> NoDup (map (fun o => canon (o_key o)) (x :: ops)) ->
  let c0 := if b then None else c in let c1 := fold_left step (x :: ops) c in
  (forall y, In y (x :: ops) -> exists e, c1 = Some e /\ mget e (canon (o_key y)) = Some (upd_item (mget (entries c0) (canon (o_key y))) (o_val y))) /\
  (forall k, ~ In k (map (fun o => canon (o_key o)) (x :: ops)) -> mget (entries c1) k = mget (entries c0) k).
Proof.
  intros M F N c0 c1. set (x0 := mkOp (o_file x) RdWr (o_key x) (o_val x)).
  assert (E : c1 = fold_left step (x0 :: ops) c0).
  { unfold c1, c0. destruct b; [apply trunc_at, M|]. cbn [fold_left]. f_equal. unfold MeshIORounds.step, x0. cbn [o_mode o_key o_val]. rewrite M. reflexivity. }
  destruct (puts_at upd (x0 :: ops) c0) as [A B]; [constructor; [reflexivity|exact F]|exact N|].
  assert (Ne : exists e, c1 = Some e).
  { assert (G : forall l c, exists e, fold_left step l (Some c) = Some e) by (induction l as [|y l IH]; intros q; [eexists; reflexivity|cbn [fold_left]; unfold MeshIORounds.step at 2; apply IH]).
    unfold c1. cbn [fold_left]. unfold MeshIORounds.step at 2. apply G. }
  destruct Ne as [e Ee]. split.
  - intros y I. exists e. split; [exact Ee|]. assert (En : e = entries c1) by (rewrite Ee; reflexivity). rewrite En, E. destruct I as [<-|I].
    + apply (A x0). left. reflexivity.
    + apply (A y). right. exact I.
  - intros k H. rewrite E. apply B. exact H.
Qed.
Lemma same_op (x : @op V) l c : (forall y, In y l -> y = x) -> l <> [] -> o_mode x <> RdWr ->
  fold_left step l c = Some (put upd [] (canon (o_key x)) (o_val x)).
Proof.
  intros H N M. assert (S : forall c, step c x = Some (put upd [] (canon (o_key x)) (o_val x))) by (intros q; unfold MeshIORounds.step; destruct (o_mode x); congruence).
  assert (G : forall l, (forall y, In y l -> y = x) -> fold_left step l (Some (put upd [] (canon (o_key x)) (o_val x))) = Some (put upd [] (canon (o_key x)) (o_val x))).
  { clear H N. induction l0 as [|y l0 IH]; intros H; [reflexivity|]. cbn [fold_left]. rewrite (H y) by (left; reflexivity). rewrite S. apply IH. intros; apply H; right; assumption. }
  destruct l as [|y l]; [congruence|]. cbn [fold_left]. rewrite (H y) by (left; reflexivity). rewrite S. apply G. intros; apply H; right; assumption.
Qed.
Lemma fold_some l c e : c = Some e -> exists e', fold_left step l c = Some e'.
Proof. revert c e. induction l as [|y l IH]; intros c e E; [exists e; exact E|]. cbn [fold_left]. eapply IH. reflexivity. Qed.

(** what the first part of write_mesh leaves behind *)
Definition phase1 (ds : list (list (Z * V))) (P : nat) (d : disk) : outcome disk :=
  let n := Z.of_nat (length (concat ds)) in let nf := files_of o n in
  if style_of o n then Ok (do_ops upd d (root_ops path sfx o n true (concat ds)))
  else if n =? nf then
    if existsb (fun x => fails 0%nat (fst x)) (concat ds) then Err
    else Ok (do_ops upd d (sched 0%nat (map (map (own_op path sfx proto o)) ds)))
  else rounds upd fails sched (op_trunc o) odir proto mesh (d2f_map n nf) nf (S P) 0 (new_ranks nf 0 ds) d.
Definition own_style (n : Z) : bool := negb (style_of o n) && (n =? files_of o n).
Definition at_ (d : disk) (p : str * str) : option (@item V) := mget (entries (mget d (fst p))) (snd p).
Record after (ds : list (Z * V)) (d d1 : disk) : Prop := mkAfter {
  a_dom : forall i v, In (i, v) ds -> exists c, mget d1 (fst (place (Z.of_nat (length ds)) i)) = Some c /\
    mget c (snd (place (Z.of_nat (length ds)) i)) = Some (upd_item (if (op_trunc o || own_style (Z.of_nat (length ds)))%bool then None else at_ d (place (Z.of_nat (length ds)) i)) (Dom v));
  a_keep : op_trunc o = false -> own_style (Z.of_nat (length ds)) = false -> forall p, (forall i, In i (map fst ds) -> p <> place (Z.of_nat (length ds)) i) -> at_ d1 p = at_ d p;
  a_exist : forall name c, mget d name = Some c -> exists c1, mget d1 name = Some c1;
  a_root : style_of o (Z.of_nat (length ds)) = true -> forall k, (forall i, In i (map fst ds) -> k <> snd (place (Z.of_nat (length ds)) i)) -> mget (entries (mget d1 root)) k = if op_trunc o then None else mget (entries (mget d root)) k;
  a_noroot : style_of o (Z.of_nat (length ds)) = false -> mget d1 root = mget d root }.

Lemma nodup_keys {A} (g : A -> str) (l : list A) (id : A -> Z) : NoDup (map id l) -> (forall x y, In x l -> In y l -> g x = g y -> id x = id y) -> NoDup (map g l).
Proof.
  intros N H. induction l as [|x l IH]; [constructor|]. cbn [map] in *. inversion N as [|a b Na Nb]; subst a b. constructor.
  - intros I. apply in_map_iff in I. destruct I as (y & E & I). apply Na. rewrite (H x y (or_introl eq_refl) (or_intror I)) by congruence. apply in_map, I.
  - apply IH; [exact Nb|]. intros a b I J. apply H; right; assumption.
Qed.
(** the ranks at the start *)
Lemma new_nth nf (ws : list (list (Z * V))) : forall k i, nth_error (new_ranks nf k ws) i = option_map (@new_rank V nf (k + i)) (nth_error ws i).
Proof.
  induction ws as [|w ws IH]; intros k i; [destruct i; reflexivity|]. destruct i as [|i]; cbn [new_ranks nth_error option_map]; [rewrite Nat.add_0_r; reflexivity|].
  rewrite IH. replace (S k + i)%nat with (k + S i)%nat by lia. reflexivity.
Qed.
Lemma new_wf nf (ws : list (list (Z * V))) : wf nf (new_ranks nf 0 ws).
Proof.
  intros i r E. rewrite new_nth in E. destruct (nth_error ws i) as [w|]; [|discriminate E]. cbn [option_map] in E. injection E as <-. split; [reflexivity|].
  cbn [new_rank r_made]. rewrite map_length. apply length_zseq.
Qed.
Lemma new_made nf (ws : list (list (Z * V))) f : 0 <= f < nf -> znth (made nf (new_ranks nf 0 ws)) f = Some false.
Proof.
  intros H. assert (Inj : forall f g, 0 <= f < nf -> 0 <= g < nf -> file_name odir proto f = file_name odir proto g -> f = g) by (intros f0 g0 F G; apply file_inj; lia).
  rewrite (made_spec fails odir proto nf Inj _ f H) by (apply wf_made, new_wf). f_equal. destruct (existsb _ _) eqn:E; [|reflexivity]. apply existsb_exists in E. destruct E as (r & I & M). exfalso.
  apply In_nth_error in I. destruct I as [i I]. rewrite new_nth in I. destruct (nth_error ws i); [|discriminate I]. cbn [option_map] in I. injection I as <-.
  unfold made_at in M. cbn [new_rank r_made] in M. unfold znth in M. destruct (f <? 0); [discriminate M|]. rewrite nth_error_map, zseq_nth in M by exact H. discriminate M.
Qed.
Definition fresh (x : Z * V) : Z * V * bool := (x, true).
Lemma concat_rev {A} (l : list (list A)) : Permutation (concat (rev l)) (concat l).
Proof. induction l as [|x l IH]; [constructor|]. cbn [rev concat]. rewrite concat_app. cbn [concat]. rewrite app_nil_r, IH. apply Permutation_app_comm. Qed.
Lemma new_queue d2f f nf (ws : list (list (Z * V))) : forall k, Permutation (queue d2f f (new_ranks nf k ws)) (map fresh (filter (fun x => wants d2f f (fresh x)) (concat ws))).
Proof.
  intros k. unfold queue. rewrite concat_rev. revert k. induction ws as [|w ws IH]; intros k; [constructor|]. cbn [new_ranks map concat]. rewrite filter_app, map_app. apply Permutation_app; [|apply IH].
  unfold pend. cbn [new_rank r_doms]. match goal with |- Permutation ?a ?b => assert (E : a = b); [|rewrite E; reflexivity] end. induction w as [|x w IHw]; [reflexivity|]. cbn [map filter]. change (x, true) with (fresh x) at 1. destruct (wants d2f f (fresh x)); [cbn [map]; f_equal|]; exact IHw.
Qed.
Section Phase.
Variable vs : list V.
Hypothesis Hvs : vs <> [].
Let ds := number_from setid 0 vs.
Let n := Z.of_nat (length ds).
Lemma n_pos : 1 <= n.
Proof. unfold n, ds. rewrite number_from_len. destruct vs; [congruence|cbn [length]; lia]. Qed.
Lemma ids_range i v : In (i, v) ds -> 0 <= i < n.
Proof.
  intros I. assert (J : In i (map fst ds)) by (apply (in_map fst) in I; exact I). unfold ds in J. rewrite number_ids in J. apply in_zseq in J. unfold n, ds. rewrite number_from_len. exact J.
Qed.
Lemma ids_nodup : NoDup (map fst ds). Proof. unfold ds. rewrite number_ids. apply zseq_nodup. Qed.

Lemma phase_root d : style_of o n = true -> after ds d (do_ops upd d (root_ops path sfx o n true ds)).
Proof.
  intros St. set (key := fun d : Z * V => if n =? 1 then mesh else dom_name (fst d) ++ slash :: mesh).
  assert (Ck : forall x, In x ds -> canon (key x) = snd (place n (fst x))).
  { intros [i v] I. unfold key, place. rewrite St. cbn [fst snd]. destruct (n =? 1); [exact canon_mesh|]. apply canon_dom. apply (ids_range i v I). }
  assert (Hd : exists x rest, ds = x :: rest) by (unfold ds; destruct vs as [|v0 vs0]; [congruence|cbn [number_from]; eexists _, _; reflexivity]). destruct Hd as (x & rest & Ed).
  assert (Rd : forall l, root_ops path sfx o n false l = map (fun x => mkOp root RdWr (key x) (Dom (snd x))) l) by (induction l as [|y l IH]; [reflexivity|]; cbn [root_ops andb map]; rewrite IH; reflexivity).
  assert (Ro : root_ops path sfx o n true ds = mkOp root (if op_trunc o then Trunc else RdWr) (key x) (Dom (snd x)) :: map (fun x => mkOp root RdWr (key x) (Dom (snd x))) rest) by (rewrite Ed; cbn [root_ops andb]; rewrite Rd; reflexivity).
  rewrite Ro. set (x0 := mkOp root _ (key x) (Dom (snd x))). set (r0 := map _ rest).
  assert (On : filter (on root) (x0 :: r0) = x0 :: r0).
  { cbn [filter]. unfold on at 1. cbn [o_file x0]. rewrite str_eqb_refl. f_equal. unfold r0. clear. induction rest as [|y l IH]; [reflexivity|]. cbn [map filter]. unfold on at 1. cbn [o_file]. rewrite str_eqb_refl. f_equal. exact IH. }
  assert (Keys : map (fun o => canon (o_key o)) (x0 :: r0) = map (fun x => canon (key x)) ds).
  { rewrite Ed. cbn [map x0 o_key]. f_equal. unfold r0. rewrite map_map. reflexivity. }
  assert (Nk : NoDup (map (fun o => canon (o_key o)) (x0 :: r0))).
  { rewrite Keys. apply (nodup_keys _ _ fst); [apply ids_nodup|]. intros [i u] [j v] I J E. rewrite (Ck _ I), (Ck _ J) in E. cbn [fst] in *. unfold place in E. rewrite St in E. cbn [snd] in E.
    destruct (Z.eqb_spec n 1) as [N1|_].
    - pose proof (ids_range _ _ I). pose proof (ids_range _ _ J). lia.
    - apply dkey_inj in E; [exact E|apply (ids_range _ _ I)|apply (ids_range _ _ J)]. }
  assert (Md : Forall (fun o : @op V => o_mode o = RdWr) r0) by (apply Forall_forall; intros y I; apply in_map_iff in I; destruct I as (z & <- & _); reflexivity).
  destruct (first_then x0 r0 (mget d root) (op_trunc o) eq_refl Md Nk) as [A B].
  assert (Rt : mget (do_ops upd d (x0 :: r0)) root = fold_left step (x0 :: r0) (mget d root)) by (rewrite do_ops_at, On; reflexivity).
  assert (Oth : forall name, name <> root -> mget (do_ops upd d (x0 :: r0)) name = mget d name).
  { intros name N. rewrite do_ops_at. replace (filter (on name) (x0 :: r0)) with (@nil (@op V)); [reflexivity|]. symmetry.
    assert (G : forall l : list (@op V), (forall y, In y l -> o_file y = root) -> filter (on name) l = []) by (induction l as [|y l IH]; intros H; [reflexivity|]; cbn [filter]; unfold on at 1; rewrite (H y (or_introl eq_refl)); destruct (str_eqb_spec root name); [congruence|]; apply IH; intros; apply H; right; assumption).
    apply G. intros y [<-|I]; [reflexivity|]. apply in_map_iff in I. destruct I as (z & <- & _). reflexivity. }
  assert (Pf : forall i, fst (place n i) = root) by (intros i; unfold place; rewrite St; reflexivity).
  assert (Os : own_style n = false) by (unfold own_style; rewrite St; reflexivity).
  constructor; fold n.
  - intros i v I. rewrite Pf, Rt, Os, orb_false_r.
    assert (Iy : exists y, In y (x0 :: r0) /\ canon (o_key y) = snd (place n i) /\ o_val y = Dom v).
    { pose proof (Ck _ I) as C. cbn [fst] in C. rewrite Ed in I. destruct I as [->|I].
      - exists x0. split; [left; reflexivity|]. split; [exact C|reflexivity].
      - exists (mkOp root RdWr (key (i, v)) (Dom v)). split; [right; apply in_map_iff; exists (i, v); split; [reflexivity|exact I]|]. split; [exact C|reflexivity]. }
    destruct Iy as (y & Iy & Ky & Vy). destruct (A y Iy) as (e & Ee & Eg). exists e. split; [exact Ee|]. rewrite Ky, Vy in Eg. rewrite Eg. unfold at_. rewrite Pf. destruct (op_trunc o); reflexivity.
  - intros Tr _ [name k] H. unfold at_. cbn [fst snd]. destruct (str_eqb_spec name root) as [->|N]; [|rewrite Oth by exact N; reflexivity].
    rewrite Rt, B; [rewrite Tr; reflexivity|]. rewrite Keys. intros I. apply in_map_iff in I. destruct I as (z & Ez & I). apply (H (fst z)); [apply in_map, I|]. rewrite <- Ez, (Ck z I), <- (Pf (fst z)). destruct (place n (fst z)); reflexivity.
  - intros name c E. rewrite do_ops_at. apply (fold_some _ _ _ E).
  - intros _ k H. rewrite Rt, B; [destruct (op_trunc o); reflexivity|]. rewrite Keys. intros I. apply in_map_iff in I. destruct I as (z & Ez & I). apply (H (fst z)); [apply in_map, I|]. rewrite <- Ez. apply Ck, I.
  - rewrite St. discriminate.
Qed.

Lemma phase_own d dss : style_of o n = false -> n = files_of o n -> concat dss = ds -> after ds d (do_ops upd d (sched 0%nat (map (map (own_op path sfx proto o)) dss))).
Proof.
  intros St Nf Ed. set (t := sched _ _). assert (M := sched_ok 0%nat (map (map (own_op path sfx proto o)) dss)). fold t in M.
  assert (It : forall y, In y t <-> exists x, In x ds /\ y = own_op path sfx proto o x).
  { intros y. rewrite (merge_in _ _ M). rewrite <- Ed. split.
    - intros (l & I & J). apply in_map_iff in I. destruct I as (l0 & <- & I). apply in_map_iff in J. destruct J as (x & <- & J). exists x. split; [apply in_concat; exists l0; split; assumption|reflexivity].
    - intros (x & I & ->). apply in_concat in I. destruct I as (l0 & I & J). exists (map (own_op path sfx proto o) l0). split; [apply in_map, I|apply in_map, J]. }
  assert (Pl : forall i, place n i = (own_file path sfx proto i, mkey)) by (intros i; unfold place; rewrite St; destruct (Z.eqb_spec n (files_of o n)); [reflexivity|congruence]).
  assert (Os : own_style n = true) by (unfold own_style; rewrite St; destruct (Z.eqb_spec n (files_of o n)); [reflexivity|congruence]).
  constructor; fold n.
  - intros i v I. rewrite Pl. cbn [fst snd]. rewrite Os, orb_true_r, do_ops_at. set (x := own_op path sfx proto o (i, v)).
    rewrite (same_op x).
    + eexists. split; [reflexivity|]. unfold put. cbn [mget]. cbn [o_key x own_op]. rewrite canon_mesh, mget_mset_same. reflexivity.
    + intros y J. apply filter_In in J. destruct J as [J P]. apply It in J. destruct J as ([j u] & J & ->). unfold on in P. apply str_eqb_eq in P. cbn [own_op o_file fst] in P.
      apply own_inj in P; [|apply (ids_range j u J)|apply (ids_range i v I)]. subst j. unfold x. f_equal.
      assert (X : forall l : list (Z * V), NoDup (map fst l) -> In (i, u) l -> In (i, v) l -> (i, u) = (i, v)).
      { clear. induction l as [|y l IH]; intros N I J; [destruct I|]. cbn [map] in N. inversion N as [|a b Na Nb]; subst a b. destruct I as [->|I], J as [E|J]; try congruence.
        - exfalso. apply Na. apply (in_map fst) in J. exact J. - exfalso. apply Na. subst y. apply (in_map fst) in I. exact I. - apply IH; assumption. }
      apply (X ds ids_nodup J I).
    + intros E. assert (J : In x (filter (on (own_file path sfx proto i)) t)) by (apply filter_In; split; [apply It; exists (i, v); split; [exact I|reflexivity]|unfold on; cbn [x own_op o_file fst]; apply str_eqb_refl]). rewrite E in J. destruct J.
    + cbn [x own_op o_mode]. destruct (op_trunc o); discriminate.
  - rewrite Os. discriminate.
  - intros name c E. rewrite do_ops_at. apply (fold_some _ _ _ E).
  - rewrite St. discriminate.
  - intros _. rewrite do_ops_at. replace (filter (on root) t) with (@nil (@op V)); [reflexivity|]. symmetry.
    destruct (filter (on root) t) as [|y l] eqn:E; [reflexivity|]. exfalso. assert (J : In y (filter (on root) t)) by (rewrite E; left; reflexivity).
    apply filter_In in J. destruct J as [J P]. apply It in J. destruct J as ([j u] & J & ->). unfold on in P. apply str_eqb_eq in P. cbn [own_op o_file fst] in P. rewrite own_eq in P. symmetry in P. apply root_not in P. exact P.
Qed.

Lemma phase_files d dss d1 P : style_of o n = false -> n <> files_of o n -> concat dss = ds ->
  rounds upd fails sched (op_trunc o) odir proto mesh (d2f_map n (files_of o n)) (files_of o n) P 0 (new_ranks (files_of o n) 0 dss) d = Ok d1 ->
  after ds d d1 /\ forall i v, In (i, v) ds -> exists k, fails k i = false.
Proof.
  intros St Nf Ed E. pose proof (files_range n n_pos) as Fr. set (nf := files_of o n) in *. set (d2f := d2f_map n nf) in *.
  assert (Inj : forall f g, 0 <= f < nf -> 0 <= g < nf -> file_name odir proto f = file_name odir proto g -> f = g) by (intros f g F G; apply file_inj; lia).
  destruct (rounds_ok upd fails sched sched_ok (op_trunc o) odir proto mesh d2f nf Inj P 0%nat _ d d1 (new_wf nf dss) E) as (R1 & R2 & R3).
  assert (Os : own_style n = false) by (unfold own_style; rewrite St; fold nf; destruct (Z.eqb_spec n nf); [congruence|reflexivity]).
  assert (Pl : forall i, place n i = (file_name odir proto (match znth d2f i with Some f => f | None => -1 end), dkey i)).
  { intros i. unfold place. rewrite St. fold nf. fold d2f. destruct (Z.eqb_spec n nf); [congruence|reflexivity]. }
  assert (Tot : forall i, 0 <= i < n -> exists f, znth d2f i = Some f /\ 0 <= f < nf) by (intros i H; apply d2f_total; [exact Fr|exact H]).
  assert (Qp : forall f, Permutation (queue d2f f (new_ranks nf 0 dss)) (map fresh (filter (fun x => wants d2f f (fresh x)) ds))) by (intros f; rewrite <- Ed; apply new_queue).
  assert (Qin : forall f i v b, In (i, v, b) (queue d2f f (new_ranks nf 0 dss)) <-> b = true /\ In (i, v) ds /\ znth d2f i = Some f).
  { intros f i v b. split.
    - intros I. apply (Permutation_in _ (Qp f)) in I. apply in_map_iff in I. destruct I as (x & Ex & I). unfold fresh in Ex. injection Ex as -> <-. apply filter_In in I. destruct I as [I W]. split; [reflexivity|]. split; [exact I|].
      unfold wants, fresh in W. cbn [snd fst andb] in W. destruct (znth d2f i); [apply Z.eqb_eq in W; congruence|discriminate W].
    - intros (-> & I & Z). apply (Permutation_in _ (Permutation_sym (Qp f))). apply in_map_iff. exists (i, v). split; [reflexivity|]. apply filter_In. split; [exact I|]. unfold wants, fresh. cbn [snd fst andb]. rewrite Z. apply Z.eqb_refl. }
  assert (Qnd : forall f, NoDup (map (fun x => fst (fst x)) (queue d2f f (new_ranks nf 0 dss)))).
  { intros f. apply (Permutation_NoDup (Permutation_sym (Permutation_map (fun x => fst (fst x)) (Qp f)))). rewrite map_map. cbn [fresh fst].
    pose proof ids_nodup as N. revert N. generalize ds as l. clear. intros l. induction l as [|x l IH]; intros N; [constructor|]. cbn [map filter] in *. inversion N as [|a b Na Nb]; subst a b. destruct (wants d2f f (fresh x)); [|apply IH, Nb]. cbn [map]. constructor; [|apply IH, Nb].
    intros I. apply Na. apply in_map_iff in I. destruct I as (y & Ey & I). apply filter_In in I. rewrite <- Ey. apply (in_map fst), I. }
  (* one file *)
  assert (File : forall f, 0 <= f < nf -> queue d2f f (new_ranks nf 0 dss) <> [] ->
     let c0 := if op_trunc o then None else mget d (file_name odir proto f) in
     (forall i v, In (i, v) ds -> znth d2f i = Some f -> exists e, mget d1 (file_name odir proto f) = Some e /\ mget e (dkey i) = Some (upd_item (mget (entries c0) (dkey i)) (Dom v))) /\
     (forall k, (forall i v, In (i, v) ds -> znth d2f i = Some f -> k <> dkey i) -> mget (entries (mget d1 (file_name odir proto f))) k = mget (entries c0) k)).
  { intros f Hf Nq c0. specialize (R1 f false Hf (new_made nf dss f Hf)). specialize (Qin f). specialize (Qnd f).
    destruct (queue d2f f (new_ranks nf 0 dss)) as [|x q]; [congruence|]. cbn [mark] in R1. rewrite andb_true_r in R1.
    set (x0 := dop odir proto mesh f _ x) in R1. set (r0 := map _ q) in R1.
    assert (Ck : forall i v b m, In (i, v, b) (x :: q) -> canon (o_key (dop odir proto mesh f m (i, v, b))) = dkey i).
    { intros i v b m I. apply Qin in I. cbn [dop o_key fst]. apply canon_dom. apply (ids_range i v). apply I. }
    assert (Keys : map (fun o => canon (o_key o)) (x0 :: r0) = map (fun y => dkey (fst (fst y))) (x :: q)).
    { cbn [map]. f_equal; [destruct x as [[i v] b]; apply (Ck i v b); left; reflexivity|]. unfold r0. rewrite map_map. apply map_ext_in. intros [[i v] b] I. apply (Ck i v b). right. exact I. }
    assert (Nk : NoDup (map (fun o => canon (o_key o)) (x0 :: r0))).
    { rewrite Keys. apply (nodup_keys _ _ (fun y => fst (fst y)) Qnd). intros [[i u] b1] [[j v] b2] I J Ek. cbn [fst] in *. apply Qin in I, J. apply dkey_inj in Ek; [exact Ek|apply (ids_range i u), I|apply (ids_range j v), J]. }
    assert (Md : Forall (fun o : @op V => o_mode o = RdWr) r0) by (apply Forall_forall; intros y I; apply in_map_iff in I; destruct I as (z & <- & _); reflexivity).
    destruct (first_then x0 r0 (mget d (file_name odir proto f)) (op_trunc o) eq_refl Md Nk) as [A B]. rewrite <- R1 in A, B. split.
    - intros i v I Zf. assert (J : In (i, v, true) (x :: q)) by (apply Qin; auto). destruct J as [->|J].
      + destruct (A x0 (or_introl eq_refl)) as (e & Ee & Eg). exists e. split; [exact Ee|]. unfold x0 in Eg. rewrite (Ck i v true) in Eg by (left; reflexivity). exact Eg.
      + destruct (A (dop odir proto mesh f RdWr (i, v, true))) as (e & Ee & Eg); [right; apply in_map, J|]. exists e. split; [exact Ee|]. rewrite (Ck i v true) in Eg by (right; exact J). exact Eg.
    - intros k H. apply B. rewrite Keys. intros I. apply in_map_iff in I. destruct I as ([[i v] b] & Ek & I). cbn [fst] in Ek. apply Qin in I. destruct I as (_ & I1 & I2). apply (H i v I1 I2). congruence. }
  assert (Ne : forall i v f, In (i, v) ds -> znth d2f i = Some f -> queue d2f f (new_ranks nf 0 dss) <> []).
  { intros i v f I Z X. assert (J : In (i, v, true) (queue d2f f (new_ranks nf 0 dss))) by (apply Qin; auto). rewrite X in J. destruct J. }
  split; [constructor; fold n|].
  - intros i v I. destruct (Tot i (ids_range i v I)) as (f & Zf & Hf). rewrite Pl, Zf. cbn [fst snd]. destruct (File f Hf (Ne i v f I Zf)) as [A _].
    destruct (A i v I Zf) as (e & Ee & Eg). exists e. split; [exact Ee|]. rewrite Eg, Os, orb_false_r. unfold at_. cbn [fst snd]. destruct (op_trunc o); reflexivity.
  - intros Tr _ [name k] H. unfold at_. cbn [fst snd].
    destruct (in_dec (list_eq_dec ascii_dec) name (map (file_name odir proto) (zseq nf))) as [I|N].
    + apply in_map_iff in I. destruct I as (f & <- & I). apply in_zseq in I. destruct (queue d2f f (new_ranks nf 0 dss)) as [|x q] eqn:Q.
      * rewrite (R1 f false I (new_made nf dss f I)), Q. reflexivity.
      * destruct (File f I ltac:(rewrite Q; discriminate)) as [_ B]. rewrite B; [rewrite Tr; reflexivity|]. intros i v J Zf Ek. apply (H i); [apply (in_map fst) in J; exact J|]. rewrite Pl, Zf, Ek. reflexivity.
    + rewrite R2; [reflexivity|]. intros f Hf Ef. apply N. rewrite <- Ef. apply in_map, in_zseq, Hf.
  - intros name c Ec. destruct (in_dec (list_eq_dec ascii_dec) name (map (file_name odir proto) (zseq nf))) as [I|N].
    + apply in_map_iff in I. destruct I as (f & <- & I). apply in_zseq in I. rewrite (R1 f false I (new_made nf dss f I)). apply (fold_some _ _ _ Ec).
    + exists c. rewrite R2; [exact Ec|]. intros f Hf Ef. apply N. rewrite <- Ef. apply in_map, in_zseq, Hf.
  - rewrite St. discriminate.
  - intros _. apply R2. intros f Hf Ef. rewrite file_eq in Ef. symmetry in Ef. apply root_not in Ef. exact Ef.
  - intros i v I. destruct (Tot i (ids_range i v I)) as (f & Zf & Hf). apply (R3 f (i, v, true) Hf). apply Qin. auto.
Qed.
End Phase.

(** * The whole write *)
Lemma root_free : free ":"%char root.
Proof.
  rewrite root_eq. intros I. apply in_app_iff in I. destruct I as [I|I]; [apply Hcolon, I|]. revert I.
  apply (simple_free (fname ++ L ".root") ":"); [apply simple_app; [exact Sfname|exact simple_root]|cbn; tauto].
Qed.
Notation write := (write_mesh setid upd fails sched mpi path sfx proto o).
Lemma write_eq ranks d : concat ranks <> [] ->
  write ranks d = do d1 <- phase1 (number setid 0 ranks) (length ranks) d; Ok (write_root upd path sfx proto o (Z.of_nat (length (concat ranks))) d1).
Proof.
  intros N. unfold write_mesh, phase1. rewrite not_bad by exact root_free. rewrite number_concat, number_from_len.
  destruct (Z.eqb_spec (Z.of_nat (length (concat ranks))) 0) as [E|_]; [destruct (concat ranks); [congruence|cbn [length] in E; lia]|]. reflexivity.
Qed.
Lemma phase1_after ranks d d1 : concat ranks <> [] -> phase1 (number setid 0 ranks) (length ranks) d = Ok d1 ->
  after (number_from setid 0 (concat ranks)) d d1 /\
  (style_of o (Z.of_nat (length (concat ranks))) = false -> forall i, 0 <= i < Z.of_nat (length (concat ranks)) -> exists k, fails k i = false).
Proof.
  intros N E. unfold phase1 in E. rewrite number_concat in E. set (ds := number_from setid 0 (concat ranks)) in *.
  assert (Len : length ds = length (concat ranks)) by apply number_from_len.
  assert (In_ : forall i, 0 <= i < Z.of_nat (length (concat ranks)) -> exists v, In (i, v) ds).
  { intros i H. assert (I : In i (map fst ds)) by (unfold ds; rewrite number_ids; apply in_zseq, H). apply in_map_iff in I. destruct I as ([j v] & <- & I). exists v. exact I. }
  destruct (style_of o (Z.of_nat (length ds))) eqn:St.
  - injection E as <-. split; [apply phase_root; [exact N|exact St]|]. rewrite <- Len. fold ds. rewrite St. discriminate.
  - destruct (Z.eqb_spec (Z.of_nat (length ds)) (files_of o (Z.of_nat (length ds)))) as [Nf|Nf].
    + destruct (existsb (fun x => fails 0%nat (fst x)) ds) eqn:X; [discriminate E|]. injection E as <-. split; [apply phase_own; [exact St|exact Nf|apply number_concat]|].
      intros _ i H. destruct (In_ i H) as [v I]. exists 0%nat. destruct (fails 0%nat i) eqn:F; [|reflexivity]. exfalso.
      assert (Y : existsb (fun x => fails 0%nat (fst x)) ds = true) by (apply existsb_exists; exists (i, v); split; [exact I|exact F]). congruence.
    + destruct (phase_files (concat ranks) N d (number setid 0 ranks) d1 (S (length ranks)) St Nf (number_concat _ _) E) as [A B]. split; [exact A|].
      intros _ i H. destruct (In_ i H) as [v I]. apply (B i v I).
Qed.
Lemma two_parts a b x y : free slash a -> free slash b -> a ++ slash :: x = b ++ slash :: y -> a = b /\ x = y.
Proof.
  revert b. induction a as [|c a IH]; intros [|e b] A B E; cbn [app] in E.
  - injection E as E. auto.
  - injection E as E _. exfalso. apply B. left. symmetry. exact E.
  - injection E as E _. exfalso. apply A. left. exact E.
  - injection E as -> E. destruct (IH b) as [-> ->]; auto; intros I; [apply A|apply B]; right; exact I.
Qed.
Lemma mesh_free : free slash mesh. Proof. apply simple_free with (1 := Smesh). left. reflexivity. Qed.
Lemma mkey_index m : m <> [] -> simple m -> mkey <> index_key m.
Proof.
  intros Nm Sm E. rewrite index_key_eq in E by assumption. unfold mkey in E.
  change (L "blueprint_index/" ++ m ++ [slash]) with (L "blueprint_index" ++ slash :: (m ++ [slash])) in E.
  apply two_parts in E; [destruct E as [_ E]; destruct m; discriminate E|exact mesh_free|].
  apply simple_free with (s := L "blueprint_index"); [simple_lit|left; reflexivity].
Qed.
Lemma dkey_index i m : m <> [] -> simple m -> dkey i <> index_key m.
Proof. intros Nm Sm E. rewrite index_key_eq in E by assumption. discriminate E. Qed.
Lemma mkey_legacy : mkey <> legacy_key.
Proof.
  rewrite legacy_key_eq. unfold mkey. change (L "file_pattern/") with (L "file_pattern" ++ [slash]). intros E. apply app_inv_tail in E.
  destruct Hmesh as (_ & _ & H). apply H. rewrite E. right. left. reflexivity.
Qed.
Lemma dkey_legacy i : dkey i <> legacy_key. Proof. rewrite legacy_key_eq. discriminate. Qed.
Lemma place_key n i m : m <> [] -> simple m -> snd (place n i) <> index_key m /\ snd (place n i) <> legacy_key.
Proof.
  intros A B. unfold place. destruct (style_of o n); [|destruct (n =? files_of o n)]; cbn [snd]; [destruct (n =? 1)|..];
    (split; [solve [apply mkey_index; assumption|apply dkey_index; assumption]|solve [apply mkey_legacy|apply dkey_legacy]]).
Qed.
Lemma index_legacy m : m <> [] -> simple m -> index_key m <> legacy_key.
Proof. intros A B. rewrite index_key_eq by assumption. discriminate. Qed.
Lemma place_root n i : style_of o n = false -> fst (place n i) <> root.
Proof.
  intros St. unfold place. rewrite St. destruct (n =? files_of o n); cbn [fst].
  - rewrite own_eq. intros E. symmetry in E. apply root_not in E. exact E.
  - rewrite file_eq. intros E. symmetry in E. apply root_not in E. exact E.
Qed.

Definition clean (d : disk) : Prop := op_trunc o = true \/ forall name c, mget d name = Some c -> prefixb odir name = false.
Lemma prefix_app a b : prefixb a (a ++ b) = true.
Proof. induction a as [|c a IH]; [reflexivity|]. cbn [app prefixb]. destruct (ascii_dec c c); [exact IH|congruence]. Qed.
Lemma prefix_odir s : prefixb odir (pre ++ fname ++ s) = true.
Proof. rewrite odir_eq, app_assoc. apply prefix_app. Qed.
Lemma prefix_root : prefixb odir root = true. Proof. rewrite root_eq. apply prefix_odir. Qed.
Lemma prefix_place n i : prefixb odir (fst (place n i)) = true.
Proof. unfold place. destruct (style_of o n); [|destruct (n =? files_of o n)]; cbn [fst]; [apply prefix_root|rewrite own_eq|rewrite file_eq]; apply prefix_odir. Qed.
Lemma not_there d name : op_trunc o = false -> clean d -> prefixb odir name = true -> mget d name = None.
Proof. intros T [C|C] P; [congruence|]. destruct (mget d name) as [c|] eqn:E; [|reflexivity]. rewrite (C _ _ E) in P. discriminate P. Qed.

Notation count ranks := (Z.of_nat (length (concat ranks))).
Lemma write_result ranks d d' : concat ranks <> [] -> clean d -> write ranks d = Ok d' ->
  (forall i v, nth_error (concat ranks) i = Some v -> exists c, mget d' (fst (place (count ranks) (Z.of_nat i))) = Some c /\ mget c (snd (place (count ranks) (Z.of_nat i))) = Some (Dom (setid (Z.of_nat i) v))) /\
  (forall pat pm fp tp, root_entry path sfx proto o (count ranks) = (pat, pm, fp, tp) ->
     exists c, mget d' root = Some c /\ mget c (index_key mesh) = Some (Index (Some (pat, pm))) /\ mget c legacy_key = Some (Legacy (files_of o (count ranks)) (count ranks) fp tp)).
Proof.
  intros N C E. rewrite write_eq in E by exact N. destruct (phase1 (number setid 0 ranks) (length ranks) d) as [d1| | |] eqn:E1; try discriminate E. cbn [obind] in E. injection E as <-.
  destruct (phase1_after _ _ _ N E1) as [[A1 A2 A3 A4 A5] _]. rewrite number_from_len in *. set (n := count ranks) in *. unfold write_root.
  destruct (root_entry path sfx proto o n) as [[[pat pm] fp] tp] eqn:R. split.
  - intros i v Ei. assert (I : In (Z.of_nat i, setid (Z.of_nat i) v) (number_from setid 0 (concat ranks))).
    { apply (nth_error_In _ i). rewrite number_from_nth, Ei. reflexivity. }
    destruct (A1 _ _ I) as (c & Ec & Ek). assert (Ed : mget c (snd (place n (Z.of_nat i))) = Some (Dom (setid (Z.of_nat i) v))).
    { rewrite Ek. destruct (op_trunc o || own_style n)%bool eqn:T; [reflexivity|]. apply orb_false_iff in T. unfold at_. rewrite (not_there d _ (proj1 T) C (prefix_place n _)). reflexivity. }
    destruct (place_key n (Z.of_nat i) mesh Nmesh Smesh) as [K1 K2].
    destruct (style_of o n) eqn:St.
    + assert (Pf : fst (place n (Z.of_nat i)) = root) by (unfold place; rewrite St; reflexivity). rewrite Pf in *. cbn [negb andb start]. unfold old. rewrite Ec.
      eexists. split; [apply mget_mset_same|]. unfold put. rewrite !mget_mset_other by congruence. exact Ed.
    + exists c. split; [|exact Ed]. rewrite mget_mset_other by (apply not_eq_sym, place_root, St || apply place_root, St). exact Ec.
  - intros pat0 pm0 fp0 tp0 Q. injection Q as <- <- <- <-. eexists. split; [apply mget_mset_same|]. unfold put. pose proof (index_legacy mesh Nmesh Smesh) as IL.
    assert (S0 : mget (start d1 root (if (negb (style_of o n) && op_trunc o)%bool then Trunc else RdWr)) (index_key mesh) = None).
    { destruct (op_trunc o) eqn:T; [|rewrite andb_false_r; cbn [start]].
      - destruct (style_of o n) eqn:St; [|reflexivity]. cbn [negb andb start]. unfold old. specialize (A4 eq_refl (index_key mesh)). unfold entries in A4.
        etransitivity; [|apply A4; intros i _; apply not_eq_sym, place_key; [exact Nmesh|exact Smesh]]. destruct (mget d1 root); reflexivity.
      - assert (Dr : mget d root = None) by (apply not_there; [exact T|exact C|exact prefix_root]). unfold old. destruct (style_of o n) eqn:St.
        + specialize (A4 eq_refl (index_key mesh)). unfold entries in A4. rewrite Dr in A4. etransitivity; [|apply A4; intros i _; apply not_eq_sym, place_key; [exact Nmesh|exact Smesh]]. destruct (mget d1 root); reflexivity.
        + rewrite (A5 eq_refl), Dr. reflexivity. }
    split.
    + rewrite mget_mset_other by congruence. rewrite mget_mset_same, S0. reflexivity.
    + rewrite mget_mset_same. match goal with |- context [upd_item ?x _] => destruct x as [[u|[[q a]|]|]|] end; reflexivity.
Qed.
Definition shown (vs : list V) : list (str * option V) := map (fun iv => (dom_name (fst iv), Some (setid (fst iv) (snd iv)))) (combine (zseq (Z.of_nat (length vs))) vs).
Lemma zseq_S k : zseq (Z.of_nat (S k)) = zseq (Z.of_nat k) ++ [Z.of_nat k].
Proof. unfold zseq. rewrite !Nat2Z.id, seq_S, map_app. reflexivity. Qed.
Lemma shown_nth vs i : nth_error (shown vs) i = option_map (fun v => (dom_name (Z.of_nat i), Some (setid (Z.of_nat i) v))) (nth_error vs i).
Proof.
  unfold shown. rewrite nth_error_map. assert (G : forall (a : list Z) (b : list V) k, nth_error (combine a b) k = match nth_error a k, nth_error b k with Some x, Some y => Some (x, y) | _, _ => None end).
  { induction a as [|x a IH]; intros [|y b] [|k]; try reflexivity. - cbn [combine nth_error]. destruct (nth_error a k); reflexivity. - cbn [combine nth_error]. apply IH. }
  rewrite G. destruct (nth_error vs i) as [v|] eqn:E; [|destruct (nth_error (zseq _) i); reflexivity].
  assert (H : (i < length vs)%nat) by (apply nth_error_Some; congruence). pose proof (zseq_nth (Z.of_nat (length vs)) (Z.of_nat i) ltac:(lia)) as Zn. rewrite Nat2Z.id in Zn. rewrite Zn. reflexivity.
Qed.
Lemma dom_of_ok (d : disk) i p c v : mget d (fst p) = Some c -> mget c (snd p) = Some (Dom v) -> dom_of d i p = Ok (dom_name i, Some v).
Proof. intros A B. unfold dom_of. match goal with |- match ?x with _ => _ end = _ => replace x with (Some c) by (symmetry; exact A) end. cbv iota beta. match goal with |- context [match ?x with _ => _ end] => replace x with (Some (Dom v)) by (symmetry; exact B) end. reflexivity. Qed.
Lemma read_mesh_part (d : disk) rt m p r (c : @file V) pat pm : mget d rt = Some c -> mget c (index_key m) = Some (Index (Some (pat, pm))) ->
  read_mesh d rt m p r = omap_list (read_dom d rt m (part_paths pat pm)) (read_range (match pm with Some m => zmax_list (pm_domain m) + 1 | None => 1 end) p r).
Proof.
  intros A B. unfold read_mesh. match goal with |- match ?x with _ => _ end = _ => replace x with (Some c) by (symmetry; exact A) end. cbv iota beta.
  match goal with |- match ?x with _ => _ end = _ => replace x with (Some (@Index V (Some (pat, pm)))) by (symmetry; exact B) end. reflexivity.
Qed.
(** reading a mesh whose domains are in place *)
Lemma read_all d vs p : vs <> [] -> 1 <= p ->
  (style_of o (Z.of_nat (length vs)) = true -> length vs <> 1%nat -> pre = []) ->
  (forall pat pm fp tp, root_entry path sfx proto o (Z.of_nat (length vs)) = (pat, pm, fp, tp) -> exists c, mget d root = Some c /\ mget c (index_key mesh) = Some (Index (Some (pat, pm)))) ->
  (forall i v, nth_error vs i = Some v -> exists c, mget d (fst (place (Z.of_nat (length vs)) (Z.of_nat i))) = Some c /\ mget c (snd (place (Z.of_nat (length vs)) (Z.of_nat i))) = Some (Dom (setid (Z.of_nat i) v))) ->
  exists parts, omap_list (read_mesh d root mesh p) (zseq p) = Ok parts /\ concat parts = shown vs /\ forall r l, nth_error parts r = Some l -> read_mesh d root mesh p (Z.of_nat r) = Ok l /\ Z.of_nat (length l) = read_size (Z.of_nat (length vs)) p (Z.of_nat r).
Proof.
  intros N Hp Hd Hi Ho. set (n := Z.of_nat (length vs)) in *. assert (Hn : (1 <= length vs)%nat) by (destruct vs; [congruence|cbn; lia]).
  destruct (root_entry path sfx proto o n) as [[[pat pm] fp] tp] eqn:R. destruct (Hi _ _ _ _ eq_refl) as (c & Ec & Ei).
  set (g := fun i => match nth_error (shown vs) (Z.to_nat i) with Some x => x | None => ([], None) end).
  assert (Rd : forall i, 0 <= i < n -> read_dom d root mesh (part_paths pat pm) i = Ok (g i)).
  { intros i H. destruct (read_at d (length vs) i Hn H Hd pat pm fp tp R) as [-> _]. fold n. unfold g.
    destruct (nth_error vs (Z.to_nat i)) as [v|] eqn:E; [|apply nth_error_None in E; lia]. rewrite shown_nth, E. cbn [option_map]. destruct (Ho _ _ E) as (c0 & E0 & E1).
    rewrite Z2Nat.id in * by lia. apply (dom_of_ok _ _ _ c0); assumption. }
  assert (Nn : match pm with Some m => zmax_list (pm_domain m) + 1 | None => 1 end = n) by (apply (read_at d (length vs) 0 Hn ltac:(lia) Hd pat pm fp tp R)).
  assert (Rg : forall r, 0 <= r < p -> forall i, In i (read_range n p r) -> 0 <= i < n).
  { intros r Hr i I. apply in_zseq. rewrite <- (ranges_tile n p) by lia. apply in_concat. exists (read_range n p r). split; [apply in_map, in_zseq, Hr|exact I]. }
  assert (Rm : forall r, 0 <= r < p -> read_mesh d root mesh p r = Ok (map g (read_range n p r))).
  { intros r Hr. rewrite (read_mesh_part d root mesh p r c pat pm Ec Ei), Nn. apply omap_list_ok. intros i I. apply Rd, (Rg r Hr i I). }
  exists (map (fun r => map g (read_range n p r)) (zseq p)). split; [|split].
  - apply omap_list_ok. intros r I. apply Rm. apply in_zseq, I.
  - rewrite <- map_map, <- concat_map, ranges_tile by lia.
    assert (X : forall (l : list (str * option V)), map (fun i => match nth_error l (Z.to_nat i) with Some x => x | None => ([], None) end) (zseq (Z.of_nat (length l))) = l).
    { clear. intros l. induction l as [|x l IH] using rev_ind; [reflexivity|]. rewrite app_length, Nat.add_1_r, zseq_S, map_app. cbn [map]. rewrite Nat2Z.id, nth_error_app2, Nat.sub_diag by lia. cbn [nth_error]. f_equal.
      rewrite <- IH at 2. apply map_ext_in. intros i I. apply in_zseq in I. rewrite nth_error_app1 by lia. reflexivity. }
    specialize (X (shown vs)). unfold shown in X at 2. rewrite map_length, combine_length, length_zseq, Nat2Z.id, Nat.min_id in X. exact X.
  - intros r l E. rewrite nth_error_map in E. assert (Hr : (r < Z.to_nat p)%nat) by (rewrite <- (length_zseq p); apply nth_error_Some; destruct (nth_error (zseq p) r); [discriminate|discriminate E]).
    pose proof (zseq_nth p (Z.of_nat r) ltac:(lia)) as Zn. rewrite Nat2Z.id in Zn. rewrite Zn in E. cbn [option_map] in E. injection E as <-. split; [apply Rm; lia|].
    rewrite map_length. unfold read_range. rewrite map_length, length_zseq. unfold read_size. pose proof (Z.div_pos n p ltac:(lia) ltac:(lia)). destruct (Z.of_nat r <? n mod p); lia.
Qed.
Lemma round_trip ranks d d' p : concat ranks <> [] -> clean d -> 1 <= p ->
  (style_of o (count ranks) = true -> length (concat ranks) <> 1%nat -> pre = []) -> write ranks d = Ok d' ->
  exists parts, omap_list (read_mesh d' root mesh p) (zseq p) = Ok parts /\ concat parts = shown (concat ranks) /\ forall r l, nth_error parts r = Some l -> read_mesh d' root mesh p (Z.of_nat r) = Ok l /\ Z.of_nat (length l) = read_size (count ranks) p (Z.of_nat r).
Proof.
  intros N C Hp Hd E. destruct (write_result ranks d d' N C E) as [A B]. apply read_all; [exact N|exact Hp|exact Hd| |exact A].
  intros pat pm fp tp R. destruct (B _ _ _ _ R) as (c & X & Y & _). exists c. auto.
Qed.
(** * Writing ends *)
Lemma ends ranks d : concat ranks <> [] -> write ranks d = Err \/ exists d', write ranks d = Ok d'.
Proof.
  intros N. rewrite write_eq by exact N. unfold phase1. rewrite number_concat, number_from_len. destruct (style_of o (count ranks)); [right; eexists; reflexivity|].
  destruct (Z.eqb_spec (count ranks) (files_of o (count ranks))) as [Nf|Nf].
  - destruct (existsb _ _); [left; reflexivity|right; eexists; reflexivity].
  - set (nf := files_of o (count ranks)) in *.
    assert (Inj : forall f g, 0 <= f < nf -> 0 <= g < nf -> file_name odir proto f = file_name odir proto g -> f = g) by (intros f g F G; apply file_inj; lia).
    destruct (rounds_fuel upd fails sched sched_ok (op_trunc o) odir proto mesh (d2f_map (count ranks) nf) nf Inj (length ranks) 0 (new_ranks nf 0 (number setid 0 ranks)) d (new_wf nf _)) as [X|[d' X]].
    + intros f i r F Ei Hi. rewrite new_nth in Ei. assert (Q : nth_error (number setid 0 ranks) i = None).
      { apply nth_error_None. assert (G : forall l k, length (number setid k l) = length l) by (clear; induction l as [|x l IH]; intros k; [reflexivity|]; cbn [number length]; f_equal; apply IH). rewrite G. exact Hi. }
      rewrite Q in Ei. discriminate Ei.
    + left. rewrite X. reflexivity.
    + right. rewrite X. eexists. reflexivity.
Qed.
Lemma completes ranks d : concat ranks <> [] -> (forall k i, fails k i = false) -> exists d', write ranks d = Ok d'.
Proof.
  intros N F. destruct (ends ranks d N) as [X|X]; [exfalso|exact X]. rewrite write_eq in X by exact N. unfold phase1 in X. rewrite number_concat, number_from_len in X.
  destruct (style_of o (count ranks)); [discriminate X|]. destruct (Z.eqb_spec (count ranks) (files_of o (count ranks))) as [Nf|Nf].
  - assert (Y : existsb (fun x => fails 0%nat (fst x)) (number_from setid 0 (concat ranks)) = false).
    { destruct (existsb _ _) eqn:Y; [|reflexivity]. apply existsb_exists in Y. destruct Y as (x & _ & Y). rewrite F in Y. discriminate Y. }
    rewrite Y in X. discriminate X.
  - match type of X with obind ?r _ = _ => destruct r as [d1| | |] eqn:R; try discriminate X end. revert R. apply rounds_no_err. exact F.
Qed.
Lemma failure ranks d i : concat ranks <> [] -> style_of o (count ranks) = false -> 0 <= i < count ranks -> (forall k, fails k i = true) -> write ranks d = Err.
Proof.
  intros N St Hi F. destruct (ends ranks d N) as [X|[d' X]]; [exact X|exfalso]. rewrite write_eq in X by exact N.
  destruct (phase1 (number setid 0 ranks) (length ranks) d) as [d1| | |] eqn:E1; try discriminate X. destruct (phase1_after _ _ _ N E1) as [_ B].
  destruct (B St i Hi) as [k Fk]. rewrite F in Fk. discriminate Fk.
Qed.
(** * What a write without truncation leaves alone *)
Lemma write_keeps ranks d d' : concat ranks <> [] -> op_trunc o = false -> own_style (count ranks) = false -> write ranks d = Ok d' ->
  (forall name k, (forall i, 0 <= i < count ranks -> (name, k) <> place (count ranks) i) -> (name = root -> k <> index_key mesh /\ k <> legacy_key) -> at_ d' (name, k) = at_ d (name, k)) /\
  (forall name c, mget d name = Some c -> exists c1, mget d' name = Some c1).
Proof.
  intros N T Os E. rewrite write_eq in E by exact N. destruct (phase1 (number setid 0 ranks) (length ranks) d) as [d1| | |] eqn:E1; try discriminate E. cbn [obind] in E. injection E as <-.
  destruct (phase1_after _ _ _ N E1) as [[A1 A2 A3 A4 A5] _]. rewrite number_from_len in *. set (n := count ranks) in *. unfold write_root.
  destruct (root_entry path sfx proto o n) as [[[pat pm] fp] tp] eqn:R. split.
  - intros name k Hp Hr. specialize (A2 T Os (name, k)). rewrite <- A2.
    + unfold at_. cbn [fst snd]. destruct (str_eqb_spec name root) as [->|Ne]; [|rewrite mget_mset_other by congruence; reflexivity]. destruct (Hr eq_refl) as [K1 K2].
      rewrite mget_mset_same. cbn [entries]. unfold put. rewrite !mget_mset_other by congruence. rewrite T, andb_false_r. cbn [start]. unfold old, entries. destruct (mget d1 root); reflexivity.
    + intros i I. apply Hp. apply in_zseq. rewrite number_ids in I. exact I.
  - intros name c E. destruct (A3 _ _ E) as [c1 Ec]. destruct (str_eqb_spec name root) as [->|Ne].
    + rewrite mget_mset_same. eexists. reflexivity.
    + rewrite mget_mset_other by congruence. exists c1. exact Ec.
Qed.

End Trip.
