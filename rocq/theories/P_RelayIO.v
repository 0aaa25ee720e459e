(** C68: files of documents behind relay::io::save, save_merged, load and load_merged. *)
From Coq Require Import Lia.
From Verif Require Import Base Path SpecTree RelayIO RelayIOSpec RelayIOFacts RelayIOMore.

(** Every program of the four calls acts on a store of documents: it answers what the store
    answers, the files hold the documents of the store afterwards, and no other file is
    touched.  [names] are the files of the program, each kept in one protocol; the protocols
    are any that read back what they wrote, up to [kept]. *)
Theorem C68_store : forall {A B} (none : A) upd (enc_schema enc_data : tree A -> B) dec_bin enc dec proto kept (good : str -> tree A -> Prop),
  (forall t, good (L "conduit_bin") t -> dec_bin (enc_schema t) (enc_data t) = Ok (kept (L "conduit_bin") t)) ->
  (forall p t, p <> L "conduit_bin" -> good p t -> dec p (enc p t) = Ok (kept p t)) ->
  forall names l d s,
  apart proto names -> holds proto dec_bin dec names d s -> Forall (asked proto names) l ->
  all_good none upd proto kept good s (map fst l) ->
  let calls := map (fun x => call_of (fst x) (snd x)) l in
  let out := run none upd enc_schema enc_data dec_bin enc dec d calls in
  snd out = answers none upd proto kept s (map fst l) /\
  holds proto dec_bin dec names (fst out) (finally none upd proto kept s (map fst l)) /\
  forall g, (forall h, names h -> g <> h /\ g <> h ++ L "_json") -> mget (fst out) g = mget d g.
Proof. intros A B none upd es ed db e dd proto kept good H1 H2 names l d s AP H F G. exact (programs none upd es ed db e dd proto kept good H1 H2 names l d s AP H F G). Qed.
Print Assumptions C68_store.

(** The store is a store: what was planted at a place is there, and places that do not lie on
    one way have nothing to do with each other. *)
Theorem C68_place_same : forall {A} (none : A) d place t, part none (plant none d place t) place = t.
Proof. intros. apply part_plant. Qed.
Print Assumptions C68_place_same.
Theorem C68_place_other : forall {A} (none : A) d a b t, forks a b -> part none (plant none d a t) b = part none d b.
Proof. intros. apply part_plant_other. assumption. Qed.
Print Assumptions C68_place_other.

(** The protocol looked up for a name is the one of the end of the name of the file; the place
    has no say. *)
Theorem C68_protocol : forall f place p, nameable f place -> ~ bare f -> named f p -> identify (spell f place) = p.
Proof. exact identified. Qed.
Print Assumptions C68_protocol.

(** Slashes more than needed before the names of a place change nothing. *)
Theorem C68_slashes : forall {A B} (none : A) upd (enc_schema enc_data : tree A -> B) dec_bin enc dec f l p d,
  (1 < length f)%nat -> ~ In ":"%char f -> Forall plain (map snd l) -> l <> [] ->
  let path := f ++ ":"%char :: loose l in
  let usual := spell f (map snd l) in
  (forall t, save none enc_schema enc_data dec_bin enc dec d t path p = save none enc_schema enc_data dec_bin enc dec d t usual p) /\
  (forall t, save_merged none upd enc_schema enc_data dec_bin enc dec d t path p = save_merged none upd enc_schema enc_data dec_bin enc dec d t usual p) /\
  load none dec_bin dec d path p = load none dec_bin dec d usual p /\
  (forall t, load_merged none upd dec_bin dec d path p t = load_merged none upd dec_bin dec d usual p t).
Proof. intros. apply slashes; assumption. Qed.
Print Assumptions C68_slashes.
(** Slashes alone are no place: an error, and nothing changes. *)
Theorem C68_no_place : forall {A B} (none : A) upd (enc_schema enc_data : tree A -> B) dec_bin enc dec f n p d,
  (1 < length f)%nat -> ~ In ":"%char f -> own_protocol p ->
  let path := f ++ ":"%char :: repeat "/"%char (S n) in
  (forall t, save none enc_schema enc_data dec_bin enc dec d t path p = (d, Error)) /\
  (forall t, save_merged none upd enc_schema enc_data dec_bin enc dec d t path p = (d, Error)) /\
  load none dec_bin dec d path p = Error /\
  (forall t, load_merged none upd dec_bin dec d path p t = Error).
Proof. intros. apply no_place; assumption. Qed.
Print Assumptions C68_no_place.
(** A place with .. in it is the place it leads to, in a document in which the node left again
    has been made an object: so it is for loading, and for saving, which writes this
    document. *)
Theorem C68_detour : forall {A B} (none : A) (enc_schema enc_data : tree A -> B) dec_bin enc dec f pre k post p d doc,
  (1 < length f)%nat -> ~ In ":"%char f -> own_protocol p ->
  Forall plain pre -> plain k -> Forall plain post -> post <> [] ->
  load none dec_bin dec d f p = Tree doc ->
  let path := f ++ ":"%char :: detour pre k post in
  load none dec_bin dec d path p = Tree (part none (opened none doc (pre ++ [k])) (pre ++ post)) /\
  forall t, save none enc_schema enc_data dec_bin enc dec d t path p =
            save none enc_schema enc_data dec_bin enc dec d (plant none (opened none doc (pre ++ [k])) (pre ++ post) t) f p.
Proof. intros. apply (up_again none (fun x _ => x)); assumption. Qed.
Print Assumptions C68_detour.

(** ---- a protocol to try things with: leaves are numbers, a file is a tag and the tree ---- *)
Definition toy := (str * tree nat)%type.
Definition t_schema (t : tree nat) : toy := (L "schema", t).
Definition t_data (t : tree nat) : toy := (L "data", t).
Definition t_dec_bin (s b : toy) : outcome (tree nat) := if str_eqb (fst s) (L "schema") && str_eqb (fst b) (L "data") then Ok (snd b) else Err.
Definition t_enc (p : str) (t : tree nat) : toy := (p, t).
Definition t_dec (p : str) (b : toy) : outcome (tree nat) := if str_eqb (fst b) p then Ok (snd b) else Err.
(** entries of the source come last or in place of what was there *)
Definition t_upd (src dst : tree nat) : tree nat :=
  match src with TObj es => TObj (fold_left (fun acc e => mset acc (fst e) (snd e)) es (tentries dst)) | _ => src end.
Notation trun := (run 0%nat t_upd t_schema t_data t_dec_bin t_enc t_dec []).
Lemma toy_bin : forall t, True -> t_dec_bin (t_schema t) (t_data t) = Ok t.
Proof. reflexivity. Qed.
Lemma toy_txt : forall p t, p <> L "conduit_bin" -> True -> t_dec p (t_enc p t) = Ok t.
Proof. intros p t _ _. unfold t_dec, t_enc. cbn [fst]. rewrite str_eqb_refl. reflexivity. Qed.

Definition leaf (n : nat) : tree nat := TLeaf n.
Definition prog : list (@ask nat * str) :=
  [ (AskSave (leaf 1) (L "a.json") [L "x"], []);
    (AskSave (TObj [(L "x", leaf 1); (L "y", leaf 2)]) (L "a.json") [], []);
    (AskSave (leaf 7) (L "a.json") [L "z"; L "w"], L "json");
    (AskSaveMerged (TObj [(L "y", leaf 3)]) (L "a.json") [], []);
    (AskSaveMerged (TObj [(L "u", leaf 4)]) (L "C:\run") [L "p"], L "conduit_bin");
    (AskLoad (L "a.json") [], []);
    (AskLoad (L "a.json") [L "z"], []);
    (AskLoad (L "C:\run") [L "p"; L "u"], []);
    (AskLoadMerged (L "a.json") [L "z"] (TObj [(L "v", leaf 9)]), []);
    (AskLoad (L "b.yaml") [], []) ].
Definition t_names (f : str) : Prop := In f [L "a.json"; L "C:\run"; L "b.yaml"].
Definition t_proto (f : str) : str := if str_eqb f (L "a.json") then L "json" else if str_eqb f (L "C:\run") then L "conduit_bin" else L "yaml".
Example C68_store_meets :
  apart t_proto t_names /\ holds t_proto t_dec_bin t_dec t_names [] (fun _ => None) /\ Forall (asked t_proto t_names) prog /\
  all_good 0%nat t_upd t_proto (fun _ t => t) (fun _ _ => True) (fun _ => None) (map fst prog) /\
  snd (trun (map (fun x => call_of (fst x) (snd x)) prog)) =
    [Error; Done; Done; Done; Done;
     Tree (TObj [(L "x", leaf 1); (L "y", leaf 3); (L "z", TObj [(L "w", leaf 7)])]);
     Tree (TObj [(L "w", leaf 7)]); Tree (leaf 4);
     Tree (TObj [(L "v", leaf 9); (L "w", leaf 7)]); Error].
Proof.
  split. { intros f g F G P. unfold t_names in *. cbn [In] in F, G. intuition (subst; discriminate). }
  split. { intros f F. reflexivity. }
  assert (NA : ~ bare (L "a.json")). { intros (q & I). cbn [In kinds] in I. intuition discriminate. }
  assert (NC : ~ bare (L "C:\run")). { intros (q & I). cbn [In kinds] in I. intuition discriminate. }
  assert (ND : ~ bare (L "b.yaml")). { intros (q & I). cbn [In kinds] in I. intuition discriminate. }
  assert (KA : named (L "a.json") (L "json")). { left. exists (L "json"). split; [exists (L "a"); reflexivity|]. cbn [In kinds]. tauto. }
  assert (KD : named (L "b.yaml") (L "yaml")). { left. exists (L "yaml"). split; [exists (L "b"); reflexivity|]. cbn [In kinds]. tauto. }
  assert (KC : named (L "C:\run") (L "conduit_bin")).
  { right. split; [reflexivity|]. intros ext q _ (base & E).
    assert (I : In "."%char (L "C:\run")) by (rewrite E; apply in_or_app; right; left; reflexivity).
    cbn in I. intuition discriminate. }
  assert (PL : forall place, nameable (L "a.json") place).
  { intros place. split; [discriminate|]. left. split; [cbn; intuition discriminate|discriminate]. }
  assert (PD : forall place, nameable (L "b.yaml") place).
  { intros place. split; [discriminate|]. left. split; [cbn; intuition discriminate|discriminate]. }
  assert (PC : forall place, nameable (L "C:\run") place).
  { intros place. split; [discriminate|]. right. exists "C"%char, (L "run"). split; [reflexivity|]. split; [discriminate|]. cbn. intuition discriminate. }
  assert (PP : forall k, In k [L "x"; L "z"; L "w"; L "p"; L "u"] -> plain k).
  { intros k K. cbn [In] in K. repeat (destruct K as [<-|K]; [repeat split; try discriminate; cbn; intuition discriminate|]). destruct K. }
  split.
  { repeat (apply Forall_cons; [unfold asked; cbn [file_of place_of]; split; [unfold t_names; cbn [In]; tauto|];
      split; [auto|]; split; [repeat (apply Forall_cons; [apply PP; cbn [In]; tauto|]); apply Forall_nil|];
      split; [vm_compute; tauto|]; first [left; reflexivity|right; auto]|]). apply Forall_nil. }
  split; [vm_compute; tauto|]. vm_compute. reflexivity.
Qed.

(** ---- what does not hold ---- *)

(** An empty place after the colon is not the whole document: the colon becomes part of the
    name of the file. *)
Theorem C68_trailing_colon_refuted : exists t : tree nat,
  snd (trun [Save t (L "a.json") (L "json"); Load (L "a.json:") (L "json")]) = [Done; Error] /\
  mget (fst (trun [Save t (L "a.json:") (L "json")])) (L "a.json") = None.
Proof. exists (TLeaf 1%nat). split; vm_compute; reflexivity. Qed.
Print Assumptions C68_trailing_colon_refuted.
(** A place that is not in the document is not an error: the caller gets an empty node. *)
Theorem C68_missing_place_refuted : exists t : tree nat,
  snd (trun [Save t (L "a.json") (L "json"); Load (L "a.json:no/such") (L "json")]) = [Done; Tree (TLeaf 0%nat)] /\
  tlookup t [L "no"; L "such"] = None.
Proof. exists (TObj [(L "x", TLeaf 1%nat)]). split; vm_compute; reflexivity. Qed.
Print Assumptions C68_missing_place_refuted.
(** Two files with different names are not independent: one kept in conduit_bin loses its
    schema to a file that is called like it with _json behind. *)
Theorem C68_companion_refuted : exists (t u : tree nat) f g, f <> g /\
  snd (trun [Save t f (L "conduit_bin"); Save u g (L "conduit_bin"); Load f (L "conduit_bin")]) = [Done; Done; Error].
Proof. exists (TLeaf 1%nat), (TLeaf 2%nat), (L "run"), (L "run_json"). split; [discriminate|]. vm_compute. reflexivity. Qed.
Print Assumptions C68_companion_refuted.
(** A name with a colon in it is not a name: what is behind the colon is taken for a place, and
    the end of the name is not looked at. *)
Theorem C68_colon_refuted : exists t : tree nat,
  snd (trun [Save t (L "run_12:30.json") []]) = [Error] /\ named (L "run_12:30.json") (L "json") /\ identify (L "run_12:30.json") = L "conduit_bin".
Proof.
  exists (TLeaf 1%nat). split; [vm_compute; reflexivity|]. split; [|vm_compute; reflexivity].
  left. exists (L "json"). split; [exists (L "run_12:30"); reflexivity|]. cbn [In kinds]. tauto.
Qed.
Print Assumptions C68_colon_refuted.
(** A name without an end can be taken for one: a file called csv is a CSV file. *)
Theorem C68_bare_name_refuted : exists f, named f (L "conduit_bin") /\ identify f = L "csv".
Proof.
  exists (L "csv"). split; [|vm_compute; reflexivity]. right. split; [reflexivity|]. intros ext q _ (base & E).
  assert (I : In "."%char (L "csv")) by (rewrite E; apply in_or_app; right; left; reflexivity).
  cbn in I. intuition discriminate.
Qed.
Print Assumptions C68_bare_name_refuted.
(** A file of one letter and a place that begins with a backslash: the two are taken for one
    name on a drive. *)
Theorem C68_drive_refuted : exists t : tree nat,
  snd (trun [Save t (L "d") (L "json"); Load (spell (L "d") [L "\x"]) (L "json")]) = [Done; Error] /\
  part 0%nat t [L "\x"] = TLeaf 5%nat.
Proof. exists (TObj [(L "\x", TLeaf 5%nat)]). split; vm_compute; reflexivity. Qed.
Print Assumptions C68_drive_refuted.
(** The way through a node and back is not the place itself: what lies at the node that is left
    is lost on the way, here a number that is there is not found. *)
Theorem C68_detour_refuted : exists t : tree nat,
  snd (trun [Save t (L "a.json") (L "json"); Load (L "a.json:x") (L "json"); Load (L "a.json:x/../x") (L "json")]) =
    [Done; Tree (TLeaf 5%nat); Tree (TObj [])].
Proof. exists (TObj [(L "x", TLeaf 5%nat)]). vm_compute. reflexivity. Qed.
Print Assumptions C68_detour_refuted.
(** One slash behind a place is ignored, two are an error. *)
Theorem C68_two_slashes_refuted : exists t : tree nat,
  snd (trun [Save t (L "a.json") (L "json"); Load (L "a.json:x/") (L "json"); Load (L "a.json:x//") (L "json")]) =
    [Done; Tree (TLeaf 5%nat); Error].
Proof. exists (TObj [(L "x", TLeaf 5%nat)]). vm_compute. reflexivity. Qed.
Print Assumptions C68_two_slashes_refuted.
(** Instances of the three theorems on other spellings. *)
Example C68_spellings :
  let t := TObj [(L "x", TObj [(L "y", TLeaf 5%nat)])] in
  loose [(2%nat, L "x"); (1%nat, L "y")] = L "//x//y" /\ detour [L "x"] (L "z") [L "y"] = L "x/z/../y" /\
  snd (trun [Save t (L "a.json") (L "json"); Load (L "a.json://x//y") (L "json"); Load (L "a.json:x/z/../y") (L "json");
             Save (TLeaf 6%nat) (L "a.json:x/z/../y") (L "json"); Load (L "a.json") (L "json"); Load (L "a.json:///") (L "json")]) =
    [Done; Tree (TLeaf 5%nat); Tree (TLeaf 5%nat); Done; Tree (TObj [(L "x", TObj [(L "y", TLeaf 6%nat); (L "z", TObj [])])]); Error].
Proof. vm_compute. auto. Qed.
