(** C61: files behind IOHandle objects. *)
From Coq Require Import ZArith.
From Verif Require Import Base Path IOHandle IOHandleSpec IOHandleFacts IOHandleMore.
Local Open Scope Z_scope.

(** Written back at close, seen as if written at once: for every program that keeps the rules
    of [fair], every call answers what it would answer if the file held every write already,
    and at every point of the program (cut it where the crash is) the disk holds, for every
    file, what a crash may leave: the content of the last close (or the empty file made by the
    first open), which loads.  The protocol is any that reads back what it wrote, up to [kept]. *)
Theorem C61_as_if_written : forall {T B} (empty : T) upd put rem sub names (save : str -> T -> B) load can_write identify kept (good : str -> T -> Prop),
  (forall p t, good p t -> load p (save p t) = Ok (kept p t)) ->
  forall d f0 cs,
  (forall p e, f0 p = Some e -> f_now e = f_safe e) ->
  (forall p, match f0 p with None => mget d p = None | Some e => exists b, mget d p = Some b /\ load (f_proto e) b = Ok (f_safe e) end) ->
  all_fair empty upd put rem sub names kept can_write good (mkSS f0 (fun _ => Off)) cs ->
  snd (run empty upd put rem sub names save load can_write identify (mkS d []) cs) = snd (srun empty upd put rem sub names kept (mkSS f0 (fun _ => Off)) cs) /\
  forall p, match files (fst (srun empty upd put rem sub names kept (mkSS f0 (fun _ => Off)) cs)) p with
            | None => mget (s_disk (fst (run empty upd put rem sub names save load can_write identify (mkS d []) cs))) p = None
            | Some e => exists b, mget (s_disk (fst (run empty upd put rem sub names save load can_write identify (mkS d []) cs))) p = Some b /\ load (f_proto e) b = Ok (f_safe e)
            end.
Proof. intros. eapply (programs empty upd put rem sub names save load can_write identify kept good H d f0 cs H0 H1 H2). Qed.
Print Assumptions C61_as_if_written.

(** Any program at all: a file that is only ever opened with modes without w keeps its bytes. *)
Theorem C61_readers_change_nothing : forall {T B} (empty : T) upd put rem sub names (save : str -> T -> B) load can_write identify p d cs,
  (forall h proto m, In (Open h p proto m) cs -> exists m', m = Some m' /\ ~ In "w"%char m') ->
  mget (s_disk (fst (run empty upd put rem sub names save load can_write identify (mkS d []) cs))) p = mget d p.
Proof. intros. apply untouched. assumption. Qed.
Print Assumptions C61_readers_change_nothing.

(** Any state: the disk changes only when an object is opened or closed ... *)
Theorem C61_disk_at_close : forall {T B} (empty : T) upd put rem sub names (save : str -> T -> B) load can_write identify s c,
  match c with Open _ _ _ _ | Close _ => False | _ => True end ->
  s_disk (fst (step empty upd put rem sub names save load can_write identify s c)) = s_disk s.
Proof. intros. apply quiet. assumption. Qed.
Print Assumptions C61_disk_at_close.

(** ... and an object that was closed refuses everything until it is opened again. *)
Theorem C61_closed_refuses : forall {T B} (empty : T) upd put rem sub names (save : str -> T -> B) load can_write identify s h c,
  match c with Read g _ | WriteAll g _ | Write g _ _ | Remove g _ | HasPath g _ | ListNames g _ => g = h | _ => False end ->
  let s1 := fst (step empty upd put rem sub names save load can_write identify s (Close h)) in
  step empty upd put rem sub names save load can_write identify s1 c = (s1, Err).
Proof. intros. apply (closed _ _ _ _ _ _ _ _ _ _ _ _ h); [apply close_null|assumption]. Qed.
Print Assumptions C61_closed_refuses.

(** A small world: trees are flat maps, a file remembers its protocol, and json keeps no zeros *)
Definition tree := list (str * Z).
Definition Upd (a b : tree) : tree := fold_left (fun m kv => mset m (fst kv) (snd kv)) b a.
Definition Put (k : str) (v : tree) (t : tree) : tree * outcome unit :=
  match k, v with [], _ => (t, Err) | _, (_, x) :: _ => (mset t k x, Ok tt) | _, [] => (mset t k 0%Z, Ok tt) end.
Definition Rem (k : str) (t : tree) : tree * outcome unit := match mget t k with Some _ => (mdel t k, Ok tt) | None => (t, Err) end.
Definition Sub (k : str) (t : tree) : option tree := match mget t k with Some x => Some [([], x)] | None => None end.
Definition Kept (p : str) (t : tree) : tree := if str_eqb p (L "json") then filter (fun kv => negb (Z.eqb (snd kv) 0%Z)) t else t.
Definition Save (p : str) (t : tree) : str * tree := (p, Kept p t).
Definition Load (p : str) (b : str * tree) : outcome tree := if str_eqb p (fst b) then Ok (snd b) else Err.
Definition Run := run [] Upd Put Rem Sub (map fst) Save Load (fun _ => true) (fun _ => L "conduit_bin").
Definition Srun := srun [] Upd Put Rem Sub (map fst) Kept.
Definition one (x : Z) : tree := [([], x)].
Definition none : str -> option (@sfile tree) := fun _ => None.

Definition story : list (@cmd tree) :=
  [ Open (L "w") (L "f") (L "json") (Some (L "rw")); Write (L "w") (L "a") (one 1); Write (L "w") (L "z") (one 0); Read (L "w") (L "z"); Close (L "w");
    Open (L "r1") (L "f") (L "json") (Some (L "r")); Open (L "r2") (L "f") (L "json") (Some (L "ra")); Read (L "r1") (L "z"); ListNames (L "r2") None;
    Write (L "r1") (L "a") (one 5); Close (L "r1"); Read (L "r1") []; Close (L "r2");
    Open (L "w") (L "f") (L "json") (Some (L "wt")); Write (L "w") (L "b") (one 7); Read (L "w") (L "b"); IsOpen (L "w") ].
Definition obj_of (c : @cmd tree) : str := match c with Open h _ _ _ | IsOpen h | Read h _ | WriteAll h _ | Write h _ _ | Remove h _ | HasPath h _ | ListNames h _ | Close h => h end.
Lemma sclose_other (s : @sstate tree) h g : g <> h -> objs (sclose Kept s h) g = objs s g.
Proof. intros N. unfold sclose. destruct (objs s h) as [|p r []|]; try (cbn [objs]; apply set_other, N). destruct (files s p); cbn [objs]; apply set_other, N. Qed.
Lemma objs_other s c g : g <> obj_of c -> objs (fst (sstep [] Upd Put Rem Sub (map fst) Kept s c)) g = objs s g.
Proof.
  intros N. destruct c as [h p proto m|h|h path|h v|h path v|h path|h path|h [path|]|h]; cbn [sstep fst obj_of] in *; try reflexivity;
    try (unfold swrite; destruct (objs s h) as [|p r []|]; try reflexivity; destruct (files s p) as [e|]; try reflexivity; match goal with |- context [let '(_, _) := ?x in _] => destruct x end; reflexivity).
  - unfold sopen. cbv zeta. destruct (smode m) as [[[r w] t]|]; [destruct (files _ p); [|destruct w]|]; cbn [fst objs]; (rewrite set_other by exact N); apply sclose_other, N.
  - apply sclose_other, N.
Qed.
Lemma story_fair : all_fair [] Upd Put Rem Sub (map fst) Kept (fun _ => true) (fun _ _ => True) (mkSS none (fun _ => Off)) story.
Proof.
  assert (Ops : forall (s : @sstate tree) h, (match objs s h with Failed => False | _ => True end) -> objs s h <> Failed) by (intros s h; destruct (objs s h); [discriminate|discriminate|contradiction]).
  assert (Cc : forall (s : @sstate tree) h, can_close (fun _ _ => True) s h) by (intros s h; unfold can_close; destruct (objs s h) as [|? ? []|]; auto).
  unfold story. cbn [all_fair].
  repeat match goal with
  | |- _ /\ _ => split
  | |- True => exact I
  | |- fair _ _ _ _ _ (Open _ _ _ _) => unfold fair
  | |- fair _ _ _ _ _ (Close _) => unfold fair
  | |- fair _ _ _ _ _ _ => cbn [fair]
  end; try apply Cc; try (apply Ops; vm_compute; exact I); try exact I; try reflexivity;
  try (intros Q; vm_compute in Q; repeat (destruct Q as [Q|Q]; [discriminate Q|]); contradiction);
  try (intros e E; vm_compute in E; discriminate E);
  try (intros e E; vm_compute in E; injection E as <-; reflexivity);
  try (vm_compute; split; intros; first [reflexivity | congruence | left; reflexivity | right; reflexivity]).
  all: intros g r w E;
    destruct (str_eqb_spec g (L "w")) as [->|N1]; [vm_compute in E; first [discriminate E | injection E; intros; subst; vm_compute; split; reflexivity]|];
    destruct (str_eqb_spec g (L "r1")) as [->|N2]; [vm_compute in E; first [discriminate E | injection E; intros; subst; vm_compute; split; reflexivity]|];
    destruct (str_eqb_spec g (L "r2")) as [->|N3]; [vm_compute in E; first [discriminate E | injection E; intros; subst; vm_compute; split; reflexivity]|];
    exfalso; rewrite sclose_other in E by assumption; repeat (rewrite objs_other in E by (cbn [obj_of]; assumption)); discriminate E.
Qed.
Example C61_story :
  snd (Run (mkS [] []) story) =
    [ Ok RNone; Ok RNone; Ok RNone; Ok (RTree (Some (one 0))); Ok RNone;
      Ok RNone; Ok RNone; Ok (RTree None); Ok (RNames [L "a"]);
      Err; Ok RNone; Err; Ok RNone;
      Ok RNone; Ok RNone; Err; Ok (RBool true) ] /\
  snd (Run (mkS [] []) story) = snd (Srun (mkSS none (fun _ => Off)) story) /\
  (* a crash here: the last close is what is left; and after one more close it is the new text *)
  s_disk (fst (Run (mkS [] []) story)) = [(L "f", (L "json", [(L "a", 1)]))] /\
  s_disk (fst (Run (mkS [] []) (story ++ [Close (L "w")]))) = [(L "f", (L "json", [(L "b", 7)]))].
Proof.
  split; [vm_compute; reflexivity|]. split; [|split; vm_compute; reflexivity].
  refine (proj1 (C61_as_if_written [] Upd Put Rem Sub (map fst) Save Load (fun _ => true) (fun _ => L "conduit_bin") Kept (fun _ _ => True) _ [] none story _ _ story_fair)).
  - intros p t _. unfold Load, Save. cbn [fst snd]. rewrite str_eqb_refl. reflexivity.
  - intros p e E. discriminate E.
  - intros p. reflexivity.
Qed.

(** Where the rules matter. *)
Notation "'bin'" := (L "conduit_bin") (only parsing).
Definition before : @disk (str * tree) := [(L "f", (bin, [(L "a", 1)]))].

(** w, or w with a for append: the file is not read, and closing replaces it by what was
    written in this session *)
Theorem C61_append_loses_refuted : exists m, In m [L "w"; L "wa"] /\
  let s := fst (Run (mkS before []) [Open (L "h") (L "f") bin (Some m); Write (L "h") (L "b") (one 2); Close (L "h")]) in
  s_disk s = [(L "f", (bin, [(L "b", 2)]))] /\ f_append (fst (parse_mode (Some m))) = true.
Proof. exists (L "wa"). split; [right; left; reflexivity|]. vm_compute. split; reflexivity. Qed.
Print Assumptions C61_append_loses_refuted.
Example C61_plain_w_loses : s_disk (fst (Run (mkS before []) [Open (L "h") (L "f") bin (Some (L "w")); Close (L "h")])) = [(L "f", (bin, []))].
Proof. vm_compute. reflexivity. Qed.

(** an object whose open failed is not open, but takes writes without complaint and loses them *)
Theorem C61_failed_open_takes_writes_refuted : exists m cs,
  cs = [Open (L "h") (L "f") bin (Some m); IsOpen (L "h"); Write (L "h") (L "a") (one 1); Read (L "h") (L "a"); Close (L "h")] /\
  snd (Run (mkS [] []) cs) = [Err; Ok (RBool false); Ok RNone; Ok (RTree (Some (one 1))); Ok RNone] /\ s_disk (fst (Run (mkS [] []) cs)) = [].
Proof. exists (L "rwat"). eexists. split; [reflexivity|]. split; vm_compute; reflexivity. Qed.
Print Assumptions C61_failed_open_takes_writes_refuted.

(** an open refused because of a colon leaves an object whose mode was never set *)
Theorem C61_colon_mode_unset_refuted : exists path, snd (Run (mkS [] []) [Open (L "h") path bin None; Read (L "h") (L "a")]) = [Err; UB].
Proof. exists (L "out:1"). vm_compute. reflexivity. Qed.
Print Assumptions C61_colon_mode_unset_refuted.

(** two objects on one file: the one that closes last wins, the writes of the other are gone,
    even when it wrote nothing itself *)
Theorem C61_two_writers_refuted : exists cs, cs =
  [ Open (L "h") (L "f") bin None; Open (L "g") (L "f") bin None; Write (L "h") (L "b") (one 2); Read (L "g") (L "b"); Close (L "h"); Close (L "g") ] /\
  nth_error (snd (Run (mkS before []) cs)) 3 = Some (Ok (RTree None)) /\ s_disk (fst (Run (mkS before []) cs)) = before.
Proof. eexists. split; [reflexivity|]. split; vm_compute; reflexivity. Qed.
Print Assumptions C61_two_writers_refuted.

(** only the presence of letters is looked at: a mode spelled write truncates, and one spelled
    create, with its a and t, is refused *)
Theorem C61_mode_words_refuted : exists m1 m2, m1 = L "write" /\ m2 = L "create" /\
  fst (parse_mode (Some m1)) = mkF true true false true /\ snd (parse_mode (Some m2)) = false /\
  s_disk (fst (Run (mkS before []) [Open (L "h") (L "f") bin (Some m1); Close (L "h")])) = [(L "f", (bin, []))].
Proof. exists (L "write"), (L "create"). repeat split; vm_compute; reflexivity. Qed.
Print Assumptions C61_mode_words_refuted.

(** r with t: the file is not changed, but nothing in it can be seen *)
Theorem C61_read_trunc_refuted : exists m, snd (Run (mkS before []) [Open (L "h") (L "f") bin (Some m); ListNames (L "h") None; Close (L "h")]) = [Ok RNone; Ok (RNames []); Ok RNone] /\
  s_disk (fst (Run (mkS before []) [Open (L "h") (L "f") bin (Some m); ListNames (L "h") None; Close (L "h")])) = before.
Proof. exists (L "rt"). split; vm_compute; reflexivity. Qed.
Print Assumptions C61_read_trunc_refuted.

(** a file opened with another protocol than its own is an error only in modes that read it *)
Theorem C61_other_protocol_refuted : exists cs, cs = [Open (L "h") (L "f") (L "json") (Some (L "rw")); Close (L "h"); Open (L "h") (L "f") (L "json") (Some (L "w")); Close (L "h")] /\
  snd (Run (mkS before []) cs) = [Err; Ok RNone; Ok RNone; Ok RNone] /\ s_disk (fst (Run (mkS before []) cs)) = [(L "f", (L "json", []))].
Proof. eexists. split; [reflexivity|]. split; vm_compute; reflexivity. Qed.
Print Assumptions C61_other_protocol_refuted.

Example C61_readers_hyp : (forall h proto m, In (Open h (L "f") proto m) [@Open tree (L "r") (L "f") bin (Some (L "r")); Open (L "w") (L "g") bin None; WriteAll (L "w") [(L "x", 3)]; Close (L "w"); Close (L "r")] -> exists m', m = Some m' /\ ~ In "w"%char m').
Proof.
  intros h proto m [E|[E|[E|[E|[E|[]]]]]]; try discriminate E. injection E as <- <- <-. exists (L "r"). split; [reflexivity|]. intros [Q|[]]. discriminate Q.
Qed.
