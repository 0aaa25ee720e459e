(** Facts about RelayIO.v *)
From Coq Require Import Lia.
From Verif Require Import Base Path PathFacts SpecTree RelayIO RelayIOSpec ValueText.
Local Open Scope nat_scope.

Lemma find_chr_none c s : ~ In c s -> find_sub [c] s = None.
Proof.
  induction s as [|x s IH]; intros F; [reflexivity|]. cbn [find_sub prefixb].
  destruct (ascii_dec c x) as [->|_]; [destruct F; left; reflexivity|].
  rewrite IH by (intros I; apply F; right; exact I). reflexivity.
Qed.
Lemma find_chr c s t : ~ In c s -> find_sub [c] (s ++ c :: t) = Some (length s).
Proof.
  induction s as [|x s IH]; intros F.
  - cbn. destruct (ascii_dec c c); [reflexivity|congruence].
  - cbn [app find_sub prefixb]. destruct (ascii_dec c x) as [->|_]; [destruct F; left; reflexivity|].
    rewrite IH by (intros I; apply F; right; exact I). reflexivity.
Qed.
Lemma split_at c s t : ~ In c s -> split_string (s ++ c :: t) [c] = (s, t).
Proof.
  intros F. unfold split_string. rewrite find_chr by exact F.
  rewrite firstn_app, firstn_all, Nat.sub_diag, firstn_O, app_nil_r. f_equal.
  rewrite app_length. cbn [length].
  destruct (length s =? length s + S (length t) - 1) eqn:E.
  - apply Nat.eqb_eq in E. destruct t; [reflexivity|cbn in E; lia].
  - rewrite Nat.add_1_r. clear. induction s; [reflexivity|assumption].
Qed.
Lemma split_no c s : ~ In c s -> split_string s [c] = (s, []).
Proof. intros F. unfold split_string. rewrite find_chr_none by exact F. reflexivity. Qed.
Lemma rsplit_at c s t : ~ In c t -> rsplit_string (s ++ c :: t) [c] = (t, s).
Proof.
  intros F. unfold rsplit_string. rewrite rfind_chr by exact F.
  rewrite firstn_app, firstn_all, Nat.sub_diag, firstn_O, app_nil_r. f_equal.
  rewrite app_length. cbn [length].
  destruct (length s =? length s + S (length t) - 1) eqn:E.
  - apply Nat.eqb_eq in E. destruct t; [reflexivity|cbn in E; lia].
  - rewrite Nat.add_1_r. clear. induction s; [reflexivity|assumption].
Qed.
Lemma rsplit_no c s : ~ In c s -> rsplit_string s [c] = (s, []).
Proof. intros F. unfold rsplit_string. rewrite rfind_chr_none by exact F. reflexivity. Qed.

Lemma drive_yes c r : drive_case (c :: ":"%char :: "\"%char :: r) [":"%char] = true.
Proof. reflexivity. Qed.
Lemma drive_no f t : f <> [] -> ~ In ":"%char f -> (length f = 1 -> hd "000"%char t <> "\"%char) -> drive_case (f ++ ":"%char :: t) [":"%char] = false.
Proof.
  intros N F D. unfold drive_case. rewrite str_eqb_refl. cbn [andb].
  destruct f as [|a [|b f]]; [congruence| |].
  - cbn [app nth]. destruct t as [|y t]; [reflexivity|]. cbn [nth length]. specialize (D eq_refl). cbn in D.
    destruct (ascii_dec y "\"); [congruence|]. rewrite andb_false_r. reflexivity.
  - cbn [app nth]. destruct (ascii_dec b ":") as [->|_]; [destruct F; right; left; reflexivity|]. rewrite andb_false_r. reflexivity.
Qed.
Lemma drive_no0 f : ~ In ":"%char f -> drive_case f [":"%char] = false.
Proof.
  intros F. unfold drive_case. destruct f as [|a [|b f]]; [reflexivity|reflexivity|].
  cbn [nth]. destruct (ascii_dec b ":") as [->|_]; [destruct F; right; left; reflexivity|]. rewrite andb_false_r. reflexivity.
Qed.
Lemma split_spelled f place : nameable f place -> split_file_path (spell f place) [":"%char] = (f, path_of place).
Proof.
  intros [N [[F D]|(c & r & -> & R & F)]].
  - unfold spell. destruct place as [|k place].
    + unfold split_file_path. rewrite drive_no0 by exact F. apply split_no. exact F.
    + unfold split_file_path. rewrite drive_no by assumption. apply split_at. exact F.
  - unfold split_file_path. unfold spell. destruct place as [|k place].
    + rewrite drive_yes. destruct r as [|x r]; [congruence|]. cbn [length Nat.ltb Nat.leb skipn firstn].
      rewrite split_no by exact F. reflexivity.
    + cbn [app]. rewrite drive_yes. destruct r as [|x r]; [congruence|]. cbn [length app Nat.ltb Nat.leb skipn firstn].
      change (x :: r ++ ":"%char :: path_of (k :: place)) with ((x :: r) ++ ":"%char :: path_of (k :: place)).
      rewrite split_at by exact F. reflexivity.
Qed.

(** the table *)
Lemma kinds_found ext p : In (ext, p) kinds -> by_extension ext = p /\ ~ In "."%char ext.
Proof.
  intros I. unfold kinds in I. cbn [In] in I.
  repeat (destruct I as [I|I]; [injection I as <- <-; split; [reflexivity|cbn; intuition discriminate]|]). destruct I.
Qed.
Lemma kinds_none ext : (forall q, ~ In (ext, q) kinds) -> by_extension ext = L "conduit_bin".
Proof.
  intros H. unfold by_extension, kinds in *.
  repeat match goal with
  | |- context [str_eqb ext ?k] => destruct (str_eqb_spec ext k) as [->|_]; [exfalso; eapply H; cbn [In]; tauto|]
  end. reflexivity.
Qed.
Lemma dot_split (s : str) : (exists a b, s = a ++ "."%char :: b /\ ~ In "."%char b) \/ ~ In "."%char s.
Proof.
  induction s as [|x s [(a & b & -> & F)|F]].
  - right. intros [].
  - left. exists (x :: a), b. split; [reflexivity|exact F].
  - destruct (ascii_dec x ".") as [->|N].
    + left. exists [], s. split; [reflexivity|exact F].
    + right. intros [E|I]; [congruence|contradiction].
Qed.
Lemma last_dot (a b a' b' : str) : a ++ "."%char :: b = a' ++ "."%char :: b' -> ~ In "."%char b -> ~ In "."%char b' -> b = b'.
Proof.
  intros E F F'. pose proof (rsplit_at "." a b F) as R. pose proof (rsplit_at "." a' b' F') as R'.
  rewrite E in R. rewrite R in R'. congruence.
Qed.
Lemma identified f place p : nameable f place -> ~ bare f -> named f p -> identify (spell f place) = p.
Proof.
  intros N B H. unfold identify. rewrite split_spelled by exact N.
  destruct H as [(ext & (base & ->) & I)|(-> & H)].
  - destruct (kinds_found _ _ I) as [E F]. rewrite rsplit_at by exact F. exact E.
  - destruct (dot_split f) as [(a & b & -> & F)|F].
    + rewrite rsplit_at by exact F. apply kinds_none. intros q I. apply (H b q I). exists a. reflexivity.
    + rewrite rsplit_no by exact F. apply kinds_none. intros q I. apply B. exists q. exact I.
Qed.
Lemma builtin_own p : own_protocol p -> builtin p = true /\ p <> [].
Proof.
  unfold own_protocol. cbn [In]. intros H. split.
  - repeat (destruct H as [<-|H]; [reflexivity|]). destruct H.
  - repeat (destruct H as [<-|H]; [discriminate|]). destruct H.
Qed.

Section Fetch.
Context {A : Type}.
Variable none : A.
Lemma fetch_f_place place : forall f up (t : tree A), Forall plain place -> place <> [] -> length (path_of place) < f ->
  exists up', fetch_f none f up t (path_of place) = Ok (up', part none t place) /\ forall x, close up' x = close up (plant none t place x).
Proof.
  induction place as [|k place IH]; intros f up t P N F; [congruence|].
  destruct f as [|f]; [lia|].
  pose proof (split_path_of k place P) as S.
  pose proof (path_of_nonempty (k :: place) P N) as NE.
  inversion P as [|? ? K P']; subst. destruct K as (K1 & K2 & K3).
  cbn [fetch_f]. destruct (path_of (k :: place)) as [|z zs] eqn:Z; [congruence|].
  rewrite S. destruct k as [|k0 ks] eqn:EK; [congruence|]. rewrite <- EK in *.
  destruct (str_eqb_spec k (L "..")) as [E|_]; [congruence|].
  cbn [part plant].
  destruct place as [|k2 place].
  - cbn [path_of]. eexists. split; [reflexivity|]. intros x. cbn [close plant part]. reflexivity.
  - pose proof (path_of_nonempty (k2 :: place) P' ltac:(discriminate)) as NE2.
    destruct (path_of (k2 :: place)) as [|y ys] eqn:Y; [congruence|].
    assert (LF : length (path_of (k2 :: place)) < f).
    { rewrite Y. rewrite path_of_cons in Z by discriminate. rewrite Y in Z.
      assert (Q : length (k ++ slash :: y :: ys) = length (z :: zs)) by (rewrite Z; reflexivity).
      rewrite app_length in Q. cbn [length] in *. lia. }
    rewrite <- Y in *.
    destruct (IH f ((tentries t, k) :: up) (match mget (tentries t) k with Some u => u | None => TLeaf none end) P' ltac:(discriminate) LF) as (up' & E & C).
    exists up'. split.
    + rewrite E. destruct (mget (tentries t) k); reflexivity.
    + intros x. rewrite C. cbn [close]. reflexivity.
Qed.
End Fetch.

Section Facts.
Context {A B : Type}.
Variable none : A.
Variable upd : tree A -> tree A -> tree A.
Variable enc_schema enc_data : tree A -> B.
Variable dec_bin : B -> B -> outcome (tree A).
Variable enc : str -> tree A -> B.
Variable dec : str -> B -> outcome (tree A).
Variable proto : str -> str.
Variable kept : str -> tree A -> tree A.
Variable good : str -> tree A -> Prop.
Hypothesis Hbin : forall t, good (L "conduit_bin") t -> dec_bin (enc_schema t) (enc_data t) = Ok (kept (L "conduit_bin") t).
Hypothesis Htxt : forall p t, p <> L "conduit_bin" -> good p t -> dec p (enc p t) = Ok (kept p t).

Lemma fetch_place place (t : tree A) : Forall plain place -> place <> [] ->
  exists up, fetch none t (path_of place) = Ok (up, part none t place) /\ forall x, close up x = plant none t place x.
Proof. intros P N. unfold fetch. destruct (fetch_f_place none place (S (length (path_of place))) [] t P N (Nat.lt_succ_diag_r _)) as (up & E & C). exists up. split; [exact E|exact C]. Qed.

Lemma holds_some names d s f t : holds proto dec_bin dec names d s -> names f -> s f = Some t -> node_load dec_bin dec d f (proto f) = Ok t /\ exists b, mget d f = Some b.
Proof.
  intros H N E. specialize (H f N). rewrite E in H. split; [exact H|]. unfold node_load in H.
  destruct (str_eqb (proto f) (L "conduit_bin")).
  - destruct (mget d (f ++ L "_json")) as [sc|]; [|discriminate]. destruct (mget d f) as [b|]; [exists b; reflexivity|discriminate].
  - destruct (mget d f) as [b|]; [exists b; reflexivity|discriminate].
Qed.
Lemma holds_none names d s f : holds proto dec_bin dec names d s -> names f -> s f = None -> node_load dec_bin dec d f (proto f) = Err /\ mget d f = None.
Proof.
  intros H N E. specialize (H f N). rewrite E in H. split; [|exact H]. unfold node_load. rewrite H.
  destruct (str_eqb (proto f) (L "conduit_bin")); [|reflexivity]. destruct (mget d (f ++ L "_json")); reflexivity.
Qed.
Lemma long (f : str) : f ++ L "_json" <> f.
Proof. intros E. apply (f_equal (@length ascii)) in E. rewrite app_length in E. cbn in E. lia. Qed.
Lemma save_holds names d s f t : apart proto names -> holds proto dec_bin dec names d s -> names f -> good (proto f) t ->
  holds proto dec_bin dec names (node_save enc_schema enc_data enc d f (proto f) t) (into s f (kept (proto f) t)).
Proof.
  intros AP H N G g Ng. unfold into. destruct (str_eqb_spec g f) as [->|NE].
  - unfold node_save, node_load. destruct (str_eqb_spec (proto f) (L "conduit_bin")) as [E|E].
    + rewrite mget_mset_other by apply long. rewrite !mget_mset_same. rewrite E in *. apply Hbin. exact G.
    + rewrite mget_mset_same. apply Htxt; assumption.
  - specialize (H g Ng).
    assert (X : mget (node_save enc_schema enc_data enc d f (proto f) t) g = mget d g).
    { unfold node_save. destruct (str_eqb_spec (proto f) (L "conduit_bin")) as [E|E].
      - rewrite !mget_mset_other; [reflexivity| |exact NE]. apply AP; assumption.
      - apply mget_mset_other. exact NE. }
    destruct (s g) as [u|]; [|congruence].
    unfold node_load in *. rewrite X. destruct (str_eqb_spec (proto g) (L "conduit_bin")) as [E|E]; [|exact H].
    replace (mget (node_save enc_schema enc_data enc d f (proto f) t) (g ++ L "_json")) with (mget d (g ++ L "_json")); [exact H|].
    symmetry. unfold node_save. destruct (str_eqb_spec (proto f) (L "conduit_bin")) as [E2|E2].
    + rewrite !mget_mset_other; [reflexivity| |].
      * intros Q. apply app_inv_tail in Q. congruence.
      * intros Q. symmetry in Q. revert Q. apply AP; assumption.
    + apply mget_mset_other. intros Q. symmetry in Q. revert Q. apply AP; assumption.
Qed.
Lemma save_others names d f t g : names f -> (forall h, names h -> g <> h /\ g <> h ++ L "_json") ->
  mget (node_save enc_schema enc_data enc d f (proto f) t) g = mget d g.
Proof.
  intros N H. destruct (H f N) as [H1 H2]. unfold node_save. destruct (str_eqb (proto f) (L "conduit_bin")).
  - rewrite !mget_mset_other by assumption. reflexivity.
  - apply mget_mset_other. exact H1.
Qed.

Lemma protocol_found names (a : @ask A) p : asked proto names (a, p) -> proto_for (spell (file_of a) (place_of a)) p = proto (file_of a).
Proof.
  intros (N & NM & P & O & [->|(-> & NB & H)]).
  - destruct (builtin_own _ O) as [_ NE]. unfold proto_for. destruct (proto (file_of a)); [congruence|reflexivity].
  - cbn [proto_for]. apply identified; assumption.
Qed.

Notation step := (step none upd enc_schema enc_data dec_bin enc dec).
Lemma read_part names d s f place : holds proto dec_bin dec names d s -> names f -> nameable f place -> Forall plain place ->
  read none dec_bin dec d (spell f place) (proto f) = match s f with Some t => Ok (part none t place) | None => Err end.
Proof.
  intros H N NM P. unfold read. rewrite split_spelled by exact NM.
  destruct place as [|k place].
  - cbn [path_of spell part]. destruct (s f) as [t|] eqn:E.
    + apply (holds_some names d s f t H N E).
    + apply (holds_none names d s f H N E).
  - pose proof (path_of_nonempty (k :: place) P ltac:(discriminate)) as NE.
    destruct (path_of (k :: place)) as [|z zs] eqn:Z; [congruence|]. rewrite <- Z in *.
    destruct (s f) as [t|] eqn:E.
    + destruct (holds_some names d s f t H N E) as [-> _]. cbn [obind].
      destruct (fetch_place (k :: place) t P ltac:(discriminate)) as (up & -> & _). reflexivity.
    + destruct (holds_none names d s f H N E) as [-> _]. reflexivity.
Qed.
Lemma if_holds names d s f : holds proto dec_bin dec names d s -> names f ->
  load_if none dec_bin dec d f (proto f) = Ok (match s f with Some t => t | None => TLeaf none end).
Proof.
  intros H N. unfold load_if. destruct (s f) as [t|] eqn:E.
  - destruct (holds_some names d s f t H N E) as [Ld [b ->]]. exact Ld.
  - destruct (holds_none names d s f H N E) as [_ ->]. reflexivity.
Qed.

Lemma one_step names d s (a : @ask A) p : apart proto names -> holds proto dec_bin dec names d s -> asked proto names (a, p) ->
  match written none upd s a with Some t => good (proto (file_of a)) t | None => True end ->
  snd (step d (call_of a p)) = answer none upd s a /\ holds proto dec_bin dec names (fst (step d (call_of a p))) (after none upd proto kept s a) /\
  forall g, (forall h, names h -> g <> h /\ g <> h ++ L "_json") -> mget (fst (step d (call_of a p))) g = mget d g.
Proof.
  intros AP H AS G. pose proof (protocol_found names a p AS) as PF. destruct AS as (N & NM & P & O & _).
  destruct (builtin_own _ O) as [BI _]. unfold after.
  destruct a as [t f place|t f place|f place|f place dst]; cbn [call_of RelayIO.step file_of place_of answer] in *.
  - unfold save. rewrite PF, BI, split_spelled by exact NM. destruct place as [|k place].
    + cbn [path_of spell written fst snd] in *. split; [reflexivity|]. split; [apply save_holds; assumption|]. intros g Hg. eapply save_others; eassumption.
    + pose proof (path_of_nonempty (k :: place) P ltac:(discriminate)) as NE.
      destruct (path_of (k :: place)) as [|z zs] eqn:Z; [congruence|]. rewrite <- Z in *.
      cbn [written] in *. destruct (s f) as [u|] eqn:E.
      * destruct (holds_some names d s f u H N E) as [-> _]. cbn [obind].
        destruct (fetch_place (k :: place) u P ltac:(discriminate)) as (up & -> & C). cbn [obind]. rewrite C. cbn [fst snd].
        split; [reflexivity|]. split; [apply save_holds; assumption|]. intros g Hg. eapply save_others; eassumption.
      * destruct (holds_none names d s f H N E) as [-> _]. cbn [obind fst snd]. split; [reflexivity|]. split; [exact H|reflexivity].
  - unfold save_merged. rewrite PF, BI, split_spelled by exact NM. cbn [written] in *. destruct place as [|k place].
    + cbn [path_of spell]. rewrite (if_holds names d s f H N). cbn [fst snd plant part] in *.
      split; [reflexivity|]. split; [apply save_holds; assumption|]. intros g Hg. eapply save_others; eassumption.
    + pose proof (path_of_nonempty (k :: place) P ltac:(discriminate)) as NE.
      destruct (path_of (k :: place)) as [|z zs] eqn:Z; [congruence|]. rewrite <- Z in *.
      rewrite (if_holds names d s f H N). cbn [obind].
      destruct (fetch_place (k :: place) (match s f with Some u => u | None => TLeaf none end) P ltac:(discriminate)) as (up & -> & C). cbn [obind]. rewrite C.
      cbn [fst snd]. split; [reflexivity|]. split; [apply save_holds; assumption|]. intros g Hg. eapply save_others; eassumption.
  - unfold load. rewrite PF, BI. rewrite (read_part names d s f place H N NM P). cbn [written fst snd].
    split; [destruct (s f); reflexivity|]. split; [exact H|reflexivity].
  - unfold load_merged. rewrite PF, BI. rewrite (read_part names d s f place H N NM P). cbn [written fst snd].
    split; [destruct (s f); reflexivity|]. split; [exact H|reflexivity].
Qed.

Lemma programs names l : forall d s, apart proto names -> holds proto dec_bin dec names d s -> Forall (asked proto names) l ->
  all_good none upd proto kept good s (map fst l) ->
  snd (run none upd enc_schema enc_data dec_bin enc dec d (map (fun x => call_of (fst x) (snd x)) l)) = answers none upd proto kept s (map fst l) /\
  holds proto dec_bin dec names (fst (run none upd enc_schema enc_data dec_bin enc dec d (map (fun x => call_of (fst x) (snd x)) l))) (finally none upd proto kept s (map fst l)) /\
  forall g, (forall h, names h -> g <> h /\ g <> h ++ L "_json") ->
    mget (fst (run none upd enc_schema enc_data dec_bin enc dec d (map (fun x => call_of (fst x) (snd x)) l))) g = mget d g.
Proof.
  induction l as [|[a p] l IH]; intros d s AP H F G.
  - cbn. split; [reflexivity|]. split; [exact H|reflexivity].
  - inversion F as [|? ? F1 F2]; subst. destruct G as [G1 G2]. cbn [map fst snd] in *.
    destruct (one_step names d s a p AP H F1 G1) as (R & H1 & O1).
    cbn [run answers finally]. destruct (step d (call_of a p)) as [d1 x] eqn:E. cbn [fst snd] in *.
    destruct (IH d1 _ AP H1 F2 G2) as (R2 & H2 & O2).
    destruct (run none upd enc_schema enc_data dec_bin enc dec d1 (map (fun x0 => call_of (fst x0) (snd x0)) l)) as [d2 xs]. cbn [fst snd] in *.
    split; [congruence|]. split; [exact H2|]. intros g Hg. rewrite O2 by exact Hg. apply O1. exact Hg.
Qed.
End Facts.

(** places *)
Section Places.
Context {A : Type}.
Variable none : A.
Lemma part_plant (d : tree A) place t : part none (plant none d place t) place = t.
Proof.
  revert d. induction place as [|k place IH]; intros d; [reflexivity|].
  cbn [plant]. cbn [part tentries]. rewrite mget_mset_same. apply IH.
Qed.
Lemma part_plant_other (d : tree A) : forall a b t, forks a b -> part none (plant none d a t) b = part none d b.
Proof.
  intros a. revert d. induction a as [|x a IH]; intros d [|y b] t F; cbn [forks] in F; try contradiction.
  cbn [plant part tentries]. rewrite mget_mset. destruct (str_eqb_spec y x) as [->|N]; [|reflexivity].
  destruct F as [F|F]; [congruence|]. rewrite IH by assumption. destruct (mget (tentries d) x); [reflexivity|]. destruct b; reflexivity.
Qed.
End Places.
