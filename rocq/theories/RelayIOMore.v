(** Other spellings of places *)
From Coq Require Import Lia.
From Verif Require Import Base Path PathFacts SpecTree RelayIO RelayIOSpec RelayIOFacts.
Local Open Scope nat_scope.

Lemma split_colon f t : f <> [] -> ~ In ":"%char f -> (length f = 1 -> hd "000"%char t <> "\"%char) ->
  split_file_path (f ++ ":"%char :: t) [":"%char] = (f, t).
Proof. intros N F D. unfold split_file_path. rewrite drive_no by assumption. apply split_at. exact F. Qed.

Section More.
Context {A B : Type}.
Variable none : A.

Lemma fetch_entries f up (t : tree A) p : fetch_f none (S f) up (TObj (tentries t)) p = fetch_f none (S f) up t p.
Proof. reflexivity. Qed.
Lemma fetch_slashes n : forall f up (t : tree A) p, fetch_f none (n + S f) up t (repeat slash n ++ p) = fetch_f none (S f) up t p.
Proof.
  induction n as [|n IH]; intros f up t p; [reflexivity|].
  cbn [plus repeat app fetch_f].
  change (slash :: repeat slash n ++ p) with ([] ++ slash :: (repeat slash n ++ p)). rewrite split_path_app by (intros []).
  rewrite IH. apply fetch_entries.
Qed.
Lemma fetch_end f up (t : tree A) c : plain c ->
  fetch_f none (S f) up t c = Ok ((tentries t, c) :: up, part none t [c]).
Proof.
  intros (P1 & P2 & P3). cbn [fetch_f]. destruct c as [|c0 cs] eqn:E; [congruence|]. rewrite <- E in *.
  rewrite split_path_none by exact P2. destruct c as [|? ?] eqn:E2; [discriminate|]. rewrite <- E2 in *.
  destruct (str_eqb_spec c (L "..")) as [Q|_]; [congruence|]. cbn [part]. destruct (mget (tentries t) c); reflexivity.
Qed.
Lemma fetch_down f up (t : tree A) c r : plain c -> r <> [] ->
  fetch_f none (S f) up t (c ++ slash :: r) = fetch_f none f ((tentries t, c) :: up) (part none t [c]) r.
Proof.
  intros (P1 & P2 & P3) R. cbn [fetch_f]. destruct (c ++ slash :: r) as [|z zs] eqn:E; [destruct c; discriminate|]. rewrite <- E.
  rewrite split_path_app by exact P2. destruct c as [|? ?] eqn:E2; [congruence|]. rewrite <- E2 in *.
  destruct (str_eqb_spec c (L "..")) as [Q|_]; [congruence|]. destruct r as [|? ?]; [congruence|]. cbn [part]. destruct (mget (tentries t) c); reflexivity.
Qed.
Lemma fetch_up f es k up (t : tree A) r :
  fetch_f none (S f) ((es, k) :: up) t (L "../" ++ r) = fetch_f none f up (TObj (mset es k (TObj (tentries t)))) r.
Proof.
  cbn [fetch_f]. destruct (L "../" ++ r) as [|z zs] eqn:E; [discriminate|]. rewrite <- E.
  change (L "../" ++ r) with (L ".." ++ slash :: r). rewrite split_path_app by (intros [Q|[Q|[]]]; discriminate). reflexivity.
Qed.
Lemma loose_nonempty l : Forall plain (map snd l) -> l <> [] -> loose l <> [].
Proof.
  intros P N. destruct l as [|[n c] r]; [congruence|]. inversion P as [|? ? (P1 & _) _]; subst. cbn [map snd] in *.
  cbn [loose]. destruct r; destruct n; destruct c; try discriminate; cbn in P1; congruence.
Qed.
Lemma fetch_loose l : forall f up (t : tree A), Forall plain (map snd l) -> l <> [] -> length (loose l) < f ->
  exists up', fetch_f none f up t (loose l) = Ok (up', part none t (map snd l)) /\ forall x, close up' x = close up (plant none t (map snd l) x).
Proof.
  induction l as [|[n c] l IH]; intros f up t P N F; [congruence|].
  cbn [map snd] in P. inversion P as [|? ? Pc Pl]; subst.
  destruct l as [|e l].
  - cbn [loose] in *. rewrite app_length, repeat_length in F.
    replace f with (n + S (f - n - 1)) by lia. change "/"%char with slash. rewrite fetch_slashes, fetch_end by exact Pc.
    eexists. split; [reflexivity|]. intros x. reflexivity.
  - cbn [loose] in F |- *. change (match e with (_, _) => _ end) with (loose (e :: l)) in *.
    rewrite !app_length, repeat_length in F. cbn [length] in F.
    pose proof (loose_nonempty (e :: l) Pl ltac:(discriminate)) as NE.
    replace f with (n + S (f - n - 1)) by lia. change "/"%char with slash. rewrite fetch_slashes, fetch_down by assumption.
    destruct Pc as (P1 & _). assert (length c <> 0) by (destruct c; [congruence|cbn; lia]).
    destruct (IH (f - n - 1) ((tentries t, c) :: up) (part none t [c]) Pl ltac:(discriminate) ltac:(lia)) as (up' & E & C).
    exists up'. split.
    + rewrite E. cbn [map snd part]. destruct (mget (tentries t) c); reflexivity.
    + intros x. rewrite C. reflexivity.
Qed.
Lemma only_slashes n : forall f up (t : tree A), n < f -> fetch_f none f up t (repeat slash n) = Err.
Proof.
  induction n as [|n IH]; intros f up t F; (destruct f as [|f]; [lia|]); [reflexivity|].
  cbn [repeat fetch_f]. change (slash :: repeat slash n) with ([] ++ slash :: repeat slash n). rewrite split_path_app by (intros []).
  apply IH. lia.
Qed.

Lemma mset_mset {V} (es : list (str * V)) k a b : mset (mset es k a) k b = mset es k b.
Proof.
  induction es as [|[k' v] r IH]; cbn [mset]; [rewrite str_eqb_refl; reflexivity|].
  destruct (str_eqb k k') eqn:E; cbn [mset]; rewrite E; [reflexivity|rewrite IH; reflexivity].
Qed.
Lemma fetch_detour pre k post : forall f up (t : tree A), Forall plain pre -> plain k -> Forall plain post -> post <> [] ->
  length (detour pre k post) < f ->
  exists up', fetch_f none f up t (detour pre k post) = Ok (up', part none (opened none t (pre ++ [k])) (pre ++ post)) /\
    forall x, close up' x = close up (plant none (opened none t (pre ++ [k])) (pre ++ post) x).
Proof.
  unfold detour, opened. induction pre as [|p pre IH]; intros f up t Pp Pk Pq N F.
  - cbn [app path_of] in *. change (L "/../" ++ path_of post) with (slash :: L "../" ++ path_of post) in *.
    rewrite app_length in F. cbn [length] in F. rewrite app_length in F. cbn [length L list_ascii_of_string] in F.
    destruct f as [|f]; [lia|]. rewrite fetch_down by (assumption || discriminate).
    destruct f as [|f]; [lia|]. rewrite fetch_up.
    destruct (fetch_f_place none post f up (TObj (mset (tentries t) k (TObj (tentries (part none t [k]))))) Pq N ltac:(lia)) as (up' & E & C).
    exists up'. split; [exact E|exact C].
  - inversion Pp as [|? ? P1 P2]; subst. cbn [app] in *. rewrite path_of_cons in * by (destruct pre; discriminate).
    rewrite <- !app_assoc in *. cbn [app] in *.
    rewrite app_length in F. cbn [length] in F. destruct f as [|f]; [lia|].
    assert (NE : path_of (pre ++ [k]) ++ L "/../" ++ path_of post <> []) by (destruct (path_of (pre ++ [k])); discriminate).
    change (path_of (pre ++ [k]) ++ "/"%char :: "."%char :: "."%char :: "/"%char :: path_of post) with (path_of (pre ++ [k]) ++ L "/../" ++ path_of post) in *.
    rewrite fetch_down by assumption.
    destruct P1 as (P1 & _). assert (length p <> 0) by (destruct p; [congruence|cbn; lia]).
    destruct (IH f ((tentries t, p) :: up) (part none t [p]) P2 Pk Pq N ltac:(lia)) as (up' & E & C).
    exists up'. split.
    + rewrite E. f_equal. f_equal. cbn [plant part tentries]. rewrite mget_mset_same.
      destruct (mget (tentries t) p) as [u|]; [reflexivity|]. destruct pre; reflexivity.
    + intros x. rewrite C. cbn [plant part tentries]. rewrite mget_mset_same, mset_mset. cbn [close].
      destruct (mget (tentries t) p) as [u|]; [reflexivity|]. destruct pre; reflexivity.
Qed.
End More.

Section Calls.
Context {A B : Type}.
Variable none : A.
Variable upd : tree A -> tree A -> tree A.
Variable enc_schema enc_data : tree A -> B.
Variable dec_bin : B -> B -> outcome (tree A).
Variable enc : str -> tree A -> B.
Variable dec : str -> B -> outcome (tree A).
Notation save := (save none enc_schema enc_data dec_bin enc dec).
Notation save_merged := (save_merged none upd enc_schema enc_data dec_bin enc dec).
Notation load := (load none dec_bin dec).
Notation load_merged := (load_merged none upd dec_bin dec).

Lemma split_name f t : 1 < length f -> ~ In ":"%char f -> split_file_path (f ++ ":"%char :: t) [":"%char] = (f, t).
Proof. intros N F. apply split_colon; [destruct f; [cbn in N; lia|discriminate]|exact F|intros E; lia]. Qed.
Lemma proto_name f t t' p : 1 < length f -> ~ In ":"%char f -> proto_for (f ++ ":"%char :: t) p = proto_for (f ++ ":"%char :: t') p.
Proof. intros N F. unfold proto_for, identify. rewrite !split_name by assumption. reflexivity. Qed.

Lemma slashes f l p d : 1 < length f -> ~ In ":"%char f -> Forall plain (map snd l) -> l <> [] ->
  (forall t, save d t (f ++ ":"%char :: loose l) p = save d t (spell f (map snd l)) p) /\
  (forall t, save_merged d t (f ++ ":"%char :: loose l) p = save_merged d t (spell f (map snd l)) p) /\
  load d (f ++ ":"%char :: loose l) p = load d (spell f (map snd l)) p /\
  (forall t, load_merged d (f ++ ":"%char :: loose l) p t = load_merged d (spell f (map snd l)) p t).
Proof.
  intros N F P NE.
  assert (SP : spell f (map snd l) = f ++ ":"%char :: path_of (map snd l)) by (destruct l; [congruence|reflexivity]).
  assert (NE' : map snd l <> []) by (destruct l; [congruence|discriminate]).
  rewrite SP. clear SP.
  pose proof (path_of_nonempty (map snd l) P NE') as PN. pose proof (loose_nonempty l P NE) as LN.
  assert (G : forall n : tree A, exists up1 up2, fetch none n (loose l) = Ok (up1, part none n (map snd l)) /\ fetch none n (path_of (map snd l)) = Ok (up2, part none n (map snd l)) /\
              forall x, close up1 x = close up2 x).
  { intros n. destruct (fetch_loose none l (S (length (loose l))) [] n P NE ltac:(lia)) as (u1 & E1 & C1).
    destruct (fetch_f_place none (map snd l) (S (length (path_of (map snd l)))) [] n P NE' ltac:(lia)) as (u2 & E2 & C2).
    exists u1, u2. split; [exact E1|]. split; [exact E2|]. intros x. rewrite C1, C2. reflexivity. }
  assert (R : forall q, read none dec_bin dec d (f ++ ":"%char :: loose l) q = read none dec_bin dec d (f ++ ":"%char :: path_of (map snd l)) q).
  { intros q. unfold read. rewrite !split_name by assumption.
    destruct (loose l) as [|a la] eqn:EL; [congruence|]. destruct (path_of (map snd l)) as [|b lb] eqn:EP; [congruence|].
    destruct (node_load dec_bin dec d f q) as [n| | |]; try reflexivity. cbn [obind].
    destruct (G n) as (u1 & u2 & -> & -> & _). reflexivity. }
  unfold RelayIO.save, RelayIO.save_merged, RelayIO.load, RelayIO.load_merged.
  rewrite (proto_name f (loose l) (path_of (map snd l)) p N F). rewrite R, !split_name by assumption.
  destruct (loose l) as [|a la] eqn:EL; [congruence|]. destruct (path_of (map snd l)) as [|b lb] eqn:EP; [congruence|].
  split; [|split; [|split; reflexivity]]; intros t; destruct (builtin _); try reflexivity.
  - match goal with |- context [obind (node_load ?a1 ?a2 ?a3 ?a4 ?a5)] => destruct (node_load a1 a2 a3 a4 a5) as [n| | |] end; try reflexivity. cbn [obind].
    destruct (G n) as (u1 & u2 & -> & -> & C). cbn [obind]. rewrite C. reflexivity.
  - match goal with |- context [obind (load_if ?a0 ?a1 ?a2 ?a3 ?a4 ?a5)] => destruct (load_if a0 a1 a2 a3 a4 a5) as [n| | |] end; try reflexivity. cbn [obind].
    destruct (G n) as (u1 & u2 & -> & -> & C). cbn [obind]. rewrite C. reflexivity.
Qed.

Lemma no_place f n p d : 1 < length f -> ~ In ":"%char f -> own_protocol p ->
  let path := f ++ ":"%char :: repeat "/"%char (S n) in
  (forall t, save d t path p = (d, Error)) /\ (forall t, save_merged d t path p = (d, Error)) /\
  load d path p = Error /\ forall t, load_merged d path p t = Error.
Proof.
  intros N F O path. destruct (builtin_own p O) as [BI PN].
  assert (PF : proto_for path p = p) by (destruct p; [congruence|reflexivity]).
  assert (G : forall t : tree A, fetch none t (repeat slash (S n)) = Err) by (intros t; unfold fetch; apply only_slashes; rewrite repeat_length; lia).
  assert (R : match read none dec_bin dec d path p with Ok _ => False | _ => True end).
  { unfold read, path. rewrite split_name by assumption. change (repeat "/"%char (S n)) with (repeat slash (S n)).
    remember (repeat slash (S n)) as s eqn:ES. destruct s as [|a s]; [discriminate|].
    destruct (node_load dec_bin dec d f p) as [m| | |]; [|exact I|exact I|exact I]. cbn [obind]. rewrite G. exact I. }
  unfold RelayIO.save, RelayIO.save_merged, RelayIO.load, RelayIO.load_merged. rewrite PF, BI.
  split; [|split; [|split]].
  - intros t. unfold path. rewrite split_name by assumption. change (repeat "/"%char (S n)) with (repeat slash (S n)).
    remember (repeat slash (S n)) as s eqn:ES. destruct s as [|a s]; [discriminate|].
    destruct (node_load dec_bin dec d f p) as [m| | |]; try reflexivity. cbn [obind]. rewrite G. reflexivity.
  - intros t. unfold path. rewrite split_name by assumption. change (repeat "/"%char (S n)) with (repeat slash (S n)).
    remember (repeat slash (S n)) as s eqn:ES. destruct s as [|a s]; [discriminate|].
    destruct (load_if none dec_bin dec d f p) as [m| | |]; try reflexivity. cbn [obind]. rewrite G. reflexivity.
  - destruct (read none dec_bin dec d path p); [destruct R|reflexivity..].
  - intros t. destruct (read none dec_bin dec d path p); [destruct R|reflexivity..].
Qed.

Lemma up_again f pre k post p d doc : 1 < length f -> ~ In ":"%char f -> own_protocol p ->
  Forall plain pre -> plain k -> Forall plain post -> post <> [] ->
  load d f p = Tree doc ->
  let path := f ++ ":"%char :: detour pre k post in
  load d path p = Tree (part none (opened none doc (pre ++ [k])) (pre ++ post)) /\
  forall t, save d t path p = save d (plant none (opened none doc (pre ++ [k])) (pre ++ post) t) f p.
Proof.
  intros N F O P1 P2 P3 NE H path. destruct (builtin_own p O) as [BI PN].
  assert (PF : forall x, proto_for x p = p) by (intros x; destruct p; [congruence|reflexivity]).
  assert (SF : split_file_path f [":"%char] = (f, [])).
  { unfold split_file_path. rewrite drive_no0 by exact F. apply split_no. exact F. }
  assert (DN : exists z zs, detour pre k post = z :: zs).
  { unfold detour. destruct (path_of (pre ++ [k])) as [|z zs]; [do 2 eexists; reflexivity|do 2 eexists; reflexivity]. }
  destruct DN as (z & zs & DN).
  unfold RelayIO.load, RelayIO.save in *. rewrite PF, BI in *.
  unfold read in H. rewrite SF in H. unfold read, path. rewrite split_name, DN by assumption.
  destruct (node_load dec_bin dec d f p) as [m| | |]; try discriminate H. injection H as ->.
  destruct (fetch_detour none pre k post (S (length (detour pre k post))) [] doc P1 P2 P3 NE ltac:(lia)) as (u & E & C).
  rewrite <- DN. unfold fetch. cbn [obind]. rewrite E. cbn [obind]. split; [reflexivity|].
  intros t. rewrite ?PF, ?BI, ?SF. rewrite ?split_name by assumption. rewrite C. reflexivity.
Qed.
End Calls.
