(** Facts about the collective operations (C55). *)
From Verif Require Import Base DType SpecTree Schema Codec Mem MemFacts Node SpecNode NodeFacts NodeCompact NodeSet NodeSerial NodeUpdate NodeUpdateLaws NodeMerge NodeAlloc SchemaInv
  Json JsonSpec JsonFacts JsonSchema Save SaveFacts B64Facts Contig ContigFacts Number NodeDiff ArrayOps ArrayOpsFacts DiffFacts HistFacts HistRun Mpi MpiFacts MpiColl.
Local Open Scope Z_scope.

Lemma app_inj_len {A} (a b c d : list A) : length a = length b -> a ++ c = b ++ d -> a = b /\ c = d.
Proof.
  revert b. induction a as [|x a IH]; intros [|y b] L E; try discriminate; [auto|]. cbn [app] in E. injection E as -> E.
  destruct (IH b ltac:(cbn in L; lia) E) as [-> ->]. auto.
Qed.
Lemma concat_len {A} (l : list (list A)) k : Forall (fun x => length x = k) l -> length (concat l) = (length l * k)%nat.
Proof. induction 1 as [|x l E _ IH]; [reflexivity|]. cbn [concat length]. rewrite app_length, E, IH. reflexivity. Qed.

(** ** A value is its types, counts and bytes *)
Definition sized (lv : leafval) : Prop :=
  match lv with Some (t, _, es) => Forall (fun x => length x = Z.to_nat (default_bytes t)) es | None => True end.
Lemma nvalue_sized n : forall m v, nvalue m n = Ok v -> Forall sized (tleaves v).
Proof.
  induction n as [h d|h es IH|h ks IH] using node_ind'; intros m v E.
  - apply nvalue_leaf in E. destruct E as (lv & -> & E). cbn [tleaves]. constructor; [|constructor].
    destruct (leaf_value_inv _ _ _ _ E) as [[T ->]|(T & Hn & es & -> & Ho)]; [exact I|]. apply (holds_len m _ d es T Ho).
  - apply nvalue_obj in E. destruct E as (vs & -> & F). cbn [tleaves]. apply Forall_flat_map.
    revert IH. induction F as [|e e' es vs (_ & E) F IHf]; intros IH; [constructor|]. inversion_clear IH as [|? ? I1 I2]. constructor; [eapply I1; exact E|apply IHf; exact I2].
  - apply nvalue_lst in E. destruct E as (vs & -> & F). cbn [tleaves]. apply Forall_flat_map.
    revert IH. induction F as [|e e' es vs E F IHf]; intros IH; [constructor|]. inversion_clear IH as [|? ? I1 I2]. constructor; [eapply I1; exact E|apply IHf; exact I2].
Qed.
Lemma concat_sized (k : nat) (a : list (list byte)) : forall b, Forall (fun x => length x = k) a -> Forall (fun x => length x = k) b -> length a = length b -> concat a = concat b -> a = b.
Proof.
  induction a as [|x a IH]; intros [|y b] Ha Hb L E; try discriminate; [reflexivity|]. inversion_clear Ha as [|? ? A1 A2]. inversion_clear Hb as [|? ? B1 B2]. cbn [concat] in E.
  destruct (app_inj_len x y (concat a) (concat b) ltac:(congruence) E) as [-> E']. f_equal. apply IH; auto.
Qed.
Lemma leaves_same (a : list leafval) : forall b, map lv_kind a = map lv_kind b -> Forall sized a -> Forall sized b -> flat_map leaf_bytes a = flat_map leaf_bytes b -> a = b.
Proof.
  induction a as [|x a IH]; intros [|y b] K Sa Sb E; try discriminate; [reflexivity|]. cbn [map flat_map] in *. injection K as K0 K1.
  inversion_clear Sa as [|? ? A1 A2]. inversion_clear Sb as [|? ? B1 B2].
  assert (X : length (leaf_bytes x) = length (leaf_bytes y) /\ (leaf_bytes x = leaf_bytes y -> x = y)).
  { destruct x as [[[t en] es]|], y as [[[t' en'] es']|]; try discriminate; [|split; reflexivity]. cbn [lv_kind] in K0. injection K0 as -> -> L. cbn [sized leaf_bytes] in *.
    split; [rewrite !(concat_len _ (Z.to_nat (default_bytes t'))) by assumption; congruence|].
    intros C. do 2 f_equal. apply (concat_sized (Z.to_nat (default_bytes t'))); assumption. }
  destruct X as [X1 X2]. destruct (app_inj_len _ _ _ _ X1 E) as [E1 E2]. f_equal; [apply X2, E1|apply IH; assumption].
Qed.
Lemma tleaves_map {A B} (f : A -> B) t : tleaves (tmap f t) = map f (tleaves t).
Proof.
  induction t as [d|es IH|ts IH] using tree_ind''; cbn [tmap tleaves map]; [reflexivity|..].
  - induction IH as [|[k c] es Hc _ IHes]; [reflexivity|]. cbn [map flat_map fst snd] in *. rewrite map_app, Hc, IHes. reflexivity.
  - induction IH as [|c es Hc _ IHes]; [reflexivity|]. cbn [map flat_map] in *. rewrite map_app, Hc, IHes. reflexivity.
Qed.
Lemma tree_same {A B} (f : A -> B) (a : tree A) : forall b, tmap f a = tmap f b -> tleaves a = tleaves b -> a = b.
Proof.
  assert (L : forall x y : tree A, tmap f x = tmap f y -> length (tleaves x) = length (tleaves y)).
  { intros x y E. apply (f_equal (fun t => length (tleaves t))) in E. rewrite !tleaves_map, !map_length in E. exact E. }
  induction a as [d|es IH|ts IH] using tree_ind''; intros [e|es'|ts'] E T; try discriminate; cbn [tmap tleaves] in *; injection E as E.
  - injection T as ->. reflexivity.
  - f_equal. revert es' E T. induction IH as [|[k c] es Hc _ IHes]; intros [|[k' c'] es'] E T; try discriminate; [reflexivity|].
    cbn [map flat_map fst snd] in *. injection E as -> E1 E2. destruct (app_inj_len _ _ _ _ (L _ _ E1) T) as [T1 T2]. rewrite (Hc c' E1 T1), (IHes es' E2 T2). reflexivity.
  - f_equal. revert ts' E T. induction IH as [|c es Hc _ IHes]; intros [|c' es'] E T; try discriminate; [reflexivity|].
    cbn [map flat_map] in *. injection E as E1 E2. destruct (app_inj_len _ _ _ _ (L _ _ E1) T) as [T1 T2]. rewrite (Hc c' E1 T1), (IHes es' E2 T2). reflexivity.
Qed.
Lemma value_same u w : tmap lv_kind u = tmap lv_kind w -> Forall sized (tleaves u) -> Forall sized (tleaves w) -> vbytes u = vbytes w -> u = w.
Proof.
  intros K Su Sw B. apply (tree_same lv_kind); [exact K|]. apply leaves_same; auto. rewrite <- !tleaves_map, K. reflexivity.
Qed.
Lemma file_order_bytes mach v : vbytes (tmap (file_order mach) v) = vbytes v.
Proof.
  unfold vbytes. rewrite tleaves_map. induction (tleaves v) as [|lv l IH]; [reflexivity|]. cbn [map flat_map]. rewrite IH. f_equal. destruct lv as [[[? ?] ?]|]; reflexivity.
Qed.
Lemma file_order_sized mach v : Forall sized (tleaves v) -> Forall sized (tleaves (tmap (file_order mach) v)).
Proof.
  rewrite tleaves_map. induction 1 as [|lv l H _ IH]; [constructor|]. cbn [map]. constructor; [|exact IH]. destruct lv as [[[? ?] ?]|]; exact H.
Qed.

(** packed data at any place *)
Lemma walk_bytes (m : mem) t p own bs : counts t -> Forall leaf_like (tleaves t) -> load m p (ttotal t) = Ok bs ->
  exists w, nvalue m (walk (tcompact t 0) (Some p) own) = Ok w /\ vbytes w = bs /\
    tmap lv_kind w = tmap (fun d => lv_kind (leaf_zero d)) t /\ Forall sized (tleaves w).
Proof.
  intros C K Ld. set (k := walk (tcompact t 0) (Some p) own).
  destruct (compact_contiguous_law (fun _ => 0) (tcompact t 0) p own (compact_tiles t 0)) as (_ & R & D). fold k in R, D.
  edestruct (run_value (fun _ => 0) (fst p) m k) as (w & V & B & Kd & _); [..|exact R| |].
  - unfold k. rewrite nschema_walk. apply compact_counts; assumption.
  - unfold k. rewrite nschema_walk. apply compact_like; assumption.
  - exact D.
  - unfold in_block, k, data_leaves. rewrite nleaves_walk. apply Forall_forall. intros l I. apply filter_In in I. destruct I as [I _].
    apply in_map_iff in I. destruct I as (d & <- & _). exists (snd p). destruct p; reflexivity.
  - unfold k. rewrite nschema_walk, ttotal_compact. unfold addr. replace (0 + snd p - 0) with (snd p) by lia. destruct p; exact Ld.
  - exists w. split; [exact V|]. split; [exact B|]. split; [|eapply nvalue_sized; exact V]. rewrite Kd. unfold k. rewrite nschema_walk. apply compact_kinds.
Qed.
(** the schema that arrives describes the value that was sent *)
Lemma arrived mach m0 src v s : nvalue m0 src = Ok v -> same_tree (read_back mach) (tcompact (nschema src) 0) (abs s) ->
  counts (abs s) /\ Forall leaf_like (tleaves (abs s)) /\ ttotal (abs s) = Z.of_nat (length (vbytes v)) /\
  tmap (fun d => lv_kind (leaf_zero d)) (abs s) = tmap lv_kind (tmap (file_order mach) v).
Proof.
  intros V S.
  assert (W : nvalue [Some (vbytes v)] (walk (abs s) (Some (0%nat, 0)) false) = Ok (tmap (file_order mach) v)).
  { eapply loaded_value; [exact S|]. eapply (bytes_value m0 src v _ _ false); [exact V|]. rewrite <- (vbytes_length m0 src v V). apply load_whole. reflexivity. }
  pose proof (nvalue_leaves _ _ _ W) as A. pose proof (nvalue_leaf_like _ _ _ W) as B. pose proof (vbytes_length _ _ _ W) as D. pose proof (value_kinds _ _ _ W) as F.
  rewrite nschema_walk in *. rewrite file_order_bytes in D. auto.
Qed.

(** ** Parts *)
Definition total_len (parts : list (list byte)) : Z := Z.of_nat (length (concat parts)).
Lemma put_after (pre rest b : list byte) : put_range (pre ++ rest) (length pre) b = pre ++ b ++ skipn (length b) rest.
Proof.
  unfold put_range. f_equal; [rewrite firstn_app, firstn_all, Nat.sub_diag; cbn [firstn]; apply app_nil_r|]. f_equal.
  rewrite skipn_app. rewrite (skipn_all2 pre) by lia. cbn [app]. f_equal. lia.
Qed.
Lemma parts_ok parts : forall pre rest (m : mem), Z.of_nat (length rest) = total_len parts -> Z.of_nat (length pre) + total_len parts < 2 ^ 31 ->
  exists ds, displs (Z.of_nat (length pre)) (map (fun x => Z.of_nat (length x)) parts) = Ok (ds, Z.of_nat (length pre) + total_len parts) /\
    store_parts (m ++ [Some (pre ++ rest)]) (Some (length m, 0)) ds parts = Ok (m ++ [Some (pre ++ concat parts)]).
Proof.
  unfold total_len. induction parts as [|b parts IH]; intros pre rest m Lr Lt; cbn [concat map displs store_parts] in *.
  - exists []. cbn [length] in *. destruct rest; [|cbn in Lr; lia]. rewrite Z.add_0_r. split; reflexivity.
  - unfold byte in *. rewrite app_length in *. replace (2 ^ 31 - 1 <? Z.of_nat (length pre) + Z.of_nat (length b)) with false by lia.
    destruct (IH (pre ++ b) (skipn (length b) rest) m) as (ds & E1 & E2).
    { rewrite skipn_length. lia. }
    { rewrite app_length. lia. }
    rewrite app_length, Nat2Z.inj_add in E1. rewrite E1. cbn [obind]. exists (Z.of_nat (length pre) :: ds). split; [f_equal; f_equal; lia|].
    cbn [store_parts opadd option_map ostore]. unfold padd. cbn [fst snd]. rewrite store_at; [|lia|unfold byte in *; rewrite app_length; lia]. cbn [obind].
    rewrite Z.add_0_l, Nat2Z.id. rewrite put_after. rewrite <- !app_assoc in E2. exact E2.
Qed.
Lemma texts_read parse m ts ss : forall pre rest ds e,
  Forall plain ts -> Forall2 (fun t s => schema_of_json parse t = Ok s) ts ss ->
  displs (Z.of_nat (length pre)) (map (fun x => Z.of_nat (length x)) (map (fun t => t ++ [zero_byte]) ts)) = Ok (ds, e) ->
  omapM (fun d => do t <- cstr (m ++ [Some (pre ++ concat (map (fun t => t ++ [zero_byte]) ts) ++ rest)]) (Some (padd (length m, 0) d)); schema_of_json parse t) ds = Ok ss.
Proof.
  intros pre rest ds e P F. revert pre ds. induction F as [|t s ts ss E F IH]; intros pre ds D; cbn [map displs] in D.
  - injection D as <- _. reflexivity.
  - inversion_clear P as [|? ? P1 P2]. destruct (2 ^ 31 - 1 <? _); [discriminate|].
    match type of D with context [displs ?x ?y] =>
      replace x with (Z.of_nat (length (pre ++ t ++ [zero_byte]))) in D by (unfold byte, str in *; rewrite !app_length; cbn [length]; lia);
      destruct (displs (Z.of_nat (length (pre ++ t ++ [zero_byte]))) y) as [[ds' e']| | |] eqn:D'; try discriminate D end.
    cbn [obind] in D. injection D as <- <-.
    specialize (IH P2 (pre ++ t ++ [zero_byte]) ds' D').
    set (blk := pre ++ concat (map (fun t : list byte => t ++ [zero_byte]) (t :: ts)) ++ rest).
    assert (X : (pre ++ t ++ [zero_byte]) ++ concat (map (fun t : list byte => t ++ [zero_byte]) ts) ++ rest = blk) by (unfold blk; cbn [map concat]; rewrite <- !app_assoc; reflexivity).
    rewrite X in IH.
    assert (H1 : cstr (m ++ [Some blk]) (Some (padd (length m, 0) (Z.of_nat (length pre)))) = Ok t).
    { unfold cstr, padd. cbn [fst snd]. rewrite nth_error_app2, Nat.sub_diag by apply Nat.le_refl. cbn [nth_error].
      replace (0 + Z.of_nat (length pre) <? 0) with false by lia. rewrite Z.add_0_l, Nat2Z.id. unfold blk.
      rewrite skipn_app, skipn_all, Nat.sub_diag. cbn [skipn app map concat]. rewrite <- !app_assoc. cbn [app]. apply until_nul_plain, P1. }
    cbn [omapM]. rewrite H1. cbn [obind]. rewrite E. cbn [obind].
    rewrite IH. reflexivity.
Qed.

(** ** Gathering with schemas *)
Definition schema_text (mach : endian) (n : node) : str := to_json mach (schema_of_tree (tcompact (nschema n) 0)).
Definition text_len (mach : endian) (n : node) : Z := Z.of_nat (length (schema_text mach n)) + 1.
Lemma contribution_ok mach m n v : nvalue m n = Ok v -> ttotal (nschema n) < 2 ^ 31 -> text_len mach n < 2 ^ 31 ->
  exists m', contribution mach m n = Ok (m', (schema_text mach n ++ [zero_byte], vbytes v)) /\ (m' = m \/ m' = m ++ [None]).
Proof.
  intros E T Lt. pose proof (ttotal_nonneg n m v E) as N. unfold contribution. rewrite (compact_copy m n v E).
  unfold text_len, schema_text in *. destruct (Z.ltb_spec 0 (ttotal (nschema n))) as [H|H]; cbn [obind]; rewrite nschema_walk, ttotal_compact.
  all: unfold mpi_count; rewrite !to_int_id by lia.
  all: replace (Z.of_nat (length (to_json mach (schema_of_tree (tcompact (nschema n) 0)))) + 1 <? 0) with false by lia; cbn [obind].
  all: replace (ttotal (nschema n) <? 0) with false by lia; cbn [obind].
  all: rewrite (firstn_all2 (n := Z.to_nat _)) by (rewrite app_length; cbn [length]; lia).
  all: rewrite walk_hdata.
  - cbn [oload]. rewrite <- (vbytes_length m n v E). rewrite (load_whole _ _ (vbytes v)) by (rewrite nth_error_app2, Nat.sub_diag by apply Nat.le_refl; reflexivity).
    cbn [obind]. rewrite nfree_all, whole_owner by exact H. cbn [free_all]. rewrite free_last. cbn [obind]. eauto.
  - replace (ttotal (nschema n)) with 0 by lia. cbn [oload Z.eqb obind]. rewrite nfree_all, owns_walk_false.
    assert (V0 : vbytes v = []) by (pose proof (vbytes_length m n v E); destruct (vbytes v); [reflexivity|cbn in *; lia]). rewrite V0.
    cbn [free_all obind]. eauto.
Qed.

Lemma set_nth_app1 {A} (l r : list A) i x : (i < length l)%nat -> set_nth (l ++ r) i x = set_nth l i x ++ r.
Proof. revert i. induction l as [|y l IH]; intros [|i] H; cbn in *; try lia; [reflexivity|]. f_equal. apply IH. lia. Qed.
Lemma owned_more m n x : owned_ok m n -> owned_ok (m ++ x) n.
Proof.
  intros [A B]. split; [|exact B]. eapply Forall_impl; [|exact A]. intros p [P [l Q]]. split; [exact P|]. exists l.
  rewrite nth_error_app1; [exact Q|]. apply nth_error_Some. congruence.
Qed.
Lemma owned_in m n b : owned_ok m n -> In b (owned_blocks n) -> (b < length m)%nat.
Proof.
  intros [A _] I. apply in_map_iff in I. destruct I as (p & <- & I). rewrite Forall_forall in A. destruct (A p I) as [_ [l Q]]. apply nth_error_Some. congruence.
Qed.
(** a temporary block, a reset destination, a new block *)
Lemma temp_then_new m dest l bs t : owned_ok m dest ->
  exists m3, nfree (m ++ [Some l]) dest = Ok m3 /\ length m3 = S (length m) /\
    free (m3 ++ [Some bs]) (length m, 0) = Ok (set_nth m3 (length m) None ++ [Some bs]) /\
    extends m (set_nth m3 (length m) None ++ [Some bs]) (owned_blocks dest) /\
    (forall b, live (set_nth m3 (length m) None ++ [Some bs]) b -> (b < length m)%nat \/ b = length m3) /\
    owned_ok (set_nth m3 (length m) None ++ [Some bs]) (walk t (Some (length m3, 0)) true).
Proof.
  intros Ow. destruct (nfree_ok _ _ (owned_more m dest [Some l] Ow)) as (m3 & E & Ln & Fr). rewrite app_length in Ln. cbn [length] in Ln.
  assert (At : nth_error m3 (length m) = Some (Some l)).
  { rewrite Fr. destruct (in_dec Nat.eq_dec (length m) (owned_blocks dest)) as [I|_]; [apply (owned_in m dest _ Ow) in I; lia|].
    rewrite nth_error_app2, Nat.sub_diag by apply Nat.le_refl. reflexivity. }
  exists m3. split; [exact E|]. split; [lia|]. split; [|split; [|split]].
  - unfold free. cbn [fst snd]. rewrite nth_error_app1 by lia. rewrite At. cbn [Z.eqb]. rewrite set_nth_app1 by lia. reflexivity.
  - split; [rewrite app_length, length_set_nth; lia|]. intros b Hb. rewrite nth_error_app1 by (rewrite length_set_nth; lia).
    rewrite nth_error_set_nth_other by lia. rewrite Fr. destruct (in_dec Nat.eq_dec b (owned_blocks dest)); [reflexivity|]. apply nth_error_app1. exact Hb.
  - intros b [x Hx]. destruct (Nat.lt_ge_cases b (length m)) as [|Hb]; [left; assumption|]. right.
    assert (b < S (length m3))%nat. { assert (X : nth_error (set_nth m3 (length m) None ++ [Some bs]) b <> None) by congruence. apply nth_error_Some in X. rewrite app_length, length_set_nth in X. cbn [length] in X. lia. }
    destruct (Nat.eq_dec b (length m)) as [->|Ne]; [|lia]. exfalso. rewrite nth_error_app1 in Hx by (rewrite length_set_nth; lia).
    rewrite nth_error_set_nth_same in Hx by lia. discriminate.
  - replace (length m3) with (length (set_nth m3 (length m) None)) by apply length_set_nth. apply fresh_owned.
Qed.

Definition ready (rk : mem * node) (v : tree leafval) : Prop :=
  nvalue (fst rk) (snd rk) = Ok v /\ names_unique (nschema (snd rk)) /\ all_names json_name (nschema (snd rk)).
Lemma len_in (parts : list (list byte)) b : In b parts -> Z.of_nat (length b) <= total_len parts.
Proof.
  unfold total_len. induction parts as [|x parts IH]; [intros []|]. intros [->|I]; cbn [concat]; rewrite app_length; [lia|]. specialize (IH I). lia.
Qed.
Lemma gather_schemas parse mach ranks vs : reads_json parse -> mach <> DEFAULT_E -> Forall2 ready ranks vs ->
  total_len (map vbytes vs) < 2 ^ 31 ->
  exists ss, Forall2 (fun rk s => schema_of_json parse (schema_text mach (snd rk)) = Ok s) ranks ss /\
    Forall (fun rk => plain (schema_text mach (snd rk))) ranks /\
    counts (TList (map abs ss)) /\ Forall leaf_like (tleaves (TList (map abs ss))) /\
    ttotal (TList (map abs ss)) = total_len (map vbytes vs) /\
    tmap (fun d => lv_kind (leaf_zero d)) (TList (map abs ss)) = tmap lv_kind (TList (map (tmap (file_order mach)) vs)).
Proof.
  intros P M F. unfold total_len, counts. induction F as [|rk v ranks vs (V & U & N) F IH]; intros B; cbn [map concat] in *.
  - exists []. repeat split; constructor.
  - rewrite app_length in B. destruct IH as (ss & S1 & S2 & S3 & S4 & S5 & S6); [lia|].
    pose proof (nvalue_leaves _ _ _ V) as C. pose proof (nvalue_leaf_like _ _ _ V) as K. pose proof (vbytes_length _ _ _ V) as Lv.
    destruct (schema_back parse mach (nschema (snd rk)) P M C K U N ltac:(lia)) as (s & Es & Ss & _).
    destruct (arrived mach _ _ _ s V Ss) as (A1 & A2 & A3 & A4).
    exists (s :: ss). split; [constructor; assumption|]. split; [constructor; [apply schema_text_plain; try assumption; lia|assumption]|].
    cbn [map tleaves flat_map] in *. split; [apply Forall_app; split; assumption|]. split; [apply Forall_app; split; assumption|]. split.
    + rewrite ttotal_tlst in *. cbn [map fold_right] in *. unfold byte in *. rewrite app_length. lia.
    + cbn [tmap map] in *. injection S6 as S6. rewrite A4, S6. reflexivity.
Qed.
Lemma gathered_ok parse mach ranks vs m dest : reads_json parse -> mach <> DEFAULT_E -> Forall2 ready ranks vs -> owned_ok m dest ->
  total_len (map (fun rk => schema_text mach (snd rk) ++ [zero_byte]) ranks) < 2 ^ 31 -> total_len (map vbytes vs) < 2 ^ 31 ->
  exists m' r, gathered parse m dest (combine (map (fun rk => schema_text mach (snd rk) ++ [zero_byte]) ranks) (map vbytes vs)) = Ok (m', r) /\
    nvalue m' r = Ok (TList (map (tmap (file_order mach)) vs)) /\
    owned_ok m' r /\ extends m m' (owned_blocks dest) /\ (forall b, live m' b -> (b < length m)%nat \/ ob r b).
Proof.
  intros P M F Ow Bt Bd. destruct (gather_schemas parse mach ranks vs P M F Bd) as (ss & S1 & S2 & S3 & S4 & S5 & S6).
  set (texts := map (fun rk => schema_text mach (snd rk) ++ [zero_byte]) ranks) in *. set (datas := map vbytes vs) in *.
  assert (Le : length texts = length datas) by (unfold texts, datas; rewrite !map_length; apply (Forall2_len _ _ _ F)).
  set (parts := combine texts datas : list (list byte * list byte)).
  assert (Pf : map fst parts = texts) by (apply map_fst_combine; exact Le).
  assert (Ps : map snd parts = datas) by (apply map_snd_combine; exact Le).
  clearbody parts. unfold gathered.
  replace (map (fun x : list byte * list byte => Z.of_nat (length (fst x))) parts) with (map (fun x : list byte => Z.of_nat (length x)) (map fst parts)) by apply map_map.
  replace (map (fun x : list byte * list byte => Z.of_nat (length (snd x))) parts) with (map (fun x : list byte => Z.of_nat (length x)) (map snd parts)) by apply map_map.
  rewrite Pf, Ps.
  set (T := TList (map abs ss)) in *.
  destruct (parts_ok texts [] (repeat zero_byte (Z.to_nat (total_len texts))) m) as (sds & D1 & W1).
  { rewrite repeat_length. unfold total_len. lia. }
  { cbn [length]. lia. }
  destruct (temp_then_new m dest (concat texts) (concat datas) (tcompact T 0) Ow) as (m3 & F1 & L3 & F2 & X & Lk & Ow').
  destruct (parts_ok datas [] (repeat zero_byte (Z.to_nat (total_len datas))) m3) as (dds & D2 & W2).
  { rewrite repeat_length. unfold total_len. lia. }
  { cbn [length]. lia. }
  cbn [app length] in *. change (Z.of_nat 0) with 0 in *. rewrite Z.add_0_l in *. rewrite D1. cbn [obind]. rewrite D2. cbn [obind].
  rewrite alloc_ok by (unfold total_len; lia). cbn [obind].
  match goal with |- context [store_parts ?a ?b ?c ?d] => replace (store_parts a b c d) with (Ok (m ++ [Some (concat texts)])) by (symmetry; exact W1) end. cbn [obind].
  assert (R : omapM (fun d => do t <- cstr (m ++ [Some (concat texts)]) (Some (padd (length m, 0) d)); schema_of_json parse t) sds = Ok ss).
  { pose proof (texts_read parse m (map (fun rk => schema_text mach (snd rk)) ranks) ss [] [] sds (total_len texts)) as R. cbn [app length] in R. rewrite app_nil_r in R.
    assert (Et : map (fun t : list byte => t ++ [zero_byte]) (map (fun rk : mem * node => schema_text mach (snd rk)) ranks) = texts) by apply map_map.
    rewrite Et in R. apply R.
    - apply Forall_map. exact S2.
    - clear -S1. induction S1; constructor; assumption.
    - exact D1. }
  match goal with |- context [omapM ?a ?b] => replace (omapM a b) with (Ok ss) by (symmetry; exact R) end. cbn [obind]. unfold nset_schema.
  match goal with |- context [nfree ?a dest] => replace (nfree a dest) with (Ok m3) by (symmetry; exact F1) end. cbn [obind].
  rewrite compact_span by exact S3. fold T. rewrite S5. unfold nalloc. rewrite alloc_ok by (unfold total_len; lia). cbn [obind h_data h_own]. rewrite walk_hdata.
  match goal with |- context [store_parts ?a ?b ?c ?d] => replace (store_parts a b c d) with (Ok (m3 ++ [Some (concat datas)])) by (symmetry; exact W2) end.
  cbn [obind]. rewrite F2. cbn [obind]. eexists _, _. split; [reflexivity|]. split; [|split; [exact Ow'|split; [exact X|]]].
  - destruct (walk_bytes (set_nth m3 (length m) None ++ [Some (concat datas)]) T (length m3, 0) true (concat datas) S3 S4) as (w & V & B & K & Sz).
    { rewrite S5. unfold total_len. apply load_whole. rewrite nth_error_app2 by (rewrite length_set_nth; apply Nat.le_refl). rewrite length_set_nth, Nat.sub_diag. reflexivity. }
    rewrite V. f_equal. apply value_same; [rewrite K; exact S6|exact Sz| |].
    + cbn [tleaves]. apply Forall_flat_map, Forall_map. clear -F. induction F as [|rk v ranks vs (V & _) F IH]; constructor; [|exact IH].
      apply file_order_sized. eapply nvalue_sized. exact V.
    + rewrite B, vbytes_lst. unfold datas. clear. induction vs as [|v vs IH]; [reflexivity|]. cbn [map concat flat_map]. rewrite IH, file_order_bytes. reflexivity.
  - intros b Lb. destruct (Lk b Lb) as [|E]; [left; assumption|]. right. unfold ob, owned_blocks. rewrite owns_walk. unfold T. cbn [tcompact]. left. cbn [fst]. auto.
Qed.
Lemma gather_all parse mach ranks vs m dest : reads_json parse -> mach <> DEFAULT_E -> Forall2 ready ranks vs -> owned_ok m dest ->
  total_len (map (fun rk => schema_text mach (snd rk) ++ [zero_byte]) ranks) < 2 ^ 31 -> total_len (map vbytes vs) < 2 ^ 31 ->
  exists parts m' r,
    Forall2 (fun rk part => exists mi, contribution mach (fst rk) (snd rk) = Ok (mi, part) /\ (mi = fst rk \/ mi = fst rk ++ [None])) ranks parts /\
    gathered parse m dest parts = Ok (m', r) /\
    nvalue m' r = Ok (TList (map (tmap (file_order mach)) vs)) /\
    owned_ok m' r /\ extends m m' (owned_blocks dest) /\ (forall b, live m' b -> (b < length m)%nat \/ ob r b).
Proof.
  intros P M F Ow Bt Bd. destruct (gathered_ok parse mach ranks vs m dest P M F Ow Bt Bd) as (m' & r & E & R).
  eexists _, m', r. split; [|split; [exact E|exact R]]. clear E R. revert Bt Bd. unfold total_len. induction F as [|rk v ranks vs (V & _) F IH]; cbn [map concat combine]; intros Bt Bd; [constructor|].
  rewrite app_length in *. cbn [length] in *. constructor; [|apply IH; lia]. apply contribution_ok; [exact V| |].
  - rewrite <- (vbytes_length _ _ _ V). lia.
  - unfold text_len. unfold byte, str in *. rewrite app_length in Bt. cbn [length] in Bt. lia.
Qed.

(** ** Gathering without schemas *)
(** the pointer of the node itself is where its data begins *)
Definition starts_at_data (base : nat -> Z) (n : node) : Prop :=
  direct_ptr base n = None \/ direct_ptr base n = h_data (n_hdr n).
Lemma gather_send_ok base m n v : nvalue m n = Ok v -> ttotal (nschema n) < 2 ^ 31 -> one_run base n -> starts_at_data base n ->
  exists m', gather_send base m n = Ok (m', vbytes v) /\ (m' = m \/ m' = m ++ [None]).
Proof.
  intros E T O St. destruct (send_raw_ok base m n v E T O) as (m' & S & M). exists m'. split; [|exact M]. rewrite <- S. clear S M.
  pose proof (ttotal_nonneg n m v E) as N. unfold gather_send, send_raw, mpi_count. rewrite to_int_id by lia.
  replace (ttotal (nschema n) <? 0) with false by lia. cbn [obind]. destruct (direct_ptr base n) as [p|] eqn:P.
  - destruct St as [St|St]; [rewrite St in P; discriminate P|]. rewrite P in St. rewrite <- St. reflexivity.
  - rewrite (compact_copy m n v E). destruct (0 <? ttotal (nschema n)); cbn [obind]; rewrite nschema_walk, ttotal_compact, to_int_id by lia;
      (replace (ttotal (nschema n) <? 0) with false by lia); reflexivity.
Qed.
Lemma store_even parts (eb : nat) : forall pre rest (m : mem) k, Forall (fun b => length b = eb) parts -> length pre = (k * eb)%nat -> length rest = (length parts * eb)%nat ->
  store_parts (m ++ [Some (pre ++ rest)]) (Some (length m, 0)) (map (fun i => Z.of_nat eb * Z.of_nat i) (seq k (length parts))) parts = Ok (m ++ [Some (pre ++ concat parts)]).
Proof.
  induction parts as [|b parts IH]; intros pre rest m k F Lp Lr; cbn [length seq map store_parts concat] in *.
  - destruct rest; [reflexivity|discriminate].
  - inversion_clear F as [|? ? F1 F2]. cbn [opadd option_map ostore]. unfold padd. cbn [fst snd]. unfold byte in *.
    replace (0 + Z.of_nat eb * Z.of_nat k) with (Z.of_nat (length pre)) by lia.
    rewrite store_at; [|lia|unfold byte in *; rewrite app_length; lia]. cbn [obind]. rewrite Nat2Z.id, put_after.
    specialize (IH (pre ++ b) (skipn (length b) rest) m (S k) F2). rewrite <- !app_assoc in IH. apply IH; [rewrite app_length; lia|rewrite skipn_length; lia].
Qed.
Lemma concat_part (parts : list (list byte)) (eb : nat) : forall i b, Forall (fun b => length b = eb) parts -> nth_error parts i = Some b ->
  exists pre post, concat parts = pre ++ b ++ post /\ length pre = (eb * i)%nat.
Proof.
  induction parts as [|x parts IH]; intros [|i] b F E; try discriminate; inversion_clear F as [|? ? F1 F2]; cbn [concat nth_error] in *.
  - injection E as ->. exists [], (concat parts). split; [reflexivity|cbn; lia].
  - destruct (IH i b F2 E) as (pre & post & -> & Lp). exists (x ++ pre), post. split; [rewrite <- !app_assoc; reflexivity|rewrite app_length; lia].
Qed.
Lemma load_mid (m : mem) b (pre mid post : list byte) : nth_error m b = Some (Some (pre ++ mid ++ post)) -> load m (b, Z.of_nat (length pre)) (Z.of_nat (length mid)) = Ok mid.
Proof.
  intros E. pose proof (load_whole m b _ E) as L. rewrite !app_length, !Nat2Z.inj_add in L.
  destruct (load_split m (b, 0) (Z.of_nat (length pre)) (Z.of_nat (length mid) + Z.of_nat (length post)) _ ltac:(lia) ltac:(lia) L) as [_ L2]. rewrite Nat2Z.id, skipn_app, skipn_all, Nat.sub_diag in L2. cbn [skipn app] in L2.
  destruct (load_split m _ (Z.of_nat (length mid)) (Z.of_nat (length post)) _ ltac:(lia) ltac:(lia) L2) as [L3 _]. rewrite Nat2Z.id, firstn_app, firstn_all, Nat.sub_diag in L3. cbn [firstn] in L3. rewrite app_nil_r in L3.
  exact L3.
Qed.
Lemma gather_recv_ok m n v dest vs : nvalue m n = Ok v -> owned_ok m dest -> vs <> [] ->
  ttotal (nschema n) < 2 ^ 31 -> Forall (fun w => tmap lv_kind w = tmap lv_kind v /\ Forall sized (tleaves w)) vs ->
  exists m' r, gather_recv m n dest (map vbytes vs) = Ok (m', r) /\ nvalue m' r = Ok (TList vs) /\
    owned_ok m' r /\ extends m m' (owned_blocks dest) /\ (forall b, live m' b -> (b < length m)%nat \/ ob r b).
Proof.
  intros V Ow Ne T F. pose proof (ttotal_nonneg n m v V) as N. pose proof (nvalue_leaves _ _ _ V) as C. pose proof (nvalue_leaf_like _ _ _ V) as K.
  set (eb := Z.to_nat (ttotal (nschema n))).
  assert (Sv : Forall sized (tleaves v)) by (eapply nvalue_sized; exact V).
  assert (Lb : Forall (fun b : list byte => length b = eb) (map vbytes vs)).
  { apply Forall_map. eapply Forall_impl; [|exact F]. intros w [Kw Sw]. unfold eb. rewrite <- (vbytes_length m n v V), Nat2Z.id. clear -Kw Sw Sv.
    assert (K : map lv_kind (tleaves w) = map lv_kind (tleaves v)) by (rewrite <- !tleaves_map, Kw; reflexivity). unfold vbytes.
    revert K Sw Sv. generalize (tleaves w) as a, (tleaves v) as b. induction a as [|x a IH]; intros [|y b] K Sw Sv; try discriminate; [reflexivity|].
    cbn [map flat_map] in *. injection K as K0 K1. inversion_clear Sw as [|? ? A1 A2]. inversion_clear Sv as [|? ? B1 B2]. rewrite !app_length, (IH b K1 A2 B2). f_equal.
    destruct x as [[[t en] es]|], y as [[[t' en'] es']|]; try discriminate; [|reflexivity]. cbn [lv_kind] in K0. injection K0 as -> -> L. cbn [sized leaf_bytes] in *.
    rewrite !(concat_len _ (Z.to_nat (default_bytes t'))) by assumption. congruence. }
  unfold gather_recv, nlist_of, nreset. destruct (nfree_ok m dest Ow) as (m1 & E1 & Fr). rewrite E1. cbn [obind].
  rewrite tcompact_twice, ttotal_compact, map_length. unfold nalloc. rewrite alloc_ok by lia. cbn [obind h_data]. unfold mpi_count. rewrite to_int_id by lia.
  replace (ttotal (nschema n) <? 0) with false by lia. cbn [obind n_hdr h_data].
  assert (X : existsb (fun b : list byte => ttotal (nschema n) <? Z.of_nat (length b)) (map vbytes vs) = false).
  { apply not_true_is_false. intros X. apply existsb_exists in X. destruct X as (b & I & X). rewrite Forall_forall in Lb. specialize (Lb b I). unfold eb in Lb. lia. }
  match goal with |- context [existsb ?f ?l] => replace (existsb f l) with false by (symmetry; exact X) end.
  pose proof (store_even (map vbytes vs) eb [] (repeat zero_byte (Z.to_nat (ttotal (nschema n) * Z.of_nat (length vs)))) m1 0 Lb eq_refl) as W.
  rewrite repeat_length, map_length in W. specialize (W ltac:(unfold eb; rewrite Z2Nat.inj_mul by lia; rewrite Nat2Z.id; lia)). cbn [app] in W.
  replace (Z.of_nat eb) with (ttotal (nschema n)) in W by (unfold eb; lia).
  match goal with |- context [store_parts ?a ?b ?c ?d] => replace (store_parts a b c d) with (Ok (m1 ++ [Some (concat (map vbytes vs))])) by (symmetry; exact W) end.
  cbn [obind]. eexists _, _. split; [reflexivity|]. set (m' := m1 ++ [Some (concat (map vbytes vs))]).
  assert (At : nth_error m' (length m1) = Some (Some (concat (map vbytes vs)))) by (unfold m'; rewrite nth_error_app2, Nat.sub_diag by apply Nat.le_refl; reflexivity).
  match goal with |- nvalue _ ?x = _ /\ _ => set (r0 := x) end.
  assert (Own : owns r0 = [(length m1, 0)]).
  { unfold r0. cbn [owns own_ptr h_own h_data]. rewrite flat_map_concat_map, map_map.
    replace (map _ (seq 0 (length vs))) with (map (fun _ : nat => @nil ptr) (seq 0 (length vs))) by (apply map_ext; intros i; rewrite owns_walk_false; reflexivity).
    generalize (seq 0 (length vs)). induction l; [reflexivity|exact IHl]. }
  split; [|split; [|split]].
  - unfold r0. apply nvalue_lst. exists vs. split; [reflexivity|].
    assert (G : forall k l, (forall i w, nth_error l i = Some w -> nth_error vs (k + i) = Some w) ->
      Forall2 (fun c w => nvalue m' c = Ok w) (map (fun i : nat => walk (tcompact (nschema n) 0) (opadd (Some (length m1, 0)) (ttotal (nschema n) * Z.of_nat i)) false) (seq k (length l))) l).
    { intros k l. revert k. induction l as [|w l IHl]; intros k H; [constructor|]. cbn [length seq map]. constructor.
      - specialize (H 0%nat w eq_refl). rewrite Nat.add_0_r in H. pose proof (map_nth_error vbytes _ _ H) as H'.
        destruct (concat_part (map vbytes vs) eb k (vbytes w) Lb H') as (pre & post & Ec & Lp).
        rewrite Forall_forall in F. destruct (F w (nth_error_In _ _ H)) as [Kw Sw].
        rewrite Forall_forall in Lb. pose proof (Lb (vbytes w) (in_map vbytes _ _ (nth_error_In _ _ H))) as Lw. cbn beta in Lw.
        cbn [opadd option_map]. unfold padd. cbn [fst snd].
        destruct (walk_bytes m' (nschema n) (length m1, 0 + ttotal (nschema n) * Z.of_nat k) false (vbytes w) C K) as (w' & V' & B' & K' & S').
        { replace (0 + ttotal (nschema n) * Z.of_nat k) with (Z.of_nat (length pre)) by (unfold eb in Lp; unfold byte in *; rewrite Lp; lia).
          replace (ttotal (nschema n)) with (Z.of_nat (length (vbytes w))) by (unfold eb in Lw; lia).
          apply (load_mid m' (length m1) pre (vbytes w) post). rewrite At, Ec. reflexivity. }
        rewrite V'. f_equal. apply value_same; try assumption. rewrite K', Kw. symmetry. eapply value_kinds. exact V.
      - apply IHl. intros i x E. specialize (H (S i) x E). rewrite <- H. f_equal. lia. }
    apply (G 0%nat vs). auto.
  - unfold owned_ok, owned_blocks. rewrite Own. split; [|cbn; constructor; [intros []|constructor]].
    constructor; [|constructor]. split; [reflexivity|]. cbn [fst]. eexists. exact At.
  - apply fresh_extends. exact Fr.
  - intros b [x Hx]. unfold ob, owned_blocks. rewrite Own. destruct Fr as [L Fr].
    assert (Y : nth_error m' b <> None) by congruence. apply nth_error_Some in Y. unfold m' in Y. rewrite app_length in Y. cbn [length] in Y. cbn [map fst In]. lia.
Qed.

Lemma same_kind_length w v : tmap lv_kind w = tmap lv_kind v -> Forall sized (tleaves w) -> Forall sized (tleaves v) -> length (vbytes w) = length (vbytes v).
Proof.
  intros K Sw Sv. assert (E : map lv_kind (tleaves w) = map lv_kind (tleaves v)) by (rewrite <- !tleaves_map, K; reflexivity). unfold vbytes.
  revert E Sw Sv. generalize (tleaves w) as a, (tleaves v) as b. induction a as [|x a IH]; intros [|y b] E Sw Sv; try discriminate; [reflexivity|].
  cbn [map flat_map] in *. injection E as E1 E2. inversion_clear Sw. inversion_clear Sv. rewrite !app_length. f_equal; [|apply IH; assumption].
  destruct x as [[[t en] es]|], y as [[[t' en'] es']|]; try discriminate; [|reflexivity]. cbn [lv_kind] in E1. injection E1 as -> -> L. cbn [sized leaf_bytes] in *.
  rewrite !(concat_len _ (Z.to_nat (default_bytes t'))) by assumption. congruence.
Qed.
(** ** Broadcasting with the schema *)
Lemma bcast_send_ok mach base m n v : nvalue m n = Ok v -> ttotal (nschema n) < 2 ^ 31 -> one_run base n ->
  (direct_ptr base n <> None -> packed (nschema n)) ->
  exists m', bcast_send mach base m n = Ok (m', (schema_text mach n ++ [zero_byte], vbytes v)) /\ (m' = m \/ m' = m ++ [None]).
Proof.
  intros E T O Pk. destruct (send_raw_ok base m n v E T O) as (m' & S & M). exists m'. split; [|exact M].
  pose proof (ttotal_nonneg n m v E) as N. unfold bcast_send, send_raw, schema_text, mpi_count in *. rewrite to_int_id in * by lia.
  replace (ttotal (nschema n) <? 0) with false in * by lia. cbn [obind] in *. destruct (direct_ptr base n) as [p|] eqn:P.
  - destruct (Pk ltac:(discriminate)) as [P1 P2]. rewrite (packed_compact (nschema n) 0 P1 P2).
    destruct (load m p (ttotal (nschema n))) as [x| | |]; try discriminate. cbn [obind] in *. injection S as -> ->. reflexivity.
  - rewrite (compact_copy m n v E) in *. destruct (0 <? ttotal (nschema n)); cbn [obind] in *; rewrite nschema_walk.
    + destruct (oload (m ++ [Some (vbytes v)]) (h_data (n_hdr (walk (tcompact (nschema n) 0) (Some (length m, 0)) true))) (ttotal (nschema n))) as [x| | |]; try discriminate.
      cbn [obind] in *. destruct (nfree _ _) as [y| | |]; try discriminate. cbn [obind] in *. injection S as -> ->. reflexivity.
    + destruct (oload m _ _) as [x| | |]; try discriminate. cbn [obind] in *. destruct (nfree _ _) as [y| | |]; try discriminate. cbn [obind] in *. injection S as -> ->. reflexivity.
Qed.
Lemma back_span_eq mach t t1 : counts t -> Forall leaf_like (tleaves t) -> same_tree (read_back mach) (tcompact t 0) t1 -> empties_in 0 (tstrided t1) t1 ->
  tspanned t1 = ttotal t.
Proof.
  intros C K S Em. pose proof (back_spanned t C K mach t1 S Em) as B. pose proof (compact_span t C) as Sp.
  assert (G : forall l l', Forall2 (read_back mach) l l' -> Forall (fun d => dt_id d = EMPTY -> d = dt_empty) l -> fold_right Z.max 0 (map spanned_bytes l) <= fold_right Z.max 0 (map spanned_bytes l')).
  { intros l l' F. induction F as [|d d' l l' R F IH]; intros Y; [reflexivity|]. inversion_clear Y as [|? ? Y1 Y2]. specialize (IH Y2). cbn [map fold_right].
    unfold read_back in R. destruct (tid_eqb (dt_id d) EMPTY) eqn:X.
    - apply tid_eqb_eq in X. rewrite (Y1 X). pose proof (zmaxf_nonneg (map spanned_bytes l')). change (spanned_bytes dt_empty) with 0. lia.
    - subst d'. change (spanned_bytes (recorded mach d)) with (spanned_bytes d). lia. }
  assert (Y : Forall (fun d => dt_id d = EMPTY -> d = dt_empty) (tleaves (tcompact t 0))).
  { apply Forall_forall. intros d I X. destruct (compact_in t C K d I) as (d0 & o & _ & -> & _). unfold leaf_compact in *. destruct (is_empty d0) eqn:Z; [reflexivity|].
    cbn [dt_id] in X. unfold is_empty in Z. rewrite X in Z. discriminate. }
  pose proof (G _ _ (same_tree_leaves _ _ _ S) Y) as G'.
  destruct t as [d|es|ts]; cbn [tcompact] in *; inversion S as [? d' r| |]; subst; unfold tspanned in *; cbn [tleaves] in *.
  - unfold read_back in r. destruct (tid_eqb (dt_id (leaf_compact d 0)) EMPTY) eqn:X.
    + apply tid_eqb_eq in X. pose proof (Forall_inv Y X) as Y1. rewrite Y1 in Sp. change (spanned_bytes dt_empty) with 0 in Sp. lia.
    + subst d'. exact Sp.
  - lia.
  - lia.
Qed.
(** the receiving leaf takes the elements in place (or in a buffer) instead of being made anew *)
Definition in_place (dest : node) (v : tree leafval) : Prop :=
  match dest, v with
  | NLeaf _ d, TLeaf (Some (t, _, es)) => dt_id d = t /\ dt_ebytes d = default_bytes t /\ Z.of_nat (length es) <= dt_n d
  | _, _ => False
  end.
Lemma sent_leaf mach m0 src v s e : nvalue m0 src = Ok v -> same_tree (read_back mach) (tcompact (nschema src) 0) (abs s) -> abs s = TLeaf e ->
  (is_empty e = true /\ v = TLeaf None) \/
  (is_empty e = false /\ exists en es, v = TLeaf (Some (dt_id e, en, es)) /\ dt_ebytes e = default_bytes (dt_id e) /\ Z.of_nat (length es) = dt_n e /\ is_data (dt_id e) = true).
Proof.
  intros V S A. rewrite A in S. destruct src as [h d|h es|h ks]; cbn [nschema tcompact] in S; inversion S as [? ? r| |]; subst.
  apply nvalue_leaf in V. destruct V as (lv & -> & V). destruct (leaf_value_inv _ _ _ _ V) as [[T ->]|(T & Hn & es & -> & Ho)].
  - left. unfold leaf_compact, is_empty, read_back in *. rewrite T in r. cbn in r. rewrite r. split; reflexivity.
  - right. pose proof (is_data_empty _ T) as X. unfold leaf_compact in r. rewrite X in r. unfold read_back in r. cbn [dt_id] in r. unfold is_empty in X. rewrite X in r. subst e.
    unfold recorded, is_empty. cbn [dt_id dt_ebytes dt_n].
    split; [exact X|]. exists (dt_endian d), es. destruct Ho as [L0 _]. split; [reflexivity|]. split; [reflexivity|]. split; [lia|exact T].
Qed.
Lemma bcast_fresh parse mach base m0 src v m dest : reads_json parse -> mach <> DEFAULT_E -> ready (m0, src) v -> ttotal (nschema src) < 2 ^ 31 ->
  owned_ok m dest -> ~ in_place dest v ->
  exists m' r, bcast_recv base parse m dest (schema_text mach src ++ [zero_byte], vbytes v) = Ok (m', r) /\
    nvalue m' r = Ok (tmap (file_order mach) v) /\ owned_ok m' r /\ extends m m' (owned_blocks dest) /\
    (forall b, live m' b -> (b < length m)%nat \/ ob r b \/ v = TLeaf None).
Proof.
  intros P M (V & U & N) T Ow Ni. cbn [fst snd] in *. pose proof (nvalue_leaves _ _ _ V) as C. pose proof (nvalue_leaf_like _ _ _ V) as K. pose proof (vbytes_length _ _ _ V) as Lv.
  destruct (schema_back parse mach (nschema src) P M C K U N ltac:(lia)) as (s & Es & Ss & Em). pose proof (back_span_eq mach _ _ C K Ss Em) as Sp.
  destruct (arrived mach _ _ _ s V Ss) as (_ & _ & A3 & _).
  unfold bcast_recv, schema_text. cbn [fst snd]. rewrite until_nul_plain by (apply schema_text_plain; try assumption; lia). cbn [obind]. rewrite Es. cbn [obind].
  set (body := do (m1, r) <- nset_schema m dest (abs s); do c <- mpi_count (ttotal (nschema r)); do _ <- (if Z.of_nat (length (vbytes v)) =? c then Ok tt else Err);
               do m2 <- ostore m1 (h_data (n_hdr r)) (vbytes v); Ok (m2, r)).
  match goal with |- exists m' r, ?x = Ok (m', r) /\ _ => replace x with body end.
  2:{ destruct dest as [h d|h es|h ks]; [|reflexivity..]. destruct (abs s) as [e|es|ts] eqn:A; [|reflexivity..].
      replace (negb (is_empty d) && negb (is_empty e) && dt_compatible d e) with false; [unfold body; rewrite ?A; reflexivity|]. symmetry. apply not_true_is_false. intros X.
      apply andb_true_iff in X. destruct X as [X X3]. apply andb_true_iff in X. destruct X as [X1 X2].
      destruct (sent_leaf mach m0 src v s e V ltac:(rewrite A; exact Ss) A) as [[Y _]|(Y & en & es & -> & Y2 & Y3 & _)]; [rewrite Y in X2; discriminate|].
      apply Ni. cbn [in_place]. unfold dt_compatible in X3. apply andb_true_iff in X3. destruct X3 as [X3 Z3]. apply andb_true_iff in X3. destruct X3 as [Z1 Z2]. apply tid_eqb_eq in Z1.
      split; [exact Z1|]. split; lia. }
  unfold body, nset_schema. destruct (nfree_ok m dest Ow) as (m1 & E1 & Fr). rewrite E1. cbn [obind]. unfold nalloc. rewrite alloc_ok by lia. cbn [obind h_data h_own].
  rewrite nschema_walk, walk_hdata. unfold mpi_count. rewrite A3, to_int_id by lia. replace (Z.of_nat (length (vbytes v)) <? 0) with false by lia. cbn [obind]. rewrite Z.eqb_refl. cbn [obind ostore].
  rewrite store_fresh by (rewrite repeat_length; lia). cbn [obind]. eexists _, _. split; [reflexivity|]. split; [|split; [apply fresh_owned|split; [apply fresh_extends, Fr|]]].
  - eapply loaded_value with (own := false); [exact Ss|]. eapply (bytes_value m0 src v _ _ false); [exact V|]. rewrite <- Lv. apply load_whole.
    rewrite nth_error_app2, Nat.sub_diag by apply Nat.le_refl. reflexivity.
  - intros b [x Hx]. destruct Fr as [L Fr].
    assert (Y : (b < length (m1 ++ [Some (vbytes v)]))%nat) by (apply live_lt; eexists; exact Hx). rewrite app_length in Y. cbn [length] in Y.
    destruct (Nat.lt_ge_cases b (length m)) as [|Hb]; [left; assumption|]. right. unfold ob, owned_blocks. rewrite owns_walk.
    destruct (abs s) as [e|es|ts] eqn:A; [|left; left; cbn [fst]; lia..].
    destruct (sent_leaf mach m0 src v s e V ltac:(rewrite A; exact Ss) A) as [[_ X]|(X & _)]; [right; exact X|]. rewrite X. left. left. cbn [fst]. lia.
Qed.
Lemma bcast_filled parse mach base m0 src v m dest dv : reads_json parse -> mach <> DEFAULT_E -> ready (m0, src) v ->
  healthy m dest -> nvalue m dest = Ok dv -> one_run base dest -> in_place dest v ->
  Z.of_nat (length (vbytes v)) = ttotal (nschema dest) -> 0 < ttotal (nschema dest) < 2 ^ 31 ->
  exists m' r, bcast_recv base parse m dest (schema_text mach src ++ [zero_byte], vbytes v) = Ok (m', r) /\ filled_with m dest dv (vbytes v) m' r.
Proof.
  intros P M (V & U & N) H Vd O Ip Lb T. cbn [fst snd] in *. pose proof (nvalue_leaves _ _ _ V) as C. pose proof (nvalue_leaf_like _ _ _ V) as K. pose proof (vbytes_length _ _ _ V) as Lv.
  destruct (schema_back parse mach (nschema src) P M C K U N ltac:(lia)) as (s & Es & Ss & Em). pose proof (back_span_eq mach _ _ C K Ss Em) as Sp.
  unfold bcast_recv, schema_text. cbn [fst snd]. rewrite until_nul_plain by (apply schema_text_plain; try assumption; lia). cbn [obind]. rewrite Es. cbn [obind].
  destruct dest as [h d|h es|h ks]; cbn [in_place] in Ip; try contradiction. destruct v as [[[[t en] es]|]| |]; try contradiction. destruct Ip as (I1 & I2 & I3). subst t.
  assert (exists e, abs s = TLeaf e) as (e & A).
  { destruct src as [h0 d0|h0 es0|h0 ks0]; [cbn [nschema tcompact] in Ss; inversion Ss; eauto|apply nvalue_obj in V|apply nvalue_lst in V]; destruct V as (? & X & _); discriminate. }
  destruct (sent_leaf mach m0 src _ s e V Ss A) as [[_ X]|(X & en' & es' & Xv & Y2 & Y3 & Y4)]; [discriminate|]. injection Xv as X1 -> ->.
  rewrite A. replace (negb (is_empty d) && negb (is_empty e) && dt_compatible d e) with true.
  2:{ unfold is_empty in *. rewrite X, X1, X. cbn [negb andb]. unfold dt_compatible. rewrite X1, tid_eqb_refl. rewrite I2, X1, Y2, Z.eqb_refl. cbn [andb]. lia. }
  cbn [nschema] in *. unfold mpi_count. rewrite to_int_id by lia. replace (ttotal (TLeaf d) <? 0) with false by lia. cbn [obind]. rewrite Lb, Z.eqb_refl. cbn [obind].
  destruct (direct_ptr base (NLeaf h d)) as [p|] eqn:Pd.
  - destruct (O p Pd) as [D I]. destruct (fill_direct base m (NLeaf h d) dv (vbytes (TLeaf (Some (dt_id d, en', es')))) p H Vd Lb Pd D I) as (m' & E & F).
    match goal with |- context [store ?a ?b ?c] => replace (store a b c) with (Ok m') by (symmetry; exact E) end. cbn [obind]. eauto.
  - unfold nset_schema. change (nfree m nempty) with (Ok m). cbn [obind]. rewrite A in Sp. rewrite Sp. unfold nalloc. rewrite alloc_ok by lia. cbn [obind h_data h_own]. rewrite walk_hdata. cbn [ostore].
    rewrite store_fresh by (rewrite repeat_length; lia). cbn [obind].
    assert (Vk : nvalue (m ++ [Some (vbytes (TLeaf (Some (dt_id d, en', es'))))]) (walk (TLeaf e) (Some (length m, 0)) true) = Ok (tmap (file_order mach) (TLeaf (Some (dt_id d, en', es'))))).
    { rewrite <- A. eapply loaded_value with (own := false); [exact Ss|]. eapply (bytes_value m0 src _ _ _ false); [exact V|]. rewrite <- Lv. apply load_whole.
      rewrite nth_error_app2, Nat.sub_diag by apply Nat.le_refl. reflexivity. }
    destruct (temp_update m (NLeaf h d) dv _ _ _ H Vd Vk) as (m3 & r & m4 & E1 & E2 & V4 & H4 & S4); [constructor|constructor| |].
    { intros q Tq. apply touches_walk in Tq. destruct Tq as (p & d0 & i & j & Ep & _ & _ & _ & ->). injection Ep as <-. reflexivity. }
    match goal with |- context [nupdate ?a ?b ?c] => replace (nupdate a b c) with (Ok (m3, r)) by (symmetry; exact E1) end. cbn [obind].
    rewrite nfree_all, owns_walk, X. cbn [free_all]. rewrite E2. cbn [obind]. exists m4, r. split; [reflexivity|]. split; [|split; assumption].
    pose proof Vd as Vd'. apply nvalue_leaf in Vd'. destruct Vd' as (lv & -> & Vl).
    destruct (leaf_value_inv _ _ _ _ Vl) as [[T0 _]|(T0 & Hn & es0 & -> & Ho)]; [rewrite <- X1, T0 in Y4; discriminate|].
    assert (Le : length es' = length es0).
    { destruct Ho as [Lo _]. rewrite ttotal_leaf in *. rewrite vbytes_leaf in Lb. cbn [leaf_bytes] in Lb.
      pose proof (nvalue_sized _ _ _ V) as Sz. cbn [tleaves] in Sz. apply Forall_inv in Sz. cbn [sized] in Sz. rewrite (concat_len _ _ Sz) in Lb.
      pose proof (is_data_pos _ T0). rewrite Nat2Z.inj_mul, Z2Nat.id in Lb by lia. rewrite Lo. nia. }
    eexists. split; [exact V4|]. cbn [tmap file_order vupdate fits_into lv_overwrite]. rewrite tid_eqb_refl, Le, Nat.leb_refl. cbn [andb].
    rewrite <- Le, Le, skipn_all, app_nil_r. split; [rewrite !vbytes_leaf; reflexivity|]. cbn [tmap lv_kind]. rewrite Le. reflexivity.
Qed.

(** ** Reductions *)
Lemma reduce_send_ok m h d t en es : nvalue m (NLeaf h d) = Ok (TLeaf (Some (t, en, es))) -> dt_n d < 2 ^ 31 ->
  (tis_compact (TLeaf d) = true -> dt_off d = 0 /\ (dt_stride d = default_bytes (dt_id d) \/ dt_n d = 1)) ->
  exists m', reduce_send m (NLeaf h d) = Ok (m', concat es) /\ (m' = m \/ m' = m ++ [None]).
Proof.
  intros V T Pk. pose proof V as V0. apply nvalue_leaf in V0. destruct V0 as (lv & E & V0). injection E as <-.
  destruct (leaf_value_inv _ _ _ _ V0) as [[_ X]|(D & Hn & es' & X & Ho)]; [discriminate|]. injection X as -> -> ->.
  pose proof (is_data_pos _ D) as Dp. pose proof (is_data_empty _ D) as De. unfold is_empty in De.
  unfold reduce_send. rewrite De. unfold mpi_count. rewrite to_int_id by lia. replace (dt_n d <? 0) with false by lia. cbn [obind].
  assert (Tt : ttotal (TLeaf d) = default_bytes (dt_id d) * dt_n d) by (rewrite ttotal_leaf; unfold is_empty; rewrite ?De; lia).
  destruct (tis_compact (TLeaf d)) eqn:C.
  - destruct (Pk eq_refl) as [P1 P2]. destruct (h_data h) as [p|] eqn:P.
    + pose proof (holds_dense m p d es' D Hn P2 Ho) as Ld. unfold padd, eaddr in Ld. rewrite P1 in Ld. replace (snd p + (0 + dt_stride d * 0)) with (snd p) in Ld by lia.
      destruct p as [b o]. cbn [fst snd oload] in *. rewrite Ld. cbn [obind]. eauto.
    + destruct Ho as [Lo Ho]. destruct es' as [|x es']; [|exfalso].
      * cbn [length] in Lo. replace (dt_n d) with 0 by lia. rewrite Z.mul_0_r. cbn. eauto.
      * cbn [length] in Lo. destruct (Ho 0) as (q & _ & X); [lia|]. unfold leaf_elem in X. cbn [opadd option_map oload] in X. replace (default_bytes (dt_id d) =? 0) with false in X by lia. discriminate X.
  - pose proof (vbytes_length m _ _ V) as Lv. cbn [nschema] in Lv. rewrite vbytes_leaf in Lv. cbn [leaf_bytes] in Lv.
    rewrite (compact_copy m _ _ V). cbn [nschema]. rewrite Tt. destruct (Z.ltb_spec 0 (default_bytes (dt_id d) * dt_n d)) as [H|H]; cbn [obind]; rewrite walk_hdata.
    + cbn [oload]. rewrite <- Tt, <- Lv. rewrite vbytes_leaf. cbn [leaf_bytes]. rewrite load_whole by (rewrite nth_error_app2, Nat.sub_diag by apply Nat.le_refl; reflexivity). cbn [obind].
      rewrite nfree_all. rewrite whole_owner by lia. cbn [free_all]. rewrite free_last. cbn [obind]. eauto.
    + assert (Z0 : default_bytes (dt_id d) * dt_n d = 0) by nia. rewrite Z0. rewrite Tt, Z0 in Lv. destruct (concat es'); [|cbn in Lv; lia]. cbn [oload Z.eqb obind].
      rewrite nfree_all, owns_walk_false. cbn [free_all obind]. eauto.
Qed.
Lemma store_prefix m p old bs : load m p (Z.of_nat (length old)) = Ok old -> (length bs <= length old)%nat -> bs <> [] ->
  store m p bs = store m p (bs ++ skipn (length bs) old).
Proof.
  intros Ld Le Ne. destruct bs as [|c bs]; [contradiction|]. cbn [length] in Le.
  unfold load in Ld. replace (Z.of_nat (length old) =? 0) with false in Ld by lia. unfold store.
  change ((c :: bs) ++ skipn (length (c :: bs)) old) with (c :: (bs ++ skipn (length (c :: bs)) old)).
  destruct (nth_error m (fst p)) as [[l|]|]; try discriminate. destruct (_ && _) eqn:X in Ld; [|discriminate]. injection Ld as Eo.
  apply andb_true_iff in X. destruct X as [X X3]. apply andb_true_iff in X. destruct X as [X1 X2].
  assert (Ll : length (c :: bs ++ skipn (length (c :: bs)) old) = length old) by (cbn [length]; rewrite app_length, skipn_length; cbn [length]; lia).
  unfold byte in *.
  rewrite Ll. rewrite X1. cbn [andb].
  replace (snd p + Z.of_nat (length (c :: bs)) <=? Z.of_nat (length l)) with true by (symmetry; apply Z.leb_le; apply Z.leb_le in X3; cbn [length]; lia). rewrite X3.
  do 3 f_equal. unfold put_range. f_equal. unfold byte in *. rewrite Ll. cbn [app length]. f_equal. rewrite <- app_assoc. f_equal.
  unfold sub_range in Eo. rewrite Nat2Z.id in Eo. set (s := skipn (Z.to_nat (snd p)) l) in *.
  rewrite <- (skipn_twice l (S (length bs)) (Z.to_nat (snd p))), <- (skipn_twice l (length old) (Z.to_nat (snd p))). fold s.
  change (firstn (length old) s = old) in Eo. rewrite <- (firstn_skipn (length old) s) at 1. rewrite skipn_app, Eo. unfold byte in *. replace (S (length bs) - length old)%nat with 0%nat by lia. reflexivity.
Qed.
Lemma skipn_concat (k : nat) (es : list (list byte)) : forall i, Forall (fun x => length x = k) es -> skipn (i * k) (concat es) = concat (skipn i es).
Proof.
  induction es as [|x es IH]; intros i F; [rewrite !skipn_nil; destruct i; reflexivity|]. inversion_clear F as [|? ? F1 F2]. destruct i as [|i]; [reflexivity|]. cbn [concat skipn Nat.mul].
  rewrite skipn_app, <- F1. replace (length x + i * length x - length x)%nat with (i * length x)%nat by lia. rewrite skipn_all2 by lia. cbn [app]. rewrite F1. apply IH, F2.
Qed.
Lemma reduce_recv_ok base m h d t en es rs dest dv : nvalue m (NLeaf h d) = Ok (TLeaf (Some (t, en, es))) ->
  length rs = length es -> es <> [] -> Forall (fun x => length x = Z.to_nat (default_bytes t)) rs ->
  healthy m dest -> nvalue m dest = Ok dv -> one_run base dest ->
  exists m' r, reduce_recv base m (NLeaf h d) dest (concat rs) = Ok (m', r) /\
    nvalue m' r = Ok (vupdate dv (TLeaf (Some (t, en, rs)))) /\ healthy m' r /\ step m (touches dest) (ob dest) m' (touches r) (ob r).
Proof.
  intros V Lr Ne Sr H Vd O. pose proof V as V0. apply nvalue_leaf in V0. destruct V0 as (lv & E & V0). injection E as <-.
  destruct (leaf_value_inv _ _ _ _ V0) as [[_ X]|(D & Hn & es' & X & Ho)]; [discriminate|]. injection X as -> -> ->.
  pose proof (is_data_pos _ D) as Dp. pose proof (is_data_empty _ D) as De. destruct Ho as [Lo _].
  assert (Lp : (0 < length es')%nat) by (destruct es'; [contradiction|cbn; lia]).
  assert (Tt : ttotal (TLeaf d) = default_bytes (dt_id d) * dt_n d) by (rewrite ttotal_leaf; rewrite ?De; lia).
  assert (Lb : Z.of_nat (length (concat rs)) = ttotal (TLeaf d)) by (rewrite (concat_len _ _ Sr), Tt; nia).
  assert (Pos : 0 < ttotal (TLeaf d)) by nia.
  set (body := do (m1, k) <- nset_schema m nempty (tcompact (nschema (NLeaf h d)) 0); do m2 <- ostore m1 (h_data (n_hdr k)) (concat rs); do (m3, r) <- nupdate m2 dest k; do m4 <- nfree m3 k; Ok (m4, r)).
  assert (B : exists m' r, body = Ok (m', r) /\ nvalue m' r = Ok (vupdate dv (TLeaf (Some (dt_id d, dt_endian d, rs)))) /\ healthy m' r /\ step m (touches dest) (ob dest) m' (touches r) (ob r)).
  { pose proof (nvalue_leaf_like _ _ _ V) as K. pose proof (nvalue_leaves _ _ _ V) as C. cbn [nschema] in *.
    destruct (buffer_value m (TLeaf d) (concat rs) C K Lb) as (w & Vw & Wb & Wk).
    assert (Ew : w = TLeaf (Some (dt_id d, dt_endian d, rs))).
    { apply value_same.
      - rewrite Wk. pose proof (value_kinds _ _ _ V) as Kv. cbn [nschema] in Kv. rewrite <- Kv. cbn [tmap lv_kind]. rewrite Lr. reflexivity.
      - eapply nvalue_sized. exact Vw.
      - cbn [tleaves]. constructor; [exact Sr|constructor].
      - rewrite vbytes_leaf. exact Wb. }
    subst w. unfold body, nset_schema. change (nfree m nempty) with (Ok m). cbn [obind]. rewrite compact_span by exact C. unfold nalloc. rewrite alloc_ok by lia. cbn [obind h_data h_own].
    rewrite walk_hdata. cbn [ostore]. rewrite store_fresh by (rewrite repeat_length; lia). cbn [obind].
    destruct (temp_update m dest dv _ _ _ H Vd Vw) as (m3 & r & m4 & E1 & E2 & V4 & H4 & S4); [constructor|constructor| |].
    { intros q Tq. apply touches_walk in Tq. destruct Tq as (p & d0 & i & j & Ep & _ & _ & _ & ->). injection Ep as <-. reflexivity. }
    match goal with |- context [nupdate ?a ?b ?c] => replace (nupdate a b c) with (Ok (m3, r)) by (symmetry; exact E1) end. cbn [obind].
    rewrite nfree_all. match goal with |- context [owns ?x] => replace (owns x) with [(length m, 0)] by (symmetry; apply (whole_owner (TLeaf d)); exact Pos) end. cbn [free_all]. rewrite E2. cbn [obind].
    exists m4, r. auto. }
  unfold reduce_recv. fold body. destruct (direct_ptr base dest) as [p|] eqn:P; [|exact B].
  destruct dest as [h' e|h' es0|h' ks]; [|exact B..]. destruct (dt_compatible e d) eqn:Cp; [|exact B]. clear B.
  destruct (O p P) as [Dd I]. unfold dt_compatible in Cp. apply andb_true_iff in Cp. destruct Cp as [Cp C3]. apply andb_true_iff in Cp. destruct Cp as [C1 C2]. apply tid_eqb_eq in C1.
  pose proof Vd as Vd'. apply nvalue_leaf in Vd'. destruct Vd' as (lv & -> & Vl).
  destruct (leaf_value_inv _ _ _ _ Vl) as [[T0 _]|(T0 & Hn0 & es0 & -> & Ho0)]; [rewrite <- C1, T0 in D; discriminate|].
  destruct (direct_run base _ p P Dd I) as (A & B & R & Ep). destruct (run_load base (fst p) m _ _ A B Vd Dd I R) as [Ld _]. rewrite <- Ep in Ld.
  pose proof (vbytes_length m _ _ Vd) as Lv. rewrite <- Lv in Ld. rewrite vbytes_leaf in Ld. cbn [leaf_bytes] in Ld.
  pose proof (nvalue_sized _ _ _ Vd) as Sz. cbn [tleaves] in Sz. apply Forall_inv in Sz. cbn [sized] in Sz.
  destruct Ho0 as [Lo0 _]. rewrite C1 in *.
  assert (Le : (length rs <= length es0)%nat) by lia.
  assert (Lc : length (concat rs) = (length rs * Z.to_nat (default_bytes (dt_id d)))%nat) by (apply concat_len; exact Sr).
  assert (Ln : concat rs <> []) by (intros X; rewrite X in Lb; cbn [length] in Lb; lia).
  pose proof (concat_len _ _ Sz) as Lc0.
  rewrite vbytes_leaf in Lv. cbn [leaf_bytes] in Lv.
  rewrite (store_prefix m p (concat es0) (concat rs)); [|exact Ld|rewrite Lc, Lc0; nia|exact Ln].
  rewrite Lc, (skipn_concat (Z.to_nat (default_bytes (dt_id d))) es0 (length rs) Sz), <- concat_app.
  destruct (fill_direct base m (NLeaf h' e) _ (concat (rs ++ skipn (length rs) es0)) p H Vd) as (m' & E & (v & Vv & Bv & Kv) & F2 & F3); try assumption.
  { rewrite <- Lv. f_equal. rewrite !(concat_len _ (Z.to_nat (default_bytes (dt_id d)))); [rewrite app_length, skipn_length; nia|exact Sz|].
    apply Forall_app. split; [exact Sr|]. rewrite <- (firstn_skipn (length rs) es0) in Sz. apply Forall_app in Sz. apply Sz. }
  rewrite E. cbn [obind]. exists m', (NLeaf h' e). split; [reflexivity|]. split; [|split; assumption]. rewrite Vv. f_equal.
  cbn [vupdate fits_into lv_overwrite]. rewrite tid_eqb_refl. replace (length rs <=? length es0)%nat with true by lia. cbn [andb].
  apply value_same.
  - rewrite Kv. cbn [tmap lv_kind]. rewrite app_length, skipn_length. do 4 f_equal. lia.
  - eapply nvalue_sized. exact Vv.
  - cbn [tleaves]. constructor; [|constructor]. cbn [sized]. apply Forall_app. split; [exact Sr|]. rewrite <- (firstn_skipn (length rs) es0) in Sz. apply Forall_app in Sz. apply Sz.
  - rewrite Bv, vbytes_leaf. reflexivity.
Qed.

(** what MPI makes of the elements of all ranks, place by place *)
Definition elementwise (op : list (list byte) -> list byte) (k : nat) (ess : list (list (list byte))) : list (list byte) :=
  map (fun i => op (map (fun es => nth i es []) ess)) (seq 0 k).
Lemma sub_concat (sz : nat) (es : list (list byte)) : forall i, Forall (fun x => length x = sz) es -> (i < length es)%nat -> sub_range (concat es) (i * sz) sz = nth i es [].
Proof.
  intros i F Hi. unfold sub_range. rewrite (skipn_concat sz es i F). destruct (nth_split es [] Hi) as (l1 & l2 & E & L1).
  set (x := nth i es []) in *. rewrite E in F |- *. apply Forall_app in F. destruct F as [_ F]. apply Forall_inv in F.
  rewrite skipn_app, <- L1, skipn_all, Nat.sub_diag. cbn [app skipn concat]. rewrite firstn_app, F, Nat.sub_diag, <- F, firstn_all. cbn [firstn]. apply app_nil_r.
Qed.
Lemma mpi_reduce_ok op sz k ess : Forall (fun es => length es = k /\ Forall (fun x => length x = sz) es) ess ->
  mpi_reduce op sz k (map (@concat byte) ess) = concat (elementwise op k ess).
Proof.
  intros F. unfold mpi_reduce, elementwise. f_equal. apply map_ext_in. intros i Hi. apply in_seq in Hi. f_equal. rewrite map_map. apply map_ext_in. intros es He.
  rewrite Forall_forall in F. destruct (F es He) as [L Sz]. apply sub_concat; [exact Sz|lia].
Qed.
Lemma elementwise_sized op sz k ess : (forall xs, xs <> [] -> Forall (fun x => length x = sz) xs -> length (op xs) = sz) -> ess <> [] ->
  Forall (fun es => length es = k /\ Forall (fun x => length x = sz) es) ess -> Forall (fun x => length x = sz) (elementwise op k ess).
Proof.
  intros Ho Ne F. unfold elementwise. apply Forall_map, Forall_forall. intros i Hi. apply in_seq in Hi. apply Ho.
  - destruct ess; [contradiction|discriminate].
  - apply Forall_map. eapply Forall_impl; [|exact F]. intros es [L Sz]. rewrite Forall_forall in Sz. apply Sz, nth_In. lia.
Qed.
(** a node whose elements MPI_Reduce gets at its data pointer *)
Definition reducible (n : node) : Prop :=
  match n with
  | NLeaf _ d => dt_n d < 2 ^ 31 /\ (tis_compact (TLeaf d) = true -> dt_off d = 0 /\ (dt_stride d = default_bytes (dt_id d) \/ dt_n d = 1))
  | _ => False
  end.
Lemma reduce_all base op t k ranks ess i m n en es dest dv :
  Forall2 (fun rk es => exists en, nvalue (fst rk) (snd rk) = Ok (TLeaf (Some (t, en, es))) /\ reducible (snd rk)) ranks ess ->
  Forall (fun es => length es = k) ess -> (0 < k)%nat -> nth_error ranks i = Some (m, n) -> nvalue m n = Ok (TLeaf (Some (t, en, es))) ->
  (forall xs, xs <> [] -> Forall (fun x => length x = Z.to_nat (default_bytes t)) xs -> length (op xs) = Z.to_nat (default_bytes t)) ->
  healthy m dest -> nvalue m dest = Ok dv -> one_run base dest ->
  exists parts m' r,
    Forall2 (fun rk part => exists mi, reduce_send (fst rk) (snd rk) = Ok (mi, part) /\ (mi = fst rk \/ mi = fst rk ++ [None])) ranks parts /\
    reduce_recv base m n dest (mpi_reduce op (Z.to_nat (default_bytes t)) k parts) = Ok (m', r) /\
    nvalue m' r = Ok (vupdate dv (TLeaf (Some (t, en, elementwise op k ess)))) /\ healthy m' r /\ step m (touches dest) (ob dest) m' (touches r) (ob r).
Proof.
  intros F Lk Kp Ni V0 Ho H Vd O.
  assert (Sz : Forall (fun es => length es = k /\ Forall (fun x => length x = Z.to_nat (default_bytes t)) es) ess).
  { clear -F Lk. revert Lk. induction F as [|rk es ranks ess (en & V & _) F IH]; intros Lk; [constructor|]. inversion_clear Lk as [|? ? L1 L2]. constructor; [|apply IH, L2].
    split; [exact L1|]. apply nvalue_sized in V. apply Forall_inv in V. exact V. }
  assert (exists es en, In es ess /\ nvalue m n = Ok (TLeaf (Some (t, en, es))) /\ reducible n) as (es1 & en1 & Ie & V & R).
  { clear -F Ni. revert i Ni. induction F as [|rk es ranks ess (en & V & R) F IH]; intros i Ni; [destruct i; discriminate|]. destruct i as [|i].
    - injection Ni as ->. exists es, en. split; [left; reflexivity|auto].
    - destruct (IH i Ni) as (es' & en' & I & X). exists es', en'. split; [right; exact I|exact X]. }
  rewrite V0 in V. injection V as <- <-.
  destruct n as [h d|h es0|h ks]; try contradiction.
  assert (Nn : ess <> []) by (intros ->; contradiction).
  destruct (reduce_recv_ok base m h d t en es (elementwise op k ess) dest dv V0) as (m' & r & E & X); try assumption.
  - unfold elementwise. rewrite map_length, seq_length. rewrite Forall_forall in Lk. symmetry. apply Lk, Ie.
  - intros ->. rewrite Forall_forall in Lk. specialize (Lk _ Ie). cbn in Lk. lia.
  - apply elementwise_sized; assumption.
  - exists (map (@concat byte) ess), m', r. split; [|split; [rewrite (mpi_reduce_ok op _ k ess Sz); exact E|exact X]].
    clear -F. induction F as [|rk es ranks ess (en & V & R) F IH]; [constructor|]. cbn [map]. constructor; [|exact IH].
    destruct rk as [m n]. cbn [fst snd] in *. destruct n as [h d|h es0|h ks]; try contradiction. destruct R as [R1 R2]. eapply reduce_send_ok; eassumption.
Qed.
Lemma gather_by (send : mem -> node -> outcome (mem * list byte)) (good_node : node -> Prop) ranks vs i m n v dest :
  (forall m n v, nvalue m n = Ok v -> ttotal (nschema n) < 2 ^ 31 -> good_node n -> exists m', send m n = Ok (m', vbytes v) /\ (m' = m \/ m' = m ++ [None])) ->
  Forall2 (fun rk w => nvalue (fst rk) (snd rk) = Ok w /\ good_node (snd rk)) ranks vs ->
  Forall (fun w => tmap lv_kind w = tmap lv_kind v) vs -> nth_error ranks i = Some (m, n) -> nth_error vs i = Some v ->
  ttotal (nschema n) < 2 ^ 31 -> owned_ok m dest ->
  exists parts m' r,
    Forall2 (fun rk part => exists mi, send (fst rk) (snd rk) = Ok (mi, part) /\ (mi = fst rk \/ mi = fst rk ++ [None])) ranks parts /\
    gather_recv m n dest parts = Ok (m', r) /\ nvalue m' r = Ok (TList vs) /\
    owned_ok m' r /\ extends m m' (owned_blocks dest) /\ (forall b, live m' b -> (b < length m)%nat \/ ob r b).
Proof.
  intros Sd F K Nr Nv T Ow.
  assert (V : nvalue m n = Ok v).
  { clear -F Nr Nv. revert i Nr Nv. induction F as [|rk w ranks vs (V & _) F IH]; intros [|i] Nr Nv; try discriminate; [|eapply IH; eassumption]. injection Nr as ->. injection Nv as ->. exact V. }
  assert (S : Forall (fun w => Forall sized (tleaves w)) vs).
  { clear -F. induction F as [|rk w ranks vs (V & _) F IH]; constructor; [eapply nvalue_sized; exact V|exact IH]. }
  assert (Tt : Forall (fun w => Z.of_nat (length (vbytes w)) = ttotal (nschema n)) vs).
  { apply Forall_forall. intros w Iw. rewrite <- (vbytes_length m n v V). f_equal. rewrite Forall_forall in K, S. specialize (K w Iw). apply same_kind_length; [exact K|apply S, Iw|eapply nvalue_sized; exact V]. }
  destruct (gather_recv_ok m n v dest vs V Ow) as (m' & r & E & X); try assumption.
  - intros ->. destruct i; discriminate.
  - rewrite Forall_forall in *. intros w Iw. split; auto.
  - exists (map vbytes vs), m', r. split; [|split; [exact E|exact X]]. clear -Sd F Tt T. induction F as [|rk w ranks vs (V & O) F IH]; [constructor|]. inversion_clear Tt. cbn [map]. constructor; [|auto].
    apply Sd; try assumption. rewrite <- (vbytes_length _ _ _ V). lia.
Qed.
