(** Writing a schema as JSON and reading it back. *)
From Coq Require Import Lia NArith Nnat.
From Verif Require Import Base DType Codec SpecTree Schema SchemaInv SchemaMore SchemaLaws Json JsonSpec JsonFacts JsonRead.
Local Open Scope list_scope.

(** * Specification *)

(** What is written for a leaf: its dtype, with the machine's byte order [m] for
    "default". *)
Definition recorded (m : endian) (d : dtype) : dtype :=
  mkDT (dt_id d) (dt_n d) (dt_off d) (dt_stride d) (dt_ebytes d)
       (match dt_endian d with DEFAULT_E => m | e => e end).
(** The same tree (same names, same order), with the leaves related by R. *)
Inductive same_tree {A} (R : A -> A -> Prop) : tree A -> tree A -> Prop :=
| ss_leaf a b : R a b -> same_tree R (TLeaf a) (TLeaf b)
| ss_obj es es' :
    Forall2 (fun e e' => fst e = fst e' /\ same_tree R (snd e) (snd e')) es es' ->
    same_tree R (TObj es) (TObj es')
| ss_list l l' : Forall2 (same_tree R) l l' -> same_tree R (TList l) (TList l').
(** Reading back a leaf gives what was recorded; an empty leaf stays empty. *)
Definition read_back (m : endian) (d d' : dtype) : Prop :=
  if tid_eqb (dt_id d) EMPTY then dt_id d' = EMPTY else d' = recorded m d.
(** Names that can be written between quotes as they are; "dtype" marks leaves. *)
Definition json_name (k : str) : Prop :=
  k <> L "dtype" /\
  Forall (fun c => c <> quote /\ c <> backslash /\ (32 <= N_of_ascii c)%N) k.
Definition int64_nat (z : Z) : Prop := (0 <= z < 2 ^ 63)%Z.
Definition json_leaf (d : dtype) : Prop :=
  dt_id d = EMPTY \/
  (int64_nat (dt_n d) /\ int64_nat (dt_off d) /\ int64_nat (dt_stride d) /\ int64_nat (dt_ebytes d)).
Definition json_able (t : tree dtype) : Prop :=
  all_names json_name t /\ Forall json_leaf (tleaves t).

(** * Decimal numbers *)

Lemma digit_of (n : N) : (n < 10)%N -> digit (ascii_of_N (48 + n)).
Proof.
  intros H. assert (n = 0 \/ n = 1 \/ n = 2 \/ n = 3 \/ n = 4 \/ n = 5 \/ n = 6 \/ n = 7 \/
                    n = 8 \/ n = 9)%N as X by lia.
  repeat (destruct X as [-> |X]; [apply in_L; reflexivity|]). subst; apply in_L; reflexivity.
Qed.
Lemma digit_code (n : N) : (n < 10)%N -> N_of_ascii (ascii_of_N (48 + n)) = (48 + n)%N.
Proof. intros H; apply N_ascii_embedding; lia. Qed.

Lemma digits_spec f : forall n acc,
  (n < 2 ^ N.of_nat f)%N -> (1 <= f)%nat ->
  exists ds, digits_f f n acc = ds ++ acc /\ digits ds /\
    (ds = L "0" \/ hd "0"%char ds <> "0"%char) /\
    ((0 < n)%N -> hd "0"%char ds <> "0"%char) /\
    (forall a t, dec_value (ds ++ t) a =
       dec_value t (a * 10 ^ Z.of_nat (List.length ds) + Z.of_N n)%Z).
Proof.
  induction f as [|f IH]; intros n acc Hn Hf; [lia|].
  cbn [digits_f]. destruct (N.ltb n 10) eqn:E.
  - apply N.ltb_lt in E. rewrite N.mod_small by exact E.
    exists [ascii_of_N (48 + n)]. split; [reflexivity|].
    split; [split; [discriminate|constructor; [apply digit_of, E|constructor]]|].
    assert (Hd : (0 < n)%N -> ascii_of_N (48 + n) <> "0"%char).
    { intros P Q. apply (f_equal N_of_ascii) in Q. rewrite digit_code in Q by exact E.
      change (N_of_ascii "0") with 48%N in Q. lia. }
    split; [|split; [exact Hd|]].
    + destruct (N.eq_dec n 0) as [-> |Z0]; [left; reflexivity|right; apply Hd; lia].
    + intros a t. cbn [app dec_value List.length].
      rewrite (digit_num _ (digit_of n E)), (digit_code n E). f_equal. lia.
  - apply N.ltb_ge in E.
    assert (Hq : (n / 10 < 2 ^ N.of_nat f)%N).
    { apply N.div_lt_upper_bound; [lia|]. rewrite Nat2N.inj_succ, N.pow_succ_r' in Hn. lia. }
    assert (1 <= f)%nat.
    { destruct f; [|lia]. cbn in Hn. lia. }
    assert (Hp : (0 < n / 10)%N) by (apply N.div_str_pos; lia).
    destruct (IH (n / 10)%N (ascii_of_N (48 + n mod 10) :: acc) Hq ltac:(assumption))
      as (ds & Q & (D1 & D2) & _ & N0 & V).
    assert (M : (n mod 10 < 10)%N) by (apply N.mod_lt; lia).
    exists (ds ++ [ascii_of_N (48 + n mod 10)]). rewrite Q, <- app_assoc.
    split; [reflexivity|].
    split; [split; [destruct ds; discriminate|apply Forall_app; split;
      [exact D2|constructor; [apply digit_of, M|constructor]]]|].
    assert (H0 : hd "0"%char (ds ++ [ascii_of_N (48 + n mod 10)]) <> "0"%char).
    { destruct ds; [congruence|]. cbn. apply N0, Hp. }
    split; [right; exact H0|]. split; [intros _; exact H0|].
    intros a t. rewrite <- app_assoc, V. cbn [app dec_value].
    rewrite (digit_num _ (digit_of _ M)), (digit_code _ M), app_length.
    cbn [List.length]. f_equal.
    replace (Z.of_nat (List.length ds + 1)) with (Z.succ (Z.of_nat (List.length ds))) by lia.
    rewrite Z.pow_succ_r by lia.
    pose proof (N.div_mod n 10 ltac:(lia)). lia.
Qed.

Lemma show_N_spec n : digits (show_N n) /\
  (show_N n = L "0" \/ hd "0"%char (show_N n) <> "0"%char) /\
  dec_value (show_N n) 0 = Some (Z.of_N n).
Proof.
  unfold show_N.
  destruct (digits_spec (S (N.size_nat n)) n [] ) as (ds & Q & D & H & _ & V).
  - rewrite Nat2N.inj_succ, N.pow_succ_r'.
    assert (n < 2 ^ N.of_nat (N.size_nat n))%N; [|lia].
    replace (N.of_nat (N.size_nat n)) with (N.size n); [apply N.size_gt|].
    destruct n as [|p]; [reflexivity|]. cbn. clear.
    assert (H : forall p, Pos.size_nat p = Pos.to_nat (Pos.size p)).
    { induction p0; cbn; rewrite ?IHp0, ?Pos2Nat.inj_succ; reflexivity. }
    rewrite H. symmetry. apply positive_nat_N.
  - lia.
  - rewrite app_nil_r in Q. rewrite Q. split; [exact D|]. split; [exact H|].
    specialize (V 0%Z []). rewrite app_nil_r in V. rewrite V. cbn [dec_value].
    f_equal; lia.
Qed.

Lemma show_Z_number z : (0 <= z)%Z -> number (show_Z z).
Proof.
  intros H. unfold show_Z. destruct (Z.ltb_spec z 0); [lia|].
  destruct (show_N_spec (Z.to_N z)) as (D & Z0 & _).
  exists [], (show_N (Z.to_N z)), [], []. rewrite !app_nil_r. cbn [app].
  repeat split; auto; try apply D.
Qed.
Lemma show_Z_value z : int64_nat z ->
  get_uint64 (show_Z z) = Ok z /\ to_index z = z.
Proof.
  intros [H H']. unfold show_Z, get_uint64, to_index. destruct (Z.ltb_spec z 0); [lia|].
  destruct (show_N_spec (Z.to_N z)) as ((D & _) & _ & V).
  destruct (show_N (Z.to_N z)) eqn:E; [congruence|]. rewrite <- E in *. rewrite V.
  rewrite Z2N.id by lia. split.
  - destruct (Z.ltb_spec z (2 ^ 64)); [reflexivity|]. lia.
  - destruct (Z.ltb_spec z (2 ^ 63)); [reflexivity|lia].
Qed.

(** * The value a schema is written as *)

Definition leaf_members (m : endian) (d : dtype) : list (str * jval) :=
  (L "dtype", JStr (id_to_name (dt_id d))) ::
  (if is_container_id (dt_id d) then []
   else [(L "number_of_elements", JNum (show_Z (dt_n d)));
         (L "offset", JNum (show_Z (dt_off d)));
         (L "stride", JNum (show_Z (dt_stride d)));
         (L "element_bytes", JNum (show_Z (dt_ebytes d)));
         (L "endianness", JStr (endian_id_to_name (dt_endian (recorded m d))))]).
Fixpoint schema_val (m : endian) (s : schema) : jval :=
  match s with
  | SLeaf d => JObj (leaf_members m d)
  | SObj _ o ks => JObj (combine o (map (schema_val m) ks))
  | SLst ks => JArr (map (schema_val m) ks)
  end.

Lemma plain_literal k :
  Forall (fun c => c <> quote /\ c <> backslash /\ (32 <= N_of_ascii c)%N) k ->
  denotes (quoted k) k.
Proof.
  intros F. exists k. split; [reflexivity|]. split.
  - induction F as [|c k (A & B & C) F IH]; constructor; auto.
  - assert (H : forall d, d <> backslash -> last k d <> backslash); [|apply H; discriminate].
    induction F as [|c k (A & B & C) F IH]; intros d D; [exact D|]. rewrite last_cons.
    apply IH, B.
Qed.
Lemma plain_check k :
  forallb (fun c => negb (Ascii.eqb c quote) && negb (Ascii.eqb c backslash) &&
                    N.leb 32 (N_of_ascii c))%bool k = true ->
  denotes (quoted k) k.
Proof.
  intros H. apply plain_literal. apply Forall_forall. intros c I.
  apply forallb_forall with (x := c) in H; [|exact I].
  repeat rewrite Bool.andb_true_iff in H. destruct H as ((A & B) & C).
  apply Bool.negb_true_iff in A, B. apply Ascii.eqb_neq in A, B. apply N.leb_le in C. auto.
Qed.

Lemma blank_of w lo : Forall white w -> blank_text lo w w.
Proof. induction 1; constructor; assumption. Qed.
Lemma after_of w lo : Forall white w -> blank_after lo w w.
Proof.
  intros [|c r C F]; [left; auto|]. right. exists c, r, r. repeat split; auto. apply blank_of, F.
Qed.
Lemma white_indent i n pad : Forall white pad -> Forall white (indent i n pad).
Proof.
  intros F. unfold indent. induction (n * i)%nat as [|x IH]; cbn; [constructor|].
  apply Forall_app; split; assumption.
Qed.

Lemma dt_json_text m d : json_leaf d ->
  value_text false (JObj (leaf_members m d)) (dt_json m d) (dt_json m d).
Proof.
  intros J.
  assert (N1 : denotes (quoted (id_to_name (dt_id d))) (id_to_name (dt_id d)))
    by (apply plain_check; destruct (dt_id d); reflexivity).
  assert (B0 : blank_text false [] []) by constructor.
  assert (A0 : blank_after false [] []) by (left; auto).
  assert (B1 : blank_text false (L " ") (L " ")) by (apply blank_of; repeat constructor).
  unfold dt_json, leaf_members. destruct (is_container_id (dt_id d)) eqn:C.
  - pose proof (vt_obj false _ _ _
      (me_last false (L "dtype") (JStr (id_to_name (dt_id d))) [] [] (quoted (L "dtype")) _ [] [] [] []
         (quoted (id_to_name (dt_id d))) _ [] [] B0
         (nm_literal false _ _ (plain_check (L "dtype") eq_refl)) A0 B0 (vt_str false _ _ _ (nm_literal false _ _ N1)) A0)) as X.
    rewrite app_nil_r in X. exact X.
  - destruct J as [J|(J1 & J2 & J3 & J4)]; [rewrite J in C; discriminate|].
    set (e := endian_id_to_name (dt_endian (recorded m d))).
    assert (Ne : denotes (quoted e) e)
      by (apply plain_check; unfold e, recorded; cbn; destruct (dt_endian d), m; reflexivity).
    assert (T5 : members_text false [(L "endianness", JStr e)]
                 (quoted (L "endianness") ++ L ": " ++ quoted e)
                 (quoted (L "endianness") ++ L ": " ++ quoted e)).
    { pose proof (me_last false (L "endianness") (JStr e) [] [] (quoted (L "endianness")) _ [] [] (L " ") (L " ")
         (quoted e) _ [] [] B0 (nm_literal false _ _ (plain_check (L "endianness") eq_refl)) A0 B1
         (vt_str false _ _ _ (nm_literal false _ _ Ne)) A0) as X.
      rewrite !app_nil_r in X. exact X. }
    assert (Num : forall k z l t, denotes (quoted k) k -> (0 <= z)%Z -> members_text false l t t ->
       members_text false ((k, JNum (show_Z z)) :: l)
         (quoted k ++ L ": " ++ show_Z z ++ ","%char :: t)
         (quoted k ++ L ": " ++ show_Z z ++ ","%char :: t)).
    { intros k z l t K Z0 T.
      exact (me_cons false k (JNum (show_Z z)) l [] [] (quoted k) _ [] [] (L " ") (L " ")
               (show_Z z) _ [] [] t t B0 (nm_literal false _ _ K) A0 B1
               (vt_num false _ (show_Z_number z Z0)) A0 T). }
    assert (P : forall k, forallb (fun c => negb (Ascii.eqb c quote) && negb (Ascii.eqb c backslash) &&
                    N.leb 32 (N_of_ascii c))%bool k = true -> denotes (quoted k) k) by apply plain_check.
    pose proof (Num (L "element_bytes") _ _ _ (P (L "element_bytes") eq_refl) (proj1 J4) T5) as T4.
    pose proof (Num (L "stride") _ _ _ (P (L "stride") eq_refl) (proj1 J3) T4) as T3.
    pose proof (Num (L "offset") _ _ _ (P (L "offset") eq_refl) (proj1 J2) T3) as T2.
    pose proof (Num (L "number_of_elements") _ _ _ (P (L "number_of_elements") eq_refl) (proj1 J1) T2) as T1.
    pose proof (vt_obj false _ _ _
      (me_cons false (L "dtype") (JStr (id_to_name (dt_id d))) _ [] [] (quoted (L "dtype")) _ [] [] [] []
         (quoted (id_to_name (dt_id d))) _ [] [] _ _ B0
         (nm_literal false _ _ (P (L "dtype") eq_refl)) A0 B0 (vt_str false _ _ _ (nm_literal false _ _ N1)) A0 T1)) as X.
    cbn [app] in X. clear - X.
    match type of X with value_text _ _ ?a _ => match goal with |- value_text _ _ ?b _ =>
      replace b with a; [exact X|] end end.
    unfold e, recorded; cbn [dt_endian].
    cbn [app]. f_equal. repeat (cbn [app]; rewrite <- app_assoc). cbn [app].
    reflexivity.
Qed.

(** Text of a value with white space before it. *)
Definition spaced (v : jval) (t : str) : Prop :=
  exists a x, Forall white a /\ t = a ++ x /\ value_text false v x x.
Lemma spaced_more w v t : Forall white w -> spaced v t -> spaced v (w ++ t).
Proof.
  intros W (a & x & A & -> & V). exists (w ++ a), x. rewrite app_assoc.
  repeat split; auto. apply Forall_app; auto.
Qed.

Lemma items_of eoe tail : Forall white eoe -> Forall white tail ->
  forall ts vs, Forall2 spaced vs ts -> forall w, Forall white w -> ts <> [] ->
  items_text false vs (w ++ sj_items eoe ts ++ tail) (w ++ sj_items eoe ts ++ tail).
Proof.
  intros We Wt ts vs F; induction F as [|v t vs ts (a & x & A & -> & V) F IH]; intros w W N; [congruence|].
  assert (WA : blank_text false (w ++ a) (w ++ a)) by (apply blank_of, Forall_app; auto).
  destruct ts as [|t2 ts].
  - inversion F; subst. cbn [sj_items].
    pose proof (it_last false v (w ++ a) _ x x (eoe ++ tail) _ WA V
                  (after_of (eoe ++ tail) false ltac:(apply Forall_app; auto))) as X.
    repeat rewrite <- app_assoc in *. exact X.
  - pose proof (IH eoe We ltac:(discriminate)) as R.
    pose proof (it_cons false v vs (w ++ a) _ x x [] [] _ _ WA V ltac:(left; auto) R) as X.
    change (sj_items eoe ((a ++ x) :: t2 :: ts)) with ((a ++ x) ++ ","%char :: eoe ++ sj_items eoe (t2 :: ts)).
    repeat (rewrite <- app_assoc in *; cbn [app] in *). exact X.
Qed.
Lemma members_of eoe tail pre : Forall white eoe -> Forall white tail -> Forall white pre ->
  forall ts vs, Forall2 spaced vs ts -> forall names w, Forall white w -> ts <> [] ->
  List.length names = List.length ts -> Forall (fun k => denotes (quoted k) k) names ->
  members_text false (combine names vs) (w ++ sj_items eoe (zip_names names ts pre) ++ tail)
                     (w ++ sj_items eoe (zip_names names ts pre) ++ tail).
Proof.
  intros We Wt Wp ts vs F; induction F as [|v t vs ts (a & x & A & -> & V) F IH];
    intros names w W N L0 K; [congruence|].
  destruct names as [|k names]; [discriminate|]. inversion_clear K as [|? ? K1 K2].
  assert (WP : blank_text false (w ++ pre) (w ++ pre)) by (apply blank_of, Forall_app; auto).
  assert (WS : blank_text false (" "%char :: a) (" "%char :: a))
    by (apply blank_of; constructor; [left; reflexivity|exact A]).
  destruct ts as [|t2 ts].
  - inversion F; subst. destruct names; [|discriminate].
    cbn [zip_names sj_items combine hd tl].
    pose proof (me_last false k v (w ++ pre) _ (quoted k) _ [] [] (" "%char :: a) _ x x (eoe ++ tail) _ WP
                  (nm_literal false _ _ K1) ltac:(left; auto) WS V
                  (after_of (eoe ++ tail) false ltac:(apply Forall_app; auto))) as X.
    change (L ": ") with (":"%char :: " "%char :: []).
    repeat (rewrite <- app_assoc in *; cbn [app] in *). exact X.
  - pose proof (IH names eoe We ltac:(discriminate) ltac:(cbn in *; lia) K2) as R.
    pose proof (me_cons false k v (combine names vs) (w ++ pre) _ (quoted k) _ [] [] (" "%char :: a) _ x x
                  [] [] _ _ WP (nm_literal false _ _ K1) ltac:(left; auto) WS V ltac:(left; auto) R) as X.
    change (sj_items eoe (zip_names (k :: names) ((a ++ x) :: t2 :: ts) pre))
      with ((pre ++ quoted k ++ L ": " ++ a ++ x) ++ ","%char :: eoe ++ sj_items eoe (zip_names names (t2 :: ts) pre)).
    cbn [combine]. change (L ": ") with (":"%char :: " "%char :: []).
    repeat (rewrite <- app_assoc in *; cbn [app] in *). exact X.
Qed.

Lemma json_able_list ks : json_able (TList (map abs ks)) -> Forall (fun k => json_able (abs k)) ks.
Proof.
  intros [N F]. apply Forall_forall. intros k I. split.
  - inversion N as [|?|? X]; subst. rewrite Forall_forall in X. apply X, in_map, I.
  - rewrite Forall_forall in *. intros d D. apply F. cbn [tleaves]. apply in_flat_map.
    exists (abs k). split; [apply in_map, I|exact D].
Qed.
Lemma in_combine_snd {A B} (o : list A) (l : list B) x :
  List.length o = List.length l -> In x l -> exists k, In (k, x) (combine o l).
Proof.
  revert l; induction o as [|k o IH]; intros [|y l] E I; try discriminate; [destruct I|].
  destruct I as [-> |I]; [exists k; left; reflexivity|].
  destruct (IH l ltac:(cbn in E; lia) I) as (k' & I'). exists k'. right; exact I'.
Qed.
Lemma json_able_obj o ks : List.length o = List.length ks ->
  json_able (TObj (combine o (map abs ks))) ->
  Forall (fun k => json_able (abs k)) ks /\ Forall json_name o.
Proof.
  intros E [N F]. inversion N as [|? X|]; subst. rewrite Forall_forall in X. split.
  - apply Forall_forall. intros k I.
    destruct (in_combine_snd o (map abs ks) (abs k) ltac:(rewrite map_length; exact E)
                (in_map abs ks k I)) as (n & In').
    split; [apply (X _ In')|]. rewrite Forall_forall in *. intros d D. apply F. cbn [tleaves].
    apply in_flat_map. exists (n, abs k). auto.
  - apply Forall_forall. intros n I.
    assert (exists t, In (n, t) (combine o (map abs ks))) as (t & It).
    { assert (E' : List.length o = List.length (map abs ks)) by (rewrite map_length; exact E).
      clear - I E'. revert I E'. generalize (map abs ks). induction o as [|x o IH]; intros [|y l] I E'; try discriminate; [destruct I|].
      destruct I as [-> |I]; [exists y; left; reflexivity|].
      destruct (IH l I ltac:(cbn in E'; lia)) as (t & T). exists t; right; exact T. }
    apply (X _ It).
Qed.

Lemma schema_json_text m ind pad eoe : Forall white pad -> Forall white eoe ->
  forall s, wf s -> json_able (abs s) -> forall depth,
  spaced (schema_val m s) (schema_json m ind pad eoe s depth).
Proof.
  intros Wp We. induction s as [d|mp o ks IH|ks IH] using schema_ind'; intros W J depth.
  - destruct J as [_ J]. inversion_clear J. exists [], (dt_json m d).
    split; [constructor|]. split; [reflexivity|]. apply dt_json_text; assumption.
  - inversion W as [|? ? ? O Wk|]; subst. destruct O as (_ & Lo & _).
    destruct (json_able_obj o ks Lo J) as [Jk Jn]. cbn [schema_json schema_val].
    exists (eoe ++ indent ind depth pad).
    eexists. split; [apply Forall_app; split; [exact We|apply white_indent, Wp]|].
    split; [rewrite <- app_assoc; reflexivity|].
    destruct ks as [|k0 ks].
    + destruct o; [|discriminate]. cbn [map zip_names sj_items combine app].
      rewrite app_assoc.
      apply vt_obj0, blank_of, Forall_app; split; [exact We|apply white_indent, Wp].
    + repeat rewrite app_assoc. rewrite <- (app_assoc eoe). apply vt_obj.
      apply members_of; auto using white_indent; try discriminate.
      * clear - IH Wk Jk. generalize dependent (k0 :: ks). intros l IH Wk Jk.
        induction l as [|k l IHl]; [constructor|]. inversion_clear IH. inversion_clear Wk. inversion_clear Jk.
        cbn [map]. constructor; auto.
      * rewrite map_length. exact Lo.
      * eapply Forall_impl; [|exact Jn]. intros k [_ K]. apply plain_literal, K.
  - inversion W as [| |? Wk]; subst. pose proof (json_able_list ks J) as Jk.
    cbn [schema_json schema_val]. exists (eoe ++ indent ind depth pad).
    eexists. split; [apply Forall_app; split; [exact We|apply white_indent, Wp]|].
    split; [rewrite <- app_assoc; reflexivity|].
    destruct ks as [|k0 ks].
    + cbn [map sj_items app]. rewrite app_assoc.
      apply vt_arr0, blank_of, Forall_app; split; [exact We|apply white_indent, Wp].
    + repeat rewrite app_assoc. rewrite <- (app_assoc eoe). apply vt_arr.
      apply items_of; auto using white_indent; try discriminate.
      clear - IH Wk Jk Wp. generalize dependent (k0 :: ks). intros l IH Wk Jk.
      induction l as [|k l IHl]; [constructor|]. inversion_clear IH. inversion_clear Wk. inversion_clear Jk.
      cbn [map]. constructor; auto. apply spaced_more; auto using white_indent.
Qed.

Lemma schema_doc m ind pad eoe s depth : Forall white pad -> Forall white eoe ->
  wf s -> json_able (abs s) ->
  strict_json (schema_val m s) (schema_json m ind pad eoe s depth).
Proof.
  intros Wp We W J. destruct (schema_json_text m ind pad eoe Wp We s W J depth) as (a & x & A & E & V).
  exists a, a, x, x, [], []. rewrite app_nil_r. split; [apply blank_of, A|].
  split; [exact V|]. split; [left; auto|]. auto.
Qed.

(** * Reading it back *)

Lemma leaf_back m d off : m <> DEFAULT_E -> is_container (dt_id d) = false -> json_leaf d ->
  exists d', parse_leaf_dtype (JObj (leaf_members m d)) off = Ok d' /\ read_back m d d' /\
             dt_id d' = dt_id d /\ (dt_id d = EMPTY -> d' = mkDT EMPTY 1 off 0 0 DEFAULT_E).
Proof.
  intros M C J. unfold read_back.
  destruct (is_container_id (dt_id d)) eqn:K.
  - assert (E : dt_id d = EMPTY) by (destruct (dt_id d); try discriminate; reflexivity).
    rewrite E, tid_eqb_refl. eexists. split; [|split; [|split]].
    + unfold leaf_members. rewrite E. cbn. reflexivity.
    + reflexivity.
    + reflexivity.
    + reflexivity.
  - destruct J as [J|(J1 & J2 & J3 & J4)]; [rewrite J in K; discriminate|].
    destruct (show_Z_value _ J1) as [V1 I1]. destruct (show_Z_value _ J2) as [V2 I2].
    destruct (show_Z_value _ J3) as [V3 I3]. destruct (show_Z_value _ J4) as [V4 I4].
    exists (recorded m d). split; [|split; [|split]].
    + unfold leaf_members. rewrite K.
      set (e := endian_id_to_name (dt_endian (recorded m d))).
      assert (Ee : (if str_eqb e (L "big") then Ok BIG_E
                    else if str_eqb e (L "little") then Ok LITTLE_E else Err)
                   = Ok (dt_endian (recorded m d))).
      { unfold e. cbn [recorded dt_endian]. destruct (dt_endian d), m; try congruence; reflexivity. }
      assert (Et : parse_leaf_dtype_name (id_to_name (dt_id d)) = Ok (dt_id d))
        by (destruct (dt_id d); try discriminate; reflexivity).
      clearbody e.
      unfold parse_leaf_dtype, num_member, member.
      cbn -[get_uint64 to_index show_Z str_eqb parse_leaf_dtype_name default_bytes recorded Z.eqb id_to_name].
      repeat match goal with |- context [str_eqb ?a ?b] =>
        let r := eval vm_compute in (str_eqb a b) in
        match r with true => change (str_eqb a b) with true
                   | false => change (str_eqb a b) with false end end.
      cbv iota. rewrite V1. cbn [obind]. rewrite Et. cbn [obind]. rewrite V2. cbn [obind].
      rewrite V3. cbn [obind]. rewrite V4. cbn [obind].
      cbn in Ee. rewrite Ee. cbn [obind].
      rewrite I1, I2, I3, I4.
      destruct (Z.eqb (dt_n d) 0); reflexivity.
    + destruct (tid_eqb (dt_id d) EMPTY) eqn:E; [|reflexivity].
      apply tid_eqb_eq in E. rewrite E in K. discriminate.
    + reflexivity.
    + intros E. rewrite E in K. discriminate.
Qed.

Lemma set_nth_last {A} (l : list A) x y : set_nth (l ++ [x]) (List.length l) y = l ++ [y].
Proof. induction l as [|a l IH]; cbn; [reflexivity|]. f_equal. exact IH. Qed.

(** Children read one after the other, each at the offset the previous ones left. *)
Inductive chain (Q : Z -> schema -> schema -> Prop) : Z -> list schema -> list schema -> Prop :=
| chain_nil off : chain Q off [] []
| chain_cons off k c ks cs :
    Q off k c -> chain Q (off + total_strided_bytes c)%Z ks cs -> chain Q off (k :: ks) (c :: cs).
Section Walk.
  Variable m : endian.
  Variable Q : Z -> schema -> schema -> Prop.
  Definition backs (w : jval -> Z -> outcome schema) (s : schema) : Prop :=
    forall off, exists s', w (schema_val m s) off = Ok s' /\ Q off s s'.
  Lemma items_back w ks : Forall (backs w) ks -> forall ks0 off, exists cs,
    wj_items w (map (schema_val m) ks) (SLst ks0) off = Ok (SLst (ks0 ++ cs)) /\
    chain Q off ks cs.
  Proof.
    induction 1 as [|k ks K F IH]; intros ks0 off.
    - exists []. cbn. rewrite app_nil_r. split; [reflexivity|constructor].
    - cbn [map wj_items s_append init_list].
      destruct (K off) as (c & E & S). rewrite E. cbn [obind].
      rewrite app_length. cbn [List.length].
      replace (List.length ks0 + 1 - 1)%nat with (List.length ks0) by lia.
      rewrite set_nth_last.
      destruct (IH (ks0 ++ [c]) (off + total_strided_bytes c)%Z) as (cs & E2 & S2).
      rewrite E2. exists (c :: cs). rewrite <- app_assoc. split; [reflexivity|constructor; assumption].
  Qed.
  Lemma members_back w : forall ks names, Forall (backs w) ks -> List.length names = List.length ks ->
    forall mp o ks0 off, obj_ok mp o (List.length ks0) -> NoDup (o ++ names) ->
    exists mp' cs,
      wj_members w (combine names (map (schema_val m) ks)) (SObj mp o ks0) off
      = Ok (SObj mp' (o ++ names) (ks0 ++ cs)) /\
      obj_ok mp' (o ++ names) (List.length (ks0 ++ cs)) /\
      chain Q off ks cs.
  Proof.
    induction ks as [|k ks IH]; intros [|n names] F E mp o ks0 off O N; try discriminate.
    - exists mp, []. cbn. rewrite !app_nil_r. split; [reflexivity|]. split; [exact O|constructor].
    - inversion_clear F as [|? ? K F'].
      assert (Nn : mget mp n = None).
      { pose proof (obj_ok_index mp o _ n O) as X. destruct (mget mp n); [|reflexivity].
        destruct X as [X _]. apply NoDup_remove_2 in N. exfalso. apply N, in_or_app; left; exact X. }
      cbn [map combine wj_members]. unfold add_child, has_child. rewrite Nn.
      cbn [init_object]. unfold push_named, child_index.
      rewrite mget_mset, str_eqb_refl. cbn [obind s_kids].
      rewrite znth_of_nat, nth_error_app2, Nat.sub_diag by lia. cbn [nth_error deref obind].
      destruct (K off) as (c & Ec & Sc). rewrite Ec. cbn [obind set_kids].
      rewrite Nat2Z.id, set_nth_last.
      assert (O' : obj_ok (mset mp n (Z.of_nat (List.length ks0))) (o ++ [n]) (List.length (ks0 ++ [c]))).
      { rewrite app_length, Nat.add_comm. apply obj_ok_push; assumption. }
      assert (N' : NoDup ((o ++ [n]) ++ names)) by (rewrite <- app_assoc; exact N).
      destruct (IH names F' ltac:(cbn in E; lia) _ _ (ks0 ++ [c]) (off + total_strided_bytes c)%Z O' N')
        as (mp' & cs & E2 & O2 & S2).
      exists mp', (c :: cs). rewrite E2.
      rewrite <- !app_assoc in *. cbn [app] in *. split; [reflexivity|].
      split; [exact O2|constructor; assumption].
  Qed.
End Walk.

(** The offset an empty leaf is given lies between those of its neighbours. *)
Definition tight (t : tree dtype) : Prop :=
  Forall (fun d => dt_id d = EMPTY \/ (0 <= strided_bytes d)%Z) (tleaves t).
Definition empties_in (lo hi : Z) (t : tree dtype) : Prop :=
  Forall (fun d => dt_id d = EMPTY -> lo <= spanned_bytes d <= hi)%Z (tleaves t).
Definition back_at (m : endian) (off : Z) (s s' : schema) : Prop :=
  wf s' /\ same_tree (read_back m) (abs s) (abs s') /\
  (tight (abs s) -> (0 <= total_strided_bytes s' /\
                     empties_in off (off + total_strided_bytes s') (abs s'))%Z).
Lemma empties_weaken lo hi lo' hi' t :
  (lo' <= lo)%Z -> (hi <= hi')%Z -> empties_in lo hi t -> empties_in lo' hi' t.
Proof. intros A B F. eapply Forall_impl; [|exact F]. intros d H E. specialize (H E). lia. Qed.
Lemma chain_back m off ks cs : chain (back_at m) off ks cs ->
  Forall wf cs /\ Forall2 (same_tree (read_back m)) (map abs ks) (map abs cs) /\
  (Forall tight (map abs ks) ->
     (0 <= zsum (map total_strided_bytes cs))%Z /\
     Forall (empties_in off (off + zsum (map total_strided_bytes cs))%Z) (map abs cs)).
Proof.
  induction 1 as [off|off k c ks cs (W & S & T) C (IW & IS & IT)]; cbn [map zsum].
  - split; [constructor|]. split; [constructor|]. intros _. split; [lia|constructor].
  - split; [constructor; assumption|]. split; [constructor; assumption|].
    intros F. inversion_clear F as [|? ? F1 F2]. destruct (T F1) as [T1 T2]. destruct (IT F2) as [I1 I2].
    split; [lia|]. constructor.
    + eapply empties_weaken; [| |exact T2]; lia.
    + eapply Forall_impl; [|exact I2]. intros t. apply empties_weaken; lia.
Qed.
Lemma chain_length Q off ks cs : chain Q off ks cs -> List.length ks = List.length cs.
Proof. induction 1; cbn; congruence. Qed.

Lemma tleaves_combine (o : list str) (l : list (tree dtype)) : List.length o = List.length l ->
  tleaves (TObj (combine o l)) = flat_map tleaves l.
Proof.
  cbn [tleaves]. revert l; induction o as [|k o IH]; intros [|t l] E; try discriminate; [reflexivity|].
  cbn [combine flat_map snd]. rewrite IH by (cbn in E; lia). reflexivity.
Qed.
Lemma Forall_flat {A B} (P : B -> Prop) (f : A -> list B) l :
  Forall P (flat_map f l) <-> Forall (fun x => Forall P (f x)) l.
Proof.
  induction l as [|x l IH]; cbn [flat_map]; [split; constructor|].
  rewrite Forall_app, IH. split; intros H; [constructor; tauto|inversion_clear H; auto].
Qed.

Lemma mget_combine_notin {V} (names : list str) (l : list V) k : ~ In k names -> mget (combine names l) k = None.
Proof.
  revert l; induction names as [|n names IH]; intros [|v l] N; try reflexivity.
  cbn. destruct (str_eqb_spec k n) as [-> |_]; [exfalso; apply N; left; reflexivity|].
  apply IH. intros I; apply N; right; exact I.
Qed.

Lemma same_tree_combine {A} (R : A -> A -> Prop) (names : list str) l l' :
  Forall2 (same_tree R) l l' ->
  Forall2 (fun e e' => fst e = fst e' /\ same_tree R (snd e) (snd e'))
          (combine names l) (combine names l').
Proof.
  intros F; revert names; induction F; intros [|n names]; cbn; constructor; auto.
Qed.

Lemma depth_le {A} (f : A -> nat) l x : In x l -> (f x <= fold_right Nat.max O (map f l))%nat.
Proof.
  induction l as [|y l IH]; intros []; cbn; [subst; lia|]. specialize (IH H). lia.
Qed.
Lemma depth_le_combine (o : list str) l x : List.length o = List.length l -> In x l ->
  (jdepth x <= fold_right Nat.max O (map (fun e => jdepth (snd e)) (combine o l)))%nat.
Proof.
  intros E I. destruct (in_combine_snd o l x E I) as (k & K).
  exact (depth_le (fun e : str * jval => jdepth (snd e)) _ (k, x) K).
Qed.

Lemma walk_back m : m <> DEFAULT_E -> forall s, wf s -> json_able (abs s) -> forall f cur off,
  (jdepth (schema_val m s) < f)%nat ->
  exists s', walk_schema_f f cur (schema_val m s) off = Ok s' /\ back_at m off s s'.
Proof.
  intros M. induction s as [d|mp o ks IH|ks IH] using schema_ind'; intros W J f cur off D;
    (destruct f as [|f]; [lia|]).
  - inversion_clear W. destruct J as [_ J]. inversion_clear J.
    destruct (leaf_back m d off M ltac:(assumption) ltac:(assumption)) as (d' & E & R & I & Em).
    exists (SLeaf d'). cbn [schema_val walk_schema_f].
    change (member (leaf_members m d) (L "dtype")) with (Some (JStr (id_to_name (dt_id d)))).
    cbv iota. rewrite E. cbn [obind].
    assert (C' : is_container (dt_id d') = false) by (rewrite I; assumption).
    split; [unfold s_set_dtype; destruct (dt_id d'); try discriminate; reflexivity|].
    split; [constructor; exact C'|]. split; [constructor; exact R|].
    intros T. inversion_clear T as [|? ? T0 _]. cbn [total_strided_bytes abs].
    rewrite I. destruct (tid_eqb (dt_id d) EMPTY) eqn:Ed.
    + apply tid_eqb_eq in Ed. split; [lia|]. constructor; [|constructor]. intros _.
      rewrite (Em Ed). unfold spanned_bytes; cbn. lia.
    + unfold read_back in R. rewrite Ed in R. subst d'.
      split; [|constructor; [|constructor]].
      * destruct T0 as [T0|T0]; [rewrite T0 in Ed; discriminate|exact T0].
      * intros X. change (dt_id (recorded m d)) with (dt_id d) in X. rewrite X in Ed. discriminate.
  - inversion W as [|? ? ? O Wk|]; subst. pose proof O as (_ & Lo & Nd & _).
    destruct (json_able_obj o ks Lo J) as [Jk Jn]. cbn [schema_val walk_schema_f].
    assert (Nt : ~ In (L "dtype") o).
    { intros I. rewrite Forall_forall in Jn. apply (Jn _ I). reflexivity. }
    unfold member. rewrite mget_combine_notin by exact Nt.
    cbn [schema_val jdepth] in D.
    assert (B : Forall (backs m (back_at m) (walk_schema_f f (SObj [] [] []))) ks).
    { rewrite Forall_forall in *. intros k I off'. apply IH; auto.
      pose proof (depth_le_combine o (map (schema_val m) ks) (schema_val m k)
                    ltac:(rewrite map_length; exact Lo) (in_map _ _ _ I)). lia. }
    destruct (members_back m _ _ ks o B Lo [] [] [] off obj_ok_nil Nd) as (mp' & cs & E & O' & C).
    destruct (chain_back _ _ _ _ C) as (Wc & Sc & Tc). pose proof (chain_length _ _ _ _ C) as Lc.
    exists (SObj mp' o cs). split; [exact E|]. split; [constructor; assumption|].
    cbn [abs]. split; [constructor; apply same_tree_combine, Sc|].
    cbn [total_strided_bytes]. unfold tight, empties_in.
    rewrite !tleaves_combine by (rewrite map_length; congruence). rewrite !Forall_flat. exact Tc.
  - inversion W as [| |? Wk]; subst. pose proof (json_able_list ks J) as Jk.
    cbn [schema_val walk_schema_f]. cbn [schema_val jdepth] in D.
    assert (B : Forall (backs m (back_at m) (walk_schema_f f (SLst []))) ks).
    { rewrite Forall_forall in *. intros k I off'. apply IH; auto.
      pose proof (depth_le jdepth (map (schema_val m) ks) (schema_val m k) (in_map _ _ _ I)). lia. }
    destruct (items_back m _ _ ks B [] off) as (cs & E & C).
    destruct (chain_back _ _ _ _ C) as (Wc & Sc & Tc).
    exists (SLst cs). split; [exact E|]. split; [constructor; assumption|].
    cbn [abs]. split; [constructor; exact Sc|].
    cbn [total_strided_bytes]. unfold tight, empties_in. cbn [tleaves]. rewrite !Forall_flat. exact Tc.
Qed.

Lemma digits_f_length f : forall n acc, (length (digits_f f n acc) <= f + length acc)%nat.
Proof.
  induction f as [|f IH]; intros n acc; [cbn; lia|]. cbn [digits_f].
  destruct (N.ltb n 10); [cbn; lia|]. specialize (IH (n / 10)%N (ascii_of_N (48 + n mod 10) :: acc)). cbn [length] in IH. lia.
Qed.
Lemma show_N_length n : (n < 2 ^ 70)%N -> (length (show_N n) <= 71)%nat.
Proof.
  intros H. unfold show_N. pose proof (digits_f_length (S (N.size_nat n)) n []) as X.
  assert (N.size_nat n <= 70)%nat; [|cbn [length] in X; lia].
  assert (E : N.of_nat (N.size_nat n) = N.size n).
  { destruct n as [|p]; [reflexivity|]. cbn.
    assert (G : forall p, Pos.size_nat p = Pos.to_nat (Pos.size p))
      by (induction p0; cbn; rewrite ?IHp0, ?Pos2Nat.inj_succ; reflexivity).
    rewrite G. apply positive_nat_N. }
  destruct (N.eq_dec n 0) as [-> |Z0]; [cbn; lia|].
  pose proof (N.size_log2 n Z0) as S. assert (N.log2 n < 70)%N by (apply N.log2_lt_pow2; lia). lia.
Qed.
Lemma show_modest z : (- 2 ^ 64 < z < 2 ^ 64)%Z -> modest (show_Z z).
Proof.
  intros H. split.
  - unfold show_Z. destruct (Z.ltb_spec z 0).
    + cbn [length]. pose proof (show_N_length (Z.to_N (- z)) ltac:(lia)). lia.
    + pose proof (show_N_length (Z.to_N z) ltac:(lia)). lia.
  - intros a c g d E C _ _. exfalso.
    assert (D : forall n, Forall (fun c => c = "-"%char \/ digit c) (show_N n)).
    { intros n. destruct (show_N_spec n) as ((_ & Fd) & _). eapply Forall_impl; [|exact Fd]. intros x X; right; exact X. }
    assert (G : Forall (fun c => c = "-"%char \/ digit c) (show_Z z))
      by (unfold show_Z; destruct (z <? 0)%Z; [constructor; [left; reflexivity|apply D]|apply D]).
    rewrite E in G. apply Forall_app in G. destruct G as [_ G]. inversion_clear G as [|? ? X _].
    cbn in C. unfold digit in X. cbn in X.
    destruct C as [<-|[<-|[]]]; destruct X as [X|X]; intuition discriminate.
Qed.
Lemma leaf_modest m d : json_leaf d -> Forall modest (flat_map (fun e => numbers (snd e)) (leaf_members m d)).
Proof.
  intros J. unfold leaf_members. cbn [flat_map snd numbers app]. destruct (is_container_id (dt_id d)) eqn:C; [constructor|].
  destruct J as [J|(J1 & J2 & J3 & J4)]; [rewrite J in C; discriminate|]. unfold int64_nat in *.
  cbn [flat_map snd numbers app]. repeat (constructor; [apply show_modest; lia|]). constructor.
Qed.
Lemma schema_modest m s : wf s -> json_able (abs s) -> Forall modest (numbers (schema_val m s)).
Proof.
  induction s as [d|mp o ks IH|ks IH] using schema_ind'; intros W J.
  - cbn [schema_val numbers]. apply leaf_modest. destruct J as [_ J]. inversion_clear J. assumption.
  - inversion W as [|? ? ? O Wk|]; subst. destruct O as (_ & Lo & _).
    destruct (json_able_obj o ks Lo J) as [Jk _]. cbn [schema_val numbers]. apply Forall_flat, Forall_forall.
    intros [k v] I. apply in_combine_r in I. apply in_map_iff in I. destruct I as (c & <- & I). cbn [snd].
    rewrite Forall_forall in IH, Wk, Jk. apply IH; auto.
  - inversion W as [| |? Wk]; subst. pose proof (json_able_list ks J) as Jk.
    cbn [schema_val numbers]. apply Forall_flat, Forall_forall.
    intros v I. apply in_map_iff in I. destruct I as (c & <- & I).
    rewrite Forall_forall in IH, Wk, Jk. apply IH; auto.
Qed.
Lemma schema_val_container m s : container (schema_val m s).
Proof. destruct s; exact I. Qed.

Lemma schema_round_trip_at parse m ind pad eoe s :
  reads_json parse -> m <> DEFAULT_E -> Forall white pad -> Forall white eoe ->
  wf s -> json_able (abs s) ->
  exists s', schema_of_json parse (schema_json m ind pad eoe s 0) = Ok s' /\ back_at m 0 s s'.
Proof.
  intros P M Wp We W J. pose proof (schema_doc m ind pad eoe s 0 Wp We W J) as D.
  unfold schema_of_json. rewrite (sanitize_doc false _ _ _ (schema_val_container m s) D).
  rewrite (P _ _ D (schema_modest m s W J)). cbn [obind]. apply walk_back; auto.
Qed.
Lemma schema_round_trip parse m ind pad eoe s :
  reads_json parse -> m <> DEFAULT_E -> Forall white pad -> Forall white eoe ->
  wf s -> json_able (abs s) ->
  exists s', schema_of_json parse (schema_json m ind pad eoe s 0) = Ok s' /\ wf s' /\
             same_tree (read_back m) (abs s) (abs s').
Proof.
  intros P M Wp We W J.
  destruct (schema_round_trip_at parse m ind pad eoe s P M Wp We W J) as (s' & E & A & B & _); eauto.
Qed.

(** Without empty leaves and default byte orders the tree comes back as it was. *)
Lemma same_tree_id m t t' :
  same_tree (read_back m) t t' ->
  Forall (fun d => dt_id d <> EMPTY /\ dt_endian d <> DEFAULT_E) (tleaves t) -> t' = t.
Proof.
  revert t'; induction t as [d|es IH|ks IH] using tree_ind'; intros t' S F; inversion S as [? ? R|? ? R|? ? R]; subst.
  - inversion_clear F as [|? ? [A B] _]. unfold read_back in R.
    destruct (tid_eqb (dt_id d) EMPTY) eqn:E; [apply tid_eqb_eq in E; congruence|].
    subst. f_equal. destruct d as [i n o s e en]. unfold recorded; cbn in *.
    destruct en; congruence.
  - f_equal. clear S. induction R as [|[k t] [k' u] es es' [E1 E2] R IHR]; [reflexivity|].
    inversion_clear IH as [|? ? I1 I2]. cbn [tleaves flat_map] in F. apply Forall_app in F. destruct F as [F1 F2].
    cbn [fst snd] in *. subst k'. f_equal; [f_equal; apply I1; assumption|apply IHR; assumption].
  - f_equal. clear S. induction R as [|t u es es' E R IHR]; [reflexivity|].
    inversion_clear IH as [|? ? I1 I2]. cbn [tleaves flat_map] in F. apply Forall_app in F. destruct F as [F1 F2].
    f_equal; [apply I1; assumption|apply IHR; assumption].
Qed.
