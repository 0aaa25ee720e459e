(** Node::diff and Node::diff_compatible.  Specification first: when two values count as the
    same, and when one is contained in the other. *)
From Coq Require Import ZArith Floats.SpecFloat.
From Verif Require Import Base DType SpecTree Mem MemFacts Node SpecNode NodeFacts NodeCompact NodeSet NodeSerial Number NumberFacts NodeDiff.
Local Open Scope Z_scope.

(** ** Specification *)
(** a string ends at its first NUL *)
Fixpoint upto_nul (l : list byte) : list byte :=
  match l with
  | [] => []
  | b :: r => if Ascii.eqb b zero_byte then [] else b :: upto_nul r
  end.
Definition terminated (u : leafval) : Prop :=
  match u with
  | Some (CHAR8_STR, _, es) => es = [] \/ In zero_byte (concat es)
  | _ => True
  end.
(** string leaves have a non-negative offset, a positive stride and one-byte elements *)
Definition sane (d : dtype) : Prop := dt_id d = CHAR8_STR -> 0 <= dt_off d /\ 1 <= dt_stride d /\ dt_ebytes d = 1.
(** the IEEE difference of two floats, as a double *)
Definition fdelta (mach : endian) (t : tid) (x y : list byte) : spec_float :=
  let z := SFsub (prec_of t) (emax_of t) (fvalue mach t x) (fvalue mach t y) in
  match t with FLOAT32 => to_double z | _ => z end.
(** integers: the same bytes; floats: the difference is neither above eps nor below -eps *)
Definition elem_alike (mach : endian) (eps : spec_float) (t : tid) (x y : list byte) : Prop :=
  if is_float t then SFltb eps (fdelta mach t x y) = false /\ SFltb (fdelta mach t x y) (SFopp eps) = false
  else x = y.
(** same type, same elements (same text for strings); byte order is not looked at *)
Definition leaf_alike (mach : endian) (eps : spec_float) (u v : leafval) : Prop :=
  match u, v with
  | None, None => True
  | Some (t, _, es), Some (t', _, es') =>
      t = t' /\
      match t with
      | CHAR8_STR => (es = [] <-> es' = []) /\ upto_nul (concat es) = upto_nul (concat es')
      | _ => Forall2 (elem_alike mach eps t) es es'
      end
  | _, _ => False
  end.
(** same type, the elements (the text) of u are the first elements (a beginning of the text) of v *)
Definition leaf_within (mach : endian) (eps : spec_float) (u v : leafval) : Prop :=
  match u, v with
  | None, None => True
  | Some (t, _, es), Some (t', _, es') =>
      t = t' /\
      match t with
      | CHAR8_STR => (es = [] <-> es' = []) /\ exists r, upto_nul (concat es') = upto_nul (concat es) ++ r
      | _ => exists ys zs, es' = ys ++ zs /\ Forall2 (elem_alike mach eps t) es ys
      end
  | _, _ => False
  end.
(** objects: the same names in any order, lists: the same length *)
Inductive alike {A} (R : A -> A -> Prop) : tree A -> tree A -> Prop :=
| al_leaf u v : R u v -> alike R (TLeaf u) (TLeaf v)
| al_obj es es' :
    (forall k a, In (k, a) es -> exists b, mget es' k = Some b /\ alike R a b) ->
    (forall k b, In (k, b) es' -> exists a, mget es k = Some a /\ alike R a b) ->
    alike R (TObj es) (TObj es')
| al_list ks ks' : Forall2 (alike R) ks ks' -> alike R (TList ks) (TList ks').
Inductive within {A} (R : A -> A -> Prop) : tree A -> tree A -> Prop :=
| wi_leaf u v : R u v -> within R (TLeaf u) (TLeaf v)
| wi_obj es es' :
    (forall k a, In (k, a) es -> exists b, mget es' k = Some b /\ within R a b) ->
    within R (TObj es) (TObj es')
| wi_list ks ys zs : Forall2 (within R) ks ys -> within R (TList ks) (TList (ys ++ zs)).

(** ** Leaves *)
Lemma F2_length : forall {A B} {R : A -> B -> Prop} {l l'}, Forall2 R l l' -> length l = length l'.
Proof. intros A B R l l' F. induction F; cbn [length]; congruence. Qed.
Lemma orb_false : forall a b, a || b = false <-> a = false /\ b = false.
Proof. intros [] []; cbn; split; intros; try tauto; try discriminate; destruct H; discriminate. Qed.
Lemma until_upto : forall l s, until_nul l = Ok s -> s = upto_nul l.
Proof.
  induction l as [|b r IH]; intros s E; [discriminate E|]. cbn [until_nul upto_nul] in *. destruct (Ascii.eqb b zero_byte); [congruence|].
  destruct (until_nul r) as [x| | |] eqn:U; try discriminate E. cbn [obind] in E. rewrite <- (IH x eq_refl). congruence.
Qed.
Lemma until_def : forall l, In zero_byte l -> until_nul l = Ok (upto_nul l).
Proof.
  induction l as [|b r IH]; intros H; [contradiction|]. cbn [until_nul upto_nul]. destruct (Ascii.eqb_spec b zero_byte) as [E|E]; [reflexivity|].
  destruct H as [H|H]; [contradiction|]. rewrite (IH H). reflexivity.
Qed.
Lemma upto_app : forall l r, In zero_byte l -> upto_nul (l ++ r) = upto_nul l.
Proof.
  induction l as [|b l IH]; intros r H; [contradiction|]. cbn [app upto_nul]. destruct (Ascii.eqb_spec b zero_byte) as [E|E]; [reflexivity|].
  destruct H as [H|H]; [contradiction|]. rewrite (IH r H). reflexivity.
Qed.
Lemma until_app : forall l r, In zero_byte l -> until_nul (l ++ r) = Ok (upto_nul l).
Proof. intros l r H. rewrite until_def by (apply in_or_app; left; exact H). rewrite upto_app by exact H. reflexivity. Qed.

Section Facts.
Variable mach : endian.
Variable m : mem.
Variable eps : spec_float.

(** what a terminated string leaf is read as *)
Lemma text_of_law : forall h d es, dt_id d = CHAR8_STR -> sane d -> 0 <= dt_n d -> holds m (h_data h) d es ->
  (es = [] \/ In zero_byte (concat es)) ->
  text_of m h d = Ok (match es with [] => None | _ => Some (upto_nul (concat es)) end).
Proof.
  intros h d es T W Hn Ho Te. unfold text_of. pose proof Ho as [Hl _]. destruct (Z.leb_spec (dt_n d) 0) as [L|L].
  { destruct es; [reflexivity|]. cbn [length] in Hl. lia. }
  destruct Te as [->|Te]; [cbn in Hl; lia|]. assert (NE : es <> []) by (intros ->; cbn in Hl; lia).
  assert (D : is_data (dt_id d) = true) by (rewrite T; reflexivity).
  replace (match es with [] => None | _ :: _ => Some (upto_nul (concat es)) end) with (Some (upto_nul (concat es))) by (destruct es; [contradiction|reflexivity]).
  destruct (W T) as (W1 & W2 & W3).
  destruct (dt_is_compact d) eqn:C.
  - assert (S : dt_stride d = default_bytes (dt_id d) \/ dt_n d = 1).
    { unfold dt_is_compact, spanned_bytes, bytes_compact in C. rewrite T in C. cbn [tid_eqb negb andb] in C. apply Z.eqb_eq in C. rewrite W3 in C. rewrite T. change (default_bytes CHAR8_STR) with 1 in *. nia. }
    destruct (h_data h) as [p|] eqn:P.
    + pose proof (holds_dense m p d es D Hn S Ho) as Lo. cbn [opadd option_map]. rewrite T in Lo. change (default_bytes CHAR8_STR) with 1 in Lo. rewrite Z.mul_1_l in Lo.
      unfold load in Lo. destruct (Z.eqb_spec (dt_n d) 0) as [Z0|_]; [lia|]. destruct (padd p (eaddr d 0)) as [b o]. cbn [fst snd cstr] in *.
      destruct (nth_error m b) as [[l|]|]; try discriminate Lo. destruct (Z.leb_spec 0 o) as [O|O]; [|discriminate Lo]. destruct (_ && _) in Lo; [|discriminate Lo].
      injection Lo as Lo. destruct (Z.ltb_spec o 0); [lia|]. unfold sub_range in Lo. rewrite <- (firstn_skipn (Z.to_nat (dt_n d)) (skipn (Z.to_nat o) l)), Lo.
      rewrite until_app by exact Te. reflexivity.
    + destruct Ho as [_ Ho]. destruct (Ho 0 ltac:(lia)) as (bs & _ & X). unfold leaf_elem in X. rewrite T in X. discriminate X.
  - change (omapM _ _) with (omapM (leaf_elem m (h_data h) d) (zseq (dt_n d))). apply (omapM_elems m (h_data h) d es Hn) in Ho. rewrite Ho. cbn [obind]. rewrite until_def by exact Te. reflexivity.
Qed.
Lemma strcmp_law : forall s u, strcmp_ne s u = false <-> s = u.
Proof.
  induction s as [|a s IH]; intros [|b u]; cbn [strcmp_ne]; try (split; (reflexivity || discriminate)).
  destruct (Ascii.eqb_spec a b) as [->|N].
  - rewrite IH. split; [intros ->; reflexivity|congruence].
  - split; [discriminate|congruence].
Qed.
Lemma starts_law : forall s o, starts s o = true <-> exists r, o = s ++ r.
Proof.
  induction s as [|a s IH]; intros o; cbn [starts app].
  - split; [intros _; exists o; reflexivity|reflexivity].
  - destruct o as [|b o]; [split; [discriminate|intros (r & E); discriminate E]|]. destruct (Ascii.eqb_spec a b) as [->|N]; cbn [andb].
    + rewrite IH. split; intros (r & E); exists r; congruence.
    + split; [discriminate|]. intros (r & E). congruence.
Qed.
Lemma strstr_ge : forall o s i j, strstr o s i = Some j -> (i <= j)%nat.
Proof.
  induction o as [|b o IH]; intros s i j E; cbn [strstr] in E; destruct (starts s _); try (injection E as <-; lia); try discriminate E.
  apply IH in E. lia.
Qed.
Lemma strstr_law : forall o s, strstr o s 0 = Some 0%nat <-> exists r, o = s ++ r.
Proof.
  intros o s. rewrite <- starts_law. destruct o as [|b o]; cbn [strstr]; destruct (starts s _); try (split; (reflexivity || discriminate)).
  split; [|discriminate]. intros E. apply strstr_ge in E. lia.
Qed.

(** the elements: read in full, compared pairwise *)
Lemma elem_diff_law : forall t x y r, length x = length y -> elem_diff mach eps t x y = Ok r -> (r = false <-> elem_alike mach eps t x y).
Proof.
  intros t x y r L E. unfold elem_diff, elem_alike in *. destruct (is_float t) eqn:F.
  - injection E as <-. unfold float_diff. rewrite orb_false. unfold fdelta. destruct t; try discriminate F; reflexivity.
  - destruct (sub_defined mach t x y); [|discriminate E]. injection E as <-. destruct (Z.eqb_spec (ivalue mach t x) (ivalue mach t y)) as [Q|Q]; cbn [negb].
    + split; [|reflexivity]. intros _. apply (ivalue_inj mach t); assumption.
    + split; [discriminate|]. intros ->. contradiction.
Qed.
Lemma elems_diff_law : forall t n xs ys r, (length xs <= length ys)%nat -> Forall (fun x => length x = n) xs -> Forall (fun x => length x = n) ys ->
  elems_diff mach eps t xs ys = Ok r -> (r = false <-> exists us vs, ys = us ++ vs /\ Forall2 (elem_alike mach eps t) xs us).
Proof.
  intros t n. induction xs as [|x xs IH]; intros ys r L Fx Fy E.
  - cbn [elems_diff] in E. injection E as <-. split; [intros _; exists [], ys; split; [reflexivity|constructor]|reflexivity].
  - destruct ys as [|y ys]; [cbn in L; lia|]. cbn [elems_diff] in E. destruct (elem_diff mach eps t x y) as [b| | |] eqn:Eb; try discriminate E. cbn [obind] in E.
    destruct (elems_diff mach eps t xs ys) as [q| | |] eqn:Eq; try discriminate E. cbn [obind] in E. injection E as <-. rewrite orb_false.
    assert (Lxy : length x = length y) by (rewrite (Forall_inv Fx), (Forall_inv Fy); reflexivity).
    rewrite (elem_diff_law t x y b Lxy Eb). rewrite (IH ys q ltac:(cbn in L; lia) (Forall_inv_tail Fx) (Forall_inv_tail Fy) Eq). split.
    + intros (A & us & vs & -> & F). exists (y :: us), vs. split; [reflexivity|]. constructor; assumption.
    + intros (us & vs & E & F). inversion F as [|? u ? us' Fu Fr]; subst. cbn [app] in E. injection E as -> ->. split; [exact Fu|]. exists us', vs. split; [reflexivity|exact Fr].
Qed.
Lemma elems_read_ok : forall h d n xs, elems_read m h d n = Ok xs -> omapM (leaf_elem m (h_data h) d) (zseq n) = Ok xs.
Proof.
  intros h d n xs E. unfold elems_read in E. apply (omapM_ext _ _ _ _ E). intros i y _ H. unfold elem_read, element_index in H. unfold leaf_elem.
  destruct (_ && _) in H; [discriminate H|]. exact H.
Qed.
Lemma holds_len : forall data d es, is_data (dt_id d) = true -> holds m data d es -> Forall (fun x => length x = Z.to_nat (default_bytes (dt_id d))) es.
Proof.
  intros data d es D [Hl H]. apply Forall_forall. intros x I. apply In_nth_error in I. destruct I as [k Hk].
  assert (K : (k < length es)%nat) by (apply nth_error_Some; congruence). destruct (H (Z.of_nat k) ltac:(lia)) as (bs & E1 & E2).
  rewrite Nat2Z.id in E1. rewrite E1 in Hk. injection Hk as ->. unfold leaf_elem in E2. destruct data as [p|]; cbn [opadd option_map oload] in E2.
  - apply load_inv in E2. destruct E2 as (_ & E & _). pose proof (is_data_pos _ D). lia.
  - pose proof (is_data_pos _ D). destruct (Z.eqb_spec (default_bytes (dt_id d)) 0); [lia|discriminate E2].
Qed.
Lemma F2_prefix : forall {A} (R : A -> A -> Prop) xs ys, length xs = length ys ->
  (exists us vs, ys = us ++ vs /\ Forall2 R xs us) <-> Forall2 R xs ys.
Proof.
  intros A R xs ys L. split.
  - intros (us & vs & -> & F). pose proof (F2_length F) as Lu. rewrite app_length in L. destruct vs; [rewrite app_nil_r; exact F|cbn in L; lia].
  - intros F. exists ys, []. split; [rewrite app_nil_r; reflexivity|exact F].
Qed.
Lemma zseq_app : forall a b, 0 <= a -> 0 <= b -> exists l, zseq (a + b) = zseq a ++ l.
Proof.
  intros a b A B. unfold zseq. rewrite Z2Nat.inj_add by lia. rewrite seq_app, map_app. eexists. reflexivity.
Qed.
Lemma read_prefix : forall data d n es, 0 <= n <= dt_n d -> holds m data d es ->
  exists us vs, es = us ++ vs /\ omapM (leaf_elem m data d) (zseq n) = Ok us /\ length us = Z.to_nat n.
Proof.
  intros data d n es Hn Ho. apply omapM_elems in Ho; [|lia]. destruct (zseq_app n (dt_n d - n) ltac:(lia) ltac:(lia)) as (l & El).
  replace (n + (dt_n d - n)) with (dt_n d) in El by lia. rewrite El in Ho. apply omapM_Ok in Ho. apply Forall2_app_inv_l in Ho. destruct Ho as (us & vs & F1 & _ & ->).
  exists us, vs. split; [reflexivity|]. split; [apply omapM_Ok; exact F1|]. rewrite <- (F2_length F1). apply length_zseq.
Qed.
Lemma str_dec : forall t, t = CHAR8_STR \/ tid_eqb t CHAR8_STR = false.
Proof. intros []; auto. Qed.
Lemma tid_eqb_true : forall a b, tid_eqb a b = true -> a = b.
Proof. intros [] []; cbn; intros; (reflexivity || discriminate). Qed.
Lemma tid_eqb_false : forall a b, tid_eqb a b = false -> a <> b.
Proof. intros [] b E <-; discriminate E. Qed.

Definition leafprop (P : leafval -> leafval -> Prop) (f : hdr -> dtype -> hdr -> dtype -> outcome bool) : Prop :=
  forall h d h' d' u v r, sane d -> sane d' -> leaf_value m (h_data h) d = Ok u -> leaf_value m (h_data h') d' = Ok v ->
    terminated u -> terminated v -> leaf_case mach m false f h d h' d' = Ok r -> (r = false <-> P u v).
Lemma leaf_alike_str : forall t e es e' es', t = CHAR8_STR -> (leaf_alike mach eps (Some (t, e, es)) (Some (t, e', es')) <-> (es = [] <-> es' = []) /\ upto_nul (concat es) = upto_nul (concat es')).
Proof. intros t e es e' es' ->. cbn [leaf_alike]. tauto. Qed.
Lemma leaf_alike_other : forall t e es e' es', tid_eqb t CHAR8_STR = false -> (leaf_alike mach eps (Some (t, e, es)) (Some (t, e', es')) <-> Forall2 (elem_alike mach eps t) es es').
Proof. intros t e es e' es' T. cbn [leaf_alike]. destruct t; try discriminate T; tauto. Qed.
Lemma leaf_within_str : forall t e es e' es', t = CHAR8_STR -> (leaf_within mach eps (Some (t, e, es)) (Some (t, e', es')) <-> (es = [] <-> es' = []) /\ exists r, upto_nul (concat es') = upto_nul (concat es) ++ r).
Proof. intros t e es e' es' ->. cbn [leaf_within]. tauto. Qed.
Lemma leaf_within_other : forall t e es e' es', tid_eqb t CHAR8_STR = false -> (leaf_within mach eps (Some (t, e, es)) (Some (t, e', es')) <-> exists ys zs, es' = ys ++ zs /\ Forall2 (elem_alike mach eps t) es ys).
Proof. intros t e es e' es' T. cbn [leaf_within]. destruct t; try discriminate T; tauto. Qed.

Lemma leaf_diff_law : leafprop (leaf_alike mach eps) (leaf_diff mach m eps).
Proof.
  intros h d h' d' u v r S S' U V Tu Tv E. unfold leaf_case in E.
  destruct (leaf_value_inv _ _ _ _ U) as [[T ->]|(T & Hn & es & -> & Ho)]; destruct (leaf_value_inv _ _ _ _ V) as [[T' ->]|(T' & Hn' & es' & -> & Ho')].
  - rewrite T, T' in E. unfold is_empty in E. rewrite T in E. cbn in E. injection E as <-. cbn. tauto.
  - rewrite T in E. destruct (dt_id d'); try discriminate T'; cbn in E; injection E as <-; cbn; split; try discriminate; try contradiction.
  - rewrite T' in E. destruct (dt_id d); try discriminate T; cbn in E; injection E as <-; cbn; split; try discriminate; try contradiction.
  - destruct (tid_eqb (dt_id d) (dt_id d')) eqn:TT; cbn [negb] in E.
    2:{ injection E as <-. apply tid_eqb_false in TT. cbn [leaf_alike]. split; [discriminate|]. intros [C _]. contradiction. }
    apply tid_eqb_true in TT. rewrite (is_data_empty _ T) in E.
    replace (is_leaf_type (dt_id d)) with true in E by (destruct (dt_id d); try discriminate T; reflexivity).
    unfold leaf_diff in E. destruct (Z.ltb_spec (dt_n d) 0); [lia|]. destruct (Z.ltb_spec (dt_n d') 0); [lia|]. cbn [orb] in E.
    rewrite <- TT. pose proof (holds_len _ _ _ T Ho) as Le. pose proof (holds_len _ _ _ T' Ho') as Le'. destruct (str_dec (dt_id d)) as [Q|Q].
    + rewrite (leaf_alike_str _ _ _ _ _ Q). rewrite Q in E. cbn [tid_eqb] in E.
      cbn [terminated] in Tu, Tv. rewrite <- TT in Tv. rewrite Q in Tu, Tv.
      rewrite (text_of_law h d es Q S Hn Ho Tu) in E. cbn [obind] in E.
      rewrite (text_of_law h' d' es' ltac:(congruence) S' Hn' Ho' Tv) in E. cbn [obind] in E. injection E as <-.
      destruct es as [|x es], es' as [|x' es'].
      * tauto.
      * split; [discriminate|]. intros [[C _] _]. specialize (C eq_refl). discriminate C.
      * split; [discriminate|]. intros [[_ C] _]. specialize (C eq_refl). discriminate C.
      * rewrite strcmp_law. split; [intros X; split; [split; discriminate|exact X]|tauto].
    + rewrite (leaf_alike_other _ _ _ _ _ Q). rewrite Q in E. destruct (Z.eqb_spec (dt_n d) (dt_n d')) as [N|N]; cbn [negb] in E.
      * destruct (elems_read m h d (dt_n d)) as [xs| | |] eqn:X; try discriminate E. cbn [obind] in E.
        destruct (elems_read m h' d' (dt_n d)) as [ys| | |] eqn:Y; try discriminate E. cbn [obind] in E.
        apply elems_read_ok in X. apply elems_read_ok in Y. rewrite N in Y. apply omapM_elems in Ho; [|lia]. apply omapM_elems in Ho'; [|lia].
        rewrite Ho in X. injection X as <-. rewrite Ho' in Y. injection Y as <-.
        assert (Ll : length es = length es').
        { apply omapM_Ok in Ho. apply omapM_Ok in Ho'. apply F2_length in Ho. apply F2_length in Ho'. rewrite length_zseq in *. congruence. }
        rewrite <- TT in Le'. rewrite (elems_diff_law _ _ es es' r ltac:(lia) Le Le' E). apply F2_prefix. exact Ll.
      * injection E as <-. split; [discriminate|]. intros F. apply F2_length in F. destruct Ho as [Hl _], Ho' as [Hl' _]. lia.
Qed.
Lemma leaf_diff_compatible_law : leafprop (leaf_within mach eps) (leaf_diff_compatible mach m eps).
Proof.
  intros h d h' d' u v r S S' U V Tu Tv E. unfold leaf_case in E.
  destruct (leaf_value_inv _ _ _ _ U) as [[T ->]|(T & Hn & es & -> & Ho)]; destruct (leaf_value_inv _ _ _ _ V) as [[T' ->]|(T' & Hn' & es' & -> & Ho')].
  - rewrite T, T' in E. unfold is_empty in E. rewrite T in E. cbn in E. injection E as <-. cbn. tauto.
  - rewrite T in E. destruct (dt_id d'); try discriminate T'; cbn in E; injection E as <-; cbn; split; try discriminate; try contradiction.
  - rewrite T' in E. destruct (dt_id d); try discriminate T; cbn in E; injection E as <-; cbn; split; try discriminate; try contradiction.
  - destruct (tid_eqb (dt_id d) (dt_id d')) eqn:TT; cbn [negb] in E.
    2:{ injection E as <-. apply tid_eqb_false in TT. cbn [leaf_within]. split; [discriminate|]. intros [C _]. contradiction. }
    apply tid_eqb_true in TT. rewrite (is_data_empty _ T) in E.
    replace (is_leaf_type (dt_id d)) with true in E by (destruct (dt_id d); try discriminate T; reflexivity).
    unfold leaf_diff_compatible in E. destruct (Z.ltb_spec (dt_n d) 0); [lia|]. destruct (Z.ltb_spec (dt_n d') 0); [lia|]. cbn [orb] in E.
    rewrite <- TT. pose proof (holds_len _ _ _ T Ho) as Le. pose proof (holds_len _ _ _ T' Ho') as Le'. destruct (str_dec (dt_id d)) as [Q|Q].
    + rewrite (leaf_within_str _ _ _ _ _ Q). rewrite Q in E. cbn [tid_eqb] in E.
      cbn [terminated] in Tu, Tv. rewrite <- TT in Tv. rewrite Q in Tu, Tv.
      rewrite (text_of_law h d es Q S Hn Ho Tu) in E. cbn [obind] in E.
      rewrite (text_of_law h' d' es' ltac:(congruence) S' Hn' Ho' Tv) in E. cbn [obind] in E. injection E as <-.
      destruct es as [|x es], es' as [|x' es'].
      * split; [|reflexivity]. intros _. split; [tauto|]. exists []. reflexivity.
      * split; [discriminate|]. intros [[C _] _]. specialize (C eq_refl). discriminate C.
      * split; [discriminate|]. intros [[_ C] _]. specialize (C eq_refl). discriminate C.
      * generalize (upto_nul (concat (x :: es))) (upto_nul (concat (x' :: es'))). intros s o. destruct (Nat.ltb_spec (length o) (length s)) as [L|L].
        -- split; [discriminate|]. intros [_ (q & ->)]. rewrite app_length in L. lia.
        -- rewrite <- strstr_law. destruct (strstr o s 0) as [[|k]|]; split; intros X; try discriminate X; try reflexivity; try (destruct X as [_ X]; discriminate X).
           split; [split; discriminate|reflexivity].
    + rewrite (leaf_within_other _ _ _ _ _ Q). rewrite Q in E. destruct (Z.ltb_spec (dt_n d') (dt_n d)) as [N|N].
      * injection E as <-. split; [discriminate|]. intros (ys & zs & -> & F). apply F2_length in F. destruct Ho as [Hl _], Ho' as [Hl' _]. rewrite app_length in Hl'. lia.
      * destruct (elems_read m h d (dt_n d)) as [xs| | |] eqn:X; try discriminate E. cbn [obind] in E.
        destruct (elems_read m h' d' (dt_n d)) as [ys| | |] eqn:Y; try discriminate E. cbn [obind] in E.
        apply elems_read_ok in X. apply elems_read_ok in Y. destruct (read_prefix (h_data h') d' (dt_n d) es' ltac:(lia) Ho') as (us & vs & -> & Y' & Lu).
        rewrite Y in Y'. injection Y' as ->. pose proof Ho as [Hl _]. apply omapM_elems in Ho; [|lia]. rewrite Ho in X. injection X as <-.
        rewrite <- TT in Le'. apply Forall_app in Le'. destruct Le' as [Le' _]. rewrite (elems_diff_law _ _ es us r ltac:(lia) Le Le' E).
        rewrite (F2_prefix _ es us) by lia. split.
        -- intros F. exists us, vs. split; [reflexivity|exact F].
        -- intros (us2 & vs2 & Ea & F). assert (Lk : length us2 = length us) by (rewrite <- (F2_length F); lia).
           apply app_eq_app in Ea. destruct Ea as (z & [[E1 E2]|[E1 E2]]); rewrite E1, app_length in Lk; destruct z; try (cbn in Lk; lia); rewrite app_nil_r in E1; subst; exact F.
Qed.
End Facts.
