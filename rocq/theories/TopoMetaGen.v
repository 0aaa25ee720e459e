(** Faces of solids and lines of polygons, with both maps. *)
From Verif Require Import Base DType Node NodeFacts SchemaInv O2M MeshElem MeshElemFacts TopoMeta TopoMetaSpec TopoMetaFacts TopoMetaBack.
From Coq Require Import ZArith Lia Permutation Sorting.Sorted.
Local Open Scope Z_scope.
Import ListNotations.

Lemma omapM_zseq {A B} (f : Z -> outcome B) (g : A -> B) (l : list A) :
  (forall i a, nth_error l i = Some a -> f (Z.of_nat i) = Ok (g a)) -> omapM f (zseq (zlen l)) = Ok (map g l).
Proof.
  intro H. unfold zseq, zlen. rewrite Nat2Z.id.
  assert (G : forall l' s, (forall i a, nth_error l' i = Some a -> f (Z.of_nat (s + i)) = Ok (g a)) -> omapM f (map Z.of_nat (seq s (length l'))) = Ok (map g l')).
  { clear. induction l' as [|a r IH]; intros s H; [reflexivity|]. cbn [length seq map omapM].
    pose proof (H 0%nat a eq_refl) as H0. rewrite Nat.add_0_r in H0. rewrite H0. cbn [obind].
    rewrite IH; [reflexivity|]. intros i b E. specialize (H (Datatypes.S i) b E). rewrite Nat.add_succ_comm. exact H. }
  apply (G l 0%nat). exact H.
Qed.
Lemma omapM_map_list {A B C} (f : B -> outcome C) (h : A -> B) (g : A -> C) (l : list A) :
  (forall a, In a l -> f (h a) = Ok (g a)) -> omapM f (map h l) = Ok (map g l).
Proof.
  induction l as [|a r IH]; intro H; [reflexivity|]. cbn [map omapM]. rewrite (H a) by (left; reflexivity). cbn [obind].
  rewrite IH; [reflexivity|]. intros b I. apply H. right. exact I.
Qed.

(** ---- tables ---- *)
Definition solid_shape (s : solid) : shape :=
  match nth_error shape_table (match s with Tri => 2 | Quad => 3 | Tet => 4 | Hex => 5 | Wedge => 6 | Pyramid => 7 end) with Some x => x | None => {| s_dim := 0; s_indices := 0; s_embed := 0; s_count := 0 |} end.
Definition solid_emb (s : solid) : list Z :=
  match nth_error embeddings (match s with Tri => 2 | Quad => 3 | Tet => 4 | Hex => 5 | Wedge => 6 | Pyramid => 7 end) with Some (Some x) => x | _ => [] end.
Definition zparts (s : solid) : list (list Z) := map (map Z.of_nat) (parts s).
Lemma solid_shape_of s : exists i, shape_of (solid_name s) = Ok (Some (i, solid_shape s, Some (solid_emb s))).
Proof. destruct s; eexists; vm_compute; reflexivity. Qed.
Lemma solid_faces s : shape_faces (solid_shape s) (solid_emb s) = Ok (zparts s).
Proof. destruct s; vm_compute; reflexivity. Qed.
Lemma solid_consts s : s_dim (solid_shape s) = solid_dim s /\ s_indices (solid_shape s) = Z.of_nat (corners s) /\ s_count (solid_shape s) = zlen (parts s).
Proof. destruct s; vm_compute; auto. Qed.
Lemma solid_corners s : (0 < corners s)%nat /\ Forall (Forall (fun i => (i < corners s)%nat)) (parts s).
Proof. destruct s; cbn; split; try lia; repeat (constructor; try lia). Qed.
(** the solid that the faces are *)
Definition face_kind (s : solid) : solid := match s with Hex => Quad | _ => Tri end.
Lemma solid_embedded s : solid_dim s = 3 -> embedded_shape (solid_shape s) = Ok (solid_shape (face_kind s), solid_emb (face_kind s)).
Proof. destruct s; intro H; try discriminate H; vm_compute; reflexivity. Qed.
Lemma face_corners s : solid_dim s = 3 -> Forall (fun f => length f = corners (face_kind s)) (parts s).
Proof. destruct s; intro H; try discriminate H; cbn; repeat constructor. Qed.
Lemma flat_cycle s f : (s = Tri \/ s = Quad) -> length f = corners s -> parts_of s f = cycle f.
Proof. intros [->| ->] H; destruct f as [|a [|b [|c [|d [|e f]]]]]; try discriminate H; reflexivity. Qed.

(** ---- the parts of the elements ---- *)
Lemma at_concat (k : nat) els e el i : Forall (fun x : list Z => length x = k) els -> nth_error els e = Some el -> (i < k)%nat ->
  at_ (concat els) (Z.of_nat e * Z.of_nat k + Z.of_nat i) = Ok (nth i el 0).
Proof.
  intros F H Hi. unfold at_. replace (Z.of_nat e * Z.of_nat k + Z.of_nat i) with (Z.of_nat (e * k + i)) by lia. rewrite znth_of_nat.
  assert (G : nth_error (concat els) (e * k + i) = Some (nth i el 0)).
  { revert e H. induction F as [|x r Fx F IH]; intros [|e] H; try discriminate; cbn [nth_error concat] in *.
    - injection H as ->. cbn. rewrite nth_error_app1 by lia. apply nth_error_nth'. lia.
    - rewrite nth_error_app2 by lia. replace (Datatypes.S e * k + i - length x)%nat with (e * k + i)%nat by lia. apply IH. exact H. }
  rewrite G. reflexivity.
Qed.
Lemma zlen_concat (k : nat) els : Forall (fun x : list Z => length x = k) els -> zlen (concat els) = Z.of_nat k * zlen els.
Proof. unfold zlen. induction 1 as [|x r Fx F IH]; cbn [concat length]; [lia|]. rewrite app_length. lia. Qed.
Lemma nelem_law k els : (0 < k)%nat -> Forall (fun x : list Z => length x = k) els -> Z.quot (zlen (concat els)) (Z.of_nat k) = zlen els.
Proof. intros Hk F. rewrite (zlen_concat k els F). rewrite Z.mul_comm. apply Z.quot_mul. lia. Qed.
Lemma elem_faces_law s els : Forall (fun x => length x = corners s) els ->
  elem_faces (Z.of_nat (corners s)) (zparts s) (concat els) = Ok (map (parts_of s) els).
Proof.
  intro F. destruct (solid_corners s) as [Hc Hp]. unfold elem_faces. rewrite (nelem_law (corners s) els Hc F).
  apply omapM_zseq. intros e el H. unfold zparts, parts_of. rewrite Forall_forall in Hp.
  apply omapM_map_list. intros f If. apply omapM_map_list. intros i Ii. apply at_concat; [exact F|exact H|].
  specialize (Hp _ If). rewrite Forall_forall in Hp. apply Hp. exact Ii.
Qed.
Lemma chop_rows (n : nat) els : (0 < n)%nat -> Forall (fun x : list Z => length x = n) els -> forall fuel, (length (concat els) <= fuel)%nat -> chop fuel n (concat els) = els.
Proof.
  intros Hn F. induction F as [|x r Fx F IH]; intros fuel Hf; [destruct fuel; reflexivity|].
  cbn [concat] in *. rewrite app_length in Hf. destruct fuel as [|fuel]; [lia|]. cbn [chop].
  destruct (x ++ concat r) as [|y l] eqn:E; [destruct x; [cbn in Fx; lia|discriminate]|]. rewrite <- E.
  rewrite firstn_app, skipn_app, Fx, Nat.sub_diag. cbn [firstn skipn]. rewrite app_nil_r.
  rewrite (firstn_all2 x), (skipn_all2 x) by lia. cbn [app]. f_equal. apply IH. lia.
Qed.
Lemma split_rows c k : forall l : list Z, length l = (k * c)%nat -> exists rows, concat rows = l /\ length rows = k /\ Forall (fun r => length r = c) rows.
Proof.
  induction k as [|k IH]; intros l H.
  - destruct l; [|discriminate]. exists []. auto.
  - destruct (IH (skipn c l)) as [rows [A [B C]]]; [rewrite skipn_length; lia|].
    exists (firstn c l :: rows). cbn. rewrite A, firstn_skipn. split; [reflexivity|]. split; [lia|]. constructor; [rewrite firstn_length; lia|exact C].
Qed.
Lemma holds_single c rows : Forall (fun r : list Z => length r = c) rows -> holds (single (Z.of_nat c) (zlen rows) (concat rows)) rows.
Proof.
  intro F. unfold single. split; [reflexivity|]. cbn [m_sizes m_offsets].
  assert (L : zseq (zlen rows) = map Z.of_nat (seq 0 (length rows))) by (unfold zseq, zlen; rewrite Nat2Z.id; reflexivity).
  split; [|split].
  - rewrite L, map_map. clear L. generalize 0%nat. induction F as [|x r Fx F IH]; intro s; cbn; [reflexivity|]. rewrite Fx. f_equal. apply IH.
  - rewrite map_length, zlen_seq. reflexivity.
  - intros i o H. rewrite nth_error_map in H. rewrite L, nth_error_map in H. destruct (nth_error (seq 0 (length rows)) i) as [j|] eqn:E; [|discriminate].
    cbn in H. injection H as <-. assert (Hi : (i < length rows)%nat) by (rewrite <- (seq_length (length rows) 0); apply nth_error_Some; congruence).
    rewrite (nth_error_nth' _ 0%nat) in E by (rewrite seq_length; exact Hi). rewrite seq_nth in E by exact Hi. injection E as <-. cbn [plus].
    assert (F' : Forall (fun r : list Z => length r = c) (firstn i rows)).
    { rewrite Forall_forall in F |- *. intros x I. apply F. rewrite <- (firstn_skipn i rows). apply in_or_app. left. exact I. }
    pose proof (zlen_concat c _ F') as Z0. unfold zlen in Z0. rewrite Z0, firstn_length. rewrite Nat.min_l by lia. lia.
Qed.
Lemma numbered_range fs d refs : numbered fs d refs -> Forall (fun c => 0 <= c < zlen d) refs.
Proof.
  intro N. apply Forall_forall. intros c I. apply In_nth_error in I. destruct I as [j H].
  assert (Hj : (j < length fs)%nat) by (rewrite <- (n_len _ _ _ N); apply nth_error_Some; congruence).
  destruct (nth_error fs j) as [f|] eqn:E; [|apply nth_error_None in E; lia].
  destruct (n_ref _ _ _ N j f E) as [i [g [A [B _]]]]. rewrite A in H. injection H as <-.
  assert (i < length d)%nat by (apply nth_error_Some; congruence). unfold zlen. lia.
Qed.
Lemma numbered_incl fs d refs g : numbered fs d refs -> In g d -> In g fs.
Proof. intros N I. apply In_nth_error in I. destruct I as [i H]. destruct (n_first _ _ _ N i g H) as [j [A _]]. exact (nth_error_In _ _ A). Qed.
Lemma parts_length s el f : In f (parts_of s el) -> solid_dim s = 3 -> length f = corners (face_kind s).
Proof.
  intros I D. pose proof (face_corners s D) as F. rewrite Forall_forall in F. unfold parts_of in I. apply in_map_iff in I. destruct I as [p [<- I]].
  rewrite map_length. apply F. exact I.
Qed.

Section S.
Variable srt : forall A : Type, (A -> A -> bool) -> list A -> list A.
Hypothesis Hs : sorts srt.

Lemma embedded_total fs : exists d refs, embedded srt fs = Ok (d, refs) /\ length refs = length fs /\ forall f, In f d -> In f fs.
Proof.
  destruct (unique_law srt Hs (map (label srt) fs)) as [h [U [E [Rg _]]]].
  assert (El : zlen (map (label srt) fs) = zlen fs) by (unfold zlen; rewrite map_length; reflexivity). rewrite El in E.
  unfold embedded. rewrite E. rewrite map_snd_combine by (rewrite zlen_seq, !map_length; reflexivity).
  set (us := map h (map (label srt) fs)) in *.
  pose proof (emit_firsts U (combine fs us) [] (fresh_order U)) as Em. cbn [length] in Em. change (Z.of_nat 0) with 0 in Em.
  pose proof (firsts_law (combine fs us) [] (NoDup_nil _)) as Fl. destruct (firsts [] (combine fs us)) as [[d ks] refs].
  exists d, refs. split; [|split].
  - apply Em.
    + apply Forall_forall. intros [f u] I. cbn. apply in_combine_r in I. apply in_map_iff in I. destruct I as [a [<- I]]. apply Rg. exact I.
    + apply fresh_place.
    + unfold fresh_order. rewrite map_length, length_zseq. reflexivity.
  - rewrite (fl_refs _ _ _ _ _ Fl), combine_length. unfold us. rewrite !map_length. lia.
  - intros f I. apply In_nth_error in I. destruct I as [i H].
    destruct (nth_error ks i) as [k|] eqn:Ek.
    + destruct (fl_first _ _ _ _ _ Fl i f k H Ek) as [j [A _]]. apply nth_error_In in A. exact (in_combine_l _ _ _ _ A).
    + apply nth_error_None in Ek. rewrite (fl_len _ _ _ _ _ Fl) in Ek. assert (i < length d)%nat by (apply nth_error_Some; congruence). lia.
Qed.
Lemma faces_of_law s els : Forall (fun x => length x = corners s) els -> faces_of srt (solid_shape s) (solid_emb s) (concat els) = embedded srt (concat (map (parts_of s) els)).
Proof.
  intro F. unfold faces_of. rewrite solid_faces. cbn [obind]. destruct (solid_consts s) as [_ [-> _]]. rewrite elem_faces_law by exact F. reflexivity.
Qed.
Lemma lines_of_faces_law s d : solid_dim s = 3 -> Forall (fun x => length x = corners (face_kind s)) d ->
  lines_of_faces srt (solid_shape s) d = embedded srt (concat (map cycle d)).
Proof.
  intros D F. unfold lines_of_faces. rewrite (solid_embedded s D). cbn [obind fst snd]. rewrite faces_of_law by exact F. f_equal. f_equal.
  rewrite Forall_forall in F. apply map_ext_in. intros f I. apply flat_cycle; [destruct s; cbn; auto|apply F; exact I].
Qed.
Lemma with_back_law n dest rows m : 0 <= n -> holds m rows -> Forall (fun c => 0 <= c < n) (concat rows) ->
  exists b back, with_back srt n dest m = Ok (mkG dest m b) /\ holds b back /\ parents rows n back.
Proof.
  intros Hn H F. destruct (back_law srt Hs n rows m Hn H F) as [b [back [A [B C]]]]. exists b, back. unfold with_back. rewrite A. auto.
Qed.
Lemma whole s (els : list (list Z)) : Forall (fun x => length x = corners s) els -> (zlen (concat els) mod s_indices (solid_shape s) =? 0) = true.
Proof. intro F. destruct (solid_consts s) as [_ [-> _]]. rewrite (zlen_concat _ _ F), Z.mul_comm, Z_mod_mult. reflexivity. Qed.

Theorem generate_parts s els n : Forall (fun el => length el = corners s) els -> told_apart (concat (map (parts_of s) els)) ->
  exists ds up down rows back, generate srt (solid_name s) (concat els) [] None n (solid_dim s - 1) = Ok (mkG ds up down) /\
    numbered (concat (map (parts_of s) els)) ds (concat rows) /\ length rows = length els /\ Forall (fun r => length r = length (parts s)) rows /\
    holds up rows /\ holds down back /\ parents rows (Z.of_nat (length ds)) back.
Proof.
  intros F T. destruct (solid_shape_of s) as [i Ei]. unfold generate. rewrite Ei. cbn [obind]. unfold gen_table.
  destruct (solid_consts s) as [Cd [Ci Cc]]. rewrite (whole s els F). cbn [negb]. rewrite Ci, (nelem_law _ els (proj1 (solid_corners s)) F), Cd.
  rewrite faces_of_law by exact F. destruct (embedded_law srt Hs _ T) as [d [refs [E Nu]]]. rewrite E.
  assert (Lr : length refs = (length els * length (parts s))%nat).
  { rewrite (n_len _ _ _ Nu). clear. induction els as [|x r IH]; [reflexivity|]. cbn [map concat length]. rewrite app_length, IH. unfold parts_of. rewrite map_length. lia. }
  destruct (split_rows _ _ _ Lr) as [rows [Er [Lrows Frows]]].
  assert (Hh : holds (single (s_count (solid_shape s)) (zlen els) refs) rows).
  { rewrite Cc, <- Er. unfold zlen at 2. rewrite <- Lrows. apply holds_single. exact Frows. }
  assert (Rg : Forall (fun c => 0 <= c < zlen d) (concat rows)) by (rewrite Er; exact (numbered_range _ _ _ Nu)).
  destruct (with_back_law (zlen d) d rows _ (Zle_0_nat _) Hh Rg) as [b [back [Eb [Hb Pb]]]].
  exists d, (single (s_count (solid_shape s)) (zlen els) refs), b, rows, back.
  split; [|rewrite Er; auto 10].
  destruct (Z.eq_dec (solid_dim s) 2) as [D|D].
  - rewrite D in *. cbn. exact Eb.
  - assert (D3 : solid_dim s = 3) by (destruct s; cbn in *; congruence). rewrite D3. cbn [Z.ltb Z.eqb Z.sub Z.add Z.compare Pos.compare Pos.compare_cont Pos.eqb Z.opp Z.pos_sub Pos.pred_double obind fst snd].
    assert (Fd : Forall (fun x => length x = corners (face_kind s)) d).
    { apply Forall_forall. intros f I. apply (numbered_incl _ _ _ _ Nu) in I. apply in_concat in I. destruct I as [l [I J]]. apply in_map_iff in I. destruct I as [el [<- I]].
      exact (parts_length s el f J D3). }
    rewrite lines_of_faces_law by assumption. destruct (embedded_total (concat (map cycle d))) as [d1 [r1 [E1 _]]]. rewrite E1. cbn [obind].
    rewrite solid_faces. cbn [obind fst snd]. exact Eb.
Qed.
End S.
