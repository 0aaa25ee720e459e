(** C36: saving a node with the binary protocol and loading or mapping it. *)
From Verif Require Import Base DType Path SpecTree Schema Codec Mem MemFacts Node Json JsonSpec SpecNode NodeSet
  NodeAlloc SchemaInv Save JsonFacts JsonRead JsonSchema SaveFacts SaveCrash SaveCrashFacts.
Local Open Scope Z_scope.

(** Any readable node whose names can be written as JSON strings, saved under
    any name: saving succeeds, leaves memory as it was (nothing stays allocated)
    and no other file changes.  From then on, wherever the two files still hold
    what was written, loading into any node gives the values that were saved, in
    memory the node owns; "default" byte order has become the machine's. *)
Theorem C36_save_load : forall parse mach m fs src base v,
  reads_json parse -> mach <> DEFAULT_E ->
  nvalue m src = Ok v -> names_unique (nschema src) -> all_names json_name (nschema src) ->
  ttotal (nschema src) < 2 ^ 63 ->
  exists m1 fs1, nsave mach m fs src base = Ok (m1, fs1) /\
    extends m m1 [] /\ (forall b, live m1 b -> (b < length m)%nat) /\
    (forall name, name <> base -> name <> base ++ L "_json" -> mget fs1 name = mget fs name) /\
    forall m2 fs2 dest, owned_ok m2 dest ->
      mget fs2 base = mget fs1 base -> mget fs2 (base ++ L "_json") = mget fs1 (base ++ L "_json") ->
      exists m3 r, nload parse m2 fs2 dest base = Ok (m3, r) /\
        nvalue m3 r = Ok (tmap (file_order mach) v) /\
        owned_ok m3 r /\ extends m2 m3 (owned_blocks dest).
Proof.
  intros parse mach m fs src base v P M E U N T.
  destruct (nsave_ok mach m fs src base v E) as (m1 & fs1 & S & X & Lk & Fr & F1 & F2).
  exists m1, fs1. split; [exact S|]. split; [exact X|]. split; [exact Lk|]. split; [exact Fr|].
  intros m2 fs2 dest Ow A B.
  apply (load_back parse mach P M m src v E U N T fs2 base); [|exact Ow].
  split; [unfold schema_file in *; rewrite B; exact F1|rewrite A; exact F2].
Qed.
Print Assumptions C36_save_load.

(** The same by memory mapping, for a node with at least one and less than 2^31
    bytes of data. *)
Theorem C36_save_mmap : forall parse mach m fs src base v,
  reads_json parse -> mach <> DEFAULT_E ->
  nvalue m src = Ok v -> names_unique (nschema src) -> all_names json_name (nschema src) ->
  0 < ttotal (nschema src) < 2 ^ 31 ->
  exists m1 fs1, nsave mach m fs src base = Ok (m1, fs1) /\
    forall m2 fs2 dest, owned_ok m2 dest ->
      mget fs2 base = mget fs1 base -> mget fs2 (base ++ L "_json") = mget fs1 (base ++ L "_json") ->
      exists m3 fs3 r, nmmap parse m2 fs2 dest base = Ok (m3, fs3, r) /\
        nvalue m3 r = Ok (tmap (file_order mach) v) /\
        owned_ok m3 r /\ extends m2 m3 (owned_blocks dest) /\
        forall name, mget fs3 name = mget fs2 name.
Proof.
  intros parse mach m fs src base v P M E U N T.
  destruct (nsave_ok mach m fs src base v E) as (m1 & fs1 & S & X & Lk & Fr & F1 & F2).
  exists m1, fs1. split; [exact S|]. intros m2 fs2 dest Ow A B.
  apply (mmap_back parse mach P M m src v E U N ltac:(lia) fs2 base); [|exact Ow|exact T].
  split; [unfold schema_file in *; rewrite B; exact F1|rewrite A; exact F2].
Qed.
Print Assumptions C36_save_mmap.

(** A node that meets the hypotheses: strided data, an empty leaf, an empty list
    and a string in borrowed memory. *)
Definition sv_mem : mem := [Some (L "abcdefghijklmnop"); Some (L "hi" ++ [zero_byte])].
Definition sv_node : node :=
  NObj null_hdr
    [(L "x y", NLst null_hdr [NLeaf (mkH (Some (0%nat, 0)) false) (mkDT UINT16 3 2 4 2 DEFAULT_E);
                               NLeaf null_hdr dt_empty; NLst null_hdr []]);
     (L "s/t", NLeaf (mkH (Some (1%nat, 0)) true) (mkDT CHAR8_STR 3 0 1 1 BIG_E))].
Example sv_value : exists v, nvalue sv_mem sv_node = Ok v /\
  vbytes v = L "cdghklhi" ++ [zero_byte].
Proof. eexists. split; vm_compute; reflexivity. Qed.
Example sv_hyps : names_unique (nschema sv_node) /\ all_names json_name (nschema sv_node) /\
  0 < ttotal (nschema sv_node) < 2 ^ 31.
Proof.
  split; [|split].
  - constructor.
    + cbn. constructor; [intros [H|[]]; discriminate|constructor; [intros []|constructor]].
    + repeat constructor.
  - constructor. repeat constructor; try discriminate.
  - vm_compute. split; reflexivity.
Qed.
Example sv_run :
  match nsave LITTLE_E sv_mem [] sv_node (L "out") with
  | Ok (m1, fs1) =>
      mget fs1 (L "out") = Some (L "cdghklhi" ++ [zero_byte]) /\
      match nload json_read m1 fs1 nempty (L "out"), nmmap json_read m1 fs1 nempty (L "out") with
      | Ok (m2, r), Ok (m3, _, r') =>
          nvalue m2 r = nvalue m3 r' /\
          nvalue m2 r = Ok (TObj [(L "x y", TList [TLeaf (Some (UINT16, LITTLE_E, [L "cd"; L "gh"; L "kl"]));
                                                   TLeaf None; TList []]);
                                  (L "s/t", TLeaf (Some (CHAR8_STR, BIG_E, [L "h"; L "i"; [zero_byte]])))])
      | _, _ => False
      end
  | _ => False
  end.
Proof. vm_compute. auto. Qed.

(** Mapping a node without data fails although loading it works. *)
Theorem C36_mmap_no_data_refuted : exists m src v m1 fs1,
  nvalue m src = Ok v /\ nsave LITTLE_E m [] src (L "out") = Ok (m1, fs1) /\
  (exists m2 r, nload json_read m1 fs1 nempty (L "out") = Ok (m2, r) /\ nvalue m2 r = Ok v) /\
  nmmap json_read m1 fs1 nempty (L "out") = Err.
Proof.
  exists [], (NObj null_hdr [(L "a", NLst null_hdr [])]). do 3 eexists.
  split; [vm_compute; reflexivity|]. split; [vm_compute; reflexivity|].
  split; [do 2 eexists; split; vm_compute; reflexivity|vm_compute; reflexivity].
Qed.
Print Assumptions C36_mmap_no_data_refuted.

(** A child called "dtype" makes the saved files unreadable. *)
Theorem C36_child_named_dtype_refuted : exists m src v m1 fs1,
  nvalue m src = Ok v /\ nsave LITTLE_E m [] src (L "out") = Ok (m1, fs1) /\
  forall m2 r, nload json_read m1 fs1 nempty (L "out") = Ok (m2, r) -> nvalue m2 r <> Ok v.
Proof.
  exists [Some (L "abcd")],
    (NObj null_hdr [(L "dtype", NLeaf (mkH (Some (0%nat, 0)) false) (mkDT UINT8 4 0 1 1 LITTLE_E))]).
  do 3 eexists. split; [vm_compute; reflexivity|]. split; [vm_compute; reflexivity|].
  intros m2 r X. vm_compute in X. first [discriminate X|injection X as <- <-; vm_compute; discriminate].
Qed.
Print Assumptions C36_child_named_dtype_refuted.

(** A quote in a child's name: the same. *)
Theorem C36_quote_in_name_refuted : exists m src v m1 fs1,
  nvalue m src = Ok v /\ nsave LITTLE_E m [] src (L "out") = Ok (m1, fs1) /\
  forall m2 r, nload json_read m1 fs1 nempty (L "out") = Ok (m2, r) -> nvalue m2 r <> Ok v.
Proof.
  exists [Some (L "abcd")],
    (NObj null_hdr [([quote], NLeaf (mkH (Some (0%nat, 0)) false) (mkDT UINT8 4 0 1 1 LITTLE_E))]).
  do 3 eexists. split; [vm_compute; reflexivity|]. split; [vm_compute; reflexivity|].
  intros m2 r X. vm_compute in X. first [discriminate X|injection X as <- <-; vm_compute; discriminate].
Qed.
Print Assumptions C36_quote_in_name_refuted.

(** The size of a mapping goes through an int: at 2^31 bytes nothing is promised
    any more. *)
Theorem C36_mmap_large_refuted : exists m src v m1 fs1,
  nvalue m src = Ok v /\ nsave LITTLE_E m [] src (L "out") = Ok (m1, fs1) /\
  nmmap json_read m1 fs1 nempty (L "out") = UB.
Proof.
  exists [Some (repeat zero_byte (Z.to_nat (2 ^ 31)))], (NLeaf (mkH (Some (0%nat, 0)) true) (dt_simple UINT8 (2 ^ 31))).
  destruct (mmap_large json_read LITTLE_E (2 ^ 31) json_read_reads ltac:(discriminate) ltac:(lia)) as (v & m1 & fs1 & H).
  exists v, m1, fs1. exact H.
Qed.
Print Assumptions C36_mmap_large_refuted.

(** ---- crashes ---- *)
(** A crash at any point of a save leaves every file but the two of the save as it was, and
    never both files half written: the data file is touched only when the schema file is
    complete.  The first of the disks is the one before, the last the one after. *)
Theorem C36_crash : forall mach m fs src base v,
  nvalue m src = Ok v ->
  exists l m1 fs1, nsave_crash mach m fs src base = Ok l /\ nsave mach m fs src base = Ok (m1, fs1) /\
    hd_error l = Some fs /\ last l fs = fs1 /\
    forall x, In x l ->
      (forall name, name <> base -> name <> base ++ L "_json" -> mget x name = mget fs name) /\
      (mget x base = mget fs base \/ mget x (base ++ L "_json") = mget fs1 (base ++ L "_json")).
Proof.
  intros mach m fs src base v E. destruct (nsave_ok mach m fs src base v E) as (m1 & fs1 & S & _).
  destruct (crash_ok mach m fs src base m1 fs1 S) as (l & C & R). exists l, m1, fs1. split; [exact C|]. split; [exact S|exact R].
Qed.
Print Assumptions C36_crash.
(** So what was saved under another name can be loaded whenever a save crashes. *)
Theorem C36_crash_elsewhere : forall parse mach m0 fs0 src0 base0 v0 m src base v,
  reads_json parse -> mach <> DEFAULT_E ->
  nvalue m0 src0 = Ok v0 -> names_unique (nschema src0) -> all_names json_name (nschema src0) ->
  ttotal (nschema src0) < 2 ^ 63 ->
  nvalue m src = Ok v ->
  base <> base0 -> base <> base0 ++ L "_json" -> base ++ L "_json" <> base0 ->
  exists ma fsa l, nsave mach m0 fs0 src0 base0 = Ok (ma, fsa) /\ nsave_crash mach m fsa src base = Ok l /\
    forall x, In x l -> forall m2 dest, owned_ok m2 dest ->
      exists m3 r, nload parse m2 x dest base0 = Ok (m3, r) /\ nvalue m3 r = Ok (tmap (file_order mach) v0).
Proof.
  intros parse mach m0 fs0 src0 base0 v0 m src base v P M E0 U N T E B1 B2 B3.
  destruct (C36_save_load parse mach m0 fs0 src0 base0 v0 P M E0 U N T) as (ma & fsa & S & _ & _ & _ & Ld).
  destruct (C36_crash mach m fsa src base v E) as (l & m1 & fs1 & C & _ & _ & _ & F).
  exists ma, fsa, l. split; [exact S|]. split; [exact C|]. intros x I m2 dest Ow. destruct (F x I) as [Fr _].
  destruct (Ld m2 x dest Ow) as (m3 & r & L1 & L2 & _).
  - apply Fr; [congruence|congruence].
  - apply Fr; [congruence|]. intros Q. apply app_inv_tail in Q. congruence.
  - exists m3, r. split; assumption.
Qed.
Print Assumptions C36_crash_elsewhere.
Example C36_crash_elsewhere_meets :
  match nsave LITTLE_E sv_mem [] sv_node (L "out") with
  | Ok (_, fsa) =>
      match nsave_crash LITTLE_E sv_mem fsa sv_node (L "next") with
      | Ok l => match nth_error l 100 with
                | Some x => match nload json_read [] x nempty (L "out") with
                            | Ok (m3, r) => nvalue m3 r = omap_ok (tmap (file_order LITTLE_E)) (nvalue sv_mem sv_node)
                            | _ => False
                            end
                | None => False
                end
      | _ => False
      end
  | _ => False
  end.
Proof. vm_compute. reflexivity. Qed.

(** A crash of a save over an earlier one can leave files that load, without an error, as
    something that was never saved: here the new schema over the old bytes. *)
Definition cr_mem : mem := [Some (L "abcdefgh"); Some (L "ijkl")].
Definition cr_old : node := NLeaf (mkH (Some (0%nat, 0)) false) (mkDT UINT32 2 0 4 4 LITTLE_E).
Definition cr_new : node := NLeaf (mkH (Some (1%nat, 0)) false) (mkDT UINT16 2 0 2 2 LITTLE_E).
Lemma crash_mix_from m old new :
  match nvalue m old, nvalue m new, nsave LITTLE_E m [] old (L "out") with
  | Ok vo, Ok vn, Ok (ma, fsa) =>
      match nsave_crash LITTLE_E m fsa new (L "out") with
      | Ok l => match nth_error l 109 with
                | Some x => match nload json_read m x nempty (L "out") with
                            | Ok (m3, r) => match nvalue m3 r with
                                            | Ok w => w <> tmap (file_order LITTLE_E) vo /\ w <> tmap (file_order LITTLE_E) vn
                                            | _ => False
                                            end
                            | _ => False
                            end
                | None => False
                end
      | _ => False
      end
  | _, _, _ => False
  end ->
  exists vo vn ma fsa l x m3 r w,
  nvalue m old = Ok vo /\ nvalue m new = Ok vn /\
  nsave LITTLE_E m [] old (L "out") = Ok (ma, fsa) /\ nsave_crash LITTLE_E m fsa new (L "out") = Ok l /\
  nth_error l 109 = Some x /\
  nload json_read m x nempty (L "out") = Ok (m3, r) /\ nvalue m3 r = Ok w /\
  w <> tmap (file_order LITTLE_E) vo /\ w <> tmap (file_order LITTLE_E) vn.
Proof.
  destruct (nvalue m old) as [vo| | |]; try contradiction. destruct (nvalue m new) as [vn| | |]; try contradiction.
  destruct (nsave LITTLE_E m [] old (L "out")) as [[ma fsa]| | |]; try contradiction.
  destruct (nsave_crash LITTLE_E m fsa new (L "out")) as [l| | |] eqn:C; try contradiction.
  destruct (nth_error l 109) as [x|] eqn:X; [|contradiction].
  destruct (nload json_read m x nempty (L "out")) as [[m3 r]| | |] eqn:Ld; try contradiction.
  destruct (nvalue m3 r) as [w| | |] eqn:W; try contradiction. intros [H1 H2].
  exists vo, vn, ma, fsa, l, x, m3, r, w. rewrite C, X, Ld, W. repeat (split; [reflexivity|]). split; assumption.
Qed.
Lemma crash_zeros_from m new k u t :
  match nvalue m new, nsave_crash LITTLE_E m [] new (L "out") with
  | Ok vn, Ok l =>
      match nth_error l k with
      | Some x => match nload json_read m x nempty (L "out") with
                  | Ok (m3, r) => nvalue m3 r = Ok u /\ vn = t
                  | _ => False
                  end
      | None => False
      end
  | _, _ => False
  end ->
  exists vn l x m3 r,
  nvalue m new = Ok vn /\ nsave_crash LITTLE_E m [] new (L "out") = Ok l /\ nth_error l k = Some x /\
  nload json_read m x nempty (L "out") = Ok (m3, r) /\ nvalue m3 r = Ok u /\ vn = t.
Proof.
  destruct (nvalue m new) as [vn| | |]; try contradiction.
  destruct (nsave_crash LITTLE_E m [] new (L "out")) as [l| | |]; try contradiction.
  destruct (nth_error l k) as [x|] eqn:X; [|contradiction].
  destruct (nload json_read m x nempty (L "out")) as [[m3 r]| | |] eqn:Ld; try contradiction. intros [H1 H2].
  exists vn, l, x, m3, r. rewrite X, Ld. repeat (split; [reflexivity|]). split; assumption.
Qed.
Theorem C36_crash_mix_refuted : exists m old new vo vn ma fsa l x m3 r w,
  nvalue m old = Ok vo /\ nvalue m new = Ok vn /\
  nsave LITTLE_E m [] old (L "out") = Ok (ma, fsa) /\ nsave_crash LITTLE_E m fsa new (L "out") = Ok l /\
  nth_error l 109 = Some x /\
  nload json_read m x nempty (L "out") = Ok (m3, r) /\ nvalue m3 r = Ok w /\
  w <> tmap (file_order LITTLE_E) vo /\ w <> tmap (file_order LITTLE_E) vn.
Proof.
  exists cr_mem, cr_old, cr_new. apply crash_mix_from. vm_compute. split; discriminate.
Qed.
Print Assumptions C36_crash_mix_refuted.
(** Also of a first save: data that did not get to the disk is loaded as zeros, without an
    error. *)
Theorem C36_crash_zeros_refuted : exists m new vn l x m3 r,
  nvalue m new = Ok vn /\ nsave_crash LITTLE_E m [] new (L "out") = Ok l /\ nth_error l 112 = Some x /\
  nload json_read m x nempty (L "out") = Ok (m3, r) /\
  nvalue m3 r = Ok (TLeaf (Some (UINT16, LITTLE_E, [L "ij"; [zero_byte; zero_byte]]))) /\
  vn = TLeaf (Some (UINT16, LITTLE_E, [L "ij"; L "kl"])).
Proof.
  exists cr_mem, cr_new. apply crash_zeros_from. vm_compute. split; reflexivity.
Qed.
Print Assumptions C36_crash_zeros_refuted.
