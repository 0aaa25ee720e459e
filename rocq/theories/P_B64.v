(** C42: the conduit_base64_json protocol. *)
From Verif Require Import Base DType Path SpecTree Schema Codec CodecFacts Mem MemFacts Node Json JsonSpec SpecNode NodeSet
  NodeAlloc SchemaInv Save NodeHist B64Json JsonFacts JsonRead JsonSchema SaveFacts B64Facts.
Local Open Scope Z_scope.

(** Any readable node whose names can be written as JSON strings, up to the size
    where the text stops fitting an int, printed with any white space: printing
    succeeds, changes no memory and leaves nothing allocated.  Reading the text into any
    node gives the values that were written, in memory the node owns; "default" byte
    order has become the machine's. *)
Theorem C42_round_trip : forall parse mach ind pad eoe depth m src v,
  reads_json parse -> mach <> DEFAULT_E -> Forall white pad -> Forall white eoe ->
  nvalue m src = Ok v -> names_unique (nschema src) -> all_names json_name (nschema src) ->
  ttotal (nschema src) <= 1610612733 ->
  exists m1 text, nto_base64_json mach ind pad eoe depth m src = Ok (m1, text) /\
    extends m m1 [] /\ (forall b, live m1 b -> (b < length m)%nat) /\
    forall m2 dest, owned_ok m2 dest ->
      exists m3 r, nfrom_base64_json parse m2 dest text = Ok (m3, r) /\
        nvalue m3 r = Ok (tmap (file_order mach) v) /\
        owned_ok m3 r /\ extends m2 m3 (owned_blocks dest).
Proof.
  intros parse mach ind pad eoe depth m src v P M Wp We E U N T.
  destruct (nto_ok mach ind pad eoe depth m src v E ltac:(lia)) as (m1 & W & X & Lk).
  exists m1. eexists. split; [exact W|]. split; [exact X|]. split; [exact Lk|]. intros m2 dest Ow.
  apply (from_back parse mach ind pad eoe depth m src v m2 dest); assumption.
Qed.
Print Assumptions C42_round_trip.

(** What is written is strict JSON: an object with the schema and, under
    data/base64, the RFC 4648 text of the node's elements in order. *)
Theorem C42_text : forall mach ind pad eoe depth m src v m1 text,
  mach <> DEFAULT_E -> Forall white pad -> Forall white eoe ->
  nvalue m src = Ok v -> names_unique (nschema src) -> all_names json_name (nschema src) ->
  ttotal (nschema src) <= 1610612733 ->
  nto_base64_json mach ind pad eoe depth m src = Ok (m1, text) ->
  exists sv, strict_json
    (JObj [(L "schema", sv); (L "data", JObj [(L "base64", JStr (b64_text (vbytes v)))])]) text.
Proof.
  intros mach ind pad eoe depth m src v m1 text M Wp We E U N T W.
  destruct (nto_ok mach ind pad eoe depth m src v E ltac:(lia)) as (m1' & W' & _).
  rewrite W in W'. injection W' as _ ->.
  assert (Ow : owned_ok m nempty) by (split; constructor).
  exact (proj1 (from_back json_read mach ind pad eoe depth m src v m nempty json_read_reads M Wp We E U N T Ow)).
Qed.
Print Assumptions C42_text.

(** A node that meets the hypotheses: strided data, an empty leaf, an empty list
    and a string in borrowed memory. *)
Definition b64_mem : mem := [Some (L "abcdefghijklmnop"); Some (L "hi" ++ [zero_byte])].
Definition b64_node : node :=
  NObj null_hdr
    [(L "x y", NLst null_hdr [NLeaf (mkH (Some (0%nat, 0)) false) (mkDT UINT16 3 2 4 2 DEFAULT_E);
                               NLeaf null_hdr dt_empty; NLst null_hdr []]);
     (L "s/t", NLeaf (mkH (Some (1%nat, 0)) true) (mkDT CHAR8_STR 3 0 1 1 BIG_E))].
Example b64_hyps : (exists v, nvalue b64_mem b64_node = Ok v) /\ names_unique (nschema b64_node) /\
  all_names json_name (nschema b64_node) /\ ttotal (nschema b64_node) <= 1610612733.
Proof.
  split; [eexists; vm_compute; reflexivity|]. split; [|split].
  - constructor.
    + cbn. constructor; [intros [H|[]]; discriminate|constructor; [intros []|constructor]].
    + repeat constructor.
  - constructor. repeat constructor; try discriminate.
  - vm_compute. discriminate.
Qed.
Example b64_run :
  match nto_base64_json LITTLE_E 2 (L " ") [c_nl] 0 b64_mem b64_node with
  | Ok (m1, text) =>
      match nfrom_base64_json json_read m1 nempty text with
      | Ok (m2, r) =>
          nvalue m2 r = Ok (TObj [(L "x y", TList [TLeaf (Some (UINT16, LITTLE_E, [L "cd"; L "gh"; L "kl"]));
                                                   TLeaf None; TList []]);
                                  (L "s/t", TLeaf (Some (CHAR8_STR, BIG_E, [L "h"; L "i"; [zero_byte]])))])
      | _ => False
      end
  | _ => False
  end.
Proof. vm_compute. reflexivity. Qed.

(** ** Where reading goes wrong *)

(** The texts below are strict JSON documents. *)
Definition qt (s : str) : str := quoted s.
Definition b64_doc_of (schema data : str) : str :=
  L "{" ++ qt (L "schema") ++ L ":" ++ schema ++ L "," ++ qt (L "data") ++ L ":" ++ data ++ L "}".
Definition u8_schema (n : str) : str :=
  L "{" ++ qt (L "dtype") ++ L ":" ++ qt (L "uint8") ++ L "," ++ qt (L "number_of_elements") ++ L ":" ++ n ++ L "}".

(** A text that encodes fewer bytes than its schema speaks of is not an error: the
    reader copies from behind the end of the decoded bytes. *)
Theorem C42_short_data_refuted : exists text v,
  json_read text = Ok v /\ nfrom_base64_json json_read [] nempty text = UB.
Proof.
  exists (b64_doc_of (u8_schema (L "8")) (L "{" ++ qt (L "base64") ++ L ":" ++ qt (L "QUJD") ++ L "}")).
  eexists. split; vm_compute; reflexivity.
Qed.
Print Assumptions C42_short_data_refuted.
(** The same text with a schema that matches. *)
Example C42_short_data_fits : exists m r,
  nfrom_base64_json json_read [] nempty
    (b64_doc_of (u8_schema (L "3")) (L "{" ++ qt (L "base64") ++ L ":" ++ qt (L "QUJD") ++ L "}")) = Ok (m, r) /\
  nvalue m r = Ok (TLeaf (Some (UINT8, DEFAULT_E, [L "A"; L "B"; L "C"]))).
Proof. do 2 eexists. split; vm_compute; reflexivity. Qed.

(** Base64 text without the padding characters is written past the end of the
    decoding buffer. *)
Theorem C42_no_padding_refuted : exists text v,
  json_read text = Ok v /\ nfrom_base64_json json_read [] nempty text = UB.
Proof.
  exists (b64_doc_of (u8_schema (L "1")) (L "{" ++ qt (L "base64") ++ L ":" ++ qt (L "TQ") ++ L "}")).
  eexists. split; vm_compute; reflexivity.
Qed.
Print Assumptions C42_no_padding_refuted.

(** "data" that is not an object, or "base64" that is not a string, is not reported
    as an error; a missing one is. *)
Theorem C42_wrong_kind_refuted : exists t1 v1 t2 v2,
  json_read t1 = Ok v1 /\ nfrom_base64_json json_read [] nempty t1 = UB /\
  json_read t2 = Ok v2 /\ nfrom_base64_json json_read [] nempty t2 = UB.
Proof.
  exists (b64_doc_of (u8_schema (L "1")) (L "7")). eexists.
  exists (b64_doc_of (u8_schema (L "1")) (L "{" ++ qt (L "base64") ++ L ":7}")). eexists.
  split; [vm_compute; reflexivity|]. split; [vm_compute; reflexivity|]. split; vm_compute; reflexivity.
Qed.
Print Assumptions C42_wrong_kind_refuted.
Example C42_missing_is_error :
  nfrom_base64_json json_read [] nempty (L "{" ++ qt (L "schema") ++ L ":[]}") = Err /\
  nfrom_base64_json json_read [] nempty
    (L "{" ++ qt (L "data") ++ L ":{" ++ qt (L "base64") ++ L ":" ++ qt [] ++ L "}}") = Err.
Proof. split; vm_compute; reflexivity. Qed.

(** A child called "dtype": the printed text does not give the node back. *)
Theorem C42_child_named_dtype_refuted : exists m src v m1 text,
  nvalue m src = Ok v /\ nto_base64_json LITTLE_E 2 (L " ") [c_nl] 0 m src = Ok (m1, text) /\
  forall m2 r, nfrom_base64_json json_read m1 nempty text = Ok (m2, r) -> nvalue m2 r <> Ok v.
Proof.
  exists [Some (L "abcd")],
    (NObj null_hdr [(L "dtype", NLeaf (mkH (Some (0%nat, 0)) false) (mkDT UINT8 4 0 1 1 LITTLE_E))]).
  do 3 eexists. split; [vm_compute; reflexivity|]. split; [vm_compute; reflexivity|].
  intros m2 r X. vm_compute in X. first [discriminate X|injection X as <- <-; vm_compute; discriminate].
Qed.
Print Assumptions C42_child_named_dtype_refuted.
