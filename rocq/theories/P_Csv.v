(** C58: a table written as comma separated text is the same table when it is read. *)
From Coq Require Import ZArith QArith Qabs Lia Permutation Floats.SpecFloat.
From Verif Require Import Base DType Number Codec Json FloatText Csv CsvFacts CsvNum CsvMany RoundFacts NumConvFacts GText GRead CsvFloat.
Local Open Scope Z_scope.

(** any table of numbers, with any number of rows: the names, the grouping and the number of
    rows are kept, and each element is what its text is read as *)
Theorem C58_table t n v : good_table t n v ->
  exists text x, write_csv v = Ok text /\ read_table t text = Ok x /\ table_back t v x.
Proof. exact (table_round_trip t n v). Qed.
Print Assumptions C58_table.
(** integers up to 2^24, or 2^53 with use_float64, are read exactly *)
Theorem C58_integers t c z : t = FLOAT32 \/ t = FLOAT64 -> int_cell c z -> Z.abs z <= 2 ^ prec_of t ->
  exists x, back t c x /\ is_integer x z.
Proof. exact (integer_back t c z). Qed.
Print Assumptions C58_integers.
Theorem C58_special t x : t = FLOAT32 \/ t = FLOAT64 -> special x -> back t (CF32 x) x /\ back t (CF64 x) x.
Proof. exact (special_back t x). Qed.
Print Assumptions C58_special.
(** Floats from twice the smallest normal float of the type read to its largest: the float
    nearest to the number rounded to six significant digits, so within 6 millionths. *)
Theorem C58_floats t c s m e : is_float t = true -> float_cell c (S754_finite s m e) -> in_range t (dyadic (Zpos m) e) ->
  exists y r D, back t c y /\ significant 6 (dyadic (Zpos m) e) (Qabs D) /\ rounded t D s y /\ float_value y = Some r /\
    (Qabs (r - dyadic (cond_Zopp s (Zpos m)) e) <= (6 # 1000000) * dyadic (Zpos m) e)%Q.
Proof. exact (csv_float t c s m e). Qed.
Print Assumptions C58_floats.
(** A table of floats and of integers of at most six digits: the table read is written as the
    same text again. *)
Theorem C58_same_text t n v : t = FLOAT32 \/ t = FLOAT64 -> good_table t n v -> cells_all six_digits v ->
  exists text x, write_csv v = Ok text /\ read_table t text = Ok x /\ table_back t v x /\ write_csv (values_of t x) = Ok text.
Proof.
  intros T G S'. destruct (table_round_trip t n v G) as (text & x & W & R & B). exists text, x. split; [exact W|]. split; [exact R|]. split; [exact B|].
  rewrite (table_again t n v x T G S' B). exact W.
Qed.
Print Assumptions C58_same_text.
(** a list of columns comes back with the columns in order; they are named [0], [1], ... *)
Theorem C58_list_columns t n l : l <> [] -> Forall (fun cs => length cs = n /\ Forall (fun c => exists x, back t c x) cs) l ->
  good_table t n (KList (map Leaf l)).
Proof. exact (list_table_good t n l). Qed.
Print Assumptions C58_list_columns.
(** a list of tables, in whatever order the files of the directory are listed *)
Theorem C58_tables t dir vs : good_dir dir -> vs <> [] -> Z.of_nat (length vs) <= 2 ^ 31 -> Forall (good t) vs ->
  exists files, write_csv_many (KList vs) [] = Ok files /\
  forall found, Permutation files found ->
    exists xs, read_many t dir found = Ok (TList xs) /\ Forall2 (table_back t) vs xs.
Proof. exact (list_round_trip t dir vs). Qed.
Print Assumptions C58_tables.
Theorem C58_named_tables t dir (ts : list (str * values)) : good_dir dir -> NoDup (map fst ts) ->
  Forall (fun e => good_file (fst e) /\ good t (snd e)) ts ->
  Exists (fun e => forall r, fst e <> table_list_prefix ++ r) ts ->
  exists files, write_csv_many (KObj ts) [] = Ok files /\
  forall found, Permutation files found ->
    exists ks, read_many t dir found = Ok (TObj ks) /\ Permutation (map fst ts) (map fst ks) /\
      forall k v, In (k, v) ts -> exists x, mget ks k = Some x /\ table_back t v x.
Proof. exact (object_round_trip t dir ts). Qed.
Print Assumptions C58_named_tables.

(** * A case *)
Definition num (s : string) : spec_float := fst (c_strtod (L s)).
Definition ex_table : values :=
  KObj [(L "points", Group (KObj [(L "x", [CF64 (num "0.5"); CF64 (num "-2.25e-7")]);
                                  (L "y", [CF64 (num "1"); CF64 (S754_infinity true)])]));
        (L "id", Leaf [CInt (-7); CInt 16777216]);
        (L "3", Leaf [CUns 0; CUns 255])].
Example C58_text : write_csv ex_table =
  Ok (L "points/x, points/y, id, 3" ++ [c_nl] ++ L "0.5, 1, -7, 0" ++ [c_nl] ++ L "-2.25e-07, -inf, 16777216, 255" ++ [c_nl]).
Proof. vm_compute. reflexivity. Qed.
Lemma blank_check s : match s with [] => true | c :: _ => negb (c_space c) && negb (c_space (last s c)) end = true -> blank_free s.
Proof.
  intros H c r [-> | ->].
  - apply andb_true_iff in H. destruct H as [H _]. apply negb_true_iff, H.
  - destruct (r ++ [c]) as [|d u] eqn:E; [destruct r; discriminate|]. rewrite <- E in H.
    apply andb_true_iff in H. destruct H as [_ H]. rewrite last_last in H. apply negb_true_iff, H.
Qed.
Ltac good_name := split; [discriminate|split; [discriminate|split; [vm_compute; intuition discriminate|
  split; [vm_compute; intuition discriminate|split; [vm_compute; intuition discriminate|apply blank_check; reflexivity]]]]].
Ltac cells := repeat (apply Forall_cons; [eexists; eexists; vm_compute; reflexivity|]); apply Forall_nil.
Lemma ex_good : good_table FLOAT32 2 ex_table.
Proof.
  split; [|split].
  - vm_compute. repeat constructor; cbn; intuition discriminate.
  - unfold ex_table. cbn [named map fst snd]. apply Forall_cons; [|apply Forall_cons; [|apply Forall_cons; [|apply Forall_nil]]]; cbn [fst snd].
    + split; [good_name|]. split; [cbn; lia|]. split; [vm_compute; repeat constructor; cbn; intuition discriminate|].
      cbn [named map fst snd]. apply Forall_cons; [|apply Forall_cons; [|apply Forall_nil]]; cbn [fst snd];
      (split; [good_name|split; [reflexivity|cells]]).
    + split; [good_name|]. split; [reflexivity|cells].
    + split; [good_name|]. split; [reflexivity|cells].
  - apply Exists_cons_hd. intros (x & H). vm_compute in H. discriminate.
Qed.
Example C58_case : exists text x, write_csv ex_table = Ok text /\ read_table FLOAT32 text = Ok x /\ table_back FLOAT32 ex_table x.
Proof. exact (C58_table _ _ _ ex_good). Qed.
Example C58_many_case :
  exists files, write_csv_many (KList [ex_table; KList [Leaf [CInt 5]]; ex_table]) [] = Ok files /\
  exists xs, read_many FLOAT32 (L "out/") (rev files) = Ok (TList xs) /\
             Forall2 (table_back FLOAT32) [ex_table; KList [Leaf [CInt 5]]; ex_table] xs.
Proof.
  assert (G : Forall (good FLOAT32) [ex_table; KList [Leaf [CInt 5]]; ex_table]).
  { repeat apply Forall_cons; [exists 2%nat; exact ex_good| |exists 2%nat; exact ex_good|apply Forall_nil].
    exists 1%nat. apply (C58_list_columns FLOAT32 1 [[CInt 5]]); [discriminate|].
    apply Forall_cons; [|apply Forall_nil]. split; [reflexivity|cells]. }
  assert (D : good_dir (L "out/")).
  { split; [exists (L "out"); reflexivity|]. intros a b E. apply (f_equal (@length ascii)) in E. rewrite !app_length in E. cbn in E. lia. }
  destruct (C58_tables FLOAT32 (L "out/") [ex_table; KList [Leaf [CInt 5]]; ex_table] D ltac:(discriminate) ltac:(apply Z.leb_le; vm_compute; reflexivity) G) as (files & W & R).
  exists files. split; [exact W|]. apply R. apply Permutation_rev.
Qed.

(** * What does not hold *)
Ltac vr := vm_compute; reflexivity.
(** A float comes back with the six digits that were written, even with use_float64. *)
Theorem C58_digits_refuted : exists x y, back FLOAT64 (CF64 x) y /\ SFeqb x y = false.
Proof. exists (num "0.1234567"), (num "0.123457"). split; [eexists; vr|vr]. Qed.
Print Assumptions C58_digits_refuted.
(** A float64 beyond the range of float32 cannot be read without use_float64. *)
Theorem C58_range_refuted : exists v text, write_csv v = Ok text /\ read_table FLOAT32 text = Err.
Proof. exists (KObj [(L "a", Leaf [CF64 (num "1e300")])]). eexists. split. vr. vr. Qed.
Print Assumptions C58_range_refuted.
(** The smallest normal float32 is written as a number below it, which stof rejects. *)
Theorem C58_smallest_refuted : exists x v text, valid_binary 24 128 x = true /\ v = KObj [(L "a", Leaf [CF32 x])] /\
  write_csv v = Ok text /\ text = L "a" ++ [c_nl] ++ L "1.17549e-38" ++ [c_nl] /\ read_table FLOAT32 text = Err.
Proof. exists (S754_finite false 8388608 (-149)). do 2 eexists. split; [vr|]. split; [reflexivity|]. split. vr. split. reflexivity. vr. Qed.
Print Assumptions C58_smallest_refuted.
(** Integers of more than six digits lose digits when the table read is written again. *)
Theorem C58_again_refuted : exists v text x text', write_csv v = Ok text /\ read_table FLOAT32 text = Ok x /\
  write_csv (values_of FLOAT32 x) = Ok text' /\ text = L "a" ++ [c_nl] ++ L "1234567" ++ [c_nl] /\ text' = L "a" ++ [c_nl] ++ L "1.23457e+06" ++ [c_nl].
Proof. exists (KObj [(L "a", Leaf [CInt 1234567])]). do 3 eexists. split. vr. split. vr. split. vr. split; reflexivity. Qed.
Print Assumptions C58_again_refuted.
Example floats_met : in_range FLOAT32 (dyadic 13421773 (-27)) /\ float_cell (CF64 (S754_finite true 13421773 (-27))) (S754_finite true 13421773 (-27)) /\
  show (CF64 (S754_finite true 13421773 (-27))) = L "-0.1".
Proof. split; [split; vm_compute; discriminate|]. split; [right; reflexivity|vr]. Qed.
(** When all names are numbers, the file is taken to have no names, and then nothing works. *)
Theorem C58_numeric_names_refuted : exists v text, verify_values v = true /\ write_csv v = Ok text /\ read_table FLOAT32 text = UB.
Proof. exists (KObj [(L "1", Leaf [CInt 1]); (L "2", Leaf [CInt 2])]). eexists. split; [|split]. vr. vr. vr. Qed.
Print Assumptions C58_numeric_names_refuted.
(** A file without names: no columns are made, and the first entry is put past the end of the names. *)
Theorem C58_no_names_refuted : exists text, text = L "1, 2" ++ [c_nl] ++ L "3, 4" ++ [c_nl] /\ read_table FLOAT32 text = UB.
Proof. eexists. split; [reflexivity|]. vm_compute. reflexivity. Qed.
Print Assumptions C58_no_names_refuted.
(** A row with one entry too many is not reported. *)
Theorem C58_extra_entry_refuted : exists text, text = L "a, b" ++ [c_nl] ++ L "1, 2, 3" ++ [c_nl] /\ read_table FLOAT32 text = UB.
Proof. eexists. split; [reflexivity|]. vm_compute. reflexivity. Qed.
Print Assumptions C58_extra_entry_refuted.
(** What follows a number in an entry is dropped without an error. *)
Theorem C58_junk_refuted : exists x, read_table FLOAT32 (L "a" ++ [c_nl] ++ L "1;5" ++ [c_nl]) = Ok (RObj [(L "a", RLeaf [x])]) /\ is_integer x 1.
Proof. eexists. split; [vr|]. vm_compute. split; reflexivity. Qed.
Print Assumptions C58_junk_refuted.
(** A list of columns becomes an object. *)
Theorem C58_list_kept_refuted : exists text x, write_csv (KList [Leaf [CInt 1]]) = Ok text /\
  read_table FLOAT32 text = Ok x /\ exists l, x = RObj [(L "[0]", l)].
Proof. do 2 eexists. split; [|split]. vr. vr. eexists. reflexivity. Qed.
Print Assumptions C58_list_kept_refuted.
(** A group of one component loses the component. *)
Theorem C58_one_component_refuted : exists text l, write_csv (KObj [(L "p", Group (KObj [(L "x", [CInt 1])]))]) = Ok text /\
  read_table FLOAT32 text = Ok (RObj [(L "p", RLeaf l)]).
Proof. do 2 eexists. split. vr. vr. Qed.
Print Assumptions C58_one_component_refuted.
(** A comma in a name makes two columns of one. *)
Theorem C58_comma_refuted : exists v text, named v = [(L "a,b", Leaf [CInt 1]); (L "c", Leaf [CInt 2])] /\ write_csv v = Ok text /\
  exists l1 l2 l3, read_table FLOAT32 text = Ok (RObj [(L "a", RLeaf l1); (L "b", RLeaf l2); (L "c", RLeaf l3)]) /\
                   l3 = [S754_zero false].
Proof. exists (KObj [(L "a,b", Leaf [CInt 1]); (L "c", Leaf [CInt 2])]). eexists. split; [reflexivity|]. split; [vr|]. do 3 eexists. split. vr. vr. Qed.
Print Assumptions C58_comma_refuted.
(** A slash in a name makes a group of a column. *)
Theorem C58_slash_refuted : exists text l, write_csv (KObj [(L "m/s", Leaf [CInt 1])]) = Ok text /\
  read_table FLOAT32 text = Ok (RObj [(L "{m", RObj [(L "s}", RLeaf l)])]).
Proof. do 2 eexists. split. vr. vr. Qed.
Print Assumptions C58_slash_refuted.
(** A directory that was written before keeps tables that are no longer there. *)
Theorem C58_stale_refuted : exists v d files xs, write_csv_many (KList [v; v]) [] = Ok d /\
  write_csv_many (KList [v]) d = Ok files /\ read_many FLOAT32 (L "out/") files = Ok (TList xs) /\ length xs = 2%nat.
Proof. exists (KList [Leaf [CInt 1]]). do 3 eexists. split; [|split; [|split]]. vr. vr. vr. vr. Qed.
Print Assumptions C58_stale_refuted.
(** A directory whose path has the words table_list_ in it: the list comes back as an object. *)
Theorem C58_directory_refuted : exists v files k0 k1 x0 x1, write_csv_many (KList [v; v]) [] = Ok files /\
  read_many FLOAT32 (L "table_list_run/") files = Ok (TObj [(k0, x0); (k1, x1)]) /\ k0 = L "table_list_0".
Proof. exists (KList [Leaf [CInt 1]]). do 5 eexists. split; [|split]. vr. vr. vr. Qed.
Print Assumptions C58_directory_refuted.
(** Tables whose names all begin with table_list_ lose their names. *)
Theorem C58_prefix_refuted : exists v files xs, write_csv_many (KObj [(L "table_list_b", v); (L "table_list_a", v)]) [] = Ok files /\
  read_many FLOAT32 (L "out/") files = Ok (TList xs).
Proof. exists (KList [Leaf [CInt 1]]). do 2 eexists. split. vr. vr. Qed.
Print Assumptions C58_prefix_refuted.
