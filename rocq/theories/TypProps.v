(** C87: types of the tensors of features, and domains of the columns of SequenceExamples. *)
From Coq Require Import String List Bool Arith ZArith Lia.
From Verif Require Import TypModel TypSpec TypProofs TypExample.
Import ListNotations.
Open Scope string_scope.

(** What a batch is parsed to has the type that is given for its feature, if and only if the partitions of uniform length
    come last, given that the features of feature lists are known. *)
Theorem c87_types : forall ragged_sequence_features name sequence n f v T,
  type_spec_of ragged_sequence_features name f = Ok T ->
  parsed sequence n f v -> (sequence = true <-> In name ragged_sequence_features) ->
  (has_type (type_of f) v T <-> forall value_key partitions t, f = Ragged value_key partitions t -> uniform_last partitions).
Proof. exact types_right. Qed.

Example c87_types_applies :
  exists T, type_spec_of ["words"] "points" points = Ok T /\ parsed false 2 points points_data /\ has_type Float32 points_data T /\
  exists T', type_spec_of ["words"] "words" words = Ok T' /\ parsed true 2 words words_data /\ has_type String words_data T'.
Proof.
  assert (P : parsed false 2 points points_data).
  { apply (parsed_ragged false 2 "points" [Rows; Uniform 2] Float32 [1; 3] [] [[4; 0; 5; 3]] [2]); [reflexivity | | discriminate | reflexivity].
    apply partition_rows, partition_values, no_partition. }
  assert (W : parsed true 2 words words_data).
  { apply (parsed_ragged true 2 "words" [] String [1; 2] [[4; 0; 7]] [] []); [reflexivity | constructor | intros _; now eexists | discriminate]. }
  eexists. split; [reflexivity|]. split; [exact P|]. split.
  - apply (proj2 (c87_types ["words"] "points" false 2 points points_data _ eq_refl P ltac:(split; [discriminate | intros [E|[]]; discriminate]))).
    intros vk ps t [= _ <- _]. apply rows_first. exact (only_uniform [2]).
  - eexists. split; [reflexivity|]. split; [exact W|].
    apply (proj2 (c87_types ["words"] "words" true 2 words words_data _ eq_refl W ltac:(split; [now left | reflexivity]))).
    intros vk ps t [= _ <- _]. exact (only_uniform []).
Qed.

(** Not so otherwise: rows of two lists of any length are parsed to a ragged tensor with three partitions, and its type says
    two. *)
Theorem c87_uniform_refuted : exists f n v T,
  type_spec_of [] "pairs" f = Ok T /\ parsed false n f v /\ ~ has_type (type_of f) v T.
Proof.
  exists (Ragged "pairs" [Uniform 2; Rows] Int64), 1, (Ragged_data [[1]; [2]; [3; 0]] []). eexists. split; [reflexivity|].
  assert (P : parsed false 1 (Ragged "pairs" [Uniform 2; Rows] Int64) (Ragged_data [[1]; [2]; [3; 0]] [])).
  { apply (parsed_ragged false 1 "pairs" [Uniform 2; Rows] Int64 [1] [] [[2]; [3; 0]] []); [reflexivity | | discriminate | reflexivity].
    apply (partition_uniform [Rows] [3; 0] [] 2 1 []). apply partition_rows, no_partition. }
  split; [exact P|]. intros H.
  pose proof (proj1 (c87_types [] "pairs" false 1 (Ragged "pairs" [Uniform 2; Rows] Int64) _ _ eq_refl P ltac:(split; [discriminate | intros []])) H) as L.
  specialize (L _ _ _ eq_refl). inversion L as [[|l [|m ls]] E|ps U]; discriminate E.
Qed.

(** A sparse feature whose size is an int, as tf.io.SparseFeature documents, has a placeholder and is parsed, but has no type. *)
Theorem c87_size_refuted : exists f p, parsed false 3 f (Sparse_data [3; 10]) /\
  batched_placeholders_from_specs [("x", Feature f)] = Ok [("x", p)] /\ has_type (type_of f) (Sparse_data [3; 10]) p /\
  get_type_specs_from_feature_specs [("x", f)] [] = Err TypeError.
Proof.
  exists (Sparse "v" (Size_int 10) Float32). eexists. split; [constructor|]. split; [reflexivity|]. split; [|reflexivity].
  apply sparse_type. constructor; [now left|]. constructor; [now right | constructor].
Qed.

(** The placeholders of a graph have the types of the tensors of a function. *)
Theorem c87_placeholders : forall ragged_sequence_features specs placeholders types,
  batched_placeholders_from_specs (map (fun e => (fst e, Feature (snd e))) specs) = Ok placeholders ->
  get_type_specs_from_feature_specs specs ragged_sequence_features = Ok types -> placeholders = types.
Proof. exact placeholders_same. Qed.

(** There are placeholders if and only if each feature is of type int64, float32 or string and is of a kind that has them. *)
Theorem c87_accepted : forall specs,
  (exists placeholders, batched_placeholders_from_specs (map (fun e => (fst e, Feature (snd e))) specs) = Ok placeholders) <->
  (forall name f, In (name, f) specs -> takes (type_of f) /\ plain f).
Proof. exact placeholders_accepted. Qed.

(** The placeholders of types have these types. *)
Theorem c87_placeholders_of_types : forall types, (forall name t, In (name, t) types -> takes (of_type t)) ->
  batched_placeholders_from_specs (map (fun e => (fst e, Type_spec (snd e))) types) = Ok types.
Proof. exact placeholders_typed. Qed.

(** Features and types are not taken together. *)
Theorem c87_mixed : forall specs n f m t, In (n, Feature f) specs -> In (m, Type_spec t) specs ->
  batched_placeholders_from_specs specs = Err TypeError.
Proof. exact placeholders_mixed. Qed.

Example c87_placeholders_applies : exists types,
  batched_placeholders_from_specs (map (fun e => (fst e, Feature (snd e))) queries) = Ok types /\
  get_type_specs_from_feature_specs queries ["words"] = Ok types /\
  (forall name t, In (name, t) types -> takes (of_type t)) /\
  batched_placeholders_from_specs (map (fun e => (fst e, Type_spec (snd e))) types) = Ok types /\
  batched_placeholders_from_specs (("y", Type_spec (TensorSpec [None] Int64)) :: map (fun e => (fst e, Feature (snd e))) queries) = Err TypeError.
Proof.
  eexists. split; [reflexivity|]. split; [reflexivity|]. split; [|split; [reflexivity|]];
    [|eapply c87_mixed; [right; left; reflexivity | left; reflexivity]].
  intros name t [[= <- <-]|[[= <- <-]|[[= <- <-]|[]]]]; unfold takes; auto.
Qed.

Example c87_accepted_applies :
  (forall name f, In (name, f) queries -> takes (type_of f) /\ plain f) /\
  ~ (exists p, batched_placeholders_from_specs [("words", Feature words)] = Ok p).
Proof.
  split.
  - apply c87_accepted. eexists. reflexivity.
  - intros P. destruct (proj1 (c87_accepted [("words", words)]) P "words" words (or_introl eq_refl)) as [_ []].
Qed.

(** Each feature has the domain of the column that its values are in, if no two columns have the same name. *)
Theorem c87_domains : forall s context sequence specs domains,
  NoDup (map fst context) -> NoDup (flat_map columns (features s)) -> NoDup (map fst (string_domains s)) ->
  sequence_schema_as_feature_spec s context sequence = Ok (specs, domains) ->
  forall name f column, In (name, f) specs -> values_in name f column ->
  (forall d r, column_of (features s) column d -> means s d r -> get domains name = r) /\
  ((forall d, ~ column_of (features s) column d) -> get domains name = None).
Proof. exact domains_right. Qed.

(** The features are those of contexts and of feature lists, if no two have the same name. *)
Theorem c87_features : forall s context sequence specs domains,
  NoDup (map fst context) -> NoDup (map fst sequence) -> (forall n, In n (map fst context) -> ~ In n (map fst sequence)) ->
  sequence_schema_as_feature_spec s context sequence = Ok (specs, domains) ->
  forall name f, In (name, f) specs <-> In (name, f) context \/ In (name, f) sequence.
Proof. exact specs_union. Qed.

Example c87_domains_applies : exists specs domains,
  sequence_schema_as_feature_spec query_schema context lists = Ok (specs, domains) /\
  NoDup (map fst context) /\ NoDup (map fst lists) /\ NoDup (flat_map columns (features query_schema)) /\
  NoDup (map fst (string_domains query_schema)) /\ (forall n, In n (map fst context) -> ~ In n (map fst lists)) /\
  In ("words", words) specs /\ get domains "words" = Some "a list of words" /\ In ("bag", bag) specs /\ get domains "bag" = Some "0..9".
Proof.
  assert (N1 : NoDup (map fst context)) by (cbn; repeat constructor; cbn; intuition discriminate).
  assert (N2 : NoDup (flat_map columns (features query_schema))) by (cbn; repeat constructor; cbn; intuition discriminate).
  assert (N3 : NoDup (map fst (string_domains query_schema))) by (cbn; repeat constructor; cbn; intuition discriminate).
  eexists. eexists. split; [reflexivity|]. split; [exact N1|]. split; [cbn; repeat constructor; cbn; intuition discriminate|].
  split; [exact N2|]. split; [exact N3|]. split; [cbn; intuition (subst; discriminate)|].
  split; [cbn; auto|]. split; [|split; [cbn; auto|]].
  - eapply (c87_domains query_schema context lists _ _ N1 N2 N3 eq_refl "words" words "words"); [cbn; auto | constructor | | ].
    + eapply column_in; [cbn; auto 6|]. apply column_here. now left.
    + apply means_shared. cbn. auto.
  - eapply (c87_domains query_schema context lists _ _ N1 N2 N3 eq_refl "bag" bag "bag_values"); [cbn; auto | constructor | | ].
    + apply column_here. cbn. auto.
    + apply means_own.
Qed.

(** A column of the context and one of the feature lists may have the same name in a SequenceExample: the feature of the
    context then has the domain of the other one. *)
Theorem c87_same_name_refuted : exists s context sequence specs domains d r,
  sequence_schema_as_feature_spec s context sequence = Ok (specs, domains) /\
  In ("id", VarLen Int64) context /\ In ("id", VarLen Int64) specs /\ In (Leaf "id" d) (features s) /\ means s d r /\ get domains "id" <> r.
Proof.
  exists clash, [("id", VarLen Int64)], [("ids", Ragged "id" [] Int64)]. do 2 eexists. exists (Own_domain "0..9"), (Some "0..9").
  split; [reflexivity|]. split; [now left|]. split; [now left|]. split; [now left|]. split; [constructor|]. discriminate.
Qed.

(** Of two features with the same name that of the context is lost, without an error. *)
Theorem c87_lost_refuted : exists s context sequence specs domains f,
  sequence_schema_as_feature_spec s context sequence = Ok (specs, domains) /\ In ("id", f) context /\ forall n, ~ In (n, f) specs.
Proof.
  exists clash, [("id", VarLen Int64)], [("id", Ragged "id" [] Int64)]. do 2 eexists. exists (VarLen Int64).
  split; [reflexivity|]. split; [now left|]. intros n [E|[]]. discriminate.
Qed.

(** The types that outputs are written with are those of the data, if the names of the ragged features of feature lists are
    those of the columns there and no others. *)
Theorem c87_written : forall s specs types name f T sequence n v, NoDup (map fst specs) ->
  converter_types s specs = Ok types -> In (name, f) specs -> get types name = Some T ->
  (sequence = true <-> In name (flat_map child_names (features s))) -> parsed sequence n f v ->
  (has_type (type_of f) v T <-> forall value_key partitions t, f = Ragged value_key partitions t -> uniform_last partitions).
Proof. exact converter_right. Qed.

Example c87_written_applies : exists types T, NoDup (map fst lists) /\ converter_types query_schema lists = Ok types /\
  In ("words", words) lists /\ get types "words" = Some T /\ In "words" (flat_map child_names (features query_schema)) /\
  parsed true 2 words words_data /\ has_type String words_data T.
Proof.
  assert (N : NoDup (map fst lists)) by (cbn; repeat constructor; cbn; intuition discriminate).
  assert (W : parsed true 2 words words_data).
  { apply (parsed_ragged true 2 "words" [] String [1; 2] [[4; 0; 7]] [] []); [reflexivity | constructor | intros _; now eexists | discriminate]. }
  assert (C : In "words" (flat_map child_names (features query_schema))) by (cbn; auto).
  do 2 eexists. split; [exact N|]. split; [reflexivity|]. split; [now left|]. split; [reflexivity|]. split; [exact C|]. split; [exact W|].
  refine (proj2 (c87_written query_schema lists _ "words" words _ true 2 words_data N eq_refl (or_introl eq_refl) eq_refl _ W) _).
  - split; auto.
  - intros vk ps t [= _ <- _]. exact (only_uniform []).
Qed.

(** A ragged feature of feature lists that has another name than its column has a dimension too few. *)
Theorem c87_renamed_refuted : exists s specs types name f T v,
  converter_types s specs = Ok types /\ In (name, f) specs /\ get types name = Some T /\
  (exists column struct children d, values_in name f column /\ In (Struct struct children) (features s) /\ In (Leaf column d) children) /\
  parsed true 2 f v /\ ~ has_type (type_of f) v T.
Proof.
  exists query_schema, [("tokens", words)]. eexists. exists "tokens", words. eexists. exists words_data.
  split; [reflexivity|]. split; [now left|]. split; [reflexivity|]. split.
  { exists "words", "##SEQUENCE##". do 2 eexists. split; [constructor|]. split; [cbn; auto 6|]. now left. }
  split.
  - apply (parsed_ragged true 2 "words" [] String [1; 2] [[4; 0; 7]] [] []); [reflexivity | constructor | intros _; now eexists | discriminate].
  - intros H. cbn in H. remember (RaggedTensorSpec [None; None] String 1) as T eqn:E. inversion H; subst; discriminate.
Qed.

Print Assumptions c87_types.
Print Assumptions c87_uniform_refuted.
Print Assumptions c87_size_refuted.
Print Assumptions c87_placeholders.
Print Assumptions c87_accepted.
Print Assumptions c87_placeholders_of_types.
Print Assumptions c87_mixed.
Print Assumptions c87_domains.
Print Assumptions c87_features.
Print Assumptions c87_same_name_refuted.
Print Assumptions c87_lost_refuted.
Print Assumptions c87_written.
Print Assumptions c87_renamed_refuted.
