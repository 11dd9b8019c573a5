(** * Property C72: transform functions and metadata of older versions *)
From Coq Require Import String Ascii List ZArith Bool.
From Verif Require Import SchemaModel FspecModel FspecSpec LegacyModel LegacySpec LegacyJsonProofs LegacyProofs LegacyExample.
Import ListNotations.

(** A transform function of an older version, whose signature has an item for each component of a feature, is loaded
    with the signature of today, whatever the order of the items and whatever other graphs are saved with it; if no
    sparse feature is called dense_shape. *)
Theorem c72_old_signature : forall before m after i o ins outs,
  (forall m', In m' before -> ~ (tags m' <> [] /\ forall x, In x (tags m') -> x = "transform"%string)) ->
  tags m <> [] -> (forall x, In x (tags m) -> x = "transform"%string) -> NoDup (map fst (signature_def m)) -> In ("transform_signature"%string, Signature i o) (signature_def m) ->
  told_apart ins -> told_apart outs -> ~ sparse_dense_shape ins -> ~ sparse_dense_shape outs ->
  same_items i (flat_map old_items ins) -> same_items o (flat_map old_items outs) ->
  exists i' o', load_signature (before ++ m :: after) = Returned (Signature i' o') /\ same_items i' (map new_item ins) /\ same_items o' (map new_item outs).
Proof. exact load_old. Qed.
Example c72_old_signature_applies : told_apart old_features /\ ~ sparse_dense_shape old_features /\ same_items old_signature (flat_map old_items old_features) /\
  load_signature [Meta_graph ["serve"%string] []; Meta_graph ["transform"%string] [("transform_signature"%string, Signature old_signature [])]] =
  Returned (Signature [("words"%string, Tensor_info 7 None (Coo_sparse "w/values:0" "w/indices:0" "w/shape:0"));
                       ("dense_shape"%string, info 1 "d:0"); ("x"%string, info 1 "x:0")] []).
Proof. destruct old_features_meet as (A & B & C). split; [exact A|]. split; [exact B|]. split; [exact C|reflexivity]. Qed.

(** With such a feature it never loads. *)
Theorem c72_dense_shape : forall i o ins, told_apart ins -> sparse_dense_shape ins -> same_items i (flat_map old_items ins) ->
  update_legacy_signature (Signature i o) = Raised.
Proof. exact old_raises. Qed.
Theorem c72_dense_shape_refuted : exists ins, told_apart ins /\ forall i o, same_items i (flat_map old_items ins) -> update_legacy_signature (Signature i o) = Raised.
Proof.
  exists shape_features. destruct shape_features_meet as (A & B & _). split; [exact A|]. intros i o S. exact (old_raises i o shape_features A B S).
Qed.

(** A signature of today whose names do not end like those of components is loaded as it is. *)
Theorem c72_new_signature : forall i o, (forall n t, In (n, t) i \/ In (n, t) o -> plain_name n) ->
  update_legacy_signature (Signature i o) = Returned (Signature i o).
Proof. exact new_unchanged. Qed.
Example c72_new_signature_applies : plain_name "words_values" /\ plain_name "$"%string.
Proof.
  split; intros p c I; cbn in I; repeat (destruct I as [<-|I]; [split; intros E; apply (f_equal (fun s => rev (list_ascii_of_string s))) in E;
    rewrite list_of_append, rev_app_distr in E; discriminate E|]); destruct I.
Qed.

(** Other names are taken for those of components: a transform function with the column "price$values" loads with
    a sparse column "price" that has no indices. *)
Theorem c72_new_signature_refuted : exists t, t_encoding t = Tensor_name "price:0" /\
  update_legacy_signature (Signature [("price$values"%string, t)] []) =
  Returned (Signature [("price"%string, Tensor_info (t_dtype t) None (Coo_sparse "price:0" "" ""))] []).
Proof. exists (info 1 "price:0"). split; reflexivity. Qed.

(** The transform function of a saved model is a graph with the tag of transform functions and no other, and a saved model that
    has none is not loaded as one. *)
Theorem c72_exported_as_v1 : forall ms, exported_as_v1 ms = true <-> exists m, In m ms /\ tags m <> [] /\ forall x, In x (tags m) -> x = "transform"%string.
Proof. exact exported_iff. Qed.
Theorem c72_other_graphs : forall ms, exported_as_v1 ms = false -> load_signature ms = Raised.
Proof. exact load_other. Qed.
Example c72_other_graphs_applies : exported_as_v1 [Meta_graph ["serve"; "transform"]%string []; Meta_graph [] []] = false /\
  exported_as_v1 [Meta_graph ["serve"]%string []; Meta_graph ["transform"]%string []] = true.
Proof. split; reflexivity. Qed.
(** A graph with the tag and without the signature loads as one without inputs and outputs. *)
Theorem c72_no_signature_refuted : exists ms, (forall m, In m ms -> signature_def m = []) /\ load_signature ms = Returned (Signature [] []).
Proof. exists [Meta_graph ["transform"%string] []]. split; [intros m [<-|[]]; reflexivity|reflexivity]. Qed.

(** A JSON schema reads as the features it describes, with their types, shapes and integer domains, whether integers are numbers
    or strings and whatever other keys there are; if none has a default value. *)
Theorem c72_json_schema : forall int_of_string j fs, describes int_of_string j fs -> (forall f, In f fs -> ~ has_default f) ->
  exists s fs' ds', parse_schema_json int_of_string j = Returned s /\ as_feature_spec s = Returned (fs', ds') /\
    same_items (map spec_of fs) fs' /\ same_items (flat_map domains_of fs) ds'.
Proof. exact described_schema. Qed.
Example c72_json_schema_applies : describes digits_only old_document old_schema /\ (forall f, In f old_schema -> ~ has_default f).
Proof. exact old_document_meets. Qed.

(** One with a default value does not read. *)
Theorem c72_json_default : forall int_of_string j fs f, describes int_of_string j fs -> In f fs -> has_default f -> parse_schema_json int_of_string j = Raised.
Proof. exact described_default. Qed.
Theorem c72_json_default_refuted : exists j fs, describes digits_only j fs /\ parse_schema_json digits_only j = Raised.
Proof.
  exists default_document, default_schema. destruct default_document_meets as (A & f & I & D). split; [exact A|]. exact (described_default digits_only _ _ f A I D).
Qed.
(** Sparse features are dropped without a word. *)
Theorem c72_json_sparse_refuted : exists j sparse, has j "sparseFeature" (J_list sparse) /\ sparse <> [] /\
  parse_schema_json digits_only j = parse_schema_json digits_only (J_object []) /\ exists s, parse_schema_json digits_only j = Returned s.
Proof. exists sparse_document. eexists. split; [has_|]. split; [discriminate|]. split; [reflexivity|]. eexists. reflexivity. Qed.

Print Assumptions c72_old_signature.
Print Assumptions c72_dense_shape.
Print Assumptions c72_dense_shape_refuted.
Print Assumptions c72_new_signature.
Print Assumptions c72_new_signature_refuted.
Print Assumptions c72_exported_as_v1.
Print Assumptions c72_other_graphs.
Print Assumptions c72_no_signature_refuted.
Print Assumptions c72_json_schema.
Print Assumptions c72_json_default.
Print Assumptions c72_json_default_refuted.
Print Assumptions c72_json_sparse_refuted.
