(** C60: the schema of the outputs of a preprocessing function. *)
From Coq Require Import String Ascii List ZArith Bool Arith Permutation Sorted.
From Verif Require Import SchemaModel SchemaSpec SchemaGraph SchemaNames SchemaExample.
Import ListNotations.
Local Open Scope string_scope.
Local Open Scope list_scope.

(** In TensorFlow 1, once analyzers are evaluated, the schema describes each output by columns of its type and
    shape, with the range that was set last, the annotations of its values in order, and for sparse outputs the
    shape that was given last; other annotations are those of the schema. It raises exactly if an output has no
    description. *)
Theorem c60_schema_v1_partial : forall outputs calls g ses,
  trace_calls empty_graph calls = Returned g -> sane outputs calls -> values_not_shared outputs calls ->
  (forall u p i v, ~ In (Annotate u p (To_sparse i v)) calls) ->
  NoDup (flat_map (taken (domain_said ses calls) (annotations_on ses calls) (sparse_said calls) (shape_said ses calls)) outputs) ->
  right_schema (domain_said ses calls) (annotations_on ses calls) (sparse_said calls) (shape_said ses calls) true
               outputs (annotations_of_schema ses calls) (infer_feature_schema outputs g (Some ses)).
Proof. intros outputs calls g ses T S N NS ND. exact (schema_v1 outputs calls g ses T S N NS ND). Qed.

Example c60_schema_v1_partial_applies :
  trace_calls empty_graph calls = Returned (traced_calls calls) /\ sane outputs calls /\ values_not_shared outputs calls
  /\ (forall u p i v, ~ In (Annotate u p (To_sparse i v)) calls)
  /\ NoDup (flat_map (taken (domain_said ses calls) (annotations_on ses calls) (sparse_said calls) (shape_said ses calls)) outputs)
  /\ infer_feature_schema outputs (traced_calls calls) (Some ses) = Returned (the_schema []).
Proof.
  split; [reflexivity|]. split; [apply example_sane|]. split; [apply example_not_shared|]. split; [|split; [|vm_compute; reflexivity]].
  - intros u p i v I. unfold calls in I. in_cases; discriminate.
  - apply ordinary_names; cbn; repeat constructor; cbn; intuition discriminate.
Qed.

(** Before that, the same without what is not known yet: bounds of ranges, annotations, given shapes. *)
Theorem c60_deferred_v1 : forall outputs calls g,
  trace_calls empty_graph calls = Returned g -> sane outputs calls ->
  NoDup (flat_map (taken (domain_unknown calls) (fun _ => []) (fun _ => false) (fun _ => None)) outputs) ->
  right_schema (domain_unknown calls) (fun _ => []) (fun _ => false) (fun _ => None) false outputs [] (infer_feature_schema outputs g None).
Proof. intros outputs calls g T S ND. exact (schema_v1_deferred outputs calls g T S ND). Qed.

Example c60_deferred_v1_applies : sane outputs calls
  /\ NoDup (flat_map (taken (domain_unknown calls) (fun _ => []) (fun _ => false) (fun _ => None)) outputs)
  /\ infer_feature_schema outputs (traced_calls calls) None = Returned deferred_schema.
Proof.
  split; [apply example_sane|]. split; [|vm_compute; reflexivity].
  apply ordinary_names; cbn; repeat constructor; cbn; intuition discriminate.
Qed.

(** In TensorFlow 2 the same, also with annotations of sparse tensors, if no two outputs share their values. *)
Theorem c60_schema_v2_partial : forall outputs calls g ses,
  trace_calls empty_graph calls = Returned g -> sane outputs calls -> values_not_shared outputs calls ->
  NoDup (map (fun no => values_of (snd no)) outputs) -> ~ In "tft_schema_override_global_sentinel" (map fst outputs) ->
  NoDup (map fst outputs) ->
  NoDup (flat_map (taken (domain_said ses calls) (annotations_on ses calls) (sparse_said calls) (shape_said ses calls)) outputs) ->
  right_schema (domain_said ses calls) (annotations_on ses calls) (sparse_said calls) (shape_said ses calls) true
               outputs (annotations_of_schema ses calls) (infer_feature_schema_v2 outputs g ses true).
Proof. intros outputs calls g ses T S N NV NS NN ND. exact (schema_v2 outputs calls g ses T S N NV NN NS ND). Qed.

Example c60_schema_v2_partial_applies :
  let calls' := calls ++ [sparse_call] in
  trace_calls empty_graph calls' = Returned (traced_calls calls') /\ sane outputs calls' /\ values_not_shared outputs calls'
  /\ NoDup (map (fun no => values_of (snd no)) outputs) /\ ~ In "tft_schema_override_global_sentinel" (map fst outputs)
  /\ NoDup (map fst outputs)
  /\ NoDup (flat_map (taken (domain_said ses calls') (annotations_on ses calls') (sparse_said calls') (shape_said ses calls')) outputs)
  /\ infer_feature_schema_v2 outputs (traced_calls calls') ses true = Returned (the_schema [ids_annotation]).
Proof.
  cbv zeta. split; [reflexivity|]. split; [apply example_sane|]. split; [apply example_not_shared|].
  split; [cbn; repeat constructor; cbn; intuition discriminate|]. split; [cbn; intuition discriminate|].
  split; [cbn; repeat constructor; cbn; intuition discriminate|]. split; [|vm_compute; reflexivity].
  apply ordinary_names; cbn; repeat constructor; cbn; intuition discriminate.
Qed.

Theorem c60_deferred_v2 : forall outputs calls g ses,
  trace_calls empty_graph calls = Returned g ->
  NoDup (map (fun no => values_of (snd no)) outputs) ->
  NoDup (map fst outputs) ->
  NoDup (flat_map (taken (domain_unknown calls) (fun _ => []) (fun _ => false) (fun _ => None)) outputs) ->
  right_schema (domain_unknown calls) (fun _ => []) (fun _ => false) (fun _ => None) false outputs [] (infer_feature_schema_v2 outputs g ses false).
Proof. intros outputs calls g ses T NV NN ND. exact (schema_v2_deferred outputs calls g ses T NV NN ND). Qed.

Example c60_deferred_v2_applies :
  NoDup (map (fun no => values_of (snd no)) outputs) /\ NoDup (map fst outputs)
  /\ NoDup (flat_map (taken (domain_unknown calls) (fun _ => []) (fun _ => false) (fun _ => None)) outputs)
  /\ infer_feature_schema_v2 outputs (traced_calls calls) ses false = Returned deferred_schema.
Proof.
  split; [cbn; repeat constructor; cbn; intuition discriminate|]. split; [cbn; repeat constructor; cbn; intuition discriminate|].
  split; [|vm_compute; reflexivity]. apply ordinary_names; cbn; repeat constructor; cbn; intuition discriminate.
Qed.

(** Columns have different names if those of the outputs have no dollar. *)
Theorem c60_ordinary_names : forall domain annotations said given outputs,
  NoDup (map fst outputs) -> Forall (fun n => ~ In "$"%char (list_ascii_of_string n)) (map fst outputs) ->
  NoDup (flat_map (taken domain annotations said given) outputs).
Proof. exact ordinary_names. Qed.

Example c60_ordinary_names_applies :
  NoDup (map fst outputs) /\ Forall (fun n => ~ In "$"%char (list_ascii_of_string n)) (map fst outputs)
  /\ flat_map (taken (domain_said ses calls) (annotations_on ses calls) (sparse_said calls) (shape_said ses calls)) outputs
     = ["label"; "ids"; "ids$sparse_indices_0"; "ids$sparse_indices_1"; "ids$sparse_values"; "words"; "words$ragged_values"; "words$row_lengths_1"].
Proof.
  split; [cbn; repeat constructor; cbn; intuition discriminate|]. split; [|reflexivity].
  cbn; repeat constructor; cbn; intuition discriminate.
Qed.

(** In TensorFlow 1 the annotation of a sparse tensor (tft.annotators, schema_inference.annotate) is lost without an
    error: it is kept for the sparse tensor and looked up for its values. *)
Theorem c60_sparse_annotation_refuted : exists outputs calls g ses,
  trace_calls empty_graph calls = Returned g /\ sane outputs calls /\ values_not_shared outputs calls
  /\ NoDup (flat_map (taken (domain_said ses calls) (annotations_on ses calls) (sparse_said calls) (shape_said ses calls)) outputs)
  /\ ~ right_schema (domain_said ses calls) (annotations_on ses calls) (sparse_said calls) (shape_said ses calls) true
                    outputs (annotations_of_schema ses calls) (infer_feature_schema outputs g (Some ses))
  /\ exists s, infer_feature_schema outputs g (Some ses) = Returned s /\ Forall (fun f => extra_metadata f = []) (features s).
Proof.
  exists [("ids", Sparse "indices:0" "ids:0" Int64 (Some [None; None]))], [sparse_call], (traced_calls [sparse_call]), ses.
  split; [reflexivity|]. split.
  - constructor; intros; unfold sparse_call in *; in_cases; try discriminate. injection H as <- <- <- <-. exact ids_not_sentinel.
  - split; [|split; [|split]].
    + intros n o i v J V. in_cases. injection J as <- <-. cbn in V. subst v. repeat split; intros; unfold sparse_call in *; in_cases; try discriminate.
      injection H as <- <- <-. eauto.
    + cbn. repeat constructor; cbn; intuition discriminate.
    + intros [(_ & order & P & _ & E)|(_ & E)]; [|vm_compute in E; discriminate]. apply Permutation_sym, Permutation_length_1_inv in P. subst order. vm_compute in E. discriminate.
    + eexists. split; [vm_compute; reflexivity|]. repeat constructor.
Qed.

(** In TensorFlow 2 a tensor that is output under two keys has its range and annotations under the last only. *)
Theorem c60_two_keys_refuted : exists outputs calls g ses,
  trace_calls empty_graph calls = Returned g /\ sane outputs calls /\ values_not_shared outputs calls
  /\ NoDup (map fst outputs) /\ ~ In "tft_schema_override_global_sentinel" (map fst outputs)
  /\ NoDup (flat_map (taken (domain_said ses calls) (annotations_on ses calls) (sparse_said calls) (shape_said ses calls)) outputs)
  /\ ~ right_schema (domain_said ses calls) (annotations_on ses calls) (sparse_said calls) (shape_said ses calls) true
                    outputs (annotations_of_schema ses calls) (infer_feature_schema_v2 outputs g ses true)
  /\ exists a b o s, outputs = [(a, o); (b, o)] /\ infer_feature_schema_v2 outputs g ses true = Returned s
       /\ map (fun f => (f_name f, f_domain f)) (features s) = [(a, None); (b, Some (IntDomain (Some 0%Z) (Some 9%Z) true))].
Proof.
  exists twice, range_call, (traced_calls range_call), ses. split; [reflexivity|]. split.
  { constructor; intros; unfold range_call, twice in *; in_cases; try discriminate; injection H as <- <- <- <-; injection H0 as <- <-; reflexivity. }
  split. { intros n o i v J V. unfold twice in J. in_cases; injection J as <- <-; repeat split; intros; unfold range_call in *; in_cases; discriminate. }
  split; [cbn; repeat constructor; cbn; intuition discriminate|]. split; [cbn; intuition discriminate|].
  split; [cbn; repeat constructor; cbn; intuition discriminate|]. split.
  - intros [(_ & order & P & ST & E)|(_ & E)]; [|vm_compute in E; discriminate]. apply Permutation_sym, Permutation_length_2_inv in P as [-> | ->]; vm_compute in E; discriminate.
  - eexists "a", "b", _, _. split; [reflexivity|]. split; vm_compute; reflexivity.
Qed.

(** Annotations of sparse outputs are kept for their values: another output that shares them, like the result of
    tf.sparse.reshape, is described as the annotated one, and not as a variable length feature. *)
Theorem c60_shared_values_refuted : exists outputs calls g ses,
  trace_calls empty_graph calls = Returned g /\ sane outputs calls
  /\ (forall u p i v, ~ In (Annotate u p (To_sparse i v)) calls)
  /\ NoDup (flat_map (taken (domain_said ses calls) (annotations_on ses calls) (sparse_said calls) (shape_said ses calls)) outputs)
  /\ ~ right_schema (domain_said ses calls) (annotations_on ses calls) (sparse_said calls) (shape_said ses calls) true
                    outputs (annotations_of_schema ses calls) (infer_feature_schema outputs g (Some ses))
  /\ exists s, infer_feature_schema outputs g (Some ses) = Returned s /\ map s_name (sparse_features s) = map fst outputs
       /\ map (fun no => sparse_said calls (snd no)) outputs = [true; false].
Proof.
  exists reshaped, only_a_sparse, (traced_calls only_a_sparse), ses. split; [reflexivity|]. split.
  { constructor; intros; unfold only_a_sparse in *; in_cases; discriminate. }
  split; [intros u p i v I; unfold only_a_sparse in I; in_cases; discriminate|].
  split; [apply ordinary_names; cbn; repeat constructor; cbn; intuition discriminate|]. split.
  - intros [(_ & order & P & ST & E)|(_ & E)]; [|vm_compute in E; discriminate]. apply Permutation_sym, Permutation_length_2_inv in P as [-> | ->]; vm_compute in E; discriminate.
  - eexists. repeat split; vm_compute; reflexivity.
Qed.

(** With an output named like a column of another, a KeyError, though all outputs can be described. *)
Theorem c60_column_names_refuted : exists outputs ses,
  NoDup (map fst outputs) /\ sane outputs [] /\ values_not_shared outputs []
  /\ Forall (fun no => describable (sparse_said []) (shape_said ses []) true (snd no)) outputs
  /\ infer_feature_schema outputs empty_graph (Some ses) = Raised.
Proof.
  exists like_a_column, ses. split; [cbn; repeat constructor; cbn; intuition discriminate|]. split; [constructor; intros; in_cases|].
  split; [intros n o i v J V; repeat split; intros; in_cases|]. split; [|vm_compute; reflexivity].
  repeat constructor; cbn; try discriminate.
  - eexists. split; [reflexivity|]. intros _ given E. discriminate.
  - exists None, []. split; [reflexivity|]. intros _ [].
Qed.

Print Assumptions c60_schema_v1_partial.
Print Assumptions c60_deferred_v1.
Print Assumptions c60_schema_v2_partial.
Print Assumptions c60_deferred_v2.
Print Assumptions c60_ordinary_names.
Print Assumptions c60_sparse_annotation_refuted.
Print Assumptions c60_two_keys_refuted.
Print Assumptions c60_shared_values_refuted.
Print Assumptions c60_column_names_refuted.
