(** Which registration counts. *)
From Coq Require Import String List Bool.
From Verif Require Import RegModel.
Import ListNotations.
Local Open Scope string_scope.

(** A registration is for an operation in an environment, or for it in general. *)
Definition in_environment (t : tag) (c : operation_class) (r : registration) : Prop :=
  operation r = c /\ exists ts, tags r = Some ts /\ In t ts.
Definition in_general (c : operation_class) (r : registration) : Prop := operation r = c /\ tags r = None.

(** [r] is the last of a history that is of a kind. *)
Definition last_of (kind : registration -> Prop) (history : list registration) (r : registration) : Prop :=
  exists before after, history = (before ++ r :: after)%list /\ kind r /\ Forall (fun r => ~ kind r) after.

(** The implementation: the last one registered for the environment, and if there is none, the last one
    registered in general.  Only the former changes the label. *)
Inductive implemented (history : list registration) (t : tag) (c : operation_class) : ptransform -> (string -> string) -> Prop :=
| By_environment r : last_of (in_environment t c) history r ->
    implemented history t c (implementation r) (fun label => label ++ "[" ++ tag_value t ++ "]")
| By_general r : Forall (fun r => ~ in_environment t c r) history -> last_of (in_general c) history r ->
    implemented history t c (implementation r) (fun label => label).

Definition environment (use_tf_compat_v1 : bool) : tag := if use_tf_compat_v1 then TF_COMPAT_V1 else TF_V2_ONLY.

(** The operations an analysis is made of: the subclasses of OperationDef in analyzer_nodes.py and
    beam/beam_nodes.py but TensorSource, which is replaced before (beam/beam_nodes.py:24). *)
Definition operations : list operation_class :=
  ["PackedCombineAccumulate"; "PackedCombineMerge"; "CacheableCombineAccumulate"; "CacheableCombineMerge";
   "CacheableCombinePerKeyAccumulate"; "CacheableCombinePerKeyMerge"; "CacheableCombinePerKeyFormatKeys";
   "CacheableCombinePerKeyFormatLarge"; "ScaleAndFlattenPerKeyBucketBouandaries"; "VocabularyAccumulate";
   "VocabularyCount"; "VocabularyMerge"; "VocabularyPrune"; "VocabularyOrderAndWrite"; "ExtractVocabularyReservedTokens";
   "PTransform"; "EncodeCache"; "InstrumentDatasetCache"; "DecodeCache"; "AddKey"; "FlattenLists";
   "ExtractCombineMergeOutputs"; "ExtractPackedCombineMergeOutputs"; "CreateTensorBinding"; "CreateSavedModel";
   "ExtractInputForSavedModel"; "ApplySavedModel"; "ExtractFromDict"; "Flatten"].

(** What a visit is to give if the operation is implemented by [p] under [label]: the outputs as a tuple,
    or the error with the label. *)
Definition applied {pcollection} (result : outputs pcollection) (label : string) : visited pcollection :=
  match result with One o => Outputs [o] | Many os => Outputs os | Raises => Failed_to_apply label end.
