(** * What AnalyzeDataset and AnalyzeDatasetWithCache accept
    /repo/tensorflow_transform/beam/impl.py:1085-1107, 1109-1202, 1393-1444.
    PCollections are only present or not.  Simplified: a temporary directory can be made (Context), metadata is not deferred. *)
From Coq Require Import List Bool Arith String Ascii.
From Verif Require Import CacheKeyModel.
Import ListNotations.

(** What tracing the preprocessing function gives: an exception, or its outputs (not a dict, or a dict with that many), and how many
    trainable variables there are *)
Inductive outputs := Not_a_dict | Dict (n : nat).
Definition traced := option (outputs * nat).

(** The metadata: a DatasetMetadata with instance dicts, or a TensorAdapterConfig; with that many features *)
Inductive metadata := Instance_dicts (features : nat) | Tensor_adapter_config (features : nat).
Definition features_of (m : metadata) : nat := match m with Instance_dicts n | Tensor_adapter_config n => n end.

(** The four parts of a dataset, 1087 and 1123-1128: data, data by key (None: covered by cache), caches by key with that many
    entries, metadata *)
Record dataset := Dataset {
  flat_data : bool; data_dict : list (dataset_key * bool); cache_dict : option (list (dataset_key * nat)); meta : metadata }.

Inductive outcome :=
| Accepted | Assertion_error | Passthrough_error | Empty_metadata | Tracing_error | Not_a_dict_error | Empty_dict_error
| Trainable_error | Stop_iteration | Key_error.

(** _extract_input_pvalues, 1085-1107: how many PCollections there are; the assertion *)
Definition input_pvalues (d : dataset) : nat :=
  (if flat_data d then 1 else 0)
  + List.length (filter snd (data_dict d))
  + match cache_dict d with Some c => list_sum (map snd c) | None => 0 end.
Definition extract_input_pvalues (pipeline : bool) (d : dataset) : bool := pipeline || negb (input_pvalues d =? 0).

(** expand, 1109-1202; [passthrough]: Context.get_passthrough_keys() is not empty *)
Definition expand (pipeline passthrough : bool) (t : traced) (d : dataset) : outcome :=
  let instance_dicts := match meta d with Instance_dicts _ => true | _ => false end in
  if instance_dicts && passthrough then Passthrough_error
  else if features_of (meta d) =? 0 then Empty_metadata
  else match t with
    | None => Tracing_error
    | Some (Not_a_dict, _) => Not_a_dict_error
    | Some (Dict n, trainable) =>
      if n =? 0 then Empty_dict_error
      else if negb (trainable =? 0) then Trainable_error
      (* self.pipeline or (flattened_pcoll or next(...)).pipeline, 1195-1201 *)
      else if pipeline || flat_data d || existsb snd (data_dict d) then Accepted
      else Stop_iteration
    end.

(** AnalyzeDataset, 1413-1444: always with data *)
Definition analyze_dataset (pipeline passthrough : bool) (t : traced) (m : metadata) : outcome :=
  expand pipeline passthrough t (Dataset true [] None m).

(** AnalyzeDatasetWithCache, 1393-1410, of (data by key, caches by key, metadata): the keys that are validated are those of
    dataset[1], 1407-1408, which are the caches. *)
Definition analyze_dataset_with_cache (pipeline passthrough : bool) (t : traced)
    (data : list (dataset_key * bool)) (caches : option (list (dataset_key * nat))) (m : metadata) : outcome :=
  let d := Dataset false data caches m in
  if negb (extract_input_pvalues pipeline d) then Assertion_error
  else
    let input_values_pcoll_dict := match caches with Some c => c | None => [] end in
    if forallb validate_dataset_key (map fst input_values_pcoll_dict) then expand pipeline passthrough t d
    else Key_error.
