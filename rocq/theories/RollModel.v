(** * AnalyzeDatasetWithCache when some datasets are left out *)
From Coq Require Import String.
From Coq Require Import List Arith Bool.
From Verif Require Import OptimizeModel.
Import ListNotations.

Section Roll.
Context {B C K PC : Type}.
Variable partitionable : B -> bool.
Variable cache_coder : B -> option C.
Variable num_outputs : B -> nat.
Variable key_eqb : K -> K -> bool.
Variable is_cached : K -> bool.
Variable class_name : op B C K -> string.
Variable fields : string -> op B C K -> list string.
Variable tensor_path : string -> option string.
Variable sha1 : string -> string.
Variable cache_version : string.
Variable flatten : list PC -> PC.
Variable sem : op B C K -> list PC -> list PC.
Variable encode decode : C -> PC -> PC.
(** The sum of the sizes of the record batches (beam/impl.py:1225-1230). *)
Variable size : PC -> nat.

Notation build := (optimize partitionable cache_coder num_outputs key_eqb is_cached class_name fields
  tensor_path sha1 cache_version).

(** beam/analysis_graph_builder.py:576-601 ([get_analysis_cache_entry_keys]): the graph is built with the cache
    [{}]; the keys of the output cache.  [None]: raises. *)
Definition analysis_cache_entry_keys (keys : list K) (root : node B C K) : option (list string) :=
  match build keys (Some (fun _ _ => false)) root with
  | Some (_, emitted) => Some (map (fun e => snd (fst e)) emitted)
  | None => None
  end.

(** The datasets given to [AnalyzeDatasetWithCache]: a PCollection, or None for one that need not be read
    (beam/impl.py:1093-1098).  The dictionary is listed in the sorted order of the keys. *)
Variable datasets : list (K * option PC).
Variable cache : K -> string -> option PC.

(** beam/common.py:174-215 ([ConstructBeamPipelineVisitor]) with beam/impl.py:816-838
    ([_ExtractInputForSavedModelImpl]) and analyzer_impls.py:1462-1543 ([_EncodeCacheImpl], [_DecodeCacheImpl]).
    [None]: raises; a dataset that is None cannot be read. *)
Fixpoint construct (n : node B C K) : option PC :=
  match n with
  | Node _ o inputs index =>
      match sequence (map construct inputs) with
      | None => None
      | Some xs =>
          match o with
          | Input None => option_map flatten (sequence (map snd datasets))
          | Input (Some k) => match at_key key_eqb k datasets with Some (Some p) => Some p | _ => None end
          | Flatten => Some (flatten xs)
          | Decode k key c => option_map (decode c) (cache k key)
          | Encode c => Some (encode c (nth 0 xs (flatten [])))
          | _ => Some (nth index (sem o xs) (flatten []))
          end
      end
  end.

(** beam/impl.py:1210-1238: [dataset_metrics]. *)
Definition dataset_metrics (k : K) : option nat :=
  match at_key key_eqb k datasets with Some (Some p) => Some (size p) | _ => None end.

(** beam/impl.py:1046-1063 ([_make_output_cache]) for one entry: [None] if the value cannot be computed, or
    the KeyError of [dataset_metrics[dataset_key]]. *)
Definition output_entry (e : K * string * node B C K) : option (K * string * (PC * nat)) :=
  match e with
  | (k, key, m) =>
      match construct m, dataset_metrics k with
      | Some p, Some s => Some (k, key, (p, s))
      | _, _ => None
      end
  end.

(** beam/impl.py:1109-1350 ([_AnalyzeDatasetCommon.expand]) as [AnalyzeDatasetWithCache] (1406-1410) calls it:
    the pipeline that was given or that of a dataset (1196-1202), the graph, its result, the output cache.
    Telemetry, metadata and the instrumentation of the cache are left out. *)
Definition analyze_with_cache (pipeline : bool) (root : node B C K)
    : option (PC * list (K * string * (PC * nat))) :=
  if pipeline || existsb (fun d => match snd d with Some _ => true | None => false end) datasets then
    match build (map fst datasets) (Some (fun k key => match cache k key with Some _ => true | None => false end)) root with
    | Some (v, emitted) =>
        match construct (flat v), sequence (map output_entry emitted) with
        | Some p, Some out => Some (p, out)
        | _, _ => None
        end
    | None => None
    end
  else None.
End Roll.
