(** Per-key min/max and counts, and the assembly of per-key results. *)
From Coq Require Import String List ZArith Bool.
From Verif Require Import CombineModel NumericModel FloatModel MeanVarModel SortModel.
Import ListNotations.
Open Scope Z_scope.

(** tf_utils.py:2048-2052: the dtype on which -min and max are computed.  Unlike the version without
    keys (1993-1997), int16 is not widened. *)
Definition per_key_work_dtype (d : int_dtype) : option int_dtype :=
  match d with
  | UInt8 | UInt16 => Some Int32
  | UInt32 | UInt64 => None
  | Int8 | Int16 | Int32 | Int64 => Some d
  end.

(** tf_utils.py:2026-2077 ([reduce_batch_minus_min_and_max_per_key]) on a batch of (key, value) rows. *)
Definition batch_minus_min_and_max_per_key (w : int_dtype) : list (string * Z) -> list (string * list arr) :=
  reduce_per_key (batch_minus_min_and_max w).

(** analyzers.py:565-659 ([_min_and_max_per_key], reduce_instance_dims=True): the entry of one key.
    [s] is how the runner combines the inputs of this key. *)
Definition key_min_and_max (d : int_dtype) (s : sched (sched (list arr))) : option (Z * Z) :=
  match per_key_work_dtype d with
  | None => None
  | Some w =>
      match analyze (np_combiner list_max (- dmax d) [ScalarShape; ScalarShape]) s with
      | Some [Sc minus_min; Sc mx] =>
          Some (wrap d (wrap w (0 - wrap w minus_min)), wrap d (wrap w mx))
      | _ => None
      end
  end.

(** tf_utils.py:749-771 ([reduce_batch_count_per_key]): the int64 counts of tf.unique_with_counts. *)
Definition batch_count_per_key (b : list string) : list (string * list arr) :=
  reduce_per_key (fun l : list unit => [Sc (Z.of_nat (List.length l))]) (map (fun k => (k, tt)) b).

(** analyzers.py:836-888 ([count_per_key]): the entry of one key. *)
Definition key_count (s : sched (sched (list arr))) : option Z :=
  match analyze (np_combiner (np_sum Int64) 0 [ScalarShape]) s with
  | Some [Sc total] => Some (wrap Int64 total)
  | _ => None
  end.

(** beam/analyzer_impls.py:1119-1171 ([_merge_outputs_by_key]): the key vector and the outputs, sorted by
    key; the list arrives in any order (beam.combiners.ToList). *)
Definition merge_outputs_by_key {O} (keys_and_outputs : list (string * O)) : list string * list O :=
  let sorted := py_sorted (fun a b => bytes_leb (fst a) (fst b)) keys_and_outputs in
  (map fst sorted, map snd sorted).

(** The per-key analysis of a dataset: Beam groups the reduced rows of all batches by key
    (beam/analyzer_impls.py:1350-1397, CombinePerKey), evaluates each group under a schedule of its own
    choice ([sch k]), and collects the groups in any order ([keys]). *)
Definition per_key_analysis {B O} (entry : sched (sched B) -> O) (sch : string -> sched (sched B)) (keys : list string)
  : list string * list O :=
  merge_outputs_by_key (map (fun k => (k, entry (sch k))) keys).

(** tf_utils.py:1605-1661 ([lookup_key]), one query: the maximum, over the key vocabulary, of the index
    where the key is equal to the query and -1 where it is not; -1 for an empty vocabulary. *)
Fixpoint match_indices (i : Z) (k : string) (vocab : list string) : list Z :=
  match vocab with
  | [] => []
  | k' :: v => (if String.eqb k k' then i else -1) :: match_indices (i + 1) k v
  end.
Definition lookup_key (k : string) (vocab : list string) : Z :=
  match vocab with [] => -1 | _ => list_max (match_indices 0 k vocab) end.

(** tf_utils.py:1688-1742 ([map_per_key_reductions]) for one per-key vector and one row: a zero of the
    shape of the first entry is appended for keys that are not in the vocabulary (t[0] raises for an
    empty vector).  None: an error. *)
Definition map_per_key {O} (zeros_like : O -> O) (results : list O) (vocab : list string) (k : string) : option O :=
  match results with
  | [] => None
  | t0 :: _ =>
      let i := lookup_key k vocab in
      let adjusted := if 0 <=? i then Z.to_nat i else List.length vocab in
      nth_error (results ++ [zeros_like t0]) adjusted
  end.
