(** tft.experimental.approximate_vocabulary: from the rows of a dataset to the lines of the file. *)
From Coq Require Import String Ascii List ZArith QArith Qcanon Bool Permutation.
From Verif Require Import CombineModel MeanVarModel SortModel VocabModel.
Import ListNotations.
Local Open Scope nat_scope.

(** tfx_bsl's [sketches.MisraGriesSketch], as far as it is used.  [add_values] takes items with their
    weights; [recode] is [Serialize] followed by [Deserialize]; [estimate] lists the items with the
    estimates of their weights, in the order of the array that [Estimate] returns. *)
Record sketch_ops (sketch : Type) := Sketch_ops {
  new_sketch : nat -> sketch;
  add_values : sketch -> list (string * Qc) -> sketch;
  merge : sketch -> sketch -> sketch;
  recode : sketch -> sketch;
  estimate : sketch -> list (Qc * string) }.
Arguments new_sketch {sketch}. Arguments add_values {sketch}. Arguments merge {sketch}.
Arguments recode {sketch}. Arguments estimate {sketch}.

(** What a runner does to get one accumulator of a dataset: adding batches to a new one, merging some,
    writing one to the cache and reading it again, or merging some into a new one, one by one
    (beam/analyzer_impls.py:961-1002).  A batch is the list of its values with their weights. *)
Inductive plan :=
| Add (batches : list (list (string * Qc)))
| Merge (first : plan) (rest : list plan)
| Cached (p : plan)
| Merge_into_new (ps : list plan).

Fixpoint batches_of (p : plan) : list (list (string * Qc)) :=
  match p with
  | Add bs => bs
  | Merge p0 rest => batches_of p0 ++ flat_map batches_of rest
  | Cached p => batches_of p
  | Merge_into_new ps => flat_map batches_of ps
  end.

(** experimental/analyzers.py:591-621 with tf_utils.py:159-226 ([reduce_batch_weighted_counts] with
    force=True): the distinct values of a batch that are not filtered out, with their counts or with the
    sums of their weights. *)
Definition reduced_batch (text weighted : bool) (batch : list (string * Qc)) : list (string * Qc) :=
  let kept := filter (fun r => negb (filtered_out text (fst r))) batch in
  reduce_per_key qc_sum (if weighted then kept else map (fun r => (fst r, Q2Qc 1)) kept).

Section sketch.
  Context {sketch : Type} (ops : sketch_ops sketch).

  (** experimental/analyzers.py:541-545 *)
  Definition create_accumulator (top_k : nat) : sketch := new_sketch ops top_k.
  (** experimental/analyzers.py:547-555.  Counts and weights are exact here; the code casts them to
      float32, which pyarrow refuses for counts that are not float32 numbers. *)
  Definition add_input (text weighted : bool) (accumulator : sketch) (batch : list (string * Qc)) : sketch :=
    match reduced_batch text weighted batch with
    | [] => accumulator
    | next_input => add_values ops accumulator next_input
    end.
  (** experimental/analyzers.py:557-566, for at least one accumulator *)
  Definition merge_accumulators (first : sketch) (rest : list sketch) : sketch := fold_left (merge ops) rest first.

  Fixpoint execute (text weighted : bool) (top_k : nat) (p : plan) : sketch :=
    match p with
    | Add bs => fold_left (add_input text weighted) bs (create_accumulator top_k)
    | Merge p0 rest => merge_accumulators (execute text weighted top_k p0) (map (execute text weighted top_k) rest)
    | Cached p => recode ops (execute text weighted top_k p)
    | Merge_into_new ps =>
        fold_left (fun a s => merge_accumulators a [s]) (map (execute text weighted top_k) ps) (create_accumulator top_k)
    end.

  (** experimental/analyzers.py:568-581 *)
  Definition extract_output (is_string : bool) (accumulator : sketch) : list (Qc * string) :=
    match estimate ops accumulator with
    | [] => [dummy_entry is_string]
    | result => result
    end.

  (** str() of a count. *)
  Variable format_indicator : Qc -> string.

  (** experimental/analyzers.py:332-514 with beam/analyzer_impls.py:482-579: a run of the analysis writes
      the records [lines].  Without reserved tokens the entries are written as they come (537-545);
      otherwise they are batched in any way, each batch is sorted, and all are sorted again. *)
  Definition approximate_vocabulary (is_string is_text weighted : bool) (top_k : nat) (store_frequency : bool)
      (reserved_tokens : option (list string)) (p : plan) (lines : list string) : Prop :=
    let entries := extract_output is_string (execute (is_string && is_text) weighted top_k p) in
    exists written,
      match reserved_tokens with
      | None => written = entries
      | Some tokens => exists batches, Permutation (concat batches) entries /\
          written = map (fun t => (Q2Qc (-1), t)) tokens
                    ++ py_sorted entry_geb (flat_map (filter (fun e => negb (existsb (String.eqb (snd e)) tokens)))
                                                     (map (py_sorted entry_geb) batches))
      end /\
      lines = map (format_entry format_indicator store_frequency)
                  (match reserved_tokens with Some _ => maybe_add_dummy is_string written | None => written end).
End sketch.
