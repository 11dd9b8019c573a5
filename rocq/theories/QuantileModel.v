(** tft.quantiles and tft.bucketize: from the batches of a dataset to the buckets of its values. *)
From Coq Require Import List ZArith QArith Bool Arith.
From Verif Require Import NumericModel FloatModel BucketModel.
Import ListNotations.
Local Open Scope nat_scope.

(** tfx_bsl's [sketches.QuantilesSketch], as far as it is used: made for an error bound and a number
    of features; values come flattened, those of a row one after the other, with or without a weight
    for each row; [get_quantiles n] has a row of n + 1 numbers for each feature, or no row at all. *)
Record sketch_ops (sketch : Type) := Sketch_ops {
  new_sketch : Q -> nat -> sketch;
  add_values : sketch -> list fl -> sketch;
  add_weighted_values : sketch -> list fl -> list fl -> sketch;
  merge : sketch -> sketch -> sketch;
  compact : sketch -> sketch;
  get_quantiles : sketch -> nat -> list (list Q) }.
Arguments new_sketch {sketch}. Arguments add_values {sketch}. Arguments add_weighted_values {sketch}.
Arguments merge {sketch}. Arguments compact {sketch}. Arguments get_quantiles {sketch}.

(** analyzers.py:2392-2422 *)
Record combiner := Combiner {
  num_quantiles : nat; epsilon : Q; has_weights : bool; include_max_and_min : bool; num_features : nat }.

(** A batch: the values and the weights, flattened ([np.ravel], analyzers.py:2432, 2434). *)
Definition batch : Type := (list fl * list fl)%type.

(** What a runner does to get one accumulator of a dataset: adding batches to a new one, merging
    some, compacting one, or merging some into a new one, one by one, as the wrapper does in the second
    stage (beam/analyzer_impls.py:961-1002). *)
Inductive plan :=
| Add (batches : list batch)
| Merge (first : plan) (rest : list plan)
| Compact (p : plan)
| Merge_into_new (ps : list plan).

Fixpoint batches_of (p : plan) : list batch :=
  match p with
  | Add bs => bs
  | Merge p0 rest => batches_of p0 ++ flat_map batches_of rest
  | Compact p => batches_of p
  | Merge_into_new ps => flat_map batches_of ps
  end.

Section sketch.
  Context {sketch : Type} (ops : sketch_ops sketch).

  (** analyzers.py:2424-2427 *)
  Definition create_accumulator (c : combiner) : sketch := new_sketch ops (epsilon c) (num_features c).
  (** analyzers.py:2429-2438 *)
  Definition add_input (c : combiner) (accumulator : sketch) (next_input : batch) : sketch :=
    if has_weights c then add_weighted_values ops accumulator (fst next_input) (snd next_input)
    else add_values ops accumulator (fst next_input).
  (** analyzers.py:2440-2445, for at least one accumulator *)
  Definition merge_accumulators (first : sketch) (rest : list sketch) : sketch :=
    fold_left (merge ops) rest first.

  Fixpoint execute (c : combiner) (p : plan) : sketch :=
    match p with
    | Add bs => fold_left (add_input c) bs (create_accumulator c)
    | Merge p0 rest => merge_accumulators (execute c p0) (map (execute c) rest)
    | Compact p => compact ops (execute c p)
    | Merge_into_new ps =>
        fold_left (fun a s => merge_accumulators a [s]) (map (execute c) ps) (create_accumulator c)
    end.

  (** [np.array(result, np.float32)] rounds to the nearest number that is a float32. *)
  Variable round32 : Q -> Q.

  (** analyzers.py:2451-2459: a row of boundaries for each feature. *)
  Definition extract_output (c : combiner) (accumulator : sketch) : list (list Q) :=
    match get_quantiles ops accumulator (num_quantiles c) with
    | [] => repeat (repeat 0%Q (if include_max_and_min c then num_quantiles c + 1 else num_quantiles c - 1)) (num_features c)
    | result =>
        let result := map (map round32) result in
        if include_max_and_min c then result else map (fun row => removelast (tl row)) result
    end.

  (** analyzers.py:2484-2552; [width] is the number of elements of an instance. *)
  Definition quantiles (width num_buckets : nat) (epsilon : Q) (weights reduce_instance_dims : bool) (p : plan)
    : list (list Q) :=
    let feature_size := if reduce_instance_dims then 1 else width in
    let c := Combiner num_buckets epsilon weights false feature_size in
    extract_output c (execute c p).

  (** tf_utils.py:827-870 as mappers.py:2300-2354 calls it, with boundaries of type float32: they are
      cast to the type of the values if that has a larger maximum, and otherwise the values are cast to
      float32.  Unlike [BucketModel.assign_buckets], integers are rounded by this. *)
  Definition cast_to_float32 (dx : num_dtype) (x : fl) : fl :=
    match dx, x with IntT _, Fin q => Fin (round32 q) | _, _ => x end.
  Definition apply_buckets (dx : num_dtype) (boundaries : list Q) (x : fl) : nat :=
    let widen := negb (Qle_bool (num_max dx) (num_max Float32)) in
    searchsorted_right (map Fin boundaries) (if widen then x else cast_to_float32 dx x).

  (** mappers.py:1941-1943 *)
  Definition default_epsilon (num_buckets : nat) : Q := qmin (1 / inject_Z (Z.of_nat num_buckets)) (1 # 100).

  (** mappers.py:1889-1975: the bucket of a value [x], the [column]-th of its instance; None is the
      error.  [p] computes the quantiles of the values of all batches. *)
  Definition bucketize (dx : num_dtype) (width num_buckets : nat) (epsilon : option Q) (weights elementwise : bool)
      (p : plan) (column : nat) (x : fl) : option nat :=
    if num_buckets <? 1 then None
    else
      let epsilon := match epsilon with Some e => e | None => default_epsilon num_buckets end in
      let bucket_boundaries := quantiles width num_buckets epsilon weights (negb elementwise) p in
      let boundaries := if elementwise then nth column bucket_boundaries [] else nth 0 bucket_boundaries [] in
      Some (apply_buckets dx boundaries x).
End sketch.
