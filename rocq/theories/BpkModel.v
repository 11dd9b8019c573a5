(** tft.bucketize_per_key: from the batches of a dataset to the buckets of its values. *)
From Coq Require Import String List ZArith QArith Bool Arith Sorting.Permutation.
From Verif Require Import FloatModel BucketModel PerKeyModel QuantileModel.
Import ListNotations.
Local Open Scope nat_scope.

(** The tensors of a batch: the keys, the values and the weights (analyzers.py:2618-2620); the weights do
    not matter if there are none. *)
Record input := Input { keys : list string; values : list fl; row_weights : list fl }.

(** beam/analyzer_impls.py:1067-1116 ([_split_inputs_by_key]) for tensors of rank one: a pair for each row.
    None: a tensor is not as long as the keys. *)
Definition split_inputs_by_key (weights : bool) (b : input) : option (list (string * batch)) :=
  if negb (length (values b) =? length (keys b)) then None
  else if weights && negb (length (row_weights b) =? length (keys b)) then None
  else Some (combine (keys b)
               (if weights then map (fun '(x, w) => ([x], [w])) (combine (values b) (row_weights b))
                else map (fun x => ([x], [])) (values b))).

(** What a runner does (beam/analyzer_impls.py:1380-1391): it splits all batches, groups the pairs by their
    keys, in any order, and combines each group by a plan that has all of it. *)
Definition runs (weights : bool) (inputs : list input) (found : list string) (plans : string -> plan) : Prop :=
  exists parts,
    Forall2 (fun b p => split_inputs_by_key weights b = Some p) inputs parts /\
    NoDup found /\
    (forall k, In k found <-> In k (map fst (concat parts))) /\
    forall k, In k found ->
      Permutation (batches_of (plans k)) (map snd (filter (fun kb => String.eqb (fst kb) k) (concat parts))).

Section sketch.
  Context {sketch : Type} (ops : sketch_ops sketch).
  Variable round32 : Q -> Q.

  (** analyzers.py:2555-2649 ([_quantiles_per_key]) up to the keys and their boundaries: [plans] is how a
      runner combines the rows of each key (beam/analyzer_impls.py:1374-1405), and [found] the keys in the
      order in which they come (1408-1428).  The combiner has one feature, and the boundaries of a key
      are reshaped to one row (analyzers.py:2607, 2459). *)
  Definition key_boundaries (num_buckets : nat) (epsilon : Q) (weights : bool) (p : plan) : list Q :=
    let c := Combiner num_buckets epsilon weights false 1 in
    concat (extract_output ops round32 c (execute ops c p)).
  Definition quantiles_per_key (num_buckets : nat) (epsilon : Q) (weights : bool) (plans : string -> plan) (found : list string)
    : list string * list (list Q) :=
    merge_outputs_by_key (map (fun k => (k, key_boundaries num_buckets epsilon weights (plans k))) found).

  (** mappers.py:1980-2054 with 2110: the bucket of a value [x] with key [k], cast to float32.  The
      arithmetic after that is exact here ([FpkModel] has it rounded).  None is an error. *)
  Definition bucketize_rows_per_key (num_buckets : nat) (epsilon : option Q) (weights : bool)
      (plans : string -> plan) (found : list string) (k : string) (x : Q) : option Z :=
    if num_buckets <? 1 then None
    else
      let epsilon := match epsilon with Some e => e | None => default_epsilon num_buckets end in
      let (vocab, matrix) := quantiles_per_key num_buckets epsilon weights plans found in
      match bucketize_per_key num_buckets vocab matrix k (round32 x) with
      | Some (bucket, _) => Some bucket
      | None => None
      end.
End sketch.
