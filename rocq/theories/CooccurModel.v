(** * What a batch contributes to a vocabulary ranked by mutual information

    Models [reduce_batch_weighted_cooccurrences] and its helpers of /repo/tensorflow_transform/tf_utils.py, as
    [tft.vocabulary] calls it, and the accumulators made from it. Sums are exact rather than of float32, and
    integers are unbounded. *)
From Coq Require Import String List ZArith QArith Bool Arith.
From Verif Require Import FloatModel WeightedModel.
From Verif Require CombineModel.
Import ListNotations.
Local Open Scope nat_scope.
Local Notation length := List.length.

(** tf.gather; an index out of range is an error. *)
Fixpoint gather {A} (params : list A) (indices : list nat) : option (list A) :=
  match indices with
  | [] => Some []
  | i :: is =>
      match nth_error params i, gather params is with Some a, Some l => Some (a :: l) | _, _ => None end
  end.

(** tf.reduce_max of int64; that of no elements is the least int64. *)
Definition reduce_max (l : list Z) : Z := fold_right Z.max (- 2 ^ 63)%Z l.

(** tf.math.unsorted_segment_sum: negative ids are dropped, ids that are too large are an error. *)
Definition segment_sum (data : list Q) (ids : list Z) (num_segments : Z) : option (list Q) :=
  if forallb (fun i => (i <? num_segments)%Z) ids
  then Some (map (fun s => sumq (map fst (filter (fun p => (snd p =? Z.of_nat s)%Z) (combine data ids)))) (seq 0 (Z.to_nat num_segments)))
  else None.

(** tf.reshape to rows of [width] *)
Fixpoint in_rows {A} (height width : nat) (l : list A) : list (list A) :=
  match height with 0 => [] | S h => firstn width l :: in_rows h width (skipn width l) end.

(** tf.boolean_mask *)
Definition boolean_mask {A} (values : list A) (mask : list bool) : list A :=
  map fst (filter (fun p => snd p) (combine values mask)).

Definition shapes_equal (a b : list nat) : bool := if list_eq_dec Nat.eq_dec a b then true else false.

(** tf_utils.py:55 [_MISSING_MASK_VALUE] *)
Definition missing_mask_value : Z := (-1)%Z.

Section Cooccur.
(** Strings or integers, and the sentinel of their type (tf_utils.py:40-41). *)
Variable token : Type.
Variable token_eqb : token -> token -> bool.
Variable sentinel_token : token.

(** The feature. [Dense batch inner flat]: of shape batch :: inner. [Sparse batch rows values]: [rows] has the first
    index of each value. [Ragged nrows value_rowids flat_values]: the row ids of each ragged dimension, outermost
    first; there is at least one. *)
Inductive feature :=
| Dense (batch : nat) (inner : list nat) (flat : list token)
| Sparse (batch : nat) (rows : list nat) (values : list token)
| Ragged (nrows : nat) (outer_value_rowids : list (list nat)) (last_value_rowids : list nat) (flat_values : list token).

(** The labels as given. A sparse tensor of labels is taken as its rows of the same width, where a value may be missing
    (tf.sparse.to_dense refuses repeated and unordered indices). *)
Inductive labels := Dense_labels (shape : list nat) (flat : list Z) | Sparse_labels (width : nat) (rows : list (list (option Z))).

(** tf_utils.py:136-141 [_get_ragged_batch_value_rowids] *)
Definition ragged_batch_value_rowids (outer : list (list nat)) (last : list nat) : option (list nat) :=
  fold_left (fun result value_rowids => match result with Some r => gather value_rowids r | None => None end) (rev outer) (Some last).

(** tf_utils.py:596-617 [_broadcast_to_x_shape]; y has one dimension. *)
Definition broadcast_to_x_shape {A} (x_shape : list nat) (y : list A) : option (list A) :=
  match x_shape with
  | [] => None
  | batch :: inner =>
      if batch =? length y then Some (flat_map (fun v => repeat v (fold_right Nat.mul 1 inner)) y) else None
  end.

(** tf_utils.py:374-424 [_preprocess_tensors_for_cooccurences], with [_make_regex_filter_fn] (tf_utils.py:144-156):
    [filter_regex] says which tokens match the regex, if there is one. *)
Definition preprocess (x_input : feature) (y_input : list Z) (weights_input : option (list nat * list Q))
    (filter_regex : option (token -> bool)) : option (list token * list Z * list Q) :=
  let xy :=
    match x_input with
    | Dense batch inner flat => Some (batch :: inner, flat, y_input)
    | Sparse batch rows values =>
        if length y_input =? batch then
          match gather y_input rows with Some y => Some ([length values], values, y) | None => None end
        else None
    | Ragged nrows outer last flat_values =>
        if nrows <=? length y_input then
          match ragged_batch_value_rowids outer last with
          | Some rows => match gather y_input rows with Some y => Some ([length flat_values], flat_values, y) | None => None end
          | None => None
          end
        else None
    end in
  match xy with
  | None => None
  | Some (x_shape, x, y) =>
      let weights :=
        match weights_input with
        | None => Some (map (fun _ => 1%Q) x)
        | Some (weights_shape, weights) => if shapes_equal x_shape weights_shape then Some weights else None
        end in
      match weights, broadcast_to_x_shape x_shape y with
      | Some weights, Some y =>
          match filter_regex with
          | None => Some (x, y, weights)
          | Some regex_full_match =>
              let filter_mask := map (fun t => negb (regex_full_match t)) x in
              Some (boolean_mask x filter_mask, boolean_mask y filter_mask, boolean_mask weights filter_mask)
          end
      | _, _ => None
      end
  end.

(** tf.unique_with_counts: the distinct elements in order of first occurrence, the position of each element among them,
    and their numbers of occurrences *)
Definition unique (x : list token) : list token :=
  fold_left (fun u t => if existsb (token_eqb t) u then u else u ++ [t]) x [].
Fixpoint position (t : token) (u : list token) : nat :=
  match u with [] => 0 | v :: u' => if token_eqb t v then 0 else S (position t u') end.
Definition unique_idx (x : list token) : list nat := map (fun t => position t (unique x)) x.
Definition unique_count (x : list token) : list nat := map (fun t => length (filter (token_eqb t) x)) (unique x).

(** ReducedBatchWeightedCounts (tf_utils.py:58-66) *)
Record reduced := Reduced {
  unique_x : list token; summed_weights_per_x : list Q; summed_positive_per_x_and_y : list (list Q); counts_per_x : list nat }.

(** tf_utils.py:427-452 [_compute_summed_positive_per_x_and_y] *)
Definition compute_summed_positive (weights : list Q) (dummy_index : list Z) (max_x_idx : nat) (max_y_value : Z) : option (list (list Q)) :=
  if (max_y_value + 1 <? 0)%Z then None
  else
    match segment_sum weights dummy_index (Z.of_nat max_x_idx * (max_y_value + 1)) with
    | Some sums => Some (in_rows max_x_idx (Z.to_nat (max_y_value + 1)) sums)
    | None => None
    end.

(** tf_utils.py:315-371 [_compute_weighted_counts], with [_compute_vocabulary_values] (tf_utils.py:455-485) *)
Definition compute_weighted_counts (x_input : feature) (y_input : list Z) (weights_input : option (list nat * list Q))
    (filter_regex : option (token -> bool)) (max_y_value : Z) : option reduced :=
  match preprocess x_input y_input weights_input filter_regex with
  | None => None
  | Some (x, y, weights) =>
      let flattened_index :=
        map (fun p => if (snd p =? missing_mask_value)%Z then missing_mask_value
                      else ((max_y_value + 1) * Z.of_nat (fst p) + snd p)%Z) (combine (unique_idx x) y) in
      match segment_sum weights (map Z.of_nat (unique_idx x)) (Z.of_nat (length (unique x))),
            compute_summed_positive weights flattened_index (length (unique x)) max_y_value with
      | Some summed_weights, Some summed_positive => Some (Reduced (unique x) summed_weights summed_positive (unique_count x))
      | _, _ => None
      end
  end.

(** tf.sparse.to_dense *)
Definition to_dense (default : Z) (rows : list (list (option Z))) : list (list Z) :=
  map (map (fun v => match v with Some y => y | None => default end)) rows.
(** A column of the transposed labels *)
Definition column (c : nat) (rows : list (list Z)) : list Z := map (fun r => nth c r 0%Z) rows.

Fixpoint sequence {A} (l : list (option A)) : option (list A) :=
  match l with
  | [] => Some []
  | Some a :: l' => match sequence l' with Some r => Some (a :: r) | None => None end
  | None :: _ => None
  end.
(** tf.reduce_sum over axis 0 of matrices of the same shape *)
Definition add_matrices (a b : list (list Q)) : list (list Q) :=
  map (fun p => map (fun q => (fst q + snd q)%Q) (combine (fst p) (snd p))) (combine a b).

(** tf_utils.py:246-311: [reduce_batch_weighted_cooccurrences] without the sentinel. *)
Definition reduce_without_sentinel (x_input : feature) (y_input : labels) (weights_input : option (list nat * list Q))
    (filter_regex : option (token -> bool)) : option reduced :=
  match y_input with
  | Sparse_labels width rows =>
      let max_y_value := reduce_max (concat (to_dense 0 rows)) in
      match sequence (map (fun c => compute_weighted_counts x_input (column c (to_dense missing_mask_value rows)) weights_input filter_regex max_y_value)
                          (seq 0 width)) with
      | Some (first :: others) =>
          Some (Reduced (unique_x first) (summed_weights_per_x first)
                        (fold_left add_matrices (map summed_positive_per_x_and_y others) (summed_positive_per_x_and_y first))
                        (counts_per_x first))
      | _ => None
      end
  | Dense_labels _ y => compute_weighted_counts x_input y weights_input filter_regex (reduce_max y)
  end.

(** tf_utils.py:488-543 [extend_reduced_batch_with_y_counts] *)
Definition extend_with_y_counts (batch : reduced) (y : labels) (weights : option (list nat * list Q)) : option reduced :=
  let size := match y with Sparse_labels _ rows => length rows | Dense_labels _ flat => length flat end in
  match reduce_without_sentinel (Dense size [] (repeat sentinel_token size)) y weights None with
  | Some sentinels =>
      Some (Reduced (unique_x batch ++ unique_x sentinels) (summed_weights_per_x batch ++ summed_weights_per_x sentinels)
                    (summed_positive_per_x_and_y batch ++ summed_positive_per_x_and_y sentinels) (counts_per_x batch ++ counts_per_x sentinels))
  | None => None
  end.

(** tf_utils.py:206-312 [reduce_batch_weighted_cooccurrences] *)
Definition reduce_batch_weighted_cooccurrences (x : feature) (y : labels) (weights : option (list nat * list Q))
    (filter_regex : option (token -> bool)) : option reduced :=
  match reduce_without_sentinel x y weights filter_regex with
  | Some batch => extend_with_y_counts batch y weights
  | None => None
  end.

(** analyzers.py:2182-2205 [_get_vocabulary_analyzer_inputs], where labels are given: dense labels lose their shape. *)
Definition vocabulary_inputs (x : feature) (y : labels) (weights : option (list nat * list Q))
    (filter_regex : option (token -> bool)) : option reduced :=
  let y := match y with Dense_labels _ flat => Dense_labels [length flat] flat | Sparse_labels _ _ => y end in
  reduce_batch_weighted_cooccurrences x y weights filter_regex.

(** beam/analyzer_impls.py:647-671 [_flatten_to_key_and_means_accumulator_list], compute_weighted *)
Fixpoint key_and_means_accumulators (keys : list token) (positive_label_weights : list (list Q)) (total_weights : list Q) (counts : list nat) : list (token * wm) :=
  match keys, positive_label_weights, total_weights, counts with
  | k :: keys', p :: ps, w :: ws, c :: cs => (k, wm_make p w (Z.of_nat c)) :: key_and_means_accumulators keys' ps ws cs
  | _, _, _, _ => []
  end.
Definition key_accumulators (r : reduced) : list (token * wm) :=
  key_and_means_accumulators (unique_x r) (summed_positive_per_x_and_y r) (summed_weights_per_x r) (counts_per_x r).
End Cooccur.

(** ** Without weights *)

(** beam/analyzer_impls.py:634-636 [_make_count_and_weights_means_accumulator] without weights. The weight is None, for
    which NaN stands here: it is never read. *)
Definition wm_make_unweighted (sum_positive : list Q) (count : Z) : wm :=
  WM count (map (fun y => fdiv (Fin y) (Fin (inject_Z count))) sum_positive) NaN.

(** analyzers.py:1417-1479, compute_weighted=False; analyzers.py:1258-1277 leaves weights as they are. *)
Definition wm_combine_unweighted (a b : wm) : wm :=
  let a := WM (wm_count a) (map nan_to_num (wm_mean a)) (wm_weight a) in
  let b := WM (wm_count b) (map nan_to_num (wm_mean b)) (wm_weight b) in
  let (a, b) := if (wm_count a <? wm_count b)%Z then (b, a) else (a, b) in
  if (wm_count a =? 0)%Z then b
  else
    let n := Nat.max (length (wm_mean a)) (length (wm_mean b)) in
    let bc := Fin (inject_Z (wm_count b)) in
    let total := Fin (inject_Z (wm_count a + wm_count b)) in
    WM (wm_count a + wm_count b)
       (map (fun p => fadd (fst p) (fmul (fdiv bc total) (fsub (snd p) (fst p))))
            (combine (pad_zeros n (wm_mean a)) (pad_zeros n (wm_mean b))))
       (Fin 1).

(** beam/analyzer_impls.py:899-958, compute_weighted=False *)
Definition unweighted_combiner : CombineModel.combiner wm wm wm :=
  {| CombineModel.create_accumulator := wm_create;
     CombineModel.add_input := wm_combine_unweighted;
     CombineModel.merge_accumulators := fun accs => match accs with [] => wm_create | a :: rest => fold_left wm_combine_unweighted rest a end;
     CombineModel.extract_output := fun a => a |}.

(** beam/analyzer_impls.py:274-331, 359-402, 811-869: the accumulator of one token over the dataset, from what each batch has
    for it: the weights of the labels (each row has weight 1) and the number of values. *)
Definition unweighted_statistics (s : CombineModel.sched (CombineModel.sched (list Q * Z))) : wm :=
  CombineModel.analyze unweighted_combiner (CombineModel.map_sched (CombineModel.map_sched (fun b => wm_make_unweighted (fst b) (snd b))) s).
