(** tft.scale_to_z_score_per_key of a tf.float32 column.

    The variance of the values of a key in a batch is not computed as in [FmvModel]: it is the mean of the squares
    minus the square of the mean, in single precision. *)
From Coq Require Import String List ZArith Bool.
From Flocq Require Import Core BinarySingleNaN.
From Verif Require Import CombineModel MeanVarModel PerKeyModel IeeeModel FmvModel.
Import ListNotations.
Local Open Scope Z_scope.

Section key.
  (** tf.math.unsorted_segment_sum, for the values of one segment.  In which order it adds is not documented. *)
  Variable segment_sum : list f32 -> f32.

  (** tf_utils.py:1771-1804 ([reduce_batch_count_mean_and_var_per_key], tf.float32, reduce_instance_dims=True) for
      the values of one key in a batch.  The count is added up in tf.float32 and then cast to tf.int64; it is a
      whole number, and as an int64 it gives a float64 in operations with float32 numbers. *)
  Definition batch_fmv_key (xs : list f32) : fmv :=
    let finite_x := map (fun x => if is_finite x then x else zero32) xs in
    let x_count := segment_sum (map (fun x => if is_finite x then cast_int 1 else zero32) xs) in
    let means := divide_no_nan32 (segment_sum finite_x) x_count in
    let sum_sqs := segment_sum (map (fun x => mul32 x x) finite_x) in
    let variances := sub32 (divide_no_nan32 sum_sqs x_count) (mul32 means means) in
    FMV (D64 (widen x_count)) (S32 means) (S32 variances).

  (** tf_utils.py:1745-1804 on a batch of (key, value) rows. *)
  Definition batch_fmv_per_key : list (string * f32) -> list (string * fmv) := reduce_per_key batch_fmv_key.
End key.

(** analyzers.py:1170-1245 ([_mean_and_var_per_key] without a key_vocabulary_filename): the entry of one key, whose
    inputs the runner combines as in [s]. *)
Definition key_mean_and_var32 (s : sched (sched fmv)) : f32 * f32 := analyze fmv_combiner s.

(** mappers.py:659-728 ([_scale_to_z_score_internal] with a key, without a key_vocabulary_filename): one value, given
    the key vocabulary and the means and variances of the keys.  None: an error. *)
Definition scale_to_z_score_per_key32 (vocab : list string) (results : list (f32 * f32)) (k : string) (x : f32) : option f32 :=
  option_map (fun mv => zscore32 (fst mv) (snd mv) x) (map_per_key (fun _ => (zero32, zero32)) results vocab k).
