(** tft.scale_to_z_score of a tf.float32 column: the analysis of [FmvModel] and the scaling of [IeeeModel]. *)
From Coq Require Import List ZArith.
From Flocq Require Import Core BinarySingleNaN.
From Verif Require Import CombineModel IeeeModel FmvModel.

(** mappers.py:553-593, 659-728: [_scale_to_z_score_internal] without a key and with reduce_instance_dims:
    x_mean and x_var are the results of [_mean_and_var] on the entire column, and each value is scaled by
    them.  The value may be one of the analyzed column or, when serving, any other. *)
Definition scale_to_z_score32 (reduce_sum : list f32 -> f32) (column : sched (sched (list f32))) (x : f32) : f32 :=
  let mv := mean_and_var32 reduce_sum column in zscore32 (fst mv) (snd mv) x.
