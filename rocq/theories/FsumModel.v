(** tft.sum of a tf.float32 column. *)
From Coq Require Import List ZArith Bool.
From Flocq Require Import Core BinarySingleNaN.
From Verif Require Import CombineModel IeeeModel.
Import ListNotations.

Section fsum.
  (** tf.reduce_sum over all values of a batch, and np.sum over a list of accumulators with
      dtype=np.float32.  In which order they add is not documented. *)
  Variable reduce_sum : list f32 -> f32.
  Variable np_sum : list f32 -> f32.

  (** analyzers.py:279-283 ([_equals_to_default_sub_accumulator], default 0). *)
  Definition is_default32 (a : f32) : bool := Beqb a zero32.

  (** analyzers.py:300-311 ([NumPyCombiner.add_input]). *)
  Definition sum_add (a batch : f32) : f32 := if is_default32 a then batch else np_sum [a; batch].

  (** analyzers.py:313-330 ([NumPyCombiner.merge_accumulators]). *)
  Definition sum_merge (accumulators : list f32) : f32 :=
    match filter (fun a => negb (is_default32 a)) accumulators with
    | [] => zero32
    | l => np_sum l
    end.

  (** analyzers.py:252-345 ([NumPyCombiner]) with fn=np.sum, default_accumulator_value=0 and one output of
      shape (). *)
  Definition sum_combiner : combiner f32 f32 f32 :=
    {| create_accumulator := zero32;
       add_input := sum_add;
       merge_accumulators := sum_merge;
       extract_output := fun a => a |}.

  (** analyzers.py:672-722 ([sum], tf.float32, reduce_instance_dims=True) over the batches of a schedule. *)
  Definition sum32 (s : sched (sched (list f32))) : f32 :=
    analyze sum_combiner (map_sched (map_sched reduce_sum) s).
End fsum.
