(** tft.scale_by_min_max and tft.scale_by_min_max_per_key in single precision, with the accumulators of the runner.

    [IeeeModel] combines the batches one after the other; [ScaleModel] has the accumulators, in exact numbers. *)
From Coq Require Import String List ZArith Bool.
From Flocq Require Import Core BinarySingleNaN.
From Verif Require Import CombineModel MeanVarModel PerKeyModel IeeeModel.
Import ListNotations.
Local Open Scope Z_scope.

(** np.max over a non-empty list of scalars; only applied to such lists. *)
Definition np_max32 (l : list f32) : f32 := match l with [] => nan32 | x :: l' => fold_left max32 l' x end.

(** analyzers.py:280-284: np.array_equal(accumulator[0], -np.inf). *)
Definition is_default32 (a : f32 * f32) : bool := Beqb (fst a) neg_inf32.

(** analyzers.py:300-311 ([NumPyCombiner.add_input], fn=np.max, default -np.inf) on the two scalars [-min; max]. *)
Definition mm_add (a b : f32 * f32) : f32 * f32 :=
  if is_default32 a then b else (np_max32 [fst a; fst b], np_max32 [snd a; snd b]).

(** analyzers.py:313-330 ([NumPyCombiner.merge_accumulators]). *)
Definition mm_merge (accumulators : list (f32 * f32)) : f32 * f32 :=
  match filter (fun a => negb (is_default32 a)) accumulators with
  | [] => (neg_inf32, neg_inf32)
  | l => (np_max32 (map fst l), np_max32 (map snd l))
  end.

(** analyzers.py:250-344 ([NumPyCombiner]); the final 0 - minus_x_min (562, 659) is part of [extract_output] here.
    The default accumulator is a pair of float64 numbers; it is replaced, never combined. *)
Definition mm_combiner : combiner (f32 * f32) (f32 * f32) (f32 * f32) :=
  {| create_accumulator := (neg_inf32, neg_inf32);
     add_input := mm_add;
     merge_accumulators := mm_merge;
     extract_output := fun a => (sub32 zero32 (fst a), snd a) |}.

(** analyzers.py:504-562 ([_min_and_max], tf.float32, reduce_instance_dims=True): (min, max). *)
Definition min_and_max_of (s : sched (sched (list f32))) : f32 * f32 :=
  analyze mm_combiner (map_sched (map_sched batch32) s).

Section key.
  (** tf.math.unsorted_segment_max, for the values of one segment. *)
  Variable segment_max : list f32 -> f32.

  (** tf_utils.py:2026-2077 ([reduce_batch_minus_min_and_max_per_key], tf.float32, rows of one value) for the values
      of one key in a batch. *)
  Definition batch32_key (xs : list f32) : f32 * f32 := (segment_max (map (fun x => Bopp x) xs), segment_max xs).

  (** mappers.py:388 and tf_utils.py:2026-2077 on a batch of (key, value) rows. *)
  Definition batch32_per_key (rows : list (string * number)) : list (string * (f32 * f32)) :=
    reduce_per_key batch32_key (map (fun r => (fst r, to_f32 (snd r))) rows).
End key.

(** analyzers.py:565-659 ([_min_and_max_per_key], tf.float32): the entry of one key, whose inputs the runner combines
    as in [s]. *)
Definition key_min_and_max32 (s : sched (sched (f32 * f32))) : f32 * f32 := analyze mm_combiner s.

Section scale.
  (** tf.math.sigmoid on tf.float32. *)
  Variable sigmoid : f32 -> f32.

  (** mappers.py:375-454 ([_scale_by_min_max_internal], key=None, elementwise=False): the analysis runs over [s], [x]
      is a value seen when the transform runs.  None: ValueError (385-386). *)
  Definition scale_over (output_min output_max : f64) (s : sched (sched (list number))) (x : number) : option f32 :=
    if Bleb output_max output_min then None
    else let (mn, mx) := min_and_max_of (map_sched (map_sched (map to_f32)) s) in
         Some (scale32 sigmoid output_min output_max mn mx (to_f32 x)).

  (** mappers.py:375-454 with a key, without a key_vocabulary_filename: one row, given the key vocabulary and the
      minima and maxima of the keys. *)
  Definition scale_per_key32 (output_min output_max : f64) (vocab : list string) (results : list (f32 * f32))
      (k : string) (x : number) : option f32 :=
    if Bleb output_max output_min then None
    else option_map (fun r => scale32 sigmoid output_min output_max (fst r) (snd r) (to_f32 x))
           (map_per_key (fun _ => (zero32, zero32)) results vocab k).
End scale.
