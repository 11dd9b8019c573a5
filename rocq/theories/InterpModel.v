(** tft.apply_buckets_with_interpolation in IEEE 754 single precision. *)
From Coq Require Import List ZArith Bool.
From Flocq Require Import Core BinarySingleNaN.
From Verif Require Import IeeeModel.
Import ListNotations.
Local Open Scope Z_scope.

(** tf_utils.py:855-860 ([assign_buckets]): x < boundary after the cast to the larger dtype.  Two integers
    are compared as they are; an integer and a tf.float32 as tf.float32.  tf.float64 inputs, which make the
    whole function compute in tf.float64, are not modelled; here they would be narrowed first. *)
Definition less (x b : number) : bool :=
  match x, b with
  | NInt z, NInt w => z <? w
  | _, _ => Bltb (to_f32 x) (to_f32 b)
  end.

(** tf_utils.py:867-869: tf.searchsorted(boundaries, x, side="right").  On sorted boundaries the position
    is the number of boundaries that are not greater than x; for a NaN it is the number of boundaries. *)
Definition assign_right (x : number) (boundaries : list number) : nat :=
  length (filter (fun b => negb (less x b)) boundaries).

(** mappers.py:2207-2214: tf.math.is_finite; integer boundaries are all kept. *)
Definition finite_boundary (b : number) : bool :=
  match b with NInt _ => true | NF32 f => is_finite f | NF64 d => is_finite d end.

Definition is_nan_number (x : number) : bool :=
  match x with NInt _ => false | NF32 f => is_nan f | NF64 d => is_nan d end.

Definition one32 : f32 := @Bone 24 128 prec32 emax32.
Definition half32 : f32 := div32 one32 (cast_int 2).

(** mappers.py:2156-2296 ([apply_buckets_with_interpolation], the values of x one by one, return_type
    tf.float32).  None: InvalidArgumentError from an assertion, either no finite boundary (2219-2223) or a
    non-finite interpolation (2251-2271). *)
Definition interpolate32 (bucket_boundaries : list number) (x : number) : option f32 :=
  let boundaries := filter finite_boundary bucket_boundaries in
  let num_boundaries := length boundaries in
  match boundaries with
  | [] => None
  | first :: _ =>
      let i := assign_right x boundaries in
      let bucket_max := to_f32 (nth i (boundaries ++ [last boundaries first]) first) in
      let bucket_min := to_f32 (nth i (first :: boundaries) first) in
      let bucket_width := sub32 bucket_max bucket_min in
      let interpolation_value := div32 (sub32 (to_f32 x) bucket_min) bucket_width in
      let bucket_interpolation :=
        if Nat.eqb i 0 || Nat.eqb i num_boundaries then zero32
        else if Beqb bucket_width zero32 then half32
        else interpolation_value in
      if is_finite bucket_interpolation then
        let with_interpolation :=
          add32 (cast_int (Z.max (Z.of_nat i - 1) 0)) bucket_interpolation in
        let denominator := cast_int (Z.max (Z.of_nat num_boundaries - 1) 1) in
        let normalized := div32 with_interpolation denominator in
        let normalized := if is_nan_number x then half32 else normalized in
        Some (if Nat.eqb num_boundaries 1 then (if Nat.eqb i 0 then zero32 else one32) else normalized)
      else None
  end.
