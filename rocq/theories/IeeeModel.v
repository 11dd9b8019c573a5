(** tft.scale_by_min_max, tft.scale_to_0_1 and tft.scale_to_z_score in IEEE 754 arithmetic.

    [ScaleModel] and [ZScoreModel] compute in exact numbers.  Here every operation of the graph is the
    correctly rounded one on binary32 (tf.float32), and the operations of Python are those on binary64.
    Floats are Flocq's [binary_float prec emax]: zeros, infinities, one NaN and the finite numbers of the
    format, subnormal ones included.  TensorFlow may run its kernels with subnormal numbers flushed to
    zero; that mode is not modelled. *)
From Coq Require Import List ZArith Bool.
From Flocq Require Import Core BinarySingleNaN.
Import ListNotations.
Local Open Scope Z_scope.

(** tf.float32 and Python's float. *)
Definition f32 : Set := binary_float 24 128.
Definition f64 : Set := binary_float 53 1024.

Definition prec32 : Prec_gt_0 24 := eq_refl.
Definition emax32 : Prec_lt_emax 24 128 := eq_refl.
Definition prec64 : Prec_gt_0 53 := eq_refl.
Definition emax64 : Prec_lt_emax 53 1024 := eq_refl.

(** The arithmetic of the graph: round to nearest, ties to even. *)
Definition add32 (x y : f32) : f32 := @Bplus 24 128 prec32 emax32 mode_NE x y.
Definition sub32 (x y : f32) : f32 := @Bminus 24 128 prec32 emax32 mode_NE x y.
Definition mul32 (x y : f32) : f32 := @Bmult 24 128 prec32 emax32 mode_NE x y.
Definition div32 (x y : f32) : f32 := @Bdiv 24 128 prec32 emax32 mode_NE x y.
Definition sqrt32 (x : f32) : f32 := @Bsqrt 24 128 prec32 emax32 mode_NE x.
Definition sub64 (x y : f64) : f64 := @Bminus 53 1024 prec64 emax64 mode_NE x y.

Definition zero32 : f32 := B754_zero false.
Definition nan32 : f32 := B754_nan.
Definition neg_inf32 : f32 := B754_infinity true.

(** tf.cast of a 64-bit integer to tf.float32. *)
Definition cast_int (z : Z) : f32 := binary_normalize 24 128 prec32 emax32 mode_NE z 0 false.

(** tf.cast of a tf.float64 to tf.float32, and the conversion of a Python float that appears in an
    expression with a tf.float32 tensor. *)
Definition cast_f64 (d : f64) : f32 :=
  match d with
  | B754_zero s => B754_zero s
  | B754_infinity s => B754_infinity s
  | B754_nan => B754_nan
  | B754_finite s m e _ => binary_normalize 24 128 prec32 emax32 mode_NE (cond_Zopp s (Zpos m)) e s
  end.

(** The values a numeric column can hold. *)
Inductive number : Set :=
| NInt : Z -> number
| NF32 : f32 -> number
| NF64 : f64 -> number.

(** mappers.py:388: tf.cast(x, tf.float32), whatever the dtype of the column is. *)
Definition to_f32 (x : number) : f32 :=
  match x with NInt z => cast_int z | NF32 f => f | NF64 d => cast_f64 d end.

(** np.maximum: NaN if one argument is NaN. *)
Definition max32 (x y : f32) : f32 :=
  if is_nan x || is_nan y then nan32 else if Bleb x y then y else x.

(** tf.reduce_max / np.max from -inf. *)
Definition reduce_max32 (l : list f32) : f32 := fold_left max32 l neg_inf32.

(** tf_utils.py:1999-2007: the batch's -min and max; -min is the maximum of tf.zeros_like(x) - x. *)
Definition batch32 (xs : list f32) : f32 * f32 :=
  (reduce_max32 (map (fun x => sub32 zero32 x) xs), reduce_max32 xs).

(** analyzers.py:504-562 ([_min_and_max], tf.float32).  The batches are combined one after the other;
    [ScaleModel.float_min_and_max] has the general tree of accumulators. *)
Definition min_and_max32 (batches : list (list f32)) : f32 * f32 :=
  let l := map batch32 batches in
  (sub32 zero32 (reduce_max32 (map fst l)), reduce_max32 (map snd l)).

Section scale.
  (** tf.math.sigmoid on tf.float32. *)
  Variable sigmoid : f32 -> f32.

  (** mappers.py:441-454: one value, given the analyzed minimum and maximum.  output_max - output_min is
      computed by Python; the difference and output_min are then converted to tf.float32. *)
  Definition scale32 (output_min output_max : f64) (min_x max_x x : f32) : f32 :=
    let numerator := sub32 x min_x in
    let scaled := if Bltb min_x max_x then div32 numerator (sub32 max_x min_x) else sigmoid x in
    add32 (mul32 scaled (cast_f64 (sub64 output_max output_min))) (cast_f64 output_min).

  (** mappers.py:375-454 ([_scale_by_min_max_internal], key=None, elementwise=False) on the column made of
      [batches]; [x] is a value seen when the transform runs.  None: ValueError (385-386). *)
  Definition scale_by_min_max32 (output_min output_max : f64) (batches : list (list number)) (x : number)
    : option f32 :=
    if Bleb output_max output_min then None
    else let (mn, mx) := min_and_max32 (map (map to_f32) batches) in
         Some (scale32 output_min output_max mn mx (to_f32 x)).

  Definition zero64 : f64 := B754_zero false.
  Definition one64 : f64 := @Bone 53 1024 prec64 emax64.

  (** mappers.py:458-487 ([scale_to_0_1]) *)
  Definition scale_to_0_1_32 := scale_by_min_max32 zero64 one64.
End scale.

(** mappers.py:716-728: scale_to_z_score of one tf.float32 value, given the analyzed mean and variance.
    tf.not_equal(denominator, 0) is true of NaN. *)
Definition zscore32 (mean var x : f32) : f32 :=
  let numerator := sub32 x mean in
  let denominator := sqrt32 var in
  if Beqb denominator zero32 then numerator else div32 numerator denominator.
