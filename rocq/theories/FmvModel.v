(** tft.mean and tft.var of a tf.float32 column.

    The reductions of a batch run in TensorFlow, in single precision.  The combiner runs in NumPy, where an
    operation on two float32 gives a float32, and one on a float64 and any other number a float64. *)
From Coq Require Import List ZArith Bool.
From Flocq Require Import Core BinarySingleNaN.
From Verif Require Import CombineModel IeeeModel.
Import ListNotations.
Local Open Scope Z_scope.

Definition add64 (x y : f64) : f64 := @Bplus 53 1024 prec64 emax64 mode_NE x y.
Definition mul64 (x y : f64) : f64 := @Bmult 53 1024 prec64 emax64 mode_NE x y.
Definition div64 (x y : f64) : f64 := @Bdiv 53 1024 prec64 emax64 mode_NE x y.

(** The conversion of a float32 to float64. *)
Definition widen (x : f32) : f64 :=
  match x with
  | B754_zero s => B754_zero s
  | B754_infinity s => B754_infinity s
  | B754_nan => B754_nan
  | B754_finite s m e _ => binary_normalize 53 1024 prec64 emax64 mode_NE (cond_Zopp s (Zpos m)) e s
  end.

(** A NumPy number with its dtype. *)
Inductive np := S32 (x : f32) | D64 (x : f64).
Definition as_f64 (x : np) : f64 := match x with S32 x => widen x | D64 x => x end.
Definition as_f32 (x : np) : f32 := match x with S32 x => x | D64 x => cast_f64 x end.

Definition np_op (op32 : f32 -> f32 -> f32) (op64 : f64 -> f64 -> f64) (x y : np) : np :=
  match x, y with
  | S32 x, S32 y => S32 (op32 x y)
  | _, _ => D64 (op64 (as_f64 x) (as_f64 y))
  end.
Definition np_add := np_op add32 add64.
Definition np_sub := np_op sub32 sub64.
Definition np_mul := np_op mul32 mul64.
Definition np_div := np_op div32 div64.

(** np.nan_to_num: NaN to 0, infinities to the greatest and least numbers of the dtype. *)
Definition clean {prec emax} (P : Prec_gt_0 prec) (E : Prec_lt_emax prec emax) (x : binary_float prec emax)
  : binary_float prec emax :=
  match x with
  | B754_nan => B754_zero false
  | B754_infinity false => @Bmax_float prec emax P E
  | B754_infinity true => Bopp (@Bmax_float prec emax P E)
  | _ => x
  end.
Definition np_nan_to_num (x : np) : np :=
  match x with S32 x => S32 (clean prec32 emax32 x) | D64 x => D64 (clean prec64 emax64 x) end.

(** analyzers.py:1250-1277 ([_WeightedMeanAndVarAccumulator]), of shape (); the weight, zero, is left out. *)
Record fmv := FMV { f_count : np; f_mean : np; f_var : np }.

(** analyzers.py:1258-1277 ([make_nan_to_num], compute_variance=True, compute_weighted=False). *)
Definition make_nan_to_num (a : fmv) : fmv := FMV (f_count a) (np_nan_to_num (f_mean a)) (np_nan_to_num (f_var a)).

(** analyzers.py:1315-1326 ([create_accumulator]).  The count is an int64, which with a float32 gives a float64. *)
Definition zero64' : np := D64 (B754_zero false).
Definition fmv_create : fmv := FMV zero64' zero64' zero64'.

(** analyzers.py:1450-1479: the formulas, with a.count >= b.count. *)
Definition fmv_formulas (a b : fmv) : fmv :=
  let combined_total := np_add (f_count a) (f_count b) in
  let combined_mean := np_add (f_mean a)
    (np_mul (np_div (f_count b) combined_total) (np_sub (f_mean b) (f_mean a))) in
  let combined_variance := np_add (f_var a)
    (np_mul (np_div (f_count b) combined_total)
      (np_add (np_sub (f_var b) (f_var a))
        (np_mul (np_sub (f_mean b) combined_mean) (np_sub (f_mean b) (f_mean a))))) in
  FMV combined_total combined_mean combined_variance.

(** analyzers.py:1417-1479 ([_combine_mean_and_var_accumulators], compute_variance=True, compute_weighted=False). *)
Definition fmv_combine (a b : fmv) : fmv :=
  let a := make_nan_to_num a in
  let b := make_nan_to_num b in
  let (a, b) := if Bltb (as_f64 (f_count a)) (as_f64 (f_count b)) then (b, a) else (a, b) in
  if Beqb (as_f64 (f_count a)) (B754_zero false) then b else fmv_formulas a b.

(** analyzers.py:1348-1365 ([merge_accumulators]).  Never called with an empty list by Beam. *)
Definition fmv_merge (accumulators : list fmv) : fmv :=
  match accumulators with [] => fmv_create | a :: rest => fold_left fmv_combine rest a end.

(** analyzers.py:1280-1391 ([WeightedMeanAndVarCombiner], output dtype np.float32, output shape ()). *)
Definition fmv_combiner : combiner fmv fmv (f32 * f32) :=
  {| create_accumulator := fmv_create;
     add_input := fmv_combine;
     merge_accumulators := fmv_merge;
     extract_output := fun a => (as_f32 (f_mean a), as_f32 (f_var a)) |}.

(** tf.math.divide_no_nan on tf.float32. *)
Definition divide_no_nan32 (x y : f32) : f32 := if Beqb y zero32 then zero32 else div32 x y.

Section fmv.
  (** tf.reduce_sum.  In which order it adds is not documented. *)
  Variable reduce_sum : list f32 -> f32.

  (** tf_utils.py:1116-1130 ([_reduce_batch_count_mean_and_var_dense], tf.float32, reduce_instance_dims=True)
      with the count of tf_utils.py:685-689. *)
  Definition batch_fmv (xs : list f32) : fmv :=
    let x_count := cast_int (Z.of_nat (List.length (filter is_finite xs))) in
    let x_sum := reduce_sum (map (fun x => if is_finite x then x else zero32) xs) in
    let x_mean := divide_no_nan32 x_sum x_count in
    let x_minus_mean := map (fun x => if is_finite x then sub32 x x_mean else zero32) xs in
    let sum_of_squares := reduce_sum (map (fun d => mul32 d d) x_minus_mean) in
    FMV (S32 x_count) (S32 x_mean) (S32 (divide_no_nan32 sum_of_squares x_count)).

  (** analyzers.py:892-999 ([mean], [var]: the two outputs of [_mean_and_var]) for a dense, sparse or ragged
      tf.float32 column with reduce_instance_dims=True; a batch is the list of its values. *)
  Definition mean_and_var32 (s : sched (sched (list f32))) : f32 * f32 :=
    analyze fmv_combiner (map_sched (map_sched batch_fmv) s).
End fmv.
