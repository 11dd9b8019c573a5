(** The L-moments behind tft.tukey_location, tft.tukey_scale, tft.tukey_h_params and
    tft.scale_to_gaussian, and these functions themselves.  Values and moments are
    rationals, which are what floating point numbers are before rounding; a column has
    no NaN and no infinite value, so `nan_to_num` (analyzers.py:1528-1540) changes
    nothing.  From the square roots on, numbers are reals. *)
From Coq Require Import List ZArith QArith Qround Qreals Reals Bool.
From Verif Require Import CombineModel FloatModel SortModel MeanVarModel TukeyModel.
Import ListNotations.
Local Open Scope Q_scope.

Definition of_nat (n : nat) : Q := inject_Z (Z.of_nat n).

(** tf.range(start, limit, delta) *)
Definition tf_range (start limit delta : Q) : list Q :=
  map (fun i => start + of_nat i * delta)
      (seq 0 (Z.to_nat (Qceiling ((limit - start) / delta)))).

(** Elementwise operations on vectors of the same length. *)
Definition v_map2 (f : Q -> Q -> Q) (xs ys : list Q) : list Q :=
  map (fun p => f (fst p) (snd p)) (combine xs ys).
Definition v_mul := v_map2 Qmult.
Definition v_sub := v_map2 Qminus.
Definition v_add := v_map2 Qplus.
Definition v_scale (c : Q) (xs : list Q) : list Q := map (Qmult c) xs.
Definition v_div (xs : list Q) (c : Q) : list Q := map (fun x => x / c) xs.
Definition reduce_sum (xs : list Q) : Q := fold_right Qplus 0 xs.

Record terms := Terms {
  current_samples : Q; current_pairs : Q; current_triplets : Q; current_quadruplets : Q;
  l1_factors : list Q; l2_factors : list Q; l3_factors : list Q; l4_factors : list Q }.

(** `_num_terms_and_factors` (tf_utils.py:1168-1250). *)
Definition num_terms_and_factors (num_samples : nat) : terms :=
  let has_pairs := Nat.ltb 1 num_samples in
  let has_triplets := Nat.ltb 2 num_samples in
  let has_quadruplets := Nat.ltb 3 num_samples in
  let samples := of_nat num_samples in
  let pairs := samples * (samples - 1) / 2 in
  let triplets := pairs * (samples - 2) / 3 in
  let quadruplets := triplets * (samples - 3) / 4 in
  let term_up := tf_range 0 samples 1 in
  let term_up_delay_1 := tf_range (-1) (samples - 1) 1 in
  let term_up_delay_2 := tf_range (-2) (samples - 2) 1 in
  let term_down := tf_range (samples - 1) (-1) (-1) in
  let term_down_delay_1 := tf_range (samples - 2) (-2) (-1) in
  let term_down_delay_2 := tf_range (samples - 3) (-3) (-1) in
  let l1_denominator := if Nat.ltb 0 num_samples then samples else 1 in
  let l1 := v_div (repeat 1 num_samples) l1_denominator in
  let l2_denominator := if has_pairs then pairs * 2 else 1 in
  let l2 := v_div (v_sub term_up term_down) l2_denominator in
  let l3_denominator := if has_triplets then triplets * 6 else 1 in
  let l3 := v_div (v_add (v_sub (v_mul term_up term_up_delay_1)
                                (v_scale 4 (v_mul term_up term_down)))
                         (v_mul term_down term_down_delay_1)) l3_denominator in
  let l4_denominator := if has_quadruplets then quadruplets * 24 else 1 in
  let l4 := v_div (v_sub (v_add (v_sub (v_mul (v_mul term_up term_up_delay_1) term_up_delay_2)
                                       (v_scale 9 (v_mul (v_mul term_up term_up_delay_1) term_down)))
                                (v_scale 9 (v_mul (v_mul term_up term_down) term_down_delay_1)))
                         (v_mul (v_mul term_down term_down_delay_1) term_down_delay_2))
                  l4_denominator in
  Terms samples pairs triplets quadruplets l1 l2 l3 l4.

(** One coordinate of a `_LMomentsAccumulator` (analyzers.py:1520-1542).  As for the
    mean (MeanVarModel.v), an accumulator is the list of its coordinates: one for
    reduce_instance_dims=True, one per column otherwise. *)
Record lm := LM {
  count_l1 : Q; count_l2 : Q; count_l3 : Q; count_l4 : Q;
  l1 : Q; l2 : Q; l3 : Q; l4 : Q }.

Definition lm_zero : lm := LM 0 0 0 0 0 0 0 0.

Definition tf_sort (xs : list Q) : list Q := py_sorted Qle_bool xs.

(** One turn of the loop (tf_utils.py:1366-1414 for a dense column, 1270-1346 for a
    sparse one): the moments of a column of values, with the factors for that number
    of values.  The sums of the other columns are left as they are by `scatter_nd`. *)
Definition column_moments (t : terms) (xs : list Q) : lm :=
  let sorted_x := tf_sort xs in
  LM (current_samples t) (current_pairs t) (current_triplets t) (current_quadruplets t)
     (reduce_sum (v_mul sorted_x (l1_factors t)))
     (reduce_sum (v_mul sorted_x (l2_factors t)))
     (reduce_sum (v_mul sorted_x (l3_factors t)))
     (reduce_sum (v_mul sorted_x (l4_factors t))).

(** `reduce_batch_count_l_moments` (tf_utils.py:1417-1541).  With
    reduce_instance_dims=True a batch is the list of its values.  Otherwise it is given
    by its columns: those of a dense batch of [n] rows all have [n] values, those of a
    sparse batch have the values that are present. *)
Definition batch_reduced (xs : list Q) : list lm :=
  [column_moments (num_terms_and_factors (length xs)) xs].
Definition batch_dense (n : nat) (columns : list (list Q)) : list lm :=
  map (column_moments (num_terms_and_factors n)) columns.
Definition batch_sparse (columns : list (list Q)) : list lm :=
  map (fun xs => column_moments (num_terms_and_factors (length xs)) xs) columns.

(** np.true_divide(x, y, where=y > 0, out=zeros) *)
Definition divide_where_positive (x y : Q) : Q := if Qle_bool y 0 then 0 else x / y.

(** One coordinate of `_combine_accumulators` (analyzers.py:1704-1749). *)
Definition combine_coordinate (a b : lm) : lm :=
  let combined_count_l1 := count_l1 a + count_l1 b in
  let combined_count_l2 := count_l2 a + count_l2 b in
  let combined_count_l3 := count_l3 a + count_l3 b in
  let combined_count_l4 := count_l4 a + count_l4 b in
  LM combined_count_l1 combined_count_l2 combined_count_l3 combined_count_l4
     (l1 a + divide_where_positive (count_l1 b) combined_count_l1 * (l1 b - l1 a))
     (l2 a + divide_where_positive (count_l2 b) combined_count_l2 * (l2 b - l2 a))
     (l3 a + divide_where_positive (count_l3 b) combined_count_l3 * (l3 b - l3 a))
     (l4 a + divide_where_positive (count_l4 b) combined_count_l4 * (l4 b - l4 a)).

Definition sum_samples (a : list lm) : Q := reduce_sum (map count_l1 a).

(** `_pad_arrays_to_match` (analyzers.py:1483-1517), one dimension. *)
Definition pad_to (n : nat) (a : list lm) : list lm := a ++ repeat lm_zero (n - length a).

(** `_combine_accumulators` (analyzers.py:1680-1749). *)
Definition combine_accumulators (a b : list lm) : list lm :=
  let (a, b) := if Qle_bool (sum_samples b) (sum_samples a) then (a, b) else (b, a) in
  if Qeq_bool (sum_samples b) 0 then a
  else
    let n := Nat.max (length a) (length b) in
    map (fun p => combine_coordinate (fst p) (snd p)) (combine (pad_to n a) (pad_to n b)).

(** `merge_accumulators` (analyzers.py:1595-1610). *)
Definition merge_accumulators_of (accumulators : list (list lm)) : list lm :=
  match accumulators with
  | [] => []
  | a :: rest => fold_left combine_accumulators rest a
  end.

(** `_LMomentsCombiner` (analyzers.py:1545-1678) up to the accumulators; [n] is the
    number of columns if it is known, else 0. *)
Definition moments_combiner (n : nat) : combiner (list lm) (list lm) (list lm) :=
  {| create_accumulator := repeat lm_zero n;
     add_input := combine_accumulators;
     merge_accumulators := merge_accumulators_of;
     extract_output := fun a => a |}.

(** The moments that `_tukey_parameters` (analyzers.py:1128-1167) finds for a column, for
    a given schedule of the analysis of its batches. *)
Definition moments_reduced (s : sched (sched (list Q))) : list lm :=
  analyze (moments_combiner 1) (map_sched (map_sched batch_reduced) s).
Definition moments_dense (n : nat) (s : sched (sched (nat * list (list Q)))) : list lm :=
  analyze (moments_combiner n)
    (map_sched (map_sched (fun b => batch_dense (fst b) (snd b))) s).
Definition moments_sparse (n : nat) (s : sched (sched (list (list Q)))) : list lm :=
  analyze (moments_combiner n) (map_sched (map_sched batch_sparse) s).

(** ** Parameters *)

Local Open Scope R_scope.

(** `tukey_hh_l_mean_and_scale` (gaussianization.py:26-56). *)
Definition hh_l_mean (hl hr : R) : R :=
  1 / sqrt (2 * PI) * (1 / (hl - 1) + 1 / (1 - hr)).
Definition hh_l_scale (hl hr : R) : R :=
  1 / sqrt (2 * PI)
  * ((sqrt (2 - hl) + sqrt (2 - hr) - hl * sqrt (2 - hl) - hr * sqrt (2 - hr))
     / ((hl - 1) * (hr - 1) * sqrt ((hl - 2) * (hr - 2)))).

Section Parameters.
(** `_params_to_errors` (gaussianization.py:179-201) for the targets L-skewness and
    L-kurtosis; the formula it uses is not modelled, see TukeyModel.v. *)
Variables skewness_error kurtosis_error : R -> R -> R -> R -> R.

(** `compute_tukey_hh_params` (gaussianization.py:204-330); 11 steps are enough for each
    of its binary searches (c44_binary_search_brackets).  The errors are for the absolute
    value of the L-skewness and for an L-kurtosis of at most 1 - 1e-5 (235-241). *)
Definition hh_params (l_skewness l_kurtosis : R) : option (R * R) :=
  compute_params 11
    (skewness_error (Rabs l_skewness) (Rmin l_kurtosis (1 - 1 / 100000)))
    (kurtosis_error (Rabs l_skewness) (Rmin l_kurtosis (1 - 1 / 100000)))
    l_skewness l_kurtosis.

Record parameters := Parameters { loc : R; scale : R; left_h : R; right_h : R }.

(** One coordinate of `extract_output` (analyzers.py:1612-1662). *)
Definition extract_parameters (a : lm) : option parameters :=
  let valid_scale := negb (Qle_bool (l2 a) 0) in
  let valid_kurtosis := valid_scale && negb (Qle_bool (count_l4 a) 0) in
  let l_skewness := if valid_kurtosis then (l3 a / l2 a)%Q else 0%Q in
  let l_kurtosis := if valid_kurtosis then (l4 a / l2 a)%Q else 0%Q in
  match hh_params (Q2R l_skewness) (Q2R l_kurtosis) with
  | None => None
  | Some (hl, hr) =>
      let scale := if valid_scale then Q2R (l2 a) / hh_l_scale hl hr else 1 in
      Some (Parameters (Q2R (l1 a) - scale * hh_l_mean hl hr) scale hl hr)
  end.

(** `_tukey_parameters` (analyzers.py:1128-1167), reduce_instance_dims=True. *)
Definition tukey_parameters (s : sched (sched (list Q))) : option parameters :=
  extract_parameters (nth 0 (moments_reduced s) lm_zero).

(** ** Gaussianization *)

(** `lambert_w` (gaussianization.py:333-377). *)
Definition lambert_w (x : R) : R :=
  let s := (exp 1 - 1) / (exp 2 - 1) in
  let c := 1 / exp 1 * (1 - s) in
  let log_s := ln x in
  let w_init :=
    if real_lt x (exp (-1)) then x
    else if real_lt x (exp 1) then s * x + c
    else log_s + (1 / log_s - 1) * ln log_s in
  let newton_update w := w - (w * exp w - x) / (exp w + w * exp w) in
  Nat.iter 8 newton_update w_init.

(** `inverse_tukey_hh` (gaussianization.py:380-413). *)
Definition one_side (x h : R) : R :=
  let h_x_square := h * (x * x) in
  if real_lt h_x_square (1 / 10000000) then x else sqrt (lambert_w h_x_square / h).

Definition inverse_tukey_hh (x hl hr : R) : R :=
  if real_lt x 0 then - one_side (- x) hl else one_side x hr.

(** mappers.py:163-182, one value. *)
Definition gaussian_value (p : parameters) (x_var : R) (x : R) : R :=
  let numerator := x - loc p in
  let is_long_tailed := real_lt 0 (left_h p) || real_lt 0 (right_h p) in
  let denominator := if is_long_tailed then scale p else sqrt x_var in
  let scaled := if Req_EM_T denominator 0 then numerator else numerator / denominator in
  inverse_tukey_hh scaled (left_h p) (right_h p).

(** `_scale_to_gaussian_internal` (mappers.py:133-182), elementwise=False: a finite value
    [x] is transformed with the analyses of the column scheduled as [s] (parameters)
    and [t] (variance), which are of the same batches but separate. *)
Definition scale_to_gaussian (s t : sched (sched (list Q))) (x : Q) : option R :=
  match tukey_parameters s, mean_and_var (map_sched (map_sched (map Fin)) t) with
  | Some p, [(_, Fin x_var)] => Some (gaussian_value p (Q2R x_var) (Q2R x))
  | _, _ => None
  end.
End Parameters.
