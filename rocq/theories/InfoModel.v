(** * The information of a token about the label

    Models /repo/tensorflow_transform/info_theory.py and [_calculate_mutual_information_for_feature_value]
    of /repo/tensorflow_transform/beam/analyzer_impls.py, on real numbers instead of floating point ones. *)
From Coq Require Import List ZArith Reals Qreals Bool.
From Verif Require Import FloatModel WeightedModel.
Import ListNotations.
Local Open Scope R_scope.
Local Open Scope list_scope.

(** [None]: a ValueError of the math module, or a ZeroDivisionError. *)
Definition bind {A B} (a : option A) (f : A -> option B) : option B := match a with Some x => f x | None => None end.
Local Notation "'let?' x ':=' a 'in' b" := (bind a (fun x => b)) (at level 200, x name, right associativity).

(** math.log, math.log2 *)
Definition math_log (x : R) : option R := if Rlt_dec 0 x then Some (ln x) else None.
Definition log2 (x : R) : option R := if Rlt_dec 0 x then Some (ln x / ln 2) else None.
Definition divide (a b : R) : option R := if Req_EM_T b 0 then None else Some (a / b).
Definition is_zero (x : R) : bool := if Req_EM_T x 0 then true else false.

(** round(x): halves go to the even integer *)
Definition py_round (x : R) : Z :=
  let f := Int_part x in
  if Rlt_dec (x - IZR f) (/ 2) then f
  else if Rlt_dec (/ 2) (x - IZR f) then (f + 1)%Z
  else if Z.even f then f else (f + 1)%Z.

Section Info.
(** math.lgamma *)
Variable lgamma : R -> option R.

(** info_theory.py:139-141 [_logfactorial] *)
Definition logfactorial (n : R) : option R := lgamma (n + 1).

(** info_theory.py:126-136: the loop of [_hypergeometric_pmf] from n_j on *)
Fixpoint pmf_loop (steps : nat) (n x_i y_j : R) (last n_j : Z) (numerator denominator : R) : option (list (Z * R)) :=
  match steps with
  | 0%nat => Some []
  | S steps' =>
      let p_j := exp (numerator - denominator) in
      let? denominator' :=
        (if (n_j =? last)%Z then Some denominator
         else
           let? a := math_log (IZR n_j + 1) in
           let? b := math_log (x_i - IZR n_j) in
           let? c := math_log (y_j - IZR n_j) in
           let? d := math_log (n - x_i - y_j + IZR n_j + 1) in
           Some (denominator + (a - b - c + d))) in
      let? rest := pmf_loop steps' n x_i y_j last (n_j + 1) numerator denominator' in
      Some ((n_j, p_j) :: rest)
  end.
(** info_theory.py:94-136 [_hypergeometric_pmf] *)
Definition hypergeometric_pmf (n x_i y_j : R) : option (list (Z * R)) :=
  let start := py_round (Rmax 0 (x_i + y_j - n)) in
  let last := py_round (Rmin x_i y_j) in
  let? x1 := logfactorial x_i in
  let? y1 := logfactorial y_j in
  let? x2 := logfactorial (n - x_i) in
  let? y2 := logfactorial (n - y_j) in
  let? d1 := logfactorial n in
  let? d2 := logfactorial (IZR start) in
  let? d3 := logfactorial (x_i - IZR start) in
  let? d4 := logfactorial (y_j - IZR start) in
  let? d5 := logfactorial (n - x_i - y_j + IZR start) in
  pmf_loop (Z.to_nat (last + 1 - start)) n x_i y_j last start (x1 + y1 + x2 + y2) (d1 + d2 + d3 + d4 + d5).

(** info_theory.py:56-66: the loop of [calculate_partial_expected_mutual_information] *)
Fixpoint expected_loop (coefficient : R) (pmf : list (Z * R)) (partial_result sum_probability : R) : option (R * R) :=
  match pmf with
  | [] => Some (partial_result, sum_probability)
  | (n_j, p_j) :: pmf' =>
      let? partial_result' :=
        (if (n_j =? 0)%Z then Some partial_result
         else let? l := log2 (IZR n_j) in Some (partial_result + IZR n_j * (coefficient + l) * p_j)) in
      expected_loop coefficient pmf' partial_result' (sum_probability + p_j)
  end.
(** info_theory.py:24-66 [calculate_partial_expected_mutual_information] *)
Definition calculate_partial_expected_mutual_information (n x_i y_j : R) : option R :=
  if is_zero x_i || is_zero y_j then Some 0
  else
    let? lx := log2 x_i in
    let? ly := log2 y_j in
    let? ln_ := log2 n in
    let? pmf := hypergeometric_pmf n x_i y_j in
    let? sums := expected_loop (- lx - ly + ln_) pmf 0 0 in
    divide (fst sums) (snd sums).

(** info_theory.py:69-91 [calculate_partial_mutual_information] *)
Definition calculate_partial_mutual_information (n_ij x_i y_j n : R) : option R :=
  if is_zero n_ij || is_zero x_i || is_zero y_j then Some 0
  else
    let? l1 := log2 n_ij in
    let? l2 := log2 n in
    let? l3 := log2 x_i in
    let? l4 := log2 y_j in
    Some (n_ij * ((l1 + l2) - (l3 + l4))).

(** _WeightedMeanAndVarAccumulator (analyzers.py:1251-1277): count, mean and weight *)
Record accumulator := Accumulator { acc_count : R; acc_mean : list R; acc_weight : R }.

(** beam/analyzer_impls.py:674-675 [_clip_probability] *)
Definition clip_probability (p : R) : R := Rmin (Rmax p (1 / 1000000)) (1 - 1 / 1000000).

(** What [_calculate_mutual_information_for_feature_value] returns for a token, without the expected
    mutual information, which is dropped (beam/analyzer_impls.py:875-879). *)
Inductive information :=
| Not_a_number
| Information (mutual_information frequency : R)
| Too_frequent    (* ValueError *)
| Math_error.

(** beam/analyzer_impls.py:773-794: the loop over the labels from label_ix on *)
Fixpoint label_loop (use_adjusted_mutual_info : bool) (min_diff_from_avg n x_i : R) (current : accumulator)
    (label_ix : nat) (global_label_counts : list R) (mutual_information expected_mutual_information : R) : option (R * R) :=
  match global_label_counts with
  | [] => Some (mutual_information, expected_mutual_information)
  | y_i :: counts =>
      let continue := label_loop use_adjusted_mutual_info min_diff_from_avg n x_i current (S label_ix) counts in
      if is_zero y_i then continue mutual_information expected_mutual_information
      else
        let local_mean := nth label_ix (acc_mean current) 0 in
        let n_i := clip_probability local_mean * acc_weight current * acc_count current in
        let? average := divide (x_i * y_i) n in
        if Rlt_dec (Rabs (average - n_i)) min_diff_from_avg then continue mutual_information expected_mutual_information
        else
          let? mi := calculate_partial_mutual_information n_i x_i y_i n in
          let? emi := (if use_adjusted_mutual_info then calculate_partial_expected_mutual_information n x_i y_i else Some 0) in
          continue (mutual_information + mi) (expected_mutual_information + emi)
  end.

(** beam/analyzer_impls.py:678-808 [_calculate_mutual_information_for_feature_value] *)
Definition calculate_mutual_information (use_adjusted_mutual_info : bool) (min_diff_from_avg : R)
    (current global : accumulator) : information :=
  let global_label_counts := map (fun m => m * acc_weight global * acc_count global) (acc_mean global) in
  let n := acc_count global * acc_weight global in
  if is_zero n then Not_a_number
  else
    let x_i := acc_count current * acc_weight current in
    if (py_round x_i =? py_round n)%Z then Information 0 x_i
    else if (py_round n <? py_round x_i)%Z then Too_frequent
    else
      match label_loop use_adjusted_mutual_info min_diff_from_avg n x_i current 0 global_label_counts 0 0 with
      | None => Math_error
      | Some (mi, emi) => Information (if use_adjusted_mutual_info then mi - emi else mi) x_i
      end.
End Info.

(** The numbers of an accumulator as the statistics of the tokens hold them (WeightedModel.v). NaN and
    infinities, which numpy would carry on, are taken for 0: no theorem reaches them. *)
Definition real (x : fl) : R := match x with Fin q => Q2R q | _ => 0 end.
Definition real_accumulator (a : wm) : accumulator :=
  Accumulator (IZR (wm_count a)) (map real (wm_mean a)) (real (wm_weight a)).

(** ** Tokens and the sentinel *)

(** tf_utils.py:39-40 and beam/analyzer_impls.py:815-848, 858-867: every row is accumulated for its tokens and
    for the sentinel, and the accumulator of the sentinel is taken for that of the whole dataset.
    [rows_of key]: the rows accumulated for a key. *)
From Coq Require Import String.
Definition sentinel : string := "global_y_count_sentinel".
Definition keyed {A} (rows : list (list string * A)) : list (string * A) :=
  flat_map (fun r => map (fun t => (t, snd r)) (fst r)) rows ++ map (fun r => (sentinel, snd r)) rows.
Definition rows_of {A} (key : string) (kvs : list (string * A)) : list A :=
  map snd (filter (fun kv => String.eqb (fst kv) key) kvs).
(** beam/analyzer_impls.py:825-848 [_extract_sentinels] *)
Definition global_rows {A} (rows : list (list string * A)) : list A := rows_of sentinel (keyed rows).
Definition token_rows {A} (token : string) (rows : list (list string * A)) : option (list A) :=
  if String.eqb token sentinel then None else Some (rows_of token (keyed rows)).
