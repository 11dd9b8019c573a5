(** The search for the parameters of a Tukey HH distribution.
    Models `_binary_search` and `compute_tukey_hh_params`,
    /repo/tensorflow_transform/gaussianization.py:135-176, 204-330. *)
From Coq Require Import Reals List Bool Arith.
Import ListNotations.

Section Search.
(** Numbers [T] (floating point, rational or real) and error values [E].  The
    error functions are arbitrary: any formula, rounded in any way, and errors may
    be NaN, for which all tests are false. *)
Variables T E : Type.
(** `(low_value + high_value) / 2.0` (gaussianization.py:163). *)
Variable mid : T -> T -> T.
(** `high_value - low_value < stop_value_step` (gaussianization.py:173), on
    (high, low). *)
Variable narrow : T -> T -> bool.
(** `current_error < 0.0`, `error > 0.0` and `np.abs(current_error) <
    stop_error_step` (gaussianization.py:165, 267, 172). *)
Variables negative positive small : E -> bool.

(** `_binary_search` (gaussianization.py:135-176).  [iter] is `current_iter`; the
    fuel counts the turns of `while True`, [None] when it runs out. *)
Fixpoint binary_search (fuel : nat) (iter : nat) (error : T -> E) (low high : T)
  : option (T * T) :=
  match fuel with
  | O => None
  | S fuel =>
      let value := mid low high in
      let e := error value in
      let low := if negative e then value else low in
      let high := if negative e then high else value in
      let iter := S iter in
      if (10 <? iter)%nat || small e || narrow high low then Some (low, high)
      else binary_search fuel iter error low high
  end.

(** `_params_to_errors(h, delta_h, ...)` (gaussianization.py:179-201): the errors
    of the L-skewness and of the L-kurtosis for h and delta_h. *)
Variables skewness_error kurtosis_error : T -> T -> E.
(** The second exit condition (gaussianization.py:321-323) on the new and the
    previous search parameters. *)
Variable converged : T * T -> T * T -> bool.

(** `search_params`, `min_search_params` and `max_search_params`, each with the
    entries h and delta (gaussianization.py:252-258). *)
Record params : Type := Params {
  h : T; delta : T;
  min_h : T; min_delta : T;
  max_h : T; max_delta : T
}.

(** One turn of the loop (gaussianization.py:263-313).  [fuel] is that of the
    binary searches. *)
Definition turn (fuel : nat) (p : params) : option params :=
  let error_skewness := fun x => skewness_error (h p) x in
  if positive (error_skewness (max_delta p)) then
    match binary_search fuel 0 error_skewness (min_delta p) (max_delta p) with
    | None => None
    | Some (_, high_delta) =>
        let p := Params (h p) high_delta (min_h p) (min_delta p) (max_h p) high_delta in
        match binary_search fuel 0 (fun x => kurtosis_error x (delta p)) (min_h p) (max_h p) with
        | None => None
        | Some (_, high_h) =>
            let p := Params high_h (delta p) (min_h p) (min_delta p) high_h (max_delta p) in
            match binary_search fuel 0 (fun x => skewness_error (h p) x)
                    (min_delta p) (max_delta p) with
            | None => None
            | Some (low_delta, _) =>
                let p := Params (h p) low_delta (min_h p) low_delta (max_h p) (max_delta p) in
                match binary_search fuel 0 (fun x => kurtosis_error x (delta p))
                        (min_h p) (max_h p) with
                | None => None
                | Some (low_h, _) =>
                    Some (Params low_h (delta p) low_h (min_delta p) (max_h p) (max_delta p))
                end
            end
        end
    end
  else
    let p := Params (h p) (max_delta p) (min_h p) (max_delta p) (max_h p) (max_delta p) in
    match binary_search fuel 0 (fun x => kurtosis_error x (delta p)) (min_h p) (max_h p) with
    | None => None
    | Some (low_h, _) =>
        Some (Params low_h (delta p) low_h (min_delta p) (max_h p) low_h)
    end.

(** The loop (gaussianization.py:260-324): `current_iter` counts up to 20, here
    the turns that are left count down; [previous] is `previous_search_params`. *)
Fixpoint search (fuel : nat) (turns : nat) (previous : T * T) (p : params) : option params :=
  match turns with
  | O => Some p
  | S turns =>
      match turn fuel p with
      | None => None
      | Some p =>
          if small (skewness_error (h p) (delta p)) && small (kurtosis_error (h p) (delta p))
             || converged (h p, delta p) previous
          then Some p
          else search fuel turns (h p, delta p) p
      end
  end.

(** The zero of the dtype, `1.0 - 1.0e-7` in the dtype, and the subtraction of
    gaussianization.py:326. *)
Variables zero top : T.
Variable sub : T -> T -> T.

(** The start of the search and its result (gaussianization.py:252-330), given
    `initial_h` and whether the parameters are swapped. *)
Definition tukey_search (fuel : nat) (initial_h : T) (swap : bool) : option (T * T) :=
  match search fuel 20 (zero, zero) (Params initial_h zero initial_h zero top initial_h) with
  | None => None
  | Some p =>
      let left := sub (h p) (delta p) in
      let right := h p in
      Some (if swap then (right, left) else (left, right))
  end.
End Search.

(** `compute_tukey_hh_params` (gaussianization.py:204-330) with real numbers for
    floating point ones, for a given L-skewness and L-kurtosis; the formula of the
    errors, `_tukey_hh_l_skewness_and_kurtosis`, is arbitrary. *)
Definition initial_h (l_kurtosis : R) : R :=
  (3 - 1 / cos (PI / 15 * (l_kurtosis - 6)))%R.

Definition real_lt (x y : R) : bool := if Rlt_dec x y then true else false.

Definition compute_params (fuel : nat) (skewness_error kurtosis_error : R -> R -> R)
    (l_skewness l_kurtosis : R) : option (R * R) :=
  (if Rlt_dec l_kurtosis (1226017 / 10000000) then Some (0, 0)
   else
     let l_kurtosis := Rmin l_kurtosis (1 - 1 / 100000) in
     tukey_search R R
       (fun low high => (low + high) / 2)
       (fun high low => real_lt (high - low) (1 / 1000000))
       (fun e => real_lt e 0)
       (fun e => real_lt 0 e)
       (fun e => real_lt (Rabs e) (1 / 1000000))
       skewness_error kurtosis_error
       (fun p q => real_lt (Rabs (fst p - fst q)) (1 / 1000000)
                   && real_lt (Rabs (snd p - snd q)) (1 / 1000000))
       0 (1 - 1 / 10000000) Rminus
       fuel (initial_h l_kurtosis) (real_lt l_skewness 0))%R.

Arguments binary_search {T E} _ _ _ _ _ _ _ _ _.
Arguments turn {T E} _ _ _ _ _ _ _ _ _.
Arguments search {T E} _ _ _ _ _ _ _ _ _ _ _ _.
Arguments tukey_search {T E} _ _ _ _ _ _ _ _ _ _ _ _ _ _.
Arguments Params {T} _ _ _ _ _ _.
