(** C58: the Lambert W function and the inverse of the Tukey HH function. *)
From Coq Require Import List ZArith QArith Qreals Reals Lra Permutation.
From Verif Require Import CombineModel TukeySpec TukeyNumbers LMomentsModel LMomentsSpec LMomentsTukey
  LMomentsExample LambertSpec LambertProofs LambertInverse.
Import ListNotations.
Local Open Scope R_scope.

(** For every positive x there is one w with w exp(w) = x, and the eight steps of the
    iteration end above it by at most 1e-20. *)
Theorem c58_lambert_w : forall x, 0 < x ->
  exists w, is_lambert_w x w /\ (forall v, is_lambert_w x v -> v = w)
  /\ w <= lambert_w x <= w + / 10 ^ 20.
Proof.
  intros x Hx. destruct (lambert_w_exists x ltac:(lra)) as [w Hw]. exists w. split; [exact Hw|].
  split; [|now apply lambert_w_right]. destruct Hw as [W0 E]. intros v [V0 F].
  apply Rle_antisym; apply wexp_le; lra.
Qed.

Example c58_lambert_w_applies : 1 <= lambert_w (exp 1) <= 1 + / 10 ^ 20.
Proof. apply lambert_w_right; [apply exp_pos|exact lambert_at_e]. Qed.

(** The inverse has the sign of its argument, and the Tukey HH function maps it to at
    least the argument in absolute value, within 1e-7 of it, and within 1e-12 of it if
    h x^2 is at least 1e-7. *)
Theorem c58_inverse : forall x hl hr, 0 <= hl -> 0 <= hr ->
  let u := inverse_tukey_hh x hl hr in
  (0 < u <-> 0 < x) /\ (u < 0 <-> x < 0)
  /\ Rabs x <= Rabs (tukey_hh hl hr u)
  /\ Rabs (tukey_hh hl hr u - x) <= / 10 ^ 7 * Rabs x
  /\ (1 / 10000000 <= (if Rlt_dec x 0 then hl else hr) * (x * x) ->
      Rabs (tukey_hh hl hr u - x) <= / 10 ^ 12 * Rabs x).
Proof. exact inverse_right. Qed.

Example c58_inverse_applies :
  Rabs (tukey_hh (1 / 2) (1 / 3) (inverse_tukey_hh (-2) (1 / 2) (1 / 3)) - -2) <= / 10 ^ 12 * 2
  /\ inverse_tukey_hh (-2) (1 / 2) (1 / 3) < 0.
Proof.
  destruct (inverse_right (-2) (1 / 2) (1 / 3) ltac:(lra) ltac:(lra)) as (_ & B & _ & _ & C).
  split; [|apply B; lra].
  replace 2 with (Rabs (-2)) at 3 by (rewrite Rabs_left; lra). apply C. destruct (Rlt_dec (-2) 0); lra.
Qed.

(** Values that differ by more than 1e-7 of each of them keep their order. *)
Theorem c58_order : forall x y hl hr, 0 <= hl -> 0 <= hr ->
  x + / 10 ^ 7 * Rabs x < y -> x < y - / 10 ^ 7 * Rabs y ->
  inverse_tukey_hh x hl hr < inverse_tukey_hh y hl hr.
Proof. exact inverse_order. Qed.

Example c58_order_applies : inverse_tukey_hh 1 (1 / 2) (1 / 3) < inverse_tukey_hh 2 (1 / 2) (1 / 3).
Proof. apply inverse_order; try lra; rewrite Rabs_right; lra. Qed.

(** A column with an L-kurtosis above that of the Gaussian distribution: the values are,
    up to 1e-7, those of the fitted Tukey HH distribution at what tft.scale_to_gaussian
    returns, which has the sign of the distance to its location. *)
Theorem c58_scale_to_gaussian : forall skewness_error kurtosis_error (s t : sched (sched (list Q))),
  Permutation (concat (batches_of s)) (concat (batches_of t)) -> concat (batches_of s) <> [] ->
  gaussian_l_kurtosis < Q2R (l_kurtosis_within (batches_of s)) ->
  exists p, tukey_parameters skewness_error kurtosis_error s = Some p /\ 0 < scale p
  /\ forall x, exists u, scale_to_gaussian skewness_error kurtosis_error s t x = Some u
  /\ (0 < u <-> loc p < Q2R x) /\ (u < 0 <-> Q2R x < loc p)
  /\ Rabs (loc p + scale p * tukey_hh (left_h p) (right_h p) u - Q2R x)
     <= / 10 ^ 7 * Rabs (Q2R x - loc p).
Proof. exact gaussian_all. Qed.

Example c58_scale_to_gaussian_applies :
  gaussian_l_kurtosis < Q2R (l_kurtosis_within (batches_of heavy)).
Proof.
  replace (Q2R (l_kurtosis_within (batches_of heavy))) with 1.
  - pose proof (proj1 params_example). lra.
  - symmetry. transitivity (Q2R (1 # 1)); [apply Qeq_eqR; vm_compute; reflexivity|unfold Q2R; cbn; lra].
Qed.

(** The order of close values is not kept: at h x^2 = 1e-7 the inverse jumps down. *)
Theorem c58_monotone_refuted : exists h x y, 0 < h /\ 0 < x < y
  /\ inverse_tukey_hh y h h < inverse_tukey_hh x h h.
Proof. exact not_monotone. Qed.

(** The documentation of `inverse_tukey_hh` gives x = u exp(h u^2) as the function that
    is inverted; the code inverts u exp(h u^2 / 2), and what it returns is mapped by the
    documented function to at least 1.5 x in a case. *)
Theorem c58_documented_function_refuted : exists h x, 0 < h /\ 0 < x
  /\ 3 / 2 * x <= documented_tukey_hh h h (inverse_tukey_hh x h h).
Proof. exact not_documented. Qed.

(** The comment on the case h x^2 < 1e-7 says that its error is below 1e-14; it is
    above 1e-8 in a case. *)
Theorem c58_small_error_refuted : exists h x u, 0 < h /\ h * (x * x) < 1 / 10000000
  /\ tukey_hh h h u = x /\ / 10 ^ 8 <= inverse_tukey_hh x h h - u.
Proof. exact small_error. Qed.

Print Assumptions c58_lambert_w.
Print Assumptions c58_inverse.
Print Assumptions c58_order.
Print Assumptions c58_scale_to_gaussian.
Print Assumptions c58_monotone_refuted.
Print Assumptions c58_documented_function_refuted.
Print Assumptions c58_small_error_refuted.
