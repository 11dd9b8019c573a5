(** C44: the search for Tukey HH parameters. *)
From Coq Require Import QArith Reals Lra Lia Bool.
From Verif Require Import TukeyModel TukeySpec TukeyProofs TukeyNumbers TukeyExample.
Open Scope R_scope.

(** The binary search ends within 11 steps, whatever the error function and however
    its values are tested, and returns an interval inside the one it was given, of
    which each end that moved has an error on its own side. *)
Theorem c44_binary_search_brackets :
  forall T E (le : T -> T -> Prop) mid sub zero narrow (negative small : E -> bool)
         fuel error low high,
  ordered_numbers le zero mid sub -> le low high -> (11 <= fuel)%nat ->
  exists l h, binary_search mid narrow negative small fuel 0 error low high = Some (l, h)
              /\ brackets le negative error low high l h.
Proof.
  intros. apply (bsearch_brackets T E le mid sub zero narrow negative small H); auto; lia.
Qed.

Example c44_binary_search_brackets_applies : ordered_numbers Qle 0%Q q_mid q_sub
  /\ binary_search q_mid (fun _ _ => false) (fun e => q_lt e 0) (fun _ => false) 11 0
       (fun x => x * x - 2)%Q 0%Q 2%Q = Some (181 # 128, 1449 # 1024)%Q.
Proof. split; [exact q_ordered|]. vm_compute. reflexivity. Qed.

(** With real numbers the search stops because the error at an end of the interval is
    below the wanted one, because the interval is narrow enough, or with an interval
    of 1/2048 of the width; and if the error function is continuous and changes its
    sign on the given interval it has a root in the returned one. *)
Theorem c44_binary_search_accuracy :
  forall step width fuel (error : R -> R) low high,
  low <= high -> (11 <= fuel)%nat ->
  exists l h,
    binary_search (fun low high => (low + high) / 2)
      (fun high low => real_lt (high - low) width) (fun e => real_lt e 0)
      (fun e => real_lt (Rabs e) step) fuel 0 error low high = Some (l, h)
    /\ low <= l <= h /\ h <= high
    /\ (Rabs (error l) < step \/ Rabs (error h) < step \/ h - l < width
        \/ h - l = (high - low) / 2048)
    /\ (continuity error -> error low < 0 -> 0 <= error high ->
        exists x, l <= x <= h /\ error x = 0).
Proof. exact real_binary_search. Qed.

Example c44_binary_search_applies : exists l h,
  binary_search (fun low high => (low + high) / 2)
    (fun high low => real_lt (high - low) (1 / 1000000)) (fun e => real_lt e 0)
    (fun e => real_lt (Rabs e) (1 / 1000000)) 11 0 (fun x => x * x - 2) 0 2 = Some (l, h)
  /\ exists x, l <= x <= h /\ x * x - 2 = 0.
Proof.
  destruct (c44_binary_search_accuracy (1 / 1000000) (1 / 1000000) 11 (fun x => x * x - 2) 0 2)
    as [l [h [A [_ [_ [_ B]]]]]]; [lra|lia|].
  exists l, h. split; [exact A|]. apply B; [reg|lra|lra].
Qed.

(** Whatever the errors are and however numbers are rounded, the search ends and
    returns two parameters between 0 and 1 - 1e-7, in the order asked for, the larger
    one not below the start, if the start itself is in that range. *)
Theorem c44_search_admissible :
  forall T E (le : T -> T -> Prop) mid sub zero top narrow (negative positive small : E -> bool)
         skewness_error kurtosis_error converged start fuel swap,
  ordered_numbers le zero mid sub -> le zero start -> le start top -> (11 <= fuel)%nat ->
  exists light heavy,
    tukey_search mid narrow negative positive small skewness_error kurtosis_error converged
      zero top sub fuel start swap
    = Some (if swap then (heavy, light) else (light, heavy))
    /\ le zero light /\ le light heavy /\ le heavy top /\ le start heavy.
Proof.
  intros. now apply (search_admissible T E le mid sub zero top narrow negative positive small H).
Qed.

Example c44_search_applies : ordered_numbers Qle 0%Q q_mid q_sub
  /\ exists left right, q_search = Some (left, right)
       /\ Qle_bool (39 # 100) left = true /\ Qle_bool left (41 # 100) = true
       /\ Qle_bool (19 # 100) right = true /\ Qle_bool right (21 # 100) = true.
Proof. split; [exact q_ordered|exact q_found]. Qed.

(** The parameters are admissible and the heavier tail is on the side of the
    skewness, for every L-skewness and every error function, when the L-kurtosis is
    below the threshold 0.1226017 or not below that of the Gaussian distribution,
    0.12260171954...  Missing: the values in between, see [c44_between_refuted]. *)
Theorem c44_params_admissible_partial :
  forall fuel skewness_error kurtosis_error l_skewness l_kurtosis,
  (11 <= fuel)%nat ->
  l_kurtosis < 1226017 / 10000000 \/ gaussian_l_kurtosis <= l_kurtosis ->
  exists left right,
    compute_params fuel skewness_error kurtosis_error l_skewness l_kurtosis = Some (left, right)
    /\ 0 <= left < 1 /\ 0 <= right < 1
    /\ (0 <= l_skewness -> left <= right) /\ (l_skewness < 0 -> right <= left).
Proof. exact params_admissible. Qed.

Example c44_params_applies : gaussian_l_kurtosis <= 9 / 10 /\
  exists left right, compute_params 11 (fun h d => d - h) (fun h d => h - d) (-1) (9 / 10)
                     = Some (left, right) /\ right <= left /\ 0 < left.
Proof. exact params_example. Qed.

(** With an L-kurtosis at the threshold 0.1226017, which is rounded to just below
    that of the Gaussian distribution, the search starts at a negative parameter, and
    returns one if that already has too large a kurtosis. *)
Theorem c44_between_refuted :
  exists skewness_error kurtosis_error left right,
    (forall x y, skewness_error x y <= 0) /\ (forall x y, 0 <= kurtosis_error x y) /\
    compute_params 11 skewness_error kurtosis_error 0 (1226017 / 10000000) = Some (left, right)
    /\ right < 0.
Proof. exact negative_result. Qed.

Print Assumptions c44_binary_search_brackets.
Print Assumptions c44_binary_search_accuracy.
Print Assumptions c44_search_admissible.
Print Assumptions c44_params_admissible_partial.
Print Assumptions c44_between_refuted.
