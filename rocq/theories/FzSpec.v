(** What tft.scale_to_z_score promises, with real numbers. *)
From Coq Require Import List ZArith Reals.
From Verif Require Import FmvSpec.
Local Open Scope R_scope.

(** The standard deviation of the values, and the distance of [x] from their mean in standard deviations. *)
Definition deviation (l : list R) : R := sqrt (var_R l).
Definition z_R (l : list R) (x : R) : R := (x - mean_R l) / deviation l.

(** How much single precision adds to a column in [n] batches of at most [b] values each. *)
Definition column_error (b : Z) (n : nat) : R := (28 * IZR b + 84) * / IZR (2 ^ 23) + INR n * / IZR (2 ^ 40).
