(** What C44 is about: numbers on which the search runs, intervals and the domain
    of the Tukey HH distribution. *)
From Coq Require Import Reals.

(** Numbers with an order: [mid] stays between its arguments and [sub] of two
    ordered non-negative numbers is non-negative and not above the first.  This
    holds of real numbers and of rounded floating point numbers. *)
Record ordered_numbers {T : Type} (le : T -> T -> Prop) (zero : T)
    (mid sub : T -> T -> T) : Prop := {
  le_refl : forall x, le x x;
  le_trans : forall x y z, le x y -> le y z -> le x z;
  mid_between : forall x y, le x y -> le x (mid x y) /\ le (mid x y) y;
  sub_bounds : forall x y, le zero y -> le y x -> le zero (sub x y) /\ le (sub x y) x
}.

(** The result of a search on the interval from [low] to [high]: an interval inside
    it, with the same side of the error at each end that was moved. *)
Definition brackets {T E : Type} (le : T -> T -> Prop) (negative : E -> bool)
    (error : T -> E) (low high l h : T) : Prop :=
  le low l /\ le l h /\ le h high
  /\ (l = low \/ negative (error l) = true)
  /\ (h = high \/ negative (error h) = false).

(** The L-kurtosis of the Gaussian distribution, 0.12260171954...: 30 atan(sqrt 2)/pi
    - 9, with 2 atan(sqrt 2) = pi - acos(1/3). *)
Definition gaussian_l_kurtosis : R := (6 - 15 * acos (1 / 3) / PI)%R.
