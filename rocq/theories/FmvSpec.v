(** What tft.mean and tft.var of single precision numbers promise. *)
From Coq Require Import List ZArith Reals.
From Flocq Require Import Core BinarySingleNaN.
From Verif Require Import CombineModel IeeeModel.
Import ListNotations.
Local Open Scope R_scope.

(** The values that are neither NaN nor infinite. *)
Definition finite_values (l : list f32) : list R := map B2R (filter is_finite l).

Definition sum_R (l : list R) : R := fold_right Rplus 0 l.
Definition mean_R (l : list R) : R := sum_R l / INR (length l).
(** The mean of the squared distances from the mean. *)
Definition var_R (l : list R) : R := mean_R (map (fun x => (x - mean_R l) * (x - mean_R l)) l).

(** A batch with a finite value. *)
Definition has_value (batch : list f32) : Prop := exists x, In x batch /\ is_finite x = true.

(** In each bundle, the first batch has a finite value. *)
Fixpoint starts_with_value (s : sched (list f32)) : Prop :=
  match s with
  | Bundle [] => True
  | Bundle (b :: _) => has_value b
  | Merged s0 rest => starts_with_value s0 /\ fold_right (fun t p => starts_with_value t /\ p) True rest
  end.

(** Not a NaN, and not negative; may be infinite. *)
Definition nonnegative (x : f32) : Prop :=
  is_nan x = false /\ (is_finite x = true -> 0 <= B2R x) /\ (is_finite x = false -> Bsign x = false).
