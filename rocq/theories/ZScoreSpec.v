(** Mean and (population) variance of a list of reals. *)
From Coq Require Import List Reals.
Open Scope R_scope.

Definition r_sum (l : list R) : R := fold_right Rplus 0 l.
Definition r_mean (l : list R) : R := r_sum l / INR (length l).
Definition r_var (l : list R) : R := r_sum (map (fun x => (x - r_mean l) * (x - r_mean l)) l) / INR (length l).
