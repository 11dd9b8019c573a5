(** Population mean, variance and covariance of lists of rationals. *)
From Coq Require Import List ZArith QArith.
Import ListNotations.
Open Scope Q_scope.

Definition q_sum (l : list Q) : Q := fold_right Qplus 0 l.
Definition q_len (l : list Q) : Q := inject_Z (Z.of_nat (length l)).

(** sum x / n *)
Definition mean_of (l : list Q) : Q := q_sum l / q_len l.
(** sum (x - mean)^2 / n *)
Definition var_of (l : list Q) : Q :=
  q_sum (map (fun x => (x - mean_of l) * (x - mean_of l)) l) / q_len l.
(** sum (x - mean x)(y - mean y) / n over the pairs of a list *)
Definition cov_of (l : list (Q * Q)) : Q :=
  q_sum (map (fun p => (fst p - mean_of (map fst l)) * (snd p - mean_of (map snd l))) l)
  / inject_Z (Z.of_nat (length l)).
