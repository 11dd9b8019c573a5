(** What C58 is about: the Tukey HH transformation of a Gaussian value. *)
From Coq Require Import Reals.
Local Open Scope R_scope.

(** Headrick and Pant, equation (1): u exp(h u^2 / 2), with the left parameter for
    negative values. *)
Definition tukey_hh (hl hr u : R) : R :=
  if Rlt_dec u 0 then u * exp (hl * (u * u) / 2) else u * exp (hr * (u * u) / 2).

(** The function that the documentation of `inverse_tukey_hh` gives instead
    (gaussianization.py:383-388). *)
Definition documented_tukey_hh (hl hr u : R) : R :=
  if Rlt_dec u 0 then u * exp (hl * (u * u)) else u * exp (hr * (u * u)).

(** [w] is the value of the principal branch of the Lambert W function at [x], which is
    positive. *)
Definition is_lambert_w (x w : R) : Prop := 0 <= w /\ w * exp w = x.
