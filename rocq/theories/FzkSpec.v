(** What tft.scale_to_z_score_per_key of single precision numbers promises. *)
From Coq Require Import String List ZArith Reals.
From Flocq Require Import Core BinarySingleNaN.
From Verif Require Import IeeeModel FmvSpec.
Import ListNotations.
Local Open Scope R_scope.

(** The values of the rows with key [k]. *)
Definition of_key (k : string) (rows : list (string * f32)) : list f32 :=
  map snd (filter (fun r => String.eqb (fst r) k) rows).

(** Among values up to [m] in magnitude, at most [b] to a batch, single precision can tell the variance of this
    batch from zero: there is at most one value, or the variance is not small next to the square of [m]. *)
Definition clear_variance (b : Z) (m : R) (batch : list f32) : Prop :=
  (length (finite_values batch) <= 1)%nat \/
  (6 * IZR b + 22) * / IZR (2 ^ 23) * (m * m) <= var_R (finite_values batch).

(** The values of key [k] in the batches that have any. *)
Definition key_batches (k : string) (batches : list (list (string * f32))) : list (list f32) :=
  filter (fun b => negb (Nat.eqb (length b) 0)) (map (of_key k) batches).
