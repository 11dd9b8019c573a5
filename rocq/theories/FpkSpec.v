(** What tft.bucketize_per_key promises, with real numbers. *)
From Coq Require Import List ZArith Reals Sorted.
From Flocq Require Import Core BinarySingleNaN.
From Verif Require Import IeeeModel.
Import ListNotations.
Local Open Scope R_scope.

(** The bucket of [x]: the number of boundaries at or below it. *)
Definition bucket_R (boundaries : list R) (x : R) : nat :=
  length (filter (fun b => if Rle_dec b x then true else false) boundaries).

(** The distance from the first to the last boundary of a key. *)
Definition spread (row : list f32) : R := B2R (last row nan32) - B2R (hd nan32 row).

(** The boundaries of a key: numbers, in order, not all equal, not too far from one another, and at most
    [rho] times their spread away from zero. *)
Definition usual_row (rho : R) (row : list f32) : Prop :=
  (forall b, In b row -> is_finite b = true /\ Rabs (B2R b) <= rho * spread row) /\
  Sorted (fun a b : f32 => B2R a <= B2R b) row /\
  / IZR (2 ^ 60) <= spread row <= IZR (2 ^ 60).

(** [x] is further than [d] from all boundaries. *)
Definition away (d : R) (row : list f32) (x : R) : Prop := forall b, In b row -> d <= Rabs (x - B2R b).
