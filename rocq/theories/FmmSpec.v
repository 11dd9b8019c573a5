(** What tft.scale_by_min_max_per_key promises in single precision. *)
From Coq Require Import String List ZArith Reals.
From Flocq Require Import Core BinarySingleNaN.
From Verif Require Import IeeeModel IeeeSpec.
Import ListNotations.
Local Open Scope R_scope.

(** The values of the rows with key [k]. *)
Definition rows_with (k : string) (rows : list (string * number)) : list number :=
  map snd (filter (fun r => String.eqb (fst r) k) rows).

(** A function that returns the greatest of finite numbers; nothing is said about NaN and infinities. *)
Definition takes_max (f : list f32 -> f32) : Prop :=
  forall l, l <> [] -> (forall x, In x l -> is_finite x = true) ->
  is_finite (f l) = true /\ (exists x, In x l /\ B2R (f l) = B2R x) /\ (forall x, In x l -> B2R x <= B2R (f l)).

(** [r] is where [x] lies in a column whose least and greatest values are [lo] and [hi], between 0 and 1. *)
Definition unit_place (lo hi x : number) (r : f32) : Prop :=
  is_finite r = true /\ 0 <= B2R r <= 1 /\ (val x = val lo -> B2R r = 0) /\ (val x = val hi -> B2R r = 1) /\
  Rabs (B2R r - position lo hi x) <= 5 * / IZR (2 ^ 24).

(** How far a result may be from its exact place between two bounds. *)
Definition place_tolerance (output_min output_max : f64) : R :=
  Rmax (Rabs (B2R output_min)) (Rabs (B2R output_max)) * / IZR (2 ^ 19) + / IZR (2 ^ 147).

(** [r] is where the share [p] lies between two bounds. *)
Definition bound_place (output_min output_max : f64) (p : R) (r : f32) : Prop :=
  is_finite r = true /\ single (B2R output_min) <= B2R r /\
  Rabs (B2R r - (B2R output_min + p * (B2R output_max - B2R output_min))) <= place_tolerance output_min output_max.
