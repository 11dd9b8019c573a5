(** What tft.scale_by_min_max promises, with real numbers. *)
From Coq Require Import List ZArith Reals.
From Flocq Require Import Core BinarySingleNaN.
From Verif Require Import IeeeModel.
Local Open Scope R_scope.

(** The number a value of a column stands for. *)
Definition val (x : number) : R :=
  match x with NInt z => IZR z | NF32 f => B2R f | NF64 d => B2R d end.

(** An ordinary number: not a NaN, not an infinity, and of magnitude at most 2^126. *)
Definition ordinary (x : number) : Prop :=
  match x with NInt _ => True | NF32 f => is_finite f = true | NF64 d => is_finite d = true end
  /\ Rabs (val x) <= IZR (2 ^ 126).

(** The real number rounded to the nearest single precision number (24 bits, least exponent -149, ties to
    even, no upper bound). *)
Definition single (r : R) : R := round radix2 (FLT_exp (-149) 24) ZnearestE r.

Definition least (lo : number) (column : list number) : Prop :=
  In lo column /\ forall y, In y column -> val lo <= val y.

Definition greatest (hi : number) (column : list number) : Prop :=
  In hi column /\ forall y, In y column -> val y <= val hi.

(** Where [x] lies between [lo] and [hi] once the three are in single precision. *)
Definition position (lo hi x : number) : R :=
  (single (val x) - single (val lo)) / (single (val hi) - single (val lo)).

(** An output bound the user passes: a finite Python float of magnitude at most 2^100. *)
Definition bound (d : f64) : Prop := is_finite d = true /\ Rabs (B2R d) <= IZR (2 ^ 100).

(** A sigmoid: finite, between 0 and 1. *)
Definition sigmoid_like (s : f32 -> f32) : Prop :=
  forall x, is_finite x = true -> is_finite (s x) = true /\ 0 <= B2R (s x) <= 1.
