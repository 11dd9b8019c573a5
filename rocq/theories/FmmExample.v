(** Columns to be scaled, with and without keys. *)
From Coq Require Import String List ZArith Reals Bool Lra Lia.
From Flocq Require Import Core BinarySingleNaN.
From Verif Require Import CombineModel MeanVarModel PerKeyModel IeeeModel IeeeSpec IeeeProofs IeeeExample FmmModel FmmSpec.
Import ListNotations.

(** The greatest of a list of numbers. *)
Definition greatest_of (l : list f32) : f32 := match l with [] => neg_inf32 | x :: l => fold_left max32 l x end.

(** The three batches of [ages] in two bundles, one of them made of two. *)
Definition ages_bundles : sched (sched (list number)) :=
  Merged (Bundle [Bundle [[NInt 64; NInt 18]]]) [Bundle [Bundle []; Bundle [[]; [NInt 31; NInt 18]]]].

Definition no_rows : sched (sched (list number)) := Bundle [Bundle [[]]; Bundle [[]; []]].

(** One column, a batch of which holds an infinity only. *)
Definition infinity : number := NF32 (B754_infinity false).
Definition infinity_first : sched (sched (list number)) := Bundle [Bundle [[infinity]; [NInt 1; NInt 2]]].
Definition infinity_last : sched (sched (list number)) := Bundle [Bundle [[NInt 1; NInt 2]; [infinity]]].

(** The ages of two groups of people, in two batches. *)
Definition keyed_ages : list (list (string * number)) :=
  [[("a"%string, NInt 31); ("b"%string, NInt 7); ("a"%string, NInt 18)]; [("a"%string, NInt 64)]; [("b"%string, NInt 7); ("a"%string, NInt 18)]].

(** All inputs of a key in one bundle. *)
Definition key_bundle (bs : list (list (string * number))) (k : string) : sched (sched (f32 * f32)) :=
  Bundle [Bundle (inputs_of_key k (map (batch32_per_key greatest_of) bs))].
