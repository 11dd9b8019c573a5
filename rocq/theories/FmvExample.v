(** Columns of single precision numbers whose mean and variance are taken. *)
From Coq Require Import List ZArith Reals.
From Flocq Require Import Core BinarySingleNaN.
From Verif Require Import CombineModel IeeeModel FsumExample.
Import ListNotations.
Local Open Scope Z_scope.

(** Plus and minus 2^127. *)
Definition big32 (z : Z) : f32 := binary_normalize 24 128 prec32 emax32 mode_NE z 127 false.

(** A NaN, 2^127 and -2^127 in three batches of one bundle, the batch without a value first or second. *)
Definition nan_first : sched (sched (list f32)) := Bundle [Bundle [[nan32]; [big32 1]; [big32 (-1)]]].
Definition nan_second : sched (sched (list f32)) := Bundle [Bundle [[big32 1]; [nan32]; [big32 (-1)]]].

(** Two workers; NaN and infinity are among the values. *)
Definition readings : sched (sched (list f32)) :=
  Merged (Bundle [Bundle [[int32 1; nan32]; []; [int32 4]]]) [Bundle [Bundle [[int32 (-3); neg_inf32]]; Bundle []]].

(** The same with all values equal. *)
Definition sevens : sched (sched (list f32)) :=
  Merged (Bundle [Bundle [[int32 7; nan32]; []; [int32 7]]]) [Bundle [Bundle [[int32 7; int32 7; int32 7]]; Bundle []]].
