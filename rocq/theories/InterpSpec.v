(** What tft.apply_buckets_with_interpolation promises, with real numbers. *)
From Coq Require Import List ZArith Reals.
From Flocq Require Import Core BinarySingleNaN.
From Verif Require Import IeeeModel IeeeSpec.
Import ListNotations.
Local Open Scope R_scope.

(** The values of one dtype: all integers, or all tf.float32. *)
Definition one_kind (l : list number) : Prop :=
  (forall v, In v l -> exists z, v = NInt z) \/ (forall v, In v l -> exists f, v = NF32 f).

(** Boundaries number k and k + 1. *)
Definition consecutive (k : nat) (a b : number) (boundaries : list number) : Prop :=
  nth_error boundaries k = Some a /\ nth_error boundaries (S k) = Some b.

Fixpoint sorted (l : list number) : Prop :=
  match l with
  | [] => True
  | a :: l' => (forall b, In b l' -> val a <= val b) /\ sorted l'
  end.

(** Usable boundaries: ordinary, sorted, one dtype shared with the values [xs], between two and 2^24. *)
Definition usable (boundaries xs : list number) : Prop :=
  (forall v, In v (boundaries ++ xs) -> ordinary v) /\ one_kind (boundaries ++ xs) /\ sorted boundaries
  /\ (2 <= Z.of_nat (length boundaries) <= 2 ^ 24)%Z.
