(** Smallest and largest value of a list of rationals. *)
From Coq Require Import List QArith.
Open Scope Q_scope.

Definition q_is_max (m : Q) (l : list Q) : Prop :=
  (exists x, In x l /\ x == m) /\ forall x, In x l -> x <= m.
Definition q_is_min (m : Q) (l : list Q) : Prop :=
  (exists x, In x l /\ x == m) /\ forall x, In x l -> m <= x.

(** What the proofs use of tf.math.sigmoid: values strictly between 0 and 1, increasing. *)
Record is_sigmoid (f : Q -> Q) : Prop := {
  sigmoid_pos : forall x, 0 < f x;
  sigmoid_lt_1 : forall x, f x < 1;
  sigmoid_mono : forall x y, x <= y -> f x <= f y }.
