(** What C57 is about: the L-moments of a sample, as averages over the subsets of the
    sample of one, two, three and four values. *)
From Coq Require Import List Arith ZArith QArith Reals.
From Verif Require Import LMomentsModel TukeySpec.
Import ListNotations.
Local Open Scope Q_scope.

(** All ways to choose [r] places of a list. *)
Fixpoint subsets {A : Type} (r : nat) (l : list A) : list (list A) :=
  match r, l with
  | O, _ => [[]]
  | S _, [] => []
  | S r', x :: l' => map (cons x) (subsets r' l') ++ subsets r l'
  end.

(** The values of a sample from the smallest to the largest. *)
Fixpoint place (x : Q) (l : list Q) : list Q :=
  match l with
  | [] => [x]
  | y :: l' => if Qlt_le_dec y x then y :: place x l' else x :: l
  end.
Definition ascending (l : list Q) : list Q := fold_right place [] l.

(** What a subset of [r] values contributes to the [r]-th L-moment: its value; half the
    distance of its two values; a third of the difference of the two distances between
    its three values; and the corresponding difference for four values.
    (https://en.wikipedia.org/wiki/L-moment) *)
Definition contribution (s : list Q) : Q :=
  match ascending s with
  | [a] => a
  | [a; b] => (b - a) / 2
  | [a; b; c] => (c - 2 * b + a) / 3
  | [a; b; c; d] => (d - 3 * c + 3 * b - a) / 4
  | _ => 0
  end.

Definition total (l : list Q) : Q := fold_right Qplus 0 l.
Definition number {A : Type} (l : list A) : Q := inject_Z (Z.of_nat (length l)).

(** The average contribution of some subsets; 0 if there are none. *)
Definition average_contribution (ss : list (list Q)) : Q :=
  match ss with
  | [] => 0
  | _ => total (map contribution ss) / number ss
  end.

(** The [r]-th L-moment of a sample. *)
Definition l_moment (r : nat) (xs : list Q) : Q := average_contribution (subsets r xs).

(** The subsets of [r] values that come from the same batch. *)
Definition subsets_within (r : nat) (batches : list (list Q)) : list (list Q) :=
  flat_map (subsets r) batches.

(** An accumulated result says, for each of the four moments, how many subsets there
    are within batches and what they contribute on average. *)

Definition describes (batches : list (list Q)) (m : lm) : Prop :=
  (count_l1 m == number (subsets_within 1 batches)
   /\ l1 m == average_contribution (subsets_within 1 batches))
  /\ (count_l2 m == number (subsets_within 2 batches)
      /\ l2 m == average_contribution (subsets_within 2 batches))
  /\ (count_l3 m == number (subsets_within 3 batches)
      /\ l3 m == average_contribution (subsets_within 3 batches))
  /\ (count_l4 m == number (subsets_within 4 batches)
      /\ l4 m == average_contribution (subsets_within 4 batches)).

(** The average within batches of the contributions of [r] values. *)
Definition within (r : nat) (batches : list (list Q)) : Q :=
  average_contribution (subsets_within r batches).

(** The ratio of the fourth to the second; 0 if there is no quadruplet or if the values
    within batches are all the same (a division by 0 gives 0). *)
Definition l_kurtosis_within (batches : list (list Q)) : Q := within 4 batches / within 2 batches.

(** An L-kurtosis for which parameters are found (C44): all but those between 0.1226017
    and the L-kurtosis 0.12260171954... of the Gaussian distribution. *)
Definition settled (l_kurtosis : R) : Prop :=
  (l_kurtosis < 1226017 / 10000000 \/ gaussian_l_kurtosis <= l_kurtosis)%R.
