(** * Specification of the information of a token about the label (C55) *)
From Coq Require Import String List Reals Qreals Bool Arith.
From Verif Require WeightedModel.
Import ListNotations.
Local Open Scope R_scope.
Local Notation length := List.length.

Definition log_2 (x : R) : R := ln x / ln 2.
Definition total {A} (f : A -> R) (l : list A) : R := fold_right (fun a s => f a + s) 0 l.
Definition average {A} (f : A -> R) (l : list A) : R := total f l / INR (length l).

(** Rows of the dataset: whether the row has the token, its label and its weight. *)
Record row := Row { has : bool; label : nat; weight : R }.
Definition size (rows : list row) : R := total weight rows.
Definition having (rows : list row) : list row := filter has rows.
Definition labelled (j : nat) (rows : list row) : list row := filter (fun r => label r =? j)%nat rows.

(** P(y) and P(y|x), weighted. *)
Definition share (j : nat) (rows : list row) : R := size (labelled j rows) / size rows.

(** Probabilities are moved into the interval from 1e-6 to 1 - 1e-6. *)
Definition moved (p q : R) : Prop :=
  (p < 1 / 1000000 -> q = 1 / 1000000) /\ (1 - 1 / 1000000 < p -> q = 1 - 1 / 1000000) /\
  (1 / 1000000 <= p <= 1 - 1 / 1000000 -> q = p).

(** The documented information about one label: sum(weights) P(y|x) log2(P(y|x) / P(y)). *)
Definition about_label (x p q : R) : R := x * (p * log_2 (p / q)).
(** The same of the counts, where 0 log2 0 is 0. *)
Definition exact_about (j : nat) (rows : list row) : R :=
  if Req_EM_T (size (labelled j (having rows))) 0 then 0
  else about_label (size (having rows)) (share j (having rows)) (share j rows).

(** The labels that occur and whose weight with the token differs enough from the expected one. *)
Definition counted (min_diff : R) (p : nat -> R) (rows : list row) (j : nat) : Prop :=
  0 < size (labelled j rows) /\
  min_diff <= Rabs (size (having rows) * size (labelled j rows) / size rows - p j * size (having rows)).
(** [ls] lists just these, once. *)
Definition lists_counted (min_diff : R) (p : nat -> R) (rows : list row) (ls : list nat) : Prop :=
  NoDup ls /\ forall j, In j ls <-> counted min_diff p rows j.

(** An accumulator of rows (their number, weighted label means and mean weight) as C04 gives it. *)
Definition describes (count : R) (means : list R) (mean_weight : R) (rows : list row) : Prop :=
  count = INR (length rows) /\ count * mean_weight = size rows /\
  forall j, nth j means 0 * size rows = size (labelled j rows).

(** The ways in which [x] of [n] rows can have the token. *)
Definition trues (bs : list bool) : nat := length (filter (fun b : bool => b) bs).
Definition arrangement (n x : nat) (bs : list bool) : Prop := length bs = n /\ trues bs = x.
Definition all_arrangements (n x : nat) (arrs : list (list bool)) : Prop :=
  NoDup arrs /\ forall bs, In bs arrs <-> arrangement n x bs.
Definition both (bs labels : list bool) : nat := trues (map (fun p => fst p && snd p) (combine bs labels)).
(** The dataset with the token in other rows. *)
Definition rearranged (bs : list bool) (rows : list row) : list row :=
  map (fun p => Row (fst p) (label (snd p)) (weight (snd p))) (combine bs rows).

(** The information of a token in [x] of [n] rows about a label in [y] of them, both in [k]. *)
Definition pair_information (n x y k : nat) : R :=
  if (k =? 0)%nat then 0 else about_label (INR x) (INR k / INR x) (INR y / INR n).

(** The natural logarithm of the factorial. *)
Definition is_lgamma (lgamma : R -> option R) : Prop := forall n : nat, lgamma (INR n + 1) = Some (ln (INR (fact n))).

(** A dataset of rows with their tokens, labels and weights, as seen from the token [t]. *)
Definition tagged (t : string) (r : list string * WeightedModel.labelled) : row :=
  Row (existsb (String.eqb t) (fst r)) (WeightedModel.lab_label (snd r)) (Q2R (WeightedModel.lab_weight (snd r))).

(** Some rows do not have the token: more than one, by weight, or just one where all the weights are 1. *)
Definition not_everywhere (rows : list row) : Prop :=
  size (having rows) + 1 < size rows \/
  ((forall r, In r rows -> weight r = 1) /\ exists r, In r rows /\ has r = false).
