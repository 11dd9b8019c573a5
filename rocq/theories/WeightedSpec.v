(** The weighted label statistics of a token, stated on the rows. *)
From Coq Require Import List ZArith QArith.
From Verif Require Import MeanVarSpec WeightedModel.
Import ListNotations.
Open Scope Q_scope.

(** The total weight of the rows, and of the rows with label [j]. *)
Definition total_weight (rows : list labelled) : Q := q_sum (map lab_weight rows).
Definition label_weight (j : nat) (rows : list labelled) : Q :=
  q_sum (map lab_weight (filter (fun r => Nat.eqb (lab_label r) j) rows)).

(** A batch (number of labels, rows with the token) that contributes to the token: it has a row, its
    labels are known and its weights are not negative. *)
Definition wf_batch (b : nat * list labelled) : Prop :=
  snd b <> [] /\ Forall (fun r => (lab_label r < fst b)%nat /\ 0 <= lab_weight r) (snd b).

(** All the rows with the token. *)
Definition all_rows (bs : list (nat * list labelled)) : list labelled := concat (map snd bs).
