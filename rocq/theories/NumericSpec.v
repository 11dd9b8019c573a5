(** What the numeric analyzers are supposed to return, independently of how they compute it. *)
From Coq Require Import List ZArith.
From Verif Require Import CombineModel.
Import ListNotations.
Open Scope Z_scope.

(** [m] is the largest / smallest element of [l]. *)
Definition is_max (m : Z) (l : list Z) : Prop := In m l /\ forall x, In x l -> x <= m.
Definition is_min (m : Z) (l : list Z) : Prop := In m l /\ forall x, In x l -> m <= x.

(** All the values seen by an analysis: those of all batches of all bundles. *)
Definition rows_of {X} (s : sched (sched (list X))) : list X := concat (batches_of s).
