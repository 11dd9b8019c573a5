(** * Specification: lookups in vocabularies (C94) *)
From Coq Require Import String List Bool Arith.
From Verif Require Import TabModel.
Import ListNotations.

(** Vocabularies are made before they are looked up in. *)
Definition scoped (fn : list stage) : Prop :=
  forall before n after, fn = (before ++ Apply (Deferred n) :: after)%list -> In (Vocabulary n) before.
(** The lookups of a function, in order *)
Definition lookups (fn : list stage) : list argument := flat_map (fun s => match s with Apply p => [p] | Vocabulary _ => [] end) fn.
(** A lookup cannot be done before this tensor has a value. *)
Definition waits_for (l : lookup) (n : nat) : Prop := control_dependency l = Some n \/ table l = Value_of n.
(** In this function a lookup in a file of its own comes after a vocabulary that is pending. *)
Definition static_after_pending (evaluated : nat -> option string) (fn : list stage) : Prop :=
  exists before s after n, fn = (before ++ Apply (Static s) :: after)%list /\ In (Vocabulary n) before /\ evaluated n = None.
