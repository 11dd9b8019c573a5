(** * Specification: values of tensors, and what they depend on (C93) *)
From Coq Require Import List Bool Arith.
From Verif Require Import StripModel.
Import ListNotations.

Section spec.
  Variable V : Type.
  Variable g : graph V.

  (** What an operation gives for its inputs; Identity gives its input. *)
  Definition computes (t : op_type V) (ins outs : list V) : Prop :=
    match t with Identity _ => exists v, ins = [v] /\ outs = [v] | Other _ f => f ins = Some outs end.
  (** An operation runs if the operations it waits for run, its inputs have values, and it does not fail. *)
  Inductive runs : nat -> list V -> Prop :=
  | run : forall o ins outs,
      (forall c, In c (control_inputs V (g o)) -> exists w, runs c w) ->
      Forall2 (fun t v => exists w, runs (fst t) w /\ nth_error w (snd t) = Some v) (inputs V (g o)) ins ->
      computes (type V (g o)) ins outs -> runs o outs.
  Definition has_value (t : tensor) (v : V) : Prop := exists w, runs (fst t) w /\ nth_error w (snd t) = Some v.

  (** An operation needs another if it is one of its inputs, or it waits for it, or it is needed by one of these. *)
  Inductive needs : nat -> nat -> Prop :=
  | itself : forall o, needs o o
  | by_input : forall o t p, In t (inputs V (g o)) -> needs (fst t) p -> needs o p
  | by_control : forall o c p, In c (control_inputs V (g o)) -> needs c p -> needs o p.

  (** Identity has one output. *)
  Definition one_output (l : list tensor) : Prop := forall t, In t l -> type V (g (fst t)) = Identity V -> snd t = 0.

  (** The outputs l of a function that has automatic control dependencies: each is the Identity of one that it returned, and waits
      for these operations. *)
  Definition automatic (returned : list tensor) (deps : list nat) (l : list tensor) : Prop :=
    Forall2 (fun t t' => g (fst t') = Op V (Identity V) [t] deps /\ snd t' = 0) returned l.
End spec.
