(** * What tracing again should give *)
From Coq Require Import String List Permutation.
From Verif Require Import RetraceModel.
Import ListNotations.

(** The same tensor when call [i] of one trace is call [at i] of another. *)
Inductive same_tensor (at_ : nat -> nat) : tensor -> tensor -> Prop :=
| same_input k : same_tensor at_ (Input k) (Input k)
| same_apply op args args' :
    Forall2 (same_tensor at_) args args' -> same_tensor at_ (Apply op args) (Apply op args')
| same_result i : same_tensor at_ (Result i) (Result (at_ i)).

(** The same call: same scope, same analyzer, same sources. *)
Definition same_call (at_ : nat -> nat) (c c' : call) : Prop :=
  scope c = scope c' /\ analyzer_id c = analyzer_id c' /\
  Forall2 (same_tensor at_) (sources c) (sources c').

(** [again] is [first] with its analyzers called in another order: call [j] of
    [again] is call [was j] of [first]. *)
Record reordered (first again : program) (was : nat -> nat) : Prop := {
  re_once : forall i j, i < List.length (calls again) -> j < List.length (calls again) ->
      was i = was j -> i = j;
  re_calls : forall j c, nth_error (calls again) j = Some c ->
      exists c', nth_error (calls first) (was j) = Some c' /\ same_call was c c';
  re_outputs : Forall2 (fun o o' => fst o = fst o' /\ same_tensor was (snd o) (snd o'))
                 (outputs again) (outputs first)
}.

(** The user gave each call a name of its own. *)
Definition named_apart (p : program) : Prop := NoDup (map (fun c => lower (scope c)) (calls p)).

(** No two calls read the same inputs: their sets of source keys, through
    operations but not through other analyzers, differ. *)
Inductive reads_input (key : string) : tensor -> Prop :=
| reads_key : reads_input key (Input key)
| reads_apply op args t : In t args -> reads_input key t -> reads_input key (Apply op args).
Definition call_reads (key : string) (c : call) : Prop :=
  exists t, In t (sources c) /\ reads_input key t.
Definition read_apart (p : program) : Prop :=
  forall i j c c', nth_error (calls p) i = Some c -> nth_error (calls p) j = Some c' ->
    (forall key, call_reads key c <-> call_reads key c') -> i = j.

(** All results are of calls made earlier (or, in outputs, of calls made). *)
Inductive refers_below (n : nat) : tensor -> Prop :=
| below_input k : refers_below n (Input k)
| below_apply op args : Forall (refers_below n) args -> refers_below n (Apply op args)
| below_result i : i < n -> refers_below n (Result i).

Definition outputs_refer (p : program) : Prop :=
  Forall (fun o => refers_below (List.length (calls p)) (snd o)) (outputs p).

(** What the function means on a dataset: every result is what the analyzer gives
    for its sources, evaluated in every batch of the dataset. *)
Section Meaning.
Context {V : Type}.
Variable op_value : nat -> list V -> V.
Variable analyze : nat -> list (list V) -> V.
Variable dataset : list (string -> V).
Variable p : program.

Inductive means (batch : string -> V) : tensor -> V -> Prop :=
| means_input k : means batch (Input k) (batch k)
| means_apply op args vs : Forall2 (means batch) args vs -> means batch (Apply op args) (op_value op vs)
| means_result i c rows :
    nth_error (calls p) i = Some c ->
    Forall2 (fun b row => Forall2 (means b) (sources c) row) dataset rows ->
    means batch (Result i) (analyze (analyzer_id c) rows).

(** The outputs have the names and the meaning they have in the function. *)
Definition right (batch : string -> V) (outs : list (string * V)) : Prop :=
  Forall2 (fun o kv => fst kv = fst o /\ means batch (snd o) (snd kv)) (outputs p) outs.
End Meaning.

(** Calls are made after those whose results they read. *)
Definition in_order (p : program) : Prop :=
  forall i c, nth_error (calls p) i = Some c -> Forall (refers_below i) (sources c).
