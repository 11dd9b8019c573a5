(** * Specification of applying a transform graph to some of its inputs (C54) *)
From Coq Require Import String List.
From Verif Require Import ServeModel.
Import ListNotations.

Section Spec.
Context {value : Type}.
Variable run : nat -> list value -> option (list value).
Variable g : func_graph.
Variable captured : list value.

(** The result of operation [i] is computed from the result of operation [j]. *)
Inductive computed_from : nat -> nat -> Prop :=
| computed_itself : forall i, computed_from i i
| computed_through : forall i o t j, nth_error (operations g) i = Some o -> In t (op_inputs o) ->
    computed_from (fst t) j -> computed_from i j.

Definition placeholder (i : nat) : Prop := exists o, nth_error (operations g) i = Some o /\ is_placeholder o = true.

(** A tensor that is an input with one of the keys, or captured. *)
Definition available (keys : list string) (t : tensor) : Prop :=
  (exists k components, In k keys /\ In (k, components) (structured_inputs g) /\ In t components) \/
  In t (internal_captures g).

(** An output that is not computed from any other placeholder. *)
Definition computable (keys : list string) (components : list tensor) : Prop :=
  forall t p, In t components -> computed_from (fst t) p -> placeholder p -> available keys (p, 0).

(** The results of operations when the placeholders have the assigned values: an operation runs when
    its inputs and its control inputs have run. *)
Inductive ran (assign : tensor -> option value) : nat -> list value -> Prop :=
| ran_placeholder : forall i o v, nth_error (operations g) i = Some o -> is_placeholder o = true ->
    assign (i, 0) = Some v -> ran assign i [v]
| ran_operation : forall i o vs r, nth_error (operations g) i = Some o -> is_placeholder o = false ->
    (forall c, In c (control_inputs o) -> exists rc, ran assign c rc) ->
    Forall2 (fun t v => exists rt, ran assign (fst t) rt /\ nth_error rt (snd t) = Some v) (op_inputs o) vs ->
    run i vs = Some r -> ran assign i r.

(** The value of a possibly composite tensor. *)
Definition gives (assign : tensor -> option value) (components : list tensor) (vs : list value) : Prop :=
  Forall2 (fun t v => exists r, ran assign (fst t) r /\ nth_error r (snd t) = Some v) components vs.

(** The placeholders of the inputs and of the captured tensors have their values. *)
Definition holds (assign : tensor -> option value) (inputs : list (string * list value)) : Prop :=
  (forall k components vs, In (k, components) (structured_inputs g) -> In (k, vs) inputs ->
     Forall2 (fun t v => assign t = Some v) components vs) /\
  Forall2 (fun t v => assign t = Some v) (internal_captures g) captured.
(** No other placeholder has one. *)
Definition nothing_else (assign : tensor -> option value) (keys : list string) : Prop :=
  forall t v, assign t = Some v -> available keys t.

(** Graphs: operations come after those they read or wait for, placeholders have one output, and the
    inputs are distinct placeholders. *)
Definition well_formed : Prop :=
  (forall i o, nth_error (operations g) i = Some o ->
     (forall t, In t (op_inputs o) -> fst t < i) /\ (forall c, In c (control_inputs o) -> c < i) /\
     (is_placeholder o = true -> outputs_count o = 1)) /\
  NoDup (map fst (structured_inputs g)) /\ NoDup (map fst (structured_outputs g)) /\
  NoDup (flat_map snd (structured_inputs g) ++ internal_captures g) /\
  (forall t, In t (flat_map snd (structured_inputs g) ++ internal_captures g) -> placeholder (fst t) /\ snd t = 0) /\
  (forall name components t, In (name, components) (structured_outputs g) -> In t components -> fst t < List.length (operations g)).

(** Inputs of the expected types: one value for every component. *)
Definition expected (inputs : list (string * list value)) : Prop :=
  NoDup (map fst inputs) /\
  forall k vs, In (k, vs) inputs -> exists components, In (k, components) (structured_inputs g) /\ List.length components = List.length vs.

(** Supplied values have the types of the inputs. *)
Definition well_supplied (supply : nat -> string -> list value) : Prop :=
  forall n k components, In (k, components) (structured_inputs g) -> List.length (supply n k) = List.length components.

(** Values supplied for the missing inputs. *)
Definition filled_in (supply : nat -> string -> list value) (n : nat) (inputs more : list (string * list value)) : Prop :=
  forall k vs, In (k, vs) more <->
    In k (map fst (structured_inputs g)) /\ ~ In k (map fst inputs) /\ vs = supply n k.
(** These outputs are computed, without an operation raising, when just the inputs with these keys have values. *)
Definition all_give (inputs : list (string * list value)) (keys : list string) (which : list tensor -> Prop) : Prop :=
  forall assign name components, holds assign inputs -> nothing_else assign keys ->
    In (name, components) (structured_outputs g) -> which components -> exists vs, gives assign components vs.

(** [result] has an output just if it is computable, and then its value, the same whatever the
    missing inputs are. *)
Definition right_value (inputs : list (string * list value)) (components : list tensor) (vs : list value) : Prop :=
  (exists assign, holds assign inputs /\ gives assign components vs) /\
  (forall assign vs', holds assign inputs -> gives assign components vs' -> vs' = vs).
Definition right_outputs (inputs result : list (string * list value)) : Prop :=
  NoDup (map fst result) /\
  (forall name vs, In (name, vs) result ->
     exists components, In (name, components) (structured_outputs g) /\ computable (map fst inputs) components /\
       right_value inputs components vs) /\
  (forall name components, In (name, components) (structured_outputs g) -> computable (map fst inputs) components ->
     exists vs, In (name, vs) result).
(** Finalized: just the requested outputs. *)
Definition right_requested (inputs result : list (string * list value)) (requested : list string) : Prop :=
  (forall name vs, In (name, vs) result ->
     In name requested /\ exists components, In (name, components) (structured_outputs g) /\ right_value inputs components vs) /\
  (forall name, In name requested -> exists vs, In (name, vs) result).
End Spec.
