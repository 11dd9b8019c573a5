(** * What a packed combine has to compute *)
From Coq Require Import String.
From Coq Require Import List Bool Permutation.
From Verif Require Import CombineModel PackModel.
Import ListNotations.

Section Spec.
Context {Obj : Type}.
Notation value := (value Obj).

(** The input of a combiner in an element: the tuple of the values of its keys. *)
Definition is_input (o : @combiner_op Obj) (element input : value) : Prop :=
  exists items values, element = Dict items /\
    map (dict_get items) (op_keys o) = map Some values /\ input = Tuple values.

(** A dict that has all the keys. *)
Definition dict_with (ops : list (@combiner_op Obj)) (element : value) : Prop :=
  exists items, element = Dict items /\
    forall o k, In o ops -> In k (op_keys o) -> dict_get items k <> None.

(** The accumulators that carry a key. *)
Definition accumulators_for (key : string) (elements : list value) : list value :=
  flat_map (fun e => match e with
    | Tuple [Str k; a] => if String.eqb k key then [a] else []
    | _ => []
    end) elements.

(** An accumulator with the key of one of the operations. *)
Definition keyed (ops : list (@combiner_op Obj)) (element : value) : Prop :=
  exists o a, In o ops /\ element = Tuple [Str (hd ""%string (op_keys o)); a].

(** The result of a combiner does not depend on the schedule. *)
Definition any_schedule (mode : bool) (o : @combiner_op Obj) : Prop :=
  forall s s', Permutation (elements s) (elements s') ->
    run_wrapper mode (op_combiner o) s = run_wrapper mode (op_combiner o) s'.
End Spec.
