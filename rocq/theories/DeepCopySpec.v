(** * What a deep copy is *)
From Coq Require Import String.
From Coq Require Import List Arith Bool.
From Verif Require Import DeepCopyModel.
Import ListNotations.
Local Notation length := List.length.

Section Spec.
Context {F : Type}.
Notation pipeline := (list (transform F)).

(** How a collection is computed: by which transform, from which main inputs and
    side inputs, and which of the outputs it is. *)
Inductive computation :=
| Start
| Output (f : F) (tag : string) (mains sides : list computation).

Inductive computed (p : pipeline) : pvalue -> computation -> Prop :=
| computed_start : computed p PBegin Start
| computed_output t a tag mains sides :
    nth_error p t = Some a -> In tag (outputs a) ->
    computed_list p (main_inputs a) mains -> computed_list p (side_inputs a) sides ->
    computed p (PColl t tag) (Output (fn a) tag mains sides)
with computed_list (p : pipeline) : list pvalue -> list computation -> Prop :=
| computed_nil : computed_list p [] []
| computed_cons v vs c cs : computed p v c -> computed_list p vs cs -> computed_list p (v :: vs) (c :: cs).

(** A pipeline is built one transform after the other: inputs are outputs of
    transforms that were there before. *)
Definition before (p : pipeline) (n : nat) (v : pvalue) : Prop :=
  match v with
  | PBegin => True
  | PColl t tag => t < n /\ exists a, nth_error p t = Some a /\ In tag (outputs a)
  end.
Definition valid (p : pipeline) : Prop :=
  forall t a, nth_error p t = Some a ->
    NoDup (outputs a) /\ forall v, In v (main_inputs a ++ side_inputs a) -> before p t v.

(** A collection is materialized if the transform that made it is a barrier (such as
    GroupByKey), or a composite transform around it is, as long as the collection is an
    output of that composite and of all the composites further inside. *)
Definition materialized (p : pipeline) (v : pvalue) : Prop :=
  exists t tag a, v = PColl t tag /\ nth_error p t = Some a /\
    (barrier a = true \/
     exists inner c outer, composites a = inner ++ c :: outer /\ comp_barrier c = true /\
       Forall (fun c => In v (comp_outputs c)) (inner ++ [c])).

(** The collections that have to be copied: the collection itself, and the main
    inputs of the transforms of such collections, up to materialization boundaries. *)
Inductive to_copy (p : pipeline) (v : pvalue) : pvalue -> Prop :=
| copy_itself : ~ materialized p v -> to_copy p v v
| copy_input t tag a w :
    to_copy p v (PColl t tag) -> nth_error p t = Some a -> In w (main_inputs a) -> w <> PBegin ->
    ~ materialized p w -> to_copy p v w.

(** At most one output of a transform has to be copied. *)
Definition one_output (p : pipeline) (v : pvalue) : Prop :=
  forall t tag tag', to_copy p v (PColl t tag) -> to_copy p v (PColl t tag') -> tag = tag'.

(** All the ways from the collection up to a collection have the same length. *)
Definition level (p : pipeline) (v : pvalue) : Prop :=
  exists depth : pvalue -> nat, forall t tag a w,
    to_copy p v (PColl t tag) -> nth_error p t = Some a -> In w (main_inputs a) -> to_copy p v w ->
    depth w = S (depth (PColl t tag)).

(** A transform and its copy. *)
Definition unchanged (a b : transform F) : Prop :=
  fn b = fn a /\ barrier b = barrier a /\ label b = label a /\ main_inputs b = main_inputs a /\
  side_inputs b = side_inputs a /\ outputs b = outputs a /\ composites b = composites a.
End Spec.
