(** * What a preprocessing function means

    A preprocessing function is made of TensorFlow operations, which are applied to
    each batch, and of analyzers, which are "executed by doing a full pass over the
    dataset" and whose outputs are replaced by their results: beam/impl.py:14-40
    and beam/analysis_graph_builder.py:628-631 in /repo/tensorflow_transform.
    There are no phases, no
    saved models and no bindings here. *)
From Coq Require Import List Arith Permutation.
From Verif Require Import ReadyModel PhaseModel.
Import ListNotations.

Section Meaning.
Context {V : Type}.
Variable g : tf_graph.
Variable node_value : nat -> list V -> V.
Variable table_contents : nat -> list V -> V.
Variable analyzer : nat -> list (list V) -> V.
Variable tables : list table.
Variable sinks : list sink.

(** The dataset; a batch gives values to the inputs. *)
Variable dataset : list (list (nat * V)).

(** [means c x v]: the tensor [x] has the value [v], in batch [b] when [c] is
    [Some b], in no particular batch when [c] is [None]. *)
Inductive means : option (list (nat * V)) -> nat -> V -> Prop :=
| means_input b x v : In (x, v) b -> means (Some b) x v
| means_analyzer c k rows :
    In k sinks ->
    Forall2 (fun b row => Forall2 (means (Some b)) (sink_sources k) row) dataset rows ->
    means c (sink_tensor k) (analyzer (sink_tensor k) rows)
| means_table c t vs :
    In t tables -> Forall2 (means None) (init_inputs t) vs ->
    means c (table_op t) (table_contents (table_op t) vs)
| means_node c x ps vs :
    ~ In x (map sink_tensor sinks) -> nth_error g x = Some (Node ps) ->
    Forall2 (means c) ps vs -> means c x (node_value x vs).

End Meaning.

(** A batch gives one value to each input, and to nothing else. *)
Definition feeds_inputs {P V : Type} (inputs : list (nat * P)) (b : list (nat * V)) : Prop :=
  NoDup (map fst b) /\ forall x, In x (map fst b) <-> In x (map fst inputs).

(** The result of an analyzer does not depend on the order of the batches. *)
Definition order_free {V : Type} (analyzer : nat -> list (list V) -> V) : Prop :=
  forall x rows rows', Permutation rows rows' -> analyzer x rows = analyzer x rows'.
