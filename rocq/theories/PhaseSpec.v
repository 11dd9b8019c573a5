(** * In which phase an analyzer should run *)
From Coq Require Import List Arith.
From Verif Require Import ReadyModel ReadySpec PhaseModel.
Import ListNotations.

Section Spec.
Context {P : Type}.
Variable g : tf_graph.
Variable inputs : list (nat * P).
Variable tables : list table.
Variable sinks : list sink.

(** The replaced tensors; whether they are ready changes from phase to phase. *)
Definition replaced_tensors : list (nat * bool) := map (fun k => (sink_tensor k, false)) sinks.

(** Analyzer [i] reads, through TensorFlow operations and tables, the result of
    analyzer [j]. *)
Definition reads (i j : nat) : Prop :=
  exists k k' x, nth_error sinks i = Some k /\ nth_error sinks j = Some k' /\
    In x (sink_sources k) /\ needs g inputs replaced_tensors tables x (sink_tensor k').

(** [chain i n]: there is a chain of [n] analyzers, each read by the next, below
    analyzer [i]. *)
Inductive chain : nat -> nat -> Prop :=
| chain_zero i : i < length sinks -> chain i 0
| chain_succ i j n : reads i j -> chain j n -> chain i (S n).

Definition longest_chain (i n : nat) : Prop := chain i n /\ forall m, chain i m -> m <= n.

(** The hypotheses under which the graph can be analyzed at all: it is well
    formed, TensorFlow operations form no cycle, everything that the analyzers
    read is provided, table initializers do not depend on inputs or other
    tables, and no analyzer depends on itself. *)
Record analyzable : Prop := {
  an_closed : closed_graph g;
  an_signature : well_formed_signature g inputs replaced_tensors tables;
  an_acyclic : forall (p : P), acyclic g (replaced_infos p replaced_tensors);
  an_tensors : NoDup (map sink_tensor sinks);
  an_range : forall k x, In k sinks -> In x (sink_sources k) -> x < length g;
  an_provided : forall k x y, In k sinks -> In x (sink_sources k) ->
      feeds g inputs replaced_tensors tables x y -> ~ not_provided g inputs replaced_tensors tables y;
  an_tables : forall t x y, In t tables -> In x (init_inputs t) ->
      needs g inputs replaced_tensors tables x y -> nth_error g y = Some Unexpected ->
      is_replaced replaced_tensors y;
  an_rank : exists rank : nat -> nat, forall i j, reads i j -> rank j < rank i
}.

End Spec.
