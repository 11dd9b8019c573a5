(** * When a tensor should be ready (independent of the algorithm) *)
From Coq Require Import List Arith Bool.
From Verif Require Import ReadyModel.
Import ListNotations.

Section Spec.
Context {P : Type}.
Variable g : tf_graph.
Variable translate : nat -> list P -> P.
Variable source_infos : list (nat * (bool * P)).

(** Graphs contain no reference to a missing node. *)
Definition closed_graph : Prop :=
  forall x ps p, nth_error g x = Some (Node ps) -> In p ps -> p < length g.

Definition is_source (x : nat) : Prop := find x source_infos <> None.

(** [reach x y]: [y] is [x] or is found by following parents from [x]; sources
    are not followed. *)
Inductive reach : nat -> nat -> Prop :=
| reach_refl x : reach x x
| reach_step x ps y z :
    ~ is_source x -> nth_error g x = Some (Node ps) -> In y ps -> reach y z -> reach x z.

(** A placeholder or table for which nothing was provided. *)
Definition unexpected (x : nat) : Prop := ~ is_source x /\ nth_error g x = Some Unexpected.

(** No node is found by following parents from itself. *)
Definition acyclic : Prop :=
  forall x ps y, ~ is_source x -> nth_error g x = Some (Node ps) -> In y ps -> ~ reach y x.

(** The documented path (graph_tools.py:511-516): of a source, from its name; of
    another node, from the paths of its parents. *)
Inductive has_path : nat -> P -> Prop :=
| path_source x b p : find x source_infos = Some (b, p) -> has_path x p
| path_node x ps paths :
    ~ is_source x -> nth_error g x = Some (Node ps) -> Forall2 has_path ps paths ->
    has_path x (translate x paths).

(** What the answer to a query for [x] should be. *)
Definition right_answer (x : nat) (r : option (analysis P)) : Prop :=
  match r with
  | None => exists y, reach x y /\ unexpected y
  | Some a =>
      (forall y, reach x y -> ~ unexpected y) /\
      (is_ready a = true <->
         forall s b p, reach x s -> find s source_infos = Some (b, p) -> b = true) /\
      (forall s, In s (dependent_sources a) <-> reach x s /\ is_source s)
  end.

End Spec.

(** With tables: what [x] needs to be ready.  Table initializers run first, fed
    with no input, so that below a table only replaced tensors are sources. *)
Section Tables.
Context {P : Type}.
Variable g : tf_graph.
Variable inputs : list (nat * P).
Variable replaced : list (nat * bool).
Variable tables : list table.

Definition is_replaced (x : nat) : Prop := find x replaced <> None.
Definition is_table (x : nat) : Prop := exists t, In t tables /\ table_op t = x.
Definition is_input (x : nat) : Prop := find x inputs <> None.

(** Following parents, and from the operation of a table the inputs of its
    initializer, but not beyond inputs and replaced tensors. *)
Inductive needs : nat -> nat -> Prop :=
| needs_refl x : needs x x
| needs_parent x ps y z :
    ~ is_input x -> ~ is_replaced x -> ~ is_table x ->
    nth_error g x = Some (Node ps) -> In y ps -> needs y z -> needs x z
| needs_table x t y z :
    In t tables -> table_op t = x -> In y (init_inputs t) -> needs y z -> needs x z.

(** The same without going below tables. *)
Inductive feeds : nat -> nat -> Prop :=
| feeds_refl x : feeds x x
| feeds_parent x ps y z :
    ~ is_input x -> ~ is_replaced x -> ~ is_table x ->
    nth_error g x = Some (Node ps) -> In y ps -> feeds y z -> feeds x z.

(** A placeholder that is neither an input nor a replaced tensor, or a table
    whose initializer is not known. *)
Definition not_provided (y : nat) : Prop :=
  nth_error g y = Some Unexpected /\ ~ is_input y /\ ~ is_replaced y /\ ~ is_table y.

(** The graph is well formed: tables, inputs and replaced tensors are different
    nodes, each table is initialised once, and initializers do not depend on
    inputs or other tables (else the constructor raises). *)
Record well_formed_signature : Prop := {
  wf_input_replaced : forall x, is_input x -> ~ is_replaced x;
  wf_input_table : forall x, is_input x -> ~ is_table x;
  wf_table_replaced : forall x, is_table x -> ~ is_replaced x;
  wf_tables : NoDup (map table_op tables);
  wf_init_range : forall t x, In t tables -> In x (init_inputs t) -> x < length g;
  wf_input_nodes : forall x, is_input x -> nth_error g x = Some Unexpected;
  wf_table_nodes : forall x, is_table x -> nth_error g x = Some Unexpected
}.
End Tables.
