(** * What it means that values depend on some columns only *)
From Coq Require Import String List Arith.
From Verif Require Import ReadyModel ReadySpec TraverseModel TraverseSpec InspectModel.
Import ListNotations.
Local Notation length := List.length.

(** The tensors that the analyzer of a sink reads: those of the [TensorSource]s
    upstream of its value. *)
Definition analyzer_reads (ag : graph analysis_op) (s : sink) (x : nat) : Prop :=
  exists op node tensors, reaches ag (fst (sink_future s)) op /\
    nth_error ag op = Some node /\ op_def node = Some tensors /\ In x tensors.

Section Semantics.
Context {P V : Type}.
Variable g : tf_graph.
Variable inputs : list (nat * P).
Variable tables : list table.
Variable sinks : list sink.

Definition is_sink (x : nat) : Prop := In x (map sink_tensor sinks).

(** One run of the graph on a batch: [feed] gives the input tensors, [results] the
    replaced tensors; every other node is computed from its parents, and a table
    from the inputs of its initializer. *)
Record runs (compute : nat -> list V -> V) (feed results value : nat -> V) : Prop := {
  run_input : forall x, is_input inputs x -> value x = feed x;
  run_sink : forall x, is_sink x -> value x = results x;
  run_table : forall t, In t tables ->
    value (table_op t) = compute (table_op t) (map value (init_inputs t));
  run_node : forall x ps, nth_error g x = Some (Node ps) -> ~ is_sink x ->
    value x = compute x (map value ps)
}.

(** The analyzers: the result for each sink is a function of the values, in all
    batches, of the tensors its analyzer reads. *)
Definition reads_sources (ag : graph analysis_op) (analyzer : nat -> list (nat -> V) -> V) : Prop :=
  forall s values1 values2, In s sinks ->
    Forall2 (fun v1 v2 => forall x, analyzer_reads ag s x -> v1 x = v2 x) values1 values2 ->
    analyzer (sink_tensor s) values1 = analyzer (sink_tensor s) values2.

(** An analysis of a dataset, given as a list of batches. *)
Definition analysis_of (compute : nat -> list V -> V) (analyzer : nat -> list (nat -> V) -> V)
    (feeds : list (nat -> V)) (results : nat -> V) (values : list (nat -> V)) : Prop :=
  Forall2 (fun feed value => runs compute feed results value) feeds values /\
  forall s, In s sinks -> results (sink_tensor s) = analyzer (sink_tensor s) values.

(** Two batches that agree on the given columns. *)
Definition agree_on (signature : list (string * list nat)) (columns : list string)
    (feed1 feed2 : nat -> V) : Prop :=
  forall name comps c, In name columns -> In (name, comps) signature -> In c comps ->
    feed1 c = feed2 c.

(** Nothing depends on itself, not through an analyzer either: nodes can be ranked. *)
Definition layered (ag : graph analysis_op) : Prop :=
  exists rank : nat -> nat,
    (forall x ps y, nth_error g x = Some (Node ps) -> ~ is_sink x -> In y ps -> rank y < rank x) /\
    (forall t i, In t tables -> In i (init_inputs t) -> rank i < rank (table_op t)) /\
    (forall s x, In s sinks -> analyzer_reads ag s x -> rank x < rank (sink_tensor s)).
End Semantics.

(** A preprocessing function that was traced: the graph is well formed, and so is
    the graph of its analyzers. *)
Record traced {P : Type} (g : tf_graph) (inputs : list (nat * P)) (ag : graph analysis_op)
    (sinks : list sink) (tables : list table) (signature : list (string * list nat)) : Prop := {
  traced_closed : closed_graph g;
  traced_signature :
    well_formed_signature g inputs (map (fun s => (s, false)) (map sink_tensor sinks)) tables;
  traced_inputs : forall name comps c, In (name, comps) signature -> In c comps -> is_input inputs c;
  traced_named : forall c, is_input inputs c ->
    exists name comps, In (name, comps) signature /\ In c comps;
  traced_analysis : well_formed ag;
  traced_futures : forall s, In s sinks -> valid_value_node ag (sink_future s);
  traced_no_cycle : forall s, In s sinks -> acyclic_from ag (fst (sink_future s));
  traced_sources : forall s x, In s sinks -> analyzer_reads ag s x -> x < length g;
  traced_layered : layered g tables sinks ag
}.

(** The columns are those with a component that feeds one of the tensors [wanted], in
    the order of the inputs. *)
Definition columns_of {P : Type} (g : tf_graph) (inputs : list (nat * P)) (sinks : list sink)
    (tables : list table) (signature : list (string * list nat)) (wanted : nat -> Prop)
    (columns : list string) : Prop :=
  (exists keep, columns = map fst (filter keep signature)) /\
  (forall name, In name columns <->
     exists comps c x, In (name, comps) signature /\ In c comps /\ wanted x /\
       feeds g inputs (map (fun s => (s, false)) (map sink_tensor sinks)) tables x c).

(** Why the call raises: a wanted tensor, or an initializer of a table, depends on
    something that is neither an input (for tables) nor computed. *)
Definition cannot_run {P : Type} (g : tf_graph) (inputs : list (nat * P)) (sinks : list sink)
    (tables : list table) (wanted : nat -> Prop) : Prop :=
  let replaced := map (fun s => (s, false)) (map sink_tensor sinks) in
  (exists t i y, In t tables /\ In i (init_inputs t) /\ needs g inputs replaced tables i y /\
     nth_error g y = Some Unexpected /\ ~ is_sink sinks y) \/
  (exists x y, wanted x /\ feeds g inputs replaced tables x y /\
     not_provided g inputs replaced tables y).
