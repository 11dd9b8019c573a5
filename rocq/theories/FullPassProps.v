(** * C61: the transformed dataset is the preprocessing function with every
      analyzer applied to the entire dataset *)
From Coq Require Import List Arith Permutation.
From Verif Require Import ReadyModel ReadySpec PhaseModel PhaseSpec PhaseProps FullPassModel FullPassSpec
  FullPassRun FullPassUnique FullPassExample.
Import ListNotations.

(** For every graph that can be analyzed, with any operations, tables, analyzers
    that read one another's results in any way, and every dataset: the analysis
    succeeds, the value bound to each analyzer is what it means, and transforming
    any batch gives every output the value it means.  It does not matter in which
    order each phase sees the batches, nor, with TF 2, what the temporary values
    are. *)
Theorem c61_transform :
  forall (P V : Type) (g : tf_graph) (translate : nat -> list P -> P) (no_path : P)
    (inputs : list (nat * P)) tables sinks
    (node_value : nat -> list V -> V) table_contents analyzer m dataset order outputs,
  analyzable g inputs tables sinks ->
  (forall x, In x outputs -> x < length g /\
     forall y, feeds g inputs (replaced_tensors sinks) tables x y ->
       ~ not_provided g inputs (replaced_tensors sinks) tables y) ->
  (forall b, In b dataset -> feeds_inputs inputs b) ->
  (forall p, Permutation (order p) dataset) ->
  order_free analyzer ->
  exists rounds0 fuel0 plans bindings,
    forall rounds fuel, rounds0 <= rounds -> fuel0 <= fuel ->
      plan_phases g translate no_path inputs tables rounds fuel sinks = Some (Some plans) /\
      run_phases g node_value table_contents analyzer m tables sinks fuel order 0 plans [] = Some bindings /\
      (forall k, In k sinks -> exists v, find (sink_tensor k) bindings = Some v /\
         means g node_value table_contents analyzer tables sinks dataset None (sink_tensor k) v) /\
      (forall b, feeds_inputs inputs b ->
         exists vs, transform g node_value table_contents m tables sinks fuel bindings outputs b = Some vs /\
           Forall2 (means g node_value table_contents analyzer tables sinks dataset (Some b)) outputs vs).
Proof. exact @full_pass_semantics. Qed.
Print Assumptions c61_transform.

(** The meaning of a tensor is unique. *)
Theorem c61_meaning_unique :
  forall (P V : Type) (g : tf_graph) (inputs : list (nat * P)) tables sinks
    (node_value : nat -> list V -> V) table_contents analyzer dataset,
  well_formed_signature g inputs (replaced_tensors sinks) tables ->
  NoDup (map sink_tensor sinks) ->
  (forall b, In b dataset -> feeds_inputs inputs b) ->
  forall c x v, means g node_value table_contents analyzer tables sinks dataset c x v ->
  match c with Some b => feeds_inputs inputs b | None => True end ->
  forall v', means g node_value table_contents analyzer tables sinks dataset c x v' -> v = v'.
Proof. exact @meaning_unique. Qed.
Print Assumptions c61_meaning_unique.

(** So TF 1 and TF 2, with any orders of the batches in any phase, transform every
    batch to the same. *)
Theorem c61_executions_agree :
  forall (P V : Type) (g : tf_graph) (translate : nat -> list P -> P) (no_path : P)
    (inputs : list (nat * P)) tables sinks
    (node_value : nat -> list V -> V) table_contents analyzer m m' dataset order order' outputs,
  analyzable g inputs tables sinks ->
  (forall x, In x outputs -> x < length g /\
     forall y, feeds g inputs (replaced_tensors sinks) tables x y ->
       ~ not_provided g inputs (replaced_tensors sinks) tables y) ->
  (forall b, In b dataset -> feeds_inputs inputs b) ->
  (forall p, Permutation (order p) dataset) -> (forall p, Permutation (order' p) dataset) ->
  order_free analyzer ->
  exists rounds0 fuel0, forall rounds fuel, rounds0 <= rounds -> fuel0 <= fuel ->
    exists plans bindings bindings',
      plan_phases g translate no_path inputs tables rounds fuel sinks = Some (Some plans) /\
      run_phases g node_value table_contents analyzer m tables sinks fuel order 0 plans [] = Some bindings /\
      run_phases g node_value table_contents analyzer m' tables sinks fuel order' 0 plans [] = Some bindings' /\
      (forall b, feeds_inputs inputs b -> exists vs,
         transform g node_value table_contents m tables sinks fuel bindings outputs b = Some vs /\
         transform g node_value table_contents m' tables sinks fuel bindings' outputs b = Some vs).
Proof. exact @executions_agree. Qed.
Print Assumptions c61_executions_agree.

(** Four analyzers in three phases, one of them behind a table. *)
Example c61_applies :
  exists rounds0 fuel0 plans bindings,
    forall rounds fuel, rounds0 <= rounds -> fuel0 <= fuel ->
      plan_phases c38_graph (fun x _ => x) 0 c38_inputs c38_tables rounds fuel c38_sinks = Some (Some plans) /\
      run_phases c38_graph c61_node_value c61_table_contents c61_analyzer Compat_v1 c38_tables c38_sinks
        fuel c61_order 0 plans [] = Some bindings /\
      (forall k, In k c38_sinks -> exists v, find (sink_tensor k) bindings = Some v /\
         means c38_graph c61_node_value c61_table_contents c61_analyzer c38_tables c38_sinks c61_dataset
           None (sink_tensor k) v) /\
      (forall b, feeds_inputs c38_inputs b ->
         exists vs, transform c38_graph c61_node_value c61_table_contents Compat_v1 c38_tables c38_sinks
                      fuel bindings c61_outputs b = Some vs /\
           Forall2 (means c38_graph c61_node_value c61_table_contents c61_analyzer c38_tables c38_sinks
                      c61_dataset (Some b)) c61_outputs vs).
Proof.
  exact (c61_transform nat nat c38_graph (fun x _ => x) 0 c38_inputs c38_tables c38_sinks c61_node_value
    c61_table_contents c61_analyzer Compat_v1 c61_dataset c61_order c61_outputs
    c38_analyzable c61_outputs_provided c61_fed c61_permuted c61_order_free).
Qed.

Example c61_executed :
  exists plans bindings,
    plan_phases c38_graph (fun x _ => x) 0 c38_inputs c38_tables 10 100 c38_sinks = Some (Some plans) /\
    plans = [Phase [] [Sink 2 [1]; Sink 8 [1]]; Phase [] [Sink 4 [3]];
             Phase [Table 5 [4]] [Sink 7 [6]]] /\
    run_phases c38_graph c61_node_value c61_table_contents c61_analyzer Compat_v1 c38_tables c38_sinks
      100 c61_order 0 plans [] = Some bindings /\
    bindings = [(2, 20); (8, 10); (4, 40); (7, 4040)] /\
    run_phases c38_graph c61_node_value c61_table_contents c61_analyzer (Tf2 (fun x => 7 * x)) c38_tables
      c38_sinks 100 c61_order 0 plans [] = Some bindings /\
    transform c38_graph c61_node_value c61_table_contents Compat_v1 c38_tables c38_sinks 100
      bindings c61_outputs [(0, 5)] = Some [4032; 4040; 10].
Proof. vm_compute. do 2 eexists. repeat split; reflexivity. Qed.
