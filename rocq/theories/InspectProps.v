(** * C48: the columns a preprocessing function reads *)
From Coq Require Import String List.
From Verif Require Import ReadyModel ReadySpec TraverseModel TraverseSpec InspectModel InspectSpec.
From Verif Require Import InspectProofs InspectExample.
Import ListNotations.
Local Notation length := List.length.

(** `get_analyze_input_columns` ends, and raises only if something cannot be run.  The
    columns are exactly those that feed a tensor some analyzer reads, or a control
    dependency of the outputs, in the order of the inputs; and two datasets that agree
    on them, batch by batch, give the same result of every analyzer, whatever the
    operations and the analyzers compute. *)
Theorem c48_analyze_columns :
  forall (P V : Type) g (translate : nat -> list P -> P) no_path inputs ag sinks tables signature,
  traced g inputs ag sinks tables signature ->
  forall control, (forall x, In x control -> x < length g) ->
  let wanted := fun x => (exists s, In s sinks /\ analyzer_reads ag s x) \/ In x control in
  exists k r, (forall fuel, k <= fuel ->
      get_analyze_input_columns g translate no_path fuel inputs ag sinks tables signature control
      = Some r) /\
    match r with
    | None => cannot_run g inputs sinks tables wanted
    | Some columns =>
        columns_of g inputs sinks tables signature wanted columns /\
        forall (compute : nat -> list V -> V) analyzer feeds1 feeds2 results1 results2 values1 values2,
        reads_sources sinks ag analyzer ->
        analysis_of g inputs tables sinks compute analyzer feeds1 results1 values1 ->
        analysis_of g inputs tables sinks compute analyzer feeds2 results2 values2 ->
        Forall2 (agree_on signature columns) feeds1 feeds2 ->
        forall s, In s sinks -> results1 (sink_tensor s) = results2 (sink_tensor s)
    end.
Proof. exact @analyze_final. Qed.

Example c48_analyze_applies :
  traced x_graph x_inputs x_ag x_sinks x_tables x_signature /\
  get_analyze_input_columns x_graph (fun x _ => x) 0 100 x_inputs x_ag x_sinks x_tables x_signature
    [11] = Some (Some ["x"; "y"; "w"]%string) /\
  reads_sources x_sinks x_ag x_analyzer /\
  analysis_of x_graph x_inputs x_tables x_sinks x_compute x_analyzer x_feeds1 x_results
    (map (fun f => x_value f x_results) x_feeds1) /\
  analysis_of x_graph x_inputs x_tables x_sinks x_compute x_analyzer x_feeds2 x_results
    (map (fun f => x_value f x_results) x_feeds2) /\
  Forall2 (agree_on x_signature ["x"; "y"; "w"]%string) x_feeds1 x_feeds2.
Proof.
  split; [exact x_traced|]. split; [vm_compute; reflexivity|]. split; [exact x_reads_sources|].
  split; [apply x_analysis; auto|]. split; [apply x_analysis; auto|exact x_agree].
Qed.

(** `get_transform_input_columns` ends, and raises only if something cannot be run.
    The columns are exactly those that feed an output; and with the same results of
    the analyzers two batches that agree on them give the same outputs. *)
Theorem c48_transform_columns :
  forall (P V : Type) g (translate : nat -> list P -> P) no_path inputs ag sinks tables signature,
  traced g inputs ag sinks tables signature ->
  forall outputs, (forall comps x, In comps outputs -> In x comps -> x < length g) ->
  let wanted := fun x => exists comps, In comps outputs /\ In x comps in
  exists k r, (forall fuel, k <= fuel ->
      get_transform_input_columns g translate no_path fuel inputs sinks tables signature outputs
      = Some r) /\
    match r with
    | None => cannot_run g inputs sinks tables wanted
    | Some columns =>
        columns_of g inputs sinks tables signature wanted columns /\
        forall (compute : nat -> list V -> V) feed1 feed2 results value1 value2,
        runs g inputs tables sinks compute feed1 results value1 ->
        runs g inputs tables sinks compute feed2 results value2 ->
        agree_on signature columns feed1 feed2 ->
        forall x, wanted x -> value1 x = value2 x
    end.
Proof. exact @transform_final. Qed.

Example c48_transform_applies :
  get_transform_input_columns x_graph (fun x _ => x) 0 100 x_inputs x_sinks x_tables x_signature
    [[10]; [7]] = Some (Some ["y"; "z"]%string).
Proof. vm_compute. reflexivity. Qed.

Print Assumptions c48_analyze_columns.
Print Assumptions c48_transform_columns.
