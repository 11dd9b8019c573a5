(** * Which columns a preprocessing function reads

    Models /repo/tensorflow_transform/inspect_preprocessing_fn.py:29-121, with
    graph_tools.py:858-901 ([get_dependent_inputs]) and graph_tools.py:975-988
    ([SourcedTensorsVisitor]).  Tracing of the preprocessing function is not
    modelled: the graph, its inputs and outputs are given. *)
From Coq Require Import String List Arith Bool.
From Verif Require Import ReadyModel TraverseModel.
Import ListNotations.
Local Notation length := List.length.

(** analyzer_nodes.py:102-133: an operation of the analysis graph is, for
    this purpose, a [TensorSource] with its tensors or anything else. *)
Definition analysis_op := option (list nat).

(** analyzer_nodes.py:139-141 ([TensorSink]): the tensor that is replaced, and the
    value node that computes its value. *)
Record sink := Sink { sink_tensor : nat; sink_future : (nat * nat) }.


Section Inspect.
Context {P : Type}.
Variable g : tf_graph.
Variable translate : nat -> list P -> P.
Variable no_path : P.

(** graph_tools.py:835-839: the sources of each component of one output. *)
Fixpoint component_sources (infos : list (nat * (bool * P))) (fuel : nat)
    (memo : list (nat * analysis P)) (components : list nat)
    : option (list (nat * analysis P) * option (list nat)) :=
  match components with
  | [] => Some (memo, Some [])
  | c :: components =>
      match analyze_tensor g translate infos fuel memo c with
      | None => None
      | Some (memo, None) => Some (memo, None)
      | Some (memo, Some a) =>
          match component_sources infos fuel memo components with
          | Some (memo, Some sources) => Some (memo, Some (dependent_sources a ++ sources))
          | other => other
          end
      end
  end.

(** graph_tools.py:841-848: the names of the inputs with a component among them. *)
Definition inputs_among (signature : list (string * list nat)) (sources : list nat) : list string :=
  map fst (filter (fun nc => existsb (fun c => mem c sources) (snd nc)) signature).

(** graph_tools.py:894-896: the loop over the outputs. *)
Fixpoint outputs_inputs (infos : list (nat * (bool * P))) (fuel : nat)
    (signature : list (string * list nat)) (memo : list (nat * analysis P))
    (outputs : list (list nat)) (acc : list string) : option (option (list string)) :=
  match outputs with
  | [] => Some (Some acc)
  | components :: outputs =>
      match component_sources infos fuel memo components with
      | None => None
      | Some (_, None) => Some None
      | Some (memo, Some sources) =>
          outputs_inputs infos fuel signature memo outputs (acc ++ inputs_among signature sources)
      end
  end.

(** graph_tools.py:858-901 ([get_dependent_inputs]): the names, in the order of
    the inputs; [Some None] when an exception is raised.  Every replaced tensor is
    taken to be unready (graph_tools.py:889-890). *)
Definition get_dependent_inputs (fuel : nat) (inputs : list (nat * P)) (sinks : list nat)
    (tables : list table) (signature : list (string * list nat)) (outputs : list (list nat))
    : option (option (list string)) :=
  match complete_infos g translate no_path fuel inputs (map (fun s => (s, false)) sinks) tables with
  | None => None
  | Some None => Some None
  | Some (Some infos) =>
      match outputs_inputs infos fuel signature [] outputs [] with
      | Some (Some names) =>
          Some (Some (map fst (filter (fun nc => existsb (String.eqb (fst nc)) names) signature)))
      | other => other
      end
  end.
End Inspect.

(** inspect_preprocessing_fn.py:62-65: the sourced tensors of one sink; each sink has
    a new traverser, all share the visitor's list.  [None] when the traversal
    raises. *)
Definition op_tensors (ag : graph analysis_op) (op : nat) : list nat :=
  match nth_error ag op with
  | Some node => match op_def node with Some tensors => tensors | None => [] end
  | None => []
  end.

(** The visitor as a function for [visit_value_node]: it returns one value for each
    output.  The definition carries the number of outputs for that purpose. *)
Definition with_outputs (ag : graph analysis_op) : graph (analysis_op * nat) :=
  map (fun node => OpNode (op_def node, op_nouts node) (op_inputs node) (op_nouts node)) ag.

Definition visit_source (d : analysis_op * nat) (values : list unit) : option (list unit) :=
  Some (repeat tt (snd d)).

Definition sourced_tensors_of (ag : graph analysis_op) (s : sink) : option (list nat) :=
  match visit_value_node visit_source (with_outputs ag) new_traverser (sink_future s) with
  | Ok _ t => Some (concat (map (fun v => op_tensors ag (fst v)) (visits t)))
  | _ => None
  end.

Fixpoint sourced_tensors (ag : graph analysis_op) (sinks : list sink) : option (list nat) :=
  match sinks with
  | [] => Some []
  | s :: sinks =>
      match sourced_tensors_of ag s, sourced_tensors ag sinks with
      | Some tensors, Some more => Some (tensors ++ more)
      | _, _ => None
      end
  end.

(** inspect_preprocessing_fn.py:29-89 ([get_analyze_input_columns]).  [control] are
    the operations of inspect_preprocessing_fn.py:67-79: those that the outputs
    depend on by control, in TensorFlow 2. *)
Definition get_analyze_input_columns {P : Type} (g : tf_graph) (translate : nat -> list P -> P)
    (no_path : P) (fuel : nat) (inputs : list (nat * P)) (ag : graph analysis_op)
    (sinks : list sink) (tables : list table) (signature : list (string * list nat))
    (control : list nat) : option (option (list string)) :=
  match sourced_tensors ag sinks with
  | None => Some None
  | Some tensors =>
      get_dependent_inputs g translate no_path fuel inputs (map sink_tensor sinks) tables signature
        (map (fun t => [t]) (tensors ++ control))
  end.

(** inspect_preprocessing_fn.py:92-121 ([get_transform_input_columns]). *)
Definition get_transform_input_columns {P : Type} (g : tf_graph) (translate : nat -> list P -> P)
    (no_path : P) (fuel : nat) (inputs : list (nat * P)) (sinks : list sink)
    (tables : list table) (signature : list (string * list nat)) (outputs : list (list nat))
    : option (option (list string)) :=
  get_dependent_inputs g translate no_path fuel inputs (map sink_tensor sinks) tables signature
    outputs.
