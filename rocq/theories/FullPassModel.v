(** * The execution of the analysis: phases, saved models and full passes

    Models the plan made by [build], /repo/tensorflow_transform/beam/
    analysis_graph_builder.py:619-780, and the Beam implementations of its
    operations in /repo/tensorflow_transform/beam/impl.py:589-912
    ([CreateSavedModel], [ApplySavedModel], [ExtractFromDict]). *)
From Coq Require Import List Arith Bool.
From Verif Require Import ReadyModel PhaseModel.
Import ListNotations.

(** [Some] of the results when none is [None]. *)
Fixpoint all_some {A B : Type} (f : A -> option B) (l : list A) : option (list B) :=
  match l with
  | [] => Some []
  | a :: l =>
      match f a with
      | Some b => match all_some f l with Some bs => Some (b :: bs) | None => None end
      | None => None
      end
  end.

Section Plan.
Context {P : Type}.
Variable g : tf_graph.
Variable translate : nat -> list P -> P.
Variable no_path : P.
Variable inputs : list (nat * P).
Variable tables : list table.

(** A phase as analysis_graph_builder.py:694-752 plans it: the table
    initializers that are ready at its start (graph_tools.py:644-645, given to
    [CreateSavedModel] in line 718) and the analyzers that become ready. *)
Record phase_plan := Phase { ready_tables : list table; extracted : list sink }.

(** graph_tools.py:644-645: a table initializer is ready when the source info of
    its table is.  Simplification: a table with two initializers is looked up
    twice. *)
Definition table_is_ready (infos : list (nat * (bool * P))) (t : table) : bool :=
  match find (table_op t) infos with
  | Some (ready, _) => ready
  | None => false
  end.

(** analysis_graph_builder.py:724-749: the sinks that got a phase. *)
Fixpoint newly_ready (before after : list (sink * option nat)) : list sink :=
  match before, after with
  | (k, None) :: before, (_, Some _) :: after => k :: newly_ready before after
  | _ :: before, _ :: after => newly_ready before after
  | _, _ => []
  end.

(** analysis_graph_builder.py:694-752: the loop, as [build_loop] of PhaseModel,
    with the plan of each phase. *)
Fixpoint plan_loop (rounds fuel : nat) (phase : nat) (sinks : list (sink * option nat))
    : option (option (list phase_plan)) :=
  if forallb (fun kp => match snd kp with Some _ => true | None => false end) sinks then
    Some (Some [])
  else
    match rounds with
    | O => None
    | S rounds =>
        match complete_infos g translate no_path fuel inputs (sinks_ready sinks) tables with
        | Some (Some infos) =>
            match run_phase g translate infos fuel [] phase sinks with
            | Some (Some sinks') =>
                match plan_loop rounds fuel (S phase) sinks' with
                | Some (Some plans) =>
                    Some (Some (Phase (filter (table_is_ready infos) tables)
                                      (newly_ready sinks sinks') :: plans))
                | r => r
                end
            | Some None => Some None
            | None => None
            end
        | Some None => Some None
        | None => None
        end
    end.

(** analysis_graph_builder.py:676-752. *)
Definition plan_phases (rounds fuel : nat) (sinks : list sink) : option (option (list phase_plan)) :=
  plan_loop rounds fuel 0 (map (fun k => (k, None)) sinks).

End Plan.

Section Execution.
Context {V : Type}.
Variable g : tf_graph.

(** What TensorFlow computes, for every possible semantics of the operations: the
    value of a node from the values of its parents, and the contents of a table
    from the inputs of its initializer.  Operations are deterministic. *)
Variable node_value : nat -> list V -> V.
Variable table_contents : nat -> list V -> V.

(** What an analyzer computes from the rows of its input tensors, one row for
    each batch; named by the tensor that its result replaces. *)
Variable analyzer : nat -> list (list V) -> V.

(** With TF 1, a tensor that is to be replaced is a placeholder, which cannot be
    evaluated (analyzer_nodes.py:144-153).  With TF 2, it is a placeholder with a
    temporary value (analyzer_nodes.py:185-316). *)
Inductive mode := Compat_v1 | Tf2 (temporary : nat -> V).
Variable m : mode.

Variable tables : list table.
Variable sinks : list sink.

(** The value of a tensor in a session whose feeds, constants and tables are
    [env]: impl.py:595-606 replaces bound tensors by constants. *)
Fixpoint eval (fuel : nat) (env : list (nat * V)) (x : nat) : option V :=
  match fuel with
  | O => None
  | S fuel =>
      match find x env with
      | Some v => Some v
      | None =>
          if existsb (fun k => Nat.eqb (sink_tensor k) x) sinks then
            match m with Compat_v1 => None | Tf2 temporary => Some (temporary x) end
          else
            match nth_error g x with
            | Some (Node parents) =>
                match all_some (eval fuel env) parents with
                | Some vs => Some (node_value x vs)
                | None => None
                end
            | Some Unexpected => None
            | None => None
            end
      end
  end.

(** The initialization of tables when a saved model is loaded: bound tensors are
    constants, nothing is fed. *)
Definition initialize (fuel : nat) (bindings : list (nat * V)) (ts : list table)
    : option (list (nat * V)) :=
  all_some (fun t =>
    match all_some (eval fuel bindings) (init_inputs t) with
    | Some vs => Some (table_op t, table_contents (table_op t) vs)
    | None => None
    end) ts.

(** impl.py:655-690 ([_CreateSavedModelImpl]): the saved model contains the
    initializers it is given.  impl.py:739-790 ([_CreateSavedModelImplV2]): the
    function is traced again and all its tables are initialized. *)
Definition initializers (ready : list table) : list table :=
  match m with Compat_v1 => ready | Tf2 _ => tables end.

(** impl.py:853-895 ([_ApplySavedModelImpl], [_ExtractFromDictImpl]): the values
    of [xs] in one batch. *)
Definition apply_model (fuel : nat) (bindings contents : list (nat * V)) (xs : list nat)
    (batch : list (nat * V)) : option (list V) :=
  all_some (eval fuel (batch ++ contents ++ bindings)) xs.

(** One phase: the saved model is made with the bindings of earlier phases
    (analysis_graph_builder.py:715-721) and applied to every batch; each analyzer
    gives a binding (lines 737-747).  The batches come in any order.
    Simplification: a source shared with an analyzer of an earlier phase is
    extracted again. *)
Definition run_full_pass (fuel : nat) (batches : list (list (nat * V))) (plan : phase_plan)
    (bindings : list (nat * V)) : option (list (nat * V)) :=
  match initialize fuel bindings (initializers (ready_tables plan)) with
  | Some contents =>
      match
        all_some (fun k =>
          match all_some (apply_model fuel bindings contents (sink_sources k)) batches with
          | Some rows => Some (sink_tensor k, analyzer (sink_tensor k) rows)
          | None => None
          end) (extracted plan)
      with
      | Some new => Some (bindings ++ new)
      | None => None
      end
  | None => None
  end.

(** All the phases; [order p] is the order in which phase [p] sees the batches. *)
Fixpoint run_phases (fuel : nat) (order : nat -> list (list (nat * V))) (phase : nat)
    (plans : list phase_plan) (bindings : list (nat * V)) : option (list (nat * V)) :=
  match plans with
  | [] => Some bindings
  | plan :: plans =>
      match run_full_pass fuel (order phase) plan bindings with
      | Some bindings => run_phases fuel order (S phase) plans bindings
      | None => None
      end
  end.

(** analysis_graph_builder.py:754-772: the final saved model has all the bindings
    and all the table initializers; applied to a batch (impl.py:1597-1760,
    [TransformDataset]) it gives the outputs. *)
Definition transform (fuel : nat) (bindings : list (nat * V)) (outputs : list nat)
    (batch : list (nat * V)) : option (list V) :=
  match initialize fuel bindings tables with
  | Some contents => apply_model fuel bindings contents outputs batch
  | None => None
  end.

End Execution.
