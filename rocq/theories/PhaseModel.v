(** * The phases of analysis

    Models the loop of [build], /repo/tensorflow_transform/beam/
    analysis_graph_builder.py:676-752, with [_ReadyVisitor] (lines 52-79). *)
From Coq Require Import List Arith Bool.
From Verif Require Import ReadyModel.
Import ListNotations.

(** An element of [TENSOR_REPLACEMENTS]: the tensor to be replaced by the result
    of an analyzer, and the tensors of all the [TensorSource]s upstream of its
    value node.  The visitor says that a value node is ready when all these
    tensors are ready (lines 68-75).  Simplification: that a [TensorSource]
    shared by several sinks is only asked about once (the traverser caches it) is
    not modelled, nor is the check that labels are unique (lines 59-64). *)
Record sink := Sink { sink_tensor : nat; sink_sources : list nat }.

Section Build.
Context {P : Type}.
Variable g : tf_graph.
Variable translate : nat -> list P -> P.
Variable no_path : P.
Variable inputs : list (nat * P).
Variable tables : list table.

(** Lines 69-72: [all(ready_to_run(tensor) for tensor in tensors)], which stops
    at the first tensor that is not ready.  [Some (_, None)]: it raises. *)
Fixpoint all_ready (infos : list (nat * (bool * P))) (fuel : nat)
    (memo : list (nat * analysis P)) (xs : list nat)
    : option (list (nat * analysis P) * option bool) :=
  match xs with
  | [] => Some (memo, Some true)
  | x :: xs =>
      match analyze_tensor g translate infos fuel memo x with
      | Some (memo, Some r) =>
          if is_ready r then all_ready infos fuel memo xs else Some (memo, Some false)
      | Some (memo, None) => Some (memo, None)
      | None => None
      end
  end.

(** Lines 724-750: the sinks in order; a sink that has a phase is skipped, one
    that is ready gets the present phase. *)
Fixpoint run_phase (infos : list (nat * (bool * P))) (fuel : nat)
    (memo : list (nat * analysis P)) (phase : nat) (sinks : list (sink * option nat))
    : option (option (list (sink * option nat))) :=
  match sinks with
  | [] => Some (Some [])
  | (k, Some p) :: sinks =>
      match run_phase infos fuel memo phase sinks with
      | Some (Some rest) => Some (Some ((k, Some p) :: rest))
      | r => r
      end
  | (k, None) :: sinks =>
      match all_ready infos fuel memo (sink_sources k) with
      | Some (memo, Some ready) =>
          match run_phase infos fuel memo phase sinks with
          | Some (Some rest) => Some (Some ((k, if ready then Some phase else None) :: rest))
          | r => r
          end
      | Some (_, None) => Some None
      | None => None
      end
  end.

(** Lines 678-681, 695-705: the readiness of the sinks at the start of a phase. *)
Definition sinks_ready (sinks : list (sink * option nat)) : list (nat * bool) :=
  map (fun kp => (sink_tensor (fst kp), match snd kp with Some _ => true | None => false end)) sinks.

(** Lines 694-752: the loop.  [rounds] bounds the number of phases; [None] when
    it or [fuel] is too small, [Some None] when an exception is raised. *)
Fixpoint build_loop (rounds fuel : nat) (phase : nat) (sinks : list (sink * option nat))
    : option (option (list (sink * option nat))) :=
  if forallb (fun kp => match snd kp with Some _ => true | None => false end) sinks then
    Some (Some sinks)
  else
    match rounds with
    | O => None
    | S rounds =>
        match complete_infos g translate no_path fuel inputs (sinks_ready sinks) tables with
        | Some (Some infos) =>
            match run_phase infos fuel [] phase sinks with
            | Some (Some sinks) => build_loop rounds fuel (S phase) sinks
            | Some None => Some None
            | None => None
            end
        | Some None => Some None
        | None => None
        end
    end.

(** Lines 676-752. *)
Definition build_phases (rounds fuel : nat) (sinks : list sink)
    : option (option (list (sink * option nat))) :=
  build_loop rounds fuel 0 (map (fun k => (k, None)) sinks).

End Build.
