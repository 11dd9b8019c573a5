(** Combiners and the schedules under which a Beam runner may execute them. *)
From Coq Require Import List ZArith.
Import ListNotations.

(** Models analyzer_nodes.py:342-413 ([Combiner]: create_accumulator, add_input,
    merge_accumulators, extract_output).  [compact] is the identity in the base class
    (analyzer_nodes.py:383-392) and for every combiner modelled here, so it is left out. *)
Record combiner (B A O : Type) := Combiner {
  create_accumulator : A;
  add_input : A -> B -> A;
  merge_accumulators : list A -> A;
  extract_output : A -> O }.
Arguments create_accumulator {B A O} _.
Arguments add_input {B A O} _ _ _.
Arguments merge_accumulators {B A O} _ _.
Arguments extract_output {B A O} _ _.

(** What a runner may do with the elements of a [beam.CombineGlobally]: a bundle creates an
    accumulator and adds its elements one after the other; accumulators of bundles are merged in
    arbitrary groups (each group non-empty), in a tree of any shape.  The order and grouping is
    arbitrary, so theorems quantify over all schedules. *)
Inductive sched (X : Type) : Type :=
| Bundle (xs : list X)
| Merged (first : sched X) (rest : list (sched X)).
Arguments Bundle {X} _.
Arguments Merged {X} _ _.

(** All elements processed by a schedule. *)
Fixpoint elements {X} (s : sched X) : list X :=
  match s with
  | Bundle xs => xs
  | Merged s0 rest => elements s0 ++ flat_map elements rest
  end.

(** Execution of a CombineFn given by its three operations. *)
Fixpoint run {X A} (mk : A) (add : A -> X -> A) (mrg : list A -> A) (s : sched X) : A :=
  match s with
  | Bundle xs => fold_left add xs mk
  | Merged s0 rest => mrg (run mk add mrg s0 :: map (run mk add mrg) rest)
  end.

(** beam/analyzer_impls.py:961-1002 ([_CombinerWrapper]) with is_combining_accumulators=False:
    the output of the combine is the accumulator itself. *)
Definition run_accumulate {B A O} (c : combiner B A O) (s : sched B) : A :=
  run (create_accumulator c) (add_input c) (merge_accumulators c) s.

(** beam/analyzer_impls.py:982-1002 with is_combining_accumulators=True: [add_input] merges the
    pair [accumulator, next_input] (neither is None for the combiners modelled here). *)
Definition run_merge {B A O} (c : combiner B A O) (s : sched A) : O :=
  extract_output c
    (run (create_accumulator c) (fun a x => merge_accumulators c [a; x]) (merge_accumulators c) s).

(** Relabelling the elements of a schedule. *)
Fixpoint map_sched {X Y} (f : X -> Y) (s : sched X) : sched Y :=
  match s with
  | Bundle xs => Bundle (map f xs)
  | Merged s0 rest => Merged (map_sched f s0) (map (map_sched f) rest)
  end.

(** analyzers.py:125-157 ([apply_cacheable_combine_operation]): CacheableCombineAccumulate (one
    combine per dataset partition) followed by CacheableCombineMerge over all the accumulators.
    A schedule of the whole analysis is a schedule of the merge step whose elements are schedules
    of the accumulate steps. *)
Definition analyze {B A O} (c : combiner B A O) (s : sched (sched B)) : O :=
  run_merge c (map_sched (run_accumulate c) s).

(** The batches consumed by an analysis. *)
Definition batches_of {B} (s : sched (sched B)) : list B :=
  flat_map elements (elements s).
