(** * C49: contexts scope dynamically, per thread *)
From Coq Require Import String List ZArith.
From Verif Require Import CacheKeyModel ContextModel ContextSpec ContextProofs.
Import ListNotations.
Open Scope string_scope.

(** Threads run any programs, under any schedule.  A thread that gets enough steps ends,
    and has then seen what dynamic scoping says: every getter gives the value of the
    innermost `with` block around it that sets it, and the default if none does,
    whatever blocks were left before, normally or by an exception, and whatever the
    other threads do.  The thread calls the getters of the graph context inside its
    blocks, and constructs a context before it enters one constructed elsewhere. *)
Theorem c49_dynamic_scoping : forall tf1 (programs : nat -> prog) i,
  graph_getters_inside false (programs i) -> constructs_first (programs i) ->
  exists n, forall schedule, n <= times i schedule ->
    let t := run_schedule tf1 (start_all programs) schedule i in
    control t = [] /\ (trace t, raising t) = meaning tf1 (programs i) [] None.
Proof. exact scoping. Qed.

Definition outer := Settings (Some "/tmp") (Some 10%Z) None (Some true) None (Some 7).
Definition inner := Settings None (Some 20%Z) (Some ["key"]) (Some false) None None.
Definition example_program : prog :=
  WithNew outer
    (Get BatchSize
      (Try (WithOld inner
              (Get BatchSize (Get PassthroughKeys (Get UseDeepCopy (Get SaveOptions Raise)))) Done)
           (Get BatchSize (Get PassthroughKeys (Get UseDeepCopy Done)))
        (WithGraph (GraphSettings 3 (Some "/g/") None)
           (Get ModuleToExport (Get GraphTempDir
             (Try (WithGraph (GraphSettings 4 None None) Done Done) (Get ModuleToExport Done) Done)))
           (Get BaseTempDir Done))))
    (Get BatchSize (Get BaseTempDir Done)).

Example c49_applies :
  graph_getters_inside false example_program /\ constructs_first example_program /\
  meaning false example_program [] None
  = ([Value (IntV 10); Value (IntV 20); Value (KeysV ["key"]); Value (BoolV false);
      Value (ObjectV 7); Caught OtherError; Value (IntV 10); Value (KeysV []); Value (BoolV true);
      Value (ObjectV 3); Value (PathV (text "/g/analyzer_temporary_assets"));
      Caught AssertionError; Value (ObjectV 3); Value (PathV (text "/tmp/tftransform_tmp"));
      Value NoneV],
     Some ValueError) /\
  let t := run_schedule false (start_all (fun _ => example_program))
             (concat (repeat [0; 1; 1] 40)) 0 in
  (trace t, raising t) = meaning false example_program [] None.
Proof.
  split; [cbn; tauto|]. split; [exact I|]. split; vm_compute; reflexivity.
Qed.

(** Without any assumption on its program, what a thread sees depends on its own
    program and steps only. *)
Theorem c49_threads_independent : forall tf1 programs programs' schedule schedule' i,
  programs i = programs' i -> times i schedule = times i schedule' ->
  run_schedule tf1 (start_all programs) schedule i = run_schedule tf1 (start_all programs') schedule' i.
Proof. exact independent. Qed.

(** `get_module_to_export` is documented to give `None` outside a scope.  Once the thread
    has left a scope, it raises an `AttributeError`. *)
Theorem c49_after_graph_scope_refuted : exists p, constructs_first p /\
  meaning false p [] None = ([Value NoneV; Value NoneV], None) /\
  let t := run_schedule false (start_all (fun _ => p)) (repeat 0 20) 0 in
  control t = [] /\ trace t = [Value NoneV] /\ raising t = Some AttributeError.
Proof.
  exists (Get ModuleToExport
           (WithGraph (GraphSettings 1 None None) Done (Get ModuleToExport Done))).
  split; [cbn; tauto|]. vm_compute. auto.
Qed.

(** A context constructed in one thread cannot be entered in another thread that has
    constructed none: `__enter__` raises an `AttributeError`. *)
Theorem c49_other_thread_refuted : exists p, graph_getters_inside false p /\
  meaning false p [] None = ([Value (IntV 10)], None) /\
  let t := run_schedule false (start_all (fun i => match i with 0 => New outer Done | _ => p end))
             (repeat 0 5 ++ repeat 1 20)%list 1 in
  control t = [] /\ trace t = [] /\ raising t = Some AttributeError.
Proof.
  exists (WithOld outer (Get BatchSize Done) Done). split; [cbn; intuition discriminate|].
  vm_compute. auto.
Qed.

Print Assumptions c49_dynamic_scoping.
Print Assumptions c49_threads_independent.
Print Assumptions c49_after_graph_scope_refuted.
Print Assumptions c49_other_thread_refuted.
