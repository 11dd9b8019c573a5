(** * Histories used in the examples of C56 *)
From Coq Require Import String List.
From Verif Require Import PyFuncModel PyFuncSpec.
Import ListNotations.
Local Open Scope string_scope.

(** Two functions, true and false. A graph with both is saved, loaded into a graph of another process (twice in
    TensorFlow 1, once in TensorFlow 2). *)
Definition two_loads : list (action (func := bool)) :=
  [New_process; New_graph 0; Apply_pyfunc 0 true true "a"; Add_operation 0 "c" "Add"; Apply_pyfunc 0 false false "b"; Save 0;
   New_process; Register_elsewhere 1 true; New_graph 1; Load 1 0; Load 1 0; Load_v2 1 0].
(** All in one process, with a graph that is loaded and saved again. *)
Definition same_process : list (action (func := bool)) :=
  [New_process; New_graph 0; Apply_pyfunc 0 true true "a"; Apply_pyfunc 0 false true "b"; Save 0;
   Register_elsewhere 0 true; New_graph 0; Load 1 0; Save 1; New_graph 0; Load 2 1].
(** The graph of a preprocessing function is saved where the pipeline is built, completed in a worker, in which
    another function was registered, and loaded in another worker. *)
Definition analyze_and_transform : list (action (func := bool)) :=
  [New_process; New_graph 0; Apply_pyfunc 0 true true "a"; Apply_pyfunc 0 false true "b"; Save 0;
   New_process; Register_elsewhere 1 true; New_graph 1; Load 1 0; Save 1;
   New_process; New_graph 2; Load 2 1].
Definition in_a_function : list (action (func := bool)) :=
  [New_process; New_graph 0; Apply_in_function 0 true "a"; Save 0; New_process; Register_elsewhere 1 false; New_graph 1; Load 1 0].

Definition world_of (l : list (action (func := bool))) : world := match perform_all nothing l with Returned w => w | Raised => nothing end.
(** Where a node [n] made for true calls false. *)
Lemma wrong_call w j g n p : nth_error (w_graphs w) j = Some g -> nth_error (w_processes w) (g_process g) = Some p ->
  In n (g_nodes g) -> made_for n = Some true -> registry p (n_token n) = Some false -> ~ all_right w.
Proof.
  intros A B C D E [R _]. destruct (R g n (nth_error_In _ _ A) C true D) as (p' & B' & E'). rewrite B in B'. injection B' as <-. rewrite E in E'. discriminate.
Qed.
