(** * C54: applying a transform graph to some of its inputs *)
From Coq Require Import String List Arith Bool Lia.
From Verif Require Import SortModel ServeModel ServeSpec ServeProofs ServeApply ServeExample.
Import ListNotations.
Local Open Scope string_scope.
Local Open Scope list_scope.

(** Inputs with unknown keys, and just those, are refused. *)
Theorem c54_unexpected : forall (value : Type) (run : nat -> list value -> option (list value)) choose supply batch_size_of g captured
    (compat : bool) st (inputs : list (string * list value)),
  (exists keys, apply_transform_model run choose supply batch_size_of g captured compat st inputs = Unexpected_inputs keys /\
     forall k, In k keys <-> In k (map fst inputs) /\ ~ In k (map fst (structured_inputs g))) <->
  exists k, In k (map fst inputs) /\ ~ In k (map fst (structured_inputs g)).
Proof. exact @unexpected_right. Qed.

(** The result has just the outputs that are computed from the given inputs, with their values, which
    do not depend on what is supplied for the others. *)
Theorem c54_outputs : forall (value : Type) (run : nat -> list value -> option (list value)) choose supply batch_size_of g captured
    (compat : bool) st inputs result,
  well_formed g -> well_supplied g supply -> List.length captured = List.length (internal_captures g) -> expected g inputs ->
  compat = true \/ is_finalized st = false ->
  apply_transform_model run choose supply batch_size_of g captured compat st inputs = Ok result ->
  right_outputs run g captured inputs result.
Proof. exact @apply_right. Qed.
Example c54_outputs_applies :
  well_formed (x_graph x_outputs) /\ well_supplied (x_graph x_outputs) x_supply /\ expected (x_graph x_outputs) x_inputs /\
  expected (x_graph x_outputs) [("x", [3])] /\
  apply_transform_model x_run x_choose x_supply x_batch_size (x_graph x_outputs) x_captured false initialize x_inputs
    = Ok [("a", [4]); ("b", [7; 108; 9]); ("c", [112])] /\
  apply_transform_model x_run x_choose x_supply x_batch_size (x_graph x_outputs) x_captured false initialize [("x", [3])] = Ok [("a", [4])] /\
  apply_transform_model x_run x_choose x_supply x_batch_size (x_graph x_outputs) x_captured true initialize [("s", [7; 8; 9])]
    = Ok [("b", [7; 108; 9])] /\
  apply_transform_model x_run x_choose x_supply x_batch_size (x_graph x_outputs) x_captured true initialize [("t", [3])] = Unexpected_inputs ["t"].
Proof. split; [exact x_outputs_formed|]. split; [apply x_well_supplied|]. split; [apply x_expected; now left|]. split; [apply x_expected; now right|]. repeat split. Qed.

(** Saved models of TensorFlow 1 return these outputs when no operation they need raises. *)
Theorem c54_compat_succeeds : forall (value : Type) (run : nat -> list value -> option (list value)) choose supply batch_size_of g captured st inputs,
  well_formed g -> List.length captured = List.length (internal_captures g) -> expected g inputs ->
  all_give run g captured inputs (map fst inputs) (computable g (map fst inputs)) ->
  exists result, apply_transform_model run choose supply batch_size_of g captured true st inputs = Ok result.
Proof. exact @compat_succeeds. Qed.
Example c54_compat_succeeds_applies :
  all_give x_run (x_graph x_raising) x_captured [("x", [3])] ["x"] (computable (x_graph x_raising) ["x"]).
Proof. exact x_raising_gives. Qed.

(** Those of TensorFlow 2 when no operation of the whole graph raises on the given and the supplied inputs. *)
Theorem c54_succeeds : forall (value : Type) (run : nat -> list value -> option (list value)) choose supply batch_size_of g captured st inputs,
  well_formed g -> well_supplied g supply -> List.length captured = List.length (internal_captures g) -> expected g inputs ->
  is_finalized st = false ->
  (forall n more, filled_in g supply n inputs more ->
     all_give run g captured (inputs ++ more) (map fst (structured_inputs g)) (fun _ => True)) ->
  exists result, apply_transform_model run choose supply batch_size_of g captured false st inputs = Ok result.
Proof. exact @not_finalized_succeeds. Qed.
Example c54_succeeds_applies :
  forall n more, filled_in (x_graph x_outputs) x_supply n [("x", [3])] more ->
    all_give x_run (x_graph x_outputs) x_captured ([("x", [3])] ++ more) ["x"; "s"] (fun _ => True).
Proof. exact x_outputs_give. Qed.

(** A loader can be finalized for outputs computed from the inputs, and for no others. *)
Theorem c54_finalize : forall (choose : list nat -> nat) g st ins outs, well_formed g ->
  ((exists st', finalize choose g st ins outs = (st', Ok tt)) <->
   forall name, In name outs -> exists components, In (name, components) (structured_outputs g) /\ computable g ins components) /\
  ((exists st', finalize choose g st ins outs = (st', Ok tt)) \/
   exists st' bad, finalize choose g st ins outs = (st', Unexpected_outputs bad)).
Proof. exact finalize_right. Qed.

(** It then returns just these outputs, with their values, for these inputs, and refuses others. *)
Theorem c54_finalized : forall (value : Type) (run : nat -> list value -> option (list value)) choose supply batch_size_of g captured st ins outs st' inputs,
  well_formed g -> well_supplied g supply -> List.length captured = List.length (internal_captures g) ->
  finalize choose g st ins outs = (st', Ok tt) -> expected g inputs ->
  let same := forall k, In k (map fst (structured_inputs g)) -> (In k ins <-> In k (map fst inputs)) in
  (same -> forall result, apply_transform_model run choose supply batch_size_of g captured false st' inputs = Ok result ->
     right_requested run g captured inputs result outs) /\
  (same -> (forall n more, filled_in g supply n inputs more ->
             all_give run g captured (inputs ++ more) (map fst (structured_inputs g)) (fun _ => True)) ->
     exists result, apply_transform_model run choose supply batch_size_of g captured false st' inputs = Ok result) /\
  (~ same -> apply_transform_model run choose supply batch_size_of g captured false st' inputs = Assertion_failed).
Proof. exact @finalized_right'. Qed.
Example c54_finalized_applies : exists st,
  finalize x_choose (x_graph x_outputs) initialize ["x"; "s"] ["c"; "a"] = (st, Ok tt) /\
  apply_transform_model x_run x_choose x_supply x_batch_size (x_graph x_outputs) x_captured false st x_inputs = Ok [("a", [4]); ("c", [112])] /\
  apply_transform_model x_run x_choose x_supply x_batch_size (x_graph x_outputs) x_captured false st [("x", [3])] = Assertion_failed /\
  exists st', finalize x_choose (x_graph x_outputs) st ["x"] ["c"; "a"] = (st', Unexpected_outputs ["c"]).
Proof. eexists. split; [reflexivity|]. split; [reflexivity|]. split; [reflexivity|]. eexists. reflexivity. Qed.

(** Full statement: an output that can be computed from the given inputs is returned. False: the
    loader of TensorFlow 2 saved models runs the whole graph on values made up for the missing inputs
    (zeros and empty strings), so it raises when another output cannot be computed from these, e.g. when
    it parses numbers. *)
Theorem c54_made_up_inputs_refuted : exists (run : nat -> list nat -> option (list nat)) choose supply batch_size_of g captured inputs,
  well_formed g /\ well_supplied g supply /\ List.length captured = List.length (internal_captures g) /\ expected g inputs /\
  (exists name components, In (name, components) (structured_outputs g) /\ computable g (map fst inputs) components) /\
  all_give run g captured inputs (map fst inputs) (computable g (map fst inputs)) /\
  apply_transform_model run choose supply batch_size_of g captured false initialize inputs = Raised.
Proof.
  exists x_run, x_choose, x_supply, x_batch_size, (x_graph x_raising), x_captured, [("x", [3])].
  split; [exact x_raising_formed|]. split; [apply x_well_supplied|]. split; [reflexivity|]. split; [apply x_expected; now right|].
  split; [exists "a", [(5, 0)]; split; [now left|exact (x_five_computable x_raising)]|]. split; [exact x_raising_gives|reflexivity].
Qed.

(** Full statement: a call to [finalize] that raises leaves the loader as it was. False: the inputs it
    was called with are kept, so that a loader finalized before refuses the inputs it was finalized for. *)
Theorem c54_failed_finalize_refuted : exists (run : nat -> list nat -> option (list nat)) choose supply batch_size_of g captured inputs st st' bad result,
  well_formed g /\ well_supplied g supply /\ List.length captured = List.length (internal_captures g) /\ expected g inputs /\
  finalize choose g initialize ["x"] ["a"] = (st, Ok tt) /\
  apply_transform_model run choose supply batch_size_of g captured false st inputs = Ok result /\
  finalize choose g st ["s"] ["a"] = (st', Unexpected_outputs bad) /\
  apply_transform_model run choose supply batch_size_of g captured false st' inputs = Assertion_failed.
Proof.
  exists x_run, x_choose, x_supply, x_batch_size, (x_graph x_outputs), x_captured, [("x", [3])].
  do 4 eexists. split; [exact x_outputs_formed|]. split; [apply x_well_supplied|]. split; [reflexivity|]. split; [apply x_expected; now right|].
  split; [reflexivity|]. split; [reflexivity|]. split; reflexivity.
Qed.

(** Full statement: an output returned for some inputs can be computed from them. False for saved models
    of TensorFlow 1: control dependencies are ignored when the outputs are chosen, so an output that
    waits for an operation on a missing input is asked for, and the call raises. *)
Theorem c54_control_dependencies_refuted : exists (run : nat -> list nat -> option (list nat)) choose supply batch_size_of g captured inputs all,
  well_formed g /\ List.length captured = List.length (internal_captures g) /\ expected g inputs /\ expected g all /\
  (forall name components, In (name, components) (structured_outputs g) -> computable g (map fst inputs) components) /\
  (exists result, apply_transform_model run choose supply batch_size_of g captured true initialize all = Ok result) /\
  apply_transform_model run choose supply batch_size_of g captured true initialize inputs = Raised.
Proof.
  exists x_run, x_choose, x_supply, x_batch_size, (x_graph x_waiting), x_captured, [("x", [3])], x_inputs.
  split; [exact x_waiting_formed|]. split; [reflexivity|]. split; [apply x_expected; now right|]. split; [apply x_expected; now left|].
  split; [intros name c [E|[]]; injection E as <- <-; exact (x_nine_computable x_waiting)|]. split; [eexists; reflexivity|reflexivity].
Qed.

Print Assumptions c54_unexpected.
Print Assumptions c54_outputs.
Print Assumptions c54_compat_succeeds.
Print Assumptions c54_succeeds.
Print Assumptions c54_finalize.
Print Assumptions c54_finalized.
Print Assumptions c54_made_up_inputs_refuted.
Print Assumptions c54_failed_finalize_refuted.
Print Assumptions c54_control_dependencies_refuted.
