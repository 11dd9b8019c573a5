(** * Applying a saved transform graph to some of its inputs

    Models `SavedModelLoader` of /repo/tensorflow_transform/saved/saved_transform_io_v2.py and
    `retrieve_sources` of /repo/tensorflow_transform/graph_tools.py. *)
From Coq Require Import String List Arith Bool.
From Verif Require Import SortModel.
Import ListNotations.
Local Open Scope list_scope.
Local Notation length := List.length.

(** A tensor: the operation that computes it, and which of its outputs it is. *)
Definition tensor : Type := nat * nat.
Definition tensor_eqb (a b : tensor) : bool := (fst a =? fst b) && (snd a =? snd b).

(** tf.Operation, as far as it is read here: [op.type == "Placeholder"], [op.inputs],
    [op.control_inputs] and the number of [op.outputs]. *)
Record operation := Operation {
  is_placeholder : bool;
  op_inputs : list tensor;
  control_inputs : list nat;
  outputs_count : nat }.

(** FuncGraph: its operations in an order in which they can run, [structured_inputs] (a dict from
    keys to the components of a possibly composite tensor), the placeholders of [internal_captures]
    and [structured_outputs]. *)
Record func_graph := FuncGraph {
  operations : list operation;
  structured_inputs : list (string * list tensor);
  internal_captures : list tensor;
  structured_outputs : list (string * list tensor) }.

Definition operation_at (g : func_graph) (i : nat) : operation :=
  nth i (operations g) (Operation false [] [] 0).

(** tf.nest.flatten and tf.nest.pack_sequence_as order the keys of a dict. *)
Definition by_key {A} (d : list (string * A)) : list (string * A) := py_sorted (fun a b => bytes_leb (fst a) (fst b)) d.
Definition flatten {A} (d : list (string * list A)) : list A := flat_map snd (by_key d).

(** FuncGraph.inputs: regular inputs followed by captured ones (tf2_utils.py:210-238) *)
Definition graph_inputs (g : func_graph) : list tensor := flatten (structured_inputs g) ++ internal_captures g.

Definition has_key {A} (d : list (string * A)) (k : string) : bool := existsb (fun e => String.eqb (fst e) k) d.
Definition find_key {A} (d : list (string * list A)) (k : string) : list A :=
  match find (fun e => String.eqb (fst e) k) d with Some e => snd e | None => [] end.
Definition mem_tensor (t : tensor) (l : list tensor) : bool := existsb (tensor_eqb t) l.
Definition mem_nat (i : nat) (l : list nat) : bool := existsb (Nat.eqb i) l.

(** What the calls return or raise. *)
Inductive outcome (A : Type) : Type :=
| Ok (a : A)
| Unexpected_inputs (keys : list string)    (* ValueError *)
| Unexpected_outputs (keys : list string)   (* ValueError *)
| Assertion_failed                          (* AssertionError *)
| Raised.                                   (* an operation, or TensorFlow itself, raised *)
Arguments Ok {A}. Arguments Unexpected_inputs {A}. Arguments Unexpected_outputs {A}. Arguments Assertion_failed {A}. Arguments Raised {A}.

Section Loader.
Context {value : Type}.
(** What an operation computes from its inputs; [None] when it raises. *)
Variable run : nat -> list value -> option (list value).
(** Which element [set.pop] removes. *)
Variable choose : list nat -> nat.
(** The components of the tensor supplied for a missing key, for a batch size
    (tf2_utils.py:107-207 [supply_missing_inputs]). *)
Variable supply : nat -> string -> list value.
(** saved_transform_io_v2.py:357-364: the batch size of an input *)
Variable batch_size_of : list value -> nat.
Variable g : func_graph.
(** The values of the captured tensors: tables and other resources. *)
Variable captured : list value.

(** graph_tools.py:94-130 [retrieve_sources] *)
Fixpoint walk (fuel : nat) (ignore_control_dependencies : bool) (ops_to_visit visited_ops : list nat)
    (potential_extra_sources : list tensor) : list tensor :=
  match fuel with
  | 0 => potential_extra_sources
  | S fuel' =>
      match ops_to_visit with
      | [] => potential_extra_sources
      | first :: _ =>
          let op := nth (choose ops_to_visit) ops_to_visit first in
          let ops_to_visit1 := filter (fun i => negb (i =? op)) ops_to_visit in
          let visited_ops1 := op :: visited_ops in
          let o := operation_at g op in
          let sources1 := if is_placeholder o then potential_extra_sources ++ map (pair op) (seq 0 (outputs_count o))
                          else potential_extra_sources in
          let input_ops := map fst (op_inputs o) ++ (if ignore_control_dependencies then [] else control_inputs o) in
          let ops_to_visit2 :=
            fold_left (fun s i => if mem_nat i visited_ops1 || mem_nat i s then s else i :: s) input_ops ops_to_visit1 in
          walk fuel' ignore_control_dependencies ops_to_visit2 visited_ops1 sources1
      end
  end.
Definition as_set (l : list nat) : list nat := fold_right (fun i s => if mem_nat i s then s else i :: s) [] l.
(** Every operation is visited once, so there are as many steps as operations at most. *)
Definition retrieve_sources (sinks : list nat) (ignore_control_dependencies : bool) : list tensor :=
  walk (length (operations g)) ignore_control_dependencies (as_set sinks) [] [].

(** saved_transform_io_v2.py:111-125 [_get_output_to_inputs_map], of one output *)
Definition output_to_inputs (components : list tensor) : list tensor := retrieve_sources (map fst components) true.

(** saved_transform_io_v2.py:208-216 [_get_feeds] *)
Definition get_feeds (unfed_input_keys : list string) : list tensor :=
  filter (fun t => negb (mem_tensor t (flat_map (find_key (structured_inputs g)) unfed_input_keys))) (graph_inputs g).

(** saved_transform_io_v2.py:218-219 [_get_unfed_input_keys] *)
Definition get_unfed_input_keys (input_tensor_keys : list string) : list string :=
  filter (fun k => negb (existsb (String.eqb k) input_tensor_keys)) (map fst (structured_inputs g)).

(** saved_transform_io_v2.py:221-232 [_get_fetches] *)
Definition get_fetches (feeds : list tensor) : list (string * list tensor) :=
  filter (fun output => forallb (fun s => mem_tensor s feeds || mem_tensor s (internal_captures g))
                                (output_to_inputs (snd output)))
         (structured_outputs g).

(** ** Running a function
    Operations run in order; an operation runs when its inputs and control inputs have run. [None]:
    it has raised, or something it waits for has. Simplified: no loops, and operations have no state. *)
Definition input_value (env : list (option (list value))) (t : tensor) : option value :=
  match nth_error env (fst t) with Some (Some vs) => nth_error vs (snd t) | _ => None end.
Fixpoint all_some {A} (l : list (option A)) : option (list A) :=
  match l with
  | [] => Some []
  | None :: _ => None
  | Some a :: l' => match all_some l' with Some r => Some (a :: r) | None => None end
  end.
Definition has_run (env : list (option (list value))) (i : nat) : bool :=
  match nth_error env i with Some (Some _) => true | _ => false end.
Definition run_operation (feed : tensor -> option value) (env : list (option (list value))) (i : nat) (o : operation)
  : option (list value) :=
  if is_placeholder o then match feed (i, 0) with Some v => Some [v] | None => None end
  else if forallb (has_run env) (control_inputs o) then
    match all_some (map (input_value env) (op_inputs o)) with Some vs => run i vs | None => None end
  else None.
Fixpoint run_operations (feed : tensor -> option value) (env : list (option (list value))) (ops : list operation)
  : list (option (list value)) :=
  match ops with
  | [] => env
  | o :: ops' => run_operations feed (env ++ [run_operation feed env (length env) o]) ops'
  end.
Definition feed_of (pairs : list (tensor * value)) (t : tensor) : option value :=
  match find (fun e => tensor_eqb (fst e) t) pairs with Some e => Some (snd e) | None => None end.
(** The call raises when one of the fetched tensors cannot be computed. *)
Definition run_function (pairs : list (tensor * value)) (fetches : list (string * list tensor))
  : option (list (string * list value)) :=
  let env := run_operations (feed_of pairs) [] (operations g) in
  all_some (map (fun output => match all_some (map (input_value env) (snd output)) with
                               | Some vs => Some (fst output, vs)
                               | None => None
                               end) fetches).

(** Calling [self._wrapped_function] with the flattened inputs: all the outputs are computed. *)
Definition wrapped_function (flattened_inputs : list value) : option (list (string * list value)) :=
  if length flattened_inputs =? length (flatten (structured_inputs g)) then
    run_function (combine (graph_inputs g) (flattened_inputs ++ captured)) (structured_outputs g)
  else None.

(** {key: transformed_features[key] for key in keys} *)
Definition select (transformed_features : list (string * list value)) (keys : list string) : list (string * list value) :=
  map (fun k => (k, find_key transformed_features k)) keys.

(** saved_transform_io_v2.py:237-246 [_get_missing_inputs] *)
Definition get_missing_inputs (unfed_input_keys : list string) (batch_size : nat) : list (string * list value) :=
  map (fun k => (k, supply batch_size k)) unfed_input_keys.

(** saved_transform_io_v2.py:248-292 [_apply_v1_transform_model_in_v2], with
    saved_transform_io.py:126-167 [_expand_input_map]: the function is pruned to what the fetches need.
    The inputs have the expected types and shapes here and below. *)
Definition apply_v1_transform_model_in_v2 (logical_input_map : list (string * list value)) : outcome (list (string * list value)) :=
  let input_map := flat_map (fun e => combine (find_key (structured_inputs g) (fst e)) (snd e)) logical_input_map in
  let feeds := map fst input_map in
  match run_function (input_map ++ combine (internal_captures g) captured) (get_fetches feeds) with
  | Some r => Ok r
  | None => Raised
  end.

(** saved_transform_io_v2.py:332-383 [_apply_v2_transform_model] *)
Definition apply_v2_transform_model (logical_input_map : list (string * list value)) : outcome (list (string * list value)) :=
  let unfed_input_keys := get_unfed_input_keys (map fst logical_input_map) in
  let feeds := get_feeds unfed_input_keys in
  let modified_inputs :=
    match unfed_input_keys with
    | [] => logical_input_map
    | _ =>
        let batch_size := match logical_input_map with [] => 1 | an_input :: _ => batch_size_of (snd an_input) end in
        logical_input_map ++ get_missing_inputs unfed_input_keys batch_size
    end in
  match wrapped_function (flatten modified_inputs) with
  | Some transformed_features => Ok (select transformed_features (map fst (get_fetches feeds)))
  | None => Raised
  end.

(** The attributes a call to [finalize] changes. [finalized]: the missing and the fetched keys of
    [_wrapped_function_finalized]. *)
Record state := State {
  sorted_unfed_input_keys : option (list string);
  finalized : option (list string * list string);
  is_finalized : bool }.
(** saved_transform_io_v2.py:179-198 [_initialize] *)
Definition initialize : state := State None None false.

(** saved_transform_io_v2.py:416-440 [_finalize_wrapped_function]: the function, which accepts just
    the keys of its signature *)
Definition wrapped_finalized (unfed_input_keys fetches_keys : list string) (inputs : list (string * list value))
  : option (list (string * list value)) :=
  let signature := filter (fun k => negb (existsb (String.eqb k) unfed_input_keys)) (map fst (structured_inputs g)) in
  if forallb (has_key inputs) signature && forallb (fun e => existsb (String.eqb (fst e)) signature) inputs then
    match wrapped_function (flatten (inputs ++ get_missing_inputs unfed_input_keys 1)) with
    | Some transformed_features => Some (select transformed_features fetches_keys)
    | None => None
    end
  else None.

Definition keys_eqb (a b : list string) : bool := if list_eq_dec string_dec a b then true else false.

(** saved_transform_io_v2.py:304-330 [_apply_v2_transform_model_finalized] *)
Definition apply_v2_transform_model_finalized (st : state) (logical_input_map : list (string * list value))
  : outcome (list (string * list value)) :=
  let unfed_input_keys := get_unfed_input_keys (map fst logical_input_map) in
  match sorted_unfed_input_keys st with
  | Some sorted_unfed =>
      if keys_eqb (py_sorted bytes_leb unfed_input_keys) sorted_unfed then
        match finalized st with
        | Some (unfed, fetches) =>
            match wrapped_finalized unfed fetches logical_input_map with Some r => Ok r | None => Raised end
        | None => Raised
        end
      else Assertion_failed
  | None => Assertion_failed
  end.

(** saved_transform_io_v2.py:385-414 [apply_transform_model] *)
Definition apply_transform_model (load_v2_in_compat : bool) (st : state) (logical_input_map : list (string * list value))
  : outcome (list (string * list value)) :=
  match filter (fun k => negb (has_key (structured_inputs g) k)) (map fst logical_input_map) with
  | (_ :: _) as unexpected_inputs => Unexpected_inputs unexpected_inputs
  | [] =>
      if load_v2_in_compat then apply_v1_transform_model_in_v2 logical_input_map
      else if is_finalized st then apply_v2_transform_model_finalized st logical_input_map
      else apply_v2_transform_model logical_input_map
  end.

(** saved_transform_io_v2.py:443-473 [finalize] *)
Definition finalize (st : state) (input_tensor_keys output_tensor_keys : list string) : state * outcome unit :=
  let sorted_unfed := py_sorted bytes_leb (get_unfed_input_keys input_tensor_keys) in
  let st1 := State (Some sorted_unfed) (finalized st) (is_finalized st) in
  let feeds := get_feeds sorted_unfed in
  match filter (fun k => negb (has_key (get_fetches feeds) k)) output_tensor_keys with
  | (_ :: _) as unexpected_outputs => (st1, Unexpected_outputs unexpected_outputs)
  | [] => (State (Some sorted_unfed) (Some (sorted_unfed, py_sorted bytes_leb output_tensor_keys)) true, Ok tt)
  end.
End Loader.
