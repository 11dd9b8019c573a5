(** * Tracing a preprocessing function again (TensorFlow 2)

    Models /repo/tensorflow_transform/analyzer_nodes.py:245-316
    ([_bind_future_as_tensor_v2]), graph_tools.py:991-1054 ([_retrieve_source_keys],
    [get_analyzers_fingerprint]), impl_helper.py:556-595
    ([_validate_analyzers_fingerprint]) and impl_helper.py:598-674
    ([trace_and_write_v2_saved_model]). *)
From Coq Require Import String Ascii List Bool Arith DecimalString.
Import ListNotations.
Local Open Scope list_scope.

(** A traced preprocessing function: tensors are inputs, results of operations, or
    the result of an analyzer call, by its position in the order of calls. *)
Inductive tensor :=
| Input (key : string)
| Apply (op : nat) (args : list tensor)
| Result (call : nat).

(** A call of an analyzer: the name of its scope (given by the user or the name of
    the function called), which analyzer it is with all its parameters, and the
    tensors it reads. *)
Record call := Call { scope : string; analyzer_id : nat; sources : list tensor }.
Record program := Program { calls : list call; outputs : list (string * tensor) }.

(** ** Names in a graph *)

(** TensorFlow's [Graph.unique_name], not in /repo: names are used up to case; a
    name in use gets the first suffix that is free, counting from the number of
    times it was asked for. *)
Definition lower_char (c : ascii) : ascii :=
  let n := nat_of_ascii c in
  if (65 <=? n) && (n <=? 90) then ascii_of_nat (n + 32) else c.
Fixpoint lower (s : string) : string :=
  match s with
  | EmptyString => EmptyString
  | String c s => String (lower_char c) (lower s)
  end.
Definition decimal (n : nat) : string := NilZero.string_of_uint (Nat.to_uint n).
Definition with_suffix (name : string) (i : nat) : string := (name ++ "_" ++ decimal i)%string.

Fixpoint lookup {A : Type} (k : string) (d : list (string * A)) : option A :=
  match d with
  | [] => None
  | (k', v) :: d => if String.eqb k k' then Some v else lookup k d
  end.

Fixpoint free_suffix (fuel : nat) (used : list (string * nat)) (key : string) (i : nat) : nat :=
  match fuel with
  | O => i
  | S fuel =>
      match lookup (with_suffix key i) used with
      | Some _ => free_suffix fuel used key (S i)
      | None => i
      end
  end.

Definition unique_name (used : list (string * nat)) (name : string) : string * list (string * nat) :=
  let key := lower name in
  match lookup key used with
  | None => (name, (key, 1) :: used)
  | Some n =>
      let used := (key, S n) :: used in
      let i := free_suffix (S (List.length used)) used key n in
      (with_suffix name i, (with_suffix key i, 1) :: used)
  end.

(** The names of the calls in the order of tracing: the temporary tensor of a call
    is named by its scope, which is unique.  Simplifications: each call has one
    output; other operations do not use the names of scopes. *)
Fixpoint call_names (used : list (string * nat)) (cs : list call) : list string :=
  match cs with
  | [] => []
  | c :: cs =>
      let (name, used) := unique_name used (scope c) in
      name :: call_names used cs
  end.

(** ** Fingerprints *)

(** graph_tools.py:94-130, 991-1006: the keys of the inputs that a tensor depends
    on; results of analyzers are placeholders with a default, or constants, and
    have no keys. *)
Fixpoint source_keys (t : tensor) : list string :=
  match t with
  | Input key => [key]
  | Apply _ args => flat_map source_keys args
  | Result _ => []
  end.
Definition call_source_keys (c : call) : list string := flat_map source_keys (sources c).

(** Equality of sets. *)
Definition subset (a b : list string) : bool := forallb (fun k => existsb (String.eqb k) b) a.
Definition same_keys (a b : list string) : bool := subset a b && subset b a.

(** A Python dict made from pairs: the last wins. *)
Definition dict_of {A : Type} (pairs : list (string * A)) : list (string * A) := rev pairs.

(** graph_tools.py:1015-1054 ([get_analyzers_fingerprint]), without hashes of paths:
    when these differ a warning is logged (impl_helper.py:584-595). *)
Definition fingerprint (p : program) : list (string * list string) :=
  dict_of (combine (call_names [] (calls p)) (map call_source_keys (calls p))).

(** impl_helper.py:556-583: [true] when no exception is raised. *)
Definition validate (baseline : list (string * list string)) (p : program) : bool :=
  forallb (fun name =>
    match lookup name baseline, lookup name (fingerprint p) with
    | Some ks, Some ks' => same_keys ks ks'
    | _, _ => false
    end) (call_names [] (calls p)).

(** ** Values *)
Section Values.
Context {V : Type}.
Variable op_value : nat -> list V -> V.
Variable analyze : nat -> list (list V) -> V.
Variable missing : V.

(** The value of a tensor in a batch, when the results of calls are [results]. *)
Fixpoint value (batch : string -> V) (results : list V) (t : tensor) : V :=
  match t with
  | Input key => batch key
  | Apply op args => op_value op (map (value batch results) args)
  | Result i => nth i results missing
  end.

(** The results of the analyzers of the function as first traced, on a dataset, in
    the order of calls.  The phases in which they are evaluated are the matter of
    FullPassModel. *)
Fixpoint run_calls (dataset : list (string -> V)) (results : list V) (cs : list call) : list V :=
  match cs with
  | [] => results
  | c :: cs =>
      run_calls dataset
        (results ++ [analyze (analyzer_id c) (map (fun b => map (value b results) (sources c)) dataset)]) cs
  end.
Definition analyzer_results (dataset : list (string -> V)) (p : program) : list V :=
  run_calls dataset [] (calls p).

(** impl.py:592-606: the results by name. *)
Definition evaluated_replacements (dataset : list (string -> V)) (p : program) : list (string * V) :=
  dict_of (combine (call_names [] (calls p)) (analyzer_results dataset p)).

(** analyzer_nodes.py:277-316: a call gets the result with the name of its
    tensor, or a temporary value. *)
Definition bound_results (replacements : list (string * V)) (p : program) : list V :=
  map (fun name => match lookup name replacements with Some v => v | None => missing end)
      (call_names [] (calls p)).

(** impl_helper.py:598-674: the function is traced again as [again], with the
    results of the analyzers of [first]; [None]: RuntimeError. *)
Definition write_and_transform (dataset : list (string -> V)) (first again : program) (batch : string -> V)
    : option (list (string * V)) :=
  if validate (fingerprint first) again then
    Some (map (fun kt => (fst kt, value batch
            (bound_results (evaluated_replacements dataset first) again) (snd kt))) (outputs again))
  else None.

End Values.
