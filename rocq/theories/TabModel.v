(** * Lookups in vocabularies while analyzers are pending
    /repo/tensorflow_transform/tf_utils.py:2080-2212, with analyzer_nodes.py:185-328 (binding of futures), as
    mappers.py:1252-1290 (apply_vocabulary) uses them.
    A preprocessing function is the list of its vocabularies and lookups, in order; other operations are left out. *)
From Coq Require Import String List Bool Arith.
Import ListNotations.

(** The path of a lookup: a string of the function's, or the output of a vocabulary *)
Inductive argument := Static (s : string) | Deferred (n : nat).
Inductive stage := Vocabulary (n : nat) | Apply (p : argument).

(** A path at tracing: a python string, an eager tensor, or a graph tensor, the placeholder of an analyzer *)
Inductive path := Str (s : string) | Eager (s : string) | Graph_tensor (n : nat).
(** Where a table is read from: a file known when tracing, or the value of a graph tensor *)
Inductive source := File (s : string) | Value_of (n : nat).
(** A lookup: its table, the tensor it waits for, and whether the table is made outside the function; the size of the table is read
    from the same source, and waits for nothing. *)
Record lookup := Lookup { table : source; control_dependency : option nat; lifted : bool }.

Section model.
  (** tf.inside_function(): TF2 *)
  Variable inside_function : bool.
  (** Results of analyzers in earlier phases (TFGraphContext.get_evaluated_replacements) *)
  Variable evaluated : nat -> option string.
  (** Temporary files of pending analyzers *)
  Variable temporary : nat -> string.

  (** The collection _ASSET_REPLACEMENTS: graph tensors and their temporary files *)
  Definition collection := list (nat * string).

  (** bind_future_as_tensor, analyzer_nodes.py:287-317, 319-328; in TF1 the placeholder is neither replaced nor tracked. *)
  Definition bind (coll : collection) (n : nat) : collection :=
    if inside_function then match evaluated n with Some _ => coll | None => coll ++ [(n, temporary n)] end else coll.
  Definition bound (p : argument) : path :=
    match p with
    | Static s => Str s
    | Deferred n => if inside_function then match evaluated n with Some s => Eager s | None => Graph_tensor n end else Graph_tensor n
    end.

  (** dict(collection).get(...): the last one *)
  Fixpoint get (coll : collection) (n : nat) : option string :=
    match coll with
    | [] => None
    | (m, s) :: rest => match get rest n with Some s' => Some s' | None => if m =? n then Some s else None end
    end.
  (** _get_asset_analyzer_output_and_control_dependency, 2090-2111; [None]: the ValueError *)
  Definition asset_and_control (coll : collection) (p : path) : option (path * option nat) :=
    match coll with
    | [] => Some (p, None)
    | _ =>
      match p with
      | Str _ => None
      | Eager s => Some (Eager s, None)
      | Graph_tensor n => match get coll n with Some s => Some (Eager s, Some n) | None => Some (Graph_tensor n, None) end
      end
    end.
  (** construct_and_lookup_table, 2132-2167, and _lookup_table, 2114-2129 *)
  Definition construct_and_lookup_table (coll : collection) (p : path) : option lookup :=
    match asset_and_control coll p with
    | None => None
    | Some (p, control) =>
      Some match p with
        | Str s | Eager s => Lookup (File s) control inside_function
        | Graph_tensor n => Lookup (Value_of n) control false
        end
    end.

  (** Tracing: the lookups, in order *)
  Fixpoint trace (coll : collection) (fn : list stage) : option (list (argument * lookup)) :=
    match fn with
    | [] => Some []
    | Vocabulary n :: rest => trace (bind coll n) rest
    | Apply p :: rest =>
      match construct_and_lookup_table coll (bound p), trace coll rest with
      | Some l, Some ls => Some ((p, l) :: ls)
      | _, _ => None
      end
    end.
End model.
