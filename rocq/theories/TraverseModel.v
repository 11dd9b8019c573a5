(** * Traversal of the graph of operations

    Models /repo/tensorflow_transform/nodes.py:89-161 ([ValueNode],
    [OperationNode]) and nodes.py:234-320 ([Traverser]). *)
From Coq Require Import List Arith Bool.
Import ListNotations.

(** nodes.py:89-109: a [ValueNode] is a pair of an operation node and an output
    index.  Python compares operation nodes by identity; here an operation node
    is named by its position in the graph. *)
Notation value_node := (nat * nat)%type (only parsing).

(** nodes.py:112-161: an [OperationNode] has a definition and input
    [ValueNode]s; [num_outputs] (nodes.py:44-51) is a field of the definition.
    Simplification: the type checks of the constructor are not modelled. *)
Record op_node (D : Type) := OpNode {
  op_def : D;
  op_inputs : list value_node;
  op_nouts : nat
}.
Arguments OpNode {D}.
Arguments op_def {D}.
Arguments op_inputs {D}.
Arguments op_nouts {D}.

(** The operation nodes that exist in memory.  Python objects may be linked in
    any way, cycles included. *)
Definition graph (D : Type) := list (op_node D).

(** nodes.py:243-246: the fields of a [Traverser].  [visits] is a ghost field:
    the calls of [visitor.visit], oldest first. *)
Record traverser (V : Type) := Traverser {
  cached : list (value_node * V);
  stack : list nat;
  visits : list (nat * list V)
}.
Arguments Traverser {V}.
Arguments cached {V}.
Arguments stack {V}.
Arguments visits {V}.

(** nodes.py:236-246: the state of a new [Traverser]. *)
Definition new_traverser {V : Type} : traverser V := Traverser [] [] [].

(** What Python raises: the [AssertionError] of nodes.py:288-292, an error
    raised by the visitor itself or by its [validate_value], the [ValueError]
    of nodes.py:310-318, or [KeyError] at nodes.py:282. *)
Inductive error := CycleDetected (cycle : list nat) | VisitorError | WrongOutputs | KeyError.

(** The result of a call: a value, an exception, or, as an artefact of the
    model, an exhausted bound on the depth of recursion (shown unreachable). *)
Inductive result (V A : Type) :=
| Ok (a : A) (s : traverser V)
| Raised (e : error) (s : traverser V)
| TooDeep.
Arguments Ok {V A}.
Arguments Raised {V A}.
Arguments TooDeep {V A}.

(** Equality of value nodes (dataclass equality, nodes.py:89). *)
Definition value_node_eqb (a b : value_node) : bool :=
  Nat.eqb (fst a) (fst b) && Nat.eqb (snd a) (snd b).

(** Dictionary lookup in [_cached_value_nodes_values]. *)
Fixpoint lookup {V : Type} (k : value_node) (d : list (value_node * V)) : option V :=
  match d with
  | [] => None
  | (k', v) :: d => if value_node_eqb k k' then Some v else lookup k d
  end.

(** [self._stack[self._stack.index(operation):]] (nodes.py:289), with the stack
    kept innermost first: the part of the stack down to the operation,
    outermost first. *)
Fixpoint stack_from (op : nat) (stack acc : list nat) : list nat :=
  match stack with
  | [] => acc
  | o :: rest => if Nat.eqb o op then o :: acc else stack_from op rest (o :: acc)
  end.

(** [tuple(map(f, l))] (nodes.py:294) where [f] works on the traverser. *)
Fixpoint map_state {V A B : Type} (f : traverser V -> A -> result V B)
    (s : traverser V) (l : list A) : result V (list B) :=
  match l with
  | [] => Ok [] s
  | a :: l =>
      match f s a with
      | Ok b s =>
          match map_state f s l with
          | Ok bs s => Ok (b :: bs) s
          | Raised e s => Raised e s
          | TooDeep => TooDeep
          end
      | Raised e s => Raised e s
      | TooDeep => TooDeep
      end
  end.

Section Visit.
Context {D V : Type}.

(** The visitor: [visit] (nodes.py:206-230) followed by [validate_value] on
    each value (nodes.py:319); [None] when either raises.  Simplification: the
    visitor is a function of its arguments; the visitors in the code that keep
    state are modelled in the files of the areas that use them. *)
Variable visit : D -> list V -> option (list V).
Variable g : graph D.

(** nodes.py:284-320 with the recursive call [visit_value] as a parameter. *)
Definition visit_operation (visit_value : traverser V -> value_node -> result V V)
    (s : traverser V) (op : nat) : result V unit :=
  if existsb (Nat.eqb op) (stack s) then
    Raised (CycleDetected (stack_from op (stack s) [] ++ [op])) s
  else
    match nth_error g op with
    | None => Raised KeyError s
    | Some node =>
        match map_state visit_value
                (Traverser (cached s) (op :: stack s) (visits s)) (op_inputs node) with
        | Ok input_values s =>
            let s := Traverser (cached s) (tl (stack s)) (visits s ++ [(op, input_values)]) in
            match visit (op_def node) input_values with
            | None => Raised VisitorError s
            | Some output_values =>
                if Nat.eqb (length output_values) (op_nouts node) then
                  Ok tt (Traverser
                           (combine (map (pair op) (seq 0 (op_nouts node))) output_values
                              ++ cached s)
                           (stack s) (visits s))
                else Raised WrongOutputs s
            end
        | Raised e s => Raised e s
        | TooDeep => TooDeep
        end
    end.

(** nodes.py:267-282 ([_maybe_visit_value_node]).  [depth] bounds the nesting of
    calls. *)
Fixpoint maybe_visit_value_node (depth : nat) (s : traverser V) (vn : value_node)
    : result V V :=
  match lookup vn (cached s) with
  | Some v => Ok v s
  | None =>
      match depth with
      | O => TooDeep
      | S depth =>
          match visit_operation (maybe_visit_value_node depth) s (fst vn) with
          | Ok _ s =>
              match lookup vn (cached s) with
              | Some v => Ok v s
              | None => Raised KeyError s
              end
          | Raised e s => Raised e s
          | TooDeep => TooDeep
          end
      end
  end.

(** nodes.py:253-265 ([visit_value_node]): the depth of recursion is bounded by
    the number of operations in the graph, plus one for the call that detects a
    cycle. *)
Definition visit_value_node (s : traverser V) (vn : value_node) : result V V :=
  maybe_visit_value_node (S (length g)) s vn.

(** Several calls on one traverser, as analysis_graph_builder.py:707-715 does
    for the sinks of one phase. *)
Definition visit_value_nodes (s : traverser V) (vns : list value_node) : result V (list V) :=
  map_state visit_value_node s vns.

End Visit.
