(** * Automatic control dependencies of outputs, stripped
    /repo/tensorflow_transform/tf2_utils.py:43-71 (strip_and_get_tensors_and_control_dependencies), as
    inspect_preprocessing_fn.py:67-83 and saved/saved_transform_io_v2.py:486-494 use it. *)
From Coq Require Import List Bool Arith.
Import ListNotations.

Section model.
  Variable V : Type.
  (** The type of an operation: Identity, or another with what it computes of the values of its inputs (None: it fails) *)
  Inductive op_type := Identity | Other (f : list V -> option (list V)).
  (** A tensor: an operation and which of its outputs *)
  Definition tensor : Type := nat * nat.
  Record op := Op { type : op_type; inputs : list tensor; control_inputs : list nat }.
  Definition graph := nat -> op.

  (** tensor.op.type == "Identity" and len(tensor.op.inputs) == 1, 61-64 *)
  Definition is_identity (g : graph) (t : tensor) : bool :=
    match type (g (fst t)) with Identity => List.length (inputs (g (fst t))) =? 1 | Other _ => false end.
  (** 61-71; the set of operations as a list *)
  Definition strip (g : graph) (flat_tensor_list : list tensor) : list tensor * list nat :=
    if forallb (is_identity g) flat_tensor_list then
      (map (fun t => hd t (inputs (g (fst t)))) flat_tensor_list,
       nodup Nat.eq_dec (concat (map (fun t => control_inputs (g (fst t))) flat_tensor_list)))
    else (flat_tensor_list, []).
End model.
