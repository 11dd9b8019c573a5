(** Functions and saved models over the natural numbers. *)
From Coq Require Import String List.
From Verif Require Import PreModel.
Import ListNotations.
Local Open Scope string_scope.

Inductive arithmetic := Plus | Times.
Definition run (o : arithmetic) (vs : list nat) : nat :=
  match o with Plus => fold_right Nat.add 0 vs | Times => fold_right Nat.mul 1 vs end.

(** A dense layer: the first argument times a weight, plus the second argument. *)
Definition dense : function arithmetic nat :=
  Function _ _ [Ap Plus [Ap Times [Leaf 0; Var "dense/kernel"]; Leaf 1]] true ["dense/kernel"; "dense_1/kernel"] false.
Definition weights (v : string) : option nat :=
  if String.eqb v "dense/kernel" then Some 2 else if String.eqb v "dense_1/kernel" then Some 7 else None.

Definition x : tensor := Tensor "x" 0.
Definition x_1 : tensor := Tensor "x_1" 0.
Definition y : tensor := Tensor "y" 0.

(** The first argument times a weight. *)
Definition scaled : function arithmetic nat := Function _ _ [Ap Times [Leaf 0; Var "dense/kernel"]] true ["dense/kernel"] false.

(** A weight of another layer. *)
Definition other_weight : function arithmetic nat := Function _ _ [Var "dense_1/kernel"] true ["dense/kernel"; "dense_1/kernel"] false.

(** A model with two inputs, two outputs and a table initializer; the second output does not depend on the second input. *)
Definition two_outputs : saved_model arithmetic nat :=
  SavedModel _ _
    [("serving_default", Signature [("a", Tensor "in_a" 0); ("b", Tensor "in_b" 0)] [("sum", Tensor "sum" 0); ("scaled", Tensor "mul" 0)])]
    (fun t => if tensor_eqb t (Tensor "sum" 0) then Some (Ap Plus [Leaf (Tensor "in_a" 0); Leaf (Tensor "in_b" 0)])
              else if tensor_eqb t (Tensor "mul" 0) then Some (Ap Times [Leaf (Tensor "in_a" 0); Var "w"]) else None)
    (fun v => if String.eqb v "w" then Some 3 else None)
    [Const 100].
Definition both : given := Dict [("b", y); ("a", x)].
