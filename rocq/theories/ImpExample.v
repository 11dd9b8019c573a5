(** Graphs and SavedModels for the examples. *)
From Coq Require Import String List.
From Verif Require Import PreModel ImpModel.
Import ListNotations.
Open Scope string_scope.

Definition ex_run (o : string) (vs : list string) : list string := [o ++ "(" ++ String.concat "," vs ++ ")"].
Definition ex_checkpoint (dir name : string) (slice : option nat) : option string :=
  Some (dir ++ ":" ++ name ++ match slice with None => "" | Some 0 => "[0]" | Some _ => "[1]" end).
Definition T0 n := Tensor n 0.
Definition N := Node string string.
Definition P := Placeholder string string.
Definition Op := Operation string string.
Definition Var := Variable_op string string.
Definition ph (n : string) := N n P [].

(** A graph with a batch, and a scope of an earlier import *)
Definition ex_graph : graph string string :=
  Graph string string [ph "x"; N "transform/old" (Op "Old") [T0 "x"]] [("x", 1); ("transform", 1); ("transform/old", 1)] [] [].
(** An input, a sparse one, the path of a vocabulary, a variable, and one that is partitioned *)
Definition ex_model : saved_model string string :=
  SavedModel string string
    [ph "a"; ph "s/indices"; ph "s/values"; ph "s/shape"; ph "path"; N "mean" (Var None) []; N "w/part_0" (Var (Some ("w", 0))) []; N "w/part_1" (Var (Some ("w", 1))) [];
     N "sub" (Op "Sub") [T0 "a"; T0 "mean"]; N "w" (Op "Concat") [T0 "w/part_0"; T0 "w/part_1"]; N "scaled" (Op "Mul") [T0 "sub"; T0 "w"];
     N "ids" (Op "Lookup") [T0 "path"; T0 "s/values"]]
    [("a", Name (T0 "a")); ("s", Coo_sparse (T0 "s/indices") (T0 "s/values") (T0 "s/shape"))]
    [("a_scaled", Name (T0 "scaled")); ("s_ids", Coo_sparse (T0 "s/indices") (T0 "ids") (T0 "s/shape"))]
    [(T0 "path", "/model/assets/vocab")] false.
Definition ex_given := [("a", Dense (T0 "transform/old"))].
Definition ex_result : graph string string :=
  Graph string string
    (nodes string string ex_graph ++
     [N "Const" (Constant string string "/model/assets/vocab") [];
      ph "transform_1/a"; ph "transform_1/s/indices"; ph "transform_1/s/values"; ph "transform_1/s/shape"; ph "transform_1/path";
      N "transform_1/mean" (Var None) []; N "transform_1/w/part_0" (Var (Some ("w", 0))) []; N "transform_1/w/part_1" (Var (Some ("w", 1))) [];
      N "transform_1/sub" (Op "Sub") [T0 "transform/old"; T0 "transform_1/mean"]; N "transform_1/w" (Op "Concat") [T0 "transform_1/w/part_0"; T0 "transform_1/w/part_1"];
      N "transform_1/scaled" (Op "Mul") [T0 "transform_1/sub"; T0 "transform_1/w"]; N "transform_1/ids" (Op "Lookup") [T0 "Const"; T0 "transform_1/s/values"]])
    [("transform_1/a", 1); ("transform_1/s/indices", 1); ("transform_1/s/values", 1); ("transform_1/s/shape", 1); ("transform_1/path", 1); ("transform_1/mean", 1);
     ("transform_1/w/part_0", 1); ("transform_1/w/part_1", 1); ("transform_1/sub", 1); ("transform_1/w", 1); ("transform_1/scaled", 1); ("transform_1/ids", 1);
     ("transform_1", 1); ("const", 1); ("x", 1); ("transform", 1); ("transform/old", 1)]
    [T0 "Const"]
    [("transform_1/mean", From_checkpoint "/model" "mean" None); ("transform_1/w/part_0", From_checkpoint "/model" "w" (Some 0)); ("transform_1/w/part_1", From_checkpoint "/model" "w" (Some 1))].
Definition ex_unbound := [("s", Sparse (T0 "transform_1/s/indices") (T0 "transform_1/s/values") (T0 "transform_1/s/shape"))].
Definition ex_outputs := [("a_scaled", Dense (T0 "transform_1/scaled")); ("s_ids", Sparse (T0 "transform_1/s/indices") (T0 "transform_1/ids") (T0 "transform_1/s/shape"))].

(** A graph with an operation of the same name, made by an import without name scope *)
Definition ex_imported : graph string string :=
  Graph string string [ph "x"; N "transform/sub" (Op "Other") [T0 "x"]] [("x", 1); ("transform/sub", 1)] [] [].
Definition ex_plain : saved_model string string :=
  SavedModel string string [ph "a"; N "sub" (Op "Sub") [T0 "a"]] [("a", Name (T0 "a"))] [("out", Name (T0 "sub"))] [] false.
(** A ragged input *)
Definition ex_ragged : saved_model string string :=
  SavedModel string string [ph "values"; ph "row_splits"; N "size" (Op "Size") [T0 "row_splits"]]
    [("r", Composite [T0 "values"; T0 "row_splits"])] [("out", Name (T0 "size"))] [] false.

Definition ex_apply g m given := partially_apply_saved_transform string string ex_checkpoint g "" "/model" m given [].
Definition ex_graph_of (r : option (graph string string * list (string * tensor_or_composite) * list (string * tensor_or_composite))) := match r with Some (g, _, _) => g | None => ex_graph end.
Definition ex_unbound_of (r : option (graph string string * list (string * tensor_or_composite) * list (string * tensor_or_composite))) := match r with Some (_, u, _) => u | None => [] end.
Definition ex_outputs_of (r : option (graph string string * list (string * tensor_or_composite) * list (string * tensor_or_composite))) := match r with Some (_, _, o) => o | None => [] end.
Definition ex_again := ex_apply ex_result ex_model [("a", Dense (T0 "transform_1/scaled"))].
Definition ex_existing := ex_graph_of (ex_apply ex_imported ex_plain [("a", Dense (T0 "x"))]).
Definition ex_parts := ex_graph_of (ex_apply ex_graph ex_ragged [("r", Dense (T0 "x"))]).
