(** Examples for C64 *)
From Coq Require Import String List ZArith QArith Bool Arith.
From Verif Require Import CombineModel CooccurModel CooccurSpec CooccurBatch InfoModel.
Import ListNotations.
Local Open Scope nat_scope.
Local Notation length := List.length.
Local Open Scope string_scope.

Notation inputs := (vocabulary_inputs string String.eqb sentinel).
Definition a_row (ts : list string) (ls : list Z) : row string := Row string ts ls 1%Q.

(** A batch of a sparse feature, and one of a ragged feature with labels that may be missing. *)
Definition first_rows : list (row string) := [a_row ["a"; "b"] [1%Z]; a_row [] [0%Z]; a_row ["a"] [2%Z]].
Definition first_batch : a_batch string := Batch string (Sparse string 3 [0; 0; 2] ["a"; "b"; "a"]) (Dense_labels [3; 1] [1%Z; 0%Z; 2%Z]) None first_rows.
Definition second_rows : list (row string) := [a_row ["b"; "a"; "b"] [0%Z; 3%Z]; a_row ["c"] []].
Definition second_batch : a_batch string :=
  Batch string (Ragged string 2 [[0; 0; 1]] [0; 0; 1; 2] ["b"; "a"; "b"; "c"]) (Sparse_labels 2 [[Some 0%Z; Some 3%Z]; [None; None]]) None second_rows.
(** The same with weights, one value in each row. *)
Definition weighted_rows : list (row string) := [Row string ["a"] [1%Z] 2%Q; Row string ["b"] [0%Z] (1 # 2)%Q].
Definition weighted_batch : a_batch string :=
  Batch string (Dense string 2 [] ["a"; "b"]) (Dense_labels [2] [1%Z; 0%Z]) (Some ([2], [2%Q; (1 # 2)%Q])) weighted_rows.

Lemma first_is : is_batch string (b_x _ first_batch) (b_y _ first_batch) (b_weights _ first_batch) first_rows.
Proof. split; [discriminate|]. split; [repeat split|]. split; [reflexivity|]. split; repeat constructor; discriminate. Qed.
Lemma second_is : is_batch string (b_x _ second_batch) (b_y _ second_batch) (b_weights _ second_batch) second_rows.
Proof.
  split; [discriminate|]. split; [|split; [cbn; repeat split; repeat constructor|split; repeat constructor; discriminate]].
  exact (Ragged_more string 3 [] [0; 0; 1; 2] ["b"; "a"; "b"; "c"] [[["b"; "a"]; ["b"]]; [["c"]]] (Ragged_one string [["b"; "a"]; ["b"]; ["c"]])).
Qed.
Lemma weighted_is : is_batch string (b_x _ weighted_batch) (b_y _ weighted_batch) (b_weights _ weighted_batch) weighted_rows.
Proof. split; [discriminate|]. split; [repeat split; repeat constructor|]. split; [reflexivity|]. split; [repeat split; repeat constructor|]. repeat constructor; discriminate. Qed.

(** A second batch of rows with one label. *)
Definition third_rows : list (row string) := [a_row ["b"] [0%Z]; a_row ["c"; "a"] [1%Z]].
Definition third_batch : a_batch string := Batch string (Sparse string 2 [0; 1; 1] ["b"; "c"; "a"]) (Dense_labels [2] [0%Z; 1%Z]) None third_rows.
Lemma third_is : is_batch string (b_x _ third_batch) (b_y _ third_batch) (b_weights _ third_batch) third_rows.
Proof. split; [discriminate|]. split; [repeat split|]. split; [reflexivity|]. split; repeat constructor; discriminate. Qed.

(** A filter *)
Definition no_b : option (string -> bool) := Some (String.eqb "b").
Definition result_of (b : a_batch string) : reduced string :=
  match inputs (b_x _ b) (b_y _ b) (b_weights _ b) no_b with Some r => r | None => Reduced string [] [] [] [] end.
(** The batches of a key in one order. *)
Definition in_order (key : string) : sched (sched (list Q * Z)) :=
  Bundle (map (fun b => Bundle [b]) (rev (under string String.eqb key (concat (map (entries string) [result_of first_batch; result_of third_batch]))))).
