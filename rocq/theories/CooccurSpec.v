(** * Specification of what a batch contributes to a vocabulary ranked by mutual information (C64) *)
From Coq Require Import String List ZArith QArith Bool Arith.
From Verif Require CooccurModel WeightedModel.
Import ListNotations.
Local Open Scope nat_scope.
Local Notation length := List.length.

Section Spec.
Variable token : Type.
Variable token_eqb : token -> token -> bool.

(** A row of the dataset: the tokens of the feature, its labels and its weight. *)
Record row := Row { tokens : list token; row_labels : list Z; row_weight : Q }.

(** ** What tensors stand for *)

(** The number of its row for every element of the rows. *)
Definition row_numbers {A} (rows : list (list A)) : list nat :=
  concat (map (fun p => repeat (fst p) (length (snd p))) (combine (seq 0 (length rows)) rows)).

(** A ragged tensor: each row number of an outer dimension is that of a row of the next dimension. *)
Inductive ragged_rows : nat -> list (list nat) -> list nat -> list token -> list (list token) -> Prop :=
| Ragged_one rows : ragged_rows (length rows) [] (row_numbers rows) (concat rows) rows
| Ragged_more n outer last flat groups :
    ragged_rows n outer last flat (concat groups) ->
    ragged_rows (length groups) (row_numbers groups :: outer) last flat (map (@concat token) groups).

Definition has_rows (x : CooccurModel.feature token) (rows : list (list token)) : Prop :=
  match x with
  | CooccurModel.Dense _ batch inner flat =>
      batch = length rows /\ flat = concat rows /\ Forall (fun r => length r = fold_right Nat.mul 1 inner) rows
  | CooccurModel.Sparse _ batch indices values => batch = length rows /\ values = concat rows /\ indices = row_numbers rows
  | CooccurModel.Ragged _ nrows outer last flat => ragged_rows nrows outer last flat rows
  end.

(** Dense labels have one label in each row, sparse ones those that are present. *)
Definition present (l : list (option Z)) : list Z := flat_map (fun v => match v with Some y => [y] | None => [] end) l.
Definition has_labels (y : CooccurModel.labels) (rows : list (list Z)) : Prop :=
  match y with
  | CooccurModel.Dense_labels _ flat => rows = map (fun v => [v]) flat
  | CooccurModel.Sparse_labels width cells => 0 < width /\ Forall (fun r => length r = width) cells /\ rows = map present cells
  end.

(** Without weights every row has weight 1. With weights, every row must have one value. *)
Definition has_weights (x : CooccurModel.feature token) (weights : option (list nat * list Q)) (rows : list row) : Prop :=
  match weights with
  | None => Forall (fun r => row_weight r = 1%Q) rows
  | Some (shape, flat) =>
      shape = [length rows] /\ flat = map row_weight rows /\ Forall (fun r => length (tokens r) = 1) rows /\
      match x with CooccurModel.Dense _ _ (_ :: _) _ => False | _ => True end
  end.

(** A batch of rows, with labels that are not negative. *)
Definition is_batch (x : CooccurModel.feature token) (y : CooccurModel.labels) (weights : option (list nat * list Q)) (rows : list row) : Prop :=
  rows <> [] /\ has_rows x (map tokens rows) /\ has_labels y (map row_labels rows) /\ has_weights x weights rows /\
  Forall (fun r => Forall (fun l => (0 <= l)%Z) (row_labels r)) rows.

(** ** What is counted *)

Definition times (t : token) (r : row) : nat := length (filter (token_eqb t) (tokens r)).
Definition label_times (j : nat) (r : row) : nat := length (filter (Z.eqb (Z.of_nat j)) (row_labels r)).
Definition qsum (l : list Q) : Q := fold_right Qplus 0%Q l.
Definition qnat (n : nat) : Q := inject_Z (Z.of_nat n).

(** Number and weight of the occurrences of a token, and weight of those with a label. *)
Definition token_count (t : token) (rows : list row) : nat := list_sum (map (times t) rows).
Definition token_weight (t : token) (rows : list row) : Q := qsum (map (fun r => qnat (times t r) * row_weight r)%Q rows).
Definition token_label_weight (t : token) (j : nat) (rows : list row) : Q :=
  qsum (map (fun r => qnat (times t r) * (qnat (label_times j r) * row_weight r))%Q rows).

(** The same for rows. *)
Definition rows_weight (rows : list row) : Q := qsum (map row_weight rows).
Definition rows_label_weight (j : nat) (rows : list row) : Q := qsum (map (fun r => qnat (label_times j r) * row_weight r)%Q rows).

(** The largest label of the batch, or 0 *)
Definition largest_label (rows : list row) (m : nat) : Prop :=
  (forall r l, In r rows -> In l (row_labels r) -> (l <= Z.of_nat m)%Z) /\
  (m = 0 \/ exists r, In r rows /\ In (Z.of_nat m) (row_labels r)).

(** Tokens that are not filtered out. *)
Definition kept (filter_regex : option (token -> bool)) (t : token) : Prop :=
  match filter_regex with None => True | Some matches => matches t = false end.
Definition vocabulary_of (filter_regex : option (token -> bool)) (rows : list row) (known : list token) : Prop :=
  NoDup known /\ forall t, In t known <-> kept filter_regex t /\ exists r, In r rows /\ In t (tokens r).

(** ** The result as one entry for each key: weight, weight of each label, count *)
Definition entries (r : CooccurModel.reduced token) : list (token * (Q * list Q * nat)) :=
  combine (CooccurModel.unique_x _ r)
          (combine (combine (CooccurModel.summed_weights_per_x _ r) (CooccurModel.summed_positive_per_x_and_y _ r)) (CooccurModel.counts_per_x _ r)).
Definition same_length (r : CooccurModel.reduced token) : Prop :=
  let n := length (CooccurModel.unique_x _ r) in
  length (CooccurModel.summed_weights_per_x _ r) = n /\ length (CooccurModel.summed_positive_per_x_and_y _ r) = n /\ length (CooccurModel.counts_per_x _ r) = n.

Definition right_entry (m : nat) (rows : list row) (t : token) (e : Q * list Q * nat) : Prop :=
  let '(w, positive, count) := e in
  (w == token_weight t rows)%Q /\ length positive = S m /\ (forall j, (nth j positive 0 == token_label_weight t j rows)%Q) /\ count = token_count t rows.
Definition right_total (m : nat) (rows : list row) (e : Q * list Q * nat) : Prop :=
  let '(w, positive, count) := e in
  (w == rows_weight rows)%Q /\ length positive = S m /\ (forall j, (nth j positive 0 == rows_label_weight j rows)%Q) /\ count = length rows.

(** Over all the batches: what is counted under a key. *)
Definition sum_weight (keys : token -> bool) (es : list (token * (Q * list Q * nat))) : Q :=
  qsum (map (fun e => fst (fst (snd e))) (filter (fun e => keys (fst e)) es)).
Definition sum_label_weight (keys : token -> bool) (j : nat) (es : list (token * (Q * list Q * nat))) : Q :=
  qsum (map (fun e => nth j (snd (fst (snd e))) 0%Q) (filter (fun e => keys (fst e)) es)).
Definition sum_count (keys : token -> bool) (es : list (token * (Q * list Q * nat))) : nat :=
  list_sum (map (fun e => snd (snd e)) (filter (fun e => keys (fst e)) es)).
(** What the batches give for a key: weights of the labels and count. *)
Definition under (key : token) (es : list (token * (Q * list Q * nat))) : list (list Q * Z) :=
  map (fun e => (snd (fst (snd e)), Z.of_nat (snd (snd e)))) (filter (fun e => token_eqb key (fst e)) es).
End Spec.

(** ** The rows of one label, as those of C04 and C55: the tokens that are kept, the label and the weight *)
Definition labelled_row (filter_regex : option (string -> bool)) (r : row string) : list string * WeightedModel.labelled :=
  (filter (fun t => match filter_regex with None => true | Some matches => negb (matches t) end) (tokens _ r),
   WeightedModel.Lab (Z.to_nat (hd 0%Z (row_labels _ r))) (row_weight _ r)).

(** Rows with one label, weight 1 and no token twice. *)
Definition plain_row (r : row string) : Prop :=
  NoDup (tokens _ r) /\ row_weight _ r = 1%Q /\ exists l, row_labels _ r = [l] /\ (0 <= l)%Z.

(** ** Shapes: that of a feature (of the values, if it is not dense) and the number of rows of labels *)
Definition shape_of {token} (x : CooccurModel.feature token) : list nat :=
  match x with
  | CooccurModel.Dense _ batch inner _ => batch :: inner
  | CooccurModel.Sparse _ _ _ values => [length values]
  | CooccurModel.Ragged _ _ _ _ flat => [length flat]
  end.
Definition label_rows (y : CooccurModel.labels) : nat :=
  match y with CooccurModel.Dense_labels _ flat => length flat | CooccurModel.Sparse_labels _ rows => length rows end.
