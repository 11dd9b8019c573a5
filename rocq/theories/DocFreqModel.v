(** * Document frequencies

    Models `document_frequency` and `idf` of /repo/tensorflow_transform/experimental/mappers.py. *)
From Coq Require Import String List ZArith QArith Bool.
From Verif Require Import NumericModel SortModel MiscModel SparseModel.
Import ListNotations.
Open Scope Z_scope.
Open Scope list_scope.
Local Notation length := List.length.

Section DocumentFrequency.
(** `tf.math.divide` of two int64 tensors, which divides 64 bit floating point numbers, and the
    cast of the result to int64; the document indices it computes are summed over. *)
Variable divide : Z -> Z -> Z.
(** `tf.math.log` of 32 bit floating point numbers, on exact ones *)
Variable log : Q -> Q.

(** experimental/mappers.py:324-385 [_to_term_document_one_hot]: the indices of the entries *)
Definition to_term_document_one_hot (x : sparse Z) (vocab_size : Z) : sparse Z :=
  let multiplier := vocab_size + 1 in
  let unique_flatten_indices :=
    unique Z.eqb (map2 (fun i v => wrap Int64 (wrap Int64 (fst i * multiplier) + v)) (indices x) (values x)) in
  Sparse (map (fun u => (divide u multiplier, u mod multiplier)) unique_flatten_indices)
         (map (fun _ => 1) unique_flatten_indices)
         (fst (dense_shape x), vocab_size).

(** tf.sparse.reduce_sum(x, axis=0, keepdims=True): one sum per column; [None] when an entry is
    outside of the columns *)
Definition reduce_sum_rows (x : sparse Z) : option (list Z) :=
  let columns := snd (dense_shape x) in
  if forallb (fun i => (0 <=? snd i) && (snd i <? columns)) (indices x) then
    Some (map (fun c => z_total (map snd (filter (fun e => snd (fst e) =? c) (combine (indices x) (values x)))))
              (range columns))
  else None.

(** experimental/mappers.py:388-417 [_to_global_document_frequency], with tft.sum over the dataset *)
Definition to_global_document_frequency (vocab_size : Z) (batches : list (sparse Z)) : option (list Z) :=
  match sequence (map (fun b => reduce_sum_rows (to_term_document_one_hot (cleaned b vocab_size) vocab_size)) batches) with
  | None => None
  | Some counts => Some (vector_sum (Z.to_nat vocab_size) counts)
  end.

(** experimental/mappers.py:129-209 [document_frequency]: the transformation of [batch] after an
    analysis of [batches] *)
Definition document_frequency (vocab_size : Z) (batches : list (sparse Z)) (batch : sparse Z) : option (sparse Z) :=
  let cleaned_input := cleaned batch vocab_size in
  match to_global_document_frequency vocab_size batches with
  | None => None
  | Some all_df =>
      match squeeze_gather all_df (values cleaned_input) with
      | None => None
      | Some df_values => Some (Sparse (indices cleaned_input) df_values (dense_shape cleaned_input))
      end
  end.

(** tf_utils.py:2239-2287 [document_frequency_to_idf]. Simplified: exact quotients; the quotient by
    zero of an unsmoothed frequency of a term that does not occur, which is infinite, is 0 here. *)
Definition to_idf (corpus_size : Z) (smooth add_baseline : bool) (df : Z) : Q :=
  let baseline := if add_baseline then 1%Q else 0%Q in
  if smooth then (log ((inject_Z corpus_size + 1) / (1 + inject_Z df)) + baseline)%Q
  else (log (inject_Z corpus_size / inject_Z df) + baseline)%Q.

(** experimental/mappers.py:213-321 [idf] *)
Definition idf (vocab_size : Z) (smooth add_baseline : bool) (batches : list (sparse Z)) (batch : sparse Z) : option (sparse Q) :=
  let cleaned_input := cleaned batch vocab_size in
  match to_global_document_frequency vocab_size batches with
  | None => None
  | Some all_df =>
      let corpus_size := z_total (map (fun b => fst (dense_shape b)) batches) in
      match gather (map (to_idf corpus_size smooth add_baseline) all_df) (values cleaned_input) with
      | None => None
      | Some idf_values => Some (Sparse (indices cleaned_input) idf_values (dense_shape cleaned_input))
      end
  end.
End DocumentFrequency.
