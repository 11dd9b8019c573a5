(** Mappers on sparse batches: segment_indices, ngrams, bag_of_words, deduplicate_tensor_per_row,
    sparse_tensor_left_align, sparse_tensor_to_dense_with_shape, word_count, tfidf. *)
From Coq Require Import String List ZArith QArith Bool Arith.
From Verif Require Import SortModel MiscModel.
Import ListNotations.
Open Scope Z_scope.
Open Scope list_scope.
Local Notation length := List.length.

(** A two-dimensional [tf.SparseTensor]: one (row, column) pair per value. *)
Record sparse (A : Type) := Sparse { indices : list (Z * Z); values : list A; dense_shape : Z * Z }.
Arguments Sparse {A} _ _ _.
Arguments indices {A} _.
Arguments values {A} _.
Arguments dense_shape {A} _.

(** Section of TensorFlow kernels, by their documented behaviour. *)

(** tf.range(n) *)
Definition range (n : Z) : list Z := map Z.of_nat (seq 0 (Z.to_nat n)).
(** tf.gather(params, ids): None = index out of range *)
Fixpoint gather {A} (params : list A) (ids : list Z) : option (list A) :=
  match ids with
  | [] => Some []
  | i :: ids' =>
      if i <? 0 then None else
      match nth_error params (Z.to_nat i), gather params ids' with
      | Some x, Some l => Some (x :: l)
      | _, _ => None
      end
  end.
(** tf.cumsum *)
Fixpoint cumsum_from (acc : Z) (l : list Z) : list Z :=
  match l with [] => [] | x :: l' => (acc + x) :: cumsum_from (acc + x) l' end.
(** ids are non-negative and non-decreasing *)
Fixpoint sorted_ids (least : Z) (ids : list Z) : bool :=
  match ids with [] => true | i :: ids' => (least <=? i) && sorted_ids i ids' end.
Definition z_total (l : list Z) : Z := fold_right Z.add 0 l.
(** tf.math.segment_sum(data, ids): one sum per id 0..last; raises if the ids are not sorted *)
Definition segment_sum (data ids : list Z) : option (list Z) :=
  if sorted_ids 0 ids
  then Some (map (fun k => z_total (map snd (filter (fun e => fst e =? k) (combine ids data)))) (range (last ids (-1) + 1)))
  else None.
(** tf.maximum(tf.reduce_max(l), -1); the maximum of the empty tensor is the least integer *)
Definition max_or_minus_one (l : list Z) : Z := fold_right Z.max (-1) l.
(** tf.stack(columns, 1) for columns of length n: the list of rows *)
Fixpoint map2 {A B C} (f : A -> B -> C) (l1 : list A) (l2 : list B) : list C :=
  match l1, l2 with x :: l1', y :: l2' => f x y :: map2 f l1' l2' | _, _ => [] end.
Definition stack {A} (n : nat) (columns : list (list A)) : list (list A) :=
  fold_right (fun column rows => map2 cons column rows) (repeat [] n) columns.
(** tf.boolean_mask(tensor, mask) for matrices: the kept elements in row-major order *)
Definition boolean_mask {A} (tensor : list (list A)) (mask : list (list bool)) : list A :=
  map fst (filter snd (List.concat (map2 (@combine A bool) tensor mask))).
(** lexicographic order of indices *)
Definition index_leb (a b : Z * Z) : bool := (fst a <? fst b) || (fst a =? fst b) && (snd a <=? snd b).
(** tf.sparse.reorder: stable sort of the entries by index *)
Definition reorder {A} (t : sparse A) : sparse A :=
  let entries := py_sorted (fun a b => index_leb (fst a) (fst b)) (combine (indices t) (values t)) in
  Sparse (map fst entries) (map snd entries) (dense_shape t).
(** tf.unique(l): the distinct values in the order of their first occurrence *)
Section unique.
  Context {A : Type} (eqb : A -> A -> bool).
  Fixpoint unique_from (seen l : list A) : list A :=
    match l with
    | [] => []
    | x :: l' => if existsb (eqb x) seen then unique_from seen l' else x :: unique_from (x :: seen) l'
    end.
  Definition unique (l : list A) : list A := unique_from [] l.
End unique.
(** tf.unique_with_counts(l).count *)
Definition unique_counts (l : list Z) : list Z :=
  map (fun x => Z.of_nat (length (filter (Z.eqb x) l))) (unique Z.eqb l).
(** tf.sparse.reduce_sum(ones, axis=1): a dense vector with one entry per row *)
Definition row_counts (rows : Z) (row_ids : list Z) : list Z :=
  map (fun r => Z.of_nat (length (filter (Z.eqb r) row_ids))) (range rows).

(** ** mappers.py:1374-1415 ([segment_indices]); None = raised *)
Definition segment_indices (segment_ids : list Z) : option (list Z) :=
  match segment_sum (map (fun _ => 1) segment_ids) segment_ids with
  | None => None
  | Some segment_lengths =>
      match gather (0 :: cumsum_from 0 segment_lengths) segment_ids with
      | None => None
      | Some segment_starts => Some (map2 Z.sub (range (Z.of_nat (length segment_ids))) segment_starts)
      end
  end.

(** ** mappers.py:1630-1783 ([ngrams]) *)

(** mappers.py:1717-1724 ([_sliding_windows]) *)
Definition sliding_windows {A} (vals : list A) (num_shifts : nat) (fill_value : A) : list (list A) :=
  let buffered_values := vals ++ repeat fill_value (num_shifts - 1) in
  map (fun i => firstn (length vals) (skipn i buffered_values)) (seq 0 num_shifts).
(** mappers.py:1733-1737 ([_string_join]) on at least one tensor: elementwise join *)
Definition string_join (separator : string) (n : nat) (tensors : list (list string)) : list string :=
  map (String.concat separator) (stack n tensors).
(** tf.math.cumprod along a row of zeros and ones, compared with 1 *)
Fixpoint cumprod_from (acc : Z) (l : list Z) : list Z :=
  match l with [] => [] | x :: l' => (acc * x) :: cumprod_from (acc * x) l' end.
(** mappers.py:1747-1761: shifted_batch_indices[0] is compared with all shifts *)
Definition valid_row (first : Z) (shifted : list Z) : list bool :=
  map (fun x => x =? 1) (cumprod_from 1 (map (fun x => if x =? first then 1 else 0) shifted)).
(** l[a:b] *)
Definition slice {A} (a b : nat) (l : list A) : list A := skipn a (firstn b l).

(** None = raised (invalid range, or ids that segment_indices rejects) *)
Definition ngrams (tokens : sparse string) (n0 n1 : nat) (separator : string) : option (sparse string) :=
  if (n0 <? 1)%nat || (n1 <? n0)%nat then None else
  let row_ids := map fst (indices tokens) in
  let n := length (values tokens) in
  let shifted_batch_indices := sliding_windows row_ids (n1 + 1) (-1) in
  let shifted_tokens := sliding_windows (values tokens) (n1 + 1) ""%string in
  let ngrams_array := map (fun k => string_join separator n (firstn k shifted_tokens)) (seq n0 (n1 + 1 - n0)) in
  let ngrams_tensor := stack n ngrams_array in
  let valid_ngram := map (slice (n0 - 1) n1) (map2 valid_row row_ids (stack n shifted_batch_indices)) in
  let batch_indices := map (fun r => repeat r (n1 + 1 - n0)) row_ids in
  let batch_indices := boolean_mask batch_indices valid_ngram in
  let ngrams_tensor := boolean_mask ngrams_tensor valid_ngram in
  match segment_indices batch_indices with
  | None => None
  | Some instance_indices =>
      let dense_shape_second_dim := max_or_minus_one instance_indices + 1 in
      Some (Sparse (combine batch_indices instance_indices) ngrams_tensor (fst (dense_shape tokens), dense_shape_second_dim))
  end.

(** ** mappers.py:1499-1587 ([_deduplicate_tensor_per_row]) *)

(** The input is a SparseTensor or a dense matrix. *)
Inductive rank2 (A : Type) := SparseInput (t : sparse A) | DenseInput (m : list (list A)).
Arguments SparseInput {A} _.
Arguments DenseInput {A} _.
(** The values of row [index]: tf.sparse.slice(input_tensor, [index, 0], [1, dense_shape[1]]).values or
    input_tensor[index] *)
Definition row_values {A} (input : rank2 A) (index : Z) : list A :=
  match input with
  | SparseInput t =>
      map snd (filter (fun e => (fst (fst e) =? index) && (0 <=? snd (fst e)) && (snd (fst e) <? snd (dense_shape t)))
                      (combine (indices t) (values t)))
  | DenseInput m => nth (Z.to_nat index) m []
  end.
Definition batch_dim {A} (input : rank2 A) : Z :=
  match input with SparseInput t => fst (dense_shape t) | DenseInput m => Z.of_nat (length m) end.
(** mappers.py:1531-1570: the loop body; (indices, values, max_unique).  TensorArray.write at [index]
    followed by concat at the end: appending, since index counts up from 0. *)
Definition deduplicate_row {A} (eqb : A -> A -> bool) (input : rank2 A)
    (state : list (Z * Z) * list A * Z) (index : Z) : list (Z * Z) * list A * Z :=
  let '(ixs, vals, max_unique) := state in
  let row := unique eqb (row_values input index) in
  let num_unique_values := Z.of_nat (length row) in
  (ixs ++ map (fun c => (index, c)) (range num_unique_values), vals ++ row, Z.max num_unique_values max_unique).
(** At least one row is assumed (concatenating an empty TensorArray is left out). *)
Definition deduplicate_tensor_per_row {A} (eqb : A -> A -> bool) (input : rank2 A) : sparse A :=
  let '(ixs, vals, max_unique) := fold_left (deduplicate_row eqb input) (range (batch_dim input)) ([], [], 0) in
  Sparse ixs vals (batch_dim input, max_unique).
(** mappers.py:1446-1460 ([_univalent_dense_to_sparse]): rank 1 *)
Definition univalent_dense_to_sparse {A} (input : list A) : sparse A :=
  Sparse (map (fun r => (r, 0)) (range (Z.of_nat (length input)))) input (Z.of_nat (length input), 1).
(** mappers.py:1591-1626 ([bag_of_words]) *)
Definition bag_of_words (tokens : sparse string) (n0 n1 : nat) (separator : string) : option (sparse string) :=
  match ngrams tokens n0 n1 separator with
  | None => None
  | Some all_ngrams => Some (deduplicate_tensor_per_row String.eqb (SparseInput all_ngrams))
  end.

(** ** mappers.py:224-253 ([sparse_tensor_left_align]); tf.ragged.range(counts).flat_values *)
Definition sparse_tensor_left_align {A} (t : sparse A) : sparse A :=
  let reordered := reorder t in
  let row_indices := map fst (indices reordered) in
  let column_indices := List.concat (map range (unique_counts row_indices)) in
  Sparse (combine row_indices column_indices) (values reordered) (dense_shape reordered).

(** ** mappers.py:186-220 ([sparse_tensor_to_dense_with_shape]); [shape] has None for unknown sizes.
    SparseToDense validates the indices: strictly increasing in lexicographic order and within the shape. *)
Fixpoint increasing (l : list (Z * Z)) : bool :=
  match l with
  | a :: ((b :: _) as l') => index_leb a b && negb (index_leb b a) && increasing l'
  | _ => true
  end.
Definition within (rows cols : Z) (i : Z * Z) : bool :=
  (0 <=? fst i) && (fst i <? rows) && (0 <=? snd i) && (snd i <? cols).
Definition index_eqb (a b : Z * Z) : bool := (fst a =? fst b) && (snd a =? snd b).
Definition sparse_tensor_to_dense_with_shape {A} (t : sparse A) (shape : option Z * option Z) (default_value : A)
    : option (list (list A)) :=
  let rows := match fst shape with None => fst (dense_shape t) | Some size => size end in
  let cols := match snd shape with None => snd (dense_shape t) | Some size => size end in
  if increasing (indices t) && forallb (within rows cols) (indices t)
  then Some (map (fun r => map (fun c =>
         match find (fun e => index_eqb (fst e) (r, c)) (combine (indices t) (values t)) with
         | Some e => snd e
         | None => default_value
         end) (range cols)) (range rows))
  else None.

(** ** mappers.py:1787-1836 ([word_count]) for two-dimensional sparse and for ragged batches *)
Definition word_count {A} (tokens : sparse A) : list Z :=
  row_counts (fst (dense_shape tokens)) (map fst (indices tokens)).
(** a RaggedTensor is the list of its rows; tokens.row_lengths() *)
Definition word_count_ragged {A} (rows : list (list A)) : list Z := map (fun r => Z.of_nat (length r)) rows.

(** ** mappers.py:732-999 ([tfidf]) *)

(** mappers.py:870-931 ([_to_term_frequency]): ones at (doc, position, term) summed over the positions by
    sparse_reduce_sum_sparse (output in index order), divided by the document sizes. *)
Definition term_counts (x : sparse Z) : list ((Z * Z) * Z) :=
  let keys := combine (map fst (indices x)) (values x) in
  map (fun k => (k, Z.of_nat (length (filter (index_eqb k) keys)))) (unique index_eqb (py_sorted index_leb keys)).
Definition to_term_frequency (x : sparse Z) (vocab_size : Z) : option (sparse Q) :=
  let counts := term_counts x in
  let dense_doc_sizes := row_counts (fst (dense_shape x)) (map fst (indices x)) in
  match gather dense_doc_sizes (map (fun e => fst (fst e)) counts) with
  | None => None
  | Some gathered_doc_sizes =>
      Some (Sparse (map fst counts) (map2 (fun c size => (inject_Z c / inject_Z size)%Q) (map snd counts) gathered_doc_sizes)
             (fst (dense_shape x), vocab_size))
  end.
(** mappers.py:978-999 ([_count_docs_with_term]) *)
Definition count_docs_with_term (term_frequency : sparse Q) : list Z :=
  map (fun term => Z.of_nat (length (filter (Z.eqb term) (map snd (indices term_frequency)))))
      (range (snd (dense_shape term_frequency))).
(** tf_utils.py:2239-2287 ([document_frequency_to_idf]) with add_baseline; [log] is arbitrary *)
Definition document_frequency_to_idf (log : Q -> Q) (corpus_size : Z) (smooth : bool) (df : Z) : Q :=
  if smooth then (log ((inject_Z corpus_size + 1) / (1 + inject_Z df)) + 1)%Q
  else (log (inject_Z corpus_size / inject_Z df) + 1)%Q.
(** mappers.py:934-975 ([_to_tfidf]).  tf.squeeze turns a vector with one entry into a scalar, and tf.gather
    rejects scalars. *)
Definition squeeze_gather {A} (v : list A) (ids : list Z) : option (list A) :=
  if (length v =? 1)%nat then None else gather v ids.
Definition to_tfidf (log : Q -> Q) (term_frequency : sparse Q) (reduced_term_freq : list Z) (corpus_size : Z) (smooth : bool)
    : option (sparse Q) :=
  let idf := map (document_frequency_to_idf log corpus_size smooth) reduced_term_freq in
  match squeeze_gather idf (map snd (indices term_frequency)) with
  | None => None
  | Some gathered_idfs =>
      Some (Sparse (indices term_frequency) (map2 Qmult (values term_frequency) gathered_idfs) (dense_shape term_frequency))
  end.
(** mappers.py:835-867 ([_split_tfidfs_to_outputs]) *)
Definition split_tfidfs_to_outputs (tfidfs : sparse Q) : option (sparse Z * sparse Q) :=
  match segment_indices (map fst (indices tfidfs)) with
  | None => None
  | Some dummy_index =>
      let out_index := combine (map fst (indices tfidfs)) dummy_index in
      let out_shape := (fst (dense_shape tfidfs), max_or_minus_one dummy_index + 1) in
      Some (Sparse out_index (map snd (indices tfidfs)) out_shape, Sparse out_index (values tfidfs) out_shape)
  end.
Definition cleaned (x : sparse Z) (vocab_size : Z) : sparse Z :=
  Sparse (indices x) (to_vocab_range (values x) vocab_size) (dense_shape x).
(** tft.sum over the dataset (NumericModel; by C02 the plain sum): elementwise sum of the batches' vectors *)
Fixpoint vector_sum (n : nat) (vectors : list (list Z)) : list Z :=
  match vectors with [] => repeat 0 n | v :: vs => map2 Z.add v (vector_sum n vs) end.
Fixpoint sequence {A} (l : list (option A)) : option (list A) :=
  match l with
  | [] => Some []
  | Some x :: l' => match sequence l' with Some r => Some (x :: r) | None => None end
  | None :: _ => None
  end.
(** The transformation of [batch], after an analysis of all [batches]. *)
Definition tfidf (log : Q -> Q) (vocab_size : Z) (smooth : bool) (batches : list (sparse Z)) (batch : sparse Z)
    : option (sparse Z * sparse Q) :=
  let frequencies b := to_term_frequency (cleaned b vocab_size) vocab_size in
  match sequence (map frequencies batches), frequencies batch with
  | Some analysed, Some term_frequency =>
      let reduced_term_freq := vector_sum (Z.to_nat vocab_size) (map count_docs_with_term analysed) in
      let corpus_size := z_total (map (fun b => fst (dense_shape b)) batches) in
      match to_tfidf log term_frequency reduced_term_freq corpus_size smooth with
      | None => None
      | Some tfidfs => split_tfidfs_to_outputs tfidfs
      end
  | _, _ => None
  end.
