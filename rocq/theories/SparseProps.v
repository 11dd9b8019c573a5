(** C23 (segment_indices), C24 (ngrams), C25 (deduplication, bag_of_words), C26 (left alignment), C27 (tfidf),
    C28 (word_count), C47 (dense conversion). *)
From Coq Require Import String List ZArith QArith Bool Arith Lia.
From Verif Require Import MiscModel SparseModel SparseSpec SparseProofs SparseRowsProofs TfidfProofs.
Import ListNotations.
Open Scope Z_scope.
Open Scope list_scope.
Local Notation length := List.length.

(** ** C23 *)
Theorem c23_segment_indices : forall ids,
  (forall i j a b, (i < j)%nat -> nth_error ids i = Some a -> nth_error ids j = Some b -> a <= b) ->
  Forall (fun i => 0 <= i) ids ->
  exists out, segment_indices ids = Some out /\ length out = length ids /\
    forall p i, nth_error ids p = Some i -> nth_error out p = Some (Z.of_nat (length (filter (Z.eqb i) (firstn p ids)))).
Proof. exact segment_indices_spec. Qed.
Print Assumptions c23_segment_indices.
Example c23_segment_indices_applies : segment_indices [0; 0; 1; 3; 3; 3] = Some [0; 1; 0; 0; 1; 2].
Proof. reflexivity. Qed.

(** ** C24 *)

(** The output is the left-aligned tensor whose rows are the windows of the input's rows. *)
Theorem c24_ngrams : forall tokens n0 n1 separator, in_shape tokens -> row_major tokens -> (1 <= n0)%nat -> (n0 <= n1)%nat ->
  ngrams tokens n0 n1 separator = Some (tensor_of_rows (map (windows n0 n1 separator) (rows tokens))).
Proof. exact ngrams_rows. Qed.
Print Assumptions c24_ngrams.
(** What [tensor_of_rows] stands for: its rows are the given ones, and its entries lie in its shape. *)
Theorem c24_output_rows : forall A (rs : list (list A)), rows (tensor_of_rows rs) = rs /\ in_shape (tensor_of_rows rs).
Proof. intros A rs. exact (conj (rows_of_tensor rs) (windows_tensor_in_shape rs)). Qed.
Print Assumptions c24_output_rows.
Theorem c24_invalid_range : forall tokens n0 n1 separator, (n0 < 1)%nat \/ (n1 < n0)%nat -> ngrams tokens n0 n1 separator = None.
Proof. exact ngrams_invalid. Qed.
Print Assumptions c24_invalid_range.
(** Rows 0 and 2 have tokens, rows 1 and 3 are empty. *)
Example tokens := Sparse [(0, 0); (0, 1); (0, 2); (2, 1)] ["a"; "b"; "a"; "z"]%string (4, 3).
Example c24_ngrams_applies :
  in_shape tokens /\ row_major tokens /\ rows tokens = [["a"; "b"; "a"]; []; ["z"]; []]%string /\
  ngrams tokens 1 2 " " = Some (Sparse [(0,0); (0,1); (0,2); (0,3); (0,4); (2,0)] ["a"; "a b"; "b"; "b a"; "a"; "z"]%string (4, 5)).
Proof.
  split; [|split; [|split; reflexivity]].
  - split; [reflexivity|]. split; [|cbn; lia]. repeat constructor; cbn; lia.
  - intros i j a b Hij Ha Hb. do 4 (destruct i as [|i]; [cbn in Ha; injection Ha as <-; do 4 (destruct j as [|j]; [cbn in Hb; injection Hb as <-; cbn; lia|]); destruct j; discriminate|]); destruct i; discriminate.
Qed.

(** ** C25 *)

(** For sparse and dense inputs; [eqb] is the equality of the values' type. *)
Theorem c25_deduplicate : forall A (eqb : A -> A -> bool), (forall x y, eqb x y = true <-> x = y) -> forall t, in_shape t ->
  exists rs, deduplicate_tensor_per_row eqb (SparseInput t) = tensor_of_rows rs /\ Forall2 first_occurrences (rows t) rs.
Proof.
  intros A eqb Heq t Ht. exists (map (unique eqb) (rows t)). split; [exact (dedup_rows eqb (SparseInput t) Ht)|].
  induction (rows t); constructor; auto. now apply unique_first_occurrences.
Qed.
Print Assumptions c25_deduplicate.
Theorem c25_deduplicate_dense : forall A (eqb : A -> A -> bool), (forall x y, eqb x y = true <-> x = y) -> forall m,
  exists rs, deduplicate_tensor_per_row eqb (DenseInput m) = tensor_of_rows rs /\ Forall2 first_occurrences m rs.
Proof.
  intros A eqb Heq m. exists (map (unique eqb) m). split; [exact (dedup_rows eqb (DenseInput m) I)|].
  induction m; constructor; auto. now apply unique_first_occurrences.
Qed.
Print Assumptions c25_deduplicate_dense.
(** The specification leaves no freedom. *)
Theorem c25_first_occurrences_unique : forall A (l o1 o2 : list A), (forall x y : A, x = y \/ x <> y) ->
  first_occurrences l o1 -> first_occurrences l o2 -> o1 = o2.
Proof. exact @first_occurrences_unique. Qed.
Print Assumptions c25_first_occurrences_unique.
Theorem c25_rank_one : forall A (l : list A), l <> [] -> univalent_dense_to_sparse l = tensor_of_rows (map (fun x => [x]) l).
Proof. exact @univalent_rows. Qed.
Print Assumptions c25_rank_one.
Theorem c25_bag_of_words : forall tokens n0 n1 separator, in_shape tokens -> row_major tokens -> (1 <= n0)%nat -> (n0 <= n1)%nat ->
  exists rs, bag_of_words tokens n0 n1 separator = Some (tensor_of_rows rs) /\
    Forall2 first_occurrences (map (windows n0 n1 separator) (rows tokens)) rs.
Proof.
  intros t n0 n1 sep Hi Hm H0 H1. exists (map (fun r => unique String.eqb (windows n0 n1 sep r)) (rows t)).
  split; [exact (bag_rows t n0 n1 sep Hi Hm H0 H1)|]. induction (rows t); constructor; auto. apply unique_first_occurrences. apply String.eqb_eq.
Qed.
Print Assumptions c25_bag_of_words.
Example c25_applies :
  deduplicate_tensor_per_row String.eqb (SparseInput tokens) = Sparse [(0,0); (0,1); (2,0)] ["a"; "b"; "z"]%string (4, 2) /\
  deduplicate_tensor_per_row Z.eqb (DenseInput [[3; 1; 3]; [2; 2; 2]]) = Sparse [(0,0); (0,1); (1,0)] [3; 1; 2] (2, 2) /\
  bag_of_words tokens 1 2 "" = Some (Sparse [(0,0); (0,1); (0,2); (0,3); (2,0)] ["a"; "ab"; "b"; "ba"; "z"]%string (4, 4)).
Proof. repeat split. Qed.

(** ** C26 *)

(** In any order of the entries: every row's values in the order of their columns. *)
Theorem c26_left_align : forall A (t : sparse A), in_shape t ->
  let rs := map (row_by_column t) (seq 0 (Z.to_nat (fst (dense_shape t)))) in
  sparse_tensor_left_align t = Sparse (aligned_indices rs) (List.concat rs) (dense_shape t).
Proof. exact @left_align_rows. Qed.
Print Assumptions c26_left_align.
(** Entries in canonical order: the values stay as they are. *)
Theorem c26_left_align_canonical : forall A (t : sparse A), in_shape t ->
  (forall i j a b, (i < j)%nat -> nth_error (indices t) i = Some a -> nth_error (indices t) j = Some b ->
     fst a < fst b \/ fst a = fst b /\ snd a <= snd b) ->
  sparse_tensor_left_align t = Sparse (aligned_indices (rows t)) (values t) (dense_shape t).
Proof. exact @left_align_canonical. Qed.
Print Assumptions c26_left_align_canonical.
Example c26_applies :
  let t := Sparse [(2, 4); (0, 3); (2, 1); (0, 1)] ["d"; "b"; "c"; "a"]%string (3, 5) in
  in_shape t /\ sparse_tensor_left_align t = Sparse [(0, 0); (0, 1); (2, 0); (2, 1)] ["a"; "b"; "c"; "d"]%string (3, 5).
Proof. split; [|reflexivity]. split; [reflexivity|]. split; [|cbn; lia]. repeat constructor; cbn; lia. Qed.

(** ** C28 *)
Theorem c28_word_count : forall A (t : sparse A), in_shape t -> word_count t = map (fun r => Z.of_nat (length r)) (rows t).
Proof. exact @word_count_rows. Qed.
Print Assumptions c28_word_count.
Theorem c28_one_count_per_row : forall A (t : sparse A), in_shape t -> Z.of_nat (length (word_count t)) = fst (dense_shape t).
Proof. intros A t H. rewrite (word_count_rows t H), map_length, rows_length. destruct H as [_ [_ H]]. lia. Qed.
Print Assumptions c28_one_count_per_row.
Example c28_applies : word_count tokens = [3; 0; 1; 0] /\ word_count_ragged [["a"; "b"]; []]%string = [2; 0].
Proof. split; reflexivity. Qed.

(** ** C27 *)

(** Exact arithmetic, any logarithm.  Every document of the batch gets its terms in increasing order, each
    with (occurrences / length) * idf, where the idf counts the documents of all batches. *)
Theorem c27_tfidf : forall log vocab_size smooth batches batch, 1 < vocab_size -> Forall in_shape (batch :: batches) ->
  let docs := flat_map (documents vocab_size) batches in
  tfidf log vocab_size smooth batches batch = Some
    (tensor_of_rows (map (terms_of vocab_size) (documents vocab_size batch)),
     tensor_of_rows (map (fun d => map (fun term => (term_frequency_of d term * idf_of log smooth docs term)%Q) (terms_of vocab_size d))
                         (documents vocab_size batch))).
Proof. exact tfidf_spec. Qed.
Print Assumptions c27_tfidf.
Theorem c27_each_term_once : forall vocab_size doc, NoDup (terms_of vocab_size doc) /\
  forall term, 0 <= term < vocab_size -> (In term (terms_of vocab_size doc) <-> In term doc).
Proof. intros V d. exact (conj (terms_nodup V d) (in_terms V d)). Qed.
Print Assumptions c27_each_term_once.
Theorem c27_frequencies_sum_to_one : forall vocab_size doc, doc <> [] -> (forall t, In t doc -> 0 <= t < vocab_size) ->
  (q_sum (map (term_frequency_of doc) (terms_of vocab_size doc)) == 1)%Q.
Proof. exact frequencies_sum. Qed.
Print Assumptions c27_frequencies_sum_to_one.
(** Finding: with a vocabulary of one term (vocab_size 1) the transformation always raises. *)
Theorem c27_one_term_vocabulary_refuted : forall log smooth batches batch, tfidf log 1 smooth batches batch = None.
Proof. exact tfidf_one_term. Qed.
Print Assumptions c27_one_term_vocabulary_refuted.
(** The docstring's example, with the logarithm replaced by the identity. *)
Example docs_batch := Sparse [(0,0);(0,1);(0,2);(0,3);(0,4);(1,0);(1,1);(1,2)] [1; 2; 0; 0; 0; 3; 3; 0] (2, 5).
Example c27_applies :
  in_shape docs_batch /\
  tfidf (fun q => q) 4 true [docs_batch] docs_batch =
  Some (Sparse [(0,0);(0,1);(0,2);(1,0);(1,1)] [0; 1; 2; 0; 3] (2, 3),
        Sparse [(0,0);(0,1);(0,2);(1,0);(1,1)] [18#15; 5#10; 5#10; 6#9; 10#6]%Q (2, 3)).
Proof.
  split; [split; [reflexivity|]; split; [|cbn; lia]; repeat constructor; cbn; lia|]. vm_compute. reflexivity.
Qed.

(** ** C47 *)
Theorem c47_to_dense : forall A (t : sparse A) shape default m, sparse_tensor_to_dense_with_shape t shape default = Some m ->
  let rows := size_or (fst shape) (fst (dense_shape t)) in let cols := size_or (snd shape) (snd (dense_shape t)) in
  length m = Z.to_nat rows /\ Forall (fun l => length l = Z.to_nat cols) m /\
  (forall i v, In (i, v) (combine (indices t) (values t)) -> dense_at m (fst i) (snd i) = Some v) /\
  (forall r c, 0 <= r < rows -> 0 <= c < cols -> length (indices t) = length (values t) -> ~ In (r, c) (indices t) -> dense_at m r c = Some default).
Proof. exact @to_dense_spec. Qed.
Print Assumptions c47_to_dense.
Theorem c47_to_dense_accepts : forall A (t : sparse A) shape default,
  (exists m, sparse_tensor_to_dense_with_shape t shape default = Some m) <->
  (forall i j a b, (i < j)%nat -> nth_error (indices t) i = Some a -> nth_error (indices t) j = Some b -> fst a < fst b \/ fst a = fst b /\ snd a < snd b) /\
  Forall (fun i => 0 <= fst i < size_or (fst shape) (fst (dense_shape t)) /\ 0 <= snd i < size_or (snd shape) (snd (dense_shape t))) (indices t).
Proof. exact @to_dense_some. Qed.
Print Assumptions c47_to_dense_accepts.
Example c47_applies :
  sparse_tensor_to_dense_with_shape (Sparse [(0, 1); (1, 0)] [5; 7] (2, 2)) (None, Some 3) (-1) = Some [[-1; 5; -1]; [7; -1; -1]] /\
  sparse_tensor_to_dense_with_shape (Sparse [(0, 1); (1, 0)] [5; 7] (2, 2)) (None, Some 1) (-1) = None.
Proof. split; reflexivity. Qed.
