(** C53: document frequencies. *)
From Coq Require Import List ZArith QArith.
From Verif Require Import SparseModel SparseSpec SparseRowsProofs DocFreqModel DocFreqSpec DocFreqProofs.
Import ListNotations.
Open Scope Z_scope.
Open Scope list_scope.

(** Every entry of the output is the number of documents, in all the batches, with the term of the entry of the input. *)
Theorem c53_document_frequency : forall divide V batches batch,
  1 < V -> Forall in_shape batches -> Forall (fits V) batches ->
  exists out, document_frequency divide V batches batch = Some out /\
    indices out = indices batch /\ dense_shape out = dense_shape batch /\
    Forall2 (fun id n => documents_have V (id mod V) batches n) (values batch) (values out).
Proof. exact document_frequencies. Qed.
Print Assumptions c53_document_frequency.

(** The number is unique, so the theorem determines the output. *)
Theorem c53_count_determined : forall V term batches n m,
  documents_have V term batches n -> documents_have V term batches m -> n = m.
Proof. exact documents_have_unique. Qed.
Print Assumptions c53_count_determined.

(** However the documents of the dataset are batched, the output depends on the documents alone. *)
Theorem c53_batching : forall divide V groups batch,
  1 < V -> Z.of_nat (length (concat groups)) * (V + 1) <= 2 ^ 63 ->
  document_frequency divide V (map tensor_of_rows groups) batch
  = Some (Sparse (indices batch) (map (fun id => Z.of_nat (containing V (id mod V) (concat groups))) (values batch)) (dense_shape batch)).
Proof. exact groups_document_frequency. Qed.
Print Assumptions c53_batching.

Theorem c53_idf : forall divide log V smooth add_baseline groups batch,
  0 < V -> Z.of_nat (length (concat groups)) * (V + 1) <= 2 ^ 63 ->
  idf divide log V smooth add_baseline (map tensor_of_rows groups) batch
  = Some (Sparse (indices batch)
      (map (fun id => idf_value log smooth add_baseline (length (concat groups)) (containing V (id mod V) (concat groups))) (values batch))
      (dense_shape batch)).
Proof. exact groups_idf. Qed.
Print Assumptions c53_idf.

(** The documented example, in one batch of two documents and in two batches. *)
Example c53_applies : forall divide log,
  let docs := [[1; 2; 0; 0; 0]; [3; 3; 0]] in
  let batch := tensor_of_rows docs in
  Forall in_shape [batch] /\ Forall (fits 4) [batch] /\
  document_frequency divide 4 [batch] batch = Some (tensor_of_rows [[1; 1; 2; 2; 2]; [1; 1; 2]]) /\
  document_frequency divide 4 (map tensor_of_rows [[[1; 2; 0; 0; 0]]; []; [[3; 3; 0]]]) batch = Some (tensor_of_rows [[1; 1; 2; 2; 2]; [1; 1; 2]]) /\
  exists out, idf divide log 4 true true [batch] batch = Some out /\
    Forall2 Qeq (values out) (map (fun q => log q + 1)%Q [3 # 2; 3 # 2; 3 # 3; 3 # 3; 3 # 3; 3 # 2; 3 # 2; 3 # 3]).
Proof.
  intros divide log docs batch. split; [constructor; [apply windows_tensor_in_shape|constructor]|].
  split; [constructor; [now vm_compute|constructor]|].
  split; [reflexivity|]. split; [reflexivity|]. eexists. split; [reflexivity|]. repeat (constructor; [reflexivity|]). constructor.
Qed.

(** With a vocabulary of one term document_frequency always raises: tf.squeeze of the 1 by 1 sums is a scalar, from which tf.gather cannot select. *)
Theorem c53_one_term_vocabulary_refuted : exists V, 0 < V /\ forall divide batches batch, document_frequency divide V batches batch = None.
Proof. exists 1. split; [reflexivity|]. exact one_term. Qed.
Print Assumptions c53_one_term_vocabulary_refuted.
