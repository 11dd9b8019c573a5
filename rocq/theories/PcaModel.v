(** tft.pca, /repo/tensorflow_transform/analyzers.py:2802-2943, on top of the covariance
    combiner of MeanVarModel.v.  Rows are exact (rational) numbers; from the eigenvectors on
    numbers are reals.  The casts to the dtype of the output (2838-2841) are left out. *)
From Coq Require Import List ZArith QArith Qreals Reals.
From Verif Require Import CombineModel MeanVarModel.
Import ListNotations.

(** np.eye(N=n, M=m) *)
Definition eye (n m : nat) : list (list R) :=
  map (fun i => map (fun j => if (i =? j)%nat then 1%R else 0%R) (seq 0 m)) (seq 0 n).

(** vecs[:, idx] *)
Definition take_columns (vecs : list (list R)) (idx : list nat) : list (list R) :=
  map (fun row => map (fun j => nth j row 0%R) idx) vecs.

Section Pca.
(** `np.linalg.eigh`: the eigenvalues of a symmetric matrix and the matrix of which the
    columns are eigenvectors; and `np.argsort`.  Both are arbitrary here. *)
Variable eigh : list (list R) -> list R * list (list R).
Variable argsort : list R -> list nat.
(** `self._output_shape[0]` and `self._output_dim` *)
Variables (n : nat) (output_dim : option nat).

(** `PCACombiner.extract_output` (analyzers.py:2810-2847). *)
Definition pca_extract (accumulator : cov) : list (list R) :=
  if Qeq_bool (cov_count accumulator) 0 then
    eye n (match output_dim with Some m => m | None => n end)
  else
    let count := cov_count accumulator in
    let matrix := mat_of n (fun i j =>
        mat_nth (cov_prod accumulator) i j / count
        - (nth i (cov_sum accumulator) 0 / count) * (nth j (cov_sum accumulator) 0 / count))%Q in
    let (vals, vecs) := eigh (map (map Q2R) matrix) in
    let sorted_vecs := take_columns vecs (rev (argsort vals)) in
    match output_dim with
    | None => sorted_vecs
    | Some m => map (firstn m) sorted_vecs
    end.

(** `PCACombiner` (analyzers.py:2802-2847), a CovarianceCombiner with another output. *)
Definition pca_combiner : combiner (list (list Q)) cov (list (list R)) :=
  {| create_accumulator := cov_create n;
     add_input := cov_add n (fun q => q);
     merge_accumulators := cov_merge n;
     extract_output := pca_extract |}.

(** `pca` (analyzers.py:2850-2943) of floating point columns. *)
Definition pca (s : sched (sched (list (list Q)))) : list (list R) := analyze pca_combiner s.
End Pca.
