(** C59: tft.pca. *)
From Coq Require Import List ZArith QArith Qreals Reals Lra Lia.
From Verif Require Import CombineModel NumericSpec PcaModel PcaSpec PcaAnalysis PcaExample.
Import ListNotations.
Local Open Scope R_scope.

(** However the rows are batched and merged, the columns of the matrix are orthonormal, the
    rows are uncorrelated along them, with decreasing variances, and no other orthonormal
    directions, as many, retain more of the variance. *)
Theorem c59_principal : forall eigh argsort n k (s : sched (sched (list (list Q)))),
  let rows := map (map Q2R) (rows_of s) in
  let p := pca eigh argsort n (Some k) s in
  numpy_right eigh argsort n rows -> rows_of s <> [] -> (k <= n)%nat ->
  has_shape n k p /\ orthonormal n (columns k p)
  /\ (forall a b, (a < k)%nat -> (b < k)%nat -> a <> b ->
      covariance_of rows (dot n (column a p)) (dot n (column b p)) = 0)
  /\ (forall a b, (a <= b < k)%nat ->
      variance_along n rows (column b p) <= variance_along n rows (column a p))
  /\ (forall us, length us = k -> orthonormal n us ->
      variance_retained n rows us <= variance_retained n rows (columns k p)).
Proof. exact pca_principal. Qed.

Example c59_principal_applies :
  numpy_right example_eigh example_argsort 2 (map (map Q2R) (rows_of diagonal))
  /\ rows_of diagonal <> []
  /\ pca example_eigh example_argsort 2 (Some 1%nat) diagonal = [[half_root]; [half_root]].
Proof.
  split; [exact example_right|]. split; [discriminate|].
  rewrite pca_of by discriminate. reflexivity.
Qed.

(** Without rows, the matrix has the first basis vectors as columns. *)
Theorem c59_empty : forall eigh argsort n k (s : sched (sched (list (list Q)))),
  rows_of s = [] -> (k <= n)%nat ->
  let p := pca eigh argsort n (Some k) s in
  has_shape n k p /\ orthonormal n (columns k p)
  /\ forall i j, (i < n)%nat -> (j < k)%nat -> nth i (column j p) 0 = if (i =? j)%nat then 1 else 0.
Proof.
  intros eigh argsort n k s H Hk. rewrite (pca_empty eigh argsort n (Some k) s H). cbv zeta.
  split; [apply eye_shape|]. split; [now apply eye_orthonormal|]. intros i j Hi Hj. now apply eye_column.
Qed.

Example c59_empty_applies : rows_of (Bundle [Bundle [[]; []]] : sched (sched (list (list Q)))) = []
  /\ pca example_eigh example_argsort 2 (Some 1%nat) (Bundle [Bundle [[]; []]]) = [[1]; [0]].
Proof. split; [reflexivity|]. rewrite pca_empty by reflexivity. reflexivity. Qed.

(** With an output_dim above the number of columns the matrix does not have the shape
    (input_dim, output_dim) that is documented and declared for the tensor. *)
Theorem c59_output_dim_refuted : exists eigh argsort n k (s : sched (sched (list (list Q)))),
  numpy_right eigh argsort n (map (map Q2R) (rows_of s)) /\ rows_of s <> []
  /\ ~ has_shape n k (pca eigh argsort n (Some k) s).
Proof.
  exists example_eigh, example_argsort, 2%nat, 3%nat, diagonal.
  split; [exact example_right|]. split; [discriminate|]. intros H.
  pose proof (pca_too_many example_eigh example_argsort 2 3 diagonal example_right ltac:(discriminate) ltac:(lia)) as S.
  pose proof (shape_unique 2 2 3 _ ltac:(lia) S H). lia.
Qed.

(** Without rows it has that shape, but the further columns are zero. *)
Theorem c59_empty_output_dim_refuted : exists eigh argsort n k (s : sched (sched (list (list Q)))),
  rows_of s = [] /\ has_shape n k (pca eigh argsort n (Some k) s)
  /\ ~ orthonormal n (columns k (pca eigh argsort n (Some k) s)).
Proof.
  exists example_eigh, example_argsort, 2%nat, 3%nat, (Bundle [Bundle [[]]]).
  split; [reflexivity|]. rewrite pca_empty by reflexivity. split; [apply eye_shape|apply eye_zero; lia].
Qed.

Print Assumptions c59_principal.
Print Assumptions c59_empty.
Print Assumptions c59_output_dim_refuted.
Print Assumptions c59_empty_output_dim_refuted.
