(** The first example of the documentation of tft.pca: rows [e, e]. *)
From Coq Require Import List ZArith QArith Qreals Reals Lra Lia Permutation Sorted.
From Verif Require Import CombineModel NumericSpec PcaModel PcaSpec.
Import ListNotations.
Local Open Scope R_scope.

Definition diagonal : sched (sched (list (list Q))) :=
  (Merged (Bundle [Bundle [[[1; 1]]; []]]) [Bundle [Bundle [[[-1; -1]]]]])%Q.

Definition half_root : R := / sqrt 2.
Definition example_eigh (_ : list (list R)) : list R * list (list R) :=
  ([0; 2], [[- half_root; half_root]; [half_root; half_root]]).
Definition example_argsort (_ : list R) : list nat := [0; 1]%nat.

Lemma half_root_square : half_root * half_root = 1 / 2.
Proof.
  unfold half_root. assert (0 < sqrt 2) by (apply sqrt_lt_R0; lra).
  rewrite <- Rinv_mult_distr by lra. rewrite sqrt_def by lra. lra.
Qed.

Lemma diagonal_matrix : covariance_matrix 2 (map (map Q2R) (rows_of diagonal)) = [[1; 1]; [1; 1]].
Proof.
  assert (A : Q2R 1 = 1) by (unfold Q2R; cbn; lra).
  assert (B : Q2R (-1) = -1) by (unfold Q2R; cbn; lra).
  replace (map (map Q2R) (rows_of diagonal)) with [[1; 1]; [-1; -1]] by (cbn; now rewrite A, B).
  unfold covariance_matrix, covariance_of, average. cbn.
  repeat f_equal; field.
Qed.

Lemma example_right : numpy_right example_eigh example_argsort 2 (map (map Q2R) (rows_of diagonal)).
Proof.
  unfold numpy_right, example_eigh. rewrite diagonal_matrix. pose proof half_root_square as H.
  set (h := half_root) in *. split.
  - split; [reflexivity|]. split; [split; [reflexivity|repeat constructor]|].
    split; [|split].
    + intros [|[|a]] [|[|b]] Ha Hb; cbn in Ha, Hb; try lia; unfold dot, sum_to, sum_of; cbn; lra.
    + intros [|[|a]] [|[|b]] Ha Hb; cbn in Ha, Hb; try lia; unfold dot, sum_to, sum_of; cbn; lra.
    + intros [|[|a]] [|[|b]] Ha Hb; try lia; unfold dot, sum_to, sum_of; cbn; lra.
  - split; [reflexivity|]. unfold example_argsort. repeat constructor; cbn; lra.
Qed.
