(** Proofs of the statements of PcaProps.v: the analysis computes the best directions. *)
From Coq Require Import List ZArith QArith Qreals Reals Lra Lia Arith Permutation Sorted.
From Verif Require Import CombineModel CombineProofs NumericSpec MeanVarModel MeanVarSpec MeanVarProofs PcaModel PcaSpec
  PcaProofs PcaVariance.
Import ListNotations.
Local Open Scope R_scope.

(** ** Rational and real numbers *)

Lemma Q2R_sum {A} (l : list A) (f : A -> Q) : Q2R (q_sum (map f l)) = sum l (fun a => Q2R (f a)).
Proof.
  induction l as [|a l IH]; cbn [map q_sum fold_right]; [apply RMicromega.Q2R_0|].
  rewrite Q2R_plus. unfold q_sum in IH. rewrite IH. reflexivity.
Qed.

Lemma Q2R_nat k : Q2R (inject_Z (Z.of_nat k)) = INR k.
Proof. unfold Q2R, inject_Z. cbn. rewrite INR_IZR_INZ. lra. Qed.

Lemma Q2R_0' : Q2R 0 = 0. Proof. apply RMicromega.Q2R_0. Qed.

Lemma nth_Q2R i (r : list Q) : nth i (map Q2R r) 0 = Q2R (nth i r 0%Q).
Proof. rewrite <- Q2R_0' at 1. apply map_nth. Qed.

Lemma mean_real (rows : list (list Q)) i : rows <> [] ->
  Q2R (mean_of (map (fun r => nth i r 0%Q) rows)) = average (map (fun r => nth i r 0) (map (map Q2R) rows)).
Proof.
  intros H. unfold mean_of, q_len, average. rewrite !map_length.
  assert (N : ~ (inject_Z (Z.of_nat (length rows)) == 0)%Q).
  { apply inject_Z_nonzero. destruct rows; [congruence|cbn; lia]. }
  rewrite Q2R_div by exact N. rewrite Q2R_nat, Q2R_sum, map_map. f_equal.
  apply sum_ext. intros r _. symmetry. apply nth_Q2R.
Qed.

Lemma cov_real (rows : list (list Q)) i j : rows <> [] ->
  Q2R (cov_of (map (fun r => (nth i r 0%Q, nth j r 0%Q)) rows))
  = covariance_of (map (map Q2R) rows) (fun r => nth i r 0) (fun r => nth j r 0).
Proof.
  intros H. unfold cov_of, covariance_of. rewrite !map_map. cbn [fst snd]. unfold average at 1.
  rewrite !map_length.
  assert (N : ~ (inject_Z (Z.of_nat (length rows)) == 0)%Q).
  { apply inject_Z_nonzero. destruct rows; [congruence|cbn; lia]. }
  rewrite Q2R_div by exact N. rewrite Q2R_nat, Q2R_sum. f_equal.
  apply sum_ext. intros r _. rewrite Q2R_mult, !Q2R_minus, !mean_real, !nth_Q2R by exact H.
  rewrite !map_map. reflexivity.
Qed.

(** ** The analysis *)

Section Analysis.
Variable eigh : list (list R) -> list R * list (list R).
Variable argsort : list R -> list nat.
Variables (n : nat) (output_dim : option nat).
Local Notation comb := (pca_combiner eigh argsort n output_dim).

Lemma accumulated s : exists a, Rcov n (batches_of s) a
  /\ pca eigh argsort n output_dim s = pca_extract eigh argsort n output_dim a.
Proof.
  apply (analyze_rep comb (Rcov n) (fun _ => True) (Rcov_create n) (Rcov_add n) (Rcov_merge n) s).
  apply Forall_forall. intros; exact I.
Qed.

Lemma pca_empty s : rows_of s = [] ->
  pca eigh argsort n output_dim s = eye n (match output_dim with Some m => m | None => n end).
Proof.
  intros H. destruct (accumulated s) as (a & (_ & _ & H3) & ->). unfold pca_extract.
  fold (rows_of s) in H3. rewrite H in H3. cbn in H3.
  change (inject_Z 0) with 0%Q in H3. now rewrite (proj2 (Qeq_bool_iff _ _) H3).
Qed.

Lemma pca_of s : rows_of s <> [] ->
  let rows := map (map Q2R) (rows_of s) in
  pca eigh argsort n output_dim s
  = let (vals, vecs) := eigh (covariance_matrix n rows) in
    let sorted_vecs := take_columns vecs (rev (argsort vals)) in
    match output_dim with None => sorted_vecs | Some m => map (firstn m) sorted_vecs end.
Proof.
  intros H rows. destruct (accumulated s) as (a & (H1 & H2 & H3) & ->). fold (rows_of s) in *.
  unfold pca_extract.
  assert (HL : (0 < Z.of_nat (length (rows_of s)))%Z) by (destruct (rows_of s); [congruence|cbn; lia]).
  pose proof (inject_Z_nonzero _ HL) as Hnz.
  destruct (Qeq_bool (cov_count a) 0) eqn:E.
  { apply Qeq_bool_eq in E. rewrite H3 in E. contradiction. }
  match goal with |- context [eigh (map (map Q2R) ?m)] => assert (EM : map (map Q2R) m = covariance_matrix n rows) end.
  { unfold mat_of, covariance_matrix. rewrite map_map. apply map_ext_in. intros i Hi.
    rewrite map_map. apply map_ext_in. intros j Hj. apply in_seq0 in Hi. apply in_seq0 in Hj.
    unfold rows. rewrite <- cov_real by exact H. apply Qeq_eqR.
    rewrite cov_moments by (destruct (rows_of s); [congruence|discriminate]).
    rewrite H1, !H2, H3 by assumption. unfold mean_of, q_len.
    rewrite !map_map, !map_length. cbn [fst snd]. reflexivity. }
  rewrite EM. reflexivity.
Qed.
End Analysis.

Lemma eye_shape n k : has_shape n k (eye n k).
Proof.
  split; [unfold eye; now rewrite map_length, seq_length|].
  apply Forall_forall. intros r Hr. unfold eye in Hr. apply in_map_iff in Hr. destruct Hr as (i & <- & _).
  now rewrite map_length, seq_length.
Qed.

Lemma eye_column n k j : (j < k)%nat -> forall i, (i < n)%nat ->
  nth i (column j (eye n k)) 0 = if (i =? j)%nat then 1 else 0.
Proof.
  intros Hj i Hi. unfold column, eye. rewrite map_map.
  set (f := fun i => nth j _ 0).
  rewrite (nth_indep _ 0 (f 0%nat)) by (rewrite map_length, seq_length; lia).
  rewrite (map_nth f), seq_nth by lia. unfold f. cbn [plus].
  set (g := fun j => if (i =? j)%nat then 1 else 0).
  rewrite (nth_indep _ 0 (g 0%nat)) by (rewrite map_length, seq_length; lia).
  rewrite (map_nth g), seq_nth by lia. reflexivity.
Qed.

Lemma columns_length k m : length (columns k m) = k.
Proof. unfold columns. now rewrite map_length, seq_length. Qed.

Lemma eye_orthonormal n k : (k <= n)%nat -> orthonormal n (columns k (eye n k)).
Proof.
  intros Hk a b Ha Hb. rewrite columns_length in Ha, Hb. rewrite !columns_nth by assumption.
  unfold dot, sum_to.
  rewrite (sum_ext (seq 0 n) _ (fun i => (if (i =? b)%nat then 1 else 0) * (if (i =? a)%nat then 1 else 0))).
  - rewrite (sum_delta (seq 0 n) (fun i => if (i =? b)%nat then 1 else 0) a); [reflexivity|apply seq_NoDup|apply in_seq0; lia].
  - intros i Hi. apply in_seq0 in Hi. rewrite !eye_column by assumption. ring.
Qed.

(** Without rows, directions beyond the first [n] are zero. *)
Lemma eye_zero n k : (n < k)%nat -> ~ orthonormal n (columns k (eye n k)).
Proof.
  intros Hk H. specialize (H n n). rewrite columns_length in H. specialize (H Hk Hk).
  rewrite columns_nth in H by exact Hk. rewrite Nat.eqb_refl in H.
  unfold dot, sum_to in H. rewrite (sum_ext (seq 0 n) _ (fun _ => 0)) in H.
  - rewrite sum_zero in H. lra.
  - intros i Hi. apply in_seq0 in Hi. rewrite !eye_column by assumption.
    destruct (Nat.eqb_spec i n); [lia|ring].
Qed.

Lemma firstn_map' {A B} (f : A -> B) k l : firstn k (map f l) = map f (firstn k l).
Proof. revert l. induction k; intros [|a l]; cbn; congruence. Qed.

Lemma columns_taken k vecs idx : (k <= length idx)%nat ->
  columns k (map (firstn k) (take_columns vecs idx)) = map (fun q => column q vecs) (firstn k idx).
Proof.
  intros Hk. apply (nth_ext _ _ [] []).
  - unfold columns. rewrite !map_length, seq_length, firstn_length. lia.
  - intros a Ha. rewrite columns_length in Ha. rewrite columns_nth by exact Ha.
    assert (L : (a < length (firstn k idx))%nat) by (rewrite firstn_length; lia).
    rewrite (nth_indep _ [] (column 0 vecs)) by (rewrite map_length; exact L).
    rewrite (map_nth (fun q => column q vecs)).
    unfold column, take_columns. rewrite !map_map. apply map_ext. intros row.
    rewrite firstn_map'. set (f := fun j => nth j row 0).
    rewrite (nth_indep _ 0 (f 0%nat)) by (rewrite map_length; exact L).
    apply (map_nth f).
Qed.

Lemma taken_shape n k vecs idx : length vecs = n ->
  has_shape n (Nat.min k (length idx)) (map (firstn k) (take_columns vecs idx)).
Proof.
  intros H. unfold take_columns. rewrite map_map. split; [now rewrite map_length|].
  apply Forall_forall. intros r Hr. apply in_map_iff in Hr. destruct Hr as (row & <- & _).
  now rewrite firstn_length, map_length.
Qed.

Lemma pca_principal eigh argsort n k (s : sched (sched (list (list Q)))) :
  let rows := map (map Q2R) (rows_of s) in
  let p := pca eigh argsort n (Some k) s in
  numpy_right eigh argsort n rows -> rows_of s <> [] -> (k <= n)%nat ->
  has_shape n k p /\ orthonormal n (columns k p)
  /\ (forall a b, (a < k)%nat -> (b < k)%nat -> a <> b ->
      covariance_of rows (dot n (column a p)) (dot n (column b p)) = 0)
  /\ (forall a b, (a <= b < k)%nat ->
      variance_along n rows (column b p) <= variance_along n rows (column a p))
  /\ (forall us, length us = k -> orthonormal n us ->
      variance_retained n rows us <= variance_retained n rows (columns k p)).
Proof.
  intros rows p HN Hne Hk. unfold p. rewrite pca_of by exact Hne. fold rows. unfold numpy_right in HN.
  destruct (eigh (covariance_matrix n rows)) as [vals vecs]. destruct HN as [D Hs]. cbv zeta.
  set (q := map (firstn k) (take_columns vecs (rev (argsort vals)))).
  assert (OL : length (rev (argsort vals)) = n) by (apply (order_length n rows vals vecs (argsort vals) D Hs)).
  assert (E : columns k q = best vecs (argsort vals) k) by (apply columns_taken; lia).
  assert (Ec : forall a, (a < k)%nat -> column a q = nth a (best vecs (argsort vals) k) []).
  { intros a Ha. rewrite <- E. symmetry. now apply columns_nth. }
  split; [|split; [|split; [|split]]].
  - replace k with (Nat.min k (length (rev (argsort vals)))) at 1 by lia.
    apply taken_shape. apply D.
  - rewrite E. now apply (best_orthonormal n rows vals).
  - intros a b Ha Hb N. rewrite !Ec by assumption.
    rewrite (best_covariance n rows vals vecs (argsort vals) k D Hs Hk) by assumption.
    now rewrite (proj2 (Nat.eqb_neq a b) N).
  - intros a b [Hab Hb]. unfold variance_along. rewrite !Ec by lia.
    rewrite !(best_covariance n rows vals vecs (argsort vals) k D Hs Hk) by lia. rewrite !Nat.eqb_refl.
    apply (order_nth_descends n rows vals vecs (argsort vals) k D Hs Hk). lia.
  - intros us HL HO. rewrite E. now apply (best_maximal n rows vals).
Qed.

Lemma pca_too_many eigh argsort n k (s : sched (sched (list (list Q)))) :
  let rows := map (map Q2R) (rows_of s) in
  numpy_right eigh argsort n rows -> rows_of s <> [] -> (n <= k)%nat ->
  has_shape n n (pca eigh argsort n (Some k) s).
Proof.
  intros rows HN Hne Hk. rewrite pca_of by exact Hne. fold rows. unfold numpy_right in HN.
  destruct (eigh (covariance_matrix n rows)) as [vals vecs]. destruct HN as [D Hs]. cbv zeta.
  assert (OL : length (rev (argsort vals)) = n) by (apply (order_length n rows vals vecs (argsort vals) D Hs)).
  replace n with (Nat.min k (length (rev (argsort vals)))) at 2 by lia.
  apply taken_shape. apply D.
Qed.

Lemma shape_unique n k k' m : (0 < n)%nat -> has_shape n k m -> has_shape n k' m -> k = k'.
Proof.
  intros Hn [L F] [_ F']. destruct m as [|r m]; [cbn in L; lia|].
  inversion F; inversion F'; subst. congruence.
Qed.
