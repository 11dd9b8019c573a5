(** C03 (tft.mean / tft.var), C04 (weighted label statistics) and C05 (tft.covariance). *)
From Coq Require Import String List ZArith QArith Bool Lia Permutation.
From Verif Require Import CombineModel CombineProofs NumericModel NumericSpec FloatModel MeanVarModel MeanVarSpec MeanVarProofs.
From Verif Require Import WeightedModel WeightedSpec WeightedProofs.
Import ListNotations.
Open Scope Q_scope.

(** ** C03 *)

(** The mean and the (population) variance of the finite values of the column, for every way of
    batching, bundling and merging; batches may be empty and may hold NaN and infinities. *)
Theorem c03_mean_and_var_exact : forall s : sched (sched (list fl)),
  let vs := finites (rows_of s) in vs <> [] ->
  exists m v, mean_and_var s = [(Fin m, Fin v)] /\ m == mean_of vs /\ v == var_of vs.
Proof. exact mean_and_var_exact. Qed.
Print Assumptions c03_mean_and_var_exact.

Example c03_mean_and_var_exact_applies :
  let s := Merged (Bundle [Merged (Bundle [[Fin 1; NaN]; []]) [Bundle [[Fin 3; Fin 8]]]]) [Bundle [Bundle [[]]]; Bundle [Bundle [[Fin 0]]]] in
  finites (rows_of s) <> [] /\
  exists m v, mean_and_var s = [(Fin m, Fin v)] /\ m == 3 /\ v == 38 # 4.
Proof. split; [discriminate|]. eexists _, _. split; [vm_compute; reflexivity|]. split; reflexivity. Qed.

(** reduce_instance_dims=False, dense columns. *)
Theorem c03_mean_and_var_elementwise_exact : forall n (s : sched (sched (list (list fl)))) j,
  let vs := finites (concat (map (fun b => nth j b []) (batches_of s))) in vs <> [] ->
  exists m v, nth_error (mean_and_var_elementwise n s) j = Some (Fin m, Fin v) /\ m == mean_of vs /\ v == var_of vs.
Proof. exact mean_and_var_elementwise_exact. Qed.
Print Assumptions c03_mean_and_var_elementwise_exact.

Example c03_mean_and_var_elementwise_exact_applies :
  let s := Merged (Bundle [Bundle [[[Fin 1; Fin 2]; [NaN]]]]) [Bundle [Bundle [[[Fin 6]; [Fin 5]]]]] in
  exists m v, nth_error (mean_and_var_elementwise 2 s) 0 = Some (Fin m, Fin v) /\ m == 3 /\ v == 14 # 3.
Proof. eexists _, _. split; [vm_compute; reflexivity|]. split; reflexivity. Qed.

(** reduce_instance_dims=False, sparse columns of finite values. *)
Theorem c03_mean_and_var_sparse_exact : forall n (s : sched (sched (list (list fl)))),
  Forall (Forall (Forall (fun x => is_finite x = true))) (batches_of s) ->
  forall j, let vs := finites (concat (map (fun b => nth j b []) (batches_of s))) in vs <> [] ->
  exists m v, nth_error (mean_and_var_elementwise_sparse n s) j = Some (Fin m, Fin v) /\
    m == mean_of vs /\ v == var_of vs.
Proof. exact mean_and_var_sparse_exact. Qed.
Print Assumptions c03_mean_and_var_sparse_exact.

Example c03_mean_and_var_sparse_exact_applies :
  let s := Merged (Bundle [Bundle [[[Fin 1; Fin 2]; []]]]) [Bundle [Bundle [[[Fin 6]; [Fin 5]]]]] in
  Forall (Forall (Forall (fun x => is_finite x = true))) (batches_of s) /\
  exists m v, nth_error (mean_and_var_elementwise_sparse 2 s) 0 = Some (Fin m, Fin v) /\ m == 3 /\ v == 14 # 3.
Proof. split; [repeat constructor|]. eexists _, _. split; [vm_compute; reflexivity|]. split; reflexivity. Qed.

(** Finding: in sparse columns a NaN is left out of the count and of the mean, but enters the variance
    as if it were zero. *)
Theorem c03_sparse_nan_refuted :
  exists (s : sched (sched (list (list fl)))),
    let vs := finites (concat (map (fun b => nth 0 b []) (batches_of s))) in
    vs <> [] /\
    exists m v, nth_error (mean_and_var_elementwise_sparse 1 s) 0 = Some (Fin m, Fin v) /\ m == mean_of vs /\ ~ v == var_of vs.
Proof.
  exists (Bundle [Bundle [[[NaN; Fin 2]]]]). split; [discriminate|].
  eexists _, _. split; [vm_compute; reflexivity|]. split; [reflexivity|discriminate].
Qed.
Print Assumptions c03_sparse_nan_refuted.

(** ** C04 *)

(** The statistics of a token over all the rows in which it occurs, for every batching, every number of
    labels known to each batch and every merge tree: the number of rows, the mean weight, and for each
    label its share of the total weight (a label beyond the stored vector counts as zero, as in
    beam/analyzer_impls.py:767-769). *)
Theorem c04_weighted_label_statistics_exact : forall s : sched (sched (nat * list labelled)),
  let rows := all_rows (batches_of s) in
  Forall wf_batch (batches_of s) -> rows <> [] ->
  wm_count (token_statistics s) = Z.of_nat (List.length rows) /\
  (exists w, wm_weight (token_statistics s) = Fin w /\ w == total_weight rows / inject_Z (Z.of_nat (List.length rows))) /\
  (0 < total_weight rows ->
   forall j, exists m, nth j (wm_mean (token_statistics s)) (Fin 0) = Fin m /\ m == label_weight j rows / total_weight rows).
Proof. exact token_statistics_exact. Qed.
Print Assumptions c04_weighted_label_statistics_exact.

Example c04_weighted_label_statistics_exact_applies :
  let s := Merged (Bundle [Bundle [(2%nat, [Lab 0 1; Lab 1 3]); (1%nat, [Lab 0 0])]]) [Bundle [Bundle [(4%nat, [Lab 3 2])]]] in
  Forall wf_batch (batches_of s) /\ all_rows (batches_of s) <> [] /\ 0 < total_weight (all_rows (batches_of s)) /\
  exists m, nth 3 (wm_mean (token_statistics s)) (Fin 0) = Fin m /\ m == 2 # 6.
Proof.
  split; [repeat constructor; cbn; try discriminate; lia|]. split; [discriminate|]. split; [reflexivity|].
  eexists. split; [vm_compute; reflexivity|]. reflexivity.
Qed.

(** Finding: negative weights are not rejected, and break the statistics (a batch whose weights cancel
    yields an infinite mean, which the combiner turns into the largest float). *)
Theorem c04_negative_weights_refuted :
  exists s : sched (sched (nat * list labelled)),
    let rows := all_rows (batches_of s) in
    0 < total_weight rows /\
    exists m, nth 0 (wm_mean (token_statistics s)) (Fin 0) = Fin m /\ ~ m == label_weight 0 rows / total_weight rows.
Proof.
  exists (Bundle [Bundle [(2%nat, [Lab 0 1; Lab 1 (-1)]); (1%nat, [Lab 0 1])]]).
  split; [reflexivity|]. eexists. split; [vm_compute; reflexivity|]. vm_compute. discriminate.
Qed.
Print Assumptions c04_negative_weights_refuted.

(** ** C05 *)

(** Entry (i, j) of tft.covariance is the population covariance of columns i and j over all rows. *)
Theorem c05_covariance_exact : forall n (s : sched (sched (list (list Q)))),
  rows_of s <> [] -> forall i j, (i < n)%nat -> (j < n)%nat ->
  mat_nth (covariance n s) i j == cov_of (map (fun r => (nth i r 0, nth j r 0)) (rows_of s)).
Proof. exact covariance_exact. Qed.
Print Assumptions c05_covariance_exact.

Example c05_covariance_exact_applies :
  let s := Merged (Bundle [Bundle [[[1; 2]; [3; 5]]; []]]) [Bundle [Bundle [[[2; 5]]]]] in
  rows_of s <> [] /\ mat_nth (covariance 2 s) 0 1 == 1.
Proof. split; [discriminate|vm_compute; reflexivity]. Qed.

(** On an empty dataset the matrix is zero (it is not NaN). *)
Theorem c05_covariance_empty : forall n (s : sched (sched (list (list Q)))),
  rows_of s = [] -> forall i j, (i < n)%nat -> (j < n)%nat -> mat_nth (covariance n s) i j = 0.
Proof. exact covariance_empty. Qed.
Print Assumptions c05_covariance_empty.

Example c05_covariance_empty_applies :
  rows_of (Merged (Bundle [Bundle [[] : list (list Q)]]) [Bundle []]) = [].
Proof. reflexivity. Qed.

(** Finding: the inner products of integer columns are computed in the dtype of the column. *)
Theorem c05_integer_columns_refuted :
  exists d (s : sched (sched (list (list Q)))),
    rows_of s <> [] /\ Forall (Forall (fun q => exists z, q = inject_Z z /\ in_range d z)) (rows_of s) /\
    ~ mat_nth (covariance_int d 1 s) 0 0 == cov_of (map (fun r => (nth 0 r 0, nth 0 r 0)) (rows_of s)).
Proof.
  exists Int8, (Bundle [Bundle [[[100]]]]). split; [discriminate|]. split.
  - repeat constructor. exists 100%Z. split; [reflexivity|]. vm_compute. split; discriminate.
  - vm_compute. discriminate.
Qed.
Print Assumptions c05_integer_columns_refuted.
