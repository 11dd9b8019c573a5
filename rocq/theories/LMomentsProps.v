(** C57: L-moments, Tukey parameters and tft.scale_to_gaussian. *)
From Coq Require Import List ZArith QArith Qreals Reals Lra Permutation.
From Verif Require Import CombineModel FloatModel MeanVarSpec ZScoreModel TukeySpec
  LMomentsModel LMomentsSpec LMomentsProofs LMomentsMerge LMomentsTukey LMomentsExample.
Import ListNotations.
Local Open Scope Q_scope.

(** Whatever the batches are, and however they are scheduled and merged, the analysis of
    a column finds for r = 1, 2, 3, 4 the number of the r-element subsets of its values
    within batches, and their average contribution to the r-th L-moment. *)
Theorem c57_moments : forall s : sched (sched (list Q)),
  exists m, moments_reduced s = [m] /\ describes (batches_of s) m.
Proof. exact moments_reduced_right. Qed.

Example c57_moments_applies : exists m, moments_reduced two_workers = [m]
  /\ count_l1 m == 8 /\ l1 m == 33 # 8 /\ count_l2 m == 11 /\ l2 m == 2
  /\ count_l3 m == 10 /\ l3 m == 1 /\ count_l4 m == 5 /\ l4 m == 1
  /\ within 2 (batches_of two_workers) == 2 /\ within 4 (batches_of two_workers) == 1.
Proof. eexists. split; [vm_compute; reflexivity|]. repeat split; vm_compute; reflexivity. Qed.

(** The same for every column of dense batches (reduce_instance_dims=False). *)
Theorem c57_dense : forall n (s : sched (sched (nat * list (list Q)))),
  Forall (fun b => Forall (fun c => length c = fst b) (snd b)) (batches_of s) ->
  forall j, let bs := map (fun b => nth j (snd b) []) (batches_of s) in concat bs <> [] ->
  exists m, nth_error (moments_dense n s) j = Some m /\ describes bs m.
Proof. exact moments_dense_right. Qed.

Example c57_dense_applies :
  Forall (fun b => Forall (fun c => length c = fst b) (snd b)) (batches_of dense_batches)
  /\ exists m, nth_error (moments_dense 2 dense_batches) 1 = Some m
     /\ count_l1 m == 5 /\ l1 m == 12 # 5 /\ count_l2 m == 2 /\ l2 m == 5 # 4.
Proof.
  split; [repeat constructor|]. eexists. split; [vm_compute; reflexivity|].
  repeat split; vm_compute; reflexivity.
Qed.

(** The same for every column of sparse batches, whose columns have their own numbers of
    values and may be absent. *)
Theorem c57_sparse : forall n (s : sched (sched (list (list Q)))),
  forall j, let bs := map (fun b => nth j b []) (batches_of s) in concat bs <> [] ->
  exists m, nth_error (moments_sparse n s) j = Some m /\ describes bs m.
Proof. exact moments_sparse_right. Qed.

Example c57_sparse_applies : exists m, nth_error (moments_sparse 0 sparse_batches) 1 = Some m
  /\ count_l1 m == 3 /\ l1 m == 10 # 3 /\ count_l2 m == 1 /\ l2 m == 5 # 2.
Proof. eexists. split; [vm_compute; reflexivity|]. repeat split; vm_compute; reflexivity. Qed.

(** The first moment is the mean of the column for every batching; if all values are in
    one batch the moments are the L-moments of the column. *)
Theorem c57_mean_and_one_batch :
  (forall bs, concat bs <> [] -> within 1 bs == mean_of (concat bs))
  /\ (forall r xs, within r [xs] == l_moment r xs).
Proof. split; [exact within_1|]. intros r xs. rewrite one_batch. reflexivity. Qed.

Example c57_one_batch_applies : within 1 [[0; 4]; []; [2]] == 2
  /\ within 2 [[0; 1; 2; 3]] == 5 # 6 /\ within 4 [[0; 1; 2; 8]] == 5 # 4.
Proof. repeat split; vm_compute; reflexivity. Qed.

Local Open Scope R_scope.

(** The parameters are admissible, the scale is positive, and the Tukey HH distribution
    with these parameters has the mean of the column as its L-mean and the average within
    batches as its L-scale. *)
Theorem c57_parameters : forall skewness_error kurtosis_error (s : sched (sched (list Q))),
  let bs := batches_of s in
  concat bs <> [] -> settled (Q2R (l_kurtosis_within bs)) ->
  exists p, tukey_parameters skewness_error kurtosis_error s = Some p
  /\ 0 <= left_h p < 1 /\ 0 <= right_h p < 1 /\ 0 < scale p
  /\ loc p + scale p * hh_l_mean (left_h p) (right_h p) = Q2R (mean_of (concat bs))
  /\ ((0 < within 2 bs)%Q -> scale p * hh_l_scale (left_h p) (right_h p) = Q2R (within 2 bs))
  /\ ((within 2 bs == 0)%Q -> scale p = 1)
  /\ (Q2R (l_kurtosis_within bs) < 1226017 / 10000000 -> left_h p = 0 /\ right_h p = 0)
  /\ (gaussian_l_kurtosis <= Q2R (l_kurtosis_within bs) -> (0 < within 2 bs)%Q).
Proof. exact parameters_right. Qed.

Example c57_parameters_applies :
  settled (Q2R (l_kurtosis_within (batches_of heavy))) /\ (0 < within 2 (batches_of heavy))%Q.
Proof. split; [exact heavy_settled|vm_compute; reflexivity]. Qed.

(** If the L-kurtosis is below 0.1226017, tft.scale_to_gaussian is tft.scale_to_z_score. *)
Theorem c57_light_tails : forall skewness_error kurtosis_error (s t : sched (sched (list Q))) x,
  Permutation (concat (batches_of s)) (concat (batches_of t)) -> concat (batches_of s) <> [] ->
  Q2R (l_kurtosis_within (batches_of s)) < 1226017 / 10000000 ->
  scale_to_gaussian skewness_error kurtosis_error s t x
  = scale_to_z_score (map_sched (map_sched (map Fin)) t) x.
Proof. exact light_tails. Qed.

Example c57_light_tails_applies :
  Permutation (concat (batches_of together)) (concat (batches_of apart))
  /\ Q2R (l_kurtosis_within (batches_of together)) < 1226017 / 10000000.
Proof.
  split; [reflexivity|]. replace (Q2R (l_kurtosis_within (batches_of together))) with 0; [lra|].
  rewrite <- RMicromega.Q2R_0. apply Qeq_eqR. vm_compute. reflexivity.
Qed.

(** In particular if no batch has four values, however heavy the tails of the column. *)
Theorem c57_small_batches : forall skewness_error kurtosis_error (s t : sched (sched (list Q))) x,
  Permutation (concat (batches_of s)) (concat (batches_of t)) -> concat (batches_of s) <> [] ->
  Forall (fun b => (length b < 4)%nat) (batches_of s) ->
  scale_to_gaussian skewness_error kurtosis_error s t x
  = scale_to_z_score (map_sched (map_sched (map Fin)) t) x.
Proof.
  intros se ke s t x HP Hne H. apply light_tails; auto.
  rewrite (Qeq_eqR _ _ (small_batches_kurtosis _ H)), RMicromega.Q2R_0. lra.
Qed.

Example c57_small_batches_applies :
  Forall (fun b => (length b < 4)%nat) (batches_of apart) /\ concat (batches_of apart) <> [].
Proof. split; [repeat constructor|discriminate]. Qed.

(** The unit of a column does not matter: with a * x + b instead of x for a positive a,
    everywhere, tft.scale_to_gaussian returns the same values, if the column is not
    constant. *)
Theorem c57_units : forall skewness_error kurtosis_error a b (s t : sched (sched (list Q))) x,
  (0 < a)%Q ->
  Permutation (concat (batches_of s)) (concat (batches_of t)) ->
  ~ (var_of (concat (batches_of t)) == 0)%Q ->
  settled (Q2R (l_kurtosis_within (batches_of s))) ->
  scale_to_gaussian skewness_error kurtosis_error
    (map_sched (map_sched (map (fun x => a * x + b)%Q)) s)
    (map_sched (map_sched (map (fun x => a * x + b)%Q)) t) (a * x + b)%Q
  = scale_to_gaussian skewness_error kurtosis_error s t x
  /\ scale_to_gaussian skewness_error kurtosis_error s t x <> None.
Proof. exact affine_value. Qed.

Example c57_units_applies :
  ~ (var_of (concat (batches_of heavy)) == 0)%Q
  /\ settled (Q2R (l_kurtosis_within (batches_of heavy))).
Proof. split; [vm_compute; discriminate|exact heavy_settled]. Qed.

(** The parameters depend on the batches: the same four values give tft.tukey_scale a
    value above 1 in one batch, and 1 in four batches. *)
Theorem c57_batching_refuted : forall skewness_error kurtosis_error, exists s t p q,
  Permutation (concat (batches_of s)) (concat (batches_of t))
  /\ tukey_parameters skewness_error kurtosis_error s = Some p
  /\ tukey_parameters skewness_error kurtosis_error t = Some q
  /\ 1 < scale p /\ scale q = 1.
Proof.
  intros se ke. destruct (scales_differ se ke) as (p & q & H). exists together, apart, p, q.
  split; [reflexivity|exact H].
Qed.

Print Assumptions c57_moments.
Print Assumptions c57_dense.
Print Assumptions c57_sparse.
Print Assumptions c57_mean_and_one_batch.
Print Assumptions c57_parameters.
Print Assumptions c57_light_tails.
Print Assumptions c57_small_batches.
Print Assumptions c57_units.
Print Assumptions c57_batching_refuted.
