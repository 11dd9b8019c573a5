(** C75: tft.sum of a tf.float32 column, however the column is split into batches and whatever order the
    numbers are added in.  Every addition rounds; [adds] (FsumSpec) says that an outcome is obtained by
    rounded additions in some order.  Nothing else is assumed of tf.reduce_sum and np.sum. *)
From Coq Require Import List ZArith Reals Permutation Bool Lra Lia.
From Flocq Require Import Core BinarySingleNaN.
From Verif Require Import CombineModel IeeeModel IeeeSpec IeeeProofs IeeeExample FsumModel FsumSpec FsumProofs FsumExample.
Import ListNotations.
Local Open Scope R_scope.

Section c75.
Variable reduce_sum np_sum : list f32 -> f32.
Hypothesis reduce_sum_adds : forall l, adds l (reduce_sum l).
Hypothesis np_sum_adds : forall l, adds l (np_sum l).

(** Up to 2^23 numbers of moderate size: no overflow, and the sum is off by at most n * 2^-23 times the sum
    of the magnitudes. *)
Theorem c75_accuracy (s : sched (sched (list f32))) :
  let l := concat (batches_of s) in
  all_finite32 l -> (Z.of_nat (length l) <= 2 ^ 23)%Z -> magnitude l <= IZR (2 ^ 126) ->
  is_finite (sum32 reduce_sum np_sum s) = true
  /\ Rabs (B2R (sum32 reduce_sum np_sum s) - total l) <= INR (length l) * / IZR (2 ^ 23) * magnitude l.
Proof.
  intros l F L M. rewrite pow2 in M by lia.
  assert (L' : (length l <= 2 ^ 23)%nat).
  { apply Nat2Z.inj_le. rewrite Nat2Z.inj_pow. exact L. }
  destruct (sum_of_error l _ (sum32_rep reduce_sum np_sum reduce_sum_adds np_sum_adds s) F L' M) as [A B].
  split; [exact A|]. eapply Rle_trans; [exact B|]. apply Rmult_le_compat_r; [apply magnitude_pos|].
  pose proof (error_lin _ L') as E. exact E.
Qed.

(** The same numbers, batched and scheduled in two ways, give sums that differ by at most twice that. *)
Theorem c75_schedules (s s' : sched (sched (list f32))) :
  let l := concat (batches_of s) in
  Permutation l (concat (batches_of s')) ->
  all_finite32 l -> (Z.of_nat (length l) <= 2 ^ 23)%Z -> magnitude l <= IZR (2 ^ 126) ->
  Rabs (B2R (sum32 reduce_sum np_sum s) - B2R (sum32 reduce_sum np_sum s'))
    <= 2 * INR (length l) * / IZR (2 ^ 23) * magnitude l.
Proof.
  intros l P F L M. destruct (c75_accuracy s F L M) as [_ E]. fold l in E.
  assert (E' : Rabs (B2R (sum32 reduce_sum np_sum s') - total l) <= INR (length l) * / IZR (2 ^ 23) * magnitude l).
  { rewrite (total_perm _ _ P), (magnitude_perm _ _ P), (Permutation_length P). apply c75_accuracy.
    - eapply finite_perm; [apply Permutation_sym, P|exact F].
    - rewrite <- (Permutation_length P). exact L.
    - rewrite <- (magnitude_perm _ _ P). exact M. }
  replace (B2R (sum32 reduce_sum np_sum s) - B2R (sum32 reduce_sum np_sum s'))
    with ((B2R (sum32 reduce_sum np_sum s) - total l) - (B2R (sum32 reduce_sum np_sum s') - total l)) by ring.
  eapply Rle_trans; [apply Rabs_triang|]. rewrite Rabs_Ropp. lra.
Qed.

(** Numbers that are multiples of one power of two, and small enough beside it, are added without any
    rounding, in every order: whole numbers (e = 0) up to 2^24 in all, for instance. *)
Theorem c75_exact (e : Z) (s : sched (sched (list f32))) :
  let l := concat (batches_of s) in
  (-149 <= e <= 103)%Z ->
  all_finite32 l -> (forall x, In x l -> exists z, B2R x = IZR z * bpow radix2 e) ->
  magnitude l <= IZR (2 ^ 24) * bpow radix2 e ->
  is_finite (sum32 reduce_sum np_sum s) = true /\ B2R (sum32 reduce_sum np_sum s) = total l.
Proof.
  intros l He F G M.
  destruct (sum_of_exact e l _ He (sum32_rep reduce_sum np_sum reduce_sum_adds np_sum_adds s) F G M) as (A & B & _).
  auto.
Qed.

(** One NaN makes the sum NaN. *)
Theorem c75_nan (s : sched (sched (list f32))) :
  In nan32 (concat (batches_of s)) -> sum32 reduce_sum np_sum s = nan32.
Proof. apply sum_of_nan, sum32_rep; assumption. Qed.
End c75.

(** A column without rows sums to zero, in however many bundles. *)
Theorem c75_empty (reduce_sum np_sum : list f32 -> f32) (s : sched (sched (list f32))) :
  (forall l, adds l (reduce_sum l)) -> (forall l, adds l (np_sum l)) ->
  concat (batches_of s) = [] -> B2R (sum32 reduce_sum np_sum s) = 0.
Proof.
  intros Hr Hn E.
  pose proof (c75_exact reduce_sum np_sum Hr Hn 0 s) as H. cbv zeta in H. rewrite E in H. destruct H as [_ B].
  - lia.
  - intros x [].
  - intros x [].
  - change (bpow radix2 0) with 1. rewrite Rmult_1_r. apply IZR_le. lia.
  - exact B.
Qed.

(** How the rows are batched changes the sum of the same rows. *)
Theorem c75_same_refuted : exists s s',
  concat (batches_of s) = concat (batches_of s')
  /\ B2R (sum32 left_sum left_sum s) <> B2R (sum32 left_sum left_sum s').
Proof.
  exists one_by_one, ones_together. split; [reflexivity|].
  assert (E1 : sum32 left_sum left_sum one_by_one = int32 16777216) by (apply B2SF_inj; vm_compute; reflexivity).
  assert (E2 : sum32 left_sum left_sum ones_together = mk32 16777218 0) by (apply B2SF_inj; vm_compute; reflexivity).
  rewrite E1, E2. rewrite (proj2 (int32_ok 16777216 ltac:(lia))). vm_compute. lra.
Qed.

(** The error is not small beside the sum itself: rows that add up to one can sum to zero. *)
Theorem c75_relative_refuted : exists s,
  total (concat (batches_of s)) = 1 /\ B2R (sum32 left_sum left_sum s) = 0.
Proof.
  exists cancelling. split.
  - cbn -[B2R int32]. unfold total. cbn [fold_right]. rewrite !(fun z H => proj2 (int32_ok z H)) by lia. lra.
  - assert (E : sum32 left_sum left_sum cancelling = zero32) by (apply B2SF_inj; vm_compute; reflexivity).
    rewrite E. reflexivity.
Qed.

(** * The hypotheses are met *)
Lemma small_finite : all_finite32 (concat (batches_of small_column)).
Proof. intros x H. cbn -[B2R int32] in H. repeat (destruct H as [<-|H]; [apply int32_ok; lia|]). destruct H. Qed.

Lemma small_magnitude : magnitude (concat (batches_of small_column)) = 10.
Proof.
  cbn -[B2R int32]. unfold magnitude. cbn [fold_right]. rewrite !(fun z H => proj2 (int32_ok z H)) by lia.
  rewrite <- !abs_IZR. cbn. lra.
Qed.

Example c75_accuracy_applies :
  is_finite (sum32 left_sum left_sum small_column) = true
  /\ Rabs (B2R (sum32 left_sum left_sum small_column) - total (concat (batches_of small_column)))
     <= 4 * / IZR (2 ^ 23) * 10.
Proof.
  destruct (c75_accuracy left_sum left_sum left_sum_adds left_sum_adds small_column) as [A B].
  - exact small_finite.
  - cbn. lia.
  - rewrite small_magnitude. apply IZR_le. lia.
  - split; [exact A|]. rewrite small_magnitude in B. replace (INR _) with 4 in B by (cbn; lra). exact B.
Qed.

Example c75_schedules_applies :
  Rabs (B2R (sum32 left_sum left_sum one_by_one) - B2R (sum32 left_sum left_sum ones_together)) <= 2 * 3 * / IZR (2 ^ 23) * 16777218.
Proof.
  assert (M : magnitude (concat (batches_of one_by_one)) = 16777218).
  { cbn -[B2R int32]. unfold magnitude. cbn [fold_right]. rewrite !(fun z H => proj2 (int32_ok z H)) by lia.
    rewrite <- !abs_IZR. cbn. lra. }
  pose proof (c75_schedules left_sum left_sum left_sum_adds left_sum_adds one_by_one ones_together) as B.
  cbv zeta in B. rewrite M in B. replace (INR _) with 3 in B by (cbn; lra). apply B.
  - apply Permutation_refl.
  - intros x H. cbn -[B2R int32] in H. repeat (destruct H as [<-|H]; [apply int32_ok; lia|]). destruct H.
  - cbn. lia.
  - apply IZR_le. lia.
Qed.

Example c75_exact_applies : B2R (sum32 left_sum left_sum small_column) = 2.
Proof.
  assert (W : forall z, (Z.abs z <= 2 ^ 24)%Z -> exists k, B2R (int32 z) = IZR k * 1).
  { intros z Hz. exists z. rewrite Rmult_1_r. apply int32_ok, Hz. }
  destruct (c75_exact left_sum left_sum left_sum_adds left_sum_adds 0 small_column) as [_ B].
  - lia.
  - exact small_finite.
  - intros x H. cbn -[B2R int32] in H. change (bpow radix2 0) with 1.
    repeat (destruct H as [<-|H]; [apply W; lia|]). destruct H.
  - rewrite small_magnitude. change (bpow radix2 0) with 1. rewrite Rmult_1_r. apply IZR_le. lia.
  - rewrite B. cbn -[B2R int32]. unfold total. cbn [fold_right]. rewrite !(fun z H => proj2 (int32_ok z H)) by lia. lra.
Qed.

Example c75_nan_applies : sum32 left_sum left_sum (Bundle [Bundle [[int32 3]; [nan32; int32 1]]]) = nan32.
Proof. apply (c75_nan left_sum left_sum left_sum_adds left_sum_adds). cbn. auto. Qed.

Example c75_empty_applies : B2R (sum32 left_sum left_sum (Bundle [Bundle [[]; []]; Bundle []])) = 0.
Proof. apply c75_empty; [exact left_sum_adds|exact left_sum_adds|reflexivity]. Qed.

Print Assumptions c75_accuracy.
Print Assumptions c75_schedules.
Print Assumptions c75_exact.
Print Assumptions c75_nan.
Print Assumptions c75_empty.
Print Assumptions c75_same_refuted.
Print Assumptions c75_relative_refuted.
