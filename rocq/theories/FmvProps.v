(** C77: tft.mean and tft.var of a tf.float32 column, NaNs and infinities left out, however the column is split
    into batches and bundles.  [starts_with_value] (FmvSpec): the first batch of each bundle has a value. *)
From Coq Require Import List ZArith Reals Bool Permutation Lra Lia.
From Flocq Require Import Core BinarySingleNaN.
From Verif Require Import CombineModel IeeeModel IeeeSpec IeeeProofs IeeeExample FsumSpec FsumProofs FsumExample
  FmvModel FmvSpec FmvFloat FmvFormulas FmvProofs FmvBatch FmvAccuracy FmvExample.
Import ListNotations.
Local Open Scope R_scope.

Section c77.
Variable reduce_sum : list f32 -> f32.
Hypothesis reduce_sum_adds : forall l, adds l (reduce_sum l).

(** Whatever the values: the mean is a number, and the variance is neither negative nor NaN. *)
Theorem c77_variance (s : sched (sched (list f32))) :
  Forall starts_with_value (elements s) ->
  (forall b, In b (batches_of s) -> (Z.of_nat (length b) <= 2 ^ 23)%Z) ->
  (Z.of_nat (length (concat (batches_of s))) <= 2 ^ 53)%Z ->
  is_finite (fst (mean_and_var32 reduce_sum s)) = true /\ nonnegative (snd (mean_and_var32 reduce_sum s)).
Proof.
  intros S0 L T. rewrite mean_and_var_whole. cbv zeta. cbn [fst snd].
  assert (KM : 0 <= max_single <= bpow radix2 128).
  { unfold max_single. pose proof (bpow_ge_0 radix2 104). pose proof (bpow_le radix2 104 128 ltac:(lia)). lra. }
  destruct (whole_inv (batch_fmv reduce_sum) max_single KM s S0) as (P & W & Rw).
  - apply Forall_forall. intros b Hb. apply batch_any; [exact reduce_sum_adds|apply L, Hb].
  - rewrite cnt_concat. pose proof (values_le (concat (batches_of s))). lia.
  - destruct (wide_mean _ W Rw) as (m & Em & Fm & Mm). destruct (wide_var _ W Rw) as (v & Ev & Nv & _).
    rewrite Em, Ev. cbn [as_f32]. split; [|apply cast_var, Nv].
    apply cast_mean; [exact Fm|]. rewrite <- Mm. apply (r_mean _ _ _ (p_rep _ _ _ _ P)).
Qed.

(** The mean of values up to M in magnitude, in N batches of at most B values, is off by at most
    ((B + 3) * 2^-23 + N * 2^-48) * M. *)
Theorem c77_mean_accuracy (s : sched (sched (list f32))) (M : R) (B : Z) :
  Forall starts_with_value (elements s) ->
  (0 <= B <= 2 ^ 23)%Z -> (forall b, In b (batches_of s) -> (Z.of_nat (length b) <= B)%Z) ->
  (Z.of_nat (length (concat (batches_of s))) <= 2 ^ 53)%Z ->
  / IZR (2 ^ 100) <= M <= IZR (2 ^ 100) ->
  (forall x, In x (concat (batches_of s)) -> is_finite x = true -> Rabs (B2R x) <= M) ->
  is_finite (fst (mean_and_var32 reduce_sum s)) = true /\
  Rabs (B2R (fst (mean_and_var32 reduce_sum s)) - mean_R (finite_values (concat (batches_of s))))
    <= ((IZR B + 3) * / IZR (2 ^ 23) + INR (length (batches_of s)) * / IZR (2 ^ 48)) * M.
Proof.
  intros S0 HB0 L T HM HX. rewrite mean_and_var_whole. cbv zeta. cbn [fst].
  change (/ IZR (2 ^ 100)) with (bpow radix2 (-100)) in HM. change (IZR (2 ^ 100)) with (bpow radix2 100) in HM.
  change (/ IZR (2 ^ 23)) with (bpow radix2 (-23)). change (/ IZR (2 ^ 48)) with (bpow radix2 (-48)).
  pose proof (bpow_gt_0 radix2 (-100)) as P100.
  destruct (whole_facts reduce_sum reduce_sum_adds s M B S0 HB0 L T HM HX) as (P & W & Rw).
  pose proof (mean_close reduce_sum reduce_sum_adds s M B S0 HB0 L T HM HX) as KL.
  destruct (wide_mean _ W Rw) as (m & Em & Fm & Mm). rewrite Em. cbn [as_f32].
  pose proof (r_mean _ _ _ (p_rep _ _ _ _ P)) as MB. rewrite Mm in *. set (l := batches_of s) in *.
  destruct (cast_mean m Fm) as [FC EC].
  { eapply Rle_trans; [exact MB|]. apply Rle_trans with (bpow radix2 102).
    - change 102%Z with (2 + 100)%Z. rewrite bpow_plus. change (bpow radix2 2) with 4. lra.
    - unfold max_single. assert (bpow radix2 128 = bpow radix2 24 * bpow radix2 104) as -> by (rewrite <- bpow_plus; reflexivity).
      change (bpow radix2 24) with 16777216. pose proof (bpow_le radix2 102 104 ltac:(lia)). pose proof (bpow_gt_0 radix2 102). lra. }
  split; [exact FC|]. rewrite EC. pose proof (rnd_err (B2R m)) as RE.
  replace (single (B2R m) - mean_R (finite_values (concat l)))
    with ((single (B2R m) - B2R m) + (B2R m - mean_R (finite_values (concat l)))) by ring.
  eapply Rle_trans; [apply Rabs_triang|]. eapply Rle_trans; [apply Rplus_le_compat; [exact RE|exact KL]|].
  assert (P24 : bpow radix2 (-24) = / 2 * bpow radix2 (-23)) by (change (-24)%Z with (-1 + -23)%Z; rewrite bpow_plus; reflexivity).
  assert (P150 : bpow radix2 (-150) <= / 8 * (bpow radix2 (-23) * M)).
  { apply Rle_trans with (bpow radix2 (-3) * (bpow radix2 (-23) * bpow radix2 (-100))).
    - rewrite <- !bpow_plus. apply bpow_le. lia.
    - change (bpow radix2 (-3)) with (/ 8). apply Rmult_le_compat_l; [lra|]. apply Rmult_le_compat_l; [apply bpow_ge_0|lra]. }
  pose proof (bpow_gt_0 radix2 (-23)) as P23. set (w := bpow radix2 (-23)) in *. rewrite P24.
  assert (/ 2 * w * Rabs (B2R m) <= / 2 * w * (3 * M)) by (apply Rmult_le_compat_l; [lra|exact MB]).
  assert (0 <= w * M) by (apply Rmult_le_pos; lra).
  replace (((IZR B + 3) * w + INR (length l) * bpow radix2 (-48)) * M)
    with ((IZR B * (w * M) + 3 * (w * M)) + bpow radix2 (-48) * M * INR (length l)) by ring.
  replace ((IZR B + 1) * w * M) with (IZR B * (w * M) + w * M) by ring. lra.
Qed.

(** The variance of values up to M in magnitude, in N batches of at most B values, is off by at most
    ((28 B + 84) * 2^-23 + N * 2^-40) * M^2. *)
Theorem c77_variance_accuracy (s : sched (sched (list f32))) (M : R) (B : Z) :
  Forall starts_with_value (elements s) ->
  (0 <= B <= 2 ^ 23)%Z -> (forall b, In b (batches_of s) -> (Z.of_nat (length b) <= B)%Z) ->
  (Z.of_nat (length (concat (batches_of s))) <= 2 ^ 53)%Z -> (Z.of_nat (length (batches_of s)) <= 2 ^ 40)%Z ->
  / IZR (2 ^ 50) <= M <= IZR (2 ^ 48) ->
  (forall x, In x (concat (batches_of s)) -> is_finite x = true -> Rabs (B2R x) <= M) ->
  is_finite (snd (mean_and_var32 reduce_sum s)) = true /\
  Rabs (B2R (snd (mean_and_var32 reduce_sum s)) - var_R (finite_values (concat (batches_of s))))
    <= ((28 * IZR B + 84) * / IZR (2 ^ 23) + INR (length (batches_of s)) * / IZR (2 ^ 40)) * (M * M).
Proof.
  intros S0 HB0 L T HN0 HM2 HX. rewrite mean_and_var_whole. cbv zeta. cbn [snd].
  change (/ IZR (2 ^ 50)) with (bpow radix2 (-50)) in HM2. change (IZR (2 ^ 48)) with (bpow radix2 48) in HM2.
  change (/ IZR (2 ^ 23)) with (bpow radix2 (-23)). change (/ IZR (2 ^ 40)) with (bpow radix2 (-40)).
  pose proof (bpow_gt_0 radix2 (-50)) as P50.
  assert (HM : bpow radix2 (-100) <= M <= bpow radix2 100).
  { pose proof (bpow_le radix2 (-100) (-50) ltac:(lia)). pose proof (bpow_le radix2 48 100 ltac:(lia)). lra. }
  assert (HN : INR (length (batches_of s)) <= bpow radix2 40) by (rewrite INR_IZR_INZ; change (bpow radix2 40) with (IZR (2 ^ 40)); apply IZR_le, HN0).
  destruct (whole_facts reduce_sum reduce_sum_adds s M B S0 HB0 L T HM HX) as (P & W & Rw).
  pose proof (var_close reduce_sum reduce_sum_adds s M B S0 HB0 L T HM HX HM2 HN) as VC.
  destruct (moment_close reduce_sum reduce_sum_adds s M B S0 HB0 L T HM HX HM2 HN) as [VB _].
  destruct (wide_var _ W Rw) as (v & Ev & Nv & _). rewrite Ev. cbn [as_f32].
  assert (MM : 0 < M * M) by (apply Rmult_lt_0_compat; lra).
  assert (MM1 : M * M <= bpow radix2 96) by (change 96%Z with (48 + 48)%Z; rewrite bpow_plus; apply Rmult_le_compat; lra).
  assert (MM2 : bpow radix2 (-100) <= M * M) by (change (-100)%Z with (-50 + -50)%Z; rewrite bpow_plus; apply Rmult_le_compat; lra).
  assert (V102 : 48 * (M * M) <= bpow radix2 102).
  { change 102%Z with (6 + 96)%Z. rewrite bpow_plus. change (bpow radix2 6) with 64. lra. }
  assert (Fv : is_finite v = true /\ var_of (whole (batch_fmv reduce_sum) s) = B2R v).
  { unfold var_of in *. rewrite Ev in *. cbn [np_nan_to_num as_f64] in *. destruct Nv as [[F _]|E].
    - split; [exact F|]. rewrite clean_id64 by exact F. reflexivity.
    - exfalso. subst v. assert (Q : bpow radix2 103 < B2R (clean prec64 emax64 (B754_infinity false))).
      { assert (E : B2R (clean prec64 emax64 (B754_infinity false)) = IZR (2 ^ 53 - 1) * bpow radix2 971) by reflexivity. rewrite E.
        apply Rlt_le_trans with (1 * bpow radix2 971); [rewrite Rmult_1_l; apply bpow_lt; lia|].
        apply Rmult_le_compat_r; [apply bpow_ge_0|apply IZR_le; lia]. }
      pose proof (bpow_le radix2 102 103 ltac:(lia)). lra. }
  destruct Fv as [Fv EV]. rewrite EV in *.
  assert (V0 : 0 <= B2R v) by (destruct Nv as [[_ V0]|E]; [exact V0|subst v; discriminate Fv]).
  destruct (cast_mean v Fv) as [FC EC].
  { rewrite Rabs_pos_eq by exact V0. eapply Rle_trans; [exact VB|]. eapply Rle_trans; [exact V102|].
    unfold max_single. assert (bpow radix2 128 = bpow radix2 24 * bpow radix2 104) as -> by (rewrite <- bpow_plus; reflexivity).
    change (bpow radix2 24) with 16777216. pose proof (bpow_le radix2 102 104 ltac:(lia)). pose proof (bpow_gt_0 radix2 102). lra. }
  split; [exact FC|]. rewrite EC. pose proof (rnd_err (B2R v)) as RE. set (l := batches_of s) in *.
  replace (single (B2R v) - var_R (finite_values (concat l)))
    with ((single (B2R v) - B2R v) + (B2R v - var_R (finite_values (concat l)))) by ring.
  eapply Rle_trans; [apply Rabs_triang|]. eapply Rle_trans; [apply Rplus_le_compat; [exact RE|exact VC]|].
  assert (P24 : bpow radix2 (-24) = / 2 * bpow radix2 (-23)) by (change (-24)%Z with (-1 + -23)%Z; rewrite bpow_plus; reflexivity).
  assert (P150 : bpow radix2 (-150) <= / 8 * (bpow radix2 (-23) * (M * M))).
  { apply Rle_trans with (bpow radix2 (-3) * (bpow radix2 (-23) * bpow radix2 (-100))).
    - rewrite <- !bpow_plus. apply bpow_le. lia.
    - change (bpow radix2 (-3)) with (/ 8). apply Rmult_le_compat_l; [lra|]. apply Rmult_le_compat_l; [apply bpow_ge_0|lra]. }
  pose proof (bpow_gt_0 radix2 (-23)) as P23. pose proof (bpow_gt_0 radix2 (-40)) as P40. set (w := bpow radix2 (-23)) in *. rewrite P24.
  rewrite (Rabs_pos_eq (B2R v)) by exact V0.
  assert (/ 2 * w * B2R v <= / 2 * w * (48 * (M * M))) by (apply Rmult_le_compat_l; [lra|exact VB]).
  assert (0 <= w * (M * M)) by (apply Rmult_le_pos; lra). pose proof (pos_INR (length l)) as PL.
  assert (0 <= INR (length l) * (bpow radix2 (-40) * (M * M))) by (apply Rmult_le_pos; [exact PL|apply Rmult_le_pos; lra]).
  set (n := INR (length l)) in *. set (e := bpow radix2 (-40)) in *.
  replace (((28 * IZR B + 84) * w + n * e) * (M * M)) with ((28 * IZR B + 84) * (w * (M * M)) + n * (e * (M * M))) by ring.
  replace (((28 * IZR B + 57) * w + n * (3 / 4 * e)) * (M * M)) with ((28 * IZR B + 57) * (w * (M * M)) + 3 / 4 * (n * (e * (M * M)))) by ring.
  lra.
Qed.

(** Values that are all equal to c, where c is a multiple of 2^e and adding a batch of them does not round:
    the mean is c and the variance zero. *)
Theorem c77_constant (s : sched (sched (list f32))) (c : R) (e : Z) :
  Forall starts_with_value (elements s) ->
  (forall b, In b (batches_of s) -> (Z.of_nat (length b) <= 2 ^ 23)%Z) ->
  (Z.of_nat (length (concat (batches_of s))) <= 2 ^ 53)%Z ->
  (-149 <= e <= 103)%Z -> (exists z, c = IZR z * bpow radix2 e) ->
  (forall b, In b (batches_of s) -> IZR (Z.of_nat (length b)) * Rabs c <= IZR (2 ^ 24) * bpow radix2 e) ->
  (forall x, In x (concat (batches_of s)) -> is_finite x = true -> B2R x = c) ->
  has_value (concat (batches_of s)) ->
  is_finite (fst (mean_and_var32 reduce_sum s)) = true /\ B2R (fst (mean_and_var32 reduce_sum s)) = c /\
  is_finite (snd (mean_and_var32 reduce_sum s)) = true /\ B2R (snd (mean_and_var32 reduce_sum s)) = 0.
Proof.
  intros S0 L T He G HS HX HV. rewrite mean_and_var_whole. cbv zeta. cbn [fst snd].
  assert (KM : 0 <= max_single <= bpow radix2 128).
  { unfold max_single. pose proof (bpow_ge_0 radix2 104). pose proof (bpow_le radix2 104 128 ltac:(lia)). lra. }
  assert (BC : forall b, In b (batches_of s) -> (0 < values_in b)%Z ->
    mean_of (batch_fmv reduce_sum b) = c /\ var_of (batch_fmv reduce_sum b) = 0).
  { intros b Hb V. apply (batch_const reduce_sum reduce_sum_adds e); auto.
    - eapply Rle_trans; [|apply HS, Hb]. apply Rmult_le_compat_r; [apply Rabs_pos|]. apply IZR_le, values_le.
    - intros x Hx. apply HX. apply in_concat. exists b. auto. }
  destruct (whole_inv (batch_fmv reduce_sum) max_single KM s S0) as (P & W & Rw).
  - apply Forall_forall. intros b Hb. apply batch_any; [exact reduce_sum_adds|apply L, Hb].
  - rewrite cnt_concat. pose proof (values_le (concat (batches_of s))). lia.
  - destruct (wide_mean _ W Rw) as (m & Em & Fm & Mm). destruct (wide_var _ W Rw) as (v & Ev & Nv & Zv).
    rewrite Em, Ev. cbn [as_f32]. destruct P as [RP _ GP CP _].
    assert (E : B2R m = c).
    { rewrite <- Mm. assert (Q : c <= mean_of (whole (batch_fmv reduce_sum) s) <= c); [|lra]. apply GP.
      - apply Forall_forall. intros b Hb V. destruct (BC b Hb V) as [-> _]. lra.
      - rewrite cnt_concat. apply has_value_pos, HV. }
    destruct Zv as [Fv Ev0].
    { apply (CP c). apply Forall_forall. intros b Hb V. apply BC; assumption. }
    destruct HV as (x0 & Hx0 & Fx0).
    destruct (cast_mean m Fm) as [FC EC]; [rewrite <- Mm; apply (r_mean _ _ _ RP)|].
    split; [exact FC|]. split; [rewrite EC, E, <- (HX x0 Hx0 Fx0); apply rnd_B2R|].
    destruct (cast_mean v Fv) as [FV EV]; [rewrite Ev0, Rabs_R0; apply KM|].
    split; [exact FV|]. rewrite EV, Ev0. apply rnd_0.
Qed.
End c77.

(** A bundle whose first batch has no value is combined in single precision from then on: the same batches in
    the same bundle, that batch second, have another mean, and the variance is negative. *)
Theorem c77_first_batch_refuted : exists s s',
  Permutation (batches_of s) (batches_of s') /\
  B2R (fst (mean_and_var32 left_sum s)) < B2R (fst (mean_and_var32 left_sum s')) - 1 /\
  is_finite (snd (mean_and_var32 left_sum s)) = true /\ B2R (snd (mean_and_var32 left_sum s)) < 0.
Proof.
  exists nan_first, nan_second. split; [apply perm_swap|].
  assert (E1 : fst (mean_and_var32 left_sum nan_first) = Bopp (@Bmax_float 24 128 prec32 emax32)) by (apply B2SF_inj; vm_compute; reflexivity).
  assert (E2 : fst (mean_and_var32 left_sum nan_second) = zero32) by (apply B2SF_inj; vm_compute; reflexivity).
  assert (E3 : snd (mean_and_var32 left_sum nan_first) = Bopp (@Bmax_float 24 128 prec32 emax32)) by (apply B2SF_inj; vm_compute; reflexivity).
  assert (Q : 1 < B2R (@Bmax_float 24 128 prec32 emax32)).
  { assert (E : B2R (@Bmax_float 24 128 prec32 emax32) = 16777215 * bpow radix2 104) by reflexivity. rewrite E.
    pose proof (bpow_le radix2 0 104 ltac:(lia)) as H. change (bpow radix2 0) with 1 in H. lra. }
  rewrite E1, E2, E3, B2R_Bopp. cbn [B2R zero32]. split; [lra|]. split; [reflexivity|lra].
Qed.

(** * The hypotheses are met *)
Lemma has_int z b : (Z.abs z <= 2 ^ 24)%Z -> has_value (int32 z :: b).
Proof. intro H. exists (int32 z). split; [left; reflexivity|apply int32_ok, H]. Qed.

Lemma readings_start : Forall starts_with_value (elements readings).
Proof. repeat constructor; apply has_int; lia. Qed.
Lemma sevens_start : Forall starts_with_value (elements sevens).
Proof. repeat constructor; apply has_int; lia. Qed.

Example c77_variance_applies :
  is_finite (fst (mean_and_var32 left_sum readings)) = true /\ nonnegative (snd (mean_and_var32 left_sum readings)).
Proof.
  apply (c77_variance left_sum left_sum_adds readings readings_start).
  - intros b Hb. cbn in Hb. repeat (destruct Hb as [<-|Hb]; [cbn; lia|]). destruct Hb.
  - cbn. lia.
Qed.

Example c77_mean_accuracy_applies :
  Rabs (B2R (fst (mean_and_var32 left_sum readings)) - 2 / 3) <= (5 * / IZR (2 ^ 23) + 4 * / IZR (2 ^ 48)) * 4.
Proof.
  destruct (c77_mean_accuracy left_sum left_sum_adds readings 4 2 readings_start) as [_ H].
  - lia.
  - intros b Hb. cbn in Hb. repeat (destruct Hb as [<-|Hb]; [cbn; lia|]). destruct Hb.
  - cbn. lia.
  - cbn. lra.
  - intros x Hx Fx. cbn -[B2R int32] in Hx.
    assert (Q : forall z, (Z.abs z <= 4)%Z -> Rabs (B2R (int32 z)) <= 4).
    { intros z Hz. rewrite (proj2 (int32_ok z ltac:(lia))), <- abs_IZR. apply IZR_le, Hz. }
    repeat (destruct Hx as [<-|Hx]; [try discriminate Fx; apply Q; lia|]). destruct Hx.
  - assert (E : mean_R (finite_values (concat (batches_of readings))) = 2 / 3).
    { change (finite_values (concat (batches_of readings))) with [B2R (int32 1); B2R (int32 4); B2R (int32 (-3))].
      rewrite !(fun z H => proj2 (int32_ok z H)) by lia. unfold mean_R, sum_R. cbn. lra. }
    rewrite E in H. cbn [length INR] in H. replace (IZR 2 + 3) with 5 in H by lra.
    change (INR (length (batches_of readings))) with (1 + 1 + 1 + 1) in H. replace (1 + 1 + 1 + 1) with 4 in H by lra. exact H.
Qed.

Example c77_variance_accuracy_applies :
  Rabs (B2R (snd (mean_and_var32 left_sum readings)) - 74 / 9) <= (140 * / IZR (2 ^ 23) + 4 * / IZR (2 ^ 40)) * 16.
Proof.
  destruct (c77_variance_accuracy left_sum left_sum_adds readings 4 2 readings_start) as [_ H].
  - lia.
  - intros b Hb. cbn in Hb. repeat (destruct Hb as [<-|Hb]; [cbn; lia|]). destruct Hb.
  - cbn. lia.
  - cbn. lia.
  - cbn. lra.
  - intros x Hx Fx. cbn -[B2R int32] in Hx.
    assert (Q : forall z, (Z.abs z <= 4)%Z -> Rabs (B2R (int32 z)) <= 4).
    { intros z Hz. rewrite (proj2 (int32_ok z ltac:(lia))), <- abs_IZR. apply IZR_le, Hz. }
    repeat (destruct Hx as [<-|Hx]; [try discriminate Fx; apply Q; lia|]). destruct Hx.
  - assert (E : var_R (finite_values (concat (batches_of readings))) = 74 / 9).
    { change (finite_values (concat (batches_of readings))) with [B2R (int32 1); B2R (int32 4); B2R (int32 (-3))].
      rewrite !(fun z H => proj2 (int32_ok z H)) by lia. unfold var_R, mean_R, sum_R. cbn. lra. }
    rewrite E in H. cbn [length INR] in H. replace (28 * IZR 2 + 84) with 140 in H by lra.
    change (INR (length (batches_of readings))) with (1 + 1 + 1 + 1) in H. replace (1 + 1 + 1 + 1) with 4 in H by lra.
    replace (4 * 4) with 16 in H by lra. exact H.
Qed.

Example c77_constant_applies :
  B2R (fst (mean_and_var32 left_sum sevens)) = 7 /\ B2R (snd (mean_and_var32 left_sum sevens)) = 0.
Proof.
  destruct (c77_constant left_sum left_sum_adds sevens 7 0 sevens_start) as (_ & A & _ & B).
  - intros b Hb. cbn in Hb. repeat (destruct Hb as [<-|Hb]; [cbn; lia|]). destruct Hb.
  - cbn. lia.
  - lia.
  - exists 7%Z. cbn. lra.
  - intros b Hb. cbn in Hb. rewrite Rabs_pos_eq by lra. change (bpow radix2 0) with 1.
    repeat (destruct Hb as [<-|Hb]; [cbn; lra|]). destruct Hb.
  - intros x Hx Fx. cbn -[B2R int32] in Hx.
    repeat (destruct Hx as [<-|Hx]; [try discriminate Fx; apply (proj2 (int32_ok 7 ltac:(lia)))|]). destruct Hx.
  - apply has_int. lia.
  - split; assumption.
Qed.

Print Assumptions c77_variance.
Print Assumptions c77_mean_accuracy.
Print Assumptions c77_variance_accuracy.
Print Assumptions c77_constant.
Print Assumptions c77_first_batch_refuted.
