(** C78: tft.scale_to_z_score of a tf.float32 column, from the batches to the scaled values. *)
From Coq Require Import List ZArith Reals Bool Lra Lia.
From Flocq Require Import Core BinarySingleNaN.
From Verif Require Import CombineModel IeeeModel IeeeSpec IeeeProofs IeeeScaleProofs IeeeZProofs IeeeExample IeeeProps FsumSpec FsumProofs FsumExample
  FmvModel FmvSpec FmvFloat FmvFormulas FmvProofs FmvBatch FmvAccuracy FmvExample FmvProps FzModel FzSpec FzProofs.
Import ListNotations.
Local Open Scope R_scope.

Section c78.
Variable reduce_sum : list f32 -> f32.
Hypothesis reduce_sum_adds : forall l, adds l (reduce_sum l).

(** Columns with values up to 2^100: the z-score of a value up to 2^126, of the column or not, is not NaN, and a
    greater value does not have a lower z-score. *)
Theorem c78_order (s : sched (sched (list f32))) (x y : f32) :
  Forall starts_with_value (elements s) ->
  (forall b, In b (batches_of s) -> (Z.of_nat (length b) <= 2 ^ 23)%Z) ->
  (Z.of_nat (length (concat (batches_of s))) <= 2 ^ 53)%Z ->
  (forall v, In v (concat (batches_of s)) -> is_finite v = true -> Rabs (B2R v) <= IZR (2 ^ 100)) ->
  ordinary (NF32 x) -> ordinary (NF32 y) -> B2R x <= B2R y ->
  is_nan (scale_to_z_score32 reduce_sum s x) = false /\
  Bleb (scale_to_z_score32 reduce_sum s x) (scale_to_z_score32 reduce_sum s y) = true.
Proof.
  intros S0 L T HX Ox Oy XY. change (IZR (2 ^ 100)) with (bpow radix2 100) in HX.
  destruct (mean_bounded reduce_sum reduce_sum_adds s S0 L T HX) as [FM BM].
  destruct (c77_variance reduce_sum reduce_sum_adds s S0 L T) as [_ (N & V & I)].
  unfold scale_to_z_score32. cbv zeta. set (mean := fst (mean_and_var32 reduce_sum s)) in *. set (var := snd (mean_and_var32 reduce_sum s)) in *.
  assert (Om : ordinary (NF32 mean)) by (split; [exact FM|cbn [val]; rewrite pow126; exact BM]).
  destruct (is_finite var) eqn:Fv; [apply c73_zscore_order; auto|].
  assert (Ev : var = B754_infinity false) by (destruct var as [b|b| |b m e H]; try discriminate; f_equal; apply (I eq_refl)).
  rewrite Ev. destruct Ox as [Fx Bx], Oy as [Fy By]. cbn [val] in Bx, By. rewrite pow126 in *.
  destruct (num_z mean FM BM x Fx Bx) as [F1 _]. destruct (num_z mean FM BM y Fy By) as [F2 _].
  destruct (z_inf mean x F1) as [b1 ->]. destruct (z_inf mean y F2) as [b2 ->]. split; reflexivity.
Qed.

(** The z-scores of a column of one value are 0. *)
Theorem c78_constant (s : sched (sched (list f32))) (c : R) (e : Z) (x : f32) :
  Forall starts_with_value (elements s) ->
  (forall b, In b (batches_of s) -> (Z.of_nat (length b) <= 2 ^ 23)%Z) ->
  (Z.of_nat (length (concat (batches_of s))) <= 2 ^ 53)%Z ->
  (-149 <= e <= 103)%Z -> (exists z, c = IZR z * bpow radix2 e) -> Rabs c <= IZR (2 ^ 126) ->
  (forall b, In b (batches_of s) -> IZR (Z.of_nat (length b)) * Rabs c <= IZR (2 ^ 24) * bpow radix2 e) ->
  (forall v, In v (concat (batches_of s)) -> is_finite v = true -> B2R v = c) ->
  In x (concat (batches_of s)) -> is_finite x = true ->
  is_finite (scale_to_z_score32 reduce_sum s x) = true /\ B2R (scale_to_z_score32 reduce_sum s x) = 0.
Proof.
  intros S0 L T He G HC HS HX Hx Fx.
  destruct (c77_constant reduce_sum reduce_sum_adds s c e S0 L T He G HS HX) as (Fm & Em & Fv & Ev); [exists x; auto|].
  unfold scale_to_z_score32. cbv zeta. apply c73_zscore_mean; auto.
  - split; [exact Fm|]. cbn [val]. rewrite Em. exact HC.
  - rewrite Ev. lra.
  - rewrite Em. apply HX; assumption.
Qed.

(** Values up to M in magnitude with standard deviation sigma, in N batches of at most B values: if single
    precision can tell the variance from zero, a z-score is off by at most twice the column's error times
    (M / sigma)^3. *)
Theorem c78_accuracy (s : sched (sched (list f32))) (M : R) (B : Z) (x : f32) :
  let l := finite_values (concat (batches_of s)) in
  let E := column_error B (length (batches_of s)) in
  Forall starts_with_value (elements s) ->
  (0 <= B <= 2 ^ 23)%Z -> (forall b, In b (batches_of s) -> (Z.of_nat (length b) <= B)%Z) ->
  (Z.of_nat (length (concat (batches_of s))) <= 2 ^ 53)%Z -> (Z.of_nat (length (batches_of s)) <= 2 ^ 40)%Z ->
  / IZR (2 ^ 50) <= M <= IZR (2 ^ 48) ->
  (forall v, In v (concat (batches_of s)) -> is_finite v = true -> Rabs (B2R v) <= M) ->
  2 * E * (M * M) <= var_R l ->
  is_finite x = true -> Rabs (B2R x) <= M ->
  is_finite (scale_to_z_score32 reduce_sum s x) = true /\
  Rabs (B2R (scale_to_z_score32 reduce_sum s x) - z_R l (B2R x)) <= 2 * E * (M / deviation l) ^ 3.
Proof.
  intros l E S0 HB L T HN HM HX HV Fx Bx.
  destruct (c77_variance_accuracy reduce_sum reduce_sum_adds s M B S0 HB L T HN HM HX) as [Fv Ev].
  assert (HM' : / IZR (2 ^ 100) <= M <= IZR (2 ^ 100)).
  { change (/ IZR (2 ^ 100)) with (bpow radix2 (-100)). change (IZR (2 ^ 100)) with (bpow radix2 100).
    change (/ IZR (2 ^ 50)) with (bpow radix2 (-50)) in HM. change (IZR (2 ^ 48)) with (bpow radix2 48) in HM.
    pose proof (bpow_le radix2 (-100) (-50) ltac:(lia)). pose proof (bpow_le radix2 48 100 ltac:(lia)). lra. }
  destruct (c77_mean_accuracy reduce_sum reduce_sum_adds s M B S0 HB L T HM' HX) as [Fm Em].
  change (/ IZR (2 ^ 50)) with (bpow radix2 (-50)) in HM. change (IZR (2 ^ 48)) with (bpow radix2 48) in HM.
  pose proof (bpow_gt_0 radix2 (-50)) as P50.
  fold l in Em, Ev. fold (column_error B (length (batches_of s))) in Ev. fold E in Ev.
  unfold scale_to_z_score32. cbv zeta. set (mean := fst (mean_and_var32 reduce_sum s)) in *. set (var := snd (mean_and_var32 reduce_sum s)) in *.
  assert (B0 : 0 <= IZR B) by (apply (IZR_le 0); lia). pose proof (pos_INR (length (batches_of s))) as N0.
  set (w := / IZR (2 ^ 23)) in *. assert (w0 : w = / 8388608) by reflexivity.
  assert (E40 : / IZR (2 ^ 40) = / 1099511627776) by reflexivity.
  assert (E48 : / IZR (2 ^ 48) = / 256 * / IZR (2 ^ 40)) by (rewrite <- Rinv_mult, <- mult_IZR; reflexivity).
  assert (EE : E = (28 * IZR B + 84) * w + INR (length (batches_of s)) * / IZR (2 ^ 40)) by reflexivity.
  set (q := / IZR (2 ^ 40)) in *. assert (q0 : 0 < q) by (rewrite E40; lra). set (n := INR (length (batches_of s))) in *.
  assert (nq : 0 <= n * q) by (apply Rmult_le_pos; lra).
  assert (El : 84 * w <= E) by (rewrite EE, w0; assert (0 <= IZR B * / 8388608) by (apply Rmult_le_pos; lra); lra).
  assert (E0 : 0 < E) by (rewrite w0 in El; lra).
  assert (Em' : Rabs (B2R mean - mean_R l) <= E * M / 28).
  { eapply Rle_trans; [exact Em|]. rewrite E48. replace (E * M / 28) with (E / 28 * M) by field.
    apply Rmult_le_compat_r; [lra|]. rewrite EE. replace (n * (/ 256 * q)) with (/ 256 * (n * q)) by ring. lra. }
  assert (LM : forall v, In v l -> Rabs v <= M).
  { intros v Hv. unfold l, finite_values in Hv. apply in_map_iff in Hv. destruct Hv as (f & <- & Hf). apply filter_In in Hf.
    apply HX; apply Hf. }
  assert (MU : Rabs (mean_R l) <= M) by (apply mean_R_le; [lra|exact LM]).
  assert (VM : var_R l <= M * M) by (apply var_R_le; [lra|exact LM]).
  assert (MM : 0 < M * M) by (apply Rmult_lt_0_compat; lra).
  assert (V0 : 0 < var_R l) by (assert (0 < E * (M * M)) by (apply Rmult_lt_0_compat; lra); lra).
  destruct (z_off (B2R x) (B2R mean) (B2R var) (mean_R l) (var_R l) M E V0 VM ltac:(lra) E0 ltac:(lra) Bx MU Em' Ev)
    as (v0 & k1 & Ek & Zb & Ze).
  fold (deviation l) in k1, Ek, Zb, Ze. set (k := M / deviation l) in *. fold (z_R l (B2R x)) in Ze. set (z0 := (B2R x - B2R mean) / sqrt (B2R var)) in *.
  assert (k16 : k <= 65536).
  { apply Rnot_lt_le. intro H. assert (84 * w * 65536 < E * k) by (apply Rmult_le_0_lt_compat || idtac; rewrite w0 in *; nra). rewrite w0 in *. lra. }
  assert (M126 : M <= IZR (2 ^ 126) / 2).
  { change (IZR (2 ^ 126)) with (bpow radix2 126). change 126%Z with (1 + 125)%Z. rewrite bpow_plus. change (bpow radix2 1) with 2.
    pose proof (bpow_le radix2 48 125 ltac:(lia)). lra. }
  assert (E12 : E <= / 2) by nra.
  destruct (c73_zscore mean var x) as [FZ EZ].
  - split; [exact Fm|]. cbn [val]. replace (B2R mean) with (mean_R l + (B2R mean - mean_R l)) by ring.
    eapply Rle_trans; [apply Rabs_triang|]. assert (E * M / 28 <= M) by nra. lra.
  - exact Fv.
  - exact v0.
  - split; [exact Fx|]. cbn [val]. lra.
  - eapply Rle_trans; [exact Zb|]. apply Rle_trans with (IZR (2 ^ 18)); [change (IZR (2 ^ 18)) with 262144; lra|apply IZR_le; lia].
  - split; [exact FZ|]. fold z0 in EZ.
    match goal with |- Rabs (?a - ?b) <= _ => replace (a - b) with ((a - z0) + (z0 - b)) by ring end.
    eapply Rle_trans; [apply Rabs_triang|].
    assert (T150 : bpow radix2 (-150) <= / 2097152 * k).
    { change (/ 2097152) with (bpow radix2 (-21)). pose proof (bpow_le radix2 (-150) (-21) ltac:(lia)). pose proof (bpow_gt_0 radix2 (-21)). nra. }
    assert (R1 : / 2097152 * Rabs z0 + bpow radix2 (-150) <= / 2097152 * (4 * k)) by lra.
    assert (R2 : / 2097152 * (4 * k) <= / 5 * (E * k)) by (rewrite w0 in El; nra).
    assert (R3 : E * k <= E * (k * k * k)).
    { apply Rmult_le_compat_l; [lra|]. assert (1 <= k * k) by nra. replace k with (1 * k) at 1 by ring. apply Rmult_le_compat_r; lra. }
    replace (2 * E * k ^ 3) with (2 * (E * (k * k * k))) by ring. lra.
Qed.
End c78.

(** Without the condition on first batches, a finite value of the column can have a NaN as its z-score. *)
Theorem c78_nan_refuted : exists s x,
  In x (concat (batches_of s)) /\ is_finite x = true /\ is_nan (scale_to_z_score32 left_sum s x) = true.
Proof.
  exists nan_first, (big32 1). split; [right; left; reflexivity|]. split; [reflexivity|]. vm_compute. reflexivity.
Qed.

(** * The hypotheses are met *)
Example c78_order_applies :
  Bleb (scale_to_z_score32 left_sum readings (int32 (-3))) (scale_to_z_score32 left_sum readings (int32 4)) = true.
Proof.
  apply (c78_order left_sum left_sum_adds readings (int32 (-3)) (int32 4) readings_start).
  - intros b Hb. cbn in Hb. repeat (destruct Hb as [<-|Hb]; [cbn; lia|]). destruct Hb.
  - cbn. lia.
  - intros x Hx Fx. cbn -[B2R int32] in Hx.
    assert (Q : forall z, (Z.abs z <= 4)%Z -> Rabs (B2R (int32 z)) <= IZR (2 ^ 100)).
    { intros z Hz. rewrite (proj2 (int32_ok z ltac:(lia))), <- abs_IZR. apply IZR_le. lia. }
    repeat (destruct Hx as [<-|Hx]; [try discriminate Fx; apply Q; lia|]). destruct Hx.
  - split; [apply (int32_ok (-3)); lia|]. cbn [val]. rewrite (proj2 (int32_ok (-3) ltac:(lia))), <- abs_IZR. apply IZR_le. lia.
  - split; [apply (int32_ok 4); lia|]. cbn [val]. rewrite (proj2 (int32_ok 4 ltac:(lia))), <- abs_IZR. apply IZR_le. lia.
  - rewrite (proj2 (int32_ok (-3) ltac:(lia))), (proj2 (int32_ok 4 ltac:(lia))). apply IZR_le. lia.
Qed.

Example c78_constant_applies : B2R (scale_to_z_score32 left_sum sevens (int32 7)) = 0.
Proof.
  apply (c78_constant left_sum left_sum_adds sevens 7 0 (int32 7) sevens_start).
  - intros b Hb. cbn in Hb. repeat (destruct Hb as [<-|Hb]; [cbn; lia|]). destruct Hb.
  - cbn. lia.
  - lia.
  - exists 7%Z. cbn. lra.
  - rewrite <- abs_IZR. apply IZR_le. lia.
  - intros b Hb. cbn in Hb. rewrite Rabs_pos_eq by lra. change (bpow radix2 0) with 1.
    repeat (destruct Hb as [<-|Hb]; [cbn; lra|]). destruct Hb.
  - intros x Hx Fx. cbn -[B2R int32] in Hx.
    repeat (destruct Hx as [<-|Hx]; [try discriminate Fx; apply (proj2 (int32_ok 7 ltac:(lia)))|]). destruct Hx.
  - left. reflexivity.
  - apply (int32_ok 7). lia.
Qed.

Example c78_accuracy_applies :
  Rabs (B2R (scale_to_z_score32 left_sum readings (int32 4)) - (4 - 2 / 3) / sqrt (74 / 9))
    <= 2 * (140 * / IZR (2 ^ 23) + 4 * / IZR (2 ^ 40)) * (4 / sqrt (74 / 9)) ^ 3.
Proof.
  assert (EL : finite_values (concat (batches_of readings)) = [1; 4; -3]).
  { change (finite_values (concat (batches_of readings))) with [B2R (int32 1); B2R (int32 4); B2R (int32 (-3))].
    rewrite !(fun z H => proj2 (int32_ok z H)) by lia. reflexivity. }
  assert (EV : var_R [1; 4; -3] = 74 / 9) by (unfold var_R, mean_R, sum_R; cbn; lra).
  assert (EM : mean_R [1; 4; -3] = 2 / 3) by (unfold mean_R, sum_R; cbn; lra).
  assert (EC : column_error 2 (length (batches_of readings)) = 140 * / IZR (2 ^ 23) + 4 * / IZR (2 ^ 40)).
  { unfold column_error. change (INR (length (batches_of readings))) with (1 + 1 + 1 + 1). replace (1 + 1 + 1 + 1) with 4 by lra.
    replace (28 * 2 + 84) with 140 by lra. reflexivity. }
  pose proof (c78_accuracy left_sum left_sum_adds readings 4 2 (int32 4)) as H. cbv zeta in H. unfold z_R, deviation in H.
  rewrite EL, EV, EM, EC, (proj2 (int32_ok 4 ltac:(lia))) in H. apply H; clear H.
  - exact readings_start.
  - lia.
  - intros b Hb. cbn in Hb. repeat (destruct Hb as [<-|Hb]; [cbn; lia|]). destruct Hb.
  - cbn. lia.
  - cbn. lia.
  - cbn. lra.
  - intros x Hx Fx. cbn -[B2R int32] in Hx.
    assert (Q : forall z, (Z.abs z <= 4)%Z -> Rabs (B2R (int32 z)) <= 4).
    { intros z Hz. rewrite (proj2 (int32_ok z ltac:(lia))), <- abs_IZR. apply IZR_le, Hz. }
    repeat (destruct Hx as [<-|Hx]; [try discriminate Fx; apply Q; lia|]). destruct Hx.
  - cbn. lra.
  - apply (int32_ok 4). lia.
  - rewrite Rabs_pos_eq; lra.
Qed.

Print Assumptions c78_order.
Print Assumptions c78_constant.
Print Assumptions c78_accuracy.
Print Assumptions c78_nan_refuted.
