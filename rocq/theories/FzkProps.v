(** C83: tft.scale_to_z_score_per_key of a tf.float32 column, from the batches to the scaled values.  [of_key],
    [key_batches] and [clear_variance] (FzkSpec): the values of a key, those values batch by batch, and a batch whose
    variance single precision can tell from zero. *)
From Coq Require Import String List ZArith Reals Bool Permutation Lra Lia.
From Flocq Require Import Core BinarySingleNaN.
From Verif Require Import CombineModel MeanVarModel PerKeyModel IeeeModel IeeeSpec IeeeProofs IeeeScaleProofs IeeeZProofs IeeeExample IeeeProps
  FsumSpec FsumProofs FsumExample FmvModel FmvSpec FmvProofs FzModel FzSpec FzProofs
  FzkModel FzkSpec FzkBatch FzkInv FzkGen FzkProofs FzkExample.
Import ListNotations.
Local Open Scope R_scope.

Section c83.
Variable segment_sum : list f32 -> f32.
Hypothesis segment_sum_adds : forall l, adds l (segment_sum l).

(** Values of a key up to M in magnitude, in N batches of at most B values each, with standard deviation sigma.  If single
    precision can tell the variance of the key, and of each batch, from zero, a z-score is off by at most twice the
    column's error times (M / sigma)^3. *)
Theorem c83_accuracy (bs : list (list (string * f32))) (sch : string -> sched (sched fmv)) (keys : list string)
    (k : string) (x : f32) (M : R) (B : Z) :
  let l := finite_values (of_key k (concat bs)) in
  let E := column_error B (length (key_batches k bs)) in
  NoDup keys -> In k keys ->
  Permutation (batches_of (sch k)) (inputs_of_key k (map (batch_fmv_per_key segment_sum) bs)) ->
  (forall b, In b (key_batches k bs) -> clear_variance B M b /\ (Z.of_nat (length b) <= B)%Z) ->
  (0 <= B <= 2 ^ 23)%Z -> (Z.of_nat (length (of_key k (concat bs))) <= 2 ^ 53)%Z -> (Z.of_nat (length (key_batches k bs)) <= 2 ^ 40)%Z ->
  / IZR (2 ^ 50) <= M <= IZR (2 ^ 48) ->
  (forall v, In v (of_key k (concat bs)) -> is_finite v = true -> Rabs (B2R v) <= M) ->
  2 * E * (M * M) <= var_R l ->
  is_finite x = true -> Rabs (B2R x) <= M ->
  let (vocab, results) := per_key_analysis key_mean_and_var32 sch keys in
  exists y, scale_to_z_score_per_key32 vocab results k x = Some y /\ is_finite y = true /\
    Rabs (B2R y - z_R l (B2R x)) <= 2 * E * (M / deviation l) ^ 3.
Proof.
  intros l E ND K HP HB HB0 T HN HM HX HV Fx Bx.
  pose proof (entries key_mean_and_var32 sch keys k (fun _ => (zero32, zero32)) ND) as EN.
  destruct (per_key_analysis _ _ _) as [vocab results]. destruct EN as [EN _]. unfold scale_to_z_score_per_key32. rewrite (EN K). cbn [option_map].
  destruct (key_output segment_sum segment_sum_adds bs k (sch k) HP T M B HB0
    (fun b H => proj2 (HB b H)) HN HM HX (fun b H => proj1 (HB b H))) as (Fm & Em & Fv & _ & Ev).
  eexists. split; [reflexivity|]. apply (zscore_close _ _ x l M B (length (key_batches k bs))); auto; [lia|].
  intros v Hv. unfold l, finite_values in Hv. apply in_map_iff in Hv as (f & <- & Hf). apply filter_In in Hf as [H1 H2]. apply HX; assumption.
Qed.

(** Whatever the variance of the key, if that of each batch is clear: the z-score of a value is not NaN, and a greater
    value does not have a lower z-score. *)
Theorem c83_order (bs : list (list (string * f32))) (sch : string -> sched (sched fmv)) (keys : list string)
    (k : string) (x y : f32) (M : R) (B : Z) :
  NoDup keys -> In k keys ->
  Permutation (batches_of (sch k)) (inputs_of_key k (map (batch_fmv_per_key segment_sum) bs)) ->
  (forall b, In b (key_batches k bs) -> clear_variance B M b /\ (Z.of_nat (length b) <= B)%Z) ->
  (0 <= B <= 2 ^ 23)%Z -> (Z.of_nat (length (of_key k (concat bs))) <= 2 ^ 53)%Z -> (Z.of_nat (length (key_batches k bs)) <= 2 ^ 40)%Z ->
  / IZR (2 ^ 50) <= M <= IZR (2 ^ 48) ->
  (forall v, In v (of_key k (concat bs)) -> is_finite v = true -> Rabs (B2R v) <= M) ->
  ordinary (NF32 x) -> ordinary (NF32 y) -> B2R x <= B2R y ->
  let (vocab, results) := per_key_analysis key_mean_and_var32 sch keys in
  exists zx zy, scale_to_z_score_per_key32 vocab results k x = Some zx /\ scale_to_z_score_per_key32 vocab results k y = Some zy /\
    is_nan zx = false /\ Bleb zx zy = true.
Proof.
  intros ND K HP HB HB0 T HN HM HX Ox Oy XY.
  pose proof (entries key_mean_and_var32 sch keys k (fun _ => (zero32, zero32)) ND) as EN.
  destruct (per_key_analysis _ _ _) as [vocab results]. destruct EN as [EN _]. unfold scale_to_z_score_per_key32. rewrite (EN K). cbn [option_map].
  destruct (key_output segment_sum segment_sum_adds bs k (sch k) HP T M B HB0
    (fun b H => proj2 (HB b H)) HN HM HX (fun b H => proj1 (HB b H))) as (Fm & Em & Fv & Pv & _).
  eexists. eexists. split; [reflexivity|]. split; [reflexivity|]. apply c73_zscore_order; auto.
  split; [exact Fm|]. cbn [val]. set (mean := fst (key_mean_and_var32 (sch k))) in *. set (l := finite_values (of_key k (concat bs))) in *.
  change (/ IZR (2 ^ 50)) with (bpow radix2 (-50)) in HM. change (IZR (2 ^ 48)) with (bpow radix2 48) in HM.
  pose proof (bpow_gt_0 radix2 (-50)) as P50.
  assert (MU : Rabs (mean_R l) <= M).
  { apply mean_R_le; [lra|]. intros v Hv. unfold l, finite_values in Hv. apply in_map_iff in Hv as (f & <- & Hf). apply filter_In in Hf as [H1 H2]. apply HX; assumption. }
  assert (B23 : IZR B <= IZR (2 ^ 23)) by (apply IZR_le; lia).
  assert (N40 : INR (length (key_batches k bs)) <= IZR (2 ^ 40)) by (rewrite INR_IZR_INZ; apply IZR_le, HN).
  assert (C : (IZR B + 3) * / IZR (2 ^ 23) + INR (length (key_batches k bs)) * / IZR (2 ^ 48) <= 3).
  { change (/ IZR (2 ^ 23)) with (/ 8388608). change (/ IZR (2 ^ 48)) with (/ 281474976710656).
    change (IZR (2 ^ 23)) with 8388608 in B23. change (IZR (2 ^ 40)) with 1099511627776 in N40. lra. }
  assert (D : Rabs (B2R mean - mean_R l) <= 3 * M) by (eapply Rle_trans; [exact Em|]; apply Rmult_le_compat_r; lra).
  replace (B2R mean) with (mean_R l + (B2R mean - mean_R l)) by ring. eapply Rle_trans; [apply Rabs_triang|].
  apply Rle_trans with (bpow radix2 2 * bpow radix2 48); [change (bpow radix2 2) with 4; lra|].
  rewrite <- bpow_plus. change (IZR (2 ^ 126)) with (bpow radix2 126). apply bpow_le. lia.
Qed.

(** The z-scores of a key with one value only, c, are 0 if neither adding the values of a batch nor adding their squares
    rounds. *)
Theorem c83_constant (bs : list (list (string * f32))) (sch : string -> sched (sched fmv)) (keys : list string)
    (k : string) (x : f32) (c : R) (e : Z) :
  NoDup keys -> In k keys ->
  Permutation (batches_of (sch k)) (inputs_of_key k (map (batch_fmv_per_key segment_sum) bs)) ->
  (Z.of_nat (length (of_key k (concat bs))) <= 2 ^ 53)%Z ->
  (-74 <= e <= 51)%Z -> (exists z, c = IZR z * bpow radix2 e) ->
  (forall b, In b (key_batches k bs) -> (Z.of_nat (length b) <= 2 ^ 23)%Z /\
    IZR (Z.of_nat (length b)) * Rabs c <= IZR (2 ^ 24) * bpow radix2 e /\
    IZR (Z.of_nat (length b)) * (c * c) <= IZR (2 ^ 24) * bpow radix2 (2 * e)) ->
  (forall v, In v (of_key k (concat bs)) -> is_finite v = true -> B2R v = c) ->
  In x (of_key k (concat bs)) -> is_finite x = true ->
  let (vocab, results) := per_key_analysis key_mean_and_var32 sch keys in
  exists y, scale_to_z_score_per_key32 vocab results k x = Some y /\ is_finite y = true /\ B2R y = 0.
Proof.
  intros ND K HP T He G HB HX Hx Fx.
  pose proof (entries key_mean_and_var32 sch keys k (fun _ => (zero32, zero32)) ND) as EN.
  destruct (per_key_analysis _ _ _) as [vocab results]. destruct EN as [EN _]. unfold scale_to_z_score_per_key32. rewrite (EN K). cbn [option_map].
  destruct (key_output_const segment_sum segment_sum_adds bs k (sch k) HP T e c He
    (fun b H => proj1 (HB b H)) G (fun b H => proj2 (HB b H)) HX) as (Fm & Em & Fv & Ev); [exists x; auto|].
  eexists. split; [reflexivity|]. apply c73_zscore_mean; auto.
  - split; [exact Fm|]. cbn [val]. rewrite Em.
    assert (Hb : exists b, In b (key_batches k bs) /\ In x b).
    { rewrite <- concat_key_batches in Hx. apply in_concat in Hx as (b & H1 & H2). exists b. auto. }
    destruct Hb as (b & Hb & Ib). destruct (HB b Hb) as (_ & H1 & _).
    assert (L1 : 1 <= IZR (Z.of_nat (length b))) by (apply (IZR_le 1); destruct b; [contradiction|cbn [length]; lia]).
    pose proof (Rabs_pos c). apply Rle_trans with (IZR (2 ^ 24) * bpow radix2 e); [nra|].
    change (IZR (2 ^ 24)) with (bpow radix2 24). change (IZR (2 ^ 126)) with (bpow radix2 126). rewrite <- bpow_plus. apply bpow_le. lia.
  - rewrite Ev. lra.
  - rewrite Em. apply HX; assumption.
Qed.

(** A key that was seen with values that are NaN or infinite only: a finite value is left as it is. *)
Theorem c83_none (bs : list (list (string * f32))) (sch : string -> sched (sched fmv)) (keys : list string) (k : string) (x : f32) :
  NoDup keys -> In k keys ->
  Permutation (batches_of (sch k)) (inputs_of_key k (map (batch_fmv_per_key segment_sum) bs)) ->
  (forall b, In b (key_batches k bs) -> (Z.of_nat (length b) <= 2 ^ 23)%Z) ->
  (forall v, In v (of_key k (concat bs)) -> is_finite v = false) ->
  is_finite x = true ->
  let (vocab, results) := per_key_analysis key_mean_and_var32 sch keys in
  exists y, scale_to_z_score_per_key32 vocab results k x = Some y /\ is_finite y = true /\ B2R y = B2R x.
Proof.
  intros ND K HP L HX Fx.
  pose proof (entries key_mean_and_var32 sch keys k (fun _ => (zero32, zero32)) ND) as EN.
  destruct (per_key_analysis _ _ _) as [vocab results]. destruct EN as [EN _]. unfold scale_to_z_score_per_key32. rewrite (EN K). cbn [option_map].
  destruct (key_output_none segment_sum segment_sum_adds bs k (sch k) HP L HX) as (Fm & Em & Fv & Ev).
  eexists. split; [reflexivity|]. destruct (null_zero _ (conj Fv Ev)) as [sv ->].
  assert (Z0 : forall m, zscore32 m (B754_zero sv) x = sub32 x m) by (intro m; destruct sv; reflexivity). rewrite Z0.
  destruct (sub_ok x _ Fx Fm) as [A1 A2].
  - rewrite Em, Rminus_0_r, rnd_B2R. apply (abs_B2R_lt_emax 24 128).
  - split; [exact A1|]. rewrite A2, Em, Rminus_0_r. apply rnd_B2R.
Qed.

(** Two values of a key in one batch, 100000 and 100001: the variance of the batch comes out as -1024, and the z-scores
    are NaN, in whatever order sums are taken; without a key the z-scores of the same values are finite. *)
Theorem c83_nan_refuted : exists (bs : list (list (string * f32))) (sch : string -> sched (sched fmv)) (k : string) (x : f32),
  Permutation (batches_of (sch k)) (inputs_of_key k (map (batch_fmv_per_key segment_sum) bs)) /\
  In (k, x) (concat bs) /\ (forall r, In r (concat bs) -> fst r = k /\ is_finite (snd r) = true) /\
  is_finite (scale_to_z_score32 segment_sum (Bundle [Bundle (map (map snd) bs)]) x) = true /\
  let (vocab, results) := per_key_analysis key_mean_and_var32 sch [k] in
  exists y, scale_to_z_score_per_key32 vocab results k x = Some y /\ is_nan y = true.
Proof.
  assert (TWO := two_exact segment_sum segment_sum_adds).
  exists close_pair, (one_bundle segment_sum close_pair), "k"%string, (int32 100000).
  split; [cbn; apply Permutation_refl|]. split; [left; reflexivity|]. split.
  { intros r [<-|[<-|[]]]; split; vm_compute; reflexivity. }
  assert (Fa : is_finite (int32 100000) = true) by (vm_compute; reflexivity).
  assert (Fb : is_finite (int32 100001) = true) by (vm_compute; reflexivity).
  assert (F1 : is_finite (cast_int 1) = true) by (vm_compute; reflexivity).
  assert (K1 : batch_fmv_key segment_sum [int32 100000; int32 100001] = batch_fmv_key pair_sum [int32 100000; int32 100001]).
  { unfold batch_fmv_key. cbn [map]. rewrite Fa, Fb. rewrite !TWO by (assumption || (vm_compute; reflexivity)). reflexivity. }
  assert (K2 : batch_fmv segment_sum [int32 100000; int32 100001] = batch_fmv pair_sum [int32 100000; int32 100001]).
  { unfold batch_fmv. cbn [map]. rewrite Fa, Fb. rewrite (TWO (int32 100000) (int32 100001)) by (assumption || (vm_compute; reflexivity)).
    rewrite !TWO by (vm_compute; reflexivity). reflexivity. }
  split.
  - unfold scale_to_z_score32, mean_and_var32. rewrite analyze_whole. unfold whole. cbn [map close_pair concat snd run fold_left].
    rewrite K2. vm_compute. reflexivity.
  - pose proof (entries key_mean_and_var32 (one_bundle segment_sum close_pair) ["k"%string] "k"%string (fun _ => (zero32, zero32))) as EN.
    destruct (per_key_analysis _ _ _) as [vocab results]. destruct EN as [EN _]; [repeat constructor; intros []|].
    unfold scale_to_z_score_per_key32. rewrite EN by (left; reflexivity). cbn [option_map]. eexists. split; [reflexivity|].
    assert (I1 : inputs_of_key "k" (map (batch_fmv_per_key segment_sum) close_pair) = [batch_fmv_key segment_sum [int32 100000; int32 100001]]) by reflexivity.
    unfold one_bundle. rewrite I1, K1. vm_compute. reflexivity.
Qed.
End c83.

(** A value that does not change: five times the float32 nearest to 0.7 in one batch.  The sums round, the variance is
    negative, and all z-scores are NaN. *)
Theorem c83_constant_refuted : exists (bs : list (list (string * f32))) (sch : string -> sched (sched fmv)) (k : string) (x : f32),
  Permutation (batches_of (sch k)) (inputs_of_key k (map (batch_fmv_per_key left_sum) bs)) /\
  In (k, x) (concat bs) /\ is_finite x = true /\ (forall r, In r (concat bs) -> r = (k, x)) /\
  let (vocab, results) := per_key_analysis key_mean_and_var32 sch [k] in
  exists y, scale_to_z_score_per_key32 vocab results k x = Some y /\ is_nan y = true.
Proof.
  exists five_times, (one_bundle left_sum five_times), "k"%string, seven_tenths32.
  split; [cbn; apply Permutation_refl|]. split; [left; reflexivity|]. split; [vm_compute; reflexivity|]. split.
  { intros r H. cbn in H. repeat (destruct H as [<-|H]; [reflexivity|]). destruct H. }
  pose proof (entries key_mean_and_var32 (one_bundle left_sum five_times) ["k"%string] "k"%string (fun _ => (zero32, zero32))) as EN.
  destruct (per_key_analysis _ _ _) as [vocab results]. destruct EN as [EN _]; [repeat constructor; intros []|].
  unfold scale_to_z_score_per_key32. rewrite EN by (left; reflexivity). cbn [option_map]. eexists. split; [reflexivity|].
  vm_compute. reflexivity.
Qed.

(** A key that was not seen: a finite value is left as it is. *)
Theorem c83_unseen (sch : string -> sched (sched fmv)) (keys : list string) (k : string) (x : f32) :
  NoDup keys -> keys <> [] -> ~ In k keys -> is_finite x = true ->
  let (vocab, results) := per_key_analysis key_mean_and_var32 sch keys in
  exists y, scale_to_z_score_per_key32 vocab results k x = Some y /\ is_finite y = true /\ B2R y = B2R x.
Proof.
  intros ND NE NI Fx. pose proof (entries key_mean_and_var32 sch keys k (fun _ => (zero32, zero32)) ND) as EN.
  destruct (per_key_analysis _ _ _) as [vocab results]. destruct EN as [_ EN]. destruct (EN NE NI) as (o & E).
  unfold scale_to_z_score_per_key32. rewrite E. cbn [option_map fst snd]. eexists. split; [reflexivity|].
  assert (Z0 : zscore32 zero32 zero32 x = sub32 x zero32) by reflexivity. rewrite Z0.
  destruct (sub_ok x zero32 Fx eq_refl) as [A1 A2].
  - cbn [B2R zero32]. rewrite Rminus_0_r, rnd_B2R. apply (abs_B2R_lt_emax 24 128).
  - split; [exact A1|]. rewrite A2. cbn [B2R zero32]. rewrite Rminus_0_r. apply rnd_B2R.
Qed.

(** * The hypotheses are met *)
Lemma keyed_a : of_key "a" (concat keyed) = [nan32; int32 1; int32 5; int32 (-3)].
Proof. reflexivity. Qed.
Lemma keyed_b : of_key "b" (concat keyed) = [neg_inf32; int32 7; int32 7].
Proof. reflexivity. Qed.
Lemma batches_a : key_batches "a" keyed = [[nan32]; [int32 1; int32 5]; [int32 (-3)]].
Proof. reflexivity. Qed.
Lemma batches_b : key_batches "b" keyed = [[neg_inf32]; [int32 7]; [int32 7]].
Proof. reflexivity. Qed.
Lemma finite_int z : (Z.abs z <= 2 ^ 24)%Z -> is_finite (int32 z) = true.
Proof. intro H. apply int32_ok, H. Qed.
Lemma keyed_a_small v : In v [nan32; int32 1; int32 5; int32 (-3)] -> is_finite v = true -> Rabs (B2R v) <= 5.
Proof.
  assert (Q : forall z, (Z.abs z <= 5)%Z -> Rabs (B2R (int32 z)) <= 5).
  { intros z Hz. rewrite (proj2 (int32_ok z ltac:(lia))), <- abs_IZR. apply IZR_le, Hz. }
  intros Hx Fx. repeat (destruct Hx as [<-|Hx]; [try discriminate Fx; apply Q; lia|]). destruct Hx.
Qed.
Lemma keyed_a_batches b : In b [[nan32]; [int32 1; int32 5]; [int32 (-3)]] -> clear_variance 2 5 b /\ (Z.of_nat (length b) <= 2)%Z.
Proof.
  intros [<-|[<-|[<-|[]]]].
  - split; [left; cbn; lia|cbn; lia].
  - split; [|cbn; lia]. right.
    change (finite_values [int32 1; int32 5]) with [B2R (int32 1); B2R (int32 5)].
    rewrite !(fun z H => proj2 (int32_ok z H)) by lia. unfold var_R, mean_R, sum_R. cbn. lra.
  - split; [left; cbn; lia|cbn; lia].
Qed.

Example c83_accuracy_applies :
  let (vocab, results) := per_key_analysis key_mean_and_var32 (one_bundle left_sum keyed) ["b"; "a"]%string in
  exists y, scale_to_z_score_per_key32 vocab results "a" (int32 5) = Some y /\ is_finite y = true /\
    Rabs (B2R y - (5 - 1) / sqrt (32 / 3)) <= 2 * (140 * / IZR (2 ^ 23) + 3 * / IZR (2 ^ 40)) * (5 / sqrt (32 / 3)) ^ 3.
Proof.
  assert (EL : finite_values (of_key "a" (concat keyed)) = [1; 5; -3]).
  { change (finite_values (of_key "a" (concat keyed))) with [B2R (int32 1); B2R (int32 5); B2R (int32 (-3))].
    rewrite !(fun z H => proj2 (int32_ok z H)) by lia. reflexivity. }
  assert (EV : var_R [1; 5; -3] = 32 / 3) by (unfold var_R, mean_R, sum_R; cbn; lra).
  assert (EM : mean_R [1; 5; -3] = 1) by (unfold mean_R, sum_R; cbn; lra).
  assert (EC : column_error 2 (length (key_batches "a" keyed)) = 140 * / IZR (2 ^ 23) + 3 * / IZR (2 ^ 40)).
  { unfold column_error. change (INR (length (key_batches "a" keyed))) with (1 + 1 + 1). replace (1 + 1 + 1) with 3 by lra.
    replace (28 * 2 + 84) with 140 by lra. reflexivity. }
  pose proof (c83_accuracy left_sum left_sum_adds keyed (one_bundle left_sum keyed) ["b"; "a"]%string "a" (int32 5) 5 2) as H. cbv zeta in H.
  unfold z_R, deviation in H. rewrite EL, EV, EM, EC, (proj2 (int32_ok 5 ltac:(lia))), batches_a, keyed_a in H. apply H; clear H.
  - repeat constructor; cbn; intuition discriminate.
  - right. left. reflexivity.
  - cbn. apply Permutation_refl.
  - apply keyed_a_batches.
  - lia.
  - cbn. lia.
  - cbn. lia.
  - cbn. lra.
  - apply keyed_a_small.
  - cbn. lra.
  - apply finite_int. lia.
  - rewrite Rabs_pos_eq; lra.
Qed.

Example c83_order_applies :
  let (vocab, results) := per_key_analysis key_mean_and_var32 (one_bundle left_sum keyed) ["b"; "a"]%string in
  exists zx zy, scale_to_z_score_per_key32 vocab results "a" (int32 (-3)) = Some zx /\
    scale_to_z_score_per_key32 vocab results "a" (int32 5) = Some zy /\ is_nan zx = false /\ Bleb zx zy = true.
Proof.
  pose proof (c83_order left_sum left_sum_adds keyed (one_bundle left_sum keyed) ["b"; "a"]%string "a" (int32 (-3)) (int32 5) 5 2) as H.
  rewrite batches_a, keyed_a in H. apply H; clear H.
  - repeat constructor; cbn; intuition discriminate.
  - right. left. reflexivity.
  - cbn. apply Permutation_refl.
  - apply keyed_a_batches.
  - lia.
  - cbn. lia.
  - cbn. lia.
  - cbn. lra.
  - apply keyed_a_small.
  - split; [apply finite_int; lia|]. cbn [val]. rewrite (proj2 (int32_ok (-3) ltac:(lia))), <- abs_IZR. apply IZR_le. lia.
  - split; [apply finite_int; lia|]. cbn [val]. rewrite (proj2 (int32_ok 5 ltac:(lia))), <- abs_IZR. apply IZR_le. lia.
  - rewrite (proj2 (int32_ok (-3) ltac:(lia))), (proj2 (int32_ok 5 ltac:(lia))). lra.
Qed.

Example c83_constant_applies :
  let (vocab, results) := per_key_analysis key_mean_and_var32 (one_bundle left_sum keyed) ["b"; "a"]%string in
  exists y, scale_to_z_score_per_key32 vocab results "b" (int32 7) = Some y /\ is_finite y = true /\ B2R y = 0.
Proof.
  pose proof (c83_constant left_sum left_sum_adds keyed (one_bundle left_sum keyed) ["b"; "a"]%string "b" (int32 7) 7 0) as H.
  rewrite batches_b, keyed_b in H. apply H; clear H.
  - repeat constructor; cbn; intuition discriminate.
  - left. reflexivity.
  - cbn. apply Permutation_refl.
  - cbn. lia.
  - lia.
  - exists 7%Z. cbn. lra.
  - intros b Hb. rewrite Rabs_pos_eq by lra. change (bpow radix2 0) with 1. change (bpow radix2 (2 * 0)) with 1.
    destruct Hb as [<-|[<-|[<-|[]]]]; cbn; (split; [lia|lra]).
  - intros v [<-|[<-|[<-|[]]]] Fv; try discriminate Fv; apply (proj2 (int32_ok 7 ltac:(lia))).
  - right. left. reflexivity.
  - apply finite_int. lia.
Qed.

Example c83_none_applies :
  let (vocab, results) := per_key_analysis key_mean_and_var32 (one_bundle left_sum keyed) ["b"; "c"]%string in
  exists y, scale_to_z_score_per_key32 vocab results "c" (int32 5) = Some y /\ is_finite y = true /\ B2R y = B2R (int32 5).
Proof.
  apply (c83_none left_sum left_sum_adds keyed).
  - repeat constructor; cbn; intuition discriminate.
  - right. left. reflexivity.
  - cbn. apply Permutation_refl.
  - intros b [<-|[<-|[]]]; cbn; lia.
  - intros v [<-|[<-|[<-|[]]]]; reflexivity.
  - apply finite_int. lia.
Qed.

Example c83_unseen_applies :
  let (vocab, results) := per_key_analysis key_mean_and_var32 (one_bundle left_sum keyed) ["b"; "a"]%string in
  exists y, scale_to_z_score_per_key32 vocab results "d" (int32 5) = Some y /\ is_finite y = true /\ B2R y = B2R (int32 5).
Proof.
  apply c83_unseen.
  - repeat constructor; cbn; intuition discriminate.
  - discriminate.
  - cbn. intuition discriminate.
  - apply finite_int. lia.
Qed.

Print Assumptions c83_accuracy.
Print Assumptions c83_order.
Print Assumptions c83_constant.
Print Assumptions c83_none.
Print Assumptions c83_nan_refuted.
Print Assumptions c83_constant_refuted.
Print Assumptions c83_unseen.
