From Coq Require Import List ZArith Reals Bool Lra Lia.
From Flocq Require Import Core BinarySingleNaN.
From Verif Require Import CombineModel IeeeModel IeeeSpec IeeeProofs IeeeZProofs IeeeScaleProofs FsumSpec FsumProofs
  FmvModel FmvSpec FmvFloat FmvFormulas FmvProofs FmvBatch FmvAccuracy FzModel FzSpec.
Import ListNotations.
Local Open Scope R_scope.

(** Values up to [M] in magnitude: their mean is too, and their variance is at most [M^2]. *)
Lemma mean_R_le M l : 0 <= M -> (forall x, In x l -> Rabs x <= M) -> Rabs (mean_R l) <= M.
Proof.
  intros M0 H. assert (SB : Rabs (sum_R l) <= INR (length l) * M).
  { clear M0. unfold sum_R. induction l as [|x l IH]; [cbn; rewrite Rabs_R0; lra|]. cbn [fold_right length]. rewrite S_INR.
    eapply Rle_trans; [apply Rabs_triang|]. pose proof (H x (or_introl eq_refl)).
    specialize (IH (fun y Hy => H y (or_intror Hy))). lra. }
  unfold mean_R. destruct l as [|x l]; [unfold Rdiv; cbn; rewrite Rmult_0_l, Rabs_R0; exact M0|].
  assert (N : 0 < INR (length (x :: l))) by (cbn [length]; rewrite S_INR; pose proof (pos_INR (length l)); lra).
  unfold Rdiv. rewrite Rabs_mult, Rabs_inv, (Rabs_pos_eq (INR _)) by lra.
  apply (Rmult_le_reg_r (INR (length (x :: l)))); [exact N|]. rewrite Rmult_assoc, Rinv_l by lra. lra.
Qed.

Lemma var_R_le M l : 0 <= M -> (forall x, In x l -> Rabs x <= M) -> var_R l <= M * M.
Proof.
  intros M0 H. rewrite var_R_moment. assert (A : Rabs (mean_R (map square l)) <= M * M).
  { apply mean_R_le; [nra|]. intros y Hy. apply in_map_iff in Hy. destruct Hy as (x & <- & Hx). unfold square. rewrite Rabs_mult.
    apply Rmult_le_compat; auto using Rabs_pos. }
  pose proof (Rle_abs (mean_R (map square l))). assert (0 <= mean_R l * mean_R l) by nra. lra.
Qed.

(** The z-score computed with a mean and a variance that are a little off. *)
Lemma z_off (x m v mu V M E : R) : 0 < V -> V <= M * M -> 0 < M -> 0 < E -> E * (M * M) <= V / 2 ->
  Rabs x <= M -> Rabs mu <= M -> Rabs (m - mu) <= E * M / 28 -> Rabs (v - V) <= E * (M * M) ->
  let k := M / sqrt V in
  0 < v /\ 1 <= k /\ E * k <= / 2 /\ Rabs ((x - m) / sqrt v) <= 3 * k /\
  Rabs ((x - m) / sqrt v - (x - mu) / sqrt V) <= 9 / 5 * E * (k * k * k).
Proof.
  intros V0 VM M0 E0 EV Hx Hmu Hm Hv k. set (sg := sqrt V).
  assert (s0 : 0 < sg) by (apply sqrt_lt_R0; exact V0). assert (ss : sg * sg = V) by (apply sqrt_sqrt; lra).
  assert (sM : sg <= M) by (apply Rsqr_incr_0; [unfold Rsqr; lra|lra|lra]).
  apply Rabs_def2b in Hv || apply Rabs_le_inv in Hv.
  assert (v0 : V / 2 <= v) by lra. set (t := sqrt v). assert (t0 : 0 < t) by (apply sqrt_lt_R0; lra).
  assert (tt : t * t = v) by (apply sqrt_sqrt; lra).
  assert (tl : 7 / 10 * sg <= t) by (apply Rsqr_incr_0; [unfold Rsqr; nra|lra|lra]).
  assert (Ek : k * sg = M) by (unfold k; fold sg; field; lra).
  assert (k1 : 1 <= k) by (apply (Rmult_le_reg_r sg); lra).
  assert (Ekk : E * (k * k) <= / 2).
  { apply (Rmult_le_reg_r (sg * sg)); [nra|]. rewrite ss. replace (E * (k * k) * V) with (E * ((k * sg) * (k * sg))) by (rewrite <- ss; ring). rewrite Ek. lra. }
  assert (Ek2 : E * k <= / 2) by nra.
  split; [lra|]. split; [exact k1|]. split; [exact Ek2|].
  assert (it : / t <= 10 / 7 * / sg).
  { apply (Rmult_le_reg_r (t * sg)); [nra|]. field_simplify; lra. }
  assert (it0 : 0 < / t) by (apply Rinv_0_lt_compat; exact t0). assert (is0 : 0 < / sg) by (apply Rinv_0_lt_compat; exact s0).
  assert (kM : M * / sg = k) by (unfold k; fold sg; reflexivity).
  assert (E12 : E <= / 2) by nra.
  split.
  - unfold Rdiv. rewrite Rabs_mult, (Rabs_pos_eq (/ t)) by lra.
    assert (Hxm : Rabs (x - m) <= 2 * M + E * M / 28).
    { replace (x - m) with ((x - mu) - (m - mu)) by ring. eapply Rle_trans; [apply Rabs_triang|]. rewrite Rabs_Ropp.
      assert (Rabs (x - mu) <= 2 * M) by (eapply Rle_trans; [apply Rabs_triang|]; rewrite Rabs_Ropp; lra). lra. }
    apply Rle_trans with ((2 * M + E * M / 28) * (10 / 7 * / sg)); [apply Rmult_le_compat; auto using Rabs_pos; lra|].
    replace ((2 * M + E * M / 28) * (10 / 7 * / sg)) with (10 / 7 * (2 + E / 28) * (M * / sg)) by (field; lra). rewrite kM. nra.
  - replace ((x - m) / t - (x - mu) / sg) with (- (m - mu) * / t + (x - mu) * ((V - v) * (/ t * / sg * / (t + sg)))).
    2: { rewrite <- ss, <- tt. field. repeat split; lra. }
    eapply Rle_trans; [apply Rabs_triang|]. rewrite !Rabs_mult, Rabs_Ropp, (Rabs_pos_eq (/ t)), (Rabs_pos_eq (/ sg)) by lra.
    assert (its0 : 0 < / (t + sg)) by (apply Rinv_0_lt_compat; lra). rewrite (Rabs_pos_eq (/ (t + sg))) by lra.
    assert (its : / (t + sg) <= 10 / 17 * / sg) by (apply (Rmult_le_reg_r ((t + sg) * sg)); [nra|]; field_simplify; lra).
    assert (Hv' : Rabs (V - v) <= E * (M * M)) by (apply Rabs_le; lra).
    assert (Hxmu : Rabs (x - mu) <= 2 * M) by (eapply Rle_trans; [apply Rabs_triang|]; rewrite Rabs_Ropp; lra).
    assert (A1 : Rabs (m - mu) * / t <= E * M / 28 * (10 / 7 * / sg)) by (apply Rmult_le_compat; auto using Rabs_pos; lra).
    assert (A2 : / t * / sg * / (t + sg) <= 10 / 7 * / sg * / sg * (10 / 17 * / sg)).
    { apply Rmult_le_compat; [nra|lra| |exact its]. apply Rmult_le_compat_r; lra. }
    assert (A20 : 0 <= / t * / sg * / (t + sg)) by (apply Rmult_le_pos; [apply Rmult_le_pos; lra|lra]).
    assert (A3 : Rabs (x - mu) * (Rabs (V - v) * (/ t * / sg * / (t + sg))) <= 2 * M * (E * (M * M) * (10 / 7 * / sg * / sg * (10 / 17 * / sg)))).
    { apply Rmult_le_compat; [apply Rabs_pos|apply Rmult_le_pos; [apply Rabs_pos|exact A20]|exact Hxmu|].
      apply Rmult_le_compat; auto using Rabs_pos. }
    replace (E * M / 28 * (10 / 7 * / sg)) with (10 / 196 * (E * (M * / sg))) in A1 by (field; lra).
    replace (2 * M * (E * (M * M) * (10 / 7 * / sg * / sg * (10 / 17 * / sg)))) with (200 / 119 * (E * ((M * / sg) * (M * / sg) * (M * / sg)))) in A3 by (field; lra).
    rewrite kM in *. assert (kk : 1 <= k * k) by nra. assert (Hk3 : E * k <= E * (k * k * k)).
    { apply Rmult_le_compat_l; [lra|]. replace k with (1 * k) at 1 by ring. apply Rmult_le_compat_r; lra. }
    assert (0 < E * k) by nra. lra.
Qed.

Section Bounded.
  Variable reduce_sum : list f32 -> f32.
  Hypothesis reduce_sum_adds : forall l, adds l (reduce_sum l).
  Variable s : sched (sched (list f32)).
  Hypothesis S0 : Forall starts_with_value (elements s).
  Hypothesis L : forall b, In b (batches_of s) -> (Z.of_nat (length b) <= 2 ^ 23)%Z.
  Hypothesis T : (Z.of_nat (length (concat (batches_of s))) <= 2 ^ 53)%Z.
  Hypothesis HX : forall x, In x (concat (batches_of s)) -> is_finite x = true -> Rabs (B2R x) <= bpow radix2 100.

  Lemma mean_bounded : is_finite (fst (mean_and_var32 reduce_sum s)) = true /\ Rabs (B2R (fst (mean_and_var32 reduce_sum s))) <= bpow radix2 126.
  Proof.
    assert (HM : bpow radix2 (-100) <= bpow radix2 100 <= bpow radix2 100) by (split; [apply bpow_le; lia|lra]).
    destruct (whole_facts reduce_sum reduce_sum_adds s (bpow radix2 100) (2 ^ 23) S0 ltac:(lia) L T HM HX) as (P & W & Rw).
    rewrite mean_and_var_whole. cbv zeta. cbn [fst].
    destruct (wide_mean _ W Rw) as (m & Em & Fm & Mm). rewrite Em. cbn [as_f32].
    pose proof (r_mean _ _ _ (p_rep _ _ _ _ P)) as MB. rewrite Mm in MB.
    assert (M102 : Rabs (B2R m) <= bpow radix2 102).
    { eapply Rle_trans; [exact MB|]. change 102%Z with (2 + 100)%Z. rewrite bpow_plus. change (bpow radix2 2) with 4. pose proof (bpow_gt_0 radix2 100). lra. }
    destruct (cast_mean m Fm) as [FC EC].
    { eapply Rle_trans; [exact M102|].
      unfold max_single. assert (bpow radix2 128 = bpow radix2 24 * bpow radix2 104) as -> by (rewrite <- bpow_plus; reflexivity).
      change (bpow radix2 24) with 16777216. pose proof (bpow_le radix2 102 104 ltac:(lia)). pose proof (bpow_gt_0 radix2 102). lra. }
    split; [exact FC|]. rewrite EC. pose proof (rnd_err (B2R m)) as RE.
    replace (single (B2R m)) with (B2R m + (single (B2R m) - B2R m)) by ring. eapply Rle_trans; [apply Rabs_triang|].
    pose proof (bpow_le radix2 (-150) 102 ltac:(lia)). pose proof (bpow_le radix2 (-24) 0 ltac:(lia)) as Q. change (bpow radix2 0) with 1 in Q.
    pose proof (bpow_gt_0 radix2 (-24)). pose proof (Rabs_pos (B2R m)).
    assert (bpow radix2 (-24) * Rabs (B2R m) <= 1 * bpow radix2 102) by (apply Rmult_le_compat; lra).
    apply Rle_trans with (bpow radix2 104); [|apply bpow_le; lia]. change 104%Z with (2 + 102)%Z. rewrite bpow_plus. change (bpow radix2 2) with 4. lra.
  Qed.
End Bounded.

(** An infinite variance makes every z-score a zero. *)
Lemma z_inf (mean x : f32) : is_finite (sub32 x mean) = true ->
  exists sg, zscore32 mean (B754_infinity false) x = B754_zero sg.
Proof. intro F. unfold zscore32. cbn. destruct (sub32 x mean) as [b|b| |b m e H]; try discriminate F; eexists; reflexivity. Qed.
