(** Proofs about the search for Tukey HH parameters. *)
From Coq Require Import Reals List Bool Arith Lia Lra.
From Verif Require Import TukeyModel TukeySpec.

Section Search.
Variables T E : Type.
Variable le : T -> T -> Prop.
Variable mid sub : T -> T -> T.
Variable zero top : T.
Variable narrow : T -> T -> bool.
Variables negative positive small : E -> bool.
Hypothesis Ord : ordered_numbers le zero mid sub.

Notation bsearch := (binary_search mid narrow negative small).

Lemma bsearch_brackets : forall fuel iter error low high, le low high ->
  (11 <= fuel + iter)%nat -> (iter <= 10)%nat ->
  exists l h, bsearch fuel iter error low high = Some (l, h)
              /\ brackets le negative error low high l h.
Proof.
  induction fuel as [|fuel IH]; intros iter error low high L F I; [lia|].
  cbn [binary_search].
  destruct (mid_between _ _ _ _ Ord _ _ L) as [M1 M2].
  pose proof (le_refl _ _ _ _ Ord) as Rf.
  pose proof (le_trans _ _ _ _ Ord) as Tr.
  set (v := mid low high) in *.
  assert (B : exists l h, (if negative (error v) then v else low) = l
             /\ (if negative (error v) then high else v) = h
             /\ brackets le negative error low high l h).
  { destruct (negative (error v)) eqn:N; eexists; eexists; (split; [reflexivity|]);
      (split; [reflexivity|]); repeat split; auto. }
  destruct B as [l [h [-> [-> B]]]].
  destruct (((10 <? S iter)%nat || small (error v) || narrow h l)) eqn:Stop.
  - exists l, h. split; [reflexivity|exact B].
  - apply orb_false_iff in Stop. destruct Stop as [Stop _].
    apply orb_false_iff in Stop. destruct Stop as [Stop _].
    apply Nat.ltb_ge in Stop.
    destruct B as [B1 [B2 [B3 [B4 B5]]]].
    destruct (IH (S iter) error l h) as [l' [h' [E' [C1 [C2 [C3 [C4 C5]]]]]]];
      [exact B2|lia|lia|].
    exists l', h'. split; [exact E'|]. repeat split; eauto.
    + destruct C4 as [->|C4]; auto.
    + destruct C5 as [->|C5]; auto.
Qed.

Variables skewness_error kurtosis_error : T -> T -> E.
Variable converged : T * T -> T * T -> bool.
Variable start : T.

(** The invariant of the loop. *)
Definition good (p : params T) : Prop :=
  le zero (min_delta _ p) /\ le (min_delta _ p) (delta _ p)
  /\ le (delta _ p) (max_delta _ p) /\ le (max_delta _ p) (min_h _ p)
  /\ le (min_h _ p) (h _ p) /\ le (h _ p) (max_h _ p) /\ le (max_h _ p) top
  /\ le start (min_h _ p).

Lemma turn_good : forall fuel p, (11 <= fuel)%nat -> good p ->
  exists p', turn mid narrow negative positive small skewness_error kurtosis_error fuel p = Some p'
             /\ good p'.
Proof.
  intros fuel [h0 d0 mh md xh xd] F G. unfold good in G.
  cbn [min_delta delta max_delta min_h TukeyModel.h max_h] in G.
  destruct G as [G1 [G2 [G3 [G4 [G5 [G6 [G7 G8]]]]]]].
  pose proof (le_refl _ _ _ _ Ord) as Rf.
  pose proof (le_trans _ _ _ _ Ord) as Tr.
  unfold turn. cbn [min_delta delta max_delta min_h TukeyModel.h max_h].
  destruct (positive (skewness_error h0 xd)).
  - destruct (bsearch_brackets fuel 0 (fun x => skewness_error h0 x) md xd)
      as [l1 [h1 [-> [A1 [A2 [A3 _]]]]]]; [eauto|lia|lia|].
    cbn [min_delta delta max_delta min_h TukeyModel.h max_h].
    destruct (bsearch_brackets fuel 0 (fun x => kurtosis_error x h1) mh xh)
      as [l2 [h2 [-> [B1 [B2 [B3 _]]]]]]; [eauto|lia|lia|].
    cbn [min_delta delta max_delta min_h TukeyModel.h max_h].
    destruct (bsearch_brackets fuel 0 (fun x => skewness_error h2 x) md h1)
      as [l3 [h3 [-> [C1 [C2 [C3 _]]]]]]; [eauto|lia|lia|].
    cbn [min_delta delta max_delta min_h TukeyModel.h max_h].
    destruct (bsearch_brackets fuel 0 (fun x => kurtosis_error x l3) mh h2)
      as [l4 [h4 [-> [D1 [D2 [D3 _]]]]]]; [eauto|lia|lia|].
    eexists. split; [reflexivity|]. unfold good.
    cbn [min_delta delta max_delta min_h TukeyModel.h max_h].
    repeat split; eauto 6.
  - destruct (bsearch_brackets fuel 0 (fun x => kurtosis_error x xd) mh xh)
      as [l2 [h2 [-> [B1 [B2 [B3 _]]]]]]; [eauto|lia|lia|].
    eexists. split; [reflexivity|]. unfold good.
    cbn [min_delta delta max_delta min_h TukeyModel.h max_h].
    repeat split; eauto 6.
Qed.

Lemma search_good : forall fuel turns previous p, (11 <= fuel)%nat -> good p ->
  exists p', search mid narrow negative positive small skewness_error kurtosis_error converged
               fuel turns previous p = Some p' /\ good p'.
Proof.
  intros fuel turns. induction turns as [|turns IH]; intros previous p F G; cbn [search].
  - eexists. split; [reflexivity|exact G].
  - destruct (turn_good fuel p F G) as [p' [-> G']].
    destruct (small _ && small _ || converged _ _).
    + eexists. split; [reflexivity|exact G'].
    + apply IH; assumption.
Qed.

Lemma search_admissible : forall fuel swap,
  le zero start -> le start top -> (11 <= fuel)%nat ->
  exists light heavy,
    tukey_search mid narrow negative positive small skewness_error kurtosis_error converged
      zero top sub fuel start swap
    = Some (if swap then (heavy, light) else (light, heavy))
    /\ le zero light /\ le light heavy /\ le heavy top /\ le start heavy.
Proof.
  intros fuel swap Z Tp F. unfold tukey_search.
  destruct (search_good fuel 20 (zero, zero) (Params start zero start zero top start) F)
    as [p [-> G]].
  - pose proof (le_refl _ _ _ _ Ord) as Rf.
    unfold good. cbn [min_delta delta max_delta min_h TukeyModel.h max_h].
    repeat split; auto.
  - destruct G as [G1 [G2 [G3 [G4 [G5 [G6 [G7 G8]]]]]]].
    pose proof (le_trans _ _ _ _ Ord) as Tr.
    assert (D0 : le zero (delta _ p)) by eauto.
    assert (D1 : le (delta _ p) (TukeyModel.h _ p)) by eauto.
    destruct (sub_bounds _ _ _ _ Ord _ _ D0 D1) as [S0 S1].
    exists (sub (TukeyModel.h _ p) (delta _ p)), (TukeyModel.h _ p).
    split; [reflexivity|]. repeat split; eauto.
Qed.
End Search.

(** *** Real numbers *)
Open Scope R_scope.

Lemma real_lt_iff : forall x y, real_lt x y = true <-> x < y.
Proof. intros. unfold real_lt. destruct (Rlt_dec x y); split; congruence || tauto || auto. Qed.

Lemma real_lt_false : forall x y, real_lt x y = false <-> y <= x.
Proof.
  intros. unfold real_lt. destruct (Rlt_dec x y); split; intros; try discriminate; try lra; auto.
Qed.

Definition half (low high : R) : R := (low + high) / 2.

Lemma real_ordered : ordered_numbers Rle 0 half Rminus.
Proof. split; unfold half; intros; lra. Qed.

Lemma real_accuracy : forall step narrow_step fuel iter (error : R -> R) low high l h,
  binary_search half (fun high low => real_lt (high - low) narrow_step)
    (fun e => real_lt e 0) (fun e => real_lt (Rabs e) step) fuel iter error low high = Some (l, h) ->
  (iter <= 10)%nat ->
  Rabs (error l) < step \/ Rabs (error h) < step \/ h - l < narrow_step
  \/ h - l = (high - low) / 2 ^ (11 - iter).
Proof.
  intros step ns. induction fuel as [|fuel IH]; intros iter error low high l h H I; [discriminate|].
  cbn [binary_search] in H. fold (half low high) in H.
  set (v := half low high) in *.
  set (l1 := if real_lt (error v) 0 then v else low) in *.
  set (h1 := if real_lt (error v) 0 then high else v) in *.
  assert (W : h1 - l1 = (high - low) / 2).
  { unfold h1, l1, v, half. destruct (real_lt _ 0); lra. }
  destruct ((10 <? S iter)%nat || real_lt (Rabs (error v)) step || real_lt (h1 - l1) ns) eqn:Stop.
  - injection H as <- <-. apply orb_true_iff in Stop. destruct Stop as [Stop|Stop].
    + apply orb_true_iff in Stop. destruct Stop as [Stop|Stop].
      * apply Nat.ltb_lt in Stop. assert (iter = 10)%nat as -> by lia.
        right. right. right. rewrite W. cbn. lra.
      * apply real_lt_iff in Stop. unfold l1, h1. destruct (real_lt (error v) 0); auto.
    + apply real_lt_iff in Stop. auto.
  - apply orb_false_iff in Stop. destruct Stop as [Stop _].
    apply orb_false_iff in Stop. destruct Stop as [Stop _]. apply Nat.ltb_ge in Stop.
    destruct (IH _ _ _ _ _ _ H Stop) as [A|[A|[A|A]]]; auto.
    right. right. right. rewrite A, W.
    replace (11 - iter)%nat with (S (11 - S iter)) by lia. cbn [pow].
    field. apply pow_nonzero. lra.
Qed.

Lemma root_between : forall (f : R -> R) low high, continuity f -> low <= high ->
  f low < 0 -> 0 <= f high -> exists x, low <= x <= high /\ f x = 0.
Proof.
  intros f low high C L N P.
  destruct (IVT_cor f low high C L) as [x [B Z]].
  - assert (0 <= (- f low) * f high) by (apply Rmult_le_pos; lra). lra.
  - exists x. auto.
Qed.

(** *** The start of the search *)
Lemma cos_acos_third : cos (acos (1 / 3)) = 1 / 3.
Proof. apply cos_acos. lra. Qed.

Lemma angle : forall k, PI / 15 * (k - 6) = - (PI * (6 - k) / 15).
Proof. intro k. field. Qed.

Lemma sin_small : 1 / 1000000 <= sin (2 / 1000000).
Proof.
  pose proof PI2_3_2 as P.
  destruct (SIN (2 / 1000000)) as [L _]; [lra|lra|].
  unfold sin_lb, sin_approx, sin_term in L.
  cbn [sum_f_R0 Nat.mul Nat.add pow fact INR] in L.
  lra.
Qed.

Lemma initial_bounds : forall k, gaussian_l_kurtosis <= k -> k <= 1 - 1 / 100000 ->
  0 <= initial_h k <= 1 - 1 / 10000000.
Proof.
  intros k G U. unfold initial_h. rewrite angle, cos_neg.
  pose proof PI_RGT_0 as P. pose proof PI2_3_2 as P3. unfold PI2 in P3.
  pose proof (acos_bound (1 / 3)) as AB.
  set (a := PI * (6 - k) / 15) in *.
  assert (A1 : a <= acos (1 / 3)).
  { unfold gaussian_l_kurtosis in G. unfold a.
    assert (6 - k <= 15 * acos (1 / 3) / PI) by lra.
    apply Rmult_le_compat_l with (r := PI / 15) in H; [|lra].
    replace (PI / 15 * (15 * acos (1 / 3) / PI)) with (acos (1 / 3)) in H by (field; lra).
    lra. }
  assert (A2 : PI / 3 + 2 / 1000000 <= a).
  { unfold a. assert (5 + 1 / 100000 <= 6 - k) by lra.
    apply Rmult_le_compat_l with (r := PI / 15) in H; lra. }
  assert (C1 : 1 / 3 <= cos a).
  { rewrite <- cos_acos_third. apply cos_decr_1; lra. }
  assert (C2 : cos a <= 1 / 2 - 5 / 10000000).
  { apply Rle_trans with (cos (PI / 3 + 2 / 1000000)); [apply cos_decr_1; lra|].
    rewrite cos_plus, cos_PI3.
    pose proof (COS_bound (2 / 1000000)) as CB. pose proof sin_small as SS.
    assert (S3 : 1 / 2 <= sin (PI / 3)).
    { rewrite <- sin_PI6. apply sin_incr_1; lra. }
    assert (M : 1 / 2 * (1 / 1000000) <= sin (PI / 3) * sin (2 / 1000000))
      by (apply Rmult_le_compat; lra).
    lra. }
  assert (I1 : / cos a <= 3).
  { replace 3 with (/ (1 / 3)) by field. apply Rinv_le_contravar; lra. }
  assert (I2 : 2 + 1 / 1000000 <= / cos a).
  { replace (2 + 1 / 1000000) with (/ (/ (2 + 1 / 1000000))) by (apply Rinv_involutive; lra).
    apply Rinv_le_contravar; [lra|]. apply Rle_trans with (1 := C2).
    apply Rmult_le_reg_l with (2 + 1 / 1000000); [lra|]. rewrite Rinv_r; lra. }
  unfold Rdiv. rewrite Rmult_1_l. lra.
Qed.

Lemma initial_positive : forall k, gaussian_l_kurtosis < k -> k <= 1 -> 0 < initial_h k.
Proof.
  intros k G U. unfold initial_h. rewrite angle, cos_neg.
  pose proof PI_RGT_0 as P. pose proof PI2_3_2 as P3. unfold PI2 in P3.
  pose proof (acos_bound (1 / 3)) as AB.
  set (a := PI * (6 - k) / 15) in *.
  assert (A1 : a < acos (1 / 3)).
  { unfold gaussian_l_kurtosis in G. unfold a.
    assert (6 - k < 15 * acos (1 / 3) / PI) by lra.
    apply Rmult_lt_compat_l with (r := PI / 15) in H; [|lra].
    replace (PI / 15 * (15 * acos (1 / 3) / PI)) with (acos (1 / 3)) in H by (field; lra).
    lra. }
  assert (A2 : 0 <= a).
  { unfold a. apply Rmult_le_pos; [apply Rmult_le_pos; lra|lra]. }
  assert (C1 : 1 / 3 < cos a).
  { rewrite <- cos_acos_third. apply cos_decreasing_1; lra. }
  assert (I1 : / cos a < 3).
  { replace 3 with (/ (1 / 3)) by field. apply Rinv_lt_contravar; [|exact C1].
    apply Rmult_lt_0_compat; lra. }
  unfold Rdiv at 1. rewrite Rmult_1_l. lra.
Qed.

Lemma kurtosis_small : gaussian_l_kurtosis <= 85 / 100.
Proof.
  unfold gaussian_l_kurtosis. pose proof PI_RGT_0 as P. pose proof PI2_3_2 as P3. unfold PI2 in P3.
  pose proof (acos_bound (1 / 3)) as AB.
  assert (A : PI / 3 + 1 / 25 <= acos (1 / 3)).
  { destruct (Rle_or_lt (PI / 3 + 1 / 25) (acos (1 / 3))) as [L|L]; [exact L|]. exfalso.
    assert (C : cos (PI / 3 + 1 / 25) < cos (acos (1 / 3))) by (apply cos_decreasing_1; lra).
    rewrite cos_acos_third, cos_plus, cos_PI3 in C.
    assert (C6 : 3 / 4 <= cos (PI / 6) * cos (PI / 6)).
    { rewrite cos_PI6. replace (sqrt 3 / 2 * (sqrt 3 / 2)) with (sqrt 3 * sqrt 3 / 4) by field.
      rewrite sqrt_sqrt; lra. }
    assert (C60 : 86 / 100 <= cos (PI / 6)).
    { destruct (Rle_or_lt (86 / 100) (cos (PI / 6))) as [K|K]; [exact K|]. exfalso.
      assert (0 <= cos (PI / 6)) by (apply cos_ge_0; lra).
      assert (cos (PI / 6) * cos (PI / 6) <= 86 / 100 * (86 / 100)) by (apply Rmult_le_compat; lra).
      lra. }
    assert (CD : cos (PI / 6) <= cos (1 / 25)) by (apply cos_decr_1; lra).
    assert (SD : sin (1 / 25) < 1 / 25) by (apply sin_lt_x; lra).
    pose proof (SIN_bound (PI / 3)) as SB.
    assert (S0 : 0 <= sin (1 / 25)) by (apply sin_ge_0; lra).
    assert (M : sin (PI / 3) * sin (1 / 25) <= 1 * (1 / 25)).
    { apply Rle_trans with (1 * sin (1 / 25)); [apply Rmult_le_compat_r; lra|lra]. }
    lra. }
  assert (B : 5 + 15 / 100 <= 15 * acos (1 / 3) / PI).
  { pose proof PI_4 as P4.
    apply Rmult_le_reg_r with PI; [exact P|]. unfold Rdiv at 2.
    rewrite Rmult_assoc, Rinv_l by lra. lra. }
  lra.
Qed.

Lemma kurtosis_below_limit : gaussian_l_kurtosis <= 1 - 1 / 100000.
Proof. pose proof kurtosis_small. lra. Qed.

Lemma params_real : forall fuel skewness_error kurtosis_error s k,
  (11 <= fuel)%nat -> gaussian_l_kurtosis <= k -> 1226017 / 10000000 <= k ->
  exists light heavy,
    compute_params fuel skewness_error kurtosis_error s k
    = Some (if real_lt s 0 then (heavy, light) else (light, heavy))
    /\ 0 <= light /\ light <= heavy /\ heavy < 1
    /\ initial_h (Rmin k (1 - 1 / 100000)) <= heavy.
Proof.
  intros fuel se ke s k F G K. unfold compute_params.
  destruct (Rlt_dec k (1226017 / 10000000)) as [L|_]; [lra|].
  assert (I : 0 <= initial_h (Rmin k (1 - 1 / 100000)) <= 1 - 1 / 10000000).
  { apply initial_bounds; [|apply Rmin_r]. apply Rmin_glb; [exact G|apply kurtosis_below_limit]. }
  match goal with |- context [tukey_search ?m ?n ?ng ?po ?sm ?se ?ke ?c ?z ?t ?sb ?f ?i ?w] =>
    destruct (search_admissible R R Rle m sb z t n ng po sm real_ordered se ke c i f w)
      as [l [h [-> [A [B [C D]]]]]]; [lra|lra|exact F|]
  end.
  exists l, h. split; [reflexivity|]. repeat split; lra.
Qed.
