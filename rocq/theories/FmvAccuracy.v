(** How far the combined mean and second moment are from the exact ones. *)
From Coq Require Import List ZArith Reals Bool Permutation Lra Lia.
From Flocq Require Import Core BinarySingleNaN.
From Verif Require Import CombineModel IeeeModel IeeeSpec IeeeProofs FsumSpec FsumProofs
  FmvModel FmvSpec FmvFloat FmvFormulas FmvProofs FmvBatch.
Import ListNotations.
Local Open Scope R_scope.

Lemma cnt_concat l : cnt l = values_in (concat l).
Proof.
  unfold cnt. induction l as [|x l IH]; cbn [fold_right concat]; [reflexivity|]. rewrite IH. unfold values_in.
  rewrite filter_app, app_length, Nat2Z.inj_add. reflexivity.
Qed.

Lemma finite_values_app a b : finite_values (a ++ b) = finite_values a ++ finite_values b.
Proof. unfold finite_values. rewrite filter_app, map_app. reflexivity. Qed.
Lemma sum_R_app a b : sum_R (a ++ b) = sum_R a + sum_R b.
Proof. unfold sum_R. induction a as [|x a IH]; cbn; [lra|]. rewrite IH. lra. Qed.

Lemma wide_mean a : wide a -> raw a -> exists d, f_mean a = D64 d /\ is_finite d = true /\ mean_of a = B2R d.
Proof.
  destruct a as [[ca|ca] [ma|ma] [va|va]]; intros W [F _]; try contradiction. exists ma. cbn in F. split; [reflexivity|].
  split; [exact F|]. unfold mean_of. cbn [f_mean np_nan_to_num as_f64]. rewrite clean_id64 by exact F. reflexivity.
Qed.
Lemma wide_var a : wide a -> raw a -> exists d, f_var a = D64 d /\ nn64 d /\ (var_of a = 0 -> is_finite d = true /\ B2R d = 0).
Proof.
  destruct a as [[ca|ca] [ma|ma] [va|va]]; intros W [_ F]; try contradiction. exists va. cbn in F. split; [reflexivity|].
  split; [exact F|]. unfold var_of. cbn [f_var np_nan_to_num as_f64]. intro E.
  destruct F as [[F P]|F]; [rewrite clean_id64 in E by exact F; auto|]. exfalso. subst va.
  revert E. apply Rgt_not_eq. apply F2R_gt_0. cbn. lia.
Qed.

Section Accuracy.
  Variable reduce_sum : list f32 -> f32.
  Hypothesis reduce_sum_adds : forall l, adds l (reduce_sum l).
  Notation bf := (batch_fmv reduce_sum).
  Notation bp := (bpow radix2).
  Variable s : sched (sched (list f32)).
  Variables (M : R) (B : Z).
  Hypothesis S0 : Forall starts_with_value (elements s).
  Hypothesis HB0 : (0 <= B <= 2 ^ 23)%Z.
  Hypothesis L : forall b, In b (batches_of s) -> (Z.of_nat (length b) <= B)%Z.
  Hypothesis T : (Z.of_nat (length (concat (batches_of s))) <= 2 ^ 53)%Z.
  Hypothesis HM : bp (-100) <= M <= bp 100.
  Hypothesis HX : forall x, In x (concat (batches_of s)) -> is_finite x = true -> Rabs (B2R x) <= M.

  Let l := batches_of s.
  Let a := whole bf s.
  Let beta := (IZR B + 1) * bp (-23) * M + bp (-150).

  Lemma HBn : (Z.to_nat B <= 2 ^ 23)%nat.
  Proof. apply Nat2Z.inj_le. rewrite Nat2Z.inj_pow, Z2Nat.id by lia. apply HB0. Qed.
  Lemma EB : INR (Z.to_nat B) = IZR B.
  Proof. rewrite INR_IZR_INZ, Z2Nat.id by lia. reflexivity. Qed.

  Lemma BM b : In b l -> Rabs (IZR (values_in b) * mean_of (bf b) - sum_R (finite_values b)) <= IZR (values_in b) * beta /\
    Rabs (mean_of (bf b)) <= 3 * M.
  Proof.
    intros Hb. unfold beta. rewrite <- EB. apply batch_mean; [exact reduce_sum_adds|exact HM|exact HBn| |].
    - apply Nat2Z.inj_le. rewrite Z2Nat.id by lia. apply L, Hb.
    - intros x Hx. apply HX. apply in_concat. exists b. auto.
  Qed.

  Lemma KM : 0 <= 3 * M <= bp 128.
  Proof.
    pose proof (bpow_gt_0 radix2 (-100)) as P100. split; [lra|]. apply Rle_trans with (bp 102); [|apply bpow_le; lia].
    change 102%Z with (2 + 100)%Z. rewrite bpow_plus. change (bp 2) with 4. lra.
  Qed.

  Lemma whole_facts : pre bf (3 * M) l a /\ wide a /\ raw a.
  Proof.
    destruct (whole_inv bf (3 * M) KM s S0) as (P & W & Rw).
    - apply Forall_forall. intros b Hb. apply batch_rep; [exact reduce_sum_adds|specialize (L b Hb); lia|apply BM, Hb].
    - rewrite cnt_concat. pose proof (values_le (concat (batches_of s))). lia.
    - auto.
  Qed.

  Lemma NL : INR (length (finite_values (concat l))) = IZR (cnt l).
  Proof. rewrite cnt_concat. unfold finite_values, values_in. rewrite map_length, INR_IZR_INZ. reflexivity. Qed.

  Lemma no_values : cnt l = 0%Z -> finite_values (concat l) = [].
  Proof.
    intro C0. pose proof NL as N. rewrite C0 in N. destruct (finite_values (concat l)) as [|x r]; [reflexivity|].
    cbn [length] in N. pose proof (pos_INR (length r)). rewrite S_INR in N. lra.
  Qed.

  Lemma beta_pos : 0 <= beta.
  Proof.
    unfold beta. pose proof (bpow_ge_0 radix2 (-150)). pose proof (bpow_ge_0 radix2 (-23)). pose proof (IZR_le 0 B ltac:(lia)).
    pose proof (bpow_gt_0 radix2 (-100)).
    assert (0 <= (IZR B + 1) * bp (-23) * M) by (apply Rmult_le_pos; [apply Rmult_le_pos; lra|lra]). lra.
  Qed.

  Lemma mean_close : Rabs (mean_of a - mean_R (finite_values (concat l))) <= bp (-48) * M * INR (length l) + beta.
  Proof.
    destruct whole_facts as (P & _ & _). destruct P as [RP ER _ _ _]. pose proof (r_empty _ _ _ RP) as M0.
    pose proof (bpow_gt_0 radix2 (-100)) as P100.
    assert (WS : Rabs (wsum bf l - sum_R (finite_values (concat l))) <= IZR (cnt l) * beta).
    { generalize BM. generalize l. clear - beta. intros l0 H. unfold wsum, cnt. induction l0 as [|b l0 IH]; cbn [fold_right concat].
      - cbn. rewrite Rminus_0_r, Rabs_R0. lra.
      - rewrite finite_values_app, sum_R_app, plus_IZR.
        replace (IZR (values_in b) * mean_of (bf b) + _ - _)
          with ((IZR (values_in b) * mean_of (bf b) - sum_R (finite_values b)) +
                (fold_right (fun xs r => IZR (values_in xs) * mean_of (bf xs) + r) 0 l0 - sum_R (finite_values (concat l0)))) by ring.
        eapply Rle_trans; [apply Rabs_triang|]. rewrite Rmult_plus_distr_r. apply Rplus_le_compat.
        + apply H. left. reflexivity.
        + apply IH. intros x Hx. apply H. right. exact Hx. }
    assert (SE : step_error (3 * M) <= bp (-48) * M).
    { unfold step_error. pose proof e53_pos. pose proof eta_pos.
      assert (eta <= e53 * bp (-110)) by (unfold eta, e53; rewrite <- bpow_plus; apply bpow_le; lia).
      assert (bp (-48) = 32 * e53) as -> by (unfold e53; change (-48)%Z with (5 + -53)%Z; rewrite bpow_plus; reflexivity).
      assert (Q : bp (-110) = / 1024 * bp (-100)) by (change (-110)%Z with (-10 + -100)%Z; rewrite bpow_plus; reflexivity).
      rewrite Q in *. assert (Q2 : bp (-100) <= / 1024) by (change (/ 1024) with (bp (-10)); apply bpow_le; lia).
      assert (32 * eta * (1 + 3 * M) <= 32 * (e53 * (/ 1024 * M)) + 96 * (e53 * (/ 1024 * / 1024)) * M).
      { replace (32 * eta * (1 + 3 * M)) with (32 * eta + 96 * eta * M) by ring.
        apply Rplus_le_compat; [nra|]. apply Rmult_le_compat_r; [lra|]. nra. }
      nra. }
    pose proof beta_pos as BP. pose proof (pos_INR (length l)) as PL. pose proof (bpow_gt_0 radix2 (-48)) as P48.
    assert (PM : 0 <= bp (-48) * M * INR (length l)) by (apply Rmult_le_pos; [apply Rmult_le_pos; lra|exact PL]).
    unfold mean_R. rewrite NL. pose proof (cnt_pos l) as CP.
    destruct (Z.eq_dec (cnt l) 0) as [C0|C0].
    - destruct (M0 C0) as [-> _]. rewrite (no_values C0). cbn [sum_R fold_right].
      unfold Rdiv. rewrite Rmult_0_l, Rminus_0_r, Rabs_R0. lra.
    - assert (CR : 0 < IZR (cnt l)) by (apply IZR_lt; lia).
      apply (Rmult_le_reg_r (IZR (cnt l))); [exact CR|]. rewrite <- (Rabs_pos_eq (IZR (cnt l))) at 2 by lra. rewrite <- Rabs_mult.
      replace ((mean_of a - sum_R (finite_values (concat l)) / IZR (cnt l)) * IZR (cnt l))
        with ((mean_of a * IZR (cnt l) - wsum bf l) + (wsum bf l - sum_R (finite_values (concat l)))) by (field; lra).
      eapply Rle_trans; [apply Rabs_triang|]. rewrite Rmult_plus_distr_r. apply Rplus_le_compat; [|lra].
      eapply Rle_trans; [exact ER|]. apply Rmult_le_compat_r; [lra|]. apply Rmult_le_compat_r; [exact PL|exact SE].
  Qed.

  (** The second moment, for a narrower range of magnitudes and a bounded number of batches. *)
  Hypothesis HM2 : bp (-50) <= M <= bp 48.
  Hypothesis HN : INR (length l) <= bp 40.

  Lemma moment_close : var_of a <= 48 * (M * M) /\
    Rabs (moment a - mean_R (map square (finite_values (concat l)))) <=
      ((24 * IZR B + 52) * bp (-23) + INR (length l) * bp (-41)) * (M * M).
  Proof.
    destruct whole_facts as (P & _ & _). destruct P as [RP _ _ _ PM]. pose proof (r_empty _ _ _ RP) as M0.
    pose proof (bpow_gt_0 radix2 (-50)) as P50. pose proof e53_pos as e0. pose proof eta_pos as et0.
    assert (MM : 0 < M * M) by (apply Rmult_lt_0_compat; lra).
    assert (MM1 : M * M <= bp 96) by (change 96%Z with (48 + 48)%Z; rewrite bpow_plus; apply Rmult_le_compat; lra).
    assert (MM2 : bp (-100) <= M * M) by (change (-100)%Z with (-50 + -50)%Z; rewrite bpow_plus; apply Rmult_le_compat; lra).
    assert (ET : eta <= e53 * bp (-110)) by (unfold eta, e53; rewrite <- bpow_plus; apply bpow_le; lia).
    assert (Q : bp (-110) = / 1024 * bp (-100)) by (change (-110)%Z with (-10 + -100)%Z; rewrite bpow_plus; reflexivity).
    assert (P1 : bp (-100) <= bp (-50)) by (apply bpow_le; lia). rewrite Q in ET.
    assert (MV : moderate (3 * M) (48 * (M * M))).
    { split; [|split].
      - assert (e53 * bp (-100) <= e53 * M) by (apply Rmult_le_compat_l; lra). lra.
      - assert (e53 * bp (-100) <= e53 * (M * M)) by (apply Rmult_le_compat_l; lra). lra.
      - apply Rle_trans with (bp 7 * bp 96); [change (bp 7) with 128; lra|]. rewrite <- bpow_plus. apply bpow_le. lia. }
    assert (E41 : bp (-41) = 4096 * e53) by (unfold e53; change (-41)%Z with (12 + -53)%Z; rewrite bpow_plus; reflexivity).
    assert (S2 : step_error2 (3 * M) (48 * (M * M)) <= bp (-41) * (M * M)).
    { unfold step_error2. rewrite E41. assert (0 <= e53 * (M * M)) by (apply Rmult_le_pos; lra). lra. }
    assert (S2p : 0 <= step_error2 (3 * M) (48 * (M * M))) by (unfold step_error2; assert (0 <= e53 * (M * M)) by (apply Rmult_le_pos; lra); lra).
    pose proof (pos_INR (length l)) as PL.
    assert (BMo : forall b, In b l -> (0 < values_in b)%Z ->
      Rabs (IZR (values_in b) * moment (bf b) - sum_R (map square (finite_values b))) <= IZR (values_in b) * ((24 * IZR B + 52) * (bp (-23) * (M * M))) /\
      moment (bf b) <= 46 * (M * M)).
    { intros b Hb V. rewrite <- EB. apply batch_moment; [exact reduce_sum_adds|exact HM2|exact HBn| | |exact V].
      - apply Nat2Z.inj_le. rewrite Z2Nat.id by lia. apply L, Hb.
      - intros x Hx. apply HX. apply in_concat. exists b. auto. }
    assert (QF : Forall (fun xs => (0 < values_in xs)%Z -> moment (bf xs) <= 46 * (M * M)) l).
    { apply Forall_forall. intros b Hb V. apply BMo; assumption. }
    assert (QV : 46 * (M * M) + INR (length l) * step_error2 (3 * M) (48 * (M * M)) <= 48 * (M * M)).
    { assert (INR (length l) * step_error2 (3 * M) (48 * (M * M)) <= bp 40 * (bp (-41) * (M * M))) by (apply Rmult_le_compat; assumption).
      replace (bp 40 * (bp (-41) * (M * M))) with (bp 40 * bp (-41) * (M * M)) in H by ring. rewrite <- bpow_plus in H.
      change (bp (40 + -41)) with (/ 2) in H. lra. }
    specialize (PM _ (46 * (M * M)) MV ltac:(lra) QF QV).
    split; [eapply var_bound; [exact RP|exact MV| |exact QF|exact QV|exact PM]; lra|].
    assert (MS : Rabs (msum bf l - sum_R (map square (finite_values (concat l)))) <= IZR (cnt l) * ((24 * IZR B + 52) * (bp (-23) * (M * M)))).
    { revert BMo. generalize l ((24 * IZR B + 52) * (bp (-23) * (M * M))). clear. intros l0 q H. unfold msum, cnt.
      induction l0 as [|b l0 IH]; cbn [fold_right concat].
      - cbn. rewrite Rminus_0_r, Rabs_R0. lra.
      - rewrite finite_values_app, map_app, sum_R_app, plus_IZR.
        replace (IZR (values_in b) * moment (bf b) + _ - _)
          with ((IZR (values_in b) * moment (bf b) - sum_R (map square (finite_values b))) +
                (fold_right (fun xs r => IZR (values_in xs) * moment (bf xs) + r) 0 l0 - sum_R (map square (finite_values (concat l0))))) by ring.
        eapply Rle_trans; [apply Rabs_triang|]. rewrite Rmult_plus_distr_r. apply Rplus_le_compat.
        + destruct (Z.eq_dec (values_in b) 0) as [E|E].
          * assert (F : finite_values b = []).
            { unfold values_in in E. unfold finite_values. destruct (filter is_finite b); [reflexivity|cbn in E; lia]. }
            rewrite E, F. cbn. rewrite Rmult_0_l, Rminus_0_r, Rabs_R0. lra.
          * apply H; [left; reflexivity|unfold values_in in *; lia].
        + apply IH. intros x Hx. apply H. right. exact Hx. }
    set (q := (24 * IZR B + 52) * (bp (-23) * (M * M))) in *.
    assert (q0 : 0 <= q).
    { unfold q. pose proof (IZR_le 0 B ltac:(lia)). pose proof (bpow_ge_0 radix2 (-23)).
      apply Rmult_le_pos; [lra|]. apply Rmult_le_pos; lra. }
    assert (E1 : INR (length l) * step_error2 (3 * M) (48 * (M * M)) <= INR (length l) * (bp (-41) * (M * M))) by (apply Rmult_le_compat_l; assumption).
    assert (E0 : 0 <= INR (length l) * step_error2 (3 * M) (48 * (M * M))) by (apply Rmult_le_pos; assumption).
    replace (((24 * IZR B + 52) * bp (-23) + INR (length l) * bp (-41)) * (M * M)) with (q + INR (length l) * (bp (-41) * (M * M))) by (unfold q; ring).
    unfold mean_R. rewrite map_length, NL. pose proof (cnt_pos l) as CP.
    destruct (Z.eq_dec (cnt l) 0) as [C0|C0].
    - unfold moment. destruct (M0 C0) as [-> ->]. rewrite (no_values C0). cbn [sum_R fold_right map].
      unfold Rdiv. rewrite !Rmult_0_l, Rplus_0_l, Rminus_0_r, Rabs_R0. lra.
    - assert (CR : 0 < IZR (cnt l)) by (apply IZR_lt; lia).
      apply (Rmult_le_reg_r (IZR (cnt l))); [exact CR|]. rewrite <- (Rabs_pos_eq (IZR (cnt l))) at 2 by lra. rewrite <- Rabs_mult.
      replace ((moment a - sum_R (map square (finite_values (concat l))) / IZR (cnt l)) * IZR (cnt l))
        with ((moment a * IZR (cnt l) - msum bf l) + (msum bf l - sum_R (map square (finite_values (concat l))))) by (field; lra).
      eapply Rle_trans; [apply Rabs_triang|].
      apply Rle_trans with (INR (length l) * step_error2 (3 * M) (48 * (M * M)) * IZR (cnt l) + q * IZR (cnt l)).
      + apply Rplus_le_compat; [rewrite (Rmult_comm (INR _)); exact PM|lra].
      + rewrite <- Rmult_plus_distr_r. apply Rmult_le_compat_r; lra.
  Qed.

  Lemma mean_le : Rabs (mean_R (finite_values (concat l))) <= M.
  Proof.
    assert (SB : Rabs (sum_R (finite_values (concat l))) <= INR (length (finite_values (concat l))) * M).
    { revert HX. change (batches_of s) with l. generalize (concat l). clear. intros xs H. unfold finite_values, sum_R.
      induction xs as [|x xs IH]; [cbn; rewrite Rabs_R0; lra|]. cbn [filter]. destruct (is_finite x) eqn:E.
      - cbn [map fold_right length]. rewrite S_INR. eapply Rle_trans; [apply Rabs_triang|].
        specialize (H x (or_introl eq_refl) E) as Hx. specialize (IH (fun y Hy => H y (or_intror Hy))). lra.
      - apply IH. intros y Hy. apply H. right. exact Hy. }
    pose proof (bpow_gt_0 radix2 (-100)) as P100. unfold mean_R. pose proof (pos_INR (length (finite_values (concat l)))) as PN.
    destruct (Req_dec (INR (length (finite_values (concat l)))) 0) as [E|E].
    - rewrite E in *. assert (sum_R (finite_values (concat l)) = 0) as ->.
      { destruct (Req_dec (sum_R (finite_values (concat l))) 0) as [|N]; [assumption|]. apply Rabs_pos_lt in N. lra. }
      unfold Rdiv. rewrite Rmult_0_l, Rabs_R0. lra.
    - unfold Rdiv. rewrite Rabs_mult, Rabs_inv, (Rabs_pos_eq (INR _)) by assumption.
      apply (Rmult_le_reg_r (INR (length (finite_values (concat l))))); [lra|]. rewrite Rmult_assoc, Rinv_l by exact E. lra.
  Qed.

  Lemma var_R_moment r : var_R r = mean_R (map square r) - mean_R r * mean_R r.
  Proof.
    unfold var_R. set (m := mean_R r). unfold mean_R at 1 2. rewrite !map_length.
    change (map (fun x => (x - m) * (x - m)) r) with (map (fun x => square (x - m)) r). rewrite shifted_squares.
    destruct r as [|x r]; [subst m; cbn; unfold mean_R, Rdiv; cbn; ring|].
    assert (N0 : INR (length (x :: r)) <> 0) by (cbn [length]; rewrite S_INR; pose proof (pos_INR (length r)); lra).
    assert (E : sum_R (x :: r) = INR (length (x :: r)) * m) by (unfold m, mean_R; field; exact N0).
    rewrite E. field. exact N0.
  Qed.

  Lemma var_close : Rabs (var_of a - var_R (finite_values (concat l))) <=
    ((28 * IZR B + 57) * bp (-23) + INR (length l) * (3 / 4 * bp (-40))) * (M * M).
  Proof.
    destruct moment_close as [_ H]. pose proof mean_close as C. pose proof mean_le as ML.
    destruct whole_facts as (P & _ & _). pose proof (r_mean _ _ _ (p_rep _ _ _ _ P)) as MB. rewrite var_R_moment.
    set (mu := mean_R (finite_values (concat l))) in *. set (x2 := mean_R (map square (finite_values (concat l)))) in *.
    replace (var_of a - (x2 - mu * mu)) with ((moment a - x2) - (mean_of a - mu) * (mean_of a + mu)) by (unfold moment; ring).
    eapply Rle_trans; [apply Rabs_triang|]. rewrite Rabs_Ropp, Rabs_mult.
    assert (SM : Rabs (mean_of a + mu) <= 4 * M) by (eapply Rle_trans; [apply Rabs_triang|]; lra).
    assert (PR : Rabs (mean_of a - mu) * Rabs (mean_of a + mu) <= (bp (-48) * M * INR (length l) + beta) * (4 * M)).
    { apply Rmult_le_compat; auto using Rabs_pos. }
    assert (T1 : bp (-150) <= / 1024 * (bp (-23) * M)).
    { apply Rle_trans with (bp (-10) * (bp (-23) * bp (-50))); [rewrite <- !bpow_plus; apply bpow_le; lia|].
      change (bp (-10)) with (/ 1024). apply Rmult_le_compat_l; [lra|]. apply Rmult_le_compat_l; [apply bpow_ge_0|lra]. }
    assert (E41 : bp (-41) = / 2 * bp (-40)) by (change (-41)%Z with (-1 + -40)%Z; rewrite bpow_plus; reflexivity).
    assert (E48 : bp (-48) = / 256 * bp (-40)) by (change (-48)%Z with (-8 + -40)%Z; rewrite bpow_plus; reflexivity).
    pose proof (bpow_gt_0 radix2 (-40)) as P40. pose proof (bpow_gt_0 radix2 (-23)) as P23. pose proof (bpow_gt_0 radix2 (-50)) as P50.
    pose proof (pos_INR (length l)) as PL.
    rewrite E41 in H. rewrite E48 in PR. unfold beta in PR. set (w := bp (-23)) in *. set (e := bp (-40)) in *. set (n := INR (length l)) in *.
    assert (MM : 0 < M * M) by (apply Rmult_lt_0_compat; lra).
    assert (bp (-150) * (4 * M) <= / 1024 * (w * M) * (4 * M)) by (apply Rmult_le_compat_r; lra).
    assert (0 <= n * (e * (M * M))) by (apply Rmult_le_pos; [exact PL|apply Rmult_le_pos; lra]).
    assert (0 <= w * (M * M)) by (apply Rmult_le_pos; lra).
    eapply Rle_trans; [apply Rplus_le_compat; [exact H|exact PR]|].
    replace ((/ 256 * e * M * n + ((IZR B + 1) * w * M + bp (-150))) * (4 * M))
      with (4 / 256 * (n * (e * (M * M))) + (4 * IZR B + 4) * (w * (M * M)) + bp (-150) * (4 * M)) by field.
    replace (/ 1024 * (w * M) * (4 * M)) with (4 / 1024 * (w * (M * M))) in * by field.
    replace (((24 * IZR B + 52) * w + n * (/ 2 * e)) * (M * M)) with ((24 * IZR B + 52) * (w * (M * M)) + / 2 * (n * (e * (M * M)))) by ring.
    replace (((28 * IZR B + 57) * w + n * (3 / 4 * e)) * (M * M)) with ((28 * IZR B + 57) * (w * (M * M)) + 3 / 4 * (n * (e * (M * M)))) by ring.
    lra.
  Qed.
End Accuracy.
