(** The mean and variance of batches reduced by any function [f] that is accurate enough: as in [FmvAccuracy],
    [FmvProps] and [FzProps]. *)
From Coq Require Import List ZArith Reals Bool Permutation Lra Lia.
From Flocq Require Import Core BinarySingleNaN.
From Verif Require Import CombineModel CombineProofs IeeeModel IeeeSpec IeeeProofs IeeeScaleProofs IeeeZProofs IeeeProps FsumSpec FsumProofs
  FmvModel FmvSpec FmvFloat FmvFormulas FmvProofs FmvBatch FmvAccuracy FzSpec FzProofs FzkInv.
Import ListNotations.
Local Open Scope R_scope.

Lemma analyze_whole (f : list f32 -> fmv) s :
  analyze fmv_combiner (map_sched (map_sched f) s) = let a := whole f s in (as_f32 (f_mean a), as_f32 (f_var a)).
Proof.
  unfold analyze, run_merge. cbv zeta.
  assert (E : forall X Y (g : X -> Y) (h : sched Y -> fmv) (s : sched (sched X)),
    map_sched h (map_sched (map_sched g) s) = map_sched (fun x => h (map_sched g x)) s).
  { intros. induction s0 as [xs|s0 rest IH0 IHr] using sched_ind'; cbn; [rewrite map_map; reflexivity|].
    rewrite IH0. f_equal. rewrite map_map. induction IHr as [|x l Hx _ IH]; cbn; [reflexivity|]. rewrite Hx, IH. reflexivity. }
  rewrite E, run_map. cbn [fmv_combiner extract_output create_accumulator merge_accumulators fmv_merge fold_left].
  assert (Q : forall x, run_accumulate fmv_combiner (map_sched f x)
                        = run fmv_create (fun a xs => fmv_combine a (f xs)) fmv_merge x).
  { intro x. unfold run_accumulate. rewrite run_map. reflexivity. }
  assert (G : forall (g h : sched (list f32) -> fmv), (forall x, g x = h x) -> forall s,
    run fmv_create (fun a x => fmv_combine a (g x)) fmv_merge s = run fmv_create (fun a x => fmv_combine a (h x)) fmv_merge s).
  { intros g h H t. induction t as [xs|s0 rest IH0 IHr] using sched_ind'; cbn [run].
    - generalize fmv_create. induction xs as [|x xs IH]; intro a; cbn; [reflexivity|]. rewrite H. apply IH.
    - rewrite IH0. do 2 f_equal. induction IHr as [|x l Hx _ IH]; cbn; [reflexivity|]. rewrite Hx, IH. reflexivity. }
  rewrite (G _ _ Q). reflexivity.
Qed.

Section Accuracy.
  Variable bf : list f32 -> fmv.
  Notation bp := (bpow radix2).
  Variable s : sched (sched (list f32)).
  Variables (M : R) (B : Z).
  Hypothesis HB0 : (0 <= B <= 2 ^ 23)%Z.
  Hypothesis L : forall b, In b (batches_of s) -> (Z.of_nat (length b) <= B)%Z.
  Hypothesis T : (Z.of_nat (length (concat (batches_of s))) <= 2 ^ 53)%Z.
  Hypothesis HM : bp (-100) <= M <= bp 100.
  Hypothesis HX : forall x, In x (concat (batches_of s)) -> is_finite x = true -> Rabs (B2R x) <= M.

  Let l := batches_of s.
  Let a := whole bf s.
  Let beta := (IZR B + 1) * bp (-23) * M + bp (-150).

  Hypothesis BR : forall b, In b l -> Rep (3 * M) (values_in b) (bf b).
  Hypothesis BK : forall b, In b l -> keyed_batch (bf b) /\ (values_in b = 0%Z -> blank (bf b)).
  Hypothesis BM : forall b, In b l ->
    Rabs (IZR (values_in b) * mean_of (bf b) - sum_R (finite_values b)) <= IZR (values_in b) * beta /\
    Rabs (mean_of (bf b)) <= 3 * M.

  Lemma KM : 0 <= 3 * M <= bp 128.
  Proof.
    pose proof (bpow_gt_0 radix2 (-100)) as P100. split; [lra|]. apply Rle_trans with (bp 102); [|apply bpow_le; lia].
    change 102%Z with (2 + 100)%Z. rewrite bpow_plus. change (bp 2) with 4. lra.
  Qed.

  Lemma whole_facts : pre bf (3 * M) l a /\ done l a.
  Proof.
    destruct (whole_any bf (3 * M) KM s) as (P & D).
    - apply Forall_forall. intros b Hb. split; [apply BR, Hb|apply BK, Hb].
    - rewrite cnt_concat. pose proof (values_le (concat (batches_of s))). lia.
    - auto.
  Qed.

  Lemma NL : INR (length (finite_values (concat l))) = IZR (cnt l).
  Proof. rewrite cnt_concat. unfold finite_values, values_in. rewrite map_length, INR_IZR_INZ. reflexivity. Qed.

  Lemma no_values : cnt l = 0%Z -> finite_values (concat l) = [].
  Proof.
    intro C0. pose proof NL as N. rewrite C0 in N. destruct (finite_values (concat l)) as [|x r]; [reflexivity|].
    cbn [length] in N. pose proof (pos_INR (length r)). rewrite S_INR in N. lra.
  Qed.

  Lemma beta_pos : 0 <= beta.
  Proof.
    unfold beta. pose proof (bpow_ge_0 radix2 (-150)). pose proof (bpow_ge_0 radix2 (-23)). pose proof (IZR_le 0 B ltac:(lia)).
    pose proof (bpow_gt_0 radix2 (-100)).
    assert (0 <= (IZR B + 1) * bp (-23) * M) by (apply Rmult_le_pos; [apply Rmult_le_pos; lra|lra]). lra.
  Qed.

  Lemma mean_close : Rabs (mean_of a - mean_R (finite_values (concat l))) <= bp (-48) * M * INR (length l) + beta.
  Proof.
    destruct whole_facts as (P & _). destruct P as [RP ER _ _ _]. pose proof (r_empty _ _ _ RP) as M0.
    pose proof (bpow_gt_0 radix2 (-100)) as P100.
    assert (WS : Rabs (wsum bf l - sum_R (finite_values (concat l))) <= IZR (cnt l) * beta).
    { generalize BM. generalize l. clear - beta. intros l0 H. unfold wsum, cnt. induction l0 as [|b l0 IH]; cbn [fold_right concat].
      - cbn. rewrite Rminus_0_r, Rabs_R0. lra.
      - rewrite finite_values_app, sum_R_app, plus_IZR.
        replace (IZR (values_in b) * mean_of (bf b) + _ - _)
          with ((IZR (values_in b) * mean_of (bf b) - sum_R (finite_values b)) +
                (fold_right (fun xs r => IZR (values_in xs) * mean_of (bf xs) + r) 0 l0 - sum_R (finite_values (concat l0)))) by ring.
        eapply Rle_trans; [apply Rabs_triang|]. rewrite Rmult_plus_distr_r. apply Rplus_le_compat.
        + apply H. left. reflexivity.
        + apply IH. intros x Hx. apply H. right. exact Hx. }
    assert (SE : step_error (3 * M) <= bp (-48) * M).
    { unfold step_error. pose proof e53_pos. pose proof eta_pos.
      assert (eta <= e53 * bp (-110)) by (unfold eta, e53; rewrite <- bpow_plus; apply bpow_le; lia).
      assert (bp (-48) = 32 * e53) as -> by (unfold e53; change (-48)%Z with (5 + -53)%Z; rewrite bpow_plus; reflexivity).
      assert (Q : bp (-110) = / 1024 * bp (-100)) by (change (-110)%Z with (-10 + -100)%Z; rewrite bpow_plus; reflexivity).
      rewrite Q in *. assert (Q2 : bp (-100) <= / 1024) by (change (/ 1024) with (bp (-10)); apply bpow_le; lia).
      assert (32 * eta * (1 + 3 * M) <= 32 * (e53 * (/ 1024 * M)) + 96 * (e53 * (/ 1024 * / 1024)) * M).
      { replace (32 * eta * (1 + 3 * M)) with (32 * eta + 96 * eta * M) by ring.
        apply Rplus_le_compat; [nra|]. apply Rmult_le_compat_r; [lra|]. nra. }
      nra. }
    pose proof beta_pos as BP. pose proof (pos_INR (length l)) as PL. pose proof (bpow_gt_0 radix2 (-48)) as P48.
    assert (PM : 0 <= bp (-48) * M * INR (length l)) by (apply Rmult_le_pos; [apply Rmult_le_pos; lra|exact PL]).
    unfold mean_R. rewrite NL. pose proof (cnt_pos l) as CP.
    destruct (Z.eq_dec (cnt l) 0) as [C0|C0].
    - destruct (M0 C0) as [-> _]. rewrite (no_values C0). cbn [sum_R fold_right].
      unfold Rdiv. rewrite Rmult_0_l, Rminus_0_r, Rabs_R0. lra.
    - assert (CR : 0 < IZR (cnt l)) by (apply IZR_lt; lia).
      apply (Rmult_le_reg_r (IZR (cnt l))); [exact CR|]. rewrite <- (Rabs_pos_eq (IZR (cnt l))) at 2 by lra. rewrite <- Rabs_mult.
      replace ((mean_of a - sum_R (finite_values (concat l)) / IZR (cnt l)) * IZR (cnt l))
        with ((mean_of a * IZR (cnt l) - wsum bf l) + (wsum bf l - sum_R (finite_values (concat l)))) by (field; lra).
      eapply Rle_trans; [apply Rabs_triang|]. rewrite Rmult_plus_distr_r. apply Rplus_le_compat; [|lra].
      eapply Rle_trans; [exact ER|]. apply Rmult_le_compat_r; [lra|]. apply Rmult_le_compat_r; [exact PL|exact SE].
  Qed.

  (** The second moment, for a narrower range of magnitudes and a bounded number of batches. *)
  Hypothesis HM2 : bp (-50) <= M <= bp 48.
  Hypothesis HN : INR (length l) <= bp 40.
  Hypothesis BMo : forall b, In b l -> (0 < values_in b)%Z ->
    Rabs (IZR (values_in b) * moment (bf b) - sum_R (map square (finite_values b))) <= IZR (values_in b) * ((24 * IZR B + 52) * (bp (-23) * (M * M))) /\
    moment (bf b) <= 46 * (M * M).

  Lemma moment_close : var_of a <= 48 * (M * M) /\
    Rabs (moment a - mean_R (map square (finite_values (concat l)))) <=
      ((24 * IZR B + 52) * bp (-23) + INR (length l) * bp (-41)) * (M * M).
  Proof.
    destruct whole_facts as (P & _). destruct P as [RP _ _ _ PM]. pose proof (r_empty _ _ _ RP) as M0.
    pose proof (bpow_gt_0 radix2 (-50)) as P50. pose proof e53_pos as e0. pose proof eta_pos as et0.
    assert (MM : 0 < M * M) by (apply Rmult_lt_0_compat; lra).
    assert (MM1 : M * M <= bp 96) by (change 96%Z with (48 + 48)%Z; rewrite bpow_plus; apply Rmult_le_compat; lra).
    assert (MM2 : bp (-100) <= M * M) by (change (-100)%Z with (-50 + -50)%Z; rewrite bpow_plus; apply Rmult_le_compat; lra).
    assert (ET : eta <= e53 * bp (-110)) by (unfold eta, e53; rewrite <- bpow_plus; apply bpow_le; lia).
    assert (Q : bp (-110) = / 1024 * bp (-100)) by (change (-110)%Z with (-10 + -100)%Z; rewrite bpow_plus; reflexivity).
    assert (P1 : bp (-100) <= bp (-50)) by (apply bpow_le; lia). rewrite Q in ET.
    assert (MV : moderate (3 * M) (48 * (M * M))).
    { split; [|split].
      - assert (e53 * bp (-100) <= e53 * M) by (apply Rmult_le_compat_l; lra). lra.
      - assert (e53 * bp (-100) <= e53 * (M * M)) by (apply Rmult_le_compat_l; lra). lra.
      - apply Rle_trans with (bp 7 * bp 96); [change (bp 7) with 128; lra|]. rewrite <- bpow_plus. apply bpow_le. lia. }
    assert (E41 : bp (-41) = 4096 * e53) by (unfold e53; change (-41)%Z with (12 + -53)%Z; rewrite bpow_plus; reflexivity).
    assert (S2 : step_error2 (3 * M) (48 * (M * M)) <= bp (-41) * (M * M)).
    { unfold step_error2. rewrite E41. assert (0 <= e53 * (M * M)) by (apply Rmult_le_pos; lra). lra. }
    assert (S2p : 0 <= step_error2 (3 * M) (48 * (M * M))) by (unfold step_error2; assert (0 <= e53 * (M * M)) by (apply Rmult_le_pos; lra); lra).
    pose proof (pos_INR (length l)) as PL.
    assert (QF : Forall (fun xs => (0 < values_in xs)%Z -> moment (bf xs) <= 46 * (M * M)) l).
    { apply Forall_forall. intros b Hb V. apply BMo; assumption. }
    assert (QV : 46 * (M * M) + INR (length l) * step_error2 (3 * M) (48 * (M * M)) <= 48 * (M * M)).
    { assert (INR (length l) * step_error2 (3 * M) (48 * (M * M)) <= bp 40 * (bp (-41) * (M * M))) by (apply Rmult_le_compat; assumption).
      replace (bp 40 * (bp (-41) * (M * M))) with (bp 40 * bp (-41) * (M * M)) in H by ring. rewrite <- bpow_plus in H.
      change (bp (40 + -41)) with (/ 2) in H. lra. }
    specialize (PM _ (46 * (M * M)) MV ltac:(lra) QF QV).
    split; [eapply var_bound; [exact RP|exact MV| |exact QF|exact QV|exact PM]; lra|].
    assert (MS : Rabs (msum bf l - sum_R (map square (finite_values (concat l)))) <= IZR (cnt l) * ((24 * IZR B + 52) * (bp (-23) * (M * M)))).
    { revert BMo. generalize l ((24 * IZR B + 52) * (bp (-23) * (M * M))). clear. intros l0 q H. unfold msum, cnt.
      induction l0 as [|b l0 IH]; cbn [fold_right concat].
      - cbn. rewrite Rminus_0_r, Rabs_R0. lra.
      - rewrite finite_values_app, map_app, sum_R_app, plus_IZR.
        replace (IZR (values_in b) * moment (bf b) + _ - _)
          with ((IZR (values_in b) * moment (bf b) - sum_R (map square (finite_values b))) +
                (fold_right (fun xs r => IZR (values_in xs) * moment (bf xs) + r) 0 l0 - sum_R (map square (finite_values (concat l0))))) by ring.
        eapply Rle_trans; [apply Rabs_triang|]. rewrite Rmult_plus_distr_r. apply Rplus_le_compat.
        + destruct (Z.eq_dec (values_in b) 0) as [E|E].
          * assert (F : finite_values b = []).
            { unfold values_in in E. unfold finite_values. destruct (filter is_finite b); [reflexivity|cbn in E; lia]. }
            rewrite E, F. cbn. rewrite Rmult_0_l, Rminus_0_r, Rabs_R0. lra.
          * apply H; [left; reflexivity|unfold values_in in *; lia].
        + apply IH. intros x Hx. apply H. right. exact Hx. }
    set (q := (24 * IZR B + 52) * (bp (-23) * (M * M))) in *.
    assert (q0 : 0 <= q).
    { unfold q. pose proof (IZR_le 0 B ltac:(lia)). pose proof (bpow_ge_0 radix2 (-23)).
      apply Rmult_le_pos; [lra|]. apply Rmult_le_pos; lra. }
    assert (E1 : INR (length l) * step_error2 (3 * M) (48 * (M * M)) <= INR (length l) * (bp (-41) * (M * M))) by (apply Rmult_le_compat_l; assumption).
    assert (E0 : 0 <= INR (length l) * step_error2 (3 * M) (48 * (M * M))) by (apply Rmult_le_pos; assumption).
    replace (((24 * IZR B + 52) * bp (-23) + INR (length l) * bp (-41)) * (M * M)) with (q + INR (length l) * (bp (-41) * (M * M))) by (unfold q; ring).
    unfold mean_R. rewrite map_length, NL. pose proof (cnt_pos l) as CP.
    destruct (Z.eq_dec (cnt l) 0) as [C0|C0].
    - unfold moment. destruct (M0 C0) as [-> ->]. rewrite (no_values C0). cbn [sum_R fold_right map].
      unfold Rdiv. rewrite !Rmult_0_l, Rplus_0_l, Rminus_0_r, Rabs_R0. lra.
    - assert (CR : 0 < IZR (cnt l)) by (apply IZR_lt; lia).
      apply (Rmult_le_reg_r (IZR (cnt l))); [exact CR|]. rewrite <- (Rabs_pos_eq (IZR (cnt l))) at 2 by lra. rewrite <- Rabs_mult.
      replace ((moment a - sum_R (map square (finite_values (concat l))) / IZR (cnt l)) * IZR (cnt l))
        with ((moment a * IZR (cnt l) - msum bf l) + (msum bf l - sum_R (map square (finite_values (concat l))))) by (field; lra).
      eapply Rle_trans; [apply Rabs_triang|].
      apply Rle_trans with (INR (length l) * step_error2 (3 * M) (48 * (M * M)) * IZR (cnt l) + q * IZR (cnt l)).
      + apply Rplus_le_compat; [rewrite (Rmult_comm (INR _)); exact PM|lra].
      + rewrite <- Rmult_plus_distr_r. apply Rmult_le_compat_r; lra.
  Qed.

  Lemma var_close : Rabs (var_of a - var_R (finite_values (concat l))) <=
    ((28 * IZR B + 57) * bp (-23) + INR (length l) * (3 / 4 * bp (-40))) * (M * M).
  Proof.
    destruct moment_close as [_ H]. pose proof mean_close as C. pose proof (mean_le s M HM HX) as ML. change (batches_of s) with l in ML.
    destruct whole_facts as (P & _). pose proof (r_mean _ _ _ (p_rep _ _ _ _ P)) as MB. rewrite var_R_moment.
    set (mu := mean_R (finite_values (concat l))) in *. set (x2 := mean_R (map square (finite_values (concat l)))) in *.
    replace (var_of a - (x2 - mu * mu)) with ((moment a - x2) - (mean_of a - mu) * (mean_of a + mu)) by (unfold moment; ring).
    eapply Rle_trans; [apply Rabs_triang|]. rewrite Rabs_Ropp, Rabs_mult.
    assert (SM : Rabs (mean_of a + mu) <= 4 * M) by (eapply Rle_trans; [apply Rabs_triang|]; lra).
    assert (PR : Rabs (mean_of a - mu) * Rabs (mean_of a + mu) <= (bp (-48) * M * INR (length l) + beta) * (4 * M)).
    { apply Rmult_le_compat; auto using Rabs_pos. }
    assert (T1 : bp (-150) <= / 1024 * (bp (-23) * M)).
    { apply Rle_trans with (bp (-10) * (bp (-23) * bp (-50))); [rewrite <- !bpow_plus; apply bpow_le; lia|].
      change (bp (-10)) with (/ 1024). apply Rmult_le_compat_l; [lra|]. apply Rmult_le_compat_l; [apply bpow_ge_0|lra]. }
    assert (E41 : bp (-41) = / 2 * bp (-40)) by (change (-41)%Z with (-1 + -40)%Z; rewrite bpow_plus; reflexivity).
    assert (E48 : bp (-48) = / 256 * bp (-40)) by (change (-48)%Z with (-8 + -40)%Z; rewrite bpow_plus; reflexivity).
    pose proof (bpow_gt_0 radix2 (-40)) as P40. pose proof (bpow_gt_0 radix2 (-23)) as P23. pose proof (bpow_gt_0 radix2 (-50)) as P50.
    pose proof (pos_INR (length l)) as PL.
    rewrite E41 in H. rewrite E48 in PR. unfold beta in PR. set (w := bp (-23)) in *. set (e := bp (-40)) in *. set (n := INR (length l)) in *.
    assert (MM : 0 < M * M) by (apply Rmult_lt_0_compat; lra).
    assert (bp (-150) * (4 * M) <= / 1024 * (w * M) * (4 * M)) by (apply Rmult_le_compat_r; lra).
    assert (0 <= n * (e * (M * M))) by (apply Rmult_le_pos; [exact PL|apply Rmult_le_pos; lra]).
    assert (0 <= w * (M * M)) by (apply Rmult_le_pos; lra).
    eapply Rle_trans; [apply Rplus_le_compat; [exact H|exact PR]|].
    replace ((/ 256 * e * M * n + ((IZR B + 1) * w * M + bp (-150))) * (4 * M))
      with (4 / 256 * (n * (e * (M * M))) + (4 * IZR B + 4) * (w * (M * M)) + bp (-150) * (4 * M)) by field.
    replace (/ 1024 * (w * M) * (4 * M)) with (4 / 1024 * (w * (M * M))) in * by field.
    replace (((24 * IZR B + 52) * w + n * (/ 2 * e)) * (M * M)) with ((24 * IZR B + 52) * (w * (M * M)) + / 2 * (n * (e * (M * M)))) by ring.
    replace (((28 * IZR B + 57) * w + n * (3 / 4 * e)) * (M * M)) with ((28 * IZR B + 57) * (w * (M * M)) + 3 / 4 * (n * (e * (M * M)))) by ring.
    lra.
  Qed.

  Lemma out_mean : is_finite (as_f32 (f_mean a)) = true /\
    Rabs (B2R (as_f32 (f_mean a)) - mean_R (finite_values (concat l)))
      <= ((IZR B + 3) * / IZR (2 ^ 23) + INR (length l) * / IZR (2 ^ 48)) * M.
  Proof.
    cbn [fst].
    change (/ IZR (2 ^ 23)) with (bpow radix2 (-23)). change (/ IZR (2 ^ 48)) with (bpow radix2 (-48)).
    pose proof (bpow_gt_0 radix2 (-100)) as P100.
    destruct whole_facts as (P & [[W Rw]|[C0 (c & m & v & Ea & [Fm Zm] & _)]]).
    2: { rewrite Ea. cbn [f_mean as_f32]. split; [exact Fm|]. rewrite Zm, (no_values C0). unfold mean_R. cbn [sum_R fold_right].
      unfold Rdiv. rewrite Rmult_0_l, Rminus_0_r, Rabs_R0. pose proof (IZR_le 0 B ltac:(lia)). pose proof (pos_INR (length l)).
      pose proof (bpow_ge_0 radix2 (-23)). pose proof (bpow_ge_0 radix2 (-48)).
      apply Rmult_le_pos; [apply Rplus_le_le_0_compat; apply Rmult_le_pos; lra|lra]. }
    pose proof mean_close as KL.
    unfold a in *. destruct (wide_mean _ W Rw) as (m & Em & Fm & Mm). rewrite Em. cbn [as_f32].
    pose proof (r_mean _ _ _ (p_rep _ _ _ _ P)) as MB. rewrite Mm in *. unfold beta in KL.
    destruct (cast_mean m Fm) as [FC EC].
    { eapply Rle_trans; [exact MB|]. apply Rle_trans with (bpow radix2 102).
      - change 102%Z with (2 + 100)%Z. rewrite bpow_plus. change (bpow radix2 2) with 4. lra.
      - unfold max_single. assert (bpow radix2 128 = bpow radix2 24 * bpow radix2 104) as -> by (rewrite <- bpow_plus; reflexivity).
        change (bpow radix2 24) with 16777216. pose proof (bpow_le radix2 102 104 ltac:(lia)). pose proof (bpow_gt_0 radix2 102). lra. }
    split; [exact FC|]. rewrite EC. pose proof (rnd_err (B2R m)) as RE.
    replace (single (B2R m) - mean_R (finite_values (concat l)))
      with ((single (B2R m) - B2R m) + (B2R m - mean_R (finite_values (concat l)))) by ring.
    eapply Rle_trans; [apply Rabs_triang|]. eapply Rle_trans; [apply Rplus_le_compat; [exact RE|exact KL]|].
    assert (P24 : bpow radix2 (-24) = / 2 * bpow radix2 (-23)) by (change (-24)%Z with (-1 + -23)%Z; rewrite bpow_plus; reflexivity).
    assert (P150 : bpow radix2 (-150) <= / 8 * (bpow radix2 (-23) * M)).
    { apply Rle_trans with (bpow radix2 (-3) * (bpow radix2 (-23) * bpow radix2 (-100))).
      - rewrite <- !bpow_plus. apply bpow_le. lia.
      - change (bpow radix2 (-3)) with (/ 8). apply Rmult_le_compat_l; [lra|]. apply Rmult_le_compat_l; [apply bpow_ge_0|lra]. }
    pose proof (bpow_gt_0 radix2 (-23)) as P23. set (w := bpow radix2 (-23)) in *. rewrite P24.
    assert (/ 2 * w * Rabs (B2R m) <= / 2 * w * (3 * M)) by (apply Rmult_le_compat_l; [lra|exact MB]).
    assert (0 <= w * M) by (apply Rmult_le_pos; lra).
    replace (((IZR B + 3) * w + INR (length l) * bpow radix2 (-48)) * M)
      with ((IZR B * (w * M) + 3 * (w * M)) + bpow radix2 (-48) * M * INR (length l)) by ring.
    replace ((IZR B + 1) * w * M) with (IZR B * (w * M) + w * M) by ring. lra.
  Qed.

  Lemma out_var : is_finite (as_f32 (f_var a)) = true /\ 0 <= B2R (as_f32 (f_var a)) /\
    Rabs (B2R (as_f32 (f_var a)) - var_R (finite_values (concat l)))
      <= ((28 * IZR B + 84) * / IZR (2 ^ 23) + INR (length l) * / IZR (2 ^ 40)) * (M * M).
  Proof.
    cbn [snd].
    change (/ IZR (2 ^ 23)) with (bpow radix2 (-23)). change (/ IZR (2 ^ 40)) with (bpow radix2 (-40)).
    pose proof (bpow_gt_0 radix2 (-50)) as P50.
    destruct whole_facts as (P & [[W Rw]|[C0 (c & m & v & Ea & _ & [Fm Zm])]]).
    2: { rewrite Ea. cbn [f_var as_f32]. split; [exact Fm|]. rewrite Zm, (no_values C0). split; [lra|]. unfold var_R, mean_R. cbn [map sum_R fold_right].
      unfold Rdiv. rewrite Rmult_0_l, Rminus_0_r, Rabs_R0. pose proof (IZR_le 0 B ltac:(lia)). pose proof (pos_INR (length l)).
      pose proof (bpow_ge_0 radix2 (-23)). pose proof (bpow_ge_0 radix2 (-40)).
      apply Rmult_le_pos; [apply Rplus_le_le_0_compat; apply Rmult_le_pos; lra|nra]. }
    pose proof var_close as VC. destruct moment_close as [VB _]. unfold a in *.
    destruct (wide_var _ W Rw) as (v & Ev & Nv & _). rewrite Ev. cbn [as_f32].
    assert (MM : 0 < M * M) by (apply Rmult_lt_0_compat; lra).
    assert (MM1 : M * M <= bpow radix2 96) by (change 96%Z with (48 + 48)%Z; rewrite bpow_plus; apply Rmult_le_compat; lra).
    assert (MM2 : bpow radix2 (-100) <= M * M) by (change (-100)%Z with (-50 + -50)%Z; rewrite bpow_plus; apply Rmult_le_compat; lra).
    assert (V102 : 48 * (M * M) <= bpow radix2 102).
    { change 102%Z with (6 + 96)%Z. rewrite bpow_plus. change (bpow radix2 6) with 64. lra. }
    assert (Fv : is_finite v = true /\ var_of (whole bf s) = B2R v).
    { unfold var_of in *. rewrite Ev in *. cbn [np_nan_to_num as_f64] in *. destruct Nv as [[F _]|E].
      - split; [exact F|]. rewrite clean_id64 by exact F. reflexivity.
      - exfalso. subst v. assert (Q : bpow radix2 103 < B2R (clean prec64 emax64 (B754_infinity false))).
        { assert (E : B2R (clean prec64 emax64 (B754_infinity false)) = IZR (2 ^ 53 - 1) * bpow radix2 971) by reflexivity. rewrite E.
          apply Rlt_le_trans with (1 * bpow radix2 971); [rewrite Rmult_1_l; apply bpow_lt; lia|].
          apply Rmult_le_compat_r; [apply bpow_ge_0|apply IZR_le; lia]. }
        pose proof (bpow_le radix2 102 103 ltac:(lia)). lra. }
    destruct Fv as [Fv EV]. rewrite EV in *.
    assert (V0 : 0 <= B2R v) by (destruct Nv as [[_ V0]|E]; [exact V0|subst v; discriminate Fv]).
    destruct (cast_mean v Fv) as [FC EC].
    { rewrite Rabs_pos_eq by exact V0. eapply Rle_trans; [exact VB|]. eapply Rle_trans; [exact V102|].
      unfold max_single. assert (bpow radix2 128 = bpow radix2 24 * bpow radix2 104) as -> by (rewrite <- bpow_plus; reflexivity).
      change (bpow radix2 24) with 16777216. pose proof (bpow_le radix2 102 104 ltac:(lia)). pose proof (bpow_gt_0 radix2 102). lra. }
    split; [exact FC|]. split; [rewrite EC; rewrite <- rnd_0; apply rnd_le, V0|]. rewrite EC. pose proof (rnd_err (B2R v)) as RE. 
    replace (single (B2R v) - var_R (finite_values (concat l)))
      with ((single (B2R v) - B2R v) + (B2R v - var_R (finite_values (concat l)))) by ring.
    eapply Rle_trans; [apply Rabs_triang|]. eapply Rle_trans; [apply Rplus_le_compat; [exact RE|exact VC]|].
    assert (P24 : bpow radix2 (-24) = / 2 * bpow radix2 (-23)) by (change (-24)%Z with (-1 + -23)%Z; rewrite bpow_plus; reflexivity).
    assert (P150 : bpow radix2 (-150) <= / 8 * (bpow radix2 (-23) * (M * M))).
    { apply Rle_trans with (bpow radix2 (-3) * (bpow radix2 (-23) * bpow radix2 (-100))).
      - rewrite <- !bpow_plus. apply bpow_le. lia.
      - change (bpow radix2 (-3)) with (/ 8). apply Rmult_le_compat_l; [lra|]. apply Rmult_le_compat_l; [apply bpow_ge_0|lra]. }
    pose proof (bpow_gt_0 radix2 (-23)) as P23. pose proof (bpow_gt_0 radix2 (-40)) as P40. set (w := bpow radix2 (-23)) in *. rewrite P24.
    rewrite (Rabs_pos_eq (B2R v)) by exact V0.
    assert (/ 2 * w * B2R v <= / 2 * w * (48 * (M * M))) by (apply Rmult_le_compat_l; [lra|exact VB]).
    assert (0 <= w * (M * M)) by (apply Rmult_le_pos; lra). pose proof (pos_INR (length l)) as PL.
    assert (0 <= INR (length l) * (bpow radix2 (-40) * (M * M))) by (apply Rmult_le_pos; [exact PL|apply Rmult_le_pos; lra]).
    set (n := INR (length l)) in *. set (e := bpow radix2 (-40)) in *.
    replace (((28 * IZR B + 84) * w + n * e) * (M * M)) with ((28 * IZR B + 84) * (w * (M * M)) + n * (e * (M * M))) by ring.
    replace (((28 * IZR B + 57) * w + n * (3 / 4 * e)) * (M * M)) with ((28 * IZR B + 57) * (w * (M * M)) + 3 / 4 * (n * (e * (M * M)))) by ring.
    lra.
  Qed.
End Accuracy.


(** The z-score with an accurate mean and variance. *)
Lemma zscore_close (mean var x : f32) (l : list R) (M : R) (B : Z) (N : nat) :
  let E := column_error B N in
  (0 <= B)%Z -> / IZR (2 ^ 50) <= M <= IZR (2 ^ 48) ->
  is_finite mean = true ->
  Rabs (B2R mean - mean_R l) <= ((IZR B + 3) * / IZR (2 ^ 23) + INR N * / IZR (2 ^ 48)) * M ->
  is_finite var = true ->
  Rabs (B2R var - var_R l) <= ((28 * IZR B + 84) * / IZR (2 ^ 23) + INR N * / IZR (2 ^ 40)) * (M * M) ->
  (forall v, In v l -> Rabs v <= M) ->
  2 * E * (M * M) <= var_R l ->
  is_finite x = true -> Rabs (B2R x) <= M ->
  is_finite (zscore32 mean var x) = true /\
  Rabs (B2R (zscore32 mean var x) - z_R l (B2R x)) <= 2 * E * (M / deviation l) ^ 3.
Proof.
  intros E HB HM Fm Em Fv Ev LM HV Fx Bx.
  change (/ IZR (2 ^ 50)) with (bpow radix2 (-50)) in HM. change (IZR (2 ^ 48)) with (bpow radix2 48) in HM.
  pose proof (bpow_gt_0 radix2 (-50)) as P50.
  fold (column_error B N) in Ev. fold E in Ev.
  assert (B0 : 0 <= IZR B) by (apply (IZR_le 0); lia). pose proof (pos_INR (N)) as N0.
  set (w := / IZR (2 ^ 23)) in *. assert (w0 : w = / 8388608) by reflexivity.
  assert (E40 : / IZR (2 ^ 40) = / 1099511627776) by reflexivity.
  assert (E48 : / IZR (2 ^ 48) = / 256 * / IZR (2 ^ 40)) by (rewrite <- Rinv_mult, <- mult_IZR; reflexivity).
  assert (EE : E = (28 * IZR B + 84) * w + INR (N) * / IZR (2 ^ 40)) by reflexivity.
  set (q := / IZR (2 ^ 40)) in *. assert (q0 : 0 < q) by (rewrite E40; lra). set (n := INR (N)) in *.
  assert (nq : 0 <= n * q) by (apply Rmult_le_pos; lra).
  assert (El : 84 * w <= E) by (rewrite EE, w0; assert (0 <= IZR B * / 8388608) by (apply Rmult_le_pos; lra); lra).
  assert (E0 : 0 < E) by (rewrite w0 in El; lra).
  assert (Em' : Rabs (B2R mean - mean_R l) <= E * M / 28).
  { eapply Rle_trans; [exact Em|]. rewrite E48. replace (E * M / 28) with (E / 28 * M) by field.
    apply Rmult_le_compat_r; [lra|]. rewrite EE. replace (n * (/ 256 * q)) with (/ 256 * (n * q)) by ring. lra. }
  assert (MU : Rabs (mean_R l) <= M) by (apply mean_R_le; [lra|exact LM]).
  assert (VM : var_R l <= M * M) by (apply var_R_le; [lra|exact LM]).
  assert (MM : 0 < M * M) by (apply Rmult_lt_0_compat; lra).
  assert (V0 : 0 < var_R l) by (assert (0 < E * (M * M)) by (apply Rmult_lt_0_compat; lra); lra).
  destruct (z_off (B2R x) (B2R mean) (B2R var) (mean_R l) (var_R l) M E V0 VM ltac:(lra) E0 ltac:(lra) Bx MU Em' Ev)
    as (v0 & k1 & Ek & Zb & Ze).
  fold (deviation l) in k1, Ek, Zb, Ze. set (k := M / deviation l) in *. fold (z_R l (B2R x)) in Ze. set (z0 := (B2R x - B2R mean) / sqrt (B2R var)) in *.
  assert (k16 : k <= 65536).
  { apply Rnot_lt_le. intro H. assert (84 * w * 65536 < E * k) by (apply Rmult_le_0_lt_compat || idtac; rewrite w0 in *; nra). rewrite w0 in *. lra. }
  assert (M126 : M <= IZR (2 ^ 126) / 2).
  { change (IZR (2 ^ 126)) with (bpow radix2 126). change 126%Z with (1 + 125)%Z. rewrite bpow_plus. change (bpow radix2 1) with 2.
    pose proof (bpow_le radix2 48 125 ltac:(lia)). lra. }
  assert (E12 : E <= / 2) by nra.
  destruct (c73_zscore mean var x) as [FZ EZ].
  - split; [exact Fm|]. cbn [val]. replace (B2R mean) with (mean_R l + (B2R mean - mean_R l)) by ring.
    eapply Rle_trans; [apply Rabs_triang|]. assert (E * M / 28 <= M) by nra. lra.
  - exact Fv.
  - exact v0.
  - split; [exact Fx|]. cbn [val]. lra.
  - eapply Rle_trans; [exact Zb|]. apply Rle_trans with (IZR (2 ^ 18)); [change (IZR (2 ^ 18)) with 262144; lra|apply IZR_le; lia].
  - split; [exact FZ|]. fold z0 in EZ.
    match goal with |- Rabs (?a - ?b) <= _ => replace (a - b) with ((a - z0) + (z0 - b)) by ring end.
    eapply Rle_trans; [apply Rabs_triang|].
    assert (T150 : bpow radix2 (-150) <= / 2097152 * k).
    { change (/ 2097152) with (bpow radix2 (-21)). pose proof (bpow_le radix2 (-150) (-21) ltac:(lia)). pose proof (bpow_gt_0 radix2 (-21)). nra. }
    assert (R1 : / 2097152 * Rabs z0 + bpow radix2 (-150) <= / 2097152 * (4 * k)) by lra.
    assert (R2 : / 2097152 * (4 * k) <= / 5 * (E * k)) by (rewrite w0 in El; nra).
    assert (R3 : E * k <= E * (k * k * k)).
    { apply Rmult_le_compat_l; [lra|]. assert (1 <= k * k) by nra. replace k with (1 * k) at 1 by ring. apply Rmult_le_compat_r; lra. }
    replace (2 * E * k ^ 3) with (2 * (E * (k * k * k))) by ring. lra.
Qed.
