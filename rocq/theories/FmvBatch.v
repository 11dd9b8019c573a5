(** The count, mean and variance of one batch of single precision numbers, and the output of the analyzer. *)
From Coq Require Import List ZArith Reals Bool Permutation Lra Lia.
From Flocq Require Import Core BinarySingleNaN.
From Verif Require Import CombineModel CombineProofs IeeeModel IeeeSpec IeeeProofs IeeeExample FsumSpec FsumProofs
  FmvModel FmvSpec FmvFloat FmvFormulas FmvProofs.
Import ListNotations.
Local Open Scope R_scope.

Local Notation bp := (bpow radix2).
Local Notation rnd := single.
Local Existing Instance prec64.
Local Existing Instance emax64.
Local Existing Instance prec32.
Local Existing Instance emax32.

(** * Zero or more, infinite or NaN *)
Definition nn32 (x : f32) : Prop := is_nan x = true \/ (is_finite x = true /\ 0 <= B2R x) \/ x = B754_infinity false.

Lemma rnd_pos a : 0 <= a -> 0 <= rnd a.
Proof. intro H. rewrite <- rnd_0. apply rnd_le, H. Qed.

Lemma sign_neg (z : f32) : Bsign z = true -> B2R z <= 0.
Proof. intros Hz. destruct z as [s|s| |s m e B]; cbn in Hz |- *; try lra. subst s. apply F2R_le_0. cbn. lia. Qed.

Lemma add_nn x y : nn32 x -> nn32 y -> nn32 (add32 x y).
Proof.
  intros [Nx|[[Fx Px]|Ix]] [Ny|[[Fy Py]|Iy]].
  - left. destruct x; try discriminate. reflexivity.
  - left. destruct x; try discriminate. reflexivity.
  - left. destruct x; try discriminate. reflexivity.
  - left. destruct y; try discriminate. destruct x; reflexivity.
  - pose proof (Bplus_correct 24 128 prec32 emax32 mode_NE x y Fx Fy) as C. cbv beta in C. rewrite rnd_eq in C.
    destruct (Rlt_bool_spec (Rabs (rnd (B2R x + B2R y))) (bp 128)) as [L|L].
    + destruct C as (A & B & _). right. left. split; [exact B|]. unfold add32. rewrite A. apply rnd_pos. lra.
    + right. right. destruct C as [E SG]. apply B2SF_inj. eapply eq_trans; [exact E|].
      assert (Bsign x = false) as ->; [|reflexivity].
      destruct (Bsign x) eqn:SX; [exfalso|reflexivity]. symmetry in SG.
      pose proof (sign_neg x SX). pose proof (sign_neg y SG).
      assert (B2R x + B2R y = 0) as Q by lra. rewrite Q, rnd_0, Rabs_R0 in L. pose proof (bpow_gt_0 radix2 128). lra.
  - right. right. subst y. destruct x; try discriminate; reflexivity.
  - left. destruct y; try discriminate. destruct x; reflexivity.
  - right. right. subst x. destruct y; try discriminate; reflexivity.
  - right. right. subst. reflexivity.
Qed.

Lemma square_nn x : nn32 (mul32 x x).
Proof.
  destruct (is_finite x) eqn:F.
  - pose proof (Bmult_correct 24 128 prec32 emax32 mode_NE x x) as C. cbv beta in C. rewrite rnd_eq in C.
    destruct (Rlt_bool_spec (Rabs (rnd (B2R x * B2R x))) (bp 128)) as [L|L].
    + destruct C as (A & B & _). right. left. split; [unfold mul32; rewrite B, F; reflexivity|].
      unfold mul32. rewrite A. apply rnd_pos. nra.
    + right. right. apply B2SF_inj. eapply eq_trans; [exact C|]. rewrite xorb_nilpotent. reflexivity.
  - destruct x as [s|[]| |s m e B]; try discriminate F; [right; right; reflexivity|right; right; reflexivity|left; reflexivity].
Qed.

Lemma adds_nn l s : adds l s -> Forall nn32 l -> nn32 s.
Proof.
  induction 1 as [|x|a b s t Ha IHa Hb IHb|a b s P Ha IHa]; intro F.
  - right. left. split; [reflexivity|cbn; lra].
  - inversion F; assumption.
  - apply Forall_app in F as [F1 F2]. apply add_nn; auto.
  - apply IHa. eapply Permutation_Forall; [apply Permutation_sym, P|exact F].
Qed.

Lemma div_nn x y : nn32 x -> is_finite y = true -> 1 <= B2R y -> nn32 (div32 x y).
Proof.
  intros [Nx|[[Fx Px]|Ix]] Fy Hy.
  - left. destruct x; try discriminate. reflexivity.
  - right. left. assert (Q : 0 <= B2R x / B2R y <= B2R x).
    { split; [apply Rmult_le_pos; [exact Px|left; apply Rinv_0_lt_compat; lra]|].
      apply (Rmult_le_reg_r (B2R y)); [lra|]. unfold Rdiv. rewrite Rmult_assoc, Rinv_l by lra. nra. }
    destruct (div_ok x y Fx) as [A B].
    + lra.
    + rewrite Rabs_pos_eq by (apply rnd_pos; lra). apply Rle_lt_trans with (B2R x).
      * eapply Rle_trans; [apply rnd_le, (proj2 Q)|]. rewrite rnd_B2R. lra.
      * eapply Rle_lt_trans; [apply Rle_abs|]. apply (abs_B2R_lt_emax 24 128).
    + split; [exact A|]. rewrite B. apply rnd_pos. lra.
  - right. right. subst x. destruct y as [s|s| |[] m e B]; try discriminate Fy; try reflexivity.
    + cbn in Hy. lra.
    + exfalso. assert (B2R (B754_finite true m e B : f32) <= 0) by (apply F2R_le_0; cbn; lia). lra.
Qed.

Lemma clean_nn32 x : nn32 x -> 0 <= B2R (clean prec32 emax32 x).
Proof.
  intros [N|[[F P]|E]].
  - destruct x; try discriminate. cbn. lra.
  - rewrite clean_id32 by exact F. exact P.
  - subst x. apply F2R_ge_0. cbn. lia.
Qed.

(** * One batch *)
Definition masked (xs : list f32) : list f32 := map (fun x => if is_finite x then x else zero32) xs.

Lemma masked_finite xs : all_finite32 (masked xs).
Proof. intros x H. apply in_map_iff in H as (y & <- & _). destruct (is_finite y) eqn:E; [exact E|reflexivity]. Qed.

Lemma masked_total xs : total (masked xs) = sum_R (finite_values xs).
Proof.
  unfold masked, total, sum_R, finite_values. induction xs as [|x xs IH]; cbn; [reflexivity|].
  destruct (is_finite x) eqn:E; cbn; rewrite IH; [reflexivity|lra].
Qed.

Lemma masked_magnitude M xs : (forall x, In x xs -> is_finite x = true -> Rabs (B2R x) <= M) ->
  magnitude (masked xs) <= IZR (values_in xs) * M.
Proof.
  unfold masked, magnitude, values_in. induction xs as [|x xs IH]; intro H; cbn [map fold_right filter length].
  - cbn. lra.
  - specialize (IH (fun y Hy => H y (or_intror Hy))). destruct (is_finite x) eqn:E.
    + cbn [length]. rewrite Nat2Z.inj_succ, succ_IZR. specialize (H x (or_introl eq_refl) E). lra.
    + cbn [B2R zero32]. rewrite Rabs_R0. lra.
Qed.

Lemma values_le xs : (values_in xs <= Z.of_nat (length xs))%Z.
Proof.
  unfold values_in. induction xs as [|x xs IH]; cbn [filter length]; [lia|]. destruct (is_finite x); cbn [length]; lia.
Qed.

Lemma count_ok n : (0 <= n <= 2 ^ 23)%Z -> is_finite (cast_int n) = true /\ B2R (cast_int n) = IZR n.
Proof.
  intro H. destruct (small32 n ltac:(lia)) as [E _]. split; [|exact E].
  apply cast_int_ok. rewrite <- abs_IZR, <- (pow2 126) by lia. apply IZR_le. lia.
Qed.

Lemma divide_zero x n : n = 0%Z -> divide_no_nan32 x (cast_int n) = zero32.
Proof. intros ->. reflexivity. Qed.

Lemma divide_pos x n : (0 < n <= 2 ^ 23)%Z -> divide_no_nan32 x (cast_int n) = div32 x (cast_int n).
Proof.
  intro H. destruct (count_ok n ltac:(lia)) as [F E]. unfold divide_no_nan32.
  rewrite (Beqb_correct 24 128) by (exact F || reflexivity). rewrite E. cbn [B2R zero32].
  rewrite Req_bool_false by (apply IZR_neq; lia). reflexivity.
Qed.

Lemma divide_nn x n : nn32 x -> (0 <= n <= 2 ^ 23)%Z -> nn32 (divide_no_nan32 x (cast_int n)).
Proof.
  intros Hx H. destruct (Z.eq_dec n 0) as [E|E].
  - rewrite divide_zero by exact E. right. left. split; [reflexivity|cbn; lra].
  - rewrite divide_pos by lia. destruct (count_ok n H) as [F C]. apply div_nn; [exact Hx|exact F|].
    rewrite C. apply (IZR_le 1). lia.
Qed.

Section batch.
  Variable reduce_sum : list f32 -> f32.
  Hypothesis reduce_sum_adds : forall l, adds l (reduce_sum l).

  Local Notation bf := (batch_fmv reduce_sum).

  Lemma mean_S32 xs : mean_of (bf xs) = B2R (clean prec32 emax32 (divide_no_nan32 (reduce_sum (masked xs)) (cast_int (values_in xs)))).
  Proof. unfold mean_of, batch_fmv. cbn [f_mean np_nan_to_num as_f64]. apply widen_ok, clean_fin32. Qed.

  Definition squares (xs : list f32) : list f32 :=
    let x_mean := divide_no_nan32 (reduce_sum (masked xs)) (cast_int (values_in xs)) in
    map (fun d => mul32 d d) (map (fun x => if is_finite x then sub32 x x_mean else zero32) xs).

  Lemma var_S32 xs : var_of (bf xs) = B2R (clean prec32 emax32 (divide_no_nan32 (reduce_sum (squares xs)) (cast_int (values_in xs)))).
  Proof. unfold var_of, batch_fmv. cbn [f_var np_nan_to_num as_f64]. apply widen_ok, clean_fin32. Qed.

  Lemma batch_rep K xs : (Z.of_nat (length xs) <= 2 ^ 23)%Z -> Rabs (mean_of (bf xs)) <= K -> Rep K (values_in xs) (bf xs).
  Proof.
    intros L HM. pose proof (values_le xs) as VL. assert (V : (0 <= values_in xs <= 2 ^ 23)%Z) by (unfold values_in in *; lia).
    destruct (count_ok _ V) as [F E]. constructor.
    - cbn [batch_fmv f_count as_f64]. apply widen_ok, F.
    - cbn [batch_fmv f_count as_f64]. destruct (widen_ok _ F) as [_ W]. unfold values_in in *. rewrite W. exact E.
    - apply V.
    - exact HM.
    - rewrite var_S32. apply clean_nn32, divide_nn; [|exact V]. eapply adds_nn; [apply reduce_sum_adds|].
      apply Forall_forall. intros y Hy. apply in_map_iff in Hy as (d & <- & _). apply square_nn.
    - intro Z0. rewrite mean_S32, var_S32, !divide_zero by exact Z0. split; reflexivity.
  Qed.

  (** Whatever the values. *)
  Definition max_single : R := bp 128 - bp 104.

  Lemma batch_any xs : (Z.of_nat (length xs) <= 2 ^ 23)%Z -> Rep max_single (values_in xs) (bf xs).
  Proof. intro L. apply batch_rep; [exact L|]. rewrite mean_S32. apply (abs_B2R_le_emax_minus_prec 24 128). exact prec32. Qed.

  (** Values of moderate size: the mean of a batch. *)
  Lemma batch_mean M B xs : bp (-100) <= M <= bp 100 -> (B <= 2 ^ 23)%nat -> (length xs <= B)%nat ->
    (forall x, In x xs -> is_finite x = true -> Rabs (B2R x) <= M) ->
    Rabs (IZR (values_in xs) * mean_of (bf xs) - sum_R (finite_values xs)) <= IZR (values_in xs) * ((INR B + 1) * bp (-23) * M + bp (-150)) /\
    Rabs (mean_of (bf xs)) <= 3 * M.
  Proof.
    intros HM HB HL HX. pose proof (values_le xs) as VL. pose proof (bpow_gt_0 radix2 (-100)) as P100.
    assert (V : (0 <= values_in xs <= 2 ^ 23)%Z).
    { unfold values_in in *. assert (ZB : (Z.of_nat B <= 2 ^ 23)%Z).
      { apply Nat2Z.inj_le in HB. rewrite Nat2Z.inj_pow in HB. exact HB. }
      apply Nat2Z.inj_le in HL. split; [apply Zle_0_nat|]. eapply Z.le_trans; [exact VL|].
      eapply Z.le_trans; [exact HL|exact ZB]. }
    pose proof (masked_magnitude M xs HX) as MG. rewrite <- masked_total.
    rewrite mean_S32. set (n := values_in xs) in *.
    destruct (Z.eq_dec n 0) as [N0|N0].
    { rewrite divide_zero by exact N0. rewrite N0 in *. cbn [clean zero32 B2R]. rewrite Rabs_R0, !Rmult_0_l in *.
      pose proof (total_le (masked xs)). pose proof (magnitude_pos (masked xs)). rewrite Rminus_0_l, Rabs_Ropp. lra. }
    assert (Nr : 1 <= IZR n) by (apply (IZR_le 1); lia).
    assert (N23 : IZR n <= bp 23) by (change (bp 23) with (IZR (2 ^ 23)); apply IZR_le; lia).
    assert (L23 : (length (masked xs) <= 2 ^ 23)%nat) by (unfold masked; rewrite map_length; eapply Nat.le_trans; [exact HL|exact HB]).
    assert (MB : IZR n * M <= bp 123).
    { change 123%Z with (23 + 100)%Z. rewrite bpow_plus. apply Rmult_le_compat; lra. }
    destruct (sum_of_error (masked xs) _ (adds_sum_of _ _ (reduce_sum_adds _)) (masked_finite xs) L23) as [FS ES].
    { eapply Rle_trans; [exact MG|]. eapply Rle_trans; [exact MB|]. apply bpow_le. lia. }
    set (s := reduce_sum (masked xs)) in *. set (T := total (masked xs)) in *.
    assert (E1 : Rabs (B2R s - T) <= INR B * bp (-23) * (IZR n * M)).
    { eapply Rle_trans; [exact ES|]. apply Rmult_le_compat.
      - pose proof (upow_ge (length (masked xs))). lra.
      - apply magnitude_pos.
      - eapply Rle_trans; [apply error_lin; exact L23|]. apply Rmult_le_compat_r; [apply bpow_ge_0|].
        apply le_INR. unfold masked. rewrite map_length. exact HL.
      - exact MG. }
    assert (B1 : INR B * bp (-23) <= 1).
    { apply le_INR in HB. assert (E : INR (2 ^ 23) = bp 23).
      { rewrite <- (Nat2Z.id (2 ^ 23)), INR_IZR_INZ, Z2Nat.id by lia. rewrite Nat2Z.inj_pow. reflexivity. }
      rewrite E in HB. replace 1 with (bp 23 * bp (-23)) by (rewrite <- bpow_plus; reflexivity).
      apply Rmult_le_compat_r; [apply bpow_ge_0|exact HB]. }
    destruct (count_ok n V) as [Fc Ec]. rewrite divide_pos by lia.
    set (q := B2R s / IZR n).
    assert (Q0 : IZR n * q = B2R s) by (unfold q; field; lra).
    assert (TM : Rabs T <= IZR n * M) by (eapply Rle_trans; [apply total_le|exact MG]).
    assert (B0 : 0 <= INR B * bp (-23)) by (apply Rmult_le_pos; [apply pos_INR|apply bpow_ge_0]).
    assert (SM : Rabs (B2R s) <= IZR n * (2 * M)).
    { replace (B2R s) with (T + (B2R s - T)) by ring. eapply Rle_trans; [apply Rabs_triang|].
      assert (INR B * bp (-23) * (IZR n * M) <= 1 * (IZR n * M)) by (apply Rmult_le_compat_r; [apply Rmult_le_pos; lra|exact B1]). lra. }
    assert (QM : Rabs q <= 2 * M).
    { apply (Rmult_le_reg_l (IZR n)); [lra|]. rewrite <- (Rabs_pos_eq (IZR n)) at 1 by lra. rewrite <- Rabs_mult, Q0. exact SM. }
    assert (M2 : 2 * M <= bp 101) by (change 101%Z with (1 + 100)%Z; rewrite bpow_plus; change (bp 1) with 2; lra).
    destruct (div_ok s (cast_int n) FS) as [FD ED].
    { rewrite Ec. lra. }
    { rewrite Ec. fold q. apply bounded_127. eapply Rle_trans; [exact QM|]. eapply Rle_trans; [exact M2|]. apply bpow_le. lia. }
    rewrite clean_id32 by exact FD. rewrite ED, Ec. fold q.
    pose proof (rnd_err q) as RE.
    assert (RE' : Rabs (rnd q - q) <= bp (-23) * M + bp (-150)).
    { eapply Rle_trans; [exact RE|]. replace (bp (-23)) with (2 * bp (-24)) by (change (-23)%Z with (1 + -24)%Z; rewrite bpow_plus; reflexivity).
      pose proof (bpow_gt_0 radix2 (-24)). nra. }
    split.
    - replace (IZR n * rnd q - T) with (IZR n * (rnd q - q) + (B2R s - T)) by (rewrite <- Q0; ring).
      eapply Rle_trans; [apply Rabs_triang|]. rewrite Rabs_mult, (Rabs_pos_eq (IZR n)) by lra.
      apply Rle_trans with (IZR n * (bp (-23) * M + bp (-150)) + INR B * bp (-23) * (IZR n * M)); [|right; ring].
      apply Rplus_le_compat; [|exact E1]. apply Rmult_le_compat_l; [lra|exact RE'].
    - replace (rnd q) with (q + (rnd q - q)) by ring. eapply Rle_trans; [apply Rabs_triang|].
      assert (bp (-23) * M <= / 8 * M) by (apply Rmult_le_compat_r; [lra|]; change (/ 8) with (bp (-3)); apply bpow_le; lia).
      assert (bp (-150) <= / 8 * M).
      { apply Rle_trans with (bp (-103)); [apply bpow_le; lia|]. change (-103)%Z with (-3 + -100)%Z. rewrite bpow_plus.
        change (bp (-3)) with (/ 8). lra. }
      lra.
  Qed.

  (** One squared deviation. *)
  Lemma square_error M (x m : f32) : bp (-50) <= M <= bp 50 -> is_finite x = true -> Rabs (B2R x) <= M ->
    is_finite m = true -> Rabs (B2R m) <= 3 * M ->
    let y := mul32 (sub32 x m) (sub32 x m) in
    is_finite y = true /\ Rabs (B2R y - (B2R x - B2R m) * (B2R x - B2R m)) <= 26 * (bp (-23) * (M * M)) /\ Rabs (B2R y) <= 18 * (M * M).
  Proof.
    intros HM Fx Hx Fm Hm y. pose proof (bpow_gt_0 radix2 (-50)) as P50. pose proof (bpow_gt_0 radix2 (-150)) as P150.
    assert (P24 : bp (-24) = / 2 * bp (-23)) by (change (-24)%Z with (-1 + -23)%Z; rewrite bpow_plus; reflexivity).
    assert (w0 : 0 < bp (-23)) by apply bpow_gt_0. assert (w1 : bp (-23) <= / 1024) by (change (/ 1024) with (bp (-10)); apply bpow_le; lia).
    assert (T1 : bp (-150) <= / 1024 * (bp (-23) * M)).
    { apply Rle_trans with (bp (-10) * (bp (-23) * bp (-50))); [rewrite <- !bpow_plus; apply bpow_le; lia|].
      change (bp (-10)) with (/ 1024). apply Rmult_le_compat_l; [lra|]. apply Rmult_le_compat_l; lra. }
    assert (T2 : bp (-150) <= / 1024 * (bp (-23) * (M * M))).
    { apply Rle_trans with (bp (-10) * (bp (-23) * (bp (-50) * bp (-50)))); [rewrite <- !bpow_plus; apply bpow_le; lia|].
      change (bp (-10)) with (/ 1024). apply Rmult_le_compat_l; [lra|]. apply Rmult_le_compat_l; [lra|]. apply Rmult_le_compat; lra. }
    set (w := bp (-23)) in *. set (t := B2R x - B2R m).
    assert (Ht : Rabs t <= 4 * M) by (unfold t; eapply Rle_trans; [apply Rabs_triang|]; rewrite Rabs_Ropp; lra).
    destruct (sub_ok x m Fx Fm) as [Fd Ed].
    { apply bounded_127. fold t. eapply Rle_trans; [exact Ht|]. apply Rle_trans with (bp 52); [|apply bpow_le; lia].
      change 52%Z with (2 + 50)%Z. rewrite bpow_plus. change (bp 2) with 4. lra. }
    fold t in Ed. pose proof (rnd_err t) as Re. rewrite <- Ed, P24 in Re. set (d := sub32 x m) in *.
    assert (M0 : 0 < M) by lra. assert (wM : 0 < w * M) by (apply Rmult_lt_0_compat; lra).
    assert (De : Rabs (B2R d - t) <= 9 / 4 * (w * M)).
    { eapply Rle_trans; [exact Re|]. assert (/ 2 * w * Rabs t <= / 2 * w * (4 * M)) by (apply Rmult_le_compat_l; lra). lra. }
    assert (wM1 : w * M <= / 1024 * M) by (apply Rmult_le_compat_r; lra).
    assert (Db : Rabs (B2R d) <= 65 / 16 * M).
    { replace (B2R d) with (t + (B2R d - t)) by ring. eapply Rle_trans; [apply Rabs_triang|]. lra. }
    assert (MM : 0 < M * M) by (apply Rmult_lt_0_compat; lra).
    assert (wMM : 0 < w * (M * M)) by (apply Rmult_lt_0_compat; lra).
    assert (wMM1 : w * (M * M) <= / 1024 * (M * M)) by (apply Rmult_le_compat_r; lra).
    assert (D2 : Rabs (B2R d * B2R d) <= 67 / 4 * (M * M)).
    { rewrite Rabs_mult. apply Rle_trans with (65 / 16 * M * (65 / 16 * M)); [apply Rmult_le_compat; auto using Rabs_pos|]. nra. }
    destruct (mul_ok d d Fd Fd) as [Fy Ey].
    { apply bounded_127. eapply Rle_trans; [exact D2|]. apply Rle_trans with (bp 105); [|apply bpow_le; lia].
      change 105%Z with (5 + (50 + 50))%Z. rewrite !bpow_plus. change (bp 5) with 32.
      assert (M * M <= bp 50 * bp 50) by (apply Rmult_le_compat; lra). lra. }
    fold y in Fy, Ey. split; [exact Fy|].
    pose proof (rnd_err (B2R d * B2R d)) as Ry. rewrite <- Ey, P24 in Ry.
    assert (Ye : Rabs (B2R y - B2R d * B2R d) <= 17 / 2 * (w * (M * M))).
    { eapply Rle_trans; [exact Ry|]. assert (/ 2 * w * Rabs (B2R d * B2R d) <= / 2 * w * (67 / 4 * (M * M))) by (apply Rmult_le_compat_l; lra). lra. }
    split.
    - replace (B2R y - t * t) with ((B2R y - B2R d * B2R d) + (B2R d - t) * (B2R d + t)) by ring.
      eapply Rle_trans; [apply Rabs_triang|]. rewrite Rabs_mult.
      assert (Rabs (B2R d + t) <= 129 / 16 * M) by (eapply Rle_trans; [apply Rabs_triang|]; lra).
      assert (Rabs (B2R d - t) * Rabs (B2R d + t) <= 9 / 4 * (w * M) * (129 / 16 * M)) by (apply Rmult_le_compat; auto using Rabs_pos).
      enough (De' : Rabs (B2R d - t) * Rabs (B2R d + t) <= 17 * (w * (M * M))) by lra.
      assert (De2 : Rabs (B2R d - t) <= (2 + / 512) * (w * M)).
      { eapply Rle_trans; [exact Re|]. assert (/ 2 * w * Rabs t <= / 2 * w * (4 * M)) by (apply Rmult_le_compat_l; lra). lra. }
      apply Rle_trans with ((2 + / 512) * (w * M) * (129 / 16 * M)); [apply Rmult_le_compat; auto using Rabs_pos|]. nra.
    - replace (B2R y) with ((B2R y - B2R d * B2R d) + B2R d * B2R d) by ring. eapply Rle_trans; [apply Rabs_triang|]. lra.
  Qed.

  Definition square (x : R) : R := x * x.

  Lemma squares_facts M (m : f32) xs : bp (-50) <= M <= bp 50 -> is_finite m = true -> Rabs (B2R m) <= 3 * M ->
    (forall x, In x xs -> is_finite x = true -> Rabs (B2R x) <= M) ->
    let l := map (fun d => mul32 d d) (map (fun x => if is_finite x then sub32 x m else zero32) xs) in
    all_finite32 l /\ magnitude l <= IZR (values_in xs) * (18 * (M * M)) /\
    Rabs (total l - sum_R (map (fun x => square (x - B2R m)) (finite_values xs))) <= IZR (values_in xs) * (26 * (bp (-23) * (M * M))).
  Proof.
    intros HM Fm Hm HX. unfold total, magnitude, sum_R, finite_values, values_in, all_finite32.
    induction xs as [|x xs IH]; cbn [map filter fold_right length].
    - cbn. rewrite Rminus_0_r, Rabs_R0. repeat split; [intros ? []|lra|lra].
    - destruct (IH (fun y Hy => HX y (or_intror Hy))) as (F & G & H). destruct (is_finite x) eqn:E.
      + destruct (square_error M x m HM E (HX x (or_introl eq_refl) E) Fm Hm) as (A & B & C).
        cbn [length map fold_right]. rewrite Nat2Z.inj_succ, succ_IZR. split; [|split].
        * intros y [<-|Hy]; [exact A|apply F, Hy].
        * lra.
        * unfold square at 1. match goal with |- Rabs (?a + ?b - (?c + ?d)) <= _ => replace (a + b - (c + d)) with ((a - c) + (b - d)) by ring end.
          eapply Rle_trans; [apply Rabs_triang|]. lra.
      + split; [|split].
        * intros y [<-|Hy]; [reflexivity|apply F, Hy].
        * cbn [B2R mul32 zero32 Bmult xorb]. rewrite Rabs_R0. lra.
        * cbn [B2R mul32 zero32 Bmult xorb]. rewrite Rplus_0_l. exact H.
  Qed.

  Lemma shifted_squares c l : sum_R (map (fun x => square (x - c)) l) = sum_R (map square l) - 2 * c * sum_R l + INR (length l) * (c * c).
  Proof.
    unfold sum_R, square. induction l as [|x l IH]; [cbn; ring|]. cbn [map fold_right length]. rewrite IH, S_INR. ring.
  Qed.

  (** Values of moderate size: the second moment of a batch. *)
  Lemma batch_moment M B xs : bp (-50) <= M <= bp 48 -> (B <= 2 ^ 23)%nat -> (length xs <= B)%nat ->
    (forall x, In x xs -> is_finite x = true -> Rabs (B2R x) <= M) -> (0 < values_in xs)%Z ->
    Rabs (IZR (values_in xs) * moment (bf xs) - sum_R (map square (finite_values xs)))
      <= IZR (values_in xs) * ((24 * INR B + 52) * (bp (-23) * (M * M))) /\
    moment (bf xs) <= 46 * (M * M).
  Proof.
    intros HM HB HL HX HN.
    assert (HM1 : bp (-100) <= M <= bp 100).
    { pose proof (bpow_le radix2 (-100) (-50) ltac:(lia)). pose proof (bpow_le radix2 48 100 ltac:(lia)). lra. }
    destruct (batch_mean M B xs HM1 HB HL HX) as [BM MB]. pose proof (values_le xs) as VL.
    assert (ZB : (Z.of_nat B <= 2 ^ 23)%Z) by (apply Nat2Z.inj_le in HB; rewrite Nat2Z.inj_pow in HB; exact HB).
    assert (V : (0 <= values_in xs <= 2 ^ 23)%Z).
    { apply Nat2Z.inj_le in HL. split; [lia|]. eapply Z.le_trans; [exact VL|]. eapply Z.le_trans; [exact HL|exact ZB]. }
    pose proof (bpow_gt_0 radix2 (-50)) as P50. pose proof (bpow_gt_0 radix2 (-150)) as P150.
    assert (w0 : 0 < bp (-23)) by apply bpow_gt_0. assert (w1 : bp (-23) <= / 1024) by (change (/ 1024) with (bp (-10)); apply bpow_le; lia).
    assert (P24 : bp (-24) = / 2 * bp (-23)) by (change (-24)%Z with (-1 + -23)%Z; rewrite bpow_plus; reflexivity).
    assert (T1 : bp (-150) <= / 1024 * (bp (-23) * M)).
    { apply Rle_trans with (bp (-10) * (bp (-23) * bp (-50))); [rewrite <- !bpow_plus; apply bpow_le; lia|].
      change (bp (-10)) with (/ 1024). apply Rmult_le_compat_l; [lra|]. apply Rmult_le_compat_l; lra. }
    assert (T2 : bp (-150) <= / 1024 * (bp (-23) * (M * M))).
    { apply Rle_trans with (bp (-10) * (bp (-23) * (bp (-50) * bp (-50)))); [rewrite <- !bpow_plus; apply bpow_le; lia|].
      change (bp (-10)) with (/ 1024). apply Rmult_le_compat_l; [lra|]. apply Rmult_le_compat_l; [lra|]. apply Rmult_le_compat; lra. }
    assert (MM : 0 < M * M) by (apply Rmult_lt_0_compat; lra).
    assert (MM50 : M * M <= bp 96) by (change 96%Z with (48 + 48)%Z; rewrite bpow_plus; apply Rmult_le_compat; lra).
    set (w := bp (-23)) in *. assert (wMM : 0 < w * (M * M)) by (apply Rmult_lt_0_compat; lra).
    (* the mean of the batch *)
    set (n := values_in xs) in *. destruct (count_ok n V) as [Fc Ec].
    assert (Nr : 1 <= IZR n) by (apply (IZR_le 1); lia).
    assert (N23 : IZR n <= bp 23) by (change (bp 23) with (IZR (2 ^ 23)); apply IZR_le; lia).
    set (m := divide_no_nan32 (reduce_sum (masked xs)) (cast_int n)).
    assert (Fm : is_finite m = true).
    { assert (MG := masked_magnitude M xs HX). fold n in MG.
      assert (L23 : (length (masked xs) <= 2 ^ 23)%nat) by (unfold masked; rewrite map_length; eapply Nat.le_trans; [exact HL|exact HB]).
      assert (MBd : IZR n * M <= bp 73) by (apply Rle_trans with (bp 71); [|apply bpow_le; lia]; change 71%Z with (23 + 48)%Z; rewrite bpow_plus; apply Rmult_le_compat; lra).
      destruct (sum_of_error (masked xs) _ (adds_sum_of _ _ (reduce_sum_adds _)) (masked_finite xs) L23) as [FS ES].
      { eapply Rle_trans; [exact MG|]. eapply Rle_trans; [exact MBd|]. apply bpow_le. lia. }
      unfold m. rewrite divide_pos by lia. apply div_ok; [exact FS|rewrite Ec; lra|]. apply bounded_127.
      assert (Q : (1 + u) ^ length (masked xs) - 1 <= 1).
      { eapply Rle_trans; [apply error_lin; exact L23|]. apply le_INR in L23.
        assert (E : INR (2 ^ 23) = bp 23).
        { rewrite <- (Nat2Z.id (2 ^ 23)), INR_IZR_INZ, Z2Nat.id by lia. rewrite Nat2Z.inj_pow. reflexivity. }
        rewrite E in L23. replace 1 with (bp 23 * bp (-23)) by (rewrite <- bpow_plus; reflexivity).
        apply Rmult_le_compat_r; [apply bpow_ge_0|exact L23]. }
      assert (SB : Rabs (B2R (reduce_sum (masked xs))) <= 2 * (IZR n * M)).
      { pose proof (total_le (masked xs)). pose proof (magnitude_pos (masked xs)).
        replace (B2R (reduce_sum (masked xs))) with (total (masked xs) + (B2R (reduce_sum (masked xs)) - total (masked xs))) by ring.
        eapply Rle_trans; [apply Rabs_triang|].
        assert (((1 + u) ^ length (masked xs) - 1) * magnitude (masked xs) <= 1 * magnitude (masked xs)) by (apply Rmult_le_compat_r; lra). lra. }
      rewrite Ec. unfold Rdiv. rewrite Rabs_mult, Rabs_inv, (Rabs_pos_eq (IZR n)) by lra.
      apply Rle_trans with (Rabs (B2R (reduce_sum (masked xs))) * 1).
      - apply Rmult_le_compat_l; [apply Rabs_pos|]. rewrite <- Rinv_1. apply Rinv_le_contravar; lra.
      - rewrite Rmult_1_r. eapply Rle_trans; [exact SB|]. apply Rle_trans with (bp 74); [|apply bpow_le; lia].
        change 74%Z with (1 + 73)%Z. rewrite bpow_plus. change (bp 1) with 2. lra. }
    assert (Em : mean_of (bf xs) = B2R m) by (rewrite mean_S32; fold n; fold m; rewrite clean_id32 by exact Fm; reflexivity).
    rewrite Em in *.
    (* the squares *)
    assert (HM2 : bp (-50) <= M <= bp 50) by (pose proof (bpow_le radix2 48 50 ltac:(lia)); lra).
    destruct (squares_facts M m xs HM2 Fm MB HX) as (FQ & GQ & HQ). fold n in GQ, HQ. fold w in HQ.
    change (map (fun d => mul32 d d) (map (fun x => if is_finite x then sub32 x m else zero32) xs)) with (squares xs) in *.
    assert (L23 : (length (squares xs) <= 2 ^ 23)%nat) by (unfold squares; rewrite !map_length; eapply Nat.le_trans; [exact HL|exact HB]).
    assert (G126 : magnitude (squares xs) <= bp 126).
    { eapply Rle_trans; [exact GQ|]. apply Rle_trans with (bp 23 * (bp 5 * bp 96)).
      - apply Rmult_le_compat; [lra|lra|exact N23|]. apply Rmult_le_compat; [lra|lra|change (bp 5) with 32; lra|exact MM50].
      - rewrite <- !bpow_plus. apply bpow_le. lia. }
    destruct (sum_of_error (squares xs) _ (adds_sum_of _ _ (reduce_sum_adds _)) FQ L23 G126) as [FS ES].
    set (S1 := reduce_sum (squares xs)) in *. set (T := total (squares xs)) in *.
    assert (EB : INR B <= bp 23).
    { apply le_INR in HB. assert (E : INR (2 ^ 23) = bp 23).
      { rewrite <- (Nat2Z.id (2 ^ 23)), INR_IZR_INZ, Z2Nat.id by lia. rewrite Nat2Z.inj_pow. reflexivity. }
      rewrite E in HB. exact HB. }
    assert (B0 : 0 <= INR B) by apply pos_INR.
    assert (Bw : INR B * w <= 1).
    { replace 1 with (bp 23 * w) by (unfold w; rewrite <- bpow_plus; reflexivity). apply Rmult_le_compat_r; lra. }
    assert (E1 : Rabs (B2R S1 - T) <= INR B * w * (IZR n * (18 * (M * M)))).
    { eapply Rle_trans; [exact ES|]. apply Rmult_le_compat.
      - pose proof (upow_ge (length (squares xs))). lra.
      - apply magnitude_pos.
      - eapply Rle_trans; [apply error_lin; exact L23|]. apply Rmult_le_compat_r; [apply bpow_ge_0|].
        apply le_INR. unfold squares. rewrite !map_length. exact HL.
      - exact GQ. }
    assert (n18 : 0 <= IZR n * (18 * (M * M))) by (apply Rmult_le_pos; lra).
    assert (SB : Rabs (B2R S1) <= IZR n * (36 * (M * M))).
    { replace (B2R S1) with (T + (B2R S1 - T)) by ring. eapply Rle_trans; [apply Rabs_triang|].
      pose proof (total_le (squares xs)) as TL. fold T in TL.
      assert (INR B * w * (IZR n * (18 * (M * M))) <= 1 * (IZR n * (18 * (M * M)))) by (apply Rmult_le_compat_r; [exact n18|exact Bw]). lra. }
    set (q := B2R S1 / IZR n). assert (Q0 : IZR n * q = B2R S1) by (unfold q; field; lra).
    assert (QM : Rabs q <= 36 * (M * M)).
    { apply (Rmult_le_reg_l (IZR n)); [lra|]. rewrite <- (Rabs_pos_eq (IZR n)) at 1 by lra. rewrite <- Rabs_mult, Q0. exact SB. }
    destruct (div_ok S1 (cast_int n) FS) as [FD ED].
    { rewrite Ec. lra. }
    { rewrite Ec. fold q. apply bounded_127. eapply Rle_trans; [exact QM|]. apply Rle_trans with (bp 106); [|apply bpow_le; lia].
      pose proof (bpow_le radix2 96 100 ltac:(lia)). change 106%Z with (6 + 100)%Z. rewrite bpow_plus. change (bp 6) with 64. lra. }
    assert (Ev : var_of (bf xs) = rnd q).
    { rewrite var_S32. fold n. rewrite divide_pos by lia. fold S1. rewrite clean_id32 by exact FD. rewrite ED, Ec. reflexivity. }
    unfold moment. rewrite Ev, Em. pose proof (rnd_err q) as RE. rewrite P24 in RE.
    assert (RE' : Rabs (rnd q - q) <= 19 * (w * (M * M))).
    { eapply Rle_trans; [exact RE|]. assert (/ 2 * w * Rabs q <= / 2 * w * (36 * (M * M))) by (apply Rmult_le_compat_l; lra). lra. }
    assert (NF : INR (length (finite_values xs)) = IZR n) by (unfold finite_values, n, values_in; rewrite map_length, INR_IZR_INZ; reflexivity).
    rewrite shifted_squares, NF in HQ. set (X2 := sum_R (map square (finite_values xs))) in *. set (X1 := sum_R (finite_values xs)) in *.
    split.
    - replace (IZR n * (rnd q + B2R m * B2R m) - X2)
        with (IZR n * (rnd q - q) + (B2R S1 - T) + (T - (X2 - 2 * B2R m * X1 + IZR n * (B2R m * B2R m)))
              + 2 * B2R m * (IZR n * B2R m - X1)) by (rewrite <- Q0; ring).
      eapply Rle_trans; [apply Rabs_triang|]. eapply Rle_trans; [apply Rplus_le_compat_r, Rabs_triang|].
      eapply Rle_trans; [apply Rplus_le_compat_r, Rplus_le_compat_r, Rabs_triang|].
      rewrite !Rabs_mult, (Rabs_pos_eq (IZR n)), (Rabs_pos_eq 2) by lra.
      assert (I1 : IZR n * Rabs (rnd q - q) <= IZR n * (19 * (w * (M * M)))) by (apply Rmult_le_compat_l; lra).
      assert (I2 : 2 * Rabs (B2R m) * Rabs (IZR n * B2R m - X1) <= 2 * (3 * M) * (IZR n * ((INR B + 1) * w * M + bp (-150)))).
      { apply Rmult_le_compat; [pose proof (Rabs_pos (B2R m)); lra|apply Rabs_pos|lra|exact BM]. }
      assert (I3 : 2 * (3 * M) * (IZR n * ((INR B + 1) * w * M + bp (-150))) <= IZR n * ((6 * INR B + 7) * (w * (M * M)))).
      { replace (2 * (3 * M) * (IZR n * ((INR B + 1) * w * M + bp (-150))))
          with (IZR n * ((6 * INR B + 6) * (w * (M * M)) + 6 * M * bp (-150))) by ring.
        apply Rmult_le_compat_l; [lra|].
        assert (6 * M * bp (-150) <= 6 * M * (/ 1024 * (w * M))) by (apply Rmult_le_compat_l; lra). nra. }
      apply Rle_trans with (IZR n * (19 * (w * (M * M))) + INR B * w * (IZR n * (18 * (M * M))) + IZR n * (26 * (w * (M * M)))
        + IZR n * ((6 * INR B + 7) * (w * (M * M)))); [lra|]. right. ring.
    - assert (rnd q <= 37 * (M * M)).
      { replace (rnd q) with (q + (rnd q - q)) by ring. pose proof (Rle_abs q). pose proof (Rle_abs (rnd q - q)).
        assert (w * (M * M) <= / 1024 * (M * M)) by (apply Rmult_le_compat_r; lra). lra. }
      assert (B2R m * B2R m <= 9 * (M * M)).
      { rewrite <- (Rabs_pos_eq (B2R m * B2R m)) by nra. rewrite Rabs_mult.
        apply Rle_trans with (3 * M * (3 * M)); [apply Rmult_le_compat; auto using Rabs_pos|]. nra. }
      lra.
  Qed.

  (** A batch whose values are all [c], and whose sum is a float. *)
  Lemma batch_const e c xs : (-149 <= e <= 103)%Z -> (Z.of_nat (length xs) <= 2 ^ 23)%Z -> on_grid e c ->
    IZR (values_in xs) * Rabs c <= IZR (2 ^ 24) * bp e -> (0 < values_in xs)%Z ->
    (forall x, In x xs -> is_finite x = true -> B2R x = c) ->
    mean_of (bf xs) = c /\ var_of (bf xs) = 0.
  Proof.
    intros He HL G HS N HX. pose proof (values_le xs) as VL. assert (V : (0 <= values_in xs <= 2 ^ 23)%Z) by lia.
    destruct (count_ok _ V) as [Fc Ec]. set (n := values_in xs) in *. assert (Nr : 1 <= IZR n) by (apply (IZR_le 1); lia).
    assert (T : sum_R (finite_values xs) = IZR n * c).
    { subst n. clear - HX. unfold sum_R, finite_values, values_in. induction xs as [|x xs IH]; cbn [filter map fold_right length]; [cbn; lra|].
      specialize (IH (fun y Hy => HX y (or_intror Hy))). destruct (is_finite x) eqn:E; [|exact IH].
      cbn [map fold_right length]. rewrite IH, (HX x (or_introl eq_refl) E), Nat2Z.inj_succ, succ_IZR. ring. }
    destruct (sum_of_exact e (masked xs) _ He (adds_sum_of _ _ (reduce_sum_adds _)) (masked_finite xs)) as (FS & ES & _).
    { intros x Hx. apply in_map_iff in Hx as (y & <- & Hy). destruct (is_finite y) eqn:E; [rewrite (HX y Hy E); exact G|].
      exists 0%Z. cbn. ring. }
    { eapply Rle_trans; [apply (masked_magnitude (Rabs c))|exact HS]. intros x Hx Fx. rewrite (HX x Hx Fx). lra. }
    rewrite masked_total, T in ES.
    assert (EX : exists x, In x xs /\ is_finite x = true).
    { unfold values_in in n. destruct (filter is_finite xs) as [|x l] eqn:E; [cbn in n; lia|].
      exists x. assert (H : In x (x :: l)) by (left; reflexivity). rewrite <- E in H. apply filter_In in H. exact H. }
    destruct EX as (x0 & Hx0 & Fx0).
    assert (RC : rnd c = c) by (rewrite <- (HX x0 Hx0 Fx0); apply rnd_B2R).
    assert (LC : Rabs c < bp 128) by (rewrite <- (HX x0 Hx0 Fx0); apply (abs_B2R_lt_emax 24 128)).
    assert (Q : B2R (reduce_sum (masked xs)) / B2R (cast_int n) = c) by (rewrite ES, Ec; field; lra).
    destruct (div_ok (reduce_sum (masked xs)) (cast_int n) FS) as [FD ED].
    { rewrite Ec. lra. }
    { rewrite Q, RC. exact LC. }
    rewrite Q, RC in ED.
    rewrite mean_S32, var_S32. fold n. rewrite !divide_pos by lia. split; [rewrite clean_id32 by exact FD; exact ED|].
    assert (SQ : forall y, In y (squares xs) -> is_finite y = true /\ B2R y = 0).
    { intros y Hy. unfold squares in Hy. fold n in Hy. rewrite divide_pos in Hy by lia. rewrite map_map in Hy.
      apply in_map_iff in Hy as (x & <- & Hx).
      assert (D : is_finite (if is_finite x then sub32 x (div32 (reduce_sum (masked xs)) (cast_int n)) else zero32) = true
                  /\ B2R (if is_finite x then sub32 x (div32 (reduce_sum (masked xs)) (cast_int n)) else zero32) = 0).
      { destruct (is_finite x) eqn:E; [|split; reflexivity].
        destruct (sub_ok x (div32 (reduce_sum (masked xs)) (cast_int n)) E FD) as [A B].
        - rewrite ED, (HX x Hx E), Rminus_diag_eq, rnd_0, Rabs_R0 by reflexivity. apply bpow_gt_0.
        - split; [exact A|]. rewrite B, ED, (HX x Hx E), Rminus_diag_eq by reflexivity. apply rnd_0. }
      destruct D as [FDx D0]. set (d := if is_finite x then _ else _) in *.
      destruct (mul_ok d d FDx FDx) as [A B].
      - rewrite D0, Rmult_0_r, rnd_0, Rabs_R0. apply bpow_gt_0.
      - split; [exact A|]. rewrite B, D0, Rmult_0_r. apply rnd_0. }
    assert (ZT : forall l, (forall y, In y l -> is_finite y = true /\ B2R y = 0) -> total l = 0 /\ magnitude l = 0).
    { clear. unfold total, magnitude. induction l as [|y l IH]; intro H; cbn [fold_right]; [split; reflexivity|].
      destruct (IH (fun z Hz => H z (or_intror Hz))) as [A B]. destruct (H y (or_introl eq_refl)) as [_ E].
      rewrite A, B, E, Rabs_R0. lra. }
    destruct (ZT _ SQ) as [T0 M0].
    destruct (sum_of_exact 0 (squares xs) _ ltac:(lia) (adds_sum_of _ _ (reduce_sum_adds _))) as (FS' & ES' & _).
    { intros y Hy. apply SQ, Hy. }
    { intros y Hy. exists 0%Z. rewrite (proj2 (SQ y Hy)). ring. }
    { rewrite M0. change (bp 0) with 1. rewrite Rmult_1_r. apply IZR_le. lia. }
    rewrite T0 in ES'.
    destruct (div_ok (reduce_sum (squares xs)) (cast_int n) FS') as [FD' ED'].
    { rewrite Ec. lra. }
    { rewrite ES'. unfold Rdiv. rewrite Rmult_0_l, rnd_0, Rabs_R0. apply bpow_gt_0. }
    rewrite clean_id32 by exact FD'. rewrite ED', ES'. unfold Rdiv. rewrite Rmult_0_l. apply rnd_0.
  Qed.
End batch.

(** * The output *)
Lemma cast_gen (d : f64) : is_finite d = true ->
  (is_finite (cast_f64 d) = true /\ B2R (cast_f64 d) = rnd (B2R d)) \/
  (bp 128 <= Rabs (rnd (B2R d)) /\ cast_f64 d = B754_infinity (Bsign d)).
Proof.
  intro F. destruct d as [s|s| |s m ex B]; try discriminate F.
  - left. simpl. split; [reflexivity | symmetry; apply rnd_0].
  - cbn [cast_f64 B2R Bsign]. pose proof (binary_normalize_correct 24 128 prec32 emax32 mode_NE (cond_Zopp s (Zpos m)) ex s) as C.
    cbv zeta in C. rewrite rnd_eq in C.
    destruct (Rlt_bool_spec (Rabs (rnd (F2R (Float radix2 (cond_Zopp s (Zpos m)) ex)))) (bp 128)) as [L|L].
    + left. destruct C as (A & B' & _). auto.
    + right. split; [exact L|]. apply B2SF_inj. rewrite C.
      assert (Rlt_bool (F2R (Float radix2 (cond_Zopp s (Zpos m)) ex)) 0 = s) as ->; [|reflexivity].
      destruct s; [apply Rlt_bool_true; apply F2R_lt_0; cbn; lia|apply Rlt_bool_false; apply F2R_ge_0; cbn; lia].
Qed.

Lemma max_single_format : generic_format radix2 (FLT_exp (-149) 24) max_single.
Proof.
  apply generic_format_FLT. exists (Float radix2 (2 ^ 24 - 1) 104).
  - unfold max_single, F2R. cbn [Fnum Fexp]. rewrite minus_IZR, Rmult_minus_distr_r, Rmult_1_l.
    change 128%Z with (24 + 104)%Z at 1. rewrite bpow_plus. reflexivity.
  - cbn. lia.
  - cbn. lia.
Qed.

Lemma cast_mean (d : f64) : is_finite d = true -> Rabs (B2R d) <= max_single ->
  is_finite (cast_f64 d) = true /\ B2R (cast_f64 d) = rnd (B2R d).
Proof.
  intros F H. destruct (cast_gen d F) as [G|[G _]]; [exact G|]. exfalso.
  assert (Rabs (rnd (B2R d)) <= max_single).
  { unfold single. apply abs_round_le_generic; auto with typeclass_instances. apply max_single_format. }
  unfold max_single in *. pose proof (bpow_gt_0 radix2 104). lra.
Qed.

Lemma cast_var (d : f64) : nn64 d -> nonnegative (cast_f64 d).
Proof.
  intros [[F P]|E].
  - destruct (cast_gen d F) as [[A B]|[A B]].
    + split; [apply is_finite_nan, A|]. split; [intros _; rewrite B; apply rnd_pos, P|intro; congruence].
    + rewrite B. split; [reflexivity|]. split; [discriminate|]. intros _. cbn [Bsign].
      destruct d as [s|s| |s m ex W]; try discriminate F.
      * cbn in A. rewrite rnd_0, Rabs_R0 in A. pose proof (bpow_gt_0 radix2 128). lra.
      * destruct s; [|reflexivity]. exfalso. cbn [B2R] in P. revert P. apply Rlt_not_le. apply F2R_lt_0. cbn. lia.
  - subst d. split; [reflexivity|]. split; [discriminate|reflexivity].
Qed.
