From Coq Require Import List ZArith Reals Bool Lra Lia.
From Flocq Require Import Core BinarySingleNaN Plus_error Relative.
From Verif Require Import IeeeModel IeeeSpec IeeeProofs IeeeScaleProofs.
Import ListNotations.
Local Open Scope R_scope.

Local Existing Instance prec32.
Local Existing Instance emax32.
Local Notation bp := (bpow radix2).
Local Notation rnd := single.

Lemma min_pos (v : f32) : 0 < B2R v -> bp (-149) <= B2R v.
Proof.
  intro H. destruct (Rle_or_lt (bp (-149)) (B2R v)) as [L|L]; [exact L | exfalso].
  assert (ulp radix2 (FLT_exp (-149) 24) (B2R v) <= B2R v) as U.
  { apply ulp_le_id; [exact H | apply (generic_format_B2R 24 128)]. }
  rewrite (ulp_FLT_small radix2 (-149) 24) in U; [lra|]. rewrite Rabs_pos_eq by lra.
  eapply Rlt_trans; [exact L | apply bpow_lt; lia].
Qed.

Lemma sqrt_pow150 : sqrt (bp (-150)) = bp (-75).
Proof. change (bp (-150)) with (bp (-75 + -75)). rewrite bpow_plus. apply sqrt_square. apply bpow_ge_0. Qed.

Section z.
  Variables mean var : f32.
  Hypothesis Fm : is_finite mean = true.
  Hypothesis Fv : is_finite var = true.
  Hypothesis Bm : Rabs (B2R mean) <= bp 126.
  Hypothesis V0 : 0 <= B2R var.

  Lemma sqrt_ok : is_finite (sqrt32 var) = true /\ B2R (sqrt32 var) = rnd (sqrt (B2R var)).
  Proof.
    destruct (Bsqrt_correct 24 128 prec32 emax32 mode_NE var) as (A & B & _).
    split; [|exact A]. unfold sqrt32. rewrite B.
    destruct var as [s|s| |[] m e H]; try reflexivity; try discriminate Fv.
    exfalso. assert (F2R (Float radix2 (Z.neg m) e) < 0) by (apply F2R_lt_0; reflexivity). simpl in V0. lra.
  Qed.

  Lemma sqrt_rel : 0 < B2R var ->
    exists eps, Rabs eps <= 2 * / 16777216 /\ B2R (sqrt32 var) = sqrt (B2R var) * (1 + eps) /\ 0 < sqrt (B2R var).
  Proof.
    intro H. destruct sqrt_ok as [_ E]. pose proof (rnd_err (sqrt (B2R var))) as R.
    assert (bp (-75) <= sqrt (B2R var)) as L.
    { rewrite <- sqrt_pow150. apply sqrt_le_1_alt. eapply Rle_trans; [|apply min_pos; exact H]. apply bpow_le. lia. }
    pose proof (bpow_gt_0 radix2 (-75)) as P. rewrite (Rabs_pos_eq (sqrt (B2R var))) in R by lra. rewrite u24 in R.
    assert (bp (-150) <= / 16777216 * sqrt (B2R var)) as T.
    { eapply Rle_trans; [|apply Rmult_le_compat_l; [lra | exact L]]. rewrite <- u24, <- bpow_plus. apply bpow_le. lia. }
    exists ((rnd (sqrt (B2R var)) - sqrt (B2R var)) / sqrt (B2R var)). split; [|split; [rewrite E; field; lra | lra]].
    unfold Rdiv. rewrite Rabs_mult, Rabs_inv, (Rabs_pos_eq (sqrt (B2R var))) by lra.
    apply (Rmult_le_reg_r (sqrt (B2R var))); [lra|]. rewrite Rmult_assoc, Rinv_l, Rmult_1_r; lra.
  Qed.

  Lemma num_z x : is_finite x = true -> Rabs (B2R x) <= bp 126 ->
    is_finite (sub32 x mean) = true /\ B2R (sub32 x mean) = rnd (B2R x - B2R mean).
  Proof.
    intros Fx Bx. apply sub_ok; try assumption. apply rnd_bounded; try assumption.
    apply Rabs_le_inv in Bx. apply Rabs_le_inv in Bm. apply Rabs_le.
    change (bp 127) with (bp (1 + 126)). rewrite bpow_plus. change (bp 1) with 2. lra.
  Qed.

  Lemma z_zero x : B2R var = 0 -> zscore32 mean var x = sub32 x mean.
  Proof.
    intro E. destruct sqrt_ok as [A B]. rewrite E, sqrt_0, rnd_0 in B. unfold zscore32.
    rewrite (Beqb_correct 24 128 (sqrt32 var) zero32 A eq_refl), B. rewrite Req_bool_true; reflexivity.
  Qed.

  Lemma z_pos x : 0 < B2R var -> zscore32 mean var x = div32 (sub32 x mean) (sqrt32 var).
  Proof.
    intro H. destruct sqrt_ok as [A B]. destruct (sqrt_rel H) as (eps & E1 & E2 & S).
    unfold zscore32. rewrite (Beqb_correct 24 128 (sqrt32 var) zero32 A eq_refl).
    rewrite Req_bool_false; [reflexivity|]. rewrite E2. simpl B2R. apply Rabs_le_inv in E1. nra.
  Qed.

  Lemma den_pos : 0 < B2R var -> 0 < B2R (sqrt32 var).
  Proof.
    intro H. destruct (sqrt_rel H) as (eps & E1 & E2 & S). rewrite E2. apply Rabs_le_inv in E1. nra.
  Qed.

  (** A quotient by a positive number. *)
  Lemma div_cases (n d : f32) : is_finite n = true -> 0 < B2R d ->
    (is_finite (div32 n d) = true /\ B2R (div32 n d) = rnd (B2R n / B2R d))
    \/ (div32 n d = B754_infinity false /\ bp 128 <= rnd (B2R n / B2R d))
    \/ (div32 n d = B754_infinity true /\ rnd (B2R n / B2R d) <= - bp 128).
  Proof.
    intros Fn D. pose proof (Bdiv_correct 24 128 prec32 emax32 mode_NE n d) as C.
    specialize (C ltac:(lra)). cbv beta in C. rewrite rnd_eq in C.
    destruct (Rlt_bool_spec (Rabs (rnd (B2R n / B2R d))) (bp 128)) as [L|L].
    - left. destruct C as (A & B & _). split; [unfold div32; rewrite B; exact Fn | exact A].
    - right. assert (Bsign d = false) as Sd.
      { destruct d as [s|s| |[] m e H]; simpl in D; try lra; [|reflexivity].
        assert (F2R (Float radix2 (Z.neg m) e) < 0) by (apply F2R_lt_0; reflexivity). lra. }
      rewrite Sd, xorb_false_r in C.
      assert (0 < / B2R d) as ID by (apply Rinv_0_lt_compat; exact D).
      destruct n as [s|s| |s m e H]; try discriminate Fn.
      + exfalso. simpl in L. unfold Rdiv in L. rewrite Rmult_0_l, rnd_0, Rabs_R0 in L.
        pose proof (bpow_gt_0 radix2 128). lra.
      + destruct s.
        * right. split; [apply B2SF_inj; exact C|].
          assert (F2R (Float radix2 (Z.neg m) e) < 0) as X by (apply F2R_lt_0; reflexivity).
          assert (rnd (B2R (B754_finite true m e H : f32) / B2R d) <= 0) as Y.
          { rewrite <- rnd_0. apply rnd_le. simpl. unfold Rdiv. nra. }
          rewrite Rabs_left1 in L by exact Y. lra.
        * left. split; [apply B2SF_inj; exact C|].
          assert (0 < F2R (Float radix2 (Z.pos m) e)) as X by (apply F2R_gt_0; reflexivity).
          assert (0 <= rnd (B2R (B754_finite false m e H : f32) / B2R d)) as Y.
          { rewrite <- rnd_0. apply rnd_le. simpl. unfold Rdiv. nra. }
          rewrite Rabs_pos_eq in L by exact Y. exact L.
  Qed.

  Lemma leb_refl_inf s : Bleb (B754_infinity s : f32) (B754_infinity s) = true.
  Proof. destruct s; reflexivity. Qed.

  Lemma leb_inf_r (a : f32) : is_finite a = true -> Bleb a (B754_infinity false) = true.
  Proof. destruct a as [s|s| |s m e H]; try discriminate; reflexivity. Qed.

  Lemma leb_inf_l (a : f32) : is_finite a = true -> Bleb (B754_infinity true) a = true.
  Proof. destruct a as [s|s| |s m e H]; try discriminate; reflexivity. Qed.

  Lemma div_mono (n n' d : f32) : is_finite n = true -> is_finite n' = true -> 0 < B2R d -> B2R n <= B2R n' ->
    is_nan (div32 n d) = false /\ Bleb (div32 n d) (div32 n' d) = true.
  Proof.
    intros Fn Fn' D L.
    assert (rnd (B2R n / B2R d) <= rnd (B2R n' / B2R d)) as R.
    { apply rnd_le. apply Rmult_le_compat_r; [left; apply Rinv_0_lt_compat; exact D | exact L]. }
    pose proof (bpow_gt_0 radix2 128) as P.
    destruct (div_cases n d Fn D) as [[F E] | [[E I] | [E I]]].
    - split; [apply is_finite_nan; exact F|].
      destruct (div_cases n' d Fn' D) as [[F' E'] | [[E' I'] | [E' I']]].
      + rewrite (Bleb_correct 24 128 _ _ F F'), E, E'. apply Rle_bool_true. exact R.
      + rewrite E'. apply leb_inf_r. exact F.
      + exfalso. pose proof (abs_B2R_lt_emax 24 128 (div32 n d)) as A. rewrite E in A.
        apply Rabs_lt_inv in A. lra.
    - split; [rewrite E; reflexivity|].
      destruct (div_cases n' d Fn' D) as [[F' E'] | [[E' I'] | [E' I']]].
      + exfalso. pose proof (abs_B2R_lt_emax 24 128 (div32 n' d)) as A. rewrite E' in A.
        apply Rabs_lt_inv in A. lra.
      + rewrite E, E'. reflexivity.
      + exfalso. lra.
    - split; [rewrite E; reflexivity|].
      destruct (div_cases n' d Fn' D) as [[F' E'] | [[E' I'] | [E' I']]].
      + rewrite E. apply leb_inf_l. exact F'.
      + rewrite E, E'. reflexivity.
      + rewrite E, E'. reflexivity.
  Qed.

  Lemma z_mono x y : is_finite x = true -> is_finite y = true ->
    Rabs (B2R x) <= bp 126 -> Rabs (B2R y) <= bp 126 -> B2R x <= B2R y ->
    is_nan (zscore32 mean var x) = false /\ Bleb (zscore32 mean var x) (zscore32 mean var y) = true.
  Proof.
    intros Fx Fy Bx By XY. destruct (num_z x Fx Bx) as [Nx Ex]. destruct (num_z y Fy By) as [Ny Ey].
    assert (B2R (sub32 x mean) <= B2R (sub32 y mean)) as L by (rewrite Ex, Ey; apply rnd_le; lra).
    destruct (Rle_lt_or_eq_dec 0 (B2R var) V0) as [V | V].
    - rewrite !z_pos by exact V. apply div_mono; try assumption. apply den_pos. exact V.
    - rewrite !z_zero by (symmetry; exact V). split; [apply is_finite_nan; exact Nx|].
      rewrite (Bleb_correct 24 128 _ _ Nx Ny). apply Rle_bool_true. exact L.
  Qed.

  Lemma z_mean x : is_finite x = true -> B2R x = B2R mean ->
    is_finite (zscore32 mean var x) = true /\ B2R (zscore32 mean var x) = 0.
  Proof.
    intros Fx E. destruct (num_z x Fx) as [Nx Ex]; [rewrite E; exact Bm|].
    rewrite E in Ex. replace (B2R mean - B2R mean) with 0 in Ex by ring. rewrite rnd_0 in Ex.
    destruct (Rle_lt_or_eq_dec 0 (B2R var) V0) as [V | V].
    - rewrite z_pos by exact V. destruct (div_ok (sub32 x mean) (sqrt32 var) Nx) as [A B].
      + pose proof (den_pos V). lra.
      + rewrite Ex. unfold Rdiv. rewrite Rmult_0_l, rnd_0, Rabs_R0. apply bpow_gt_0.
      + split; [exact A|]. rewrite B, Ex. unfold Rdiv. rewrite Rmult_0_l. apply rnd_0.
    - rewrite z_zero by (symmetry; exact V). split; [exact Nx | exact Ex].
  Qed.

  (** Accuracy. *)
  Lemma z_error x : is_finite x = true -> Rabs (B2R x) <= bp 126 -> 0 < B2R var ->
    Rabs ((B2R x - B2R mean) / sqrt (B2R var)) <= bp 126 ->
    is_finite (zscore32 mean var x) = true
    /\ Rabs (B2R (zscore32 mean var x) - (B2R x - B2R mean) / sqrt (B2R var))
       <= / 2097152 * Rabs ((B2R x - B2R mean) / sqrt (B2R var)) + bp (-150).
  Proof.
    intros Fx Bx V Zb. destruct (num_z x Fx Bx) as [Nx Ex]. destruct (sub_rel x mean) as (e1 & E1 & Q1).
    destruct (sqrt_rel V) as (e2 & E2 & Q2 & S). set (Zx := (B2R x - B2R mean) / sqrt (B2R var)) in *.
    rewrite Q1 in Ex. apply Rabs_le_inv in E1. apply Rabs_le_inv in E2.
    set (t := B2R (sub32 x mean) / B2R (sqrt32 var)).
    assert (t = Zx * (1 + e1) / (1 + e2)) as T by (unfold t, Zx; rewrite Ex, Q2; field; lra).
    assert (Rabs (t - Zx) <= 4 * / 16777216 * Rabs Zx) as A.
    { rewrite T. replace (Zx * (1 + e1) / (1 + e2) - Zx) with (Zx * ((e1 - e2) / (1 + e2))) by (field; lra).
      rewrite Rabs_mult, Rmult_comm. apply Rmult_le_compat_r; [apply Rabs_pos|].
      unfold Rdiv. rewrite Rabs_mult, Rabs_inv, (Rabs_pos_eq (1 + e2)) by lra.
      apply (Rmult_le_reg_r (1 + e2)); [lra|]. rewrite Rmult_assoc, Rinv_l, Rmult_1_r by lra.
      apply Rabs_le. lra. }
    assert (Rabs t <= (1 + 4 * / 16777216) * Rabs Zx) as B.
    { replace t with ((t - Zx) + Zx) by ring. eapply Rle_trans; [apply Rabs_triang|]. lra. }
    pose proof (Rabs_pos Zx) as P0.
    assert (Rabs t <= bp 127) as B'.
    { change (bp 127) with (bp (1 + 126)). rewrite bpow_plus. change (bp 1) with 2.
      pose proof (bpow_gt_0 radix2 126). lra. }
    rewrite z_pos by exact V. destruct (div_ok (sub32 x mean) (sqrt32 var) Nx) as [C D].
    - pose proof (den_pos V). lra.
    - fold t. eapply Rle_lt_trans; [apply (rnd_abs_bpow t 127); [lia | exact B'] | apply bpow_lt; lia].
    - split; [exact C|]. rewrite D. fold t. pose proof (rnd_err t) as E. rewrite u24 in E.
      replace (rnd t - Zx) with ((rnd t - t) + (t - Zx)) by ring.
      eapply Rle_trans; [apply Rabs_triang|]. lra.
  Qed.
End z.
