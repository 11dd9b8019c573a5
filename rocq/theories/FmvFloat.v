(** Double precision arithmetic, and the formulas that combine two means and variances. *)
From Coq Require Import List ZArith Reals Bool Lra Lia.
From Flocq Require Import Core BinarySingleNaN Plus_error Relative.
From Verif Require Import CombineModel IeeeModel IeeeSpec IeeeProofs FmvModel FmvSpec.
Import ListNotations.
Local Open Scope R_scope.

Local Notation fexp64 := (SpecFloat.fexp 53 1024).
Local Notation fmt64 := (generic_format radix2 fexp64).
Local Notation bp := (bpow radix2).
Local Existing Instance prec64.
Local Existing Instance emax64.
Local Existing Instance prec32.
Local Existing Instance emax32.
Local Instance ve64 : Valid_exp fexp64 := fexp_correct 53 1024 prec64.

Definition e53 : R := bp (-53).
Definition eta : R := bp (-1075).

Lemma e53_pos : 0 < e53. Proof. apply bpow_gt_0. Qed.
Lemma e53_small : e53 <= / 1024. Proof. unfold e53. change (/ 1024) with (bp (-10)). apply bpow_le. lia. Qed.
Lemma eta_pos : 0 < eta. Proof. apply bpow_gt_0. Qed.

Lemma r64_le a b : a <= b -> rnd64 a <= rnd64 b.
Proof. intro H. unfold rnd64. apply round_le; auto with typeclass_instances. Qed.

Lemma r64_id a : fmt64 a -> rnd64 a = a.
Proof. intro H. unfold rnd64. apply round_generic; auto with typeclass_instances. Qed.

Lemma fmt_B2R (x : f64) : fmt64 (B2R x).
Proof. apply generic_format_B2R. Qed.

Lemma fmt_r64 a : fmt64 (rnd64 a).
Proof. unfold rnd64. apply generic_format_round; auto with typeclass_instances. Qed.

Lemma r64_0 : rnd64 0 = 0.
Proof. apply r64_id, generic_format_0. Qed.

Lemma r64_opp a : rnd64 (- a) = - rnd64 a.
Proof. unfold rnd64. apply round_NE_opp. Qed.

Lemma r64_pos a : 0 <= a -> 0 <= rnd64 a.
Proof. intro H. rewrite <- r64_0. apply r64_le, H. Qed.

Lemma fmt_bpow e : (-1074 <= e)%Z -> fmt64 (bp e).
Proof. intro H. apply (generic_format_FLT_bpow radix2 (-1074) 53); exact H. Qed.

Lemma r64_abs_bpow a e : (-1074 <= e)%Z -> Rabs a <= bp e -> Rabs (rnd64 a) <= bp e.
Proof.
  intros H A. unfold rnd64. apply abs_round_le_generic; auto with typeclass_instances. apply fmt_bpow; exact H.
Qed.

Lemma r64_abs_fmt a b : fmt64 b -> Rabs a <= b -> Rabs (rnd64 a) <= b.
Proof. intros H A. unfold rnd64. apply abs_round_le_generic; auto with typeclass_instances. Qed.

Lemma fmt_int z : (Z.abs z <= 2 ^ 53)%Z -> fmt64 (IZR z).
Proof.
  intro H. destruct (Z.eq_dec (Z.abs z) (2 ^ 53)) as [E|N].
  - assert (Q : z = (2 ^ 53)%Z \/ z = (- 2 ^ 53)%Z) by lia. destruct Q as [-> | ->].
    + change (IZR (2 ^ 53)) with (bp 53). apply fmt_bpow. lia.
    + rewrite opp_IZR. apply generic_format_opp. change (IZR (2 ^ 53)) with (bp 53). apply fmt_bpow. lia.
  - apply (generic_format_FLT radix2 (-1074) 53). exists (Float radix2 z 0); [unfold F2R; simpl; ring|cbn; lia|cbn; lia].
Qed.

Lemma r64_err a : Rabs (rnd64 a - a) <= e53 * Rabs a + eta.
Proof.
  destruct (error_N_FLT radix2 (-1074) 53 (eq_refl : (0 < 53)%Z) (fun z => negb (Z.even z)) a)
    as (eps & et & E & T & _ & Q).
  unfold rnd64. change (round radix2 fexp64 ZnearestE a) with (round radix2 (FLT_exp (-1074) 53) (Znearest (fun z => negb (Z.even z))) a).
  rewrite Q. replace (a * (1 + eps) + et - a) with (a * eps + et) by ring.
  eapply Rle_trans; [apply Rabs_triang|]. rewrite Rabs_mult.
  assert (H2 : forall e, / 2 * bp e = bp (e - 1)).
  { intro e. replace e with ((e - 1) + 1)%Z at 1 by ring. rewrite bpow_plus. change (bp 1) with 2. field. }
  apply Rplus_le_compat.
  - rewrite Rmult_comm. apply Rmult_le_compat_r; [apply Rabs_pos|].
    eapply Rle_trans; [exact E|]. unfold e53. rewrite H2. apply bpow_le. lia.
  - eapply Rle_trans; [exact T|]. unfold eta. rewrite H2. apply bpow_le. lia.
Qed.

Lemma lt_1024 a e : (-1074 <= e < 1024)%Z -> Rabs a <= bp e -> Rabs (rnd64 a) < bp 1024.
Proof.
  intros H A. eapply Rle_lt_trans; [apply (r64_abs_bpow a e); [lia|exact A]|]. apply bpow_lt. lia.
Qed.

Lemma add64_ok (x y : f64) : is_finite x = true -> is_finite y = true -> Rabs (rnd64 (B2R x + B2R y)) < bp 1024 ->
  is_finite (add64 x y) = true /\ B2R (add64 x y) = rnd64 (B2R x + B2R y).
Proof.
  intros Fx Fy H. pose proof (Bplus_correct 53 1024 prec64 emax64 mode_NE x y Fx Fy) as C.
  cbv beta in C. change (round radix2 fexp64 (round_mode mode_NE)) with rnd64 in C. rewrite Rlt_bool_true in C by exact H.
  destruct C as (A & B & _). split; [exact B | exact A].
Qed.

Lemma add64_big (x y : f64) : is_finite x = true -> is_finite y = true -> 0 <= B2R x + B2R y ->
  (is_finite (add64 x y) = true /\ B2R (add64 x y) = rnd64 (B2R x + B2R y)) \/
  (add64 x y = B754_infinity false /\ 0 < B2R x + B2R y).
Proof.
  intros Fx Fy P. pose proof (Bplus_correct 53 1024 prec64 emax64 mode_NE x y Fx Fy) as C.
  cbv beta in C. change (round radix2 fexp64 (round_mode mode_NE)) with rnd64 in C.
  destruct (Rlt_bool_spec (Rabs (rnd64 (B2R x + B2R y))) (bp 1024)) as [L|L].
  - destruct C as (A & B & _). left. auto.
  - right. destruct C as [E SG].
    assert (PP : 0 < B2R x + B2R y).
    { destruct P as [P|P]; [exact P|]. exfalso. rewrite <- P, r64_0, Rabs_R0 in L. pose proof (bpow_gt_0 radix2 1024). lra. }
    split; [|exact PP]. apply B2SF_inj. eapply eq_trans; [exact E|].
    assert (Bsign x = false) as ->; [|reflexivity].
    destruct (Bsign x) eqn:SX; [exfalso|reflexivity]. symmetry in SG.
    assert (forall z : f64, Bsign z = true -> B2R z <= 0) as N.
    { intros z Hz. destruct z as [s|s| |s m e B]; cbn in Hz |- *; try lra. subst s. apply F2R_le_0. cbn. lia. }
    pose proof (N x SX). pose proof (N y SG). lra.
Qed.

Lemma sub64_ok (x y : f64) : is_finite x = true -> is_finite y = true -> Rabs (rnd64 (B2R x - B2R y)) < bp 1024 ->
  is_finite (sub64 x y) = true /\ B2R (sub64 x y) = rnd64 (B2R x - B2R y).
Proof.
  intros Fx Fy H. pose proof (Bminus_correct 53 1024 prec64 emax64 mode_NE x y Fx Fy) as C.
  cbv beta in C. change (round radix2 fexp64 (round_mode mode_NE)) with rnd64 in C. rewrite Rlt_bool_true in C by exact H.
  destruct C as (A & B & _). split; [exact B | exact A].
Qed.

Lemma mul64_ok (x y : f64) : is_finite x = true -> is_finite y = true -> Rabs (rnd64 (B2R x * B2R y)) < bp 1024 ->
  is_finite (mul64 x y) = true /\ B2R (mul64 x y) = rnd64 (B2R x * B2R y).
Proof.
  intros Fx Fy H. pose proof (Bmult_correct 53 1024 prec64 emax64 mode_NE x y) as C.
  cbv beta in C. change (round radix2 fexp64 (round_mode mode_NE)) with rnd64 in C. rewrite Rlt_bool_true in C by exact H.
  destruct C as (A & B & _). split; [unfold mul64; rewrite B, Fx, Fy; reflexivity | exact A].
Qed.

Lemma div64_ok (x y : f64) : is_finite x = true -> B2R y <> 0 -> Rabs (rnd64 (B2R x / B2R y)) < bp 1024 ->
  is_finite (div64 x y) = true /\ B2R (div64 x y) = rnd64 (B2R x / B2R y).
Proof.
  intros Fx Y H. pose proof (Bdiv_correct 53 1024 prec64 emax64 mode_NE x y Y) as C.
  cbv beta in C. change (round radix2 fexp64 (round_mode mode_NE)) with rnd64 in C. rewrite Rlt_bool_true in C by exact H.
  destruct C as (A & B & _). split; [unfold div64; rewrite B; exact Fx | exact A].
Qed.

Lemma widen_ok (x : f32) : is_finite x = true -> is_finite (widen x) = true /\ B2R (widen x) = B2R x.
Proof.
  intro F. destruct x as [s|s| |s m e B]; try discriminate F; [split; reflexivity|].
  cbn [widen].
  pose proof (binary_normalize_correct 53 1024 prec64 emax64 mode_NE (cond_Zopp s (Zpos m)) e s) as C.
  cbv zeta in C. change (round radix2 fexp64 (round_mode mode_NE)) with rnd64 in C.
  assert (LT : Rabs (F2R (Float radix2 (cond_Zopp s (Zpos m)) e)) < bp 128) by apply (abs_B2R_lt_emax 24 128 (B754_finite s m e B)).
  assert (FM : fmt64 (F2R (Float radix2 (cond_Zopp s (Zpos m)) e))).
  { pose proof (generic_format_B2R 24 128 (B754_finite s m e B)) as G. cbn [B2R] in G.
    apply (FLT_format_generic radix2 (-149) 24) in G. destruct G as [[m0 e0] E M0 E0]. cbn in M0, E0.
    apply (generic_format_FLT radix2 (-1074) 53). exists (Float radix2 m0 e0); [exact E|cbn; lia|cbn; lia]. }
  rewrite (r64_id _ FM) in C. rewrite Rlt_bool_true in C.
  - destruct C as (A & B' & _). split; [exact B'|exact A].
  - eapply Rlt_trans; [exact LT|]. apply bpow_lt. lia.
Qed.

(** ** The combined mean lies between the means *)
Lemma between_up a b r : fmt64 a -> fmt64 b -> a <= b -> 0 <= r <= / 2 ->
  a <= rnd64 (a + rnd64 (r * rnd64 (b - a))) <= b.
Proof.
  intros Fa Fb AB Hr. set (d := rnd64 (b - a)). set (t := rnd64 (r * d)).
  assert (D0 : 0 <= d) by (apply r64_pos; lra).
  assert (T0 : 0 <= t) by (apply r64_pos; nra).
  assert (TB : t <= b - a).
  { destruct (Rle_or_lt (Rabs (b - a)) (bp (-1021))) as [L|L].
    - assert (FD : fmt64 (b - a)).
      { unfold Rminus. apply (FLT_format_plus_small radix2 (-1074) 53); [exact Fb|apply generic_format_opp; exact Fa|exact L]. }
      assert (E : d = b - a) by (apply r64_id; exact FD).
      unfold t. rewrite <- E. apply Rle_trans with (rnd64 d); [apply r64_le; nra|]. rewrite r64_id; [lra|]. apply fmt_r64.
    - rewrite Rabs_pos_eq in L by lra.
      assert (ET : 1024 * eta <= b - a).
      { apply Rle_trans with (bp (-1021)); [|lra]. unfold eta. change 1024 with (bp 10). rewrite <- bpow_plus. apply bpow_le. lia. }
      pose proof (r64_err (b - a)) as E1. fold d in E1. rewrite (Rabs_pos_eq (b - a)) in E1 by lra. apply Rabs_le_inv in E1.
      pose proof (r64_err (r * d)) as E2. fold t in E2. rewrite (Rabs_pos_eq (r * d)) in E2 by nra. apply Rabs_le_inv in E2.
      pose proof e53_pos. pose proof e53_small. pose proof eta_pos.
      assert (r * d <= / 2 * d) by nra. assert (e53 * (r * d) <= / 1024 * (/ 2 * d)) by nra.
      assert (e53 * (b - a) <= / 1024 * (b - a)) by nra. lra. }
  split.
  - rewrite <- (r64_id a Fa) at 1. apply r64_le. lra.
  - rewrite <- (r64_id b Fb). apply r64_le. lra.
Qed.

Lemma between64 a b r : fmt64 a -> fmt64 b -> 0 <= r <= / 2 ->
  Rmin a b <= rnd64 (a + rnd64 (r * rnd64 (b - a))) <= Rmax a b.
Proof.
  intros Fa Fb Hr. destruct (Rle_or_lt a b) as [L|L].
  - rewrite Rmin_left, Rmax_right by lra. apply between_up; auto.
  - rewrite Rmin_right, Rmax_left by lra.
    assert (G : - a <= rnd64 (- a + rnd64 (r * rnd64 (- b - - a))) <= - b).
    { apply between_up; [apply generic_format_opp; exact Fa|apply generic_format_opp; exact Fb|lra|exact Hr]. }
    replace (- b - - a) with (- (b - a)) in G by ring. rewrite r64_opp in G.
    replace (r * - rnd64 (b - a)) with (- (r * rnd64 (b - a))) in G by ring. rewrite r64_opp in G.
    replace (- a + - rnd64 (r * rnd64 (b - a))) with (- (a + rnd64 (r * rnd64 (b - a)))) in G by ring. rewrite r64_opp in G. lra.
Qed.

(** ** Its error *)
Lemma mean_err a b rho K : 0 <= K -> Rabs a <= K -> Rabs b <= K -> 0 <= rho <= / 2 ->
  Rabs (rnd64 (a + rnd64 (rnd64 rho * rnd64 (b - a))) - (a + rho * (b - a))) <= 8 * e53 * K + 32 * eta * (1 + K).
Proof.
  intros K0 HA HB HR. set (r := rnd64 rho). set (d := rnd64 (b - a)). set (t := rnd64 (r * d)). set (m := rnd64 (a + t)).
  pose proof e53_pos as P1. pose proof e53_small as P2. pose proof eta_pos as P3.
  assert (P4 : eta <= / 1024) by (unfold eta; change (/ 1024) with (bp (-10)); apply bpow_le; lia).
  assert (ER : Rabs (r - rho) <= e53 * / 2 + eta).
  { eapply Rle_trans; [apply r64_err|]. rewrite (Rabs_pos_eq rho) by lra. nra. }
  assert (RB : 0 <= r <= / 2).
  { split; [apply r64_pos; lra|]. unfold r. change (/ 2) with (bp (-1)). rewrite <- (r64_id (bp (-1))); [apply r64_le; simpl (bp (-1)); lra|apply fmt_bpow; lia]. }
  assert (AB : Rabs (b - a) <= 2 * K) by (eapply Rle_trans; [apply Rabs_triang|]; rewrite Rabs_Ropp; lra).
  assert (ED : Rabs (d - (b - a)) <= e53 * (2 * K) + eta).
  { eapply Rle_trans; [apply r64_err|]. nra. }
  assert (DB : Rabs d <= 2 * K + e53 * (2 * K) + eta).
  { replace d with ((b - a) + (d - (b - a))) by ring. eapply Rle_trans; [apply Rabs_triang|]. lra. }
  assert (RD : Rabs (r * d) <= / 2 * Rabs d).
  { rewrite Rabs_mult, (Rabs_pos_eq r) by lra. pose proof (Rabs_pos d). nra. }
  assert (ET : Rabs (t - r * d) <= e53 * (/ 2 * Rabs d) + eta).
  { eapply Rle_trans; [apply r64_err|]. nra. }
  assert (TB : Rabs t <= Rabs d + eta).
  { replace t with (r * d + (t - r * d)) by ring. eapply Rle_trans; [apply Rabs_triang|]. pose proof (Rabs_pos d). nra. }
  assert (EM : Rabs (m - (a + t)) <= e53 * (K + (Rabs d + eta)) + eta).
  { eapply Rle_trans; [apply r64_err|]. assert (Rabs (a + t) <= K + (Rabs d + eta)) by (eapply Rle_trans; [apply Rabs_triang|]; lra). nra. }
  replace (m - (a + rho * (b - a))) with ((m - (a + t)) + (t - r * d) + (r - rho) * d + rho * (d - (b - a))) by ring.
  eapply Rle_trans; [apply Rabs_triang|]. eapply Rle_trans; [apply Rplus_le_compat_r, Rabs_triang|].
  eapply Rle_trans; [apply Rplus_le_compat_r, Rplus_le_compat_r, Rabs_triang|].
  rewrite (Rabs_mult (r - rho)), (Rabs_mult rho), (Rabs_pos_eq rho) by lra.
  assert (Q1 : Rabs (r - rho) * Rabs d <= (e53 * / 2 + eta) * Rabs d) by (apply Rmult_le_compat_r; [apply Rabs_pos|exact ER]).
  assert (Q2 : rho * Rabs (d - (b - a)) <= / 2 * (e53 * (2 * K) + eta)).
  { pose proof (Rabs_pos (d - (b - a))). apply Rmult_le_compat; lra. }
  set (D := Rabs d) in *.
  apply Rle_trans with ((e53 * (K + (D + eta)) + eta) + (e53 * (/ 2 * D) + eta) + (e53 * / 2 + eta) * D + / 2 * (e53 * (2 * K) + eta)); [lra|].
  assert (D2 : D <= 2 * K + / 512 * K + eta) by nra. assert (0 <= D) by apply Rabs_pos.
  assert (e53 * D <= e53 * (2 * K + / 512 * K + eta)) by (apply Rmult_le_compat_l; lra).
  assert (eta * D <= eta * (2 * K + / 512 * K + eta)) by (apply Rmult_le_compat_l; lra).
  assert (e53 * eta <= / 1024 * eta) by (apply Rmult_le_compat_r; lra).
  assert (eta * eta <= / 1024 * eta) by (apply Rmult_le_compat_r; lra).
  assert (0 <= e53 * K) by nra. assert (0 <= eta * K) by nra.
  nra.
Qed.
