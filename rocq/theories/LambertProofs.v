(** Proofs of the statements of LambertProps.v. *)
From Coq Require Import Reals Lra Lia Psatz.
From Verif Require Import TukeyModel LMomentsModel LambertSpec.
Local Open Scope R_scope.

Lemma exp_pos' x : 0 < exp x. Proof. apply exp_pos. Qed.

Lemma exp_ge x : 1 + x <= exp x.
Proof.
  destruct (Req_dec x 0) as [->|N]; [rewrite exp_0; lra|].
  left. now apply exp_ineq1.
Qed.

Lemma exp_inv x : exp (- x) * exp x = 1.
Proof. rewrite <- exp_plus. replace (- x + x) with 0 by ring. apply exp_0. Qed.

Lemma wexp_increasing v w : 0 <= v -> v < w -> v * exp v < w * exp w.
Proof.
  intros Hv H. pose proof (exp_increasing v w H). pose proof (exp_pos v). nra.
Qed.

Lemma wexp_le v w : 0 <= w -> w * exp w <= v * exp v -> 0 <= v -> w <= v.
Proof.
  intros Hw H Hv. destruct (Rle_lt_dec w v) as [L|L]; [exact L|].
  pose proof (wexp_increasing v w Hv L). lra.
Qed.

(** ** One step of Newton's method *)

Definition newton (x w : R) : R := w - (w * exp w - x) / (exp w + w * exp w).

Lemma newton_form x w : -1 < w -> newton x w * (1 + w) = w * w + x * exp (- w).
Proof.
  intros H. unfold newton. pose proof (exp_pos w) as P. pose proof (exp_inv w) as I.
  replace (exp w + w * exp w) with (exp w * (1 + w)) by ring.
  replace (exp (- w)) with (/ exp w) by (symmetry; apply exp_Ropp).
  field. split; lra.
Qed.

Lemma newton_pos x w : -1 < w -> 0 < x -> 0 < newton x w.
Proof.
  intros H Hx. pose proof (newton_form x w H) as F. pose proof (exp_pos (- w)) as P.
  assert (0 < newton x w * (1 + w)).
  { rewrite F. pose proof (Rmult_lt_0_compat _ _ Hx P). nra. }
  apply Rmult_lt_reg_r with (1 + w); lra.
Qed.

(** A step ends above the solution. *)
Lemma newton_above x w : -1 < w -> 0 < x -> x <= newton x w * exp (newton x w).
Proof.
  intros H Hx. pose proof (newton_pos x w H Hx) as P. set (v := newton x w) in *.
  pose proof (newton_form x w H) as F. fold v in F.
  replace (exp v) with (exp (v - w) * exp w) by (rewrite <- exp_plus; f_equal; ring).
  pose proof (exp_ge (v - w)) as G. pose proof (exp_pos w) as E. pose proof (exp_inv w) as I.
  assert (X : x = (v * (1 + w) - w * w) * exp w).
  { rewrite F. replace (w * w + x * exp (- w) - w * w) with (x * exp (- w)) by ring.
    rewrite Rmult_assoc, I. ring. }
  rewrite X. rewrite <- Rmult_assoc. apply Rmult_le_compat_r; [lra|].
  apply Rle_trans with (v * (1 + (v - w))); [|apply Rmult_le_compat_l; lra].
  pose proof (Rle_0_sqr (v - w)) as Q. unfold Rsqr in Q. lra.
Qed.

(** The error after a step. *)
Lemma newton_error x w W : -1 < w -> W * exp W = x ->
  (newton x w - W) * (1 + w)
  = w * (exp (W - w) - 1 - (W - w)) + (W - w) * (exp (W - w) - 1).
Proof.
  intros H E. rewrite Rmult_minus_distr_r, newton_form by exact H. rewrite <- E.
  replace (exp (W - w)) with (exp W * exp (- w)) by (rewrite <- exp_plus; f_equal; ring). ring.
Qed.

Lemma newton_from_above x w W : 0 < x -> is_lambert_w x W -> W <= w ->
  W <= newton x w /\ newton x w - W <= (w - W) * (1 - exp (- (w - W))).
Proof.
  intros Hx [HW E] H. split.
  - apply wexp_le; [exact HW| |].
    + rewrite E. apply newton_above; lra.
    + left. apply newton_pos; lra.
  - pose proof (newton_error x w W ltac:(lra) E) as F.
    set (e := w - W) in *. replace (W - w) with (- e) in F by (unfold e; ring).
    apply Rmult_le_reg_r with (1 + w); [lra|]. rewrite F.
    assert (G : exp (- e) * (1 + e) <= 1).
    { apply Rle_trans with (exp (- e) * exp e); [|rewrite exp_inv; lra].
      apply Rmult_le_compat_l; [left; apply exp_pos|apply exp_ge]. }
    assert (e >= 0) by (unfold e; lra). nra.
Qed.

Lemma newton_from_below x w W : 0 < x -> is_lambert_w x W -> 0 <= w <= W ->
  W <= newton x w /\ newton x w - W <= (W - w) * (exp (W - w) - 1).
Proof.
  intros Hx [HW E] H. split.
  - apply wexp_le; [exact HW| |].
    + rewrite E. apply newton_above; lra.
    + left. apply newton_pos; lra.
  - pose proof (newton_error x w W ltac:(lra) E) as F. set (d := W - w) in *.
    apply Rmult_le_reg_r with (1 + w); [lra|]. rewrite F.
    assert (G : exp d - 1 - d <= d * (exp d - 1)).
    { pose proof (exp_ge (- d)) as K. pose proof (exp_inv d) as I. pose proof (exp_pos d) as P.
      assert (exp d * (1 - d) <= 1) by (apply Rle_trans with (exp d * exp (- d)); [apply Rmult_le_compat_l|]; lra). nra. }
    assert (d >= 0) by (unfold d; lra).
    assert (0 <= d * (exp d - 1)).
    { apply Rmult_le_pos; [lra|]. pose proof (exp_ge d). lra. }
    nra.
Qed.

(** How an error bound shrinks. *)
Definition within_above (W w b : R) : Prop := W <= w <= W + b.

Lemma step_square x w W b : 0 < x -> is_lambert_w x W -> within_above W w b ->
  within_above W (newton x w) (b * b).
Proof.
  intros Hx HW H. destruct (newton_from_above x w W Hx HW (proj1 H)) as [A B].
  unfold within_above in *. split; [exact A|].
  set (e := w - W) in *. pose proof (exp_ge (- e)) as K. assert (0 <= e <= b) by (unfold e; lra).
  assert (e * (1 - exp (- e)) <= e * e) by (apply Rmult_le_compat_l; lra).
  assert (e * e <= b * b) by nra. lra.
Qed.

Lemma step_start x w W b c : 0 < x -> is_lambert_w x W -> within_above W w b -> 0 <= b -> 0 < c ->
  c <= exp (- b) -> within_above W (newton x w) (b * (1 - c)).
Proof.
  intros Hx HW H Hb Hc C. destruct (newton_from_above x w W Hx HW (proj1 H)) as [A B].
  unfold within_above in *. split; [exact A|].
  set (e := w - W) in *. assert (0 <= e <= b) by (unfold e; lra).
  assert (M : exp (- b) <= exp (- e)).
  { destruct (Req_dec e b) as [->|N]; [lra|]. left. apply exp_increasing. lra. }
  assert (exp (- e) <= 1).
  { rewrite <- exp_0. destruct (Req_dec e 0) as [->|N]; [rewrite Ropp_0; lra|].
    left. apply exp_increasing. lra. }
  assert (e * (1 - exp (- e)) <= b * (1 - c)) by (apply Rmult_le_compat; lra). lra.
Qed.

Lemma exp_minus_three_quarters : (13 / 16) * (13 / 16) * ((13 / 16) * (13 / 16)) <= exp (- (3 / 4)).
Proof.
  replace (- (3 / 4)) with (- (3 / 16) + - (3 / 16) + (- (3 / 16) + - (3 / 16))) by field.
  rewrite !exp_plus. pose proof (exp_ge (- (3 / 16))) as G.
  assert (H : 13 / 16 <= exp (- (3 / 16))) by lra.
  apply Rmult_le_compat; try lra; apply Rmult_le_compat; lra.
Qed.

Lemma weaken W w b b' : b <= b' -> within_above W w b -> within_above W w b'.
Proof. unfold within_above. lra. Qed.

(** Seven steps from an error of at most 3/4. *)
Lemma seven_steps x w W : 0 < x -> is_lambert_w x W -> within_above W w (3 / 4) ->
  within_above W (Nat.iter 7 (newton x) w) (/ 10 ^ 20).
Proof.
  intros Hx HW H0. cbn [Nat.iter nat_rect].
  pose proof (step_start x w W (3 / 4) ((13 / 16) * (13 / 16) * ((13 / 16) * (13 / 16))) Hx HW H0
    ltac:(lra) ltac:(lra) exp_minus_three_quarters) as H1.
  apply (weaken _ _ _ (424 / 1000)) in H1; [|lra].
  apply (step_square x _ W _ Hx HW) in H1. apply (weaken _ _ _ (18 / 100)) in H1; [|lra].
  apply (step_square x _ W _ Hx HW) in H1. apply (weaken _ _ _ (33 / 1000)) in H1; [|lra].
  apply (step_square x _ W _ Hx HW) in H1. apply (weaken _ _ _ (11 / 10000)) in H1; [|lra].
  apply (step_square x _ W _ Hx HW) in H1. apply (weaken _ _ _ (13 / 10000000)) in H1; [|lra].
  apply (step_square x _ W _ Hx HW) in H1. apply (weaken _ _ _ (2 / 1000000000000)) in H1; [|lra].
  apply (step_square x _ W _ Hx HW) in H1.
  eapply weaken; [|exact H1]. lra.
Qed.

(** ** The start *)

Lemma exp_1_bounds : 2 <= exp 1 <= 3.
Proof. split; [pose proof (exp_ge 1); lra|apply exp_le_3]. Qed.

Lemma ln_le_half w : 0 < w -> ln w <= w / 2.
Proof.
  intros H. rewrite <- (ln_exp (w / 2)).
  assert (L : w <= exp (w / 2)); [|destruct L as [L|L]; [left; now apply ln_increasing|rewrite <- L; lra]].
  replace (w / 2) with (w / 4 + w / 4) by field. rewrite exp_plus.
  pose proof (exp_ge (w / 4)). assert ((1 + w / 4) * (1 + w / 4) <= exp (w / 4) * exp (w / 4)) by (apply Rmult_le_compat; lra).
  assert (0 <= (1 - w / 4) * (1 - w / 4)) by apply Rle_0_sqr. lra.
Qed.

Lemma real_lt_true x y : real_lt x y = true <-> x < y.
Proof. unfold real_lt. destruct (Rlt_dec x y); split; intros H; try easy. Qed.

Lemma real_lt_false x y : real_lt x y = false <-> y <= x.
Proof.
  unfold real_lt. destruct (Rlt_dec x y); split; intros H; try easy; lra.
Qed.

(** Where the iteration starts. *)
Definition start_of (x : R) : R :=
  if real_lt x (exp (-1)) then x
  else if real_lt x (exp 1) then (exp 1 - 1) / (exp 2 - 1) * x + 1 / exp 1 * (1 - (exp 1 - 1) / (exp 2 - 1))
  else ln x + (1 / ln x - 1) * ln (ln x).

Lemma lambert_w_iter x : lambert_w x = Nat.iter 8 (newton x) (start_of x).
Proof. reflexivity. Qed.

Lemma exp_2 : exp 2 = exp 1 * exp 1.
Proof. rewrite <- exp_plus. reflexivity. Qed.

Lemma exp_m1 : exp (-1) = / exp 1.
Proof. replace (-1) with (- (1)) by ring. apply exp_Ropp. Qed.

Lemma middle_start x : (exp 1 - 1) / (exp 2 - 1) * x + 1 / exp 1 * (1 - (exp 1 - 1) / (exp 2 - 1))
  = (x + 1) / (exp 1 + 1).
Proof.
  rewrite exp_2. pose proof exp_1_bounds as B. set (e := exp 1) in *.
  assert (e * e - 1 <> 0) by nra. field. repeat split; nra.
Qed.

Lemma exp_le_compat a b : a <= b -> exp a <= exp b.
Proof. intros [H| ->]; [left; now apply exp_increasing|lra]. Qed.

(** An error below, of at most 2/3. *)
Lemma below_start x w W : 0 < x -> is_lambert_w x W -> 0 <= w -> w <= W -> W - w <= 2 / 3 ->
  within_above W (newton x w) (3 / 4).
Proof.
  intros Hx HW H0 H1 H2. destruct (newton_from_below x w W Hx HW (conj H0 H1)) as [A B].
  split; [exact A|]. set (d := W - w) in *. assert (0 <= d) by (unfold d; lra).
  assert (E : exp d <= 209 / 100).
  { apply Rle_trans with (exp (2 / 3)); [now apply exp_le_compat|].
    assert (C : exp (2 / 3) * exp (2 / 3) * exp (2 / 3) <= 9).
    { rewrite <- !exp_plus. replace (2 / 3 + 2 / 3 + 2 / 3) with (1 + 1) by field.
      rewrite exp_plus. pose proof exp_1_bounds. nra. }
    pose proof (exp_pos (2 / 3)) as P. set (y := exp (2 / 3)) in *.
    destruct (Rle_lt_dec y (209 / 100)) as [L|L]; [exact L|].
    assert (209 / 100 * (209 / 100) < y * y) by nra. nra. }
  pose proof (exp_ge d). assert (d * (exp d - 1) <= 2 / 3 * (109 / 100)) by (apply Rmult_le_compat; lra).
  lra.
Qed.

(** An error above, of at most 1. *)
Lemma above_start x w W : 0 < x -> is_lambert_w x W -> W <= w -> w - W <= 1 ->
  within_above W (newton x w) (3 / 4).
Proof.
  intros Hx HW H0 H1.
  assert (C : 1 / 3 <= exp (- (1))).
  { rewrite exp_Ropp. pose proof exp_1_bounds. apply Rmult_le_reg_r with (exp 1); [lra|].
    rewrite Rinv_l by lra. lra. }
  apply (weaken _ _ (1 * (1 - 1 / 3))); [lra|].
  apply step_start; try lra; try assumption. split; lra.
Qed.

Lemma ln_pos_of_ge1 w : 1 <= w -> 0 <= ln w.
Proof.
  intros [H| <-]; [left; rewrite <- ln_1; apply ln_increasing; lra|rewrite ln_1; lra].
Qed.

Lemma first_step x W : 0 < x -> is_lambert_w x W ->
  -1 < start_of x /\ within_above W (newton x (start_of x)) (3 / 4).
Proof.
  intros Hx HW. assert (K := HW). destruct K as [W0 E].
  pose proof exp_1_bounds as B. unfold start_of.
  destruct (real_lt x (exp (-1))) eqn:C1.
  { apply real_lt_true in C1. rewrite exp_m1 in C1. split; [lra|].
    assert (W <= x). { rewrite <- E. pose proof (exp_ge W). nra. }
    assert (/ exp 1 <= 1). { apply Rmult_le_reg_r with (exp 1); [lra|]. rewrite Rinv_l by lra. lra. }
    apply above_start; try assumption. lra. }
  apply real_lt_false in C1. rewrite exp_m1 in C1.
  destruct (real_lt x (exp 1)) eqn:C2.
  { apply real_lt_true in C2. rewrite middle_start.
    assert (W1 : W <= 1).
    { apply wexp_le; lra. }
    set (w := (x + 1) / (exp 1 + 1)).
    assert (Hw : w * (exp 1 + 1) = x + 1) by (unfold w; field; lra).
    assert (w <= 1) by nra.
    assert (I : / exp 1 * exp 1 = 1) by (apply Rinv_l; lra).
    assert (L : / exp 1 <= w).
    { apply Rmult_le_reg_r with (exp 1 + 1); [lra|]. rewrite Hw. lra. }
    assert (1 / 3 <= / exp 1) by nra.
    split; [lra|].
    destruct (Rle_lt_dec w W).
    - apply below_start; try assumption; lra.
    - apply above_start; try assumption; lra. }
  apply real_lt_false in C2.
  assert (W1 : 1 <= W) by (apply wexp_le; lra).
  assert (L : ln x = ln W + W).
  { rewrite <- E, ln_mult, ln_exp by (try lra; apply exp_pos). reflexivity. }
  pose proof (ln_pos_of_ge1 W W1) as P. set (l := ln x) in *.
  assert (L1 : W <= l) by lra.
  pose proof (ln_le_half W ltac:(lra)) as HW2. pose proof (ln_le_half l ltac:(lra)) as HL2.
  pose proof (ln_pos_of_ge1 l ltac:(lra)) as PL.
  assert (D : 0 <= ln l - ln W <= 1 / 2).
  { split.
    - destruct L1 as [L1|L1]; [pose proof (ln_increasing W l ltac:(lra) L1); lra|rewrite L1; lra].
    - assert (ln (l / W) <= l / W - 1).
      { pose proof (exp_ge (ln (l / W))) as G. rewrite exp_ln in G by (apply Rdiv_lt_0_compat; lra). lra. }
      assert (DV : ln (l / W) = ln l - ln W) by (unfold Rdiv; rewrite ln_mult, ln_Rinv by (try apply Rinv_0_lt_compat; lra); ring).
      assert (l / W - 1 = ln W / W) by (rewrite L; field; lra).
      assert (ln W / W <= 1 / 2).
      { apply Rmult_le_reg_r with W; [lra|]. unfold Rdiv at 1. rewrite Rmult_assoc, Rinv_l by lra. lra. }
      lra. }
  assert (Q : 0 <= ln l / l <= 1 / 2).
  { split.
    - apply Rmult_le_reg_r with l; [lra|]. unfold Rdiv. rewrite Rmult_assoc, Rinv_l by lra. lra.
    - apply Rmult_le_reg_r with l; [lra|]. unfold Rdiv at 1. rewrite Rmult_assoc, Rinv_l by lra. lra. }
  replace (l + (1 / l - 1) * ln l) with (l - ln l + ln l / l) by (field; lra).
  set (q := ln l / l) in *. split; [lra|].
  destruct (Rle_lt_dec (l - ln l + q) W).
  - apply below_start; try assumption; lra.
  - apply above_start; try assumption; lra.
Qed.

Lemma iter_first (x w : R) : Nat.iter 8 (newton x) w = Nat.iter 7 (newton x) (newton x w).
Proof. reflexivity. Qed.

Lemma lambert_w_right x W : 0 < x -> is_lambert_w x W ->
  W <= lambert_w x <= W + / 10 ^ 20.
Proof.
  intros Hx HW. rewrite lambert_w_iter, iter_first. apply seven_steps; try assumption.
  now apply first_step.
Qed.
