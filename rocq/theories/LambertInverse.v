(** Proofs of the statements of LambertProps.v: the inverse of the Tukey HH function. *)
From Coq Require Import List ZArith QArith Qreals Reals Bool Lra Lia Psatz Permutation.
From Verif Require Import CombineModel FloatModel MeanVarModel MeanVarSpec TukeyModel TukeySpec TukeyProofs TukeyNumbers
  LMomentsModel LMomentsSpec LMomentsProofs LMomentsTukey LambertSpec LambertProofs.
Import ListNotations.
Local Open Scope R_scope.
Local Opaque lambert_w.

Lemma lambert_w_exists x : 0 <= x -> exists w, is_lambert_w x w.
Proof.
  intros Hx. set (f := (fun w => w * exp w - x)).
  assert (C : continuity f).
  { unfold f. apply continuity_minus; [|apply continuity_const; intros ? ?; reflexivity].
    apply continuity_mult; [apply derivable_continuous, derivable_id|].
    apply derivable_continuous, derivable_exp. }
  assert (S0 : f 0 * f x <= 0).
  { unfold f. rewrite Rmult_0_l. pose proof (exp_ge x). pose proof (exp_pos x).
    assert (0 <= x * exp x - x) by nra. nra. }
  destruct (IVT_cor f 0 x C Hx S0) as (z & Hz & E). exists z. split; [lra|].
  unfold f in E. lra.
Qed.

(** ** The Tukey function *)

Lemma right_increasing h u v : 0 <= h -> 0 <= u -> u < v ->
  u * exp (h * (u * u) / 2) < v * exp (h * (v * v) / 2).
Proof.
  intros Hh Hu H. assert (E : exp (h * (u * u) / 2) <= exp (h * (v * v) / 2)).
  { apply exp_le_compat. assert (u * u <= v * v) by nra. nra. }
  pose proof (exp_pos (h * (u * u) / 2)). nra.
Qed.

Lemma tukey_increasing hl hr u v : 0 <= hl -> 0 <= hr -> u < v ->
  tukey_hh hl hr u < tukey_hh hl hr v.
Proof.
  intros Hl Hr H. unfold tukey_hh. destruct (Rlt_dec u 0) as [U|U], (Rlt_dec v 0) as [V|V]; try lra.
  - pose proof (right_increasing hl (- v) (- u) Hl ltac:(lra) ltac:(lra)) as K.
    replace (- u * - u) with (u * u) in K by ring. replace (- v * - v) with (v * v) in K by ring. lra.
  - pose proof (exp_pos (hl * (u * u) / 2)). pose proof (exp_pos (hr * (v * v) / 2)).
    assert (u * exp (hl * (u * u) / 2) < 0) by nra. assert (0 <= v * exp (hr * (v * v) / 2)) by nra. lra.
  - apply right_increasing; lra.
Qed.

(** ** One side *)

Lemma exp_small t b : 0 <= t <= b -> b <= 1 / 2 -> exp t <= 1 + 2 * b.
Proof.
  intros H Hb. pose proof (exp_ge (- t)) as G. pose proof (exp_inv t) as I. pose proof (exp_pos t) as P.
  assert (exp t * (1 - t) <= 1) by nra.
  destruct (Rle_lt_dec (exp t) (1 + 2 * b)) as [L|L]; [exact L|]. nra.
Qed.

Lemma lambert_lower a w : 0 < a <= 1 -> is_lambert_w a w -> a / 2 <= w <= a / (1 + a / 2).
Proof.
  intros Ha [W0 E].
  assert (L : a / 2 <= w).
  { destruct (Rle_lt_dec (a / 2) w) as [L|L]; [exact L|].
    assert (exp w <= 1 + 2 * (1 / 2)) by (apply exp_small; lra). nra. }
  split; [exact L|]. apply Rmult_le_reg_r with (1 + a / 2); [lra|].
  unfold Rdiv at 2. rewrite Rmult_assoc, Rinv_l, Rmult_1_r by lra.
  rewrite <- E at 2. apply Rmult_le_compat_l; [lra|]. pose proof (exp_ge w). lra.
Qed.

Lemma lambert_ge a w : 1 / 10000000 <= a -> is_lambert_w a w -> 1 / 20000000 <= w.
Proof.
  intros Ha [W0 E]. destruct (Rle_lt_dec (1 / 20000000) w) as [L|L]; [exact L|].
  assert (exp w <= 1 + 2 * (1 / 2)) by (apply exp_small; lra). nra.
Qed.

Lemma one_side_large x h : 0 <= x -> 0 <= h -> 1 / 10000000 <= h * (x * x) ->
  0 < one_side x h /\ exists W, is_lambert_w (h * (x * x)) W
  /\ h * (one_side x h * one_side x h) = lambert_w (h * (x * x))
  /\ W <= lambert_w (h * (x * x)) <= W + / 10 ^ 20 /\ 1 / 20000000 <= W /\ 0 < h.
Proof.
  intros Hx Hh H. unfold one_side.
  rewrite (proj2 (real_lt_false _ _) H).
  assert (0 < h) by (destruct Hh as [Hh| <-]; [exact Hh|lra]).
  destruct (lambert_w_exists (h * (x * x)) ltac:(lra)) as [W HW].
  pose proof (lambert_w_right (h * (x * x)) W ltac:(lra) HW) as B.
  pose proof (lambert_ge _ _ H HW) as G.
  assert (P : 0 < lambert_w (h * (x * x)) / h) by (apply Rdiv_lt_0_compat; lra).
  split; [now apply sqrt_lt_R0|]. exists W. repeat split; try assumption; try apply HW; try lra.
  rewrite sqrt_def by lra. generalize (lambert_w (h * (x * x))). intros w. field. lra.
Qed.

(** Squares decide. *)
Lemma le_of_squares a b : 0 <= b -> a * a <= b * b -> a <= b.
Proof. intros Hb H. destruct (Rle_lt_dec a b) as [L|L]; [exact L|]. nra. Qed.

Lemma forward_square h u : (u * exp (h * (u * u) / 2)) * (u * exp (h * (u * u) / 2))
  = u * u * exp (h * (u * u)).
Proof.
  replace (exp (h * (u * u))) with (exp (h * (u * u) / 2) * exp (h * (u * u) / 2)); [ring|].
  rewrite <- exp_plus. f_equal. field.
Qed.

Lemma one_side_right_large x h : 0 <= x -> 0 <= h -> 1 / 10000000 <= h * (x * x) ->
  let u := one_side x h in
  0 < u /\ x <= u * exp (h * (u * u) / 2) <= (1 + / 10 ^ 12) * x.
Proof.
  intros Hx Hh H u. destruct (one_side_large x h Hx Hh H) as (P & W & HW & E & B & G & Hp).
  fold u in P, E. split; [exact P|].
  set (w := lambert_w (h * (x * x))) in *.
  pose proof (exp_pos (h * (u * u) / 2)) as PE.
  pose proof (forward_square h u) as S. rewrite E in S. rewrite E in PE |- *.
  destruct HW as [W0 EW].
  split; apply le_of_squares.
  - apply Rmult_le_pos; lra.
  - rewrite S. apply Rmult_le_reg_l with h; [exact Hp|].
    replace (h * (u * u * exp w)) with (w * exp w) by (rewrite <- E at 1; ring).
    rewrite <- EW. destruct B as [B _]. destruct B as [B|B]; [left; apply wexp_increasing; lra|rewrite B; lra].
  - apply Rmult_le_pos; lra.
  - rewrite S. apply Rmult_le_reg_l with h; [exact Hp|].
    replace (h * (u * u * exp w)) with (w * exp w) by (rewrite <- E at 1; ring).
    replace (h * ((1 + / 10 ^ 12) * x * ((1 + / 10 ^ 12) * x)))
      with ((1 + / 10 ^ 12) * (1 + / 10 ^ 12) * (W * exp W)) by (rewrite EW; ring).
    assert (X : exp w <= exp W * (1 + 2 * / 10 ^ 20)).
    { replace w with (W + (w - W)) by ring. rewrite exp_plus.
      apply Rmult_le_compat_l; [left; apply exp_pos|]. apply exp_small; lra. }
    assert (Y : w <= W * (1 + 2 * / 10 ^ 13)) by lra.
    apply Rle_trans with (W * (1 + 2 * / 10 ^ 13) * (exp W * (1 + 2 * / 10 ^ 20))).
    { apply Rmult_le_compat; try lra. left. apply exp_pos. }
    pose proof (exp_pos W) as PW. assert (0 <= W * exp W) by (apply Rmult_le_pos; lra).
    replace (W * (1 + 2 * / 10 ^ 13) * (exp W * (1 + 2 * / 10 ^ 20)))
      with ((1 + 2 * / 10 ^ 13) * (1 + 2 * / 10 ^ 20) * (W * exp W)) by ring.
    apply Rmult_le_compat_r; [assumption|]. lra.
Qed.

Lemma one_side_right_small x h : 0 <= x -> 0 <= h -> h * (x * x) < 1 / 10000000 ->
  let u := one_side x h in
  u = x /\ x <= u * exp (h * (u * u) / 2) <= (1 + / 10 ^ 7) * x.
Proof.
  intros Hx Hh H u. assert (U : u = x).
  { unfold u, one_side. now rewrite (proj2 (real_lt_true _ _) H). }
  split; [exact U|]. rewrite U.
  assert (0 <= h * (x * x)) by (apply Rmult_le_pos; nra).
  assert (B : exp (h * (x * x) / 2) <= 1 + 2 * (/ 10 ^ 7 / 2)) by (apply exp_small; lra).
  pose proof (exp_ge (h * (x * x) / 2)) as G.
  split; [|rewrite Rmult_comm; apply Rmult_le_compat_r; lra].
  rewrite <- (Rmult_1_r x) at 1. apply Rmult_le_compat_l; lra.
Qed.

Lemma one_side_right x h : 0 <= x -> 0 <= h ->
  let u := one_side x h in
  0 <= u /\ (0 < x -> 0 < u) /\ x <= u * exp (h * (u * u) / 2) <= (1 + / 10 ^ 7) * x.
Proof.
  intros Hx Hh. destruct (Rle_lt_dec (1 / 10000000) (h * (x * x))) as [L|L].
  - destruct (one_side_right_large x h Hx Hh L) as (P & A & B). cbv zeta. repeat split; try lra.
  - destruct (one_side_right_small x h Hx Hh L) as (P & A). cbv zeta. rewrite P in *. lra.
Qed.

(** ** Both sides *)

Lemma tukey_odd hl hr u : tukey_hh hl hr (- u) = - tukey_hh hr hl u.
Proof.
  unfold tukey_hh. destruct (Rlt_dec (- u) 0), (Rlt_dec u 0); try lra;
    replace (- u * - u) with (u * u) by ring; try ring.
  replace u with 0 by lra. ring.
Qed.

Lemma inverse_right_side x hl hr : 0 <= hr -> 0 <= x ->
  let u := inverse_tukey_hh x hl hr in
  0 <= u /\ (0 < x -> 0 < u) /\ x <= tukey_hh hl hr u <= (1 + / 10 ^ 7) * x
  /\ (1 / 10000000 <= hr * (x * x) -> tukey_hh hl hr u <= (1 + / 10 ^ 12) * x).
Proof.
  intros Hh Hx. unfold inverse_tukey_hh. rewrite (proj2 (real_lt_false _ _) Hx). cbv zeta.
  destruct (one_side_right x hr Hx Hh) as (A & B & C). unfold tukey_hh.
  destruct (Rlt_dec (one_side x hr) 0); [lra|]. repeat split; try lra; try assumption.
  intros L. now apply one_side_right_large.
Qed.

Lemma inverse_left_side x hl hr : 0 <= hl -> x < 0 ->
  let u := inverse_tukey_hh x hl hr in
  u < 0 /\ (1 + / 10 ^ 7) * x <= tukey_hh hl hr u <= x
  /\ (1 / 10000000 <= hl * (x * x) -> (1 + / 10 ^ 12) * x <= tukey_hh hl hr u).
Proof.
  intros Hh Hx. unfold inverse_tukey_hh. rewrite (proj2 (real_lt_true _ _) Hx). cbv zeta.
  destruct (inverse_right_side (- x) hr hl Hh ltac:(lra)) as (A & B & C & D).
  unfold inverse_tukey_hh in A, B, C, D. rewrite (proj2 (real_lt_false (- x) 0)) in A, B, C, D by lra.
  rewrite tukey_odd. replace (- x * - x) with (x * x) in D by ring.
  specialize (B ltac:(lra)). repeat split; try lra.
Qed.

Lemma inverse_right x hl hr : 0 <= hl -> 0 <= hr ->
  let u := inverse_tukey_hh x hl hr in
  (0 < u <-> 0 < x) /\ (u < 0 <-> x < 0)
  /\ Rabs x <= Rabs (tukey_hh hl hr u)
  /\ Rabs (tukey_hh hl hr u - x) <= / 10 ^ 7 * Rabs x
  /\ (1 / 10000000 <= (if Rlt_dec x 0 then hl else hr) * (x * x) ->
      Rabs (tukey_hh hl hr u - x) <= / 10 ^ 12 * Rabs x).
Proof.
  intros Hl Hr. destruct (Rlt_dec x 0) as [H|H].
  - destruct (inverse_left_side x hl hr Hl H) as (A & B & C). cbv zeta. cbv zeta in A, B, C.
    set (u := inverse_tukey_hh x hl hr) in *. set (v := tukey_hh hl hr u) in *.
    rewrite (Rabs_left x), (Rabs_left v) by lra. repeat split; try lra.
    + unfold Rabs. destruct (Rcase_abs (v - x)); lra.
    + intros L. specialize (C L). unfold Rabs. destruct (Rcase_abs (v - x)); lra.
  - destruct (inverse_right_side x hl hr Hr ltac:(lra)) as (A & B & C & D). cbv zeta. cbv zeta in A, B, C, D.
    set (u := inverse_tukey_hh x hl hr) in *. set (v := tukey_hh hl hr u) in *.
    rewrite (Rabs_right x), (Rabs_right v) by lra. repeat split; try lra; try assumption.
    + intros U. destruct (Req_dec x 0) as [Z|Z]; [|lra]. exfalso. rewrite Z in C. unfold v, tukey_hh in C.
      destruct (Rlt_dec u 0); [lra|]. pose proof (exp_pos (hr * (u * u) / 2)). nra.
    + unfold Rabs. destruct (Rcase_abs (v - x)); lra.
    + intros L. specialize (D L). unfold Rabs. destruct (Rcase_abs (v - x)); lra.
Qed.

Lemma inverse_order x y hl hr : 0 <= hl -> 0 <= hr ->
  x + / 10 ^ 7 * Rabs x < y -> x < y - / 10 ^ 7 * Rabs y ->
  inverse_tukey_hh x hl hr < inverse_tukey_hh y hl hr.
Proof.
  intros Hl Hr H1 H2. set (u := inverse_tukey_hh x hl hr). set (v := inverse_tukey_hh y hl hr).
  assert (T : tukey_hh hl hr u < tukey_hh hl hr v).
  { destruct (Rlt_dec x 0) as [X|X], (Rlt_dec y 0) as [Y|Y].
    - destruct (inverse_left_side x hl hr Hl X) as (_ & A & _).
      destruct (inverse_left_side y hl hr Hl Y) as (_ & B & _).
      cbv zeta in A, B. fold u in A. fold v in B. rewrite (Rabs_left y) in H2 by lra. lra.
    - destruct (inverse_left_side x hl hr Hl X) as (_ & A & _).
      destruct (inverse_right_side y hl hr Hr ltac:(lra)) as (_ & _ & B & _).
      cbv zeta in A, B. fold u in A. fold v in B. lra.
    - pose proof (Rabs_pos x). lra.
    - destruct (inverse_right_side x hl hr Hr ltac:(lra)) as (_ & _ & A & _).
      destruct (inverse_right_side y hl hr Hr ltac:(lra)) as (_ & _ & B & _).
      cbv zeta in A, B. fold u in A. fold v in B. rewrite (Rabs_right x) in H1 by lra. lra. }
  destruct (Rlt_le_dec u v) as [L|L]; [exact L|]. exfalso. destruct L as [L|L].
  - pose proof (tukey_increasing hl hr v u Hl Hr L). lra.
  - rewrite L in T. lra.
Qed.

(** ** What does not hold *)

Lemma not_monotone : exists h x y, 0 < h /\ 0 < x < y
  /\ inverse_tukey_hh y h h < inverse_tukey_hh x h h.
Proof.
  exists (1 / 10000000), (1 - / 10 ^ 8), 1.
  split; [lra|]. split; [lra|]. unfold inverse_tukey_hh.
  rewrite !(proj2 (real_lt_false _ 0)) by lra.
  destruct (one_side_large 1 (1 / 10000000) ltac:(lra) ltac:(lra) ltac:(lra)) as (P & W & HW & E & B & _).
  destruct (one_side_right_small (1 - / 10 ^ 8) (1 / 10000000) ltac:(lra) ltac:(lra) ltac:(lra)) as (U & _).
  cbv zeta in U. rewrite U. replace (1 / 10000000 * (1 * 1)) with (1 / 10000000) in HW, E, B by ring.
  pose proof (lambert_lower (1 / 10000000) W ltac:(lra) HW) as [_ L].
  set (u := one_side 1 (1 / 10000000)) in *.
  assert (K : 1 / 10000000 / (1 + 1 / 10000000 / 2) <= 1 / 10000000 * (1 - 49 / 1000000000)).
  { apply Rmult_le_reg_r with (1 + 1 / 10000000 / 2); [lra|].
    unfold Rdiv at 1. rewrite Rmult_assoc, Rinv_l by lra. lra. }
  destruct (Rlt_le_dec u (1 - / 10 ^ 8)) as [R|R]; [exact R|]. exfalso.
  assert ((1 - / 10 ^ 8) * (1 - / 10 ^ 8) <= u * u) by (apply Rmult_le_compat; lra). lra.
Qed.

Lemma not_documented : exists h x, 0 < h /\ 0 < x
  /\ 3 / 2 * x <= documented_tukey_hh h h (inverse_tukey_hh x h h).
Proof.
  exists (exp 1), 1. pose proof exp_1_bounds as B. split; [lra|]. split; [lra|].
  unfold inverse_tukey_hh. rewrite (proj2 (real_lt_false 1 0)) by lra.
  destruct (one_side_large 1 (exp 1) ltac:(lra) ltac:(lra) ltac:(lra)) as (P & W & HW & E & L & _).
  replace (exp 1 * (1 * 1)) with (exp 1) in HW, E, L by ring.
  assert (W1 : 1 <= W). { destruct HW as [W0 EW]. apply wexp_le; lra. }
  destruct (one_side_right_large 1 (exp 1) ltac:(lra) ltac:(lra) ltac:(lra)) as (_ & A & _).
  cbv zeta in A.
  set (u := one_side 1 (exp 1)) in *. unfold documented_tukey_hh. destruct (Rlt_dec u 0); [lra|].
  replace (exp (exp 1 * (u * u))) with (exp (exp 1 * (u * u) / 2) * exp (exp 1 * (u * u) / 2))
    by (rewrite <- exp_plus; f_equal; field).
  assert (3 / 2 <= exp (exp 1 * (u * u) / 2)).
  { rewrite E. pose proof (exp_ge (lambert_w (exp 1) / 2)). lra. }
  nra.
Qed.

Lemma small_error : exists h x u, 0 < h /\ h * (x * x) < 1 / 10000000
  /\ tukey_hh h h u = x /\ / 10 ^ 8 <= inverse_tukey_hh x h h - u.
Proof.
  set (h := 5 / 100000000).
  exists h, (exp (h / 2)), 1. assert (Hh : 0 < h) by (unfold h; lra).
  pose proof (exp_ge (h / 2)) as G.
  assert (B : exp (h / 2) <= 1 + 2 * (1 / 10000)) by (apply exp_small; unfold h; lra).
  assert (S : h * (exp (h / 2) * exp (h / 2)) < 1 / 10000000).
  { assert (exp (h / 2) * exp (h / 2) <= (1 + 2 * (1 / 10000)) * (1 + 2 * (1 / 10000))) by (apply Rmult_le_compat; lra).
    unfold h in *. lra. }
  repeat split; try assumption.
  - unfold tukey_hh. destruct (Rlt_dec 1 0); [lra|]. replace (h * (1 * 1) / 2) with (h / 2) by field. ring.
  - unfold inverse_tukey_hh. rewrite (proj2 (real_lt_false _ 0)) by lra.
    destruct (one_side_right_small (exp (h / 2)) h ltac:(lra) ltac:(lra) S) as (U & _). cbv zeta in U.
    rewrite U. unfold h in *. lra.
Qed.

(** ** tft.scale_to_gaussian *)

Section Parameters.
Variables skewness_error kurtosis_error : R -> R -> R -> R -> R.


(** An L-kurtosis above that of the Gaussian distribution gives a tail. *)
Lemma heavy_tail (s : sched (sched (list Q))) p :
  gaussian_l_kurtosis < Q2R (l_kurtosis_within (batches_of s)) ->
  tukey_parameters skewness_error kurtosis_error s = Some p ->
  0 < left_h p \/ 0 < right_h p.
Proof.
  intros H E. destruct (tukey_parameters_of skewness_error kurtosis_error s) as (m & D & E').
  rewrite E in E'. clear E. unfold extract_parameters in E'.
  pose proof (kurtosis_used (batches_of s) m D) as K.
  set (vk := negb (Qle_bool (l2 m) 0) && negb (Qle_bool (count_l4 m) 0)) in *.
  set (sk := (if vk then l3 m / l2 m else 0)%Q) in *.
  set (ku := (if vk then l4 m / l2 m else 0)%Q) in *.
  rewrite <- (Q2R_eq _ _ K) in H. pose proof threshold_below_gaussian as T. pose proof kurtosis_small as KS.
  unfold hh_params in E'.
  destruct (params_real 11 (skewness_error (Rabs (Q2R sk)) (Rmin (Q2R ku) (1 - 1 / 100000)))
     (kurtosis_error (Rabs (Q2R sk)) (Rmin (Q2R ku) (1 - 1 / 100000))) (Q2R sk) (Q2R ku)
     ltac:(lia) ltac:(lra) ltac:(lra)) as (light & heavy & P & _ & _ & _ & I).
  rewrite P in E'.
  assert (0 < heavy).
  { apply Rlt_le_trans with (2 := I). apply initial_positive; [|eapply Rle_trans; [apply Rmin_r|lra]].
    apply Rmin_glb_lt; lra. }
  destruct (real_lt (Q2R sk) 0); injection E' as ->; [left|right]; assumption.
Qed.

Lemma gaussian_right (s t : sched (sched (list Q))) p :
  Permutation (concat (batches_of s)) (concat (batches_of t)) -> concat (batches_of s) <> [] ->
  gaussian_l_kurtosis < Q2R (l_kurtosis_within (batches_of s)) ->
  tukey_parameters skewness_error kurtosis_error s = Some p ->
  forall x, exists u, scale_to_gaussian skewness_error kurtosis_error s t x = Some u
  /\ (0 < u <-> loc p < Q2R x) /\ (u < 0 <-> Q2R x < loc p)
  /\ Rabs (loc p + scale p * tukey_hh (left_h p) (right_h p) u - Q2R x)
     <= / 10 ^ 7 * Rabs (Q2R x - loc p).
Proof.
  intros HP Hne Hk Hp x. pose proof (heavy_tail s p Hk Hp) as Hh.
  assert (Hs : settled (Q2R (l_kurtosis_within (batches_of s)))) by (right; lra).
  destruct (parameters_right skewness_error kurtosis_error s Hne Hs) as (p' & E & L & R & S & _).
  rewrite Hp in E. injection E as <-.
  assert (Ht : concat (batches_of t) <> []).
  { intros Z. rewrite Z in HP. apply Permutation_sym, Permutation_nil in HP. now apply Hne. }
  destruct (mean_and_var_finite t Ht) as (m & v & Em & _).
  unfold scale_to_gaussian. rewrite Hp, Em. eexists. split; [reflexivity|].
  unfold gaussian_value.
  replace (real_lt 0 (left_h p) || real_lt 0 (right_h p))%bool with true.
  2:{ destruct Hh as [Hh|Hh]; rewrite (proj2 (real_lt_true _ _) Hh); [reflexivity|now rewrite orb_true_r]. }
  destruct (Req_EM_T (scale p) 0); [lra|].
  set (y := (Q2R x - loc p) / scale p).
  assert (Ey : Q2R x - loc p = scale p * y) by (unfold y; field; lra).
  destruct (inverse_right y (left_h p) (right_h p) (proj1 L) (proj1 R)) as (A & B & _ & C & _).
  cbv zeta in A, B, C. set (u := inverse_tukey_hh y (left_h p) (right_h p)) in *.
  assert (P1 : 0 < y <-> loc p < Q2R x) by (split; intros; nra).
  assert (P2 : y < 0 <-> Q2R x < loc p) by (split; intros; nra).
  repeat split; try tauto.
  replace (loc p + scale p * tukey_hh (left_h p) (right_h p) u - Q2R x)
    with (scale p * (tukey_hh (left_h p) (right_h p) u - y)) by lra.
  rewrite Ey, !Rabs_mult, (Rabs_right (scale p)) by lra.
  replace (/ 10 ^ 7 * (scale p * Rabs y)) with (scale p * (/ 10 ^ 7 * Rabs y)) by ring.
  apply Rmult_le_compat_l; lra.
Qed.
End Parameters.

Lemma gaussian_all skewness_error kurtosis_error (s t : sched (sched (list Q))) :
  Permutation (concat (batches_of s)) (concat (batches_of t)) -> concat (batches_of s) <> [] ->
  gaussian_l_kurtosis < Q2R (l_kurtosis_within (batches_of s)) ->
  exists p, tukey_parameters skewness_error kurtosis_error s = Some p /\ 0 < scale p
  /\ forall x, exists u, scale_to_gaussian skewness_error kurtosis_error s t x = Some u
  /\ (0 < u <-> loc p < Q2R x) /\ (u < 0 <-> Q2R x < loc p)
  /\ Rabs (loc p + scale p * tukey_hh (left_h p) (right_h p) u - Q2R x)
     <= / 10 ^ 7 * Rabs (Q2R x - loc p).
Proof.
  intros HP Hne Hk.
  destruct (parameters_right skewness_error kurtosis_error s Hne ltac:(right; lra)) as (p & E & _ & _ & P & _).
  exists p. split; [exact E|]. split; [exact P|]. now apply gaussian_right.
Qed.

(** Data for an example. *)
Lemma lambert_at_e : is_lambert_w (exp 1) 1.
Proof. split; [lra|ring]. Qed.
