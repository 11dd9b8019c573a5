From Coq Require Import List ZArith Reals Bool Lra Lia.
From Flocq Require Import Core BinarySingleNaN Plus_error Relative.
From Verif Require Import IeeeModel IeeeSpec IeeeProofs.
Import ListNotations.
Local Open Scope R_scope.

Local Existing Instance prec32.
Local Existing Instance emax32.
Local Existing Instance prec64.
Local Existing Instance emax64.
Local Notation bp := (bpow radix2).
Local Notation rnd := single.

Lemma u24 : bp (-24) = / 16777216.
Proof. reflexivity. Qed.

Lemma sub_rel (x y : f32) : exists eps, Rabs eps <= / 16777216 /\ rnd (B2R x - B2R y) = (B2R x - B2R y) * (1 + eps).
Proof.
  destruct (FLT_plus_error_N_ex radix2 (-149) 24 (fun z => negb (Z.even z)) (B2R x) (B2R (Bopp y)))
    as (eps & E & Q).
  - apply (generic_format_B2R 24 128).
  - apply (generic_format_B2R 24 128).
  - exists eps. rewrite B2R_Bopp in Q. split; [|exact Q].
    eapply Rle_trans; [exact E|]. unfold u_ro. simpl. lra.
Qed.

Section quotient.
  Variables lo hi x : f32.
  Hypothesis Flo : is_finite lo = true.
  Hypothesis Fhi : is_finite hi = true.
  Hypothesis Fx : is_finite x = true.
  Hypothesis Blo : Rabs (B2R lo) <= bp 126.
  Hypothesis Bhi : Rabs (B2R hi) <= bp 126.
  Hypothesis LX : B2R lo <= B2R x.
  Hypothesis XH : B2R x <= B2R hi.
  Hypothesis LH : B2R lo < B2R hi.

  Lemma range_small : B2R hi - B2R lo <= bp 127.
  Proof.
    apply Rabs_le_inv in Blo. apply Rabs_le_inv in Bhi.
    change (bp 127) with (bp (1 + 126)). rewrite bpow_plus. change (bp 1) with 2. lra.
  Qed.

  Lemma rnd_bounded a : Rabs a <= bp 127 -> Rabs (rnd a) < bp 128.
  Proof.
    intro H. eapply Rle_lt_trans; [apply (rnd_abs_bpow a 127); [lia | exact H]|]. apply bpow_lt. lia.
  Qed.

  Lemma num_ok : is_finite (sub32 x lo) = true /\ B2R (sub32 x lo) = rnd (B2R x - B2R lo).
  Proof.
    apply sub_ok; try assumption. apply rnd_bounded. pose proof range_small. rewrite Rabs_pos_eq; lra.
  Qed.

  Lemma den_ok : is_finite (sub32 hi lo) = true /\ B2R (sub32 hi lo) = rnd (B2R hi - B2R lo).
  Proof.
    apply sub_ok; try assumption. apply rnd_bounded. pose proof range_small. rewrite Rabs_pos_eq; lra.
  Qed.

  Lemma ratio_range : 0 <= rnd (B2R x - B2R lo) / rnd (B2R hi - B2R lo) <= 1.
  Proof.
    pose proof (rnd_sub_pos hi lo LH) as D.
    assert (0 <= rnd (B2R x - B2R lo)) as N by (rewrite <- rnd_0; apply rnd_le; lra).
    assert (rnd (B2R x - B2R lo) <= rnd (B2R hi - B2R lo)) as L by (apply rnd_le; lra).
    split.
    - apply Rmult_le_pos; [exact N | left; apply Rinv_0_lt_compat; exact D].
    - apply (Rmult_le_reg_r (rnd (B2R hi - B2R lo))); [exact D|]. unfold Rdiv.
      rewrite Rmult_assoc, Rinv_l, Rmult_1_r, Rmult_1_l; [exact L | lra].
  Qed.

  Lemma quotient_ok :
    is_finite (div32 (sub32 x lo) (sub32 hi lo)) = true
    /\ B2R (div32 (sub32 x lo) (sub32 hi lo)) = rnd (rnd (B2R x - B2R lo) / rnd (B2R hi - B2R lo))
    /\ 0 <= B2R (div32 (sub32 x lo) (sub32 hi lo)) <= 1.
  Proof.
    destruct num_ok as [N1 N2]. destruct den_ok as [D1 D2].
    pose proof ratio_range as [R0 R1]. pose proof (rnd_sub_pos hi lo LH) as D.
    destruct (div_ok (sub32 x lo) (sub32 hi lo) N1) as [A B].
    - rewrite D2. lra.
    - rewrite N2, D2. eapply Rle_lt_trans; [apply (rnd_abs_bpow _ 0); [lia|]|apply bpow_lt; lia].
      rewrite Rabs_pos_eq by exact R0. exact R1.
    - split; [exact A|]. rewrite N2, D2 in B. split; [exact B|]. rewrite B. split.
      + rewrite <- rnd_0. apply rnd_le. exact R0.
      + rewrite <- rnd_1. apply rnd_le. exact R1.
  Qed.

  (** The exact ratio. *)
  Definition ratio : R := (B2R x - B2R lo) / (B2R hi - B2R lo).

  Lemma ratio_01 : 0 <= ratio <= 1.
  Proof.
    unfold ratio. split.
    - apply Rmult_le_pos; [lra | left; apply Rinv_0_lt_compat; lra].
    - apply (Rmult_le_reg_r (B2R hi - B2R lo)); [lra|]. unfold Rdiv.
      rewrite Rmult_assoc, Rinv_l, Rmult_1_r, Rmult_1_l; lra.
  Qed.

  Lemma quotient_error : Rabs (B2R (div32 (sub32 x lo) (sub32 hi lo)) - ratio) <= 5 * / 16777216.
  Proof.
    destruct quotient_ok as (_ & -> & _).
    destruct (sub_rel x lo) as (e1 & E1 & Q1). destruct (sub_rel hi lo) as (e2 & E2 & Q2).
    pose proof ratio_range as RR. rewrite Q1, Q2 in *.
    set (t := (B2R x - B2R lo) * (1 + e1) / ((B2R hi - B2R lo) * (1 + e2))) in *.
    apply Rabs_le_inv in E1. apply Rabs_le_inv in E2.
    assert (t = ratio * (1 + e1) / (1 + e2)) as T by (unfold t, ratio; field; lra).
    pose proof ratio_01 as P.
    assert (t * (1 + e2) = ratio * (1 + e1)) as T2 by (rewrite T; field; lra).
    assert (t - ratio = ratio * e1 - t * e2) as T3 by (ring_simplify in T2; lra).
    assert (Rabs (t - ratio) <= 2 * / 16777216) as A.
    { rewrite T3. unfold Rminus. eapply Rle_trans; [apply Rabs_triang|]. rewrite Rabs_Ropp, !Rabs_mult.
      assert (Rabs ratio <= 1) by (rewrite Rabs_pos_eq; lra).
      assert (Rabs t <= 1) by (rewrite Rabs_pos_eq; lra).
      assert (Rabs e1 <= / 16777216) by (apply Rabs_le; lra).
      assert (Rabs e2 <= / 16777216) by (apply Rabs_le; lra).
      assert (Rabs ratio * Rabs e1 <= 1 * / 16777216) by (apply Rmult_le_compat; auto using Rabs_pos).
      assert (Rabs t * Rabs e2 <= 1 * / 16777216) by (apply Rmult_le_compat; auto using Rabs_pos).
      lra. }
    pose proof (rnd_err t) as B. rewrite (Rabs_pos_eq t) in B by lra. rewrite u24 in B.
    assert (bp (-150) <= bp (-24)) as W by (apply bpow_le; lia). rewrite u24 in W.
    replace (rnd t - ratio) with ((rnd t - t) + (t - ratio)) by ring.
    eapply Rle_trans; [apply Rabs_triang|]. lra.
  Qed.
End quotient.

Lemma quotient_mono (lo hi x y : f32) :
  is_finite lo = true -> is_finite hi = true -> is_finite x = true -> is_finite y = true ->
  Rabs (B2R lo) <= bp 126 -> Rabs (B2R hi) <= bp 126 ->
  B2R lo <= B2R x -> B2R x <= B2R y -> B2R y <= B2R hi -> B2R lo < B2R hi ->
  B2R (div32 (sub32 x lo) (sub32 hi lo)) <= B2R (div32 (sub32 y lo) (sub32 hi lo)).
Proof.
  intros Flo Fhi Fx Fy Blo Bhi H1 H2 H3 H4.
  destruct (quotient_ok lo hi x) as (_ & -> & _); try assumption; [lra|].
  destruct (quotient_ok lo hi y) as (_ & -> & _); try assumption; [lra|].
  apply rnd_le. apply Rmult_le_compat_r.
  - left. apply Rinv_0_lt_compat. apply rnd_sub_pos. exact H4.
  - apply rnd_le. lra.
Qed.

Lemma quotient_lo (lo hi x : f32) :
  is_finite lo = true -> is_finite hi = true -> is_finite x = true ->
  Rabs (B2R lo) <= bp 126 -> Rabs (B2R hi) <= bp 126 -> B2R lo < B2R hi -> B2R x = B2R lo ->
  B2R (div32 (sub32 x lo) (sub32 hi lo)) = 0.
Proof.
  intros Flo Fhi Fx Blo Bhi H E. destruct (quotient_ok lo hi x) as (_ & -> & _); try assumption; try lra.
  rewrite E. replace (B2R lo - B2R lo) with 0 by ring. rewrite rnd_0. unfold Rdiv.
  rewrite Rmult_0_l. apply rnd_0.
Qed.

Lemma quotient_hi (lo hi x : f32) :
  is_finite lo = true -> is_finite hi = true -> is_finite x = true ->
  Rabs (B2R lo) <= bp 126 -> Rabs (B2R hi) <= bp 126 -> B2R lo < B2R hi -> B2R x = B2R hi ->
  B2R (div32 (sub32 x lo) (sub32 hi lo)) = 1.
Proof.
  intros Flo Fhi Fx Blo Bhi H E. destruct (quotient_ok lo hi x) as (_ & -> & _); try assumption; try lra.
  rewrite E. pose proof (rnd_sub_pos hi lo H). unfold Rdiv. rewrite Rinv_r by lra. apply rnd_1.
Qed.

(** ** The output range *)

Lemma sub64_ok (x y : f64) : bound x -> bound y ->
  is_finite (sub64 x y) = true /\ B2R (sub64 x y) = rnd64 (B2R x - B2R y)
  /\ Rabs (B2R (sub64 x y)) <= bp 101.
Proof.
  intros [Fx Ax] [Fy Ay]. rewrite pow100 in Ax, Ay.
  assert (Rabs (B2R x - B2R y) <= bp 101) as A.
  { apply Rabs_le. apply Rabs_le_inv in Ax. apply Rabs_le_inv in Ay.
    change (bp 101) with (bp (1 + 100)). rewrite bpow_plus. change (bp 1) with 2. lra. }
  assert (Rabs (rnd64 (B2R x - B2R y)) <= bp 101) as A'.
  { unfold rnd64. apply abs_round_le_generic; auto with typeclass_instances.
    - apply (fexp_correct 53 1024 prec64).
    - apply (generic_format_FLT_bpow radix2 (-1074) 53). lia. }
  pose proof (Bminus_correct 53 1024 prec64 emax64 mode_NE x y Fx Fy) as C. cbv beta in C.
  change (round radix2 (SpecFloat.fexp 53 1024) (round_mode mode_NE) (B2R x - B2R y))
    with (rnd64 (B2R x - B2R y)) in C.
  rewrite Rlt_bool_true in C.
  2:{ eapply Rle_lt_trans; [exact A' | apply bpow_lt; lia]. }
  destruct C as (E & F & _). split; [exact F|]. split; [exact E|].
  change (Rabs (B2R (Bminus mode_NE x y)) <= bp 101). rewrite E. exact A'.
Qed.

Lemma rnd64_err a : Rabs (rnd64 a - a) <= / 16777216 * Rabs a + bp (-150).
Proof.
  destruct (error_N_FLT radix2 (-1074) 53 (eq_refl : (0 < 53)%Z) (fun z => negb (Z.even z)) a)
    as (eps & eta & E & T & _ & Q).
  unfold rnd64. change (round radix2 (SpecFloat.fexp 53 1024) ZnearestE a)
    with (round radix2 (FLT_exp (-1074) 53) (Znearest (fun z => negb (Z.even z))) a). rewrite Q.
  replace (a * (1 + eps) + eta - a) with (a * eps + eta) by ring.
  eapply Rle_trans; [apply Rabs_triang|]. rewrite Rabs_mult.
  apply Rplus_le_compat.
  - rewrite Rmult_comm. apply Rmult_le_compat_r; [apply Rabs_pos|].
    eapply Rle_trans; [exact E|]. unfold u_ro. change (/ 2 * bp (- (53) + 1)) with (/ bp 1 * bp (-52)).
    rewrite <- bpow_opp, <- bpow_plus. rewrite <- u24. apply bpow_le. lia.
  - eapply Rle_trans; [exact T|]. change (/ 2 * bp (-1074)) with (/ bp 1 * bp (-1074)).
    rewrite <- bpow_opp, <- bpow_plus. apply bpow_le. lia.
Qed.

Section output.
  Variables omin omax : f64.
  Hypothesis Bmin : bound omin.
  Hypothesis Bmax : bound omax.
  Hypothesis Omm : B2R omin < B2R omax.

  Definition width : f32 := cast_f64 (sub64 omax omin).
  Definition offset : f32 := cast_f64 omin.

  Lemma width_ok : is_finite width = true /\ B2R width = rnd (rnd64 (B2R omax - B2R omin))
    /\ 0 <= B2R width <= bp 101.
  Proof.
    destruct (sub64_ok omax omin Bmax Bmin) as (F & E & A).
    destruct (cast_f64_ok (sub64 omax omin) 101 F) as [G H]; [lia | exact A|].
    unfold width. split; [exact G|]. rewrite H, E. split; [reflexivity|]. split.
    - rewrite <- rnd_0. apply rnd_le. unfold rnd64.
      rewrite <- (round_0 radix2 (SpecFloat.fexp 53 1024) ZnearestE).
      apply round_le; auto with typeclass_instances; [apply (fexp_correct 53 1024 prec64) | lra].
    - eapply Rle_trans; [apply Rle_abs|]. apply rnd_abs_bpow; [lia|]. rewrite <- E. exact A.
  Qed.

  Lemma offset_ok : is_finite offset = true /\ B2R offset = rnd (B2R omin) /\ Rabs (B2R offset) <= bp 100.
  Proof.
    destruct Bmin as [F A]. rewrite pow100 in A.
    destruct (cast_f64_ok omin 100 F) as [G H]; [lia | exact A|].
    unfold offset. split; [exact G|]. split; [exact H|]. rewrite H. apply rnd_abs_bpow; [lia | exact A].
  Qed.

  Definition place (q : f32) : f32 := add32 (mul32 q width) offset.

  Section one.
    Variable q : f32.
    Hypothesis Fq : is_finite q = true.
    Hypothesis Q01 : 0 <= B2R q <= 1.

    Lemma product_small : 0 <= B2R q * B2R width <= bp 101.
    Proof.
      destruct width_ok as (_ & _ & W). split; [apply Rmult_le_pos; lra|].
      rewrite <- (Rmult_1_l (bp 101)). apply Rmult_le_compat; lra.
    Qed.

    Lemma product_ok : is_finite (mul32 q width) = true /\ B2R (mul32 q width) = rnd (B2R q * B2R width)
      /\ 0 <= B2R (mul32 q width) <= bp 101.
    Proof.
      destruct width_ok as (W & _). pose proof product_small as P.
      assert (Rabs (rnd (B2R q * B2R width)) <= bp 101) as A
        by (apply rnd_abs_bpow; [lia | rewrite Rabs_pos_eq; lra]).
      destruct (mul_ok q width Fq W) as [B C].
      - eapply Rle_lt_trans; [exact A | apply bpow_lt; lia].
      - split; [exact B|]. split; [exact C|]. rewrite C. split.
        + rewrite <- rnd_0. apply rnd_le. lra.
        + eapply Rle_trans; [apply Rle_abs | exact A].
    Qed.

    Lemma place_ok : is_finite (place q) = true /\ B2R (place q) = rnd (rnd (B2R q * B2R width) + B2R offset).
    Proof.
      destruct product_ok as (F & E & P). destruct offset_ok as (G & _ & O).
      destruct (add_ok (mul32 q width) offset F G) as [A B].
      - eapply Rle_lt_trans; [apply (rnd_abs_bpow _ 102); [lia|] | apply bpow_lt; lia].
        apply Rabs_le_inv in O. apply Rabs_le.
        assert (bp 102 = 2 * bp 101) as -> by (change (bp 102) with (bp (1 + 101)); rewrite bpow_plus; reflexivity).
        assert (bp 100 <= bp 101) by (apply bpow_le; lia). lra.
      - split; [exact A|]. unfold place. rewrite B, E. reflexivity.
    Qed.

    Lemma place_lower : B2R offset <= B2R (place q).
    Proof.
      destruct place_ok as [_ ->]. destruct product_ok as (_ & E & P). rewrite E in P.
      rewrite <- (rnd_B2R offset) at 1. apply rnd_le. lra.
    Qed.

    Lemma place_0 : B2R q = 0 -> B2R (place q) = B2R offset.
    Proof.
      intro E. destruct place_ok as [_ ->]. rewrite E, Rmult_0_l, rnd_0, Rplus_0_l. apply rnd_B2R.
    Qed.

    Lemma place_error p : 0 <= p <= 1 -> Rabs (B2R q - p) <= 5 * / 16777216 ->
      Rabs (B2R (place q) - (B2R omin + p * (B2R omax - B2R omin)))
      <= Rmax (Rabs (B2R omin)) (Rabs (B2R omax)) * / 524288 + bp (-147).
    Proof.
      intros P QP. set (M := Rmax (Rabs (B2R omin)) (Rabs (B2R omax))).
      assert (Rabs (B2R omin) <= M) as M1 by apply Rmax_l. assert (Rabs (B2R omax) <= M) as M2 by apply Rmax_r.
      apply Rabs_le_inv in M1. apply Rabs_le_inv in M2.
      set (C := B2R omax - B2R omin) in *. assert (0 <= C <= 2 * M) as HC by (unfold C; lra).
      set (t := bp (-150)). assert (bp (-147) = 8 * t) as ->.
      { unfold t. change 8 with (bp 3). rewrite <- bpow_plus. reflexivity. }
      assert (0 < t) as Ht by (unfold t; apply bpow_gt_0).
      assert (0 <= M) as HM by lra.
      (* the width *)
      destruct width_ok as (_ & W & _). fold C in W.
      pose proof (rnd64_err C) as E1. fold t in E1. rewrite (Rabs_pos_eq C) in E1 by lra.
      apply Rabs_le_inv in E1.
      pose proof (rnd_err (rnd64 C)) as E2. rewrite u24 in E2. fold t in E2. rewrite <- W in E2.
      assert (Rabs (rnd64 C) <= C + (/ 16777216 * C + t)) as E3 by (apply Rabs_le; lra).
      assert (Rabs (B2R width - rnd64 C) <= / 16777216 * (C + (/ 16777216 * C + t)) + t) as E4 by lra.
      apply Rabs_le_inv in E4.
      assert (- (6 * / 16777216 * M + 3 * t) <= B2R width - C <= 6 * / 16777216 * M + 3 * t) as E5 by lra.
      clear E1 E2 E3 E4.
      (* the product *)
      set (w := B2R width) in *. set (a := B2R q) in *.
      assert (Rabs (a * w - p * C) <= 16 * / 16777216 * M + 3 * t) as E6.
      { replace (a * w - p * C) with ((a - p) * C + a * (w - C)) by ring.
        eapply Rle_trans; [apply Rabs_triang|]. rewrite !Rabs_mult.
        assert (Rabs (a - p) * Rabs C <= (5 * / 16777216) * (2 * M)).
        { apply Rmult_le_compat; try apply Rabs_pos; [exact QP | rewrite Rabs_pos_eq; lra]. }
        assert (Rabs a * Rabs (w - C) <= 1 * (6 * / 16777216 * M + 3 * t)).
        { apply Rmult_le_compat; try apply Rabs_pos; [rewrite Rabs_pos_eq; lra | apply Rabs_le; lra]. }
        lra. }
      pose proof product_small as PS. fold w a in PS.
      apply Rabs_le_inv in E6.
      assert (0 <= p * C) as PC0 by (apply Rmult_le_pos; lra).
      assert (p * C <= C) as PC1.
      { rewrite <- (Rmult_1_l C) at 2. apply Rmult_le_compat_r; lra. }
      pose proof (rnd_err (a * w)) as E7. rewrite u24 in E7. fold t in E7. rewrite (Rabs_pos_eq (a * w)) in E7 by (exact (proj1 PS)).
      apply Rabs_le_inv in E7.
      assert (- (3 * / 16777216 * M + 2 * t) <= rnd (a * w) - a * w <= 3 * / 16777216 * M + 2 * t) as E8 by lra.
      (* the offset *)
      destruct offset_ok as (_ & O & _).
      pose proof (rnd_err (B2R omin)) as E9. rewrite u24 in E9. fold t in E9. rewrite <- O in E9.
      assert (Rabs (B2R omin) <= M) as M3 by (apply Rabs_le; lra).
      assert (Rabs (B2R offset - B2R omin) <= / 16777216 * M + t) as E10 by lra.
      apply Rabs_le_inv in E10.
      (* the sum *)
      destruct place_ok as [_ ->]. fold w a.
      set (s := rnd (a * w) + B2R offset) in *.
      assert (- (20 * / 16777216 * M + 6 * t) <= s - (B2R omin + p * C) <= 20 * / 16777216 * M + 6 * t) as E11
        by (unfold s; lra).
      assert (- M <= B2R omin + p * C <= M) as E12 by (unfold C in PC0, PC1 |- *; lra).
      assert (Rabs s <= M + (20 * / 16777216 * M + 6 * t)) as E13 by (apply Rabs_le; lra).
      pose proof (rnd_err s) as E14. rewrite u24 in E14. fold t in E14.
      assert (Rabs (rnd s - s) <= / 16777216 * (M + (20 * / 16777216 * M + 6 * t)) + t) as E15 by lra.
      apply Rabs_le_inv in E15. apply Rabs_le. lra.
    Qed.
  End one.

  Lemma place_mono q r : is_finite q = true -> is_finite r = true -> 0 <= B2R q -> B2R q <= B2R r -> B2R r <= 1 ->
    B2R (place q) <= B2R (place r).
  Proof.
    intros Fq Fr Q QR R1. destruct (place_ok q Fq) as [_ ->]; [lra|]. destruct (place_ok r Fr) as [_ ->]; [lra|].
    apply rnd_le. apply Rplus_le_compat_r. apply rnd_le. apply Rmult_le_compat_r; [|exact QR].
    apply width_ok.
  Qed.

  (** With the bounds 0 and 1 nothing happens. *)
  Lemma place_unit q : is_finite q = true -> 0 <= B2R q <= 1 -> B2R omin = 0 -> B2R omax = 1 ->
    B2R (place q) = B2R q.
  Proof.
    intros Fq Q A B. destruct (place_ok q Fq Q) as [_ ->]. destruct width_ok as (_ & -> & _).
    destruct offset_ok as (_ & -> & _). rewrite A, B, Rminus_0_r, rnd_0, Rplus_0_r.
    assert (rnd64 1 = 1) as ->.
    { unfold rnd64. apply round_generic; auto with typeclass_instances.
      change 1 with (bp 0). apply (generic_format_FLT_bpow radix2 (-1074) 53). lia. }
    rewrite rnd_1, Rmult_1_r, rnd_rnd. apply rnd_B2R.
  Qed.
End output.
