From Coq Require Import List ZArith Reals Bool Lra Lia.
From Flocq Require Import Core BinarySingleNaN Plus_error Relative.
From Verif Require Import IeeeModel IeeeSpec IeeeProofs IeeeScaleProofs.
Import ListNotations.
Local Open Scope R_scope.

Local Existing Instance prec32.
Local Existing Instance emax32.
Local Existing Instance prec64.
Local Existing Instance emax64.
Local Notation bp := (bpow radix2).
Local Notation rnd := single.

Lemma concat_to_f32 batches : concat (map (map to_f32) batches) = map to_f32 (concat batches).
Proof. rewrite concat_map. reflexivity. Qed.

Lemma column_ok batches lo hi :
  (forall v, In v (concat batches) -> ordinary v) ->
  least lo (concat batches) -> greatest hi (concat batches) ->
  exists mn mx, min_and_max32 (map (map to_f32) batches) = (mn, mx)
    /\ is_finite mn = true /\ B2R mn = rnd (val lo) /\ Rabs (B2R mn) <= bp 126
    /\ is_finite mx = true /\ B2R mx = rnd (val hi) /\ Rabs (B2R mx) <= bp 126.
Proof.
  intros O [L1 L2] [H1 H2].
  destruct (min_and_max_ok (map (map to_f32) batches)) as (mn & mx & E & (X1 & X2 & X3) & N1 & N2 & N3).
  - rewrite Forall_forall. intros b B. apply in_map_iff in B. destruct B as (b' & <- & B).
    rewrite Forall_forall. intros x X. apply in_map_iff in X. destruct X as (v & <- & V).
    apply (to_f32_ok v). apply O. apply in_concat. exists b'. split; assumption.
  - rewrite concat_to_f32. destruct (concat batches); [destruct L1 | discriminate].
  - rewrite concat_to_f32 in *. exists mn, mx. split; [exact E|].
    assert (forall v, In v (concat batches) -> In (to_f32 v) (map to_f32 (concat batches))) as I
      by (intros v V; apply in_map; exact V).
    assert (B2R mn = rnd (val lo)) as Emn.
    { destruct N2 as (y & Y & Ey). apply in_map_iff in Y. destruct Y as (v & <- & V).
      apply Rle_antisym.
      - destruct (to_f32_ok lo (O lo L1)) as (_ & <- & _). apply N3. apply I. exact L1.
      - rewrite Ey. destruct (to_f32_ok v (O v V)) as (_ & -> & _). apply rnd_le. apply L2. exact V. }
    assert (B2R mx = rnd (val hi)) as Emx.
    { destruct X2 as (y & Y & Ey). apply in_map_iff in Y. destruct Y as (v & <- & V).
      apply Rle_antisym.
      - rewrite Ey. destruct (to_f32_ok v (O v V)) as (_ & -> & _). apply rnd_le. apply H2. exact V.
      - destruct (to_f32_ok hi (O hi H1)) as (_ & <- & _). apply X3. apply I. exact H1. }
    split; [exact N1|]. split; [exact Emn|]. split.
    { rewrite Emn. destruct (to_f32_ok lo (O lo L1)) as (_ & <- & B). exact B. }
    split; [exact X1|]. split; [exact Emx|].
    rewrite Emx. destruct (to_f32_ok hi (O hi H1)) as (_ & <- & B). exact B.
Qed.

Lemma scale32_quotient sigmoid omin omax (mn mx x : f32) :
  is_finite mn = true -> is_finite mx = true -> B2R mn < B2R mx ->
  scale32 sigmoid omin omax mn mx x = place omin omax (div32 (sub32 x mn) (sub32 mx mn)).
Proof.
  intros Fn Fx H. unfold scale32. rewrite (Bltb_correct 24 128 mn mx Fn Fx), Rlt_bool_true by exact H.
  reflexivity.
Qed.

Lemma scale32_constant sigmoid omin omax (mn mx x : f32) :
  is_finite mn = true -> is_finite mx = true -> B2R mx <= B2R mn ->
  scale32 sigmoid omin omax mn mx x = place omin omax (sigmoid x).
Proof.
  intros Fn Fx H. unfold scale32. rewrite (Bltb_correct 24 128 mn mx Fn Fx), Rlt_bool_false by exact H.
  reflexivity.
Qed.

Lemma accepted (omin omax : f64) : bound omin -> bound omax -> B2R omin < B2R omax -> Bleb omax omin = false.
Proof.
  intros [F _] [G _] H. rewrite (Bleb_correct 53 1024 omax omin G F). apply Rle_bool_false. exact H.
Qed.

Section column.
  Variable sigmoid : f32 -> f32.
  Variables omin omax : f64.
  Variable batches : list (list number).
  Variables lo hi : number.
  Hypothesis Bmin : bound omin.
  Hypothesis Bmax : bound omax.
  Hypothesis Omm : B2R omin < B2R omax.
  Hypothesis Ord : forall v, In v (concat batches) -> ordinary v.
  Hypothesis Hlo : least lo (concat batches).
  Hypothesis Hhi : greatest hi (concat batches).

  Lemma in_singles x : In x (concat batches) -> rnd (val lo) <= rnd (val x) <= rnd (val hi).
  Proof. intro X. split; apply rnd_le; [apply Hlo | apply Hhi]; exact X. Qed.

  Lemma scaled_at x : In x (concat batches) -> rnd (val lo) < rnd (val hi) ->
    exists q, is_finite q = true /\ 0 <= B2R q <= 1
      /\ scale_by_min_max32 sigmoid omin omax batches x = Some (place omin omax q)
      /\ Rabs (B2R q - position lo hi x) <= 5 * / 16777216
      /\ (rnd (val x) = rnd (val lo) -> B2R q = 0)
      /\ (rnd (val x) = rnd (val hi) -> B2R q = 1).
  Proof.
    intros X LH. destruct (column_ok batches lo hi Ord Hlo Hhi) as (mn & mx & E & N1 & N2 & N3 & M1 & M2 & M3).
    destruct (to_f32_ok x (Ord x X)) as (F & V & B). destruct (in_singles x X) as [I1 I2].
    assert (B2R mn < B2R mx) as NM by lra. assert (B2R mn <= B2R (to_f32 x)) as NX by lra.
    assert (B2R (to_f32 x) <= B2R mx) as XM by lra.
    exists (div32 (sub32 (to_f32 x) mn) (sub32 mx mn)).
    destruct (quotient_ok mn mx (to_f32 x) N1 M1 F N3 M3 NX XM NM) as (Q1 & _ & Q2).
    split; [exact Q1|]. split; [exact Q2|]. split.
    { unfold scale_by_min_max32. rewrite (accepted omin omax Bmin Bmax Omm), E.
      rewrite scale32_quotient; [reflexivity | exact N1 | exact M1 | exact NM]. }
    split.
    { pose proof (quotient_error mn mx (to_f32 x) N1 M1 F N3 M3 NX XM NM) as QE.
      unfold ratio in QE. rewrite V, N2, M2 in QE. exact QE. }
    split; intro A.
    - apply (quotient_lo mn mx (to_f32 x)); try assumption. lra.
    - apply (quotient_hi mn mx (to_f32 x)); try assumption. lra.
  Qed.

  Lemma position_01 x : In x (concat batches) -> rnd (val lo) < rnd (val hi) -> 0 <= position lo hi x <= 1.
  Proof.
    intros X LH. destruct (in_singles x X) as [I1 I2]. unfold position. split.
    - apply Rmult_le_pos; [lra | left; apply Rinv_0_lt_compat; lra].
    - apply (Rmult_le_reg_r (rnd (val hi) - rnd (val lo))); [lra|]. unfold Rdiv.
      rewrite Rmult_assoc, Rinv_l, Rmult_1_r, Rmult_1_l; lra.
  Qed.

  Lemma scaled_mono x y : In x (concat batches) -> In y (concat batches) -> rnd (val lo) < rnd (val hi) ->
    val x <= val y ->
    exists r s, scale_by_min_max32 sigmoid omin omax batches x = Some r
      /\ scale_by_min_max32 sigmoid omin omax batches y = Some s /\ B2R r <= B2R s.
  Proof.
    intros X Y LH XY. destruct (column_ok batches lo hi Ord Hlo Hhi) as (mn & mx & E & N1 & N2 & N3 & M1 & M2 & M3).
    destruct (to_f32_ok x (Ord x X)) as (F & V & B). destruct (in_singles x X) as [I1 I2].
    destruct (to_f32_ok y (Ord y Y)) as (F' & V' & B'). destruct (in_singles y Y) as [I1' I2'].
    pose proof (rnd_le _ _ XY) as RXY.
    assert (B2R mn < B2R mx) as NM by lra.
    unfold scale_by_min_max32. rewrite (accepted omin omax Bmin Bmax Omm), E.
    eexists. eexists. split; [reflexivity|]. split; [reflexivity|].
    rewrite !scale32_quotient by assumption.
    destruct (quotient_ok mn mx (to_f32 x)) as (Q1 & _ & Q2); try assumption; try lra.
    destruct (quotient_ok mn mx (to_f32 y)) as (Q3 & _ & Q4); try assumption; try lra.
    apply place_mono; try assumption; try lra. apply quotient_mono; try assumption; lra.
  Qed.

  Lemma scaled_range x : In x (concat batches) -> rnd (val lo) < rnd (val hi) ->
    exists r, scale_by_min_max32 sigmoid omin omax batches x = Some r /\ is_finite r = true
      /\ rnd (B2R omin) <= B2R r
      /\ (val x = val lo -> B2R r = rnd (B2R omin))
      /\ Rabs (B2R r - (B2R omin + position lo hi x * (B2R omax - B2R omin)))
         <= Rmax (Rabs (B2R omin)) (Rabs (B2R omax)) * / 524288 + bp (-147).
  Proof.
    intros X LH. destruct (scaled_at x X LH) as (q & Q1 & Q2 & E & QE & Q0 & _).
    exists (place omin omax q). split; [exact E|].
    destruct (offset_ok omin Bmin) as (_ & O & _).
    split; [apply (place_ok omin omax Bmin Bmax Omm q Q1 Q2)|]. rewrite <- O.
    split; [apply place_lower; assumption|]. split.
    - intro A. apply place_0; try assumption. apply Q0. rewrite A. reflexivity.
    - apply place_error; try assumption. apply position_01; assumption.
  Qed.

  Lemma scaled_unit x : In x (concat batches) -> rnd (val lo) < rnd (val hi) ->
    B2R omin = 0 -> B2R omax = 1 ->
    exists r, scale_by_min_max32 sigmoid omin omax batches x = Some r /\ is_finite r = true
      /\ 0 <= B2R r <= 1 /\ (val x = val lo -> B2R r = 0) /\ (val x = val hi -> B2R r = 1)
      /\ Rabs (B2R r - position lo hi x) <= 5 * / 16777216.
  Proof.
    intros X LH A B. destruct (scaled_at x X LH) as (q & Q1 & Q2 & E & QE & Q0 & Q3).
    exists (place omin omax q). split; [exact E|].
    split; [apply (place_ok omin omax Bmin Bmax Omm q Q1 Q2)|].
    rewrite (place_unit omin omax Bmin Bmax Omm q Q1 Q2 A B).
    split; [exact Q2|]. split; [intro C; apply Q0; rewrite C; reflexivity|].
    split; [intro C; apply Q3; rewrite C; reflexivity | exact QE].
  Qed.

  Lemma scaled_constant x : In x (concat batches) -> rnd (val lo) = rnd (val hi) -> sigmoid_like sigmoid ->
    exists f r, scale_by_min_max32 sigmoid omin omax batches x = Some r /\ is_finite r = true
      /\ (is_finite f = true /\ B2R f = rnd (val x))
      /\ rnd (B2R omin) <= B2R r
      /\ Rabs (B2R r - (B2R omin + B2R (sigmoid f) * (B2R omax - B2R omin)))
         <= Rmax (Rabs (B2R omin)) (Rabs (B2R omax)) * / 524288 + bp (-147).
  Proof.
    intros X LH S. destruct (column_ok batches lo hi Ord Hlo Hhi) as (mn & mx & E & N1 & N2 & N3 & M1 & M2 & M3).
    destruct (to_f32_ok x (Ord x X)) as (F & V & B). destruct (S (to_f32 x) F) as [S1 S2].
    exists (to_f32 x). eexists. split.
    { unfold scale_by_min_max32. rewrite (accepted omin omax Bmin Bmax Omm), E.
      rewrite scale32_constant; [reflexivity | exact N1 | exact M1 | lra]. }
    destruct (offset_ok omin Bmin) as (_ & O & _).
    split; [apply (place_ok omin omax Bmin Bmax Omm _ S1 S2)|]. split; [split; [exact F | exact V]|]. rewrite <- O.
    split; [apply place_lower; assumption|].
    apply place_error; try assumption. replace (B2R (sigmoid (to_f32 x)) - B2R (sigmoid (to_f32 x))) with 0 by ring.
    rewrite Rabs_R0. lra.
  Qed.
End column.

(** ** A range that does not fit in single precision *)

Lemma unit_bounds : bound zero64 /\ bound one64 /\ B2R zero64 = 0 /\ B2R one64 = 1.
Proof.
  assert (B2R one64 = 1) as E by (apply (Bone_correct 53 1024)).
  assert (1 <= IZR (2 ^ 100)) as P by (apply IZR_le; lia).
  split; [split; [reflexivity | simpl B2R; rewrite Rabs_R0; lra]|].
  split; [split; [reflexivity | rewrite E, Rabs_R1; exact P]|]. split; [reflexivity | exact E].
Qed.

Lemma place_nan omin omax : place omin omax B754_nan = B754_nan.
Proof. reflexivity. Qed.

Lemma place_unit_zero s : B2R (place zero64 one64 (B754_zero s)) = 0 /\ is_finite (place zero64 one64 (B754_zero s)) = true.
Proof. destruct s; split; vm_compute; reflexivity. Qed.

Lemma div_inf (n : f32) s : div32 n (B754_infinity s) = B754_nan
  \/ exists b, div32 n (B754_infinity s) = B754_zero b.
Proof.
  destruct n as [b|b| |b m e H]; [right | left | left | right]; try reflexivity; eexists; reflexivity.
Qed.

Lemma rnd_overflow a : bp 128 <= a -> bp 128 <= Rabs (rnd a).
Proof.
  intro H. eapply Rle_trans; [|apply Rle_abs]. rewrite <- (rnd_bpow 128) by lia. apply rnd_le. exact H.
Qed.

Lemma sub_overflow (x y : f32) : is_finite x = true -> is_finite y = true -> bp 128 <= B2R x - B2R y ->
  exists s, sub32 x y = B754_infinity s.
Proof.
  intros Fx Fy H. pose proof (Bminus_correct 24 128 prec32 emax32 mode_NE x y Fx Fy) as C.
  cbv beta in C. rewrite rnd_eq in C. rewrite Rlt_bool_false in C by (apply rnd_overflow; exact H).
  destruct C as [C _]. exists (Bsign x). apply B2SF_inj. exact C.
Qed.

Lemma overflowed sigmoid batches lo hi x :
  (forall v, In v (concat batches) -> exists f, v = NF32 f /\ is_finite f = true) ->
  least lo (concat batches) -> greatest hi (concat batches) -> IZR (2 ^ 128) <= val hi - val lo ->
  exists r, scale_to_0_1_32 sigmoid batches x = Some r /\ (r = B754_nan \/ (is_finite r = true /\ B2R r = 0)).
Proof.
  intros O [L1 L2] [H1 H2] HL.
  destruct (min_and_max_ok (map (map to_f32) batches)) as (mn & mx & E & (X1 & X2 & X3) & N1 & N2 & N3).
  - rewrite Forall_forall. intros b B. apply in_map_iff in B. destruct B as (b' & <- & B).
    rewrite Forall_forall. intros y Y. apply in_map_iff in Y. destruct Y as (v & <- & V).
    destruct (O v) as (f & -> & F); [apply in_concat; exists b'; split; assumption | exact F].
  - rewrite concat_to_f32. destruct (concat batches); [destruct L1 | discriminate].
  - rewrite concat_to_f32 in *.
    assert (B2R mn <= val lo) as A1.
    { destruct (O lo L1) as (f & -> & F). apply N3. apply (in_map to_f32 _ _ L1). }
    assert (val hi <= B2R mx) as A2.
    { destruct (O hi H1) as (f & -> & F). apply X3. apply (in_map to_f32 _ _ H1). }
    assert (IZR (2 ^ 128) = bp 128) as P by (symmetry; apply (IZR_Zpower radix2 128); lia).
    rewrite P in HL. pose proof (bpow_gt_0 radix2 128) as PP.
    destruct (sub_overflow mx mn X1 N1) as [s S]; [lra|].
    destruct unit_bounds as (U1 & U2 & U3 & U4).
    eexists. split.
    { unfold scale_to_0_1_32, scale_by_min_max32. rewrite (accepted zero64 one64 U1 U2) by lra.
      rewrite E, scale32_quotient by (assumption || lra). rewrite S. reflexivity. }
    destruct (div_inf (sub32 (to_f32 x) mn) s) as [-> | [b ->]].
    + left. apply place_nan.
    + right. destruct (place_unit_zero b) as [Z1 Z2]. split; [exact Z2 | exact Z1].
Qed.
