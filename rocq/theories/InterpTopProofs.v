From Coq Require Import List ZArith Reals Bool Lra Lia.
From Flocq Require Import Core BinarySingleNaN.
From Verif Require Import IeeeModel IeeeSpec IeeeProofs IeeeScaleProofs InterpModel InterpSpec InterpProofs.
Import ListNotations.
Local Open Scope R_scope.

Local Notation bp := (bpow radix2).
Local Notation rnd := single.

Lemma usable_kind bs xs x : usable bs xs -> In x xs -> ordinary x /\ forall b, In b bs -> kind_ok x b.
Proof.
  intros (O & K & _) X. split; [apply O; apply in_or_app; right; exact X|].
  intros b B. destruct K as [K | K].
  - left. destruct (K x (in_or_app _ _ _ (or_intror X))) as [z E].
    destruct (K b (in_or_app _ _ _ (or_introl B))) as [w E']. exists z, w. split; assumption.
  - right. pose proof (O x (in_or_app _ _ _ (or_intror X))) as [Ox _].
    pose proof (O b (in_or_app _ _ _ (or_introl B))) as [Ob _].
    destruct (K x (in_or_app _ _ _ (or_intror X))) as [f ->].
    destruct (K b (in_or_app _ _ _ (or_introl B))) as [g ->].
    exists f, g. repeat (split; [reflexivity|]). split; assumption.
Qed.

Lemma usable_parts bs xs : usable bs xs ->
  (forall b, In b bs -> ordinary b) /\ sorted bs /\ (2 <= Z.of_nat (n bs) <= 2 ^ 24)%Z
  /\ exists first rest, bs = first :: rest.
Proof.
  intros (O & _ & S0 & N). split; [intros b B; apply O; apply in_or_app; left; exact B|].
  split; [exact S0|]. split; [exact N|]. destruct bs as [|f r]; [simpl in N; lia | exists f, r; reflexivity].
Qed.

Lemma interp_ok bs xs x : usable bs xs -> In x xs ->
  exists r, interpolate32 bs x = Some r /\ is_finite r = true /\ 0 <= B2R r <= 1
    /\ (forall a, nth_error bs 0 = Some a -> val x < val a -> B2R r = 0)
    /\ (forall b, nth_error bs (length bs - 1) = Some b -> val b <= val x -> B2R r = 1).
Proof.
  intros U X. destruct (usable_kind bs xs x U X) as [Ox Kx].
  destruct (usable_parts bs xs U) as (O & S0 & N & first & rest & E).
  destruct (rank_ok bs first rest E N O S0 x Ox Kx) as (R1 & R2 & R3 & R4 & R5 & _).
  destruct (assign_split x bs Kx S0) as (S1 & S2 & S3).
  destruct (normalize_ok (rank bs first x) (Z.of_nat (n bs) - 1)) as (M1 & M2 & M3); [lia | exact R1 | exact R3|].
  assert (0 < IZR (Z.of_nat (n bs) - 1)) as P by (apply IZR_lt; lia).
  eexists. split; [exact R2|]. split; [exact M1|]. split; [exact M3|]. rewrite M2. split.
  - intros a A L. rewrite R4; [unfold Rdiv; rewrite Rmult_0_l; apply rnd_0|].
    destruct (Nat.eq_dec (assign_right x bs) 0) as [Z0 | Z0]; [exact Z0|].
    pose proof (S2 0%nat a A ltac:(lia)). lra.
  - intros b B L. rewrite R5; [unfold Rdiv; rewrite Rinv_r by lra; apply rnd_1|].
    destruct (Nat.eq_dec (assign_right x bs) (n bs)) as [Z0 | Z0]; [exact Z0|]. unfold n in *.
    pose proof (S3 (length bs - 1)%nat b B ltac:(lia)). lra.
Qed.

Lemma interp_mono bs xs x y : usable bs xs -> In x xs -> In y xs -> val x <= val y ->
  exists r s, interpolate32 bs x = Some r /\ interpolate32 bs y = Some s /\ B2R r <= B2R s.
Proof.
  intros U X Y XY. destruct (usable_kind bs xs x U X) as [Ox Kx]. destruct (usable_kind bs xs y U Y) as [Oy Ky].
  destruct (usable_parts bs xs U) as (O & S0 & N & first & rest & E).
  destruct (rank_ok bs first rest E N O S0 x Ox Kx) as (R1 & R2 & R3 & _).
  destruct (rank_ok bs first rest E N O S0 y Oy Ky) as (T1 & T2 & T3 & _).
  pose proof (rank_mono bs first rest E N O S0 x y Ox Oy Kx Ky XY) as M.
  destruct (normalize_ok (rank bs first x) (Z.of_nat (n bs) - 1)) as (_ & M2 & _); [lia | exact R1 | exact R3|].
  destruct (normalize_ok (rank bs first y) (Z.of_nat (n bs) - 1)) as (_ & M2' & _); [lia | exact T1 | exact T3|].
  eexists. eexists. split; [exact R2|]. split; [exact T2|]. rewrite M2, M2'. apply rnd_le.
  apply Rmult_le_compat_r; [|exact M]. left. apply Rinv_0_lt_compat. apply IZR_lt. lia.
Qed.

Lemma interp_inner bs xs x k a b : usable bs xs -> In x xs -> consecutive k a b bs ->
  val a <= val x -> val x < val b ->
  exists r, interpolate32 bs x = Some r
    /\ (rnd (val a) < rnd (val b) ->
        Rabs (B2R r - (INR k + (rnd (val x) - rnd (val a)) / (rnd (val b) - rnd (val a))) / (INR (length bs) - 1))
        <= / 2097152)
    /\ (rnd (val a) < rnd (val b) -> val x = val a -> B2R r = rnd (INR k / (INR (length bs) - 1))).
Proof.
  intros U X [C1 C2] L1 L2. destruct (usable_kind bs xs x U X) as [Ox Kx].
  destruct (usable_parts bs xs U) as (O & S0 & N & first & rest & E).
  destruct (assign_split x bs Kx S0) as (S1 & S2 & S3).
  assert (assign_right x bs = S k) as I.
  { destruct (Nat.le_gt_cases (assign_right x bs) k) as [A | A]; [pose proof (S3 k a C1 A); lra|].
    destruct (Nat.le_gt_cases (assign_right x bs) (S k)) as [B | B]; [lia|].
    pose proof (S2 (S k) b C2 B). lra. }
  assert (S k < n bs)%nat as Kn by (apply nth_error_Some; congruence).
  destruct (rank_ok bs first rest E N O S0 x Ox Kx) as (R1 & R2 & R3 & _).
  destruct (rank_inner bs first N O S0 x Ox Kx) as (a' & b' & q & A1 & A2 & _ & Q1 & Q2 & Q3 & Q4);
    [rewrite I; lia|].
  rewrite I in A1, A2, Q3. replace (S k - 1)%nat with k in A1 by lia.
  assert (a' = a) by congruence. assert (b' = b) by congruence. subst a' b'.
  destruct (normalize_ok (rank bs first x) (Z.of_nat (n bs) - 1)) as (_ & M2 & M3); [lia | exact R1 | exact R3|].
  eexists. split; [exact R2|]. rewrite M2.
  assert (IZR (Z.of_nat (S k) - 1) = INR k) as Ek by (rewrite INR_IZR_INZ; f_equal; lia).
  assert (IZR (Z.of_nat (n bs) - 1) = INR (length bs) - 1) as En.
  { rewrite INR_IZR_INZ, minus_IZR. reflexivity. }
  rewrite Ek in Q3. rewrite En in *.
  assert (1 <= INR (length bs) - 1) as P1 by (rewrite <- En; apply IZR_le; lia).
  assert (0 <= INR k) as P2 by apply pos_INR.
  assert (INR k + 1 <= INR (length bs) - 1) as P3.
  { rewrite <- S_INR, INR_IZR_INZ, <- En. apply IZR_le. lia. }
  set (d := INR (length bs) - 1) in *.
  split.
  - intro D. destruct (Q4 D) as [QE _].
    set (f := (rnd (val x) - rnd (val a)) / (rnd (val b) - rnd (val a))) in *.
    pose proof (rnd_err (INR k + B2R q)) as E1. rewrite u24 in E1. rewrite <- Q3 in E1.
    rewrite (Rabs_pos_eq (INR k + B2R q)) in E1 by lra.
    set (t := bp (-150)) in *. assert (0 < t) as Ht by apply bpow_gt_0.
    assert (t <= / 16777216 * / 16777216) as Ht'.
    { rewrite <- u24, <- bpow_plus. apply bpow_le. lia. }
    set (s := B2R (rank bs first x)) in *.
    apply Rabs_le_inv in E1. apply Rabs_le_inv in QE.
    assert (Rabs (s - (INR k + f)) <= (6 * / 16777216 + t) * d) as E2.
    { apply Rabs_le. assert (5 * / 16777216 <= 5 * / 16777216 * d) by nra. assert (t <= t * d) by nra.
      assert (/ 16777216 * (INR k + B2R q) <= / 16777216 * d) by lra. lra. }
    assert (Rabs (s / d - (INR k + f) / d) <= 6 * / 16777216 + t) as E3.
    { replace (s / d - (INR k + f) / d) with ((s - (INR k + f)) * / d) by (unfold Rdiv; ring).
      rewrite Rabs_mult, (Rabs_pos_eq (/ d)) by (left; apply Rinv_0_lt_compat; lra).
      apply (Rmult_le_reg_r d); [lra|]. rewrite Rmult_assoc, Rinv_l, Rmult_1_r by lra. exact E2. }
    pose proof (rnd_err (s / d)) as E4. rewrite u24 in E4. fold t in E4.
    assert (0 <= s / d <= 1) as SD.
    { split; [apply Rmult_le_pos; [lra | left; apply Rinv_0_lt_compat; lra]|].
      apply (Rmult_le_reg_r d); [lra|]. unfold Rdiv. rewrite Rmult_assoc, Rinv_l by lra. lra. }
    rewrite (Rabs_pos_eq (s / d)) in E4 by lra.
    replace (rnd (s / d) - (INR k + f) / d) with ((rnd (s / d) - s / d) + (s / d - (INR k + f) / d)) by ring.
    eapply Rle_trans; [apply Rabs_triang|]. lra.
  - intros D Ex. destruct (Q4 D) as [_ Q0]. rewrite Q3, (Q0 Ex), Rplus_0_r. f_equal. f_equal.
    rewrite INR_IZR_INZ. apply IeeeExample.int_exact. lia.
Qed.
