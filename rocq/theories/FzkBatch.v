(** The values of one key in one batch. *)
From Coq Require Import String List ZArith Reals Bool Permutation Lra Lia.
From Flocq Require Import Core BinarySingleNaN.
From Verif Require Import CombineModel IeeeModel IeeeSpec IeeeProofs FsumSpec FsumProofs
  FmvModel FmvSpec FmvFloat FmvFormulas FmvProofs FmvBatch FmvAccuracy FzkModel.
Import ListNotations.
Local Open Scope R_scope.

Local Notation rnd := single.
Local Notation bp := (bpow radix2).
Local Existing Instance prec32.
Local Existing Instance emax32.

(** A zero, whatever its sign. *)
Definition null (x : f32) : Prop := is_finite x = true /\ B2R x = 0.

Lemma sum_null l s : sum_of l s -> Forall null l -> null s.
Proof.
  intros H F. rewrite Forall_forall in F.
  assert (Z0 : magnitude l = 0).
  { clear H. unfold magnitude. induction l as [|x l IH]; cbn [fold_right]; [reflexivity|].
    rewrite IH by (intros; apply F; right; assumption). rewrite (proj2 (F x (or_introl eq_refl))), Rabs_R0. lra. }
  destruct (sum_of_exact 0 l s ltac:(lia) H) as (A & B & _).
  - intros x Hx. apply F, Hx.
  - intros x Hx. exists 0%Z. rewrite (proj2 (F x Hx)). ring.
  - rewrite Z0. change (bp 0) with 1. rewrite Rmult_1_r. apply IZR_le. lia.
  - split; [exact A|]. rewrite B. pose proof (total_le l) as T. rewrite Z0 in T.
    destruct (Req_dec (total l) 0) as [|N]; [assumption|]. apply Rabs_pos_lt in N. lra.
Qed.

(** Adding zeros to one number. *)
Lemma sum_lone l s : sum_of l s -> forall x r, Permutation l (x :: r) -> is_finite x = true -> Forall null r ->
  is_finite s = true /\ B2R s = B2R x.
Proof.
  induction 1 as [|y|a b s t Ha IHa Hb IHb|a b s P Ha IHa|a b s t Ha IHa D Hb IHb]; intros x r E Fx N.
  - apply Permutation_nil in E. discriminate.
  - apply Permutation_length_1_inv in E. injection E as -> ->. auto.
  - assert (I : In x (a ++ b)) by (apply (Permutation_in x (Permutation_sym E)); left; reflexivity).
    apply in_app_or in I as [I|I].
    + apply in_split in I as (a1 & a2 & ->). rewrite <- app_assoc in E. cbn [app] in E.
      assert (E' : Permutation (a1 ++ a2 ++ b) r) by (eapply Permutation_app_inv_l with (l := [x]); cbn; eapply perm_trans; [apply Permutation_middle|exact E]).
      assert (N' : Forall null (a1 ++ a2 ++ b)) by (eapply Permutation_Forall; [apply Permutation_sym, E'|exact N]).
      rewrite app_assoc in N'. apply Forall_app in N' as [N1 N2].
      destruct (IHa x (a1 ++ a2) (Permutation_sym (Permutation_middle _ _ _)) Fx N1) as [A B].
      destruct (sum_null _ _ Hb N2) as [C D].
      destruct (add_ok s t A C) as [G1 G2].
      * rewrite D, Rplus_0_r, rnd_B2R. apply (abs_B2R_lt_emax 24 128).
      * split; [exact G1|]. rewrite G2, D, Rplus_0_r, rnd_B2R. exact B.
    + apply in_split in I as (b1 & b2 & ->). rewrite app_assoc in E.
      assert (E' : Permutation (a ++ b1 ++ b2) r).
      { eapply Permutation_app_inv_l with (l := [x]). cbn. rewrite app_assoc. eapply perm_trans; [apply Permutation_middle|exact E]. }
      assert (N' : Forall null (a ++ b1 ++ b2)) by (eapply Permutation_Forall; [apply Permutation_sym, E'|exact N]).
      apply Forall_app in N' as [N1 N2].
      destruct (IHb x (b1 ++ b2) (Permutation_sym (Permutation_middle _ _ _)) Fx N2) as [A B].
      destruct (sum_null _ _ Ha N1) as [C D].
      destruct (add_ok s t C A) as [G1 G2].
      * rewrite D, Rplus_0_l, rnd_B2R. apply (abs_B2R_lt_emax 24 128).
      * split; [exact G1|]. rewrite G2, D, Rplus_0_l, rnd_B2R. exact B.
  - apply (IHa x r); auto. eapply perm_trans; eassumption.
  - apply default_zero in D as [D1 D2].
    assert (I : In x (a ++ b)) by (apply (Permutation_in x (Permutation_sym E)); left; reflexivity).
    apply in_app_or in I as [I|I].
    + apply in_split in I as (a1 & a2 & ->). rewrite <- app_assoc in E. cbn [app] in E.
      assert (E' : Permutation (a1 ++ a2 ++ b) r) by (eapply Permutation_app_inv_l with (l := [x]); cbn; eapply perm_trans; [apply Permutation_middle|exact E]).
      assert (N' : Forall null (a1 ++ a2 ++ b)) by (eapply Permutation_Forall; [apply Permutation_sym, E'|exact N]).
      rewrite app_assoc in N'. apply Forall_app in N' as [N1 N2].
      destruct (IHa x (a1 ++ a2) (Permutation_sym (Permutation_middle _ _ _)) Fx N1) as [A B].
      destruct (sum_null _ _ Hb N2) as [C C2]. split; [exact C|]. rewrite C2, <- B, D2. reflexivity.
    + apply in_split in I as (b1 & b2 & ->). rewrite app_assoc in E.
      assert (E' : Permutation (a ++ b1 ++ b2) r).
      { eapply Permutation_app_inv_l with (l := [x]). cbn. rewrite app_assoc. eapply perm_trans; [apply Permutation_middle|exact E]. }
      assert (N' : Forall null (a ++ b1 ++ b2)) by (eapply Permutation_Forall; [apply Permutation_sym, E'|exact N]).
      apply Forall_app in N' as [N1 N2].
      apply (IHb x (b1 ++ b2) (Permutation_sym (Permutation_middle _ _ _)) Fx N2).
Qed.

(** Two numbers, in any order. *)
Lemma adds_two l s : adds l s -> forall x y, Permutation l [x; y] -> is_finite x = true -> is_finite y = true ->
  Rabs (rnd (B2R x + B2R y)) < bp 128 -> is_finite s = true /\ B2R s = rnd (B2R x + B2R y).
Proof.
  induction 1 as [|z|a b s t Ha IHa Hb IHb|a b s P Ha IHa]; intros x y E Fx Fy O.
  - apply Permutation_nil in E. discriminate.
  - apply Permutation_length in E. discriminate.
  - apply adds_sum_of in Ha, Hb. pose proof (Permutation_length E) as Le. rewrite app_length in Le. cbn in Le.
    destruct a as [|a1 [|a2 [|]]]; cbn in Le; [| | |lia].
    + destruct (sum_null _ _ Ha (Forall_nil _)) as [A B].
      destruct (IHb x y E Fx Fy O) as [C D].
      destruct (add_ok s t A C) as [G1 G2]; [rewrite B, Rplus_0_l, rnd_B2R; apply (abs_B2R_lt_emax 24 128)|].
      split; [exact G1|]. rewrite G2, B, Rplus_0_l, rnd_B2R. exact D.
    + destruct b as [|b1 [|]]; cbn in Le; try lia. cbn [app] in E.
      assert (Q : (a1 = x /\ b1 = y) \/ (a1 = y /\ b1 = x)).
      { apply Permutation_length_2 in E. tauto. }
      destruct Q as [[-> ->]|[-> ->]].
      * destruct (sum_lone _ _ Ha x [] (Permutation_refl _) Fx (Forall_nil _)) as [A B].
        destruct (sum_lone _ _ Hb y [] (Permutation_refl _) Fy (Forall_nil _)) as [C D].
        destruct (add_ok s t A C) as [G1 G2]; [rewrite B, D; exact O|]. split; [exact G1|]. rewrite G2, B, D. reflexivity.
      * destruct (sum_lone _ _ Ha y [] (Permutation_refl _) Fy (Forall_nil _)) as [A B].
        destruct (sum_lone _ _ Hb x [] (Permutation_refl _) Fx (Forall_nil _)) as [C D].
        rewrite Rplus_comm in O |- *.
        destruct (add_ok s t A C) as [G1 G2]; [rewrite B, D; exact O|]. split; [exact G1|]. rewrite G2, B, D. reflexivity.
    + destruct b as [|]; cbn in Le; [|lia]. rewrite app_nil_r in E.
      destruct (sum_null _ _ Hb (Forall_nil _)) as [A B].
      destruct (IHa x y E Fx Fy O) as [C D].
      destruct (add_ok s t C A) as [G1 G2]; [rewrite B, Rplus_0_r, rnd_B2R; apply (abs_B2R_lt_emax 24 128)|].
      split; [exact G1|]. rewrite G2, B, Rplus_0_r, rnd_B2R. exact D.
  - apply (IHa x y); auto. eapply perm_trans; eassumption.
Qed.

Section batch.
  Variable segment_sum : list f32 -> f32.
  Hypothesis segment_sum_adds : forall l, adds l (segment_sum l).

  Notation bf := (batch_fmv segment_sum).
  Notation kf := (batch_fmv_key segment_sum).

  Lemma sums l : sum_of l (segment_sum l).
  Proof. apply adds_sum_of, segment_sum_adds. Qed.

  Definition ones (xs : list f32) : list f32 := map (fun x => if is_finite x then cast_int 1 else zero32) xs.

  Lemma one_ok : is_finite (cast_int 1) = true /\ B2R (cast_int 1) = 1.
  Proof. apply (count_ok 1). lia. Qed.

  Lemma ones_magnitude xs : magnitude (ones xs) = IZR (values_in xs) /\ total (ones xs) = IZR (values_in xs).
  Proof.
    unfold magnitude, total, ones, values_in. destruct one_ok as [_ O]. induction xs as [|x xs [IH1 IH2]]; cbn [map fold_right filter]; [split; reflexivity|].
    rewrite IH1, IH2. destruct (is_finite x).
    - cbn [length]. rewrite O, Nat2Z.inj_succ, succ_IZR, Rabs_R1. split; ring.
    - cbn [B2R zero32]. rewrite Rabs_R0. split; ring.
  Qed.

  Lemma count_key xs : (Z.of_nat (length xs) <= 2 ^ 23)%Z ->
    is_finite (segment_sum (ones xs)) = true /\ B2R (segment_sum (ones xs)) = IZR (values_in xs).
  Proof.
    intro L. pose proof (values_le xs). destruct (ones_magnitude xs) as [M T].
    destruct (sum_of_exact 0 (ones xs) _ ltac:(lia) (sums _)) as (A & B & _).
    - intros x Hx. apply in_map_iff in Hx as (y & <- & _). destruct (is_finite y); [apply one_ok|reflexivity].
    - intros x Hx. apply in_map_iff in Hx as (y & <- & _). destruct (is_finite y).
      + exists 1%Z. rewrite (proj2 one_ok). cbn. lra.
      + exists 0%Z. cbn. lra.
    - rewrite M. change (bp 0) with 1. rewrite Rmult_1_r. apply IZR_le. lia.
    - split; [exact A|]. rewrite B. exact T.
  Qed.

  Lemma divide_count x xs : (Z.of_nat (length xs) <= 2 ^ 23)%Z ->
    divide_no_nan32 x (segment_sum (ones xs)) = divide_no_nan32 x (cast_int (values_in xs)).
  Proof.
    intro L. pose proof (values_le xs). assert (V : (0 <= values_in xs <= 2 ^ 23)%Z) by (unfold values_in in *; lia).
    destruct (count_key xs L) as [F E]. destruct (count_ok _ V) as [F' E'].
    destruct (Z.eq_dec (values_in xs) 0) as [Z0|N0].
    - unfold divide_no_nan32. rewrite !(Beqb_correct 24 128) by (assumption || reflexivity). rewrite E, E', Z0. cbn [B2R zero32].
      rewrite !Req_bool_true by reflexivity. reflexivity.
    - f_equal. apply B2R_inj.
      + destruct (segment_sum (ones xs)) as [b|b| |b m e H0]; try discriminate F; [|reflexivity]. cbn in E. apply (eq_IZR 0) in E. lia.
      + destruct (cast_int (values_in xs)) as [b|b| |b m e H0]; try discriminate F'; [|reflexivity]. cbn in E'. apply (eq_IZR 0) in E'. lia.
      + rewrite E, E'. reflexivity.
  Qed.

  Definition mean32 (xs : list f32) : f32 := divide_no_nan32 (segment_sum (masked xs)) (cast_int (values_in xs)).
  Definition sqs (xs : list f32) : list f32 := map (fun x => mul32 x x) (masked xs).
  Definition var32 (xs : list f32) : f32 :=
    sub32 (divide_no_nan32 (segment_sum (sqs xs)) (cast_int (values_in xs))) (mul32 (mean32 xs) (mean32 xs)).

  Lemma key_eq xs : (Z.of_nat (length xs) <= 2 ^ 23)%Z ->
    kf xs = FMV (D64 (widen (segment_sum (ones xs)))) (S32 (mean32 xs)) (S32 (var32 xs)).
  Proof.
    intro L. unfold batch_fmv_key, var32, mean32. fold (ones xs) (masked xs) (sqs xs). rewrite !divide_count by exact L. reflexivity.
  Qed.

  Lemma key_mean xs : (Z.of_nat (length xs) <= 2 ^ 23)%Z -> mean_of (kf xs) = mean_of (bf xs).
  Proof. intro L. rewrite key_eq by exact L. reflexivity. Qed.

  Lemma key_var xs : (Z.of_nat (length xs) <= 2 ^ 23)%Z -> var_of (kf xs) = B2R (clean prec32 emax32 (var32 xs)).
  Proof. intro L. rewrite key_eq by exact L. unfold var_of. cbn [f_var np_nan_to_num as_f64]. apply widen_ok, clean_fin32. Qed.

  Lemma key_rep K xs : (Z.of_nat (length xs) <= 2 ^ 23)%Z -> Rabs (mean_of (kf xs)) <= K -> 0 <= var_of (kf xs) ->
    Rep K (values_in xs) (kf xs).
  Proof.
    intros L HM HV. pose proof (values_le xs) as VL. destruct (count_key xs L) as [F E].
    constructor; try assumption.
    - rewrite key_eq by exact L. cbn [f_count as_f64]. apply widen_ok, F.
    - rewrite key_eq by exact L. cbn [f_count as_f64]. rewrite (proj2 (widen_ok _ F)). exact E.
    - unfold values_in. lia.
    - intro Z0. rewrite key_mean, key_var, mean_S32 by exact L. unfold var32, mean32. rewrite !divide_zero by exact Z0. split; reflexivity.
  Qed.

  (** No value at all. *)
  Lemma key_none xs : (Z.of_nat (length xs) <= 2 ^ 23)%Z -> values_in xs = 0%Z -> var_of (kf xs) = 0.
  Proof. intros L Z0. rewrite key_var by exact L. unfold var32, mean32. rewrite !divide_zero by exact Z0. reflexivity. Qed.

  Lemma square_small M (x : f32) : bp (-50) <= M <= bp 48 -> is_finite x = true -> Rabs (B2R x) <= M ->
    is_finite (mul32 x x) = true /\ B2R (mul32 x x) = rnd (B2R x * B2R x) /\
    Rabs (B2R (mul32 x x) - square (B2R x)) <= bp (-23) * (M * M) /\ Rabs (B2R (mul32 x x)) <= 2 * (M * M).
  Proof.
    intros HM Fx Hx. pose proof (bpow_gt_0 radix2 (-50)) as P50.
    assert (MM : 0 < M * M) by (apply Rmult_lt_0_compat; lra).
    assert (SQ : Rabs (B2R x * B2R x) <= M * M) by (rewrite Rabs_mult; apply Rmult_le_compat; auto using Rabs_pos).
    assert (MM1 : M * M <= bp 96) by (change 96%Z with (48 + 48)%Z; rewrite bpow_plus; apply Rmult_le_compat; lra).
    destruct (mul_ok x x Fx Fx) as [F E].
    { apply bounded_127. eapply Rle_trans; [exact SQ|]. eapply Rle_trans; [exact MM1|]. apply bpow_le. lia. }
    assert (T2 : bp (-150) <= / 2 * (bp (-23) * (M * M))).
    { apply Rle_trans with (bp (-1) * (bp (-23) * (bp (-50) * bp (-50)))); [rewrite <- !bpow_plus; apply bpow_le; lia|].
      change (bp (-1)) with (/ 2). apply Rmult_le_compat_l; [lra|]. apply Rmult_le_compat_l; [apply bpow_ge_0|]. apply Rmult_le_compat; lra. }
    assert (P24 : bp (-24) = / 2 * bp (-23)) by (change (-24)%Z with (-1 + -23)%Z; rewrite bpow_plus; reflexivity).
    pose proof (rnd_err (B2R x * B2R x)) as RE. rewrite P24 in RE. pose proof (bpow_gt_0 radix2 (-23)) as w0.
    assert (w1 : bp (-23) <= / 1024) by (change (/ 1024) with (bp (-10)); apply bpow_le; lia).
    assert (EE : Rabs (rnd (B2R x * B2R x) - B2R x * B2R x) <= bp (-23) * (M * M)).
    { eapply Rle_trans; [exact RE|]. assert (/ 2 * bp (-23) * Rabs (B2R x * B2R x) <= / 2 * bp (-23) * (M * M)) by (apply Rmult_le_compat_l; lra). lra. }
    split; [exact F|]. split; [exact E|]. rewrite E. split; [exact EE|].
    replace (rnd (B2R x * B2R x)) with (B2R x * B2R x + (rnd (B2R x * B2R x) - B2R x * B2R x)) by ring.
    eapply Rle_trans; [apply Rabs_triang|]. assert (bp (-23) * (M * M) <= / 1024 * (M * M)) by (apply Rmult_le_compat_r; lra). lra.
  Qed.

  Lemma sqs_facts M xs : bp (-50) <= M <= bp 48 -> (forall x, In x xs -> is_finite x = true -> Rabs (B2R x) <= M) ->
    all_finite32 (sqs xs) /\ magnitude (sqs xs) <= IZR (values_in xs) * (2 * (M * M)) /\
    Rabs (total (sqs xs) - sum_R (map square (finite_values xs))) <= IZR (values_in xs) * (bp (-23) * (M * M)).
  Proof.
    intros HM HX. unfold sqs, masked, total, magnitude, sum_R, finite_values, values_in, all_finite32.
    induction xs as [|x xs IH]; cbn [map filter fold_right length].
    - cbn. rewrite Rminus_0_r, Rabs_R0. repeat split; [intros ? []|lra|lra].
    - destruct (IH (fun y Hy => HX y (or_intror Hy))) as (F & G & H). destruct (is_finite x) eqn:E.
      + destruct (square_small M x HM E (HX x (or_introl eq_refl) E)) as (A & _ & B & C).
        cbn [length map fold_right]. rewrite Nat2Z.inj_succ, succ_IZR. split; [|split].
        * intros y [<-|Hy]; [exact A|apply F, Hy].
        * lra.
        * match goal with |- Rabs (?a + ?b - (?c + ?d)) <= _ => replace (a + b - (c + d)) with ((a - c) + (b - d)) by ring end.
          eapply Rle_trans; [apply Rabs_triang|]. lra.
      + split; [|split].
        * intros y [<-|Hy]; [reflexivity|apply F, Hy].
        * cbn [B2R mul32 zero32 Bmult xorb]. rewrite Rabs_R0. lra.
        * cbn [B2R mul32 zero32 Bmult xorb]. rewrite Rplus_0_l. exact H.
  Qed.

  Lemma mean32_facts M B xs : bp (-100) <= M <= bp 100 -> (B <= 2 ^ 23)%nat -> (length xs <= B)%nat ->
    (forall x, In x xs -> is_finite x = true -> Rabs (B2R x) <= M) -> (0 < values_in xs)%Z ->
    is_finite (mean32 xs) = true.
  Proof.
    intros HM HB HL HX HN. pose proof (values_le xs) as VL. pose proof (bpow_gt_0 radix2 (-100)) as P100.
    assert (ZB : (Z.of_nat B <= 2 ^ 23)%Z) by (apply Nat2Z.inj_le in HB; rewrite Nat2Z.inj_pow in HB; exact HB).
    assert (V : (0 <= values_in xs <= 2 ^ 23)%Z).
    { apply Nat2Z.inj_le in HL. split; [lia|]. eapply Z.le_trans; [exact VL|]. eapply Z.le_trans; [exact HL|exact ZB]. }
    set (n := values_in xs) in *. destruct (count_ok n V) as [Fc Ec].
    assert (Nr : 1 <= IZR n) by (apply (IZR_le 1); lia).
    assert (N23 : IZR n <= bp 23) by (change (bp 23) with (IZR (2 ^ 23)); apply IZR_le; lia).
    assert (MG := masked_magnitude M xs HX). fold n in MG.
    assert (L23 : (length (masked xs) <= 2 ^ 23)%nat) by (unfold masked; rewrite map_length; eapply Nat.le_trans; [exact HL|exact HB]).
    assert (MBd : IZR n * M <= bp 123) by (change 123%Z with (23 + 100)%Z; rewrite bpow_plus; apply Rmult_le_compat; lra).
    destruct (sum_of_error (masked xs) _ (sums _) (masked_finite xs) L23) as [FS ES].
    { eapply Rle_trans; [exact MG|]. eapply Rle_trans; [exact MBd|]. apply bpow_le. lia. }
    unfold mean32. fold n. rewrite divide_pos by lia. apply div_ok; [exact FS|rewrite Ec; lra|]. apply bounded_127.
    assert (Q : (1 + u) ^ length (masked xs) - 1 <= 1).
    { eapply Rle_trans; [apply error_lin; exact L23|]. apply le_INR in L23.
      assert (E : INR (2 ^ 23) = bp 23).
      { rewrite <- (Nat2Z.id (2 ^ 23)), INR_IZR_INZ, Z2Nat.id by lia. rewrite Nat2Z.inj_pow. reflexivity. }
      rewrite E in L23. replace 1 with (bp 23 * bp (-23)) by (rewrite <- bpow_plus; reflexivity).
      apply Rmult_le_compat_r; [apply bpow_ge_0|exact L23]. }
    assert (SB : Rabs (B2R (segment_sum (masked xs))) <= 2 * (IZR n * M)).
    { pose proof (total_le (masked xs)). pose proof (magnitude_pos (masked xs)).
      replace (B2R (segment_sum (masked xs))) with (total (masked xs) + (B2R (segment_sum (masked xs)) - total (masked xs))) by ring.
      eapply Rle_trans; [apply Rabs_triang|].
      assert (((1 + u) ^ length (masked xs) - 1) * magnitude (masked xs) <= 1 * magnitude (masked xs)) by (apply Rmult_le_compat_r; lra). lra. }
    rewrite Ec. unfold Rdiv. rewrite Rabs_mult, Rabs_inv, (Rabs_pos_eq (IZR n)) by lra.
    apply Rle_trans with (Rabs (B2R (segment_sum (masked xs))) * 1).
    - apply Rmult_le_compat_l; [apply Rabs_pos|]. rewrite <- Rinv_1. apply Rinv_le_contravar; lra.
    - rewrite Rmult_1_r. eapply Rle_trans; [exact SB|]. apply Rle_trans with (bp 124); [|apply bpow_le; lia].
      change 124%Z with (1 + 123)%Z. rewrite bpow_plus. change (bp 1) with 2. lra.
  Qed.

  Lemma key_mean32 M B xs : bp (-100) <= M <= bp 100 -> (B <= 2 ^ 23)%nat -> (length xs <= B)%nat ->
    (forall x, In x xs -> is_finite x = true -> Rabs (B2R x) <= M) -> (0 < values_in xs)%Z ->
    mean_of (kf xs) = B2R (mean32 xs).
  Proof.
    intros HM HB HL HX HN. assert (ZB : (Z.of_nat B <= 2 ^ 23)%Z) by (apply Nat2Z.inj_le in HB; rewrite Nat2Z.inj_pow in HB; exact HB).
    rewrite key_mean, mean_S32 by (apply Nat2Z.inj_le in HL; eapply Z.le_trans; [exact HL|exact ZB]).
    fold (mean32 xs). rewrite clean_id32; [reflexivity|]. eapply mean32_facts; eassumption.
  Qed.

  (** Values of moderate size: the second moment of a batch. *)
  Lemma key_moment M B xs : bp (-50) <= M <= bp 48 -> (B <= 2 ^ 23)%nat -> (length xs <= B)%nat ->
    (forall x, In x xs -> is_finite x = true -> Rabs (B2R x) <= M) -> (0 < values_in xs)%Z ->
    Rabs (IZR (values_in xs) * moment (kf xs) - sum_R (map square (finite_values xs)))
      <= IZR (values_in xs) * ((2 * INR B + 17) * (bp (-23) * (M * M))) /\
    moment (kf xs) <= 46 * (M * M).
  Proof.
    intros HM HB HL HX HN.
    assert (HM1 : bp (-100) <= M <= bp 100).
    { pose proof (bpow_le radix2 (-100) (-50) ltac:(lia)). pose proof (bpow_le radix2 48 100 ltac:(lia)). lra. }
    assert (ZB : (Z.of_nat B <= 2 ^ 23)%Z) by (apply Nat2Z.inj_le in HB; rewrite Nat2Z.inj_pow in HB; exact HB).
    assert (ZL : (Z.of_nat (length xs) <= 2 ^ 23)%Z) by (apply Nat2Z.inj_le in HL; eapply Z.le_trans; [exact HL|exact ZB]).
    destruct (batch_mean segment_sum segment_sum_adds M B xs HM1 HB HL HX) as [_ MB]. pose proof (values_le xs) as VL.
    rewrite <- key_mean in MB by exact ZL.
    assert (V : (0 <= values_in xs <= 2 ^ 23)%Z) by (split; [apply Z.lt_le_incl, HN|]; eapply Z.le_trans; [exact VL|exact ZL]).
    pose proof (key_mean32 M B xs HM1 HB HL HX HN) as Em. pose proof (mean32_facts M B xs HM1 HB HL HX HN) as Fm.
    unfold moment. rewrite key_var by exact ZL. rewrite Em in *.
    pose proof (bpow_gt_0 radix2 (-50)) as P50. pose proof (bpow_gt_0 radix2 (-150)) as P150.
    assert (w0 : 0 < bp (-23)) by apply bpow_gt_0. assert (w1 : bp (-23) <= / 1024) by (change (/ 1024) with (bp (-10)); apply bpow_le; lia).
    assert (P24 : bp (-24) = / 2 * bp (-23)) by (change (-24)%Z with (-1 + -23)%Z; rewrite bpow_plus; reflexivity).
    assert (T2 : bp (-150) <= / 1024 * (bp (-23) * (M * M))).
    { apply Rle_trans with (bp (-10) * (bp (-23) * (bp (-50) * bp (-50)))); [rewrite <- !bpow_plus; apply bpow_le; lia|].
      change (bp (-10)) with (/ 1024). apply Rmult_le_compat_l; [lra|]. apply Rmult_le_compat_l; [lra|]. apply Rmult_le_compat; lra. }
    assert (MM : 0 < M * M) by (apply Rmult_lt_0_compat; lra).
    assert (MM96 : M * M <= bp 96) by (change 96%Z with (48 + 48)%Z; rewrite bpow_plus; apply Rmult_le_compat; lra).
    destruct (sqs_facts M xs HM HX) as (FQ & GQ & HQ).
    set (w := bp (-23)) in *. assert (wMM : 0 < w * (M * M)) by (apply Rmult_lt_0_compat; lra).
    assert (wMM1 : w * (M * M) <= / 1024 * (M * M)) by (apply Rmult_le_compat_r; lra).
    set (n := values_in xs) in *. destruct (count_ok n V) as [Fc Ec].
    assert (Nr : 1 <= IZR n) by (apply (IZR_le 1); lia).
    assert (N23 : IZR n <= bp 23) by (change (bp 23) with (IZR (2 ^ 23)); apply IZR_le; lia).
    set (m := mean32 xs) in *.
    assert (L23 : (length (sqs xs) <= 2 ^ 23)%nat) by (unfold sqs, masked; rewrite !map_length; eapply Nat.le_trans; [exact HL|exact HB]).
    assert (G126 : magnitude (sqs xs) <= bp 126).
    { eapply Rle_trans; [exact GQ|]. apply Rle_trans with (bp 23 * (bp 1 * bp 96)).
      - apply Rmult_le_compat; [lra|lra|exact N23|]. change (bp 1) with 2. lra.
      - rewrite <- !bpow_plus. apply bpow_le. lia. }
    destruct (sum_of_error (sqs xs) _ (sums _) FQ L23 G126) as [FS ES].
    set (S1 := segment_sum (sqs xs)) in *. set (T := total (sqs xs)) in *.
    assert (EB : INR B <= bp 23).
    { apply le_INR in HB. assert (E : INR (2 ^ 23) = bp 23).
      { rewrite <- (Nat2Z.id (2 ^ 23)), INR_IZR_INZ, Z2Nat.id by lia. rewrite Nat2Z.inj_pow. reflexivity. }
      rewrite E in HB. exact HB. }
    assert (B0 : 0 <= INR B) by apply pos_INR.
    assert (Bw : INR B * w <= 1).
    { replace 1 with (bp 23 * w) by (unfold w; rewrite <- bpow_plus; reflexivity). apply Rmult_le_compat_r; lra. }
    assert (E1 : Rabs (B2R S1 - T) <= INR B * w * (IZR n * (2 * (M * M)))).
    { eapply Rle_trans; [exact ES|]. apply Rmult_le_compat.
      - pose proof (upow_ge (length (sqs xs))). lra.
      - apply magnitude_pos.
      - eapply Rle_trans; [apply error_lin; exact L23|]. apply Rmult_le_compat_r; [apply bpow_ge_0|].
        apply le_INR. unfold sqs, masked. rewrite !map_length. exact HL.
      - exact GQ. }
    assert (n2 : 0 <= IZR n * (2 * (M * M))) by (apply Rmult_le_pos; lra).
    assert (SB : Rabs (B2R S1) <= IZR n * (4 * (M * M))).
    { replace (B2R S1) with (T + (B2R S1 - T)) by ring. eapply Rle_trans; [apply Rabs_triang|].
      pose proof (total_le (sqs xs)) as TL. fold T in TL.
      assert (INR B * w * (IZR n * (2 * (M * M))) <= 1 * (IZR n * (2 * (M * M)))) by (apply Rmult_le_compat_r; [exact n2|exact Bw]). lra. }
    set (q := B2R S1 / IZR n). assert (Q0 : IZR n * q = B2R S1) by (unfold q; field; lra).
    assert (QM : Rabs q <= 4 * (M * M)).
    { apply (Rmult_le_reg_l (IZR n)); [lra|]. rewrite <- (Rabs_pos_eq (IZR n)) at 1 by lra. rewrite <- Rabs_mult, Q0. exact SB. }
    assert (BIG : forall r, Rabs r <= 16 * (M * M) -> Rabs (rnd r) < bp 128).
    { intros r Hr. apply bounded_127. eapply Rle_trans; [exact Hr|]. apply Rle_trans with (bp 4 * bp 96); [change (bp 4) with 16; lra|].
      rewrite <- bpow_plus. apply bpow_le. lia. }
    destruct (div_ok S1 (cast_int n) FS) as [FD ED].
    { rewrite Ec. lra. }
    { rewrite Ec. fold q. apply BIG. lra. }
    rewrite Ec in ED. fold q in ED.
    assert (M2 : Rabs (B2R m * B2R m) <= 9 * (M * M)).
    { rewrite Rabs_mult. apply Rle_trans with (3 * M * (3 * M)); [apply Rmult_le_compat; auto using Rabs_pos|]. nra. }
    destruct (mul_ok m m Fm Fm) as [FP EP]; [apply BIG; lra|].
    assert (R1 : Rabs (rnd q - q) <= 3 * (w * (M * M))).
    { pose proof (rnd_err q) as RE. rewrite P24 in RE. eapply Rle_trans; [exact RE|].
      assert (/ 2 * w * Rabs q <= / 2 * w * (4 * (M * M))) by (apply Rmult_le_compat_l; lra). lra. }
    assert (R2 : Rabs (rnd (B2R m * B2R m) - B2R m * B2R m) <= 5 * (w * (M * M))).
    { pose proof (rnd_err (B2R m * B2R m)) as RE. rewrite P24 in RE. eapply Rle_trans; [exact RE|].
      assert (/ 2 * w * Rabs (B2R m * B2R m) <= / 2 * w * (9 * (M * M))) by (apply Rmult_le_compat_l; lra). lra. }
    assert (D14 : Rabs (rnd q - rnd (B2R m * B2R m)) <= 14 * (M * M)).
    { replace (rnd q - rnd (B2R m * B2R m)) with ((rnd q - q) + q - (rnd (B2R m * B2R m) - B2R m * B2R m) - B2R m * B2R m) by ring.
      apply Rabs_le_inv in R1. apply Rabs_le_inv in R2. apply Rabs_le_inv in QM. apply Rabs_le_inv in M2. apply Rabs_le. lra. }
    destruct (sub_ok (div32 S1 (cast_int n)) (mul32 m m) FD FP) as [FV EV].
    { rewrite ED, EP. apply BIG. lra. }
    rewrite ED, EP in EV.
    assert (Ev : B2R (clean prec32 emax32 (var32 xs)) = rnd (rnd q - rnd (B2R m * B2R m))).
    { unfold var32. fold n m S1. rewrite divide_pos by lia. rewrite clean_id32 by exact FV. exact EV. }
    rewrite Ev.
    assert (R3 : Rabs (rnd (rnd q - rnd (B2R m * B2R m)) - (rnd q - rnd (B2R m * B2R m))) <= 8 * (w * (M * M))).
    { pose proof (rnd_err (rnd q - rnd (B2R m * B2R m))) as RE. rewrite P24 in RE. eapply Rle_trans; [exact RE|].
      assert (/ 2 * w * Rabs (rnd q - rnd (B2R m * B2R m)) <= / 2 * w * (14 * (M * M))) by (apply Rmult_le_compat_l; lra). lra. }
    set (v := rnd (rnd q - rnd (B2R m * B2R m))) in *.
    assert (R4 : Rabs (v + B2R m * B2R m - q) <= 16 * (w * (M * M))).
    { replace (v + B2R m * B2R m - q) with ((v - (rnd q - rnd (B2R m * B2R m))) + (rnd q - q) - (rnd (B2R m * B2R m) - B2R m * B2R m)) by ring.
      apply Rabs_le_inv in R1. apply Rabs_le_inv in R2. apply Rabs_le_inv in R3. apply Rabs_le. lra. }
    set (X2 := sum_R (map square (finite_values xs))) in *.
    split.
    - replace (IZR n * (v + B2R m * B2R m) - X2) with (IZR n * (v + B2R m * B2R m - q) + (B2R S1 - T) + (T - X2)) by (rewrite <- Q0; ring).
      eapply Rle_trans; [apply Rabs_triang|]. eapply Rle_trans; [apply Rplus_le_compat_r, Rabs_triang|].
      rewrite Rabs_mult, (Rabs_pos_eq (IZR n)) by lra.
      assert (I1 : IZR n * Rabs (v + B2R m * B2R m - q) <= IZR n * (16 * (w * (M * M)))) by (apply Rmult_le_compat_l; lra).
      apply Rle_trans with (IZR n * (16 * (w * (M * M))) + INR B * w * (IZR n * (2 * (M * M))) + IZR n * (w * (M * M))); [lra|].
      right. ring.
    - apply Rabs_le_inv in R4. apply Rabs_le_inv in QM. lra.
  Qed.

  (** The variance of a batch is off by at most (6 B + 22) * 2^-23 * M^2. *)
  Lemma key_var_close M B xs : bp (-50) <= M <= bp 48 -> (B <= 2 ^ 23)%nat -> (length xs <= B)%nat ->
    (forall x, In x xs -> is_finite x = true -> Rabs (B2R x) <= M) -> (0 < values_in xs)%Z ->
    Rabs (var_of (kf xs) - var_R (finite_values xs)) <= (6 * INR B + 22) * (bp (-23) * (M * M)).
  Proof.
    intros HM HB HL HX HN. destruct (key_moment M B xs HM HB HL HX HN) as [KM _].
    assert (HM1 : bp (-100) <= M <= bp 100).
    { pose proof (bpow_le radix2 (-100) (-50) ltac:(lia)). pose proof (bpow_le radix2 48 100 ltac:(lia)). lra. }
    assert (ZB : (Z.of_nat B <= 2 ^ 23)%Z) by (apply Nat2Z.inj_le in HB; rewrite Nat2Z.inj_pow in HB; exact HB).
    assert (ZL : (Z.of_nat (length xs) <= 2 ^ 23)%Z) by (apply Nat2Z.inj_le in HL; eapply Z.le_trans; [exact HL|exact ZB]).
    destruct (batch_mean segment_sum segment_sum_adds M B xs HM1 HB HL HX) as [BM MB]. rewrite <- key_mean in BM, MB by exact ZL.
    pose proof (bpow_gt_0 radix2 (-50)) as P50. pose proof (bpow_gt_0 radix2 (-23)) as w0.
    assert (T1 : bp (-150) <= / 1024 * (bp (-23) * M)).
    { apply Rle_trans with (bp (-10) * (bp (-23) * bp (-50))); [rewrite <- !bpow_plus; apply bpow_le; lia|].
      change (bp (-10)) with (/ 1024). apply Rmult_le_compat_l; [lra|]. apply Rmult_le_compat_l; lra. }
    set (n := values_in xs) in *. assert (Nr : 1 <= IZR n) by (apply (IZR_le 1); lia).
    assert (NF : INR (length (finite_values xs)) = IZR n) by (unfold finite_values, n, values_in; rewrite map_length, INR_IZR_INZ; reflexivity).
    set (mu := mean_R (finite_values xs)). set (x2 := mean_R (map square (finite_values xs))).
    assert (Emu : sum_R (finite_values xs) = IZR n * mu) by (unfold mu, mean_R; rewrite NF; field; lra).
    assert (Ex2 : sum_R (map square (finite_values xs)) = IZR n * x2) by (unfold x2, mean_R; rewrite map_length, NF; field; lra).
    rewrite Emu in BM. rewrite Ex2 in KM. rewrite <- Rmult_minus_distr_l, Rabs_mult, (Rabs_pos_eq (IZR n)) in BM, KM by lra.
    apply Rmult_le_reg_l in BM; [|lra]. apply Rmult_le_reg_l in KM; [|lra].
    assert (MU : Rabs mu <= M).
    { apply (Rmult_le_reg_l (IZR n)); [lra|]. rewrite <- (Rabs_pos_eq (IZR n)) at 1 by lra. rewrite <- Rabs_mult, <- Emu, <- masked_total.
      eapply Rle_trans; [apply total_le|]. apply masked_magnitude, HX. }
    rewrite (var_R_moment (finite_values xs)). fold mu x2.
    replace (var_of (kf xs) - (x2 - mu * mu)) with ((moment (kf xs) - x2) - (mean_of (kf xs) - mu) * (mean_of (kf xs) + mu)) by (unfold moment; ring).
    eapply Rle_trans; [apply Rabs_triang|]. rewrite Rabs_Ropp, Rabs_mult.
    assert (SM : Rabs (mean_of (kf xs) + mu) <= 4 * M) by (eapply Rle_trans; [apply Rabs_triang|]; lra).
    assert (PR : Rabs (mean_of (kf xs) - mu) * Rabs (mean_of (kf xs) + mu) <= ((INR B + 1) * bp (-23) * M + bp (-150)) * (4 * M)).
    { apply Rmult_le_compat; auto using Rabs_pos. }
    assert (bp (-150) * (4 * M) <= / 1024 * (bp (-23) * M) * (4 * M)) by (apply Rmult_le_compat_r; lra).
    assert (MM : 0 < M * M) by (apply Rmult_lt_0_compat; lra).
    set (w := bp (-23)) in *. assert (wMM : 0 < w * (M * M)) by (apply Rmult_lt_0_compat; lra).
    replace (/ 1024 * (w * M) * (4 * M)) with (4 / 1024 * (w * (M * M))) in * by field.
    replace (((INR B + 1) * w * M + bp (-150)) * (4 * M)) with ((4 * INR B + 4) * (w * (M * M)) + bp (-150) * (4 * M)) in PR by ring.
    lra.
  Qed.

  (** A batch with one value. *)
  Lemma filter_one xs : values_in xs = 1%Z -> exists x, Permutation (masked xs) (x :: masked (filter (fun y => negb (is_finite y)) xs)) /\
    In x xs /\ is_finite x = true.
  Proof.
    unfold values_in. intro H. destruct (filter is_finite xs) as [|x [|]] eqn:E; cbn in H; try lia. exists x.
    assert (I : In x (filter is_finite xs)) by (rewrite E; left; reflexivity). apply filter_In in I as [I F].
    split; [|auto]. assert (P : Permutation xs (filter is_finite xs ++ filter (fun y => negb (is_finite y)) xs)).
    { clear. induction xs as [|y xs IH]; cbn; [constructor|]. destruct (is_finite y); cbn; [constructor; exact IH|].
      eapply perm_trans; [constructor; exact IH|]. apply Permutation_middle. }
    unfold masked. eapply perm_trans; [apply Permutation_map, P|]. rewrite E. cbn. rewrite F. reflexivity.
  Qed.

  Lemma null_rest xs : Forall null (masked (filter (fun y => negb (is_finite y)) xs)).
  Proof.
    apply Forall_forall. intros y Hy. apply in_map_iff in Hy as (z & <- & Hz). apply filter_In in Hz as [_ Hz].
    destruct (is_finite z); [discriminate|]. split; reflexivity.
  Qed.

  Lemma key_one M xs : bp (-50) <= M <= bp 48 -> (Z.of_nat (length xs) <= 2 ^ 23)%Z ->
    (forall x, In x xs -> is_finite x = true -> Rabs (B2R x) <= M) -> values_in xs = 1%Z ->
    (forall x, In x xs -> is_finite x = true -> mean_of (kf xs) = B2R x) /\ var_of (kf xs) = 0.
  Proof.
    intros HM ZL HX N1. destruct (filter_one xs N1) as (x & P & Hx & Fx). pose proof (null_rest xs) as NR.
    destruct (sum_lone _ _ (sums (masked xs)) _ _ P Fx NR) as [FS ES].
    destruct (square_small M x HM Fx (HX x Hx Fx)) as (FQ & EQ & _ & BQ).
    assert (P2 : Permutation (sqs xs) (mul32 x x :: map (fun y => mul32 y y) (masked (filter (fun y => negb (is_finite y)) xs)))).
    { unfold sqs. eapply perm_trans; [apply Permutation_map, P|]. reflexivity. }
    assert (NR2 : Forall null (map (fun y => mul32 y y) (masked (filter (fun y => negb (is_finite y)) xs)))).
    { apply Forall_forall. intros y Hy. apply in_map_iff in Hy as (z & <- & Hz). rewrite Forall_forall in NR. destruct (NR z Hz) as [F0 E0].
      destruct (mul_ok z z F0 F0) as [A B]; [rewrite E0, Rmult_0_r, rnd_0, Rabs_R0; apply bpow_gt_0|].
      split; [exact A|]. rewrite B, E0, Rmult_0_r. apply rnd_0. }
    destruct (sum_lone _ _ (sums (sqs xs)) _ _ P2 FQ NR2) as [FS2 ES2].
    destruct (count_ok 1 ltac:(lia)) as [Fc Ec].
    assert (MEAN : is_finite (mean32 xs) = true /\ B2R (mean32 xs) = B2R x).
    { unfold mean32. rewrite N1, divide_pos by lia. destruct (div_ok (segment_sum (masked xs)) (cast_int 1) FS) as [A B].
      - rewrite Ec. lra.
      - rewrite Ec. unfold Rdiv. rewrite Rinv_1, Rmult_1_r, rnd_B2R. apply (abs_B2R_lt_emax 24 128).
      - split; [exact A|]. rewrite B, Ec. unfold Rdiv. rewrite Rinv_1, Rmult_1_r, rnd_B2R. exact ES. }
    destruct MEAN as [Fm Em].
    assert (MM : is_finite (mul32 (mean32 xs) (mean32 xs)) = true /\ B2R (mul32 (mean32 xs) (mean32 xs)) = B2R (mul32 x x)).
    { destruct (mul_ok (mean32 xs) (mean32 xs) Fm Fm) as [A B].
      - rewrite Em, <- EQ. apply (abs_B2R_lt_emax 24 128).
      - split; [exact A|]. rewrite B, Em, EQ. reflexivity. }
    destruct MM as [FP EP].
    split.
    - intros y Hy Fy. rewrite key_mean, mean_S32 by exact ZL. fold (mean32 xs). rewrite clean_id32 by exact Fm. rewrite Em. f_equal.
      unfold values_in in N1. destruct (filter is_finite xs) as [|z [|]] eqn:E; cbn in N1; try lia.
      assert (I1 : In x (filter is_finite xs)) by (apply filter_In; auto). assert (I2 : In y (filter is_finite xs)) by (apply filter_In; auto).
      rewrite E in I1, I2. destruct I1 as [<-|[]], I2 as [<-|[]]. reflexivity.
    - rewrite key_var by exact ZL. unfold var32. rewrite N1, divide_pos by lia.
      destruct (div_ok (segment_sum (sqs xs)) (cast_int 1) FS2) as [A B].
      { rewrite Ec. lra. }
      { rewrite Ec. unfold Rdiv. rewrite Rinv_1, Rmult_1_r, rnd_B2R. apply (abs_B2R_lt_emax 24 128). }
      rewrite Ec in B. unfold Rdiv in B. rewrite Rinv_1, Rmult_1_r, rnd_B2R, ES2 in B.
      destruct (sub_ok (div32 (segment_sum (sqs xs)) (cast_int 1)) (mul32 (mean32 xs) (mean32 xs)) A FP) as [FV EV].
      { rewrite B, EP, Rminus_diag_eq, rnd_0, Rabs_R0 by reflexivity. apply bpow_gt_0. }
      rewrite clean_id32 by exact FV. rewrite EV, B, EP, Rminus_diag_eq by reflexivity. apply rnd_0.
  Qed.

  (** A batch whose values are all [c], when neither the sum nor the sum of squares is rounded. *)
  Lemma key_const e c xs : (-74 <= e <= 51)%Z -> (Z.of_nat (length xs) <= 2 ^ 23)%Z -> on_grid e c ->
    IZR (values_in xs) * Rabs c <= IZR (2 ^ 24) * bp e -> IZR (values_in xs) * (c * c) <= IZR (2 ^ 24) * bp (2 * e) -> (0 < values_in xs)%Z ->
    (forall x, In x xs -> is_finite x = true -> B2R x = c) ->
    mean_of (kf xs) = c /\ var_of (kf xs) = 0.
  Proof.
    intros He HL G HS HQ N HX. pose proof (values_le xs) as VL. assert (V : (0 <= values_in xs <= 2 ^ 23)%Z) by (split; [apply Z.lt_le_incl, N|]; eapply Z.le_trans; [exact VL|exact HL]).
    destruct (batch_const segment_sum segment_sum_adds e c xs ltac:(lia) HL G HS N HX) as [BM _].
    rewrite key_mean by exact HL. split; [exact BM|]. rewrite mean_S32 in BM. fold (mean32 xs) in BM.
    destruct (count_ok _ V) as [Fc Ec]. set (n := values_in xs) in *. assert (Nr : 1 <= IZR n) by (apply (IZR_le 1); lia).
    assert (G2 : on_grid (2 * e) (c * c)).
    { destruct G as [z ->]. exists (z * z)%Z. rewrite mult_IZR. replace (2 * e)%Z with (e + e)%Z by lia. rewrite bpow_plus. ring. }
    assert (C2 : Rabs (c * c) <= IZR (2 ^ 24) * bp (2 * e)) by (rewrite Rabs_pos_eq by nra; assert (0 <= c * c) by nra; nra).
    destruct (grid_format (2 * e) (c * c) ltac:(lia) G2 C2) as [RC LC].
    assert (SQ : forall y, In y (sqs xs) -> is_finite y = true /\ (B2R y = c * c \/ B2R y = 0)).
    { intros y Hy. unfold sqs in Hy. apply in_map_iff in Hy as (z & <- & Hz). apply in_map_iff in Hz as (x & <- & Hx).
      destruct (is_finite x) eqn:E; [|split; [reflexivity|right; reflexivity]].
      destruct (mul_ok x x E E) as [A B]; [rewrite (HX x Hx E), RC; exact LC|]. split; [exact A|]. left. rewrite B, (HX x Hx E). exact RC. }
    assert (TM : total (sqs xs) = IZR n * (c * c) /\ magnitude (sqs xs) = IZR n * (c * c)).
    { subst n. revert HX RC LC. clear. intros HX RC LC. unfold total, magnitude, sqs, masked, values_in.
      induction xs as [|x xs IH]; cbn [map fold_right filter length]; [cbn; lra|].
      destruct (IH (fun y Hy => HX y (or_intror Hy))) as [I1 I2]. rewrite I1, I2. destruct (is_finite x) eqn:E.
      - destruct (mul_ok x x E E) as [A B]; [rewrite (HX x (or_introl eq_refl) E), RC; exact LC|].
        rewrite B, (HX x (or_introl eq_refl) E), RC. cbn [length]. rewrite Nat2Z.inj_succ, succ_IZR, Rabs_pos_eq by nra. split; ring.
      - cbn [B2R mul32 zero32 Bmult xorb]. rewrite Rabs_R0. split; ring. }
    destruct TM as [TT TM].
    destruct (sum_of_exact (2 * e) (sqs xs) _ ltac:(lia) (sums _)) as (FS & ES & _).
    { intros y Hy. apply SQ, Hy. }
    { intros y Hy. destruct (proj2 (SQ y Hy)) as [->| ->]; [exact G2|]. exists 0%Z. ring. }
    { rewrite TM. exact HQ. }
    rewrite TT in ES.
    assert (Q : B2R (segment_sum (sqs xs)) / B2R (cast_int n) = c * c) by (rewrite ES, Ec; field; lra).
    destruct (div_ok (segment_sum (sqs xs)) (cast_int n) FS) as [FD ED].
    { rewrite Ec. lra. }
    { rewrite Q, RC. exact LC. }
    rewrite Q, RC in ED.
    assert (Fm : is_finite (mean32 xs) = true /\ B2R (mean32 xs) = c).
    { assert (HM : is_finite (mean32 xs) = true).
      { unfold mean32. fold n. rewrite divide_pos by lia.
        destruct (sum_of_exact e (masked xs) _ ltac:(lia) (sums _) (masked_finite xs)) as (FS' & ES' & _).
        { intros x Hx. apply in_map_iff in Hx as (y & <- & Hy). destruct (is_finite y) eqn:E; [rewrite (HX y Hy E); exact G|].
          exists 0%Z. cbn. ring. }
        { eapply Rle_trans; [apply (masked_magnitude (Rabs c))|exact HS]. intros x Hx Fx. rewrite (HX x Hx Fx). lra. }
        apply div_ok; [exact FS'|rewrite Ec; lra|]. rewrite Ec, ES'.
        assert (LCe : Rabs c <= IZR (2 ^ 24) * bp e) by (pose proof (Rabs_pos c); nra).
        destruct (grid_format e c ltac:(lia) G LCe) as [R1 R2].
        replace (total (masked xs) / IZR n) with c; [rewrite R1; exact R2|].
        rewrite masked_total. assert (T : sum_R (finite_values xs) = IZR n * c).
        { subst n. revert HX. clear. intro HX. unfold sum_R, finite_values, values_in. induction xs as [|x xs IH]; cbn [filter map fold_right length]; [cbn; lra|].
          specialize (IH (fun y Hy => HX y (or_intror Hy))). destruct (is_finite x) eqn:E; [|exact IH].
          cbn [map fold_right length]. rewrite IH, (HX x (or_introl eq_refl) E), Nat2Z.inj_succ, succ_IZR. ring. }
        rewrite T. field. lra. }
      split; [exact HM|]. rewrite clean_id32 in BM by exact HM. exact BM. }
    destruct Fm as [Fm Em].
    destruct (mul_ok (mean32 xs) (mean32 xs) Fm Fm) as [FP EP]; [rewrite Em, RC; exact LC|]. rewrite Em, RC in EP.
    rewrite key_var by exact HL. unfold var32. fold n. rewrite divide_pos by lia.
    destruct (sub_ok (div32 (segment_sum (sqs xs)) (cast_int n)) (mul32 (mean32 xs) (mean32 xs)) FD FP) as [FV EV].
    { rewrite ED, EP, Rminus_diag_eq, rnd_0, Rabs_R0 by reflexivity. apply bpow_gt_0. }
    rewrite clean_id32 by exact FV. rewrite EV, ED, EP, Rminus_diag_eq by reflexivity. apply rnd_0.
  Qed.
End batch.
