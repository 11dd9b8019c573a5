(** The formulas that combine two accumulators, in double precision. *)
From Coq Require Import List ZArith Reals Bool Lra Lia.
From Flocq Require Import Core BinarySingleNaN Plus_error Relative.
From Verif Require Import CombineModel IeeeModel IeeeSpec IeeeProofs FmvModel FmvSpec FmvFloat.
Import ListNotations.
Local Open Scope R_scope.

Local Notation fexp64 := (SpecFloat.fexp 53 1024).
Local Notation fmt64 := (generic_format radix2 fexp64).
Local Notation bp := (bpow radix2).
Local Existing Instance prec64.
Local Existing Instance emax64.

Definition step_error (K : R) : R := 8 * e53 * K + 32 * eta * (1 + K).

(** The error of the second moment in one step, for variances up to [V]. *)
Definition step_error2 (K V : R) : R := 32 * e53 * (V + 8 * (K * K)).

(** Zero or more, or infinite. *)
Definition nn64 (v : f64) : Prop := (is_finite v = true /\ 0 <= B2R v) \/ v = B754_infinity false.

Lemma below_1024 (x : f64) : Rabs (B2R x) < bp 1024.
Proof. apply (abs_B2R_lt_emax 53 1024). Qed.

Lemma below_fmt a : fmt64 a -> Rabs a < bp 1024 -> forall b, Rabs b <= Rabs a -> Rabs (rnd64 b) < bp 1024.
Proof. intros F L b H. eapply Rle_lt_trans; [|exact L]. apply r64_abs_fmt; [apply generic_format_abs; exact F|exact H]. Qed.

Lemma opp_le (v x : R) : fmt64 v -> - v <= x -> - v <= rnd64 x.
Proof. intros F H. rewrite <- (r64_id (- v)); [apply r64_le, H|apply generic_format_opp, F]. Qed.

Lemma pos_mul_inf (r : f64) : 0 < B2R r -> is_finite r = true -> mul64 r (B754_infinity false) = B754_infinity false.
Proof.
  destruct r as [s|s| |s m e B]; cbn [B2R]; intros H F; try discriminate F; try lra.
  destruct s; [|reflexivity]. exfalso. revert H. apply Rle_not_lt. apply F2R_le_0. cbn. lia.
Qed.

Lemma add_inf (x : f64) : is_finite x = true -> add64 x (B754_infinity false) = B754_infinity false.
Proof. destruct x; try discriminate; reflexivity. Qed.

Lemma formulas64 (ca ma va cb mb vb : f64) (na nb : Z) (K : R) :
  is_finite ca = true -> is_finite ma = true -> is_finite va = true ->
  is_finite cb = true -> is_finite mb = true -> is_finite vb = true ->
  B2R ca = IZR na -> B2R cb = IZR nb -> (0 < na)%Z -> (0 <= nb <= na)%Z -> (na + nb <= 2 ^ 53)%Z ->
  K <= bp 128 -> Rabs (B2R ma) <= K -> Rabs (B2R mb) <= K -> 0 <= B2R va -> 0 <= B2R vb ->
  (nb = 0%Z -> B2R mb = 0 /\ B2R vb = 0) ->
  exists c m v, fmv_formulas (FMV (D64 ca) (D64 ma) (D64 va)) (FMV (D64 cb) (D64 mb) (D64 vb)) = FMV (D64 c) (D64 m) (D64 v) /\
    is_finite c = true /\ B2R c = IZR (na + nb) /\ is_finite m = true /\
    Rmin (B2R ma) (B2R mb) <= B2R m <= Rmax (B2R ma) (B2R mb) /\
    (nb = 0%Z -> B2R m = B2R ma) /\
    Rabs (B2R m - (B2R ma + IZR nb / IZR (na + nb) * (B2R mb - B2R ma))) <= step_error K /\
    nn64 v /\
    (B2R va = 0 -> B2R vb = 0 -> nb = 0%Z \/ B2R mb = B2R ma -> is_finite v = true /\ B2R v = 0) /\
    (nb = 0%Z -> is_finite v = true /\ B2R v = B2R va) /\
    (forall V, B2R va <= V -> B2R vb <= V -> eta <= e53 * K / 1024 -> eta <= e53 * V / 1024 -> V + 8 * (K * K) <= bp 1000 ->
      is_finite v = true /\
      Rabs (B2R v + B2R m * B2R m - ((1 - IZR nb / IZR (na + nb)) * (B2R va + B2R ma * B2R ma)
                                     + IZR nb / IZR (na + nb) * (B2R vb + B2R mb * B2R mb))) <= step_error2 K V).
Proof.
  intros Fca Fma Fva Fcb Fmb Fvb Ca Cb Na Nb Tot KB MA MB VA VB EMP.
  assert (K0 : 0 <= K) by (pose proof (Rabs_pos (B2R ma)); lra).
  unfold fmv_formulas. cbn [f_count f_mean f_var np_add np_sub np_mul np_div np_op as_f64].
  unfold np_add, np_sub, np_mul, np_div. cbn [np_op as_f64].
  set (tot := add64 ca cb). set (r := div64 cb tot). set (dm := sub64 mb ma). set (t := mul64 r dm). set (m := add64 ma t).
  set (dv := sub64 vb va). set (bm := sub64 mb m). set (P := mul64 bm dm). set (inner := add64 dv P).
  set (w := mul64 r inner). set (v := add64 va w).
  assert (NT : 0 < IZR (na + nb)) by (apply IZR_lt; lia).
  (* the count *)
  assert (FI : fmt64 (IZR (na + nb))) by (apply fmt_int; lia).
  assert (I53 : IZR (na + nb) <= bp 53) by (change (bp 53) with (IZR (2 ^ 53)); apply IZR_le; lia).
  assert (Htot : is_finite tot = true /\ B2R tot = IZR (na + nb)).
  { destruct (add64_ok ca cb Fca Fcb) as [A B].
    - rewrite Ca, Cb, <- plus_IZR, (r64_id _ FI). rewrite Rabs_pos_eq by lra.
      eapply Rle_lt_trans; [exact I53|]. apply bpow_lt. lia.
    - split; [exact A|]. unfold tot. rewrite B, Ca, Cb, <- plus_IZR. apply r64_id, FI. }
  destruct Htot as [Ftot Etot].
  (* the ratio *)
  set (rho := IZR nb / IZR (na + nb)).
  assert (RHO : 0 <= rho <= / 2).
  { unfold rho. split.
    - apply Rmult_le_pos; [apply IZR_le; lia|]. left. apply Rinv_0_lt_compat. exact NT.
    - apply (Rmult_le_reg_r (IZR (na + nb))); [exact NT|]. unfold Rdiv. rewrite Rmult_assoc, Rinv_l by lra.
      assert (2 * IZR nb <= IZR (na + nb)) by (change 2 with (IZR 2); rewrite <- mult_IZR; apply IZR_le; lia). lra. }
  assert (Hr : is_finite r = true /\ B2R r = rnd64 rho).
  { assert (E : B2R cb / B2R tot = rho) by (rewrite Cb, Etot; reflexivity).
    destruct (div64_ok cb tot Fcb) as [A B].
    - rewrite Etot. lra.
    - rewrite E. apply (lt_1024 rho 0); [lia|]. rewrite Rabs_pos_eq by lra. simpl (bp 0). lra.
    - rewrite E in B. auto. }
  destruct Hr as [Fr Er].
  assert (RB : 0 <= B2R r <= / 2).
  { rewrite Er. split; [apply r64_pos; lra|]. change (/ 2) with (bp (-1)).
    rewrite <- (r64_id (bp (-1))); [apply r64_le; simpl (bp (-1)); lra|apply fmt_bpow; lia]. }
  assert (R0 : nb = 0%Z -> B2R r = 0).
  { intros ->. rewrite Er. unfold rho, Rdiv. rewrite Rmult_0_l. apply r64_0. }
  assert (RP : (0 < nb)%Z -> 0 < B2R r).
  { intro Hn. rewrite Er. apply Rlt_le_trans with (bp (-53)); [apply bpow_gt_0|].
    rewrite <- (r64_id (bp (-53))) by (apply fmt_bpow; lia). apply r64_le.
    unfold rho. apply (Rmult_le_reg_r (IZR (na + nb))); [exact NT|]. unfold Rdiv. rewrite Rmult_assoc, Rinv_l, Rmult_1_r by lra.
    apply Rle_trans with (bp (-53) * bp 53); [apply Rmult_le_compat_l; [apply bpow_ge_0|exact I53]|].
    rewrite <- bpow_plus. simpl (bp (-53 + 53)). apply (IZR_le 1). lia. }
  (* the mean *)
  set (a := B2R ma) in *. set (b := B2R mb) in *.
  assert (K2 : forall x y, Rabs x <= K -> Rabs y <= K -> Rabs (x - y) <= bp 129).
  { intros x y Hx Hy. eapply Rle_trans; [apply Rabs_triang|]. rewrite Rabs_Ropp.
    replace (bp 129) with (bp 128 + bp 128) by (change 129%Z with (128 + 1)%Z; rewrite bpow_plus; change (bp 1) with 2; ring). lra. }
  assert (Hdm : is_finite dm = true /\ B2R dm = rnd64 (b - a)).
  { apply sub64_ok; [exact Fmb|exact Fma|]. apply (lt_1024 _ 129); [lia|]. apply K2; assumption. }
  destruct Hdm as [Fdm Edm].
  assert (DM : Rabs (B2R dm) <= bp 129) by (rewrite Edm; apply r64_abs_bpow; [lia|apply K2; assumption]).
  assert (TM : Rabs (B2R r * B2R dm) <= bp 129).
  { rewrite Rabs_mult, (Rabs_pos_eq (B2R r)) by lra. pose proof (Rabs_pos (B2R dm)). nra. }
  assert (Ht : is_finite t = true /\ B2R t = rnd64 (B2R r * B2R dm)).
  { apply mul64_ok; [exact Fr|exact Fdm|]. apply (lt_1024 _ 129); [lia|exact TM]. }
  destruct Ht as [Ft Et].
  assert (BT : Rmin a b <= rnd64 (a + B2R t) <= Rmax a b).
  { rewrite Et, Edm. apply between64; [apply fmt_B2R|apply fmt_B2R|exact RB]. }
  assert (MK : Rabs (rnd64 (a + B2R t)) <= K).
  { apply Rabs_le_inv in MA. apply Rabs_le_inv in MB. apply Rabs_le.
    unfold Rmin, Rmax in BT. destruct (Rle_dec a b); lra. }
  assert (Hm : is_finite m = true /\ B2R m = rnd64 (a + B2R t)).
  { apply add64_ok; [exact Fma|exact Ft|]. eapply Rle_lt_trans; [exact MK|]. eapply Rle_lt_trans; [exact KB|]. apply bpow_lt. lia. }
  destruct Hm as [Fm Em]. rewrite <- Em in BT, MK.
  (* the variance *)
  assert (Hdv : is_finite dv = true /\ B2R dv = rnd64 (B2R vb - B2R va)).
  { apply sub64_ok; [exact Fvb|exact Fva|]. destruct (Rle_or_lt (B2R va) (B2R vb)) as [L|L].
    - apply (below_fmt (B2R vb)); [apply fmt_B2R|apply below_1024|]. rewrite !Rabs_pos_eq by lra. lra.
    - apply (below_fmt (B2R va)); [apply fmt_B2R|apply below_1024|]. rewrite Rabs_left, Rabs_pos_eq by lra. lra. }
  destruct Hdv as [Fdv Edv].
  assert (DV : - B2R va <= B2R dv).
  { rewrite Edv. apply opp_le; [apply fmt_B2R|]. lra. }
  assert (Hbm : is_finite bm = true /\ B2R bm = rnd64 (b - B2R m)).
  { apply sub64_ok; [exact Fmb|exact Fm|]. apply (lt_1024 _ 129); [lia|]. apply K2; assumption. }
  destruct Hbm as [Fbm Ebm].
  assert (BM : Rabs (B2R bm) <= bp 129) by (rewrite Ebm; apply r64_abs_bpow; [lia|apply K2; assumption]).
  assert (PB : Rabs (B2R bm * B2R dm) <= bp 258).
  { rewrite Rabs_mult. change 258%Z with (129 + 129)%Z. rewrite bpow_plus. apply Rmult_le_compat; auto using Rabs_pos. }
  assert (HP : is_finite P = true /\ B2R P = rnd64 (B2R bm * B2R dm)).
  { apply mul64_ok; [exact Fbm|exact Fdm|]. apply (lt_1024 _ 258); [lia|exact PB]. }
  destruct HP as [FP EP].
  assert (P0 : 0 <= B2R P).
  { rewrite EP. apply r64_pos. rewrite Ebm, Edm. unfold Rmin, Rmax in BT. destruct (Rle_dec a b) as [L|L].
    - apply Rmult_le_pos; apply r64_pos; lra.
    - apply Rnot_le_lt in L. replace (b - B2R m) with (- (B2R m - b)) by ring. replace (b - a) with (- (a - b)) by ring.
      rewrite !r64_opp. assert (0 <= rnd64 (B2R m - b)) by (apply r64_pos; lra).
      assert (0 <= rnd64 (a - b)) by (apply r64_pos; lra). nra. }
  assert (PM : B2R P <= bp 258) by (rewrite EP; eapply Rle_trans; [apply Rle_abs|]; apply r64_abs_bpow; [lia|exact PB]).
  assert (Hin : (is_finite inner = true /\ B2R inner = rnd64 (B2R dv + B2R P)) \/ (inner = B754_infinity false /\ (0 < nb)%Z)).
  { destruct (Rle_or_lt 0 (B2R dv + B2R P)) as [L|L].
    - destruct (Z.eq_dec nb 0) as [Hn|Hn].
      + left. apply add64_ok; [exact Fdv|exact FP|]. apply (lt_1024 _ 258); [lia|]. rewrite Rabs_pos_eq by lra.
        destruct (EMP Hn) as [_ Z2]. assert (B2R dv <= 0); [|lra]. rewrite Edv, Z2, Rminus_0_l, r64_opp.
        pose proof (r64_pos (B2R va) VA). lra.
      + destruct (add64_big dv P Fdv FP L) as [H|[H _]]; [left; exact H|right]. split; [exact H|lia].
    - left. apply add64_ok; [exact Fdv|exact FP|]. apply (below_fmt (B2R va)); [apply fmt_B2R|apply below_1024|].
      rewrite Rabs_left, Rabs_pos_eq by lra. lra. }
  exists tot, m, v. split; [reflexivity|]. split; [exact Ftot|]. split; [exact Etot|]. split; [exact Fm|]. split; [exact BT|].
  split.
  { intro Hn. rewrite Em, Et, (R0 Hn), Rmult_0_l, r64_0, Rplus_0_r. apply r64_id, fmt_B2R. }
  split.
  { rewrite Em, Et, Er, Edm. unfold step_error. apply mean_err; auto. }
  assert (ERR : Rabs (B2R m - (a + rho * (b - a))) <= step_error K).
  { rewrite Em, Et, Er, Edm. unfold step_error. apply mean_err; auto. }
  assert (FINAL : is_finite inner = true -> B2R inner = rnd64 (B2R dv + B2R P) ->
    is_finite w = true /\ B2R w = rnd64 (B2R r * B2R inner) /\ 0 <= B2R va + B2R w).
  { intros Fin Ein. assert (INM : - B2R va <= B2R inner).
    { rewrite Ein. apply opp_le; [apply fmt_B2R|]. lra. }
    assert (Hw : is_finite w = true /\ B2R w = rnd64 (B2R r * B2R inner)).
    { apply mul64_ok; [exact Fr|exact Fin|]. apply (below_fmt (B2R inner)); [apply fmt_B2R|apply below_1024|].
      rewrite Rabs_mult, (Rabs_pos_eq (B2R r)) by lra. pose proof (Rabs_pos (B2R inner)). nra. }
    destruct Hw as [Fw Ew]. split; [exact Fw|]. split; [exact Ew|].
    assert (- B2R va <= B2R w); [|lra]. rewrite Ew. apply opp_le; [apply fmt_B2R|]. nra. }
  split.
  { destruct Hin as [[Fin Ein]|[Iin Hn]].
    - destruct (FINAL Fin Ein) as (Fw & Ew & WV). destruct (add64_big va w Fva Fw WV) as [[H1 H2]|[H _]]; [left|right; exact H].
      split; [exact H1|]. unfold v. rewrite H2. apply r64_pos, WV.
    - assert (Ew : w = B754_infinity false) by (unfold w; rewrite Iin; apply pos_mul_inf; [apply RP; exact Hn|exact Fr]).
      right. unfold v. rewrite Ew. apply add_inf, Fva. }
  split.
  { intros Z1 Z2 Z3. destruct Hin as [[Fin Ein]|[Iin Hn]].
    - destruct (FINAL Fin Ein) as (Fw & Ew & WV).
      assert (W0 : B2R w = 0).
      { rewrite Ew. destruct Z3 as [Hn|E]; [rewrite (R0 Hn), Rmult_0_l; apply r64_0|].
        assert (B2R inner = 0) as ->; [|rewrite Rmult_0_r; apply r64_0].
        rewrite Ein, Edv, EP, Edm, Z1, Z2, E. rewrite !Rminus_diag_eq by reflexivity.
        rewrite r64_0, Rmult_0_r, r64_0, Rplus_0_r. apply r64_0. }
      destruct (add64_big va w Fva Fw WV) as [[H1 H2]|[_ H]]; [|exfalso; lra].
      split; [exact H1|]. unfold v. rewrite H2, Z1, W0, Rplus_0_r. apply r64_0.
    - exfalso. assert (E : b = a) by (destruct Z3 as [Z3|Z3]; [lia|exact Z3]).
      assert (is_finite inner = true); [|rewrite Iin in *; discriminate].
      destruct (add64_ok dv P Fdv FP) as [H _]; [|exact H].
      rewrite Edv, EP, Edm, Z1, Z2, E. rewrite !Rminus_diag_eq by reflexivity.
      rewrite r64_0, Rmult_0_r, r64_0, Rplus_0_r, r64_0, Rabs_R0. apply bpow_gt_0. }
  split.
  { intro Hn. destruct Hin as [[Fin Ein]|[_ Hp]]; [|lia]. destruct (FINAL Fin Ein) as (Fw & Ew & WV).
    assert (W0 : B2R w = 0) by (rewrite Ew, (R0 Hn), Rmult_0_l; apply r64_0).
    assert (Q : B2R va + B2R w = B2R va) by lra.
    destruct (add64_ok va w Fva Fw) as [H1 H2].
    - rewrite Q, r64_id by apply fmt_B2R. apply below_1024.
    - split; [exact H1|]. unfold v. rewrite H2, Q. apply r64_id, fmt_B2R. }
  intros V VaV VbV EtaK EtaV WB.
  set (W := V + 8 * (K * K)) in *.
  pose proof e53_pos as P1. pose proof e53_small as P2. pose proof eta_pos as P3.
  assert (V0 : 0 <= V) by lra. assert (KK : 0 <= K * K) by nra. assert (W0 : 0 <= W) by (unfold W; lra).
  assert (EtaW : eta <= e53 * W / 1024) by (unfold W; nra).
  assert (RN : forall x c, Rabs x <= c -> Rabs (rnd64 x - x) <= e53 * c + eta).
  { intros x c H. eapply Rle_trans; [apply r64_err|]. apply Rplus_le_compat_r. apply Rmult_le_compat_l; lra. }
  assert (DVa : Rabs (B2R vb - B2R va) <= V) by (apply Rabs_le; lra).
  assert (A1 : Rabs (B2R dv - (B2R vb - B2R va)) <= 9 / 8 * (e53 * W)).
  { rewrite Edv. eapply Rle_trans; [apply (RN _ W)|].
    - unfold W; lra.
    - nra. }
  assert (BMK : Rabs (b - B2R m) <= 2 * K) by (eapply Rle_trans; [apply Rabs_triang|]; rewrite Rabs_Ropp; lra).
  assert (DMK : Rabs (b - a) <= 2 * K) by (eapply Rle_trans; [apply Rabs_triang|]; rewrite Rabs_Ropp; lra).
  assert (A2 : Rabs (B2R bm - (b - B2R m)) <= 9 / 4 * (e53 * K)).
  { rewrite Ebm. eapply Rle_trans; [apply (RN _ _ BMK)|]. nra. }
  assert (A3 : Rabs (B2R dm - (b - a)) <= 9 / 4 * (e53 * K)).
  { rewrite Edm. eapply Rle_trans; [apply (RN _ _ DMK)|]. nra. }
  assert (EK : e53 * K <= / 1024 * K) by (apply Rmult_le_compat_r; lra).
  assert (EK0 : 0 <= e53 * K) by (apply Rmult_le_pos; lra).
  assert (DMK' : Rabs (B2R dm) <= 9 / 4 * K).
  { replace (B2R dm) with ((b - a) + (B2R dm - (b - a))) by ring. eapply Rle_trans; [apply Rabs_triang|]. lra. }
  assert (BMK' : Rabs (B2R bm) <= 9 / 4 * K).
  { replace (B2R bm) with ((b - B2R m) + (B2R bm - (b - B2R m))) by ring. eapply Rle_trans; [apply Rabs_triang|]. lra. }
  assert (EKK : e53 * K * K <= / 8 * (e53 * W)) by (unfold W; nra).
  assert (PE : Rabs (B2R bm * B2R dm - (b - B2R m) * (b - a)) <= 10 / 8 * (e53 * W)).
  { replace (B2R bm * B2R dm - (b - B2R m) * (b - a))
      with ((B2R bm - (b - B2R m)) * B2R dm + (b - B2R m) * (B2R dm - (b - a))) by ring.
    eapply Rle_trans; [apply Rabs_triang|]. rewrite !Rabs_mult.
    assert (Rabs (B2R bm - (b - B2R m)) * Rabs (B2R dm) <= 9 / 4 * (e53 * K) * (9 / 4 * K)) by (apply Rmult_le_compat; auto using Rabs_pos).
    assert (Rabs (b - B2R m) * Rabs (B2R dm - (b - a)) <= 2 * K * (9 / 4 * (e53 * K))) by (apply Rmult_le_compat; auto using Rabs_pos).
    nra. }
  assert (PBm : Rabs (B2R bm * B2R dm) <= 3 / 4 * W).
  { rewrite Rabs_mult. assert (Rabs (B2R bm) * Rabs (B2R dm) <= 9 / 4 * K * (9 / 4 * K)) by (apply Rmult_le_compat; auto using Rabs_pos).
    unfold W. nra. }
  assert (EW0 : 0 <= e53 * W) by (apply Rmult_le_pos; lra).
  assert (EW : e53 * W <= / 1024 * W) by (apply Rmult_le_compat_r; lra).
  assert (A4 : Rabs (B2R P - B2R bm * B2R dm) <= e53 * W).
  { rewrite EP. eapply Rle_trans; [apply (RN _ _ PBm)|]. lra. }
  assert (DP : Rabs (B2R dv + B2R P) <= 2 * W).
  { replace (B2R dv + B2R P) with ((B2R dv - (B2R vb - B2R va)) + (B2R vb - B2R va) + (B2R P - B2R bm * B2R dm) + B2R bm * B2R dm) by ring.
    eapply Rle_trans; [apply Rabs_triang|]. eapply Rle_trans; [apply Rplus_le_compat_r, Rabs_triang|].
    eapply Rle_trans; [apply Rplus_le_compat_r, Rplus_le_compat_r, Rabs_triang|].
    assert (V <= W) by (unfold W; lra). lra. }
  assert (P2W : bp 1000 * 4 = bp 1002) by (change 1002%Z with (1000 + 2)%Z; rewrite bpow_plus; reflexivity).
  assert (Hin' : is_finite inner = true /\ B2R inner = rnd64 (B2R dv + B2R P)).
  { apply add64_ok; [exact Fdv|exact FP|]. apply (lt_1024 _ 1002); [lia|]. lra. }
  destruct Hin' as [Fin Ein]. destruct (FINAL Fin Ein) as (Fw & Ew & WV).
  set (ei := B2R vb - B2R va + (b - B2R m) * (b - a)).
  assert (A5 : Rabs (B2R inner - ei) <= 6 * (e53 * W)).
  { pose proof (RN _ _ DP) as Q. rewrite <- Ein in Q.
    replace (B2R inner - ei) with ((B2R inner - (B2R dv + B2R P)) + (B2R dv - (B2R vb - B2R va)) + (B2R P - B2R bm * B2R dm)
      + (B2R bm * B2R dm - (b - B2R m) * (b - a))) by (unfold ei; ring).
    eapply Rle_trans; [apply Rabs_triang|]. eapply Rle_trans; [apply Rplus_le_compat_r, Rabs_triang|].
    eapply Rle_trans; [apply Rplus_le_compat_r, Rplus_le_compat_r, Rabs_triang|]. lra. }
  assert (IN3 : Rabs (B2R inner) <= 3 * W).
  { pose proof (RN _ _ DP) as Q. rewrite <- Ein in Q.
    replace (B2R inner) with ((B2R inner - (B2R dv + B2R P)) + (B2R dv + B2R P)) by ring.
    eapply Rle_trans; [apply Rabs_triang|]. lra. }
  assert (ETA53 : eta <= / 2 * e53).
  { unfold eta, e53. change (/ 2) with (bp (-1)). rewrite <- bpow_plus. apply bpow_le. lia. }
  assert (A6 : Rabs (B2R r - rho) <= e53).
  { rewrite Er. eapply Rle_trans; [apply (RN _ (/ 2))|]; [rewrite Rabs_pos_eq; lra|]. lra. }
  assert (A7 : Rabs (B2R r * B2R inner - rho * ei) <= 6 * (e53 * W)).
  { replace (B2R r * B2R inner - rho * ei) with ((B2R r - rho) * B2R inner + rho * (B2R inner - ei)) by ring.
    eapply Rle_trans; [apply Rabs_triang|]. rewrite !Rabs_mult, (Rabs_pos_eq rho) by lra.
    assert (Rabs (B2R r - rho) * Rabs (B2R inner) <= e53 * (3 * W)) by (apply Rmult_le_compat; auto using Rabs_pos).
    assert (rho * Rabs (B2R inner - ei) <= / 2 * (6 * (e53 * W))) by (apply Rmult_le_compat; auto using Rabs_pos; lra). lra. }
  assert (RI : Rabs (B2R r * B2R inner) <= 3 / 2 * W).
  { rewrite Rabs_mult, (Rabs_pos_eq (B2R r)) by lra.
    assert (B2R r * Rabs (B2R inner) <= / 2 * (3 * W)) by (apply Rmult_le_compat; auto using Rabs_pos; lra). lra. }
  assert (A8 : Rabs (B2R w - B2R r * B2R inner) <= 2 * (e53 * W)).
  { rewrite Ew. eapply Rle_trans; [apply (RN _ _ RI)|]. lra. }
  assert (W2 : Rabs (B2R w) <= 2 * W).
  { replace (B2R w) with ((B2R w - B2R r * B2R inner) + B2R r * B2R inner) by ring. eapply Rle_trans; [apply Rabs_triang|]. lra. }
  assert (VW : Rabs (B2R va + B2R w) <= 3 * W).
  { eapply Rle_trans; [apply Rabs_triang|]. rewrite (Rabs_pos_eq (B2R va)) by lra. assert (V <= W) by (unfold W; lra). lra. }
  destruct (add64_ok va w Fva Fw) as [Fv Ev].
  { apply (lt_1024 _ 1002); [lia|]. lra. }
  split; [exact Fv|].
  assert (A9 : Rabs (B2R v - (B2R va + B2R w)) <= 4 * (e53 * W)).
  { unfold v. rewrite Ev. eapply Rle_trans; [apply (RN _ _ VW)|]. lra. }
  assert (MM : Rabs ((B2R m - (a + rho * (b - a))) * (B2R m + a)) <= 4 * (e53 * W)).
  { rewrite Rabs_mult. assert (Rabs (B2R m + a) <= 2 * K) by (eapply Rle_trans; [apply Rabs_triang|]; lra).
    assert (SK : step_error K <= 10 * e53 * K).
    { unfold step_error. assert (eta * (1 + K) <= / 32 * (2 * e53 * K)).
      { assert (eta * K <= / 2 * e53 * K) by (apply Rmult_le_compat_r; lra).
        assert (eta * K <= / 1024 * (e53 * K)).
        { replace (/ 1024 * (e53 * K)) with (/ 1024 * e53 * K) by ring. apply Rmult_le_compat_r; [lra|].
          unfold eta, e53. change (/ 1024) with (bp (-10)). rewrite <- bpow_plus. apply bpow_le. lia. }
        nra. }
      lra. }
    apply Rle_trans with (10 * e53 * K * (2 * K)); [|nra].
    apply Rmult_le_compat; auto using Rabs_pos. lra. }
  unfold step_error2. fold W. fold rho.
  replace (B2R v + B2R m * B2R m - ((1 - rho) * (B2R va + a * a) + rho * (B2R vb + b * b)))
    with ((B2R v - (B2R va + B2R w)) + (B2R w - B2R r * B2R inner) + (B2R r * B2R inner - rho * ei)
          + (B2R m - (a + rho * (b - a))) * (B2R m + a)) by (unfold ei; ring).
  eapply Rle_trans; [apply Rabs_triang|]. eapply Rle_trans; [apply Rplus_le_compat_r, Rabs_triang|].
  eapply Rle_trans; [apply Rplus_le_compat_r, Rplus_le_compat_r, Rabs_triang|]. lra.
Qed.
