(** The boundaries of one key after they are made strictly increasing, scaled and shifted. *)
From Coq Require Import String List ZArith Reals Bool Sorted Lra Lia.
From Flocq Require Import Core BinarySingleNaN.
From Verif Require Import IeeeModel IeeeSpec IeeeProofs FpkModel FpkSpec.
Import ListNotations.
Local Open Scope R_scope.

Local Existing Instance prec32.
Local Existing Instance emax32.
Local Notation bp := (bpow radix2).
Local Notation rnd := single.
Local Notation u := (/ 16777216).

Lemma err a : Rabs (rnd a - a) <= u * Rabs a + bp (-150).
Proof. exact (rnd_err a). Qed.

Lemma below_127 a : Rabs a <= bp 127 -> Rabs (rnd a) < bp 128.
Proof.
  intro H. eapply Rle_lt_trans; [apply (rnd_abs_bpow a 127); [lia|exact H]|]. apply bpow_lt. lia.
Qed.

Lemma micro_value : is_finite micro32 = true /\ B2R micro32 = 8796093 * bp (-43).
Proof. split; reflexivity. Qed.

(** The real number a finite number is placed at. *)
Definition place_R (i : nat) (row' : list f32) (y : R) : R := rnd (rnd (y * B2R (row_scale32 row')) + B2R (row_shift32 i row')).

Section Row.
  Variables (D rho W : R) (r0 : f32).
  Hypothesis HD : bp (-60) <= D <= bp 60.
  Hypothesis Hrho : / 2 <= rho.
  Hypothesis HW : 2 <= W.
  Hypothesis HN : W + rho <= bp 16.
  Hypothesis Fr0 : is_finite r0 = true.
  Hypothesis Br0 : Rabs (B2R r0) <= rho * D.

  Lemma D0 : 0 < D.
  Proof. pose proof (bpow_gt_0 radix2 (-60)). lra. Qed.
  Lemma tD : bp (-150) <= / 1073741824 * (u * D).
  Proof.
    apply Rle_trans with (bp (-30) * (bp (-24) * bp (-60))); [rewrite <- !bpow_plus; apply bpow_le; lia|].
    change (bp (-30)) with (/ 1073741824). change (bp (-24)) with u.
    apply Rmult_le_compat_l; [lra|]. apply Rmult_le_compat_l; [lra|apply HD].
  Qed.
  Lemma big (k : R) : k <= 4194304 -> k * D <= bp 127.
  Proof.
    intro H. pose proof D0. apply Rle_trans with (bp 22 * bp 60); [|rewrite <- bpow_plus; apply bpow_le; lia].
    change (bp 22) with 4194304. apply Rle_trans with (4194304 * D); [apply Rmult_le_compat_r; lra|apply Rmult_le_compat_l; [lra|apply HD]].
  Qed.

  Notation G := (/ 524288 * D).

  Section Cum.
    Variable eps : f32.
    Hypothesis Feps : is_finite eps = true.
    Hypothesis Beps : 0 < B2R eps <= 9 / 8 * / 1048576 * D.

    Lemma delta_ok (a b : f32) : is_finite a = true -> is_finite b = true -> 0 <= B2R b - B2R a <= D ->
      let e := max32 (sub32 b a) eps in
      is_finite e = true /\ 0 <= B2R e /\ Rabs (B2R e - (B2R b - B2R a)) <= 5 / 4 * / 1048576 * D.
    Proof.
      intros Fa Fb H e. pose proof D0 as D0. pose proof tD as T.
      destruct (sub_ok b a Fb Fa) as [Fd Ed].
      { apply below_127. rewrite Rabs_pos_eq by lra. pose proof (big 1 ltac:(lra)). lra. }
      destruct (max_fin (sub32 b a) eps Fd Feps) as [Fe Ee]. fold e in Fe, Ee.
      split; [exact Fe|]. pose proof (err (B2R b - B2R a)) as E. rewrite <- Ed in E. rewrite Ee.
      rewrite (Rabs_pos_eq (B2R b - B2R a)) in E by lra. apply Rabs_le_inv in E.
      split; [eapply Rle_trans; [|apply Rmax_r]; lra|]. apply Rabs_le.
      unfold Rmax. destruct (Rle_dec (B2R (sub32 b a)) (B2R eps)); lra.
    Qed.

    Lemma cum_ok : forall rest a c k, is_finite c = true -> 0 <= B2R c ->
      (forall b, In b (a :: rest) -> is_finite b = true /\ B2R r0 <= B2R b <= B2R r0 + D) ->
      Sorted (fun a b : f32 => B2R a <= B2R b) (a :: rest) ->
      Rabs (B2R c - (B2R a - B2R r0)) <= k * G -> 0 <= k -> k + INR (length rest) <= bp 16 ->
      Forall2 (fun (c' b : f32) => is_finite c' = true /\ 0 <= B2R c' /\ Rabs (B2R c' - (B2R b - B2R r0)) <= (k + INR (length rest)) * G)
        (cumsum_from c (map (fun d => max32 d eps) (diff32 (a :: rest)))) rest.
    Proof.
      pose proof D0 as D0. pose proof tD as T.
      induction rest as [|b rest IH]; intros a c k Fc C0 HB HS HE K0 HK; [constructor|].
      cbn [diff32 map cumsum_from]. cbv zeta. cbn [length] in HK. rewrite S_INR in HK. pose proof (pos_INR (length rest)) as PL.
      destruct (HB a (or_introl eq_refl)) as [Fa Ba]. destruct (HB b (or_intror (or_introl eq_refl))) as [Fb Bb].
      apply Sorted_inv in HS. destruct HS as [HS HS0]. apply HdRel_inv in HS0.
      destruct (delta_ok a b Fa Fb ltac:(lra)) as (Fe & E0 & Ee). set (e := max32 (sub32 b a) eps) in *.
      assert (KG : k * G <= 1 / 8 * D).
      { change (bp 16) with 65536 in HK. replace (1 / 8 * D) with (65536 * G) by field. apply Rmult_le_compat_r; lra. }
      apply Rabs_le_inv in HE. apply Rabs_le_inv in Ee.
      assert (SB : 0 <= B2R c + B2R e <= 3 * D) by lra.
      destruct (add_ok c e Fc Fe) as [Fc' Ec'].
      { apply below_127. rewrite Rabs_pos_eq by lra. pose proof (big 3 ltac:(lra)). lra. }
      pose proof (err (B2R c + B2R e)) as E. rewrite <- Ec', (Rabs_pos_eq (B2R c + B2R e)) in E by lra. apply Rabs_le_inv in E.
      assert (C0' : 0 <= B2R (add32 c e)) by (rewrite Ec', <- rnd_0; apply rnd_le; lra).
      assert (E' : Rabs (B2R (add32 c e) - (B2R b - B2R r0)) <= (k + 1) * G) by (apply Rabs_le; lra).
      constructor.
      - split; [exact Fc'|]. split; [exact C0'|]. eapply Rle_trans; [exact E'|]. cbn [length]. rewrite S_INR. apply Rmult_le_compat_r; lra.
      - cbn [length]. rewrite S_INR. replace (k + (INR (length rest) + 1)) with ((k + 1) + INR (length rest)) by ring.
        apply IH; auto; try lra. intros y Hy. apply HB. right. exact Hy.
    Qed.
  End Cum.

  Notation eta := (/ 524288 * (W + rho) * D).

  Lemma eta_small : 0 <= eta <= 1 / 8 * D.
  Proof.
    pose proof D0. change (bp 16) with 65536 in HN.
    replace (1 / 8 * D) with (/ 524288 * 65536 * D) by field. split; [|apply Rmult_le_compat_r; [lra|apply Rmult_le_compat_l; lra]].
    apply Rmult_le_pos; [apply Rmult_le_pos; lra|lra].
  Qed.

  Variables (b1 : f32) (rest : list f32).
  Notation row := (r0 :: b1 :: rest).
  Hypothesis HL : INR (length row) <= W.
  Hypothesis HF : forall b, In b row -> is_finite b = true /\ Rabs (B2R b) <= rho * D.
  Hypothesis HS : Sorted (fun a b : f32 => B2R a <= B2R b) row.
  Hypothesis HE : B2R (last row nan32) - B2R r0 = D.

  Lemma sorted_range b : In b row -> B2R r0 <= B2R b <= B2R r0 + D.
  Proof.
    intro Hb. assert (ST : StronglySorted (fun a b : f32 => B2R a <= B2R b) row).
    { apply Sorted_StronglySorted; [|exact HS]. intros x y z A B. cbv beta in *. lra. }
    assert (LO : forall l a b, StronglySorted (fun a b : f32 => B2R a <= B2R b) (a :: l) -> In b (a :: l) -> B2R a <= B2R b).
    { intros l a y H [<-|Hy]; [lra|]. apply StronglySorted_inv in H. destruct H as [_ H]. rewrite Forall_forall in H. exact (H y Hy). }
    assert (HI : forall l a b, StronglySorted (fun a b : f32 => B2R a <= B2R b) (a :: l) -> In b (a :: l) -> B2R b <= B2R (last (a :: l) nan32)).
    { induction l as [|z l IH]; intros a y H Hy.
      - destruct Hy as [<-|[]]. cbn. lra.
      - assert (H' := H). apply StronglySorted_inv in H. destruct H as [H HA]. change (last (a :: z :: l) nan32) with (last (z :: l) nan32).
        destruct Hy as [<-|Hy]; [|apply IH; assumption]. apply Rle_trans with (B2R z); [|apply IH; [exact H|left; reflexivity]].
        rewrite Forall_forall in HA. apply HA. left. reflexivity. }
    split; [apply (LO (b1 :: rest)); assumption|]. pose proof (HI _ _ _ ST Hb). lra.
  Qed.

  Lemma strict_ok : exists bs, strict_row32 row = Some (r0 :: bs) /\
    Forall2 (fun b' b : f32 => is_finite b' = true /\ B2R r0 <= B2R b' /\ Rabs (B2R b' - B2R b) <= eta) bs (b1 :: rest).
  Proof.
    pose proof D0 as D0. pose proof tD as T.
    assert (RG : forall b, In b row -> is_finite b = true /\ B2R r0 <= B2R b <= B2R r0 + D) by (intros b Hb; split; [apply HF, Hb|apply sorted_range, Hb]).
    assert (LI : In (last row nan32) row) by (apply (@exists_last f32 row ltac:(discriminate)) || idtac; clear; generalize b1; induction rest as [|z r IH]; intro b; [right; left; reflexivity|];
      change (last (r0 :: b :: z :: r) nan32) with (last (r0 :: z :: r) nan32); destruct (IH z) as [E|E]; [left; exact E|right; right; exact E]).
    destruct (RG _ LI) as [Fl Bl].
    destruct (sub_ok (last row nan32) r0 Fl Fr0) as [FL EL].
    { apply below_127. rewrite HE, Rabs_pos_eq by lra. pose proof (big 1 ltac:(lra)). lra. }
    rewrite HE in EL. pose proof (err D) as ED. rewrite <- EL, (Rabs_pos_eq D) in ED by lra. apply Rabs_le_inv in ED.
    set (L := sub32 (last row nan32) r0) in *. destruct micro_value as [Fm Em].
    assert (M1 : / 1048576 <= B2R micro32 <= 17 / 16 * / 1048576).
    { rewrite Em. change (bp (-43)) with (/ 8796093022208). lra. }
    assert (PL : / 2097152 * D <= B2R micro32 * B2R L <= 35 / 32 * / 1048576 * D) by (split; nra).
    destruct (mul_ok micro32 L Fm FL) as [Fe Ee].
    { apply below_127. rewrite Rabs_pos_eq by lra. pose proof (big 1 ltac:(lra)). lra. }
    pose proof (err (B2R micro32 * B2R L)) as EE. rewrite <- Ee, (Rabs_pos_eq (B2R micro32 * B2R L)) in EE by lra. apply Rabs_le_inv in EE.
    set (e := mul32 micro32 L) in *. assert (Be : 0 < B2R e <= 9 / 8 * / 1048576 * D) by lra.
    assert (NB : Bleb e zero32 = false).
    { rewrite (Bleb_correct 24 128 e zero32 Fe eq_refl). cbn [B2R zero32]. apply Rle_bool_false. lra. }
    unfold strict_row32. fold L. fold e. rewrite NB. eexists. split; [reflexivity|].
    cbn [diff32 map cumsum32].
    change (match rest with [] => [] | b :: _ => sub32 b b1 :: diff32 rest end) with (diff32 (b1 :: rest)).
    destruct (RG r0 (or_introl eq_refl)) as [_ B0]. destruct (RG b1 (or_intror (or_introl eq_refl))) as [F1 B1].
    destruct (delta_ok e Fe Be r0 b1 Fr0 F1 ltac:(lra)) as (Fd & d0 & Ed).
    change (bp 16) with 65536 in HN. cbn [length] in HL. rewrite !S_INR in HL. pose proof (pos_INR (length rest)) as PR.
    assert (CU := cum_ok e Fe Be rest b1 (max32 (sub32 b1 r0) e) 1 Fd d0 (fun b Hb => RG b (or_intror Hb)) (proj1 (Sorted_inv HS))).
    assert (E1 : Rabs (B2R (max32 (sub32 b1 r0) e) - (B2R b1 - B2R r0)) <= 1 * G) by (eapply Rle_trans; [exact Ed|]; clear - D0; lra).
    assert (NL : 1 + INR (length rest) <= 65536) by (revert HL HN Hrho; generalize (INR (length rest)); clear; intros; lra).
    assert (CU' := CU E1 Rle_0_1 NL).
    clear CU. set (cs := cumsum_from _ _) in CU'.
    assert (ADD : forall c b : f32, In b (b1 :: rest) -> is_finite c = true -> 0 <= B2R c ->
      Rabs (B2R c - (B2R b - B2R r0)) <= (1 + INR (length rest)) * G ->
      is_finite (add32 c r0) = true /\ B2R r0 <= B2R (add32 c r0) /\ Rabs (B2R (add32 c r0) - B2R b) <= eta).
    { intros c b Hb Fc C0 Ec. destruct (RG b (or_intror Hb)) as [Fb Bb]. destruct (HF b (or_intror Hb)) as [_ Ab].
      assert (KG : (1 + INR (length rest)) * G <= 1 / 8 * D).
      { replace (1 / 8 * D) with (65536 * G) by field. apply Rmult_le_compat_r; lra. }
      apply Rabs_le_inv in Ec. apply Rabs_le_inv in Ab.
      assert (AB : Rabs (B2R c + B2R r0) <= (rho + 1 / 8) * D) by (apply Rabs_le; lra).
      destruct (add_ok c r0 Fc Fr0) as [Fs Es].
      { apply below_127. eapply Rle_trans; [exact AB|]. apply big. lra. }
      pose proof (err (B2R c + B2R r0)) as E. rewrite <- Es in E.
      assert (E2 : Rabs (B2R (add32 c r0) - (B2R c + B2R r0)) <= u * ((rho + 1 / 8) * D) + bp (-150)).
      { eapply Rle_trans; [exact E|]. apply Rplus_le_compat_r, Rmult_le_compat_l; [lra|exact AB]. }
      apply Rabs_le_inv in E2. split; [exact Fs|]. split.
      - rewrite Es. rewrite <- (rnd_B2R r0) at 1. apply rnd_le. lra.
      - assert (RD : 0 <= rho * D) by (apply Rmult_le_pos; lra).
        assert (WD : (INR (length rest) + 1 + 1) * D <= W * D) by (apply Rmult_le_compat_r; lra).
        apply Rabs_le. lra. }
    constructor.
    - apply ADD; [left; reflexivity|exact Fd|exact d0|]. eapply Rle_trans; [exact Ed|].
      apply Rle_trans with (1 * G); [lra|]. apply Rmult_le_compat_r; lra.
    - assert (Q : forall (l cs : list f32), (forall b, In b l -> In b (b1 :: rest)) ->
        Forall2 (fun c' b : f32 => is_finite c' = true /\ 0 <= B2R c' /\ Rabs (B2R c' - (B2R b - B2R r0)) <= (1 + INR (length rest)) * G) cs l ->
        Forall2 (fun b' b : f32 => is_finite b' = true /\ B2R r0 <= B2R b' /\ Rabs (B2R b' - B2R b) <= eta) (map (fun c => add32 c r0) cs) l).
      { intros l cs' Hl H. induction H as [|c b cs'' l' (A & B & C) H IH]; [constructor|]. cbn [map]. constructor.
        - apply ADD; auto. apply Hl. left. reflexivity.
        - apply IH. intros y Hy. apply Hl. right. exact Hy. }
      apply Q; [intros y Hy; right; exact Hy|exact CU'].
  Qed.

  Lemma fold_min_ok : forall (l : list f32) a, is_finite a = true -> (forall b, In b l -> is_finite b = true /\ B2R a <= B2R b) ->
    is_finite (fold_left min32 l a) = true /\ B2R (fold_left min32 l a) = B2R a.
  Proof.
    induction l as [|b l IH]; intros a Fa H; [split; [exact Fa|reflexivity]|]. cbn [fold_left].
    destruct (H b (or_introl eq_refl)) as [Fb Bb].
    assert (M : min32 a b = a).
    { unfold min32. assert (Na : is_nan a = false) by (clear - Fa; destruct a; try discriminate; reflexivity).
      assert (Nb : is_nan b = false) by (clear - Fb; destruct b; try discriminate; reflexivity).
      rewrite Na, Nb. cbn [orb]. rewrite (Bleb_correct 24 128 a b Fa Fb), (Rle_bool_true _ _ Bb). reflexivity. }
    rewrite M. apply IH; [exact Fa|]. intros y Hy. apply H. right. exact Hy.
  Qed.

  Variables (i : nat) (N : R).
  Hypothesis HI : INR i + W + rho <= N.
  Hypothesis HN16 : N <= bp 16.
  Notation Z := (/ 1048576 * N).

  Variable bs : list f32.
  Hypothesis Hbs : Forall2 (fun b' b : f32 => is_finite b' = true /\ B2R r0 <= B2R b' /\ Rabs (B2R b' - B2R b) <= eta) bs (b1 :: rest).

  Lemma bs_in b' : In b' bs -> is_finite b' = true /\ B2R r0 <= B2R b' <= B2R r0 + D + eta.
  Proof.
    assert (Q : forall l' l, (forall b, In b l -> In b (b1 :: rest)) ->
      Forall2 (fun b' b : f32 => is_finite b' = true /\ B2R r0 <= B2R b' /\ Rabs (B2R b' - B2R b) <= eta) l' l ->
      In b' l' -> is_finite b' = true /\ B2R r0 <= B2R b' <= B2R r0 + D + eta).
    { intros l' l Hl H. induction H as [|c b l' l (A & B & C) H IH]; [intros []|]. intros [<-|Hc].
      - split; [exact A|]. split; [exact B|]. pose proof (sorted_range b (or_intror (Hl b (or_introl eq_refl)))). apply Rabs_le_inv in C. lra.
      - apply IH; [|exact Hc]. intros y Hy. apply Hl. right. exact Hy. }
    apply (Q bs (b1 :: rest)); [tauto|exact Hbs].
  Qed.

  Lemma bs_last : exists b', In b' bs /\ Rabs (B2R b' - (B2R r0 + D)) <= eta.
  Proof.
    assert (Q : forall l' (l : list f32) z, Forall2 (fun b' b : f32 => is_finite b' = true /\ B2R r0 <= B2R b' /\ Rabs (B2R b' - B2R b) <= eta) l' (z :: l) ->
      exists b', In b' l' /\ Rabs (B2R b' - B2R (last (z :: l) nan32)) <= eta).
    { intros l' l. revert l'. induction l as [|y l IH]; intros l' z H.
      - inversion H as [|c ? l0 ? (A & B & C) H0]; subst. exists c. split; [left; reflexivity|exact C].
      - inversion H as [|c ? l0 ? (A & B & C) H0]; subst. destruct (IH _ _ H0) as (b' & I1 & I2). exists b'. split; [right; exact I1|exact I2]. }
    destruct (Q bs rest b1 Hbs) as (b' & I1 & I2). exists b'. split; [exact I1|].
    replace (B2R r0 + D) with (B2R (last (b1 :: rest) nan32)); [exact I2|].
    change (last (b1 :: rest) nan32) with (last row nan32). rewrite <- HE. ring.
  Qed.

  Notation row' := (r0 :: bs).
  Notation s := (row_scale32 row').
  Notation h := (row_shift32 i row').

  Lemma min_ok : is_finite (row_min32 row') = true /\ B2R (row_min32 row') = B2R r0.
  Proof. cbn [row_min32]. apply fold_min_ok; [exact Fr0|]. intros b Hb. destruct (bs_in b Hb) as (A & B & _). split; assumption. Qed.

  Lemma scale_ok : is_finite s = true /\ 3 / 4 <= B2R s * D <= 3 / 2 /\
    (exists R, D - eta <= R <= D + eta /\ Rabs (R * B2R s - 1) <= 4 * u /\ (forall b', In b' bs -> B2R b' - B2R r0 <= R)).
  Proof.
    pose proof D0 as D0. pose proof tD as T. pose proof eta_small as ES.
    destruct min_ok as [Fmn Emn].
    destruct (fold_max bs r0 Fr0) as (Fmx & Imx & Gmx).
    { apply Forall_forall. intros b Hb. apply bs_in, Hb. }
    change (fold_left max32 bs r0) with (row_max32 row') in Fmx, Imx, Gmx. set (mx := row_max32 row') in *.
    set (R := B2R mx - B2R r0). destruct bs_last as (bl & Il & Bl). apply Rabs_le_inv in Bl.
    assert (R1 : D - eta <= R <= D + eta).
    { split.
      - pose proof (Gmx bl (or_intror Il)). unfold R. lra.
      - unfold R. destruct Imx as (m & [Im|Im] & Em); [subst m; lra|]. pose proof (bs_in m Im). lra. }
    destruct (sub_ok mx (row_min32 row') Fmx Fmn) as [Fd Ed].
    { rewrite Emn. fold R. apply below_127. rewrite Rabs_pos_eq by lra. pose proof (big 2 ltac:(lra)). lra. }
    rewrite Emn in Ed. fold R in Ed. pose proof (err R) as E1. rewrite <- Ed, (Rabs_pos_eq R) in E1 by lra. apply Rabs_le_inv in E1.
    set (d := sub32 mx (row_min32 row')) in *.
    assert (R2 : 7 / 8 * D <= R <= 9 / 8 * D) by lra.
    assert (E2 : - (101 / 100 * u * R) <= B2R d - R <= 101 / 100 * u * R) by lra.
    assert (d0 : 3 / 4 * D <= B2R d) by lra.
    assert (ND : B2R d <> 0) by lra.
    assert (NB : Beqb d zero32 = false).
    { rewrite (Beqb_correct 24 128 d zero32 Fd eq_refl). cbn [B2R zero32]. apply Req_bool_false. exact ND. }
    assert (ES' : s = div32 one32 d) by (unfold row_scale32; fold mx d; rewrite NB; reflexivity).
    set (q := / B2R d). assert (Q0 : 0 < q) by (apply Rinv_0_lt_compat; lra).
    assert (QD : B2R d * q = 1) by (apply Rinv_r; exact ND).
    assert (Q1 : q <= 2 * bp 60).
    { assert (D * q <= 4 / 3) by nra. assert (bp (-60) * q <= 4 / 3) by (eapply Rle_trans; [apply Rmult_le_compat_r; [lra|apply HD]|exact H]).
      apply Rmult_le_reg_l with (bp (-60)); [apply bpow_gt_0|]. replace (bp (-60) * (2 * bp 60)) with 2; [lra|].
      replace (bp (-60) * (2 * bp 60)) with (2 * (bp (-60) * bp 60)) by ring. rewrite <- bpow_plus. cbn. ring. }
    assert (E1q : B2R (one32) / B2R d = q) by (unfold q, Rdiv; change (B2R one32) with (F2R (Float radix2 8388608 (-23))); unfold F2R; cbn [Fnum Fexp]; change (bp (-23)) with (/ 8388608); field; exact ND).
    destruct (div_ok one32 d eq_refl ND) as [Fs Es].
    { rewrite E1q. apply below_127. rewrite Rabs_pos_eq by lra. eapply Rle_trans; [exact Q1|].
      change 2 with (bp 1). rewrite <- bpow_plus. apply bpow_le. lia. }
    rewrite E1q in Es. rewrite <- ES' in Fs, Es. pose proof (err q) as E3. rewrite <- Es, (Rabs_pos_eq q) in E3 by lra. apply Rabs_le_inv in E3.
    assert (S0 : 0 <= B2R s) by (rewrite Es, <- rnd_0; apply rnd_le; lra).
    assert (TD : bp (-150) * R <= / 100 * u).
    { apply Rle_trans with (bp (-150) * (2 * bp 60)); [apply Rmult_le_compat_l; [apply bpow_ge_0|lra]|].
      change 2 with (bp 1). rewrite <- !bpow_plus. apply Rle_trans with (bp (-31)); [apply bpow_le; lia|]. change (bp (-31)) with (/ 2147483648). lra. }
    set (a := R * q). assert (A0 : 0 < a) by (apply Rmult_lt_0_compat; lra).
    assert (A1 : - (101 / 100 * u * a) <= 1 - a <= 101 / 100 * u * a).
    { unfold a. split.
      - assert (H := Rmult_le_compat_r q _ _ (Rlt_le _ _ Q0) (proj1 E2)). rewrite <- QD. lra.
      - assert (H := Rmult_le_compat_r q _ _ (Rlt_le _ _ Q0) (proj2 E2)). rewrite <- QD. lra. }
    assert (R0 : 0 <= R) by lra.
    assert (A2 : - (u * a + / 100 * u) <= R * B2R s - a <= u * a + / 100 * u).
    { unfold a. split.
      - assert (H := Rmult_le_compat_l R _ _ R0 (proj1 E3)). lra.
      - assert (H := Rmult_le_compat_l R _ _ R0 (proj2 E3)). lra. }
    assert (A3 : Rabs (R * B2R s - 1) <= 4 * u) by (apply Rabs_le; lra).
    split; [exact Fs|]. split.
    - apply Rabs_le_inv in A3. split.
      + assert (H := Rmult_le_compat_r (B2R s) _ _ S0 (proj2 R2)). lra.
      + assert (H := Rmult_le_compat_r (B2R s) _ _ S0 (proj1 R2)). lra.
    - exists R. split; [exact R1|]. split; [exact A3|]. intros b' Hb. pose proof (Gmx b' (or_intror Hb)). unfold R. lra.
  Qed.

  Lemma Z0 : 0 < Z <= / 16.
  Proof. change (bp 16) with 65536 in HN16. pose proof (pos_INR i). lra. Qed.
  Lemma uZ : 32 * u <= Z.
  Proof. pose proof (pos_INR i). lra. Qed.

  Lemma eta_Z : eta * B2R s <= 3 * Z.
  Proof.
    destruct scale_ok as (_ & [_ H] & _). pose proof (pos_INR i).
    replace (eta * B2R s) with (/ 524288 * (W + rho) * (B2R s * D)) by ring.
    apply Rle_trans with (/ 524288 * (W + rho) * (3 / 2)); [apply Rmult_le_compat_l; [apply Rmult_le_pos|]; lra|lra].
  Qed.

  Lemma shift_ok : is_finite h = true /\ Rabs (B2R h - (INR i - B2R r0 * B2R s)) <= u * (INR i + 4 * rho + 1) /\ Rabs (B2R h) <= 524288.
  Proof.
    pose proof D0 as D0. pose proof tD as T.
    destruct scale_ok as (Fs & [S1 S2] & _). destruct min_ok as [Fmn Emn]. pose proof (pos_INR i) as I0.
    change (bp 16) with 65536 in HN16.
    assert (T2 : bp (-150) <= / 1024 * u).
    { apply Rle_trans with (bp (-34)); [apply bpow_le; lia|]. change (bp (-34)) with (/ 17179869184). lra. }
    assert (S0 : 0 < B2R s) by (apply Rmult_lt_reg_r with D; lra).
    assert (P1 : Rabs (B2R r0 * B2R s) <= 3 / 2 * rho).
    { rewrite Rabs_mult, (Rabs_pos_eq (B2R s)) by lra. apply Rle_trans with (rho * D * B2R s); [apply Rmult_le_compat_r; lra|].
      replace (rho * D * B2R s) with (rho * (B2R s * D)) by ring. rewrite (Rmult_comm (3 / 2)). apply Rmult_le_compat_l; lra. }
    destruct (mul_ok (row_min32 row') s Fmn Fs) as [Fp Ep].
    { rewrite Emn. apply below_127. eapply Rle_trans; [exact P1|]. apply Rle_trans with (bp 17); [change (bp 17) with 131072; lra|apply bpow_le; lia]. }
    rewrite Emn in Ep. pose proof (err (B2R r0 * B2R s)) as E1. rewrite <- Ep in E1. set (p := mul32 (row_min32 row') s) in *.
    destruct (cast_int_ok (Z.of_nat i)) as [Fi Ei].
    { rewrite <- INR_IZR_INZ, Rabs_pos_eq by exact I0. apply Rle_trans with (bp 17); [change (bp 17) with 131072; lra|apply bpow_le; lia]. }
    assert (Bi : (Z.of_nat i <= 65536)%Z) by (apply le_IZR; rewrite <- INR_IZR_INZ; lra).
    assert (Ei' : B2R (cast_int (Z.of_nat i)) = INR i).
    { rewrite Ei, INR_IZR_INZ. unfold single. apply round_generic; auto with typeclass_instances.
      apply generic_format_FLT. apply FLT_spec with (Float radix2 (Z.of_nat i) 0); [unfold F2R; cbn; ring|cbn; lia|cbn; lia]. }
    apply Rabs_le_inv in P1.
    assert (E1' : Rabs (B2R p - B2R r0 * B2R s) <= u * (3 / 2 * rho) + bp (-150)).
    { eapply Rle_trans; [exact E1|]. apply Rplus_le_compat_r, Rmult_le_compat_l; [lra|]. apply Rabs_le. lra. }
    apply Rabs_le_inv in E1'.
    assert (B1 : Rabs (INR i - B2R p) <= INR i + 2 * rho) by (apply Rabs_le; lra).
    destruct (sub_ok (cast_int (Z.of_nat i)) p Fi Fp) as [Fh Eh].
    { rewrite Ei'. apply below_127. eapply Rle_trans; [exact B1|]. apply Rle_trans with (bp 18); [change (bp 18) with 262144; lra|apply bpow_le; lia]. }
    rewrite Ei' in Eh. pose proof (err (INR i - B2R p)) as E2. rewrite <- Eh in E2.
    change (sub32 (cast_int (Z.of_nat i)) p) with h in *.
    assert (E2' : Rabs (B2R h - (INR i - B2R p)) <= u * (INR i + 2 * rho) + bp (-150)).
    { eapply Rle_trans; [exact E2|]. apply Rplus_le_compat_r, Rmult_le_compat_l; [lra|exact B1]. }
    apply Rabs_le_inv in E2'. apply Rabs_le_inv in B1. split; [exact Fh|]. split; apply Rabs_le; lra.
  Qed.

  Notation T := (place_R i row').

  Lemma T_mono y z : y <= z -> T y <= T z.
  Proof.
    intro H. unfold place_R. destruct scale_ok as (_ & [S1 S2] & _). pose proof D0.
    assert (S0 : 0 < B2R s) by (apply Rmult_lt_reg_r with D; lra).
    apply rnd_le, Rplus_le_compat_r, rnd_le, Rmult_le_compat_r; lra.
  Qed.

  Lemma place_ok (x : f32) : is_finite x = true -> Rabs (B2R x) <= bp 60 \/ Rabs (B2R x) <= (rho + 2) * D ->
    is_finite (place32 s h x) = true /\ B2R (place32 s h x) = T (B2R x).
  Proof.
    intros Fx Bx. destruct scale_ok as (Fs & [S1 S2] & _). destruct shift_ok as (Fh & _ & Bh). pose proof D0 as D0.
    assert (S0 : 0 < B2R s) by (apply Rmult_lt_reg_r with D; lra).
    assert (S3 : B2R s <= bp 61).
    { apply Rmult_le_reg_r with (bp (-60)); [apply bpow_gt_0|]. rewrite <- bpow_plus. change (bp (61 + -60)) with 2.
      apply Rle_trans with (B2R s * D); [apply Rmult_le_compat_l; [lra|apply HD]|lra]. }
    assert (P : Rabs (B2R x * B2R s) <= bp 121).
    { rewrite Rabs_mult, (Rabs_pos_eq (B2R s)) by lra. change 121%Z with (60 + 61)%Z. rewrite bpow_plus.
      destruct Bx as [Bx|Bx]; [apply Rmult_le_compat; [apply Rabs_pos|lra|exact Bx|exact S3]|].
      apply Rle_trans with ((rho + 2) * D * B2R s); [apply Rmult_le_compat_r; lra|]. rewrite <- bpow_plus. apply Rle_trans with (bp 18); [|apply bpow_le; lia].
      replace ((rho + 2) * D * B2R s) with ((rho + 2) * (B2R s * D)) by ring. change (bp 16) with 65536 in HN16. change (bp 18) with 262144. pose proof (pos_INR i).
      apply Rle_trans with ((rho + 2) * (3 / 2)); [apply Rmult_le_compat_l; lra|lra]. }
    destruct (mul_ok x s Fx Fs) as [Fm Em].
    { apply below_127. eapply Rle_trans; [exact P|]. apply bpow_le. lia. }
    assert (Q : Rabs (B2R (mul32 x s)) <= bp 121) by (rewrite Em; apply (rnd_abs_bpow _ 121); [lia|exact P]).
    destruct (add_ok (mul32 x s) h Fm Fh) as [Fa Ea].
    { apply below_127. eapply Rle_trans; [apply Rabs_triang|]. apply Rle_trans with (bp 121 + bp 121).
      - apply Rplus_le_compat; [exact Q|]. eapply Rle_trans; [exact Bh|]. change 524288 with (bp 19). apply bpow_le. lia.
      - replace (bp 121 + bp 121) with (bp 1 * bp 121) by (change (bp 1) with 2; ring). rewrite <- bpow_plus. apply bpow_le. lia. }
    split; [exact Fa|]. unfold place32. rewrite Ea, Em. reflexivity.
  Qed.

  Lemma T_ok y : Rabs y <= (rho + 2) * D -> Rabs (T y - (INR i + (y - B2R r0) * B2R s)) <= Z.
  Proof.
    intro Hy. pose proof D0 as D0. pose proof tD as TT. pose proof uZ as UZ.
    destruct scale_ok as (Fs & [S1 S2] & _). destruct shift_ok as (Fh & Eh & Bh). pose proof (pos_INR i) as I0.
    assert (T2 : bp (-150) <= / 1024 * u).
    { apply Rle_trans with (bp (-34)); [apply bpow_le; lia|]. change (bp (-34)) with (/ 17179869184). lra. }
    assert (S0 : 0 < B2R s) by (apply Rmult_lt_reg_r with D; lra).
    assert (P1 : Rabs (y * B2R s) <= 3 / 2 * (rho + 2)).
    { rewrite Rabs_mult, (Rabs_pos_eq (B2R s)) by lra. apply Rle_trans with ((rho + 2) * D * B2R s); [apply Rmult_le_compat_r; lra|].
      replace ((rho + 2) * D * B2R s) with ((rho + 2) * (B2R s * D)) by ring. rewrite (Rmult_comm (3 / 2)). apply Rmult_le_compat_l; lra. }
    assert (P2 : Rabs (B2R r0 * B2R s) <= 3 / 2 * rho).
    { rewrite Rabs_mult, (Rabs_pos_eq (B2R s)) by lra. apply Rle_trans with (rho * D * B2R s); [apply Rmult_le_compat_r; lra|].
      replace (rho * D * B2R s) with (rho * (B2R s * D)) by ring. rewrite (Rmult_comm (3 / 2)). apply Rmult_le_compat_l; lra. }
    pose proof (err (y * B2R s)) as E1.
    assert (E1' : Rabs (rnd (y * B2R s) - y * B2R s) <= u * (3 / 2 * (rho + 2)) + bp (-150)).
    { eapply Rle_trans; [exact E1|]. apply Rplus_le_compat_r, Rmult_le_compat_l; [lra|exact P1]. }
    apply Rabs_le_inv in E1'. apply Rabs_le_inv in Eh. apply Rabs_le_inv in P1. apply Rabs_le_inv in P2.
    change (bp 16) with 65536 in HN16.
    assert (B1 : Rabs (rnd (y * B2R s) + B2R h) <= INR i + 3 * rho + 4) by (apply Rabs_le; lra).
    pose proof (err (rnd (y * B2R s) + B2R h)) as E2.
    assert (E2' : Rabs (T y - (rnd (y * B2R s) + B2R h)) <= u * (INR i + 3 * rho + 4) + bp (-150)).
    { eapply Rle_trans; [exact E2|]. apply Rplus_le_compat_r, Rmult_le_compat_l; [lra|exact B1]. }
    apply Rabs_le_inv in E2'. apply Rabs_le. lra.
  Qed.
End Row.

(** All of it, for the boundaries [row] of key number [i] and the boundaries [row'] made from them. *)
Record facts (rho N : R) (i : nat) (row row' : list f32) : Prop := {
  f_len : length row' = length row;
  f_scale : 3 / 4 <= B2R (row_scale32 row') * spread row <= 3 / 2;
  f_one : Rabs (B2R (row_scale32 row') * spread row - 1) <= 4 * (/ 1048576 * N);
  f_mono : forall y z, y <= z -> place_R i row' y <= place_R i row' z;
  f_place : forall x : f32, is_finite x = true -> Rabs (B2R x) <= bp 60 \/ Rabs (B2R x) <= (rho + 2) * spread row ->
    is_finite (place32 (row_scale32 row') (row_shift32 i row') x) = true /\ B2R (place32 (row_scale32 row') (row_shift32 i row') x) = place_R i row' (B2R x);
  f_T : forall y, Rabs y <= (rho + 2) * spread row ->
    Rabs (place_R i row' y - (INR i + (y - B2R (hd nan32 row)) * B2R (row_scale32 row'))) <= / 1048576 * N;
  f_bs : Forall2 (fun b' b : f32 => is_finite b' = true /\ Rabs (B2R b') <= (rho + 2) * spread row /\ B2R (hd nan32 row) <= B2R b' /\
    Rabs (B2R b' - B2R b) * 8 <= N * / 65536 * spread row /\ Rabs (B2R b' - B2R b) * B2R (row_scale32 row') <= 3 * (/ 1048576 * N) /\
    (B2R b' - B2R (hd nan32 row)) * B2R (row_scale32 row') <= 1 + / 1048576 * N) (tl row') (tl row)
}.

Lemma usual_facts rho N i (row : list f32) : (2 <= length row)%nat -> usual_row rho row -> INR i + INR (length row) + rho <= N -> N <= bp 16 ->
  exists row', strict_row32 row = Some row' /\ facts rho N i row row'.
Proof.
  intros L2 (HF & HS & HD) HI HN. destruct row as [|r0 [|b1 rest]]; cbn [length] in L2; try lia.
  change (/ IZR (2 ^ 60)) with (bp (-60)) in HD. change (IZR (2 ^ 60)) with (bp 60) in HD.
  set (row := r0 :: b1 :: rest) in *. set (D := spread row) in *. set (W := INR (length row)) in *.
  assert (HE : B2R (last row nan32) - B2R r0 = D) by reflexivity.
  assert (D0 : 0 < D) by (pose proof (bpow_gt_0 radix2 (-60)); lra).
  destruct (HF r0 (or_introl eq_refl)) as [F0 B0].
  assert (LI : In (last row nan32) row).
  { unfold row. clear. generalize b1. induction rest as [|z r IH]; intro b; [right; left; reflexivity|].
    change (last (r0 :: b :: z :: r) nan32) with (last (r0 :: z :: r) nan32). destruct (IH z) as [E|E]; [left; exact E|right; right; exact E]. }
  assert (Hrho : / 2 <= rho).
  { destruct (HF _ LI) as [_ Bl]. apply Rabs_le_inv in Bl. assert (B0' := Rabs_le_inv _ _ B0).
    apply Rmult_le_reg_r with D; [exact D0|]. lra. }
  assert (HW : 2 <= W).
  { unfold W. change 2 with (INR 2). apply le_INR. exact L2. }
  pose proof (pos_INR i) as I0. assert (HN' : W + rho <= bp 16) by (unfold W in *; lra).
  destruct (strict_ok D rho W r0 HD Hrho HW HN' F0 b1 rest (Rle_refl W) HF HS HE) as (bs & Es & Hbs).
  exists (r0 :: bs). split; [exact Es|].
  assert (SC := scale_ok D rho W r0 HD Hrho HW HN' F0 B0 b1 rest HF HS HE bs Hbs).
  assert (EZ := eta_Z D rho W r0 HD Hrho HW HN' F0 B0 b1 rest HF HS HE i N HI bs Hbs).
  assert (ES := eta_small D rho W HD Hrho HW HN').
  assert (UZ := uZ rho W Hrho HW i N HI).
  destruct SC as (Fs & S12 & R & HR & HR1 & HRb).
  set (s := B2R (row_scale32 (r0 :: bs))) in *. set (eta := / 524288 * (W + rho) * D) in *.
  assert (S0 : 0 < s) by (apply Rmult_lt_reg_r with D; lra).
  assert (BI : forall b', In b' bs -> is_finite b' = true /\ B2R r0 <= B2R b' <= B2R r0 + D + eta) by (eapply (bs_in D rho W r0); eassumption).
  constructor.
  - assert (LB : length bs = length (b1 :: rest)) by (clear - Hbs; induction Hbs; cbn [length]; congruence).
    unfold row. cbn [length] in *. rewrite LB. reflexivity.
  - fold D. fold s. exact S12.
  - fold D. fold s. apply Rabs_le_inv in HR1.
    assert (H1 := Rmult_le_compat_r s _ _ (Rlt_le _ _ S0) (proj1 HR)). assert (H2 := Rmult_le_compat_r s _ _ (Rlt_le _ _ S0) (proj2 HR)).
    apply Rabs_le. lra.
  - intros y z. apply (T_mono D rho W r0 HD Hrho HW HN' F0 B0 b1 rest HF HS HE i bs Hbs).
  - apply (place_ok D rho W r0 HD Hrho HW HN' F0 B0 b1 rest HF HS HE i N HI HN bs Hbs).
  - apply (T_ok D rho W r0 HD Hrho HW HN' F0 B0 b1 rest HF HS HE i N HI HN bs Hbs).
  - cbn [tl row hd]. fold D s.
    assert (Q : forall l' l, (forall b', In b' l' -> In b' bs) ->
      Forall2 (fun b' b : f32 => is_finite b' = true /\ B2R r0 <= B2R b' /\ Rabs (B2R b' - B2R b) <= eta) l' l ->
      Forall2 (fun b' b : f32 => is_finite b' = true /\ Rabs (B2R b') <= (rho + 2) * D /\ B2R r0 <= B2R b' /\
        Rabs (B2R b' - B2R b) * 8 <= N * / 65536 * D /\ Rabs (B2R b' - B2R b) * s <= 3 * (/ 1048576 * N) /\
        (B2R b' - B2R r0) * s <= 1 + / 1048576 * N) l' l).
    { intros l' l Hl H. induction H as [|b' b l' l (A & B & C) H IH]; constructor; [|apply IH; intros y Hy; apply Hl; right; exact Hy].
      assert (Ib := Hl b' (or_introl eq_refl)). destruct (BI b' Ib) as (_ & _ & B2). split; [exact A|]. split; [|split; [exact B|split; [|split]]].
      - apply Rabs_le_inv in B0. apply Rabs_le. lra.
      - apply Rle_trans with (eta * 8); [lra|]. unfold eta. replace (/ 524288 * (W + rho) * D * 8) with ((W + rho) * / 65536 * D) by field.
        apply Rmult_le_compat_r; [lra|]. apply Rmult_le_compat_r; lra.
      - apply Rle_trans with (eta * s); [apply Rmult_le_compat_r; lra|exact EZ].
      - apply Rle_trans with (R * s); [apply Rmult_le_compat_r; [lra|apply HRb; exact Ib]|]. apply Rabs_le_inv in HR1. lra. }
    apply Q; [tauto|exact Hbs].
Qed.
