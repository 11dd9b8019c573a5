(** Concrete keys and boundaries for the theorems of [FpkProps]. *)
From Coq Require Import String List ZArith Reals Bool Sorted Lra Lia.
From Flocq Require Import Core BinarySingleNaN.
From Verif Require Import IeeeModel IeeeSpec IeeeProofs IeeeExample FsumExample FpkModel FpkSpec FpkSearch FpkRow FpkProofs HistogramModel HistogramProofs.
Import ListNotations.
Local Open Scope R_scope.

Local Existing Instance prec32.
Local Existing Instance emax32.

(** Two shops, with prices in four buckets. *)
Definition shops : list string := ["bakery"%string; "jeweller"%string].
Definition bakery : list f32 := [int32 1; int32 2; int32 4].
Definition jeweller : list f32 := [int32 200; int32 900; int32 4000].
Definition prices : list (list f32) := [bakery; jeweller].

Lemma ints_sorted (l : list Z) : Sorted (fun a b => (a <= b)%Z) l -> (forall z, In z l -> (Z.abs z <= 2 ^ 24)%Z) ->
  Sorted (fun a b : f32 => B2R a <= B2R b) (map int32 l).
Proof.
  intro HS. induction HS as [|a l HS IH Hd]; intro HB; [constructor|]. cbn [map]. constructor; [apply IH; intros z Hz; apply HB; right; exact Hz|].
  destruct Hd as [|b l L]; constructor. destruct (int32_ok a (HB a (or_introl eq_refl))) as [_ ->], (int32_ok b (HB b (or_intror (or_introl eq_refl)))) as [_ ->].
  apply IZR_le. exact L.
Qed.

Lemma ints_usual rho (l : list Z) : l <> [] -> Sorted (fun a b => (a <= b)%Z) l ->
  (forall z, In z l -> (Z.abs z <= 2 ^ 24)%Z /\ IZR (Z.abs z) <= rho * IZR (last l 0%Z - hd 0%Z l)) -> (1 <= last l 0 - hd 0 l <= 2 ^ 60)%Z ->
  usual_row rho (map int32 l) /\ spread (map int32 l) = IZR (last l 0%Z - hd 0%Z l).
Proof.
  intros NE HS HB HD.
  assert (ES : spread (map int32 l) = IZR (last l 0%Z - hd 0%Z l)).
  { unfold spread. rewrite minus_IZR. f_equal; [|f_equal].
    - destruct (exists_last NE) as (p & z & E). rewrite E, map_app. cbn [map]. rewrite !last_last. apply int32_ok. apply HB. rewrite E. apply in_or_app. right. left. reflexivity.
    - destruct l as [|z l]; [congruence|]. cbn [map hd]. apply int32_ok, HB. left. reflexivity. }
  split; [|exact ES]. split; [|split].
  - intros b Hb. apply in_map_iff in Hb. destruct Hb as (z & <- & Hz). destruct (HB z Hz) as [B1 B2]. destruct (int32_ok z B1) as [F ->]. split; [exact F|].
    rewrite ES, <- abs_IZR. exact B2.
  - apply ints_sorted; [exact HS|]. intros z Hz. apply HB, Hz.
  - rewrite ES. split; [|apply IZR_le; lia]. apply Rle_trans with 1; [|apply IZR_le; lia]. change (IZR (2 ^ 60)) with (bpow radix2 60).
    change (/ bpow radix2 60) with (bpow radix2 (-60)). apply (bpow_le radix2 (-60) 0). lia.
Qed.

Lemma bakery_usual : usual_row 2 bakery /\ spread bakery = 3.
Proof.
  destruct (ints_usual 2 [1; 2; 4]%Z) as [A B].
  - discriminate.
  - repeat constructor; lia.
  - intros z [<-|[<-|[<-|[]]]]; cbn [last hd]; (split; [lia|]); rewrite <- mult_IZR; apply IZR_le; lia.
  - cbn [last hd]. lia.
  - split; [exact A|]. change bakery with (map int32 [1; 2; 4]%Z). rewrite B. cbn [last hd]. apply f_equal. lia.
Qed.

Lemma jeweller_usual : usual_row 2 jeweller /\ spread jeweller = 3800.
Proof.
  destruct (ints_usual 2 [200; 900; 4000]%Z) as [A B].
  - discriminate.
  - repeat constructor; lia.
  - intros z [<-|[<-|[<-|[]]]]; cbn [last hd]; (split; [lia|]); rewrite <- mult_IZR; apply IZR_le; lia.
  - cbn [last hd]. lia.
  - split; [exact A|]. change jeweller with (map int32 [200; 900; 4000]%Z). rewrite B. cbn [last hd]. apply f_equal. lia.
Qed.

Lemma shops_distinct : NoDup shops.
Proof. repeat constructor; intros H; repeat destruct H as [H|H]; try discriminate; contradiction. Qed.

(** Two keys with the boundaries 1, 2 and 3, and the greatest number below 2. *)
Definition one_two_three : list f32 := [int32 1; int32 2; int32 3].
Definition below_two : f32 := mk32 16777215 (-23).

Lemma one_two_three_usual : usual_row 2 one_two_three.
Proof.
  destruct (ints_usual 2 [1; 2; 3]%Z) as [A _].
  - discriminate.
  - repeat constructor; lia.
  - intros z [<-|[<-|[<-|[]]]]; cbn [last hd]; (split; [lia|]); rewrite <- mult_IZR; apply IZR_le; lia.
  - cbn [last hd]. lia.
  - exact A.
Qed.

Lemma SF_B2R (a : f32) sf : B2SF a = sf -> B2R a = SF2R radix2 sf.
Proof. intros <-. symmetry. apply SF2R_B2SF. Qed.

Lemma below_two_value : is_finite below_two = true /\ B2R below_two = 2 - / 8388608.
Proof.
  split; [vm_compute; reflexivity|]. rewrite (SF_B2R below_two (SpecFloat.S754_finite false 16777215 (-23))) by (vm_compute; reflexivity).
  cbn [SF2R]. unfold F2R. cbn [Fnum Fexp cond_Zopp]. change (bpow radix2 (-23)) with (/ 8388608). lra.
Qed.

(** Very many keys, all with the boundaries 0, 1/4, 1/2 and 1. *)
Definition quarters : list f32 := [int32 0; mk32 1 (-2); mk32 1 (-1); int32 1].
Definition quarters' : list f32 := match strict_row32 quarters with Some r => r | None => [] end.
Definition three_eighths : f32 := mk32 3 (-3).
Definition many_names (n : nat) : list string := map (fun i => as_string (Z.of_nat i)) (seq 0 n).

Lemma many_names_distinct n : NoDup (many_names n).
Proof.
  apply FinFun.Injective_map_NoDup; [|apply seq_NoDup]. intros a b E. apply as_string_inj, Nat2Z.inj in E. exact E.
Qed.

Lemma quarters_values : is_finite (mk32 1 (-2)) = true /\ B2R (mk32 1 (-2)) = / 4 /\ is_finite (mk32 1 (-1)) = true /\ B2R (mk32 1 (-1)) = / 2
  /\ is_finite three_eighths = true /\ B2R three_eighths = 3 / 8.
Proof.
  split; [vm_compute; reflexivity|]. split; [|split; [vm_compute; reflexivity|split; [|split; [vm_compute; reflexivity|]]]].
  - rewrite (SF_B2R _ (SpecFloat.S754_finite false 8388608 (-25))) by (vm_compute; reflexivity). cbn [SF2R]. unfold F2R. cbn [Fnum Fexp cond_Zopp].
    change (bpow radix2 (-25)) with (/ 33554432). lra.
  - rewrite (SF_B2R _ (SpecFloat.S754_finite false 8388608 (-24))) by (vm_compute; reflexivity). cbn [SF2R]. unfold F2R. cbn [Fnum Fexp cond_Zopp].
    change (bpow radix2 (-24)) with (/ 16777216). lra.
  - rewrite (SF_B2R _ (SpecFloat.S754_finite false 12582912 (-25))) by (vm_compute; reflexivity). cbn [SF2R]. unfold F2R. cbn [Fnum Fexp cond_Zopp].
    change (bpow radix2 (-25)) with (/ 33554432). lra.
Qed.

Lemma quarters_usual : usual_row 1 quarters /\ spread quarters = 1.
Proof.
  destruct quarters_values as (F1 & E1 & F2 & E2 & _). destruct (int32_ok 0 ltac:(lia)) as [F0 E0]. destruct (int32_ok 1 ltac:(lia)) as [F3 E3].
  assert (ES : spread quarters = 1) by (unfold spread; cbn [last hd quarters]; rewrite E0, E3; lra).
  split; [|exact ES]. split; [|split].
  - rewrite ES. intros b [<-|[<-|[<-|[<-|[]]]]]; (split; [assumption|]).
    + rewrite E0, Rabs_R0. lra.
    + rewrite E1, Rabs_pos_eq; lra.
    + rewrite E2, Rabs_pos_eq; lra.
    + rewrite E3, Rabs_pos_eq; lra.
  - repeat constructor; rewrite ?E0, ?E1, ?E2, ?E3; lra.
  - rewrite ES. change (IZR (2 ^ 60)) with (bpow radix2 60). split; [change (/ bpow radix2 60) with (bpow radix2 (-60)); apply (bpow_le radix2 (-60) 0); lia|apply (bpow_le radix2 0 60); lia].
Qed.

Lemma quarters'_facts : strict_row32 quarters = Some quarters' /\ List.length quarters' = 4%nat /\
  (forall b, In b quarters' -> is_finite b = true /\ 0 <= B2R b <= 1) /\ is_finite (row_scale32 quarters') = true /\ B2R (row_scale32 quarters') = 1 /\
  is_finite (row_min32 quarters') = true /\ B2R (row_min32 quarters') = 0.
Proof.
  split; [reflexivity|].
  assert (E : map B2SF quarters' = [SpecFloat.S754_zero false; SpecFloat.S754_finite false 8388608 (-25); SpecFloat.S754_finite false 8388608 (-24);
    SpecFloat.S754_finite false 8388608 (-23)]) by (vm_compute; reflexivity).
  split; [reflexivity|]. split; [|split; [vm_compute; reflexivity|split; [|split; [vm_compute; reflexivity|]]]].
  - intros b Hb. apply (in_map B2SF) in Hb. rewrite E in Hb. destruct Hb as [H|[H|[H|[H|[]]]]]; symmetry in H; (split; [rewrite <- is_finite_SF_B2SF, H; reflexivity|]);
      rewrite (SF_B2R _ _ H); cbn [SF2R]; unfold F2R; cbn [Fnum Fexp cond_Zopp].
    + lra.
    + change (bpow radix2 (-25)) with (/ 33554432). lra.
    + change (bpow radix2 (-24)) with (/ 16777216). lra.
    + change (bpow radix2 (-23)) with (/ 8388608). lra.
  - rewrite (SF_B2R _ (SpecFloat.S754_finite false 8388608 (-23))) by (vm_compute; reflexivity). cbn [SF2R]. unfold F2R. cbn [Fnum Fexp cond_Zopp].
    change (bpow radix2 (-23)) with (/ 8388608). lra.
  - rewrite (SF_B2R _ (SpecFloat.S754_zero false)) by (vm_compute; reflexivity). reflexivity.
Qed.

(** At 2^24 the next single precision number is 2^24 + 2. *)
Lemma round_at_24 : single (16777216 + 1) = 16777216.
Proof.
  destruct (int32_ok 16777216 ltac:(lia)) as [F1 E1]. destruct (int32_ok 1 ltac:(lia)) as [F2 E2].
  destruct (add_ok (int32 16777216) (int32 1) F1 F2) as [F3 E3].
  - rewrite E1, E2. apply below_127. rewrite Rabs_pos_eq by lra. apply Rle_trans with (bpow radix2 25); [change (bpow radix2 25) with 33554432; lra|apply bpow_le; lia].
  - rewrite E1, E2 in E3. rewrite <- E3. rewrite (SF_B2R _ (SpecFloat.S754_finite false 8388608 1)) by (vm_compute; reflexivity).
    cbn [SF2R]. unfold F2R. cbn [Fnum Fexp cond_Zopp]. change (bpow radix2 1) with 2. lra.
Qed.

Lemma quarter_place (j : nat) (b : f32) : (Z.of_nat j <= 2 ^ 24)%Z -> is_finite b = true -> 0 <= B2R b <= 1 ->
  let z := place32 (row_scale32 quarters') (row_shift32 j quarters') b in
  is_finite z = true /\ B2R z = single (B2R b + INR j).
Proof.
  intros Hj Fb Bb z. destruct quarters'_facts as (_ & _ & _ & Fs & Es & Fm & Em).
  assert (I0 := pos_INR j). assert (I1 : INR j <= 16777216) by (rewrite INR_IZR_INZ; apply IZR_le; exact Hj).
  destruct (int32_ok (Z.of_nat j) ltac:(lia)) as [Fi Ei]. unfold int32 in Fi, Ei. rewrite <- INR_IZR_INZ in Ei.
  assert (SM : forall r, Rabs r <= 33554432 -> Rabs (single r) < bpow radix2 128).
  { intros r Hr. apply below_127. eapply Rle_trans; [exact Hr|]. change 33554432 with (bpow radix2 25). apply bpow_le. lia. }
  destruct (mul_ok (row_min32 quarters') (row_scale32 quarters') Fm Fs) as [Fp Ep].
  { rewrite Em, Es. apply SM. rewrite Rmult_0_l, Rabs_R0. lra. }
  rewrite Em, Es, Rmult_0_l, rnd_0 in Ep.
  destruct (sub_ok (cast_int (Z.of_nat j)) (mul32 (row_min32 quarters') (row_scale32 quarters')) Fi Fp) as [Fh Eh].
  { rewrite Ei, Ep. apply SM. rewrite Rminus_0_r, Rabs_pos_eq; lra. }
  rewrite Ei, Ep, Rminus_0_r in Eh. rewrite INR_IZR_INZ, int_exact in Eh by lia. rewrite <- INR_IZR_INZ in Eh.
  change (sub32 (cast_int (Z.of_nat j)) (mul32 (row_min32 quarters') (row_scale32 quarters'))) with (row_shift32 j quarters') in Fh, Eh.
  destruct (mul_ok b (row_scale32 quarters') Fb Fs) as [Fq Eq].
  { rewrite Es, Rmult_1_r. apply SM. rewrite Rabs_pos_eq; lra. }
  rewrite Es, Rmult_1_r in Eq. rewrite (rnd_B2R b) in Eq.
  destruct (add_ok (mul32 b (row_scale32 quarters')) (row_shift32 j quarters') Fq Fh) as [Fz Ez].
  { rewrite Eq, Eh. apply SM. rewrite Rabs_pos_eq; lra. }
  split; [exact Fz|]. unfold z, place32. rewrite Ez, Eq, Eh. reflexivity.
Qed.
