(** C79: tft.bucketize_per_key on tf.float32 boundaries. *)
From Coq Require Import String List ZArith Reals Bool Sorted Lra Lia.
From Flocq Require Import Core BinarySingleNaN.
From Verif Require Import PerKeyModel PerKeyProofs BucketProofs IeeeModel IeeeSpec IeeeProofs IeeeExample FsumExample FpkModel FpkSpec FpkSearch FpkRow FpkProofs FpkExample.
Import ListNotations.
Local Open Scope R_scope.

Local Existing Instance prec32.
Local Existing Instance emax32.

(** Any boundaries, NaN and infinities among them, and any value: a key of the vocabulary gets a bucket from 0 to
    num_buckets - 1, and another key gets -1. *)
Theorem c79_range (num_buckets : nat) (vocab : list string) (matrix : list (list f32)) (k : string) (x : number) :
  (2 <= num_buckets)%nat -> NoDup vocab -> length vocab = length matrix -> matrix <> [] -> (forall r, In r matrix -> r <> []) ->
  exists b, bucketize_per_key32 num_buckets vocab matrix k x = Some b /\
    (In k vocab -> (0 <= b <= Z.of_nat num_buckets - 1)%Z) /\ (~ In k vocab -> b = (-1)%Z).
Proof.
  intros NB ND LV NM NE. destruct (all_rows_some matrix NE) as (m & Em & F2). assert (L2 := Forall2_len _ _ _ F2).
  destruct (in_dec string_dec k vocab) as [Hk|Hk].
  - destruct (In_nth_error _ _ Hk) as [i Ei].
    assert (Li : (i < length m)%nat) by (rewrite <- L2, <- LV; apply nth_error_Some; congruence).
    destruct (nth_error m i) as [row'|] eqn:Er; [|apply nth_error_None in Er; lia].
    eexists. split; [apply (bucketize_known num_buckets vocab matrix i k m row' x NB ND Ei Em Er)|]. split; [intros _; lia|contradiction].
  - exists (-1)%Z. split; [|split; [contradiction|reflexivity]]. destruct (lookup_key_spec k vocab) as [_ L]. specialize (L Hk).
    unfold bucketize_per_key32. destruct (Nat.ltb_spec num_buckets 1); [lia|]. unfold join_boundary_rows32. rewrite Em.
    destruct (num_buckets - 1)%nat as [|w] eqn:EW; [lia|]. unfold apply_buckets_with_keys32. cbv zeta. rewrite L. cbn [Z.ltb Z.compare Z.to_nat j_scale32 j_shift32].
    destruct m as [|row' m']; [destruct matrix; [congruence|discriminate]|]. reflexivity.
Qed.

(** A greater value of a key does not get a lower bucket, whatever the boundaries of the other keys are. *)
Theorem c79_order (rho : R) (num_buckets : nat) (vocab : list string) (matrix : list (list f32)) (i : nat) (k : string) (row : list f32) (x y : number) (b c : Z) :
  (3 <= num_buckets)%nat -> NoDup vocab -> nth_error vocab i = Some k -> nth_error matrix i = Some row ->
  (forall r, In r matrix -> r <> []) -> length row = (num_buckets - 1)%nat -> usual_row rho row ->
  INR i + INR num_buckets + rho <= IZR (2 ^ 16) ->
  ordinary x -> ordinary y -> Rabs (single (val x)) <= IZR (2 ^ 60) -> Rabs (single (val y)) <= IZR (2 ^ 60) -> val x <= val y ->
  bucketize_per_key32 num_buckets vocab matrix k x = Some b -> bucketize_per_key32 num_buckets vocab matrix k y = Some c -> (b <= c)%Z.
Proof.
  intros NB ND Ek Er NE Lr U HN Ox Oy Bx By XY Eb Ec. destruct (all_rows_some matrix NE) as (m & Em & F2).
  destruct (Forall2_nth _ _ _ F2 i row Er) as (row' & Er' & Es).
  destruct (usual_facts rho (INR i + INR num_buckets + rho) i row ltac:(lia) U) as (row'' & Es' & F).
  { rewrite Lr, minus_INR by lia. cbn [INR]. lra. }
  { exact HN. }
  assert (row'' = row') by congruence. subst row''.
  rewrite (bucketize_known num_buckets vocab matrix i k m row' x ltac:(lia) ND Ek Em Er') in Eb.
  rewrite (bucketize_known num_buckets vocab matrix i k m row' y ltac:(lia) ND Ek Em Er') in Ec.
  destruct (to_f32_ok x Ox) as (Fx & Vx & _). destruct (to_f32_ok y Oy) as (Fy & Vy & _).
  change (IZR (2 ^ 60)) with (bpow radix2 60) in Bx, By. rewrite <- Vx in Bx. rewrite <- Vy in By.
  destruct (f_place _ _ _ _ _ F (to_f32 x) Fx (or_introl Bx)) as [Px Qx].
  destruct (f_place _ _ _ _ _ F (to_f32 y) Fy (or_introl By)) as [Py Qy].
  assert (M : (upper_bound32 (zero32 :: scaled_rows32 0 m) (place32 (row_scale32 row') (row_shift32 i row') (to_f32 x)) <=
    upper_bound32 (zero32 :: scaled_rows32 0 m) (place32 (row_scale32 row') (row_shift32 i row') (to_f32 y)))%nat).
  { apply upper_bound_mono. intros z. apply below_le; auto. rewrite Qx, Qy. apply (f_mono _ _ _ _ _ F). rewrite Vx, Vy. apply rnd_le. exact XY. }
  injection Eb as <-. injection Ec as <-. lia.
Qed.

(** Boundaries at most rho times their spread away from zero, and a value that is further from the boundaries of its
    own key than (keys + num_buckets + rho) / 2^16 of their spread: its bucket is the number of these boundaries at
    or below it. *)
Theorem c79_own_key (rho : R) (num_buckets : nat) (vocab : list string) (matrix : list (list f32)) (i : nat) (k : string) (row : list f32) (x : number) :
  let N := INR (length matrix) + INR num_buckets + rho in
  (3 <= num_buckets)%nat -> NoDup vocab -> nth_error vocab i = Some k -> nth_error matrix i = Some row ->
  (forall r, In r matrix -> length r = (num_buckets - 1)%nat /\ usual_row rho r) ->
  N <= IZR (2 ^ 16) -> ordinary x -> Rabs (single (val x)) <= IZR (2 ^ 60) ->
  away (N * / IZR (2 ^ 16) * spread row) row (single (val x)) ->
  bucketize_per_key32 num_buckets vocab matrix k x = Some (Z.of_nat (bucket_R (map B2R row) (single (val x)))).
Proof.
  intros N NB ND Ek Er HR HN Ox Bx Ax. change (IZR (2 ^ 60)) with (bpow radix2 60) in Bx.
  assert (NE : forall r, In r matrix -> r <> []) by (intros r Hr ->; destruct (HR _ Hr) as [L _]; cbn [length] in L; lia).
  destruct (all_rows_some matrix NE) as (m & Em & F2).
  assert (HF : forall j r, nth_error matrix j = Some r -> exists r', strict_row32 r = Some r' /\ facts rho N j r r').
  { intros j r Ej. destruct (HR r (nth_error_In _ _ Ej)) as [L U]. apply usual_facts; auto; [lia|].
    assert (Lj : (j < length matrix)%nat) by (apply nth_error_Some; congruence). apply lt_INR in Lj.
    rewrite L, minus_INR by lia. cbn [INR]. unfold N. lra. }
  assert (HF1 : forall j r, nth_error matrix j = Some r -> exists r', nth_error m j = Some r' /\ facts rho N j r r').
  { intros j r Ej. destruct (Forall2_nth _ _ _ F2 j r Ej) as (r' & Ej' & S1). destruct (HF j r Ej) as (r'' & S2 & F). exists r'.
    replace r' with r'' by congruence. split; [congruence|exact F]. }
  assert (HF2 : forall j r', nth_error m j = Some r' -> exists r, nth_error matrix j = Some r /\ facts rho N j r r').
  { intros j r' Ej'. destruct (Forall2_sym_nth _ _ _ F2 j r' Ej') as (r & Ej & S1). destruct (HF j r Ej) as (r'' & S2 & F). exists r.
    replace r' with r'' by congruence. split; [exact Ej|exact F]. }
  destruct (HF1 i row Er) as (row' & Er' & F). destruct (to_f32_ok x Ox) as (Fx & Vx & _).
  rewrite (bucketize_known num_buckets vocab matrix i k m row' x ltac:(lia) ND Ek Em Er'). f_equal.
  assert (D0 : forall r, In r matrix -> 0 < spread r).
  { intros r Hr. destruct (HR r Hr) as [_ (_ & _ & D1 & _)]. eapply Rlt_le_trans; [|exact D1]. apply Rinv_0_lt_compat, IZR_lt. lia. }
  destruct (HR row (nth_error_In _ _ Er)) as [Lr (U1 & U2 & U3)].
  assert (N0 : 0 < N).
  { assert (Lj : (i < length matrix)%nat) by (apply nth_error_Some; congruence). apply lt_INR in Lj. pose proof (pos_INR i).
    assert (0 <= rho).
    { destruct row as [|a t]; [cbn [length] in Lr; lia|]. destruct (U1 a (or_introl eq_refl)) as [_ A]. pose proof (Rabs_pos (B2R a)).
      pose proof (D0 _ (nth_error_In _ _ Er)). apply Rmult_le_reg_r with (spread (a :: t)); lra. }
    pose proof (pos_INR num_buckets). unfold N. lra. }
  rewrite <- Vx in Bx, Ax |- *.
  pose proof (offset_value rho N matrix m (num_buckets - 1) i row row' (to_f32 x) (conj N0 HN) ltac:(lia) HF2 (fun r Hr => proj1 (HR r Hr)) D0 Er Er' F U2
    (fun b Hb => proj2 (U1 b Hb)) Fx Bx Ax) as OV.
  cbv zeta in OV. rewrite <- OV. replace (Z.of_nat (num_buckets - 1)) with (Z.of_nat num_buckets - 1)%Z by lia. f_equal. f_equal. lia.
Qed.

(** Not for every value: the greatest number below the second boundary, 2, is in the bucket that starts at 2. *)
Theorem c79_own_key_refuted : exists (vocab : list string) (matrix : list (list f32)) (row : list f32) (k : string) (x : f32),
  NoDup vocab /\ nth_error vocab 1 = Some k /\ nth_error matrix 1 = Some row /\
  (forall r, In r matrix -> length r = 3%nat /\ usual_row 2 r) /\ is_finite x = true /\
  bucketize_per_key32 4 vocab matrix k (NF32 x) = Some 2%Z /\ bucket_R (map B2R row) (B2R x) = 1%nat.
Proof.
  exists shops, [one_two_three; one_two_three], one_two_three, "jeweller"%string, below_two. split; [exact shops_distinct|].
  split; [reflexivity|]. split; [reflexivity|]. split; [intros r [<-|[<-|[]]]; (split; [reflexivity|exact one_two_three_usual])|].
  destruct below_two_value as [F V]. split; [exact F|]. split; [vm_compute; reflexivity|].
  unfold bucket_R. cbn [map one_two_three filter]. rewrite V, (proj2 (int32_ok 1 ltac:(lia))), (proj2 (int32_ok 2 ltac:(lia))), (proj2 (int32_ok 3 ltac:(lia))).
  destruct (Rle_dec 1 (2 - / 8388608)); [|lra]. destruct (Rle_dec 2 (2 - / 8388608)); [lra|]. destruct (Rle_dec 3 (2 - / 8388608)); [lra|]. reflexivity.
Qed.

(** Nor for every number of keys: with 2^24 + 1 keys, a value in the middle between two boundaries of the last key is
    in the last bucket, although two of four boundaries are above it. *)
Theorem c79_many_keys_refuted : exists (vocab : list string) (matrix : list (list f32)) (i : nat) (row : list f32) (k : string) (x : f32),
  NoDup vocab /\ nth_error vocab i = Some k /\ nth_error matrix i = Some row /\
  (forall r, In r matrix -> length r = 4%nat /\ usual_row 1 r) /\ ordinary (NF32 x) /\ away (/ 8 * spread row) row (B2R x) /\
  bucketize_per_key32 5 vocab matrix k (NF32 x) = Some 4%Z /\ bucket_R (map B2R row) (B2R x) = 2%nat.
Proof.
  assert (exists K, Z.of_nat K = 16777216%Z) as [K HK] by (exists (Z.to_nat 16777216); apply Z2Nat.id; lia).
  destruct quarters_usual as [U ES]. destruct quarters_values as (F1 & E1 & F2 & E2 & F3 & E3).
  destruct (int32_ok 0 ltac:(lia)) as [F0 E0]. destruct (int32_ok 1 ltac:(lia)) as [F4 E4].
  assert (Ek : nth_error (many_names (S K)) K = Some (HistogramModel.as_string (Z.of_nat K))).
  { unfold many_names. apply (map_nth_error (fun i => HistogramModel.as_string (Z.of_nat i))). rewrite (nth_error_nth' _ 0%nat) by (rewrite seq_length; lia).
    rewrite seq_nth by lia. reflexivity. }
  assert (Er : nth_error (repeat quarters (S K)) K = Some quarters) by (apply nth_error_repeat; lia).
  exists (many_names (S K)), (repeat quarters (S K)), K, quarters, (HistogramModel.as_string (Z.of_nat K)), three_eighths.
  split; [apply many_names_distinct|]. split; [exact Ek|]. split; [exact Er|].
  split; [intros r Hr; apply repeat_spec in Hr; subst r; split; [reflexivity|exact U]|].
  split; [split; [exact F3|cbn [val]; rewrite E3, Rabs_pos_eq by lra; apply Rle_trans with 1; [lra|apply IZR_le; lia]]|].
  split.
  { rewrite ES, E3. intros b [<-|[<-|[<-|[<-|[]]]]]; rewrite ?E0, ?E1, ?E2, ?E4; unfold Rabs; destruct (Rcase_abs _); lra. }
  split.
  2:{ unfold bucket_R. cbn [map quarters filter]. rewrite E0, E1, E2, E3, E4.
    destruct (Rle_dec 0 (3 / 8)); [|lra]. destruct (Rle_dec (/ 4) (3 / 8)); [|lra]. destruct (Rle_dec (/ 2) (3 / 8)); [lra|]. destruct (Rle_dec 1 (3 / 8)); [lra|]. reflexivity. }
  destruct quarters'_facts as (Q0 & Q1 & Q2 & _).
  assert (Em : all_rows (map strict_row32 (repeat quarters (S K))) = Some (repeat quarters' (S K))).
  { generalize (S K). intro n. induction n as [|n IH]; [reflexivity|]. cbn [repeat map all_rows]. rewrite Q0, IH. reflexivity. }
  assert (Er' : nth_error (repeat quarters' (S K)) K = Some quarters') by (apply nth_error_repeat; lia).
  rewrite (bucketize_known 5 (many_names (S K)) (repeat quarters (S K)) K _ (repeat quarters' (S K)) quarters' (NF32 three_eighths) ltac:(lia)
    (many_names_distinct _) Ek Em Er'). f_equal. cbn [to_f32].
  destruct (quarter_place K three_eighths ltac:(lia) F3 ltac:(rewrite E3; lra)) as [Fv Ev].
  assert (IK : INR K = 16777216) by (rewrite INR_IZR_INZ, HK; reflexivity).
  set (v := place32 (row_scale32 quarters') (row_shift32 K quarters') three_eighths) in *.
  assert (V : 16777216 <= B2R v).
  { rewrite Ev, IK, E3. apply Rle_trans with (single 16777216); [rewrite (int_exact 16777216) by lia; lra|]. apply rnd_le. lra. }
  assert (GE : (length (zero32 :: scaled_rows32 0 (repeat quarters' (S K))) <= upper_bound32 ((zero32 :: scaled_rows32 0 (repeat quarters' (S K))) ++ []) v)%nat).
  { apply upper_bound_ge. constructor.
    - apply not_below; auto. cbn [B2R zero32]. lra.
    - apply Forall_forall. intros z Hz. destruct (scaled_in _ _ _ Hz) as (j & r & b & Ej & Hb & ->). cbn [plus].
      assert (r = quarters') by (apply nth_error_In in Ej; apply repeat_spec in Ej; exact Ej). subst r.
      assert (Lj : (j < S K)%nat) by (rewrite <- (repeat_length quarters' (S K)); apply nth_error_Some; congruence).
      destruct (Q2 b) as [Fb Bb]; [destruct quarters'; [contradiction|right; exact Hb]|].
      destruct (quarter_place j b ltac:(lia) Fb Bb) as [Fz Ez]. apply not_below; auto. rewrite Ez. eapply Rle_trans; [|exact V].
      apply Rle_trans with (single (16777216 + 1)); [|rewrite round_at_24; lra]. apply rnd_le. assert (INR j <= INR K) by (apply le_INR; lia). lra. }
  rewrite app_nil_r in GE. cbn [length] in GE. rewrite (scaled_length _ _ 4) in GE by (intros r Hr; apply repeat_spec in Hr; subst r; exact Q1).
  rewrite repeat_length in GE. pose proof (upper_bound_length (zero32 :: scaled_rows32 0 (repeat quarters' (S K))) v) as LEN.
  set (ub := upper_bound32 _ _) in *. lia.
Qed.

(** Prices of 950 and of 3 at the jeweller and at the bakery. *)
Example c79_own_key_applies :
  let N := INR 2 + INR 4 + 2 in
  (forall r, In r prices -> length r = 3%nat /\ usual_row 2 r) /\ N <= IZR (2 ^ 16) /\ ordinary (NInt 950) /\
  Rabs (single (val (NInt 950))) <= IZR (2 ^ 60) /\ away (N * / IZR (2 ^ 16) * spread jeweller) jeweller (single (val (NInt 950))) /\
  bucketize_per_key32 4 shops prices "jeweller" (NInt 950) = Some 2%Z /\ bucketize_per_key32 4 shops prices "bakery" (NInt 950) = Some 3%Z /\
  bucketize_per_key32 4 shops prices "jeweller" (NInt 3) = Some 0%Z /\ bucketize_per_key32 4 shops prices "bakery" (NInt 3) = Some 2%Z.
Proof.
  intro N. destruct bakery_usual as [U1 _]. destruct jeweller_usual as [U2 S2]. assert (EN : N = 8) by (unfold N; cbn [INR]; lra).
  split; [intros r [<-|[<-|[]]]; split; auto|]. split; [rewrite EN; apply IZR_le; lia|].
  split; [split; [exact Logic.I|]; cbn [val]; rewrite <- abs_IZR; apply IZR_le; lia|].
  cbn [val]. rewrite int_exact by lia. split; [rewrite <- abs_IZR; apply IZR_le; lia|].
  split; [|repeat split; vm_compute; reflexivity].
  rewrite EN, S2. change (IZR (2 ^ 16)) with 65536. intros b [<-|[<-|[<-|[]]]].
  - rewrite (proj2 (int32_ok 200 ltac:(lia))). rewrite Rabs_pos_eq; lra.
  - rewrite (proj2 (int32_ok 900 ltac:(lia))). rewrite Rabs_pos_eq; lra.
  - rewrite (proj2 (int32_ok 4000 ltac:(lia))). rewrite Rabs_left; lra.
Qed.

Example c79_range_applies :
  NoDup shops /\ length shops = length prices /\ prices <> [] /\ (forall r, In r prices -> r <> []) /\
  bucketize_per_key32 4 shops prices "florist" (NInt 3) = Some (-1)%Z /\
  bucketize_per_key32 4 shops [[nan32; nan32; nan32]; jeweller] "bakery" (NInt 3) = Some 3%Z.
Proof.
  split; [exact shops_distinct|]. split; [reflexivity|]. split; [discriminate|]. split; [intros r [<-|[<-|[]]]; discriminate|].
  split; vm_compute; reflexivity.
Qed.

Example c79_order_applies :
  nth_error shops 1 = Some "jeweller"%string /\ nth_error [[nan32; nan32; nan32]; jeweller] 1 = Some jeweller /\ usual_row 2 jeweller /\
  INR 1 + INR 4 + 2 <= IZR (2 ^ 16) /\
  bucketize_per_key32 4 shops [[nan32; nan32; nan32]; jeweller] "jeweller" (NInt 3) = Some 1%Z /\
  bucketize_per_key32 4 shops [[nan32; nan32; nan32]; jeweller] "jeweller" (NInt 950) = Some 2%Z.
Proof.
  split; [reflexivity|]. split; [reflexivity|]. split; [exact (proj1 jeweller_usual)|]. split; [cbn [INR]; change (IZR (2 ^ 16)) with 65536; lra|].
  split; vm_compute; reflexivity.
Qed.

Print Assumptions c79_range.
Print Assumptions c79_order.
Print Assumptions c79_own_key.
Print Assumptions c79_own_key_refuted.
Print Assumptions c79_many_keys_refuted.
