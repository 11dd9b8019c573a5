(** C73: scaling in the arithmetic of the machine. *)
From Coq Require Import List ZArith Reals Bool Lra Lia.
From Flocq Require Import Core BinarySingleNaN.
From Verif Require Import IeeeModel IeeeSpec IeeeProofs IeeeScaleProofs IeeeColumnProofs IeeeZProofs IeeeExample.
Import ListNotations.
Local Open Scope R_scope.

(** tft.scale_to_0_1 of a column of ordinary numbers that holds two different single precision numbers:
    every value of the column becomes a number of [0, 1], the least becomes exactly 0, the greatest exactly
    1, and each is within 5 units of the 24th binary place of its exact position. *)
Theorem c73_unit :
  forall sigmoid batches lo hi x,
  (forall v, In v (concat batches) -> ordinary v) ->
  least lo (concat batches) -> greatest hi (concat batches) ->
  single (val lo) < single (val hi) -> In x (concat batches) ->
  exists r, scale_to_0_1_32 sigmoid batches x = Some r /\ is_finite r = true
    /\ 0 <= B2R r <= 1
    /\ (val x = val lo -> B2R r = 0) /\ (val x = val hi -> B2R r = 1)
    /\ Rabs (B2R r - position lo hi x) <= 5 * / 16777216.
Proof.
  intros sigmoid batches lo hi x O L H D X. destruct unit_bounds as (B1 & B2 & E1 & E2).
  apply (scaled_unit sigmoid zero64 one64 batches lo hi); try assumption. rewrite E1, E2. lra.
Qed.

Example c73_unit_applies :
  (forall v, In v (concat ages) -> ordinary v) /\ least (NInt 18) (concat ages)
  /\ greatest (NInt 64) (concat ages) /\ single (val (NInt 18)) < single (val (NInt 64))
  /\ In (NInt 31) (concat ages)
  /\ option_map B2SF (scale_to_0_1_32 no_sigmoid ages (NInt 31)) = Some (SpecFloat.S754_finite false 9482774 (-25)).
Proof.
  split; [exact ages_ordinary|]. split; [exact ages_least|]. split; [exact ages_greatest|].
  split; [exact ages_differ|]. split; [simpl; tauto | vm_compute; reflexivity].
Qed.

(** tft.scale_by_min_max between any two bounds: no value falls under the (single precision) lower bound,
    the least value becomes it, and every value is within a relative 2^-19 of its exact place. *)
Theorem c73_scaled :
  forall sigmoid output_min output_max batches lo hi x,
  bound output_min -> bound output_max -> B2R output_min < B2R output_max ->
  (forall v, In v (concat batches) -> ordinary v) ->
  least lo (concat batches) -> greatest hi (concat batches) ->
  In x (concat batches) -> single (val lo) < single (val hi) ->
  exists r, scale_by_min_max32 sigmoid output_min output_max batches x = Some r /\ is_finite r = true
    /\ single (B2R output_min) <= B2R r
    /\ (val x = val lo -> B2R r = single (B2R output_min))
    /\ Rabs (B2R r - (B2R output_min + position lo hi x * (B2R output_max - B2R output_min)))
       <= Rmax (Rabs (B2R output_min)) (Rabs (B2R output_max)) * / 524288 + bpow radix2 (-147).
Proof.
  intros sigmoid omin omax batches lo hi x B1 B2 L O Hlo Hhi X D.
  exact (scaled_range sigmoid omin omax batches lo hi B1 B2 L O Hlo Hhi x X D).
Qed.

(** Scaling keeps the order of the column. *)
Theorem c73_order :
  forall sigmoid output_min output_max batches lo hi x y,
  bound output_min -> bound output_max -> B2R output_min < B2R output_max ->
  (forall v, In v (concat batches) -> ordinary v) ->
  least lo (concat batches) -> greatest hi (concat batches) ->
  In x (concat batches) -> In y (concat batches) -> single (val lo) < single (val hi) -> val x <= val y ->
  exists r s, scale_by_min_max32 sigmoid output_min output_max batches x = Some r
    /\ scale_by_min_max32 sigmoid output_min output_max batches y = Some s /\ B2R r <= B2R s.
Proof.
  intros sigmoid omin omax batches lo hi x y B1 B2 L O Hlo Hhi X Y D XY.
  exact (scaled_mono sigmoid omin omax batches lo hi B1 B2 L O Hlo Hhi x y X Y D XY).
Qed.

Example c73_scaled_applies :
  bound tenth /\ bound seven_tenths /\ B2R tenth < B2R seven_tenths
  /\ (forall v, In v (concat ages) -> ordinary v) /\ least (NInt 18) (concat ages)
  /\ greatest (NInt 64) (concat ages) /\ In (NInt 31) (concat ages) /\ In (NInt 64) (concat ages)
  /\ single (val (NInt 18)) < single (val (NInt 64)) /\ val (NInt 31) <= val (NInt 64).
Proof.
  destruct tenth_bound as (A & B & C). split; [exact A|]. split; [exact B|]. split; [exact C|].
  split; [exact ages_ordinary|]. split; [exact ages_least|]. split; [exact ages_greatest|].
  split; [simpl; tauto|]. split; [simpl; tauto|]. split; [exact ages_differ|]. cbn [val]. lra.
Qed.

(** The upper bound is not kept: between 0.1 and 0.7 the greatest value of a column becomes 0.70000005,
    more than the single precision number nearest to 0.7. *)
Theorem c73_upper_bound_refuted :
  exists sigmoid output_min output_max batches x r,
  bound output_min /\ bound output_max /\ B2R output_min < B2R output_max
  /\ (forall v, In v (concat batches) -> ordinary v) /\ In x (concat batches)
  /\ scale_by_min_max32 sigmoid output_min output_max batches x = Some r
  /\ is_finite r = true /\ single (B2R output_max) < B2R r.
Proof.
  destruct tenth_bound as (A & B & C). destruct ages_above as (r & R1 & R2 & R3).
  exists no_sigmoid, tenth, seven_tenths, ages, (NInt 64), r.
  split; [exact A|]. split; [exact B|]. split; [exact C|]. split; [exact ages_ordinary|].
  split; [simpl; tauto|]. split; [exact R1|]. split; [exact R2 | exact R3].
Qed.

(** A column with one single precision number is scaled with the sigmoid, which is placed between the
    bounds as above. *)
Theorem c73_constant :
  forall sigmoid output_min output_max batches lo hi x,
  bound output_min -> bound output_max -> B2R output_min < B2R output_max ->
  (forall v, In v (concat batches) -> ordinary v) ->
  least lo (concat batches) -> greatest hi (concat batches) ->
  In x (concat batches) -> single (val lo) = single (val hi) -> sigmoid_like sigmoid ->
  exists f r, scale_by_min_max32 sigmoid output_min output_max batches x = Some r /\ is_finite r = true
    /\ (is_finite f = true /\ B2R f = single (val x))
    /\ single (B2R output_min) <= B2R r
    /\ Rabs (B2R r - (B2R output_min + B2R (sigmoid f) * (B2R output_max - B2R output_min)))
       <= Rmax (Rabs (B2R output_min)) (Rabs (B2R output_max)) * / 524288 + bpow radix2 (-147).
Proof.
  intros sigmoid omin omax batches lo hi x B1 B2 L O Hlo Hhi X D S.
  exact (scaled_constant sigmoid omin omax batches lo hi B1 B2 L O Hlo Hhi x X D S).
Qed.

Example c73_constant_applies :
  bound tenth /\ bound seven_tenths /\ B2R tenth < B2R seven_tenths
  /\ (forall v, In v (concat [[NInt 7]; [NInt 7]]) -> ordinary v)
  /\ least (NInt 7) (concat [[NInt 7]; [NInt 7]]) /\ greatest (NInt 7) (concat [[NInt 7]; [NInt 7]])
  /\ In (NInt 7) (concat [[NInt 7]; [NInt 7]]) /\ sigmoid_like no_sigmoid.
Proof.
  destruct tenth_bound as (A & B & C). split; [exact A|]. split; [exact B|]. split; [exact C|].
  split. { intros v V. simpl in V. assert (v = NInt 7) as -> by intuition. split; [exact Logic.I|].
           cbn [val]. rewrite <- abs_IZR. apply IZR_le. lia. }
  split. { split; [simpl; tauto|]. intros v V. simpl in V. assert (v = NInt 7) as -> by intuition. lra. }
  split. { split; [simpl; tauto|]. intros v V. simpl in V. assert (v = NInt 7) as -> by intuition. lra. }
  split; [simpl; tauto | exact no_sigmoid_like].
Qed.

(** Single precision holds the tf.float32 values and the integers up to 2^24 exactly: for such columns
    "two different single precision numbers" is "two different values". *)
Theorem c73_exact_integers : forall z, (Z.abs z <= 2 ^ 24)%Z -> single (val (NInt z)) = val (NInt z).
Proof. exact int_exact. Qed.

Theorem c73_exact_float32 : forall f, single (val (NF32 f)) = val (NF32 f).
Proof. exact rnd_B2R. Qed.

(** For larger integers it is not: 2^24 and 2^24 + 1, the least and the greatest of a column, are scaled
    to the same number, whatever the sigmoid is. *)
Theorem c73_integers_refuted :
  exists batches lo hi, (forall v, In v (concat batches) -> ordinary v)
  /\ least lo (concat batches) /\ greatest hi (concat batches) /\ val lo < val hi
  /\ forall sigmoid, scale_to_0_1_32 sigmoid batches lo = scale_to_0_1_32 sigmoid batches hi.
Proof.
  exists twins, (NInt 16777216), (NInt 16777217).
  split. { intros v V. simpl in V. destruct V as [<-|[<-|[]]]; (split; [exact Logic.I|]); cbn [val];
           rewrite <- abs_IZR; apply IZR_le; lia. }
  split. { split; [simpl; tauto|]. intros v V. simpl in V. destruct V as [<-|[<-|[]]]; cbn [val]; lra. }
  split. { split; [simpl; tauto|]. intros v V. simpl in V. destruct V as [<-|[<-|[]]]; cbn [val]; lra. }
  split; [cbn [val]; lra|]. intro sigmoid. unfold scale_to_0_1_32, scale_by_min_max32.
  assert (to_f32 (NInt 16777216) = to_f32 (NInt 16777217)) as -> by (apply B2SF_inj; vm_compute; reflexivity).
  reflexivity.
Qed.

(** When the greatest and the least value are 2^128 or more apart, every value becomes NaN or 0. *)
Theorem c73_overflow :
  forall sigmoid batches lo hi x,
  (forall v, In v (concat batches) -> exists f, v = NF32 f /\ is_finite f = true) ->
  least lo (concat batches) -> greatest hi (concat batches) -> IZR (2 ^ 128) <= val hi - val lo ->
  exists r, scale_to_0_1_32 sigmoid batches x = Some r /\ (r = B754_nan \/ (is_finite r = true /\ B2R r = 0)).
Proof. exact overflowed. Qed.

(** So a column of finite numbers can be scaled to NaN. *)
Theorem c73_finite_refuted :
  exists sigmoid batches x, (forall v, In v (concat batches) -> exists f, v = NF32 f /\ is_finite f = true)
  /\ In x (concat batches) /\ scale_to_0_1_32 sigmoid batches x = Some B754_nan.
Proof.
  exists no_sigmoid, extremes, (NF32 (mk32 1 127)).
  split; [exact extremes_finite|]. split; [left; reflexivity | vm_compute; reflexivity].
Qed.

Example c73_overflow_applies :
  (forall v, In v (concat extremes) -> exists f, v = NF32 f /\ is_finite f = true)
  /\ least (NF32 (mk32 (-1) 127)) (concat extremes) /\ greatest (NF32 (mk32 1 127)) (concat extremes)
  /\ IZR (2 ^ 128) <= val (NF32 (mk32 1 127)) - val (NF32 (mk32 (-1) 127)).
Proof. split; [exact extremes_finite | exact extremes_bounds]. Qed.

(** The z-score of an ordinary value is not NaN, and z-scores are ordered as the values are. *)
Theorem c73_zscore_order :
  forall mean var x y,
  ordinary (NF32 mean) -> is_finite var = true -> 0 <= B2R var ->
  ordinary (NF32 x) -> ordinary (NF32 y) -> B2R x <= B2R y ->
  is_nan (zscore32 mean var x) = false /\ Bleb (zscore32 mean var x) (zscore32 mean var y) = true.
Proof.
  intros mean var x y [Fm Bm] Fv V [Fx Bx] [Fy By] XY. cbn [val] in Bm, Bx, By. rewrite pow126 in *.
  exact (z_mono mean var Fm Fv Bm V x y Fx Fy Bx By XY).
Qed.

(** The z-score of the mean is 0, also when the variance is 0. *)
Theorem c73_zscore_mean :
  forall mean var x,
  ordinary (NF32 mean) -> is_finite var = true -> 0 <= B2R var -> is_finite x = true -> B2R x = B2R mean ->
  is_finite (zscore32 mean var x) = true /\ B2R (zscore32 mean var x) = 0.
Proof.
  intros mean var x [Fm Bm] Fv V Fx E. cbn [val] in Bm. rewrite pow126 in Bm.
  exact (z_mean mean var Fm Fv Bm V x Fx E).
Qed.

(** With a positive variance, however small, the z-score is within a relative 2^-21 of
    (x - mean) / sqrt(var). *)
Theorem c73_zscore :
  forall mean var x,
  ordinary (NF32 mean) -> is_finite var = true -> 0 < B2R var -> ordinary (NF32 x) ->
  Rabs ((B2R x - B2R mean) / sqrt (B2R var)) <= IZR (2 ^ 126) ->
  is_finite (zscore32 mean var x) = true
  /\ Rabs (B2R (zscore32 mean var x) - (B2R x - B2R mean) / sqrt (B2R var))
     <= / 2097152 * Rabs ((B2R x - B2R mean) / sqrt (B2R var)) + bpow radix2 (-150).
Proof.
  intros mean var x [Fm Bm] Fv V [Fx Bx] A. cbn [val] in Bm, Bx. rewrite pow126 in *.
  exact (z_error mean var Fm Fv Bm (Rlt_le _ _ V) x Fx Bx V A).
Qed.

Example c73_zscore_applies :
  ordinary (NF32 five32) /\ is_finite nine32 = true /\ 0 < B2R nine32 /\ ordinary (NF32 two32)
  /\ Rabs ((B2R two32 - B2R five32) / sqrt (B2R nine32)) <= IZR (2 ^ 126)
  /\ B2SF (zscore32 five32 nine32 two32) = B2SF (mk32 (-1) 0).
Proof.
  destruct z_values as (A & B & C & D & E & F). split; [exact E|]. split; [reflexivity|].
  split; [lra|]. split; [exact D|]. split; [|vm_compute; reflexivity].
  rewrite A, B, C. replace 9 with (3 * 3) by ring. rewrite sqrt_square by lra.
  replace ((2 - 5) / 3) with (-1) by field. rewrite <- abs_IZR. apply IZR_le. lia.
Qed.

Print Assumptions c73_unit.
Print Assumptions c73_scaled.
Print Assumptions c73_order.
Print Assumptions c73_upper_bound_refuted.
Print Assumptions c73_constant.
Print Assumptions c73_exact_integers.
Print Assumptions c73_exact_float32.
Print Assumptions c73_integers_refuted.
Print Assumptions c73_overflow.
Print Assumptions c73_finite_refuted.
Print Assumptions c73_zscore_order.
Print Assumptions c73_zscore_mean.
Print Assumptions c73_zscore.
