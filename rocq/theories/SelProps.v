(** C80: elementwise minima, maxima and sums of sparse columns. *)
From Coq Require Import List ZArith Reals Bool Lia Lra.
From Flocq Require Import Core BinarySingleNaN.
From Verif Require Import CombineModel NumericModel NumericProofs IeeeModel IeeeExample FsumExample
  SelModel SelSpec SelProofs SelInt SelFloat SelExample.
Import ListNotations.
Local Open Scope Z_scope.

(** C80.  However the batches are cut and scheduled, tft.min and tft.max with reduce_instance_dims=False of
    a sparse tf.float32 column of finite numbers give, at each coordinate of an instance, the least and the
    greatest of the values the dataset has there, and NaN where it has none. *)
Theorem c80_float (n : nat) (shape : oshape) (s : sched (sched (sbatch f32))) :
  instances n shape (batches_of s) ->
  (forall j x, In x (values_of j (batches_of s)) -> is_finite x = true) ->
  exists mins maxs, sparse_min_and_max32 shape s = Some (GVec mins, GVec maxs)
    /\ length mins = n /\ length maxs = n
    /\ forall j, (j < n)%nat ->
       (values_of j (batches_of s) <> [] ->
          least_of (nth j mins nan32) (values_of j (batches_of s))
          /\ greatest_of (nth j maxs nan32) (values_of j (batches_of s)))
       /\ (values_of j (batches_of s) = [] -> nth j mins nan32 = nan32 /\ nth j maxs nan32 = nan32).
Proof. exact (float_columns n shape s). Qed.

Example c80_float_applies :
  instances 3 UnknownShape (batches_of readings32)
  /\ (forall j x, In x (values_of j (batches_of readings32)) -> is_finite x = true)
  /\ length (values_of 0 (batches_of readings32)) = 2%nat /\ values_of 2 (batches_of readings32) = [].
Proof.
  split; [split; [repeat constructor|right; split; [reflexivity|discriminate]]|].
  split; [|split; reflexivity].
  intros j x X. unfold values_of in X. apply in_flat_map in X as (b & B & X).
  apply in_flat_map in X as (e & Ee & X). destruct (Nat.eq_dec (snd (fst e)) j); [|destruct X].
  destruct X as [<-|[]].
  assert (exists z, snd e = int32 z /\ (Z.abs z <= 2 ^ 24)%Z) as (z & -> & H).
  { cbn [readings32 readings map_sched batches_of elements flat_map map app] in B.
    destruct B as [<-|[<-|[<-|[]]]]; cbn [map_values entries map In fst snd] in Ee.
    - destruct Ee as [<-|[<-|[<-|[]]]]; eexists; (split; [reflexivity|lia]).
    - destruct Ee.
    - destruct Ee as [<-|[]]; eexists; (split; [reflexivity|lia]). }
  apply (int32_ok z H).
Qed.

(** Not so with an infinite value: a batch whose values at a coordinate are all infinite counts as having
    none there, but the infinite value is kept if the batch also has a finite one.  So tft.max of the same
    values is infinite with one batching and 1 with another. *)
Theorem c80_float_refuted :
  values_of 0 (batches_of inf_together) = values_of 0 (batches_of inf_apart)
  /\ (exists mns mx, sparse_min_and_max32 (KnownShape 1) inf_together = Some (mns, GVec [mx])
       /\ mx = pos_inf32)
  /\ (exists mns mx, sparse_min_and_max32 (KnownShape 1) inf_apart = Some (mns, GVec [mx])
       /\ is_finite mx = true /\ B2R mx = 1%R).
Proof.
  split; [reflexivity|]. split.
  - destruct (one_max (sparse_min_and_max32 (KnownShape 1) inf_together) (SpecFloat.S754_infinity false))
      as (mns & mx & E & F); [vm_compute; reflexivity|].
    exists mns, mx. split; [exact E|]. destruct mx; try discriminate. inversion F. reflexivity.
  - destruct (one_max (sparse_min_and_max32 (KnownShape 1) inf_apart) (SpecFloat.S754_finite false 8388608 (-23)))
      as (mns & mx & E & F); [vm_compute; reflexivity|].
    exists mns, mx. split; [exact E|]. split; [destruct mx; try discriminate; reflexivity|].
    rewrite <- (SF2R_B2SF 24 128 mx), F. cbn [SF2R]. unfold F2R. cbn [Fnum Fexp cond_Zopp].
    change (bpow radix2 (-23)) with (/ 8388608)%R. lra.
Qed.

(** The same for columns of integers, at the coordinates that have values (tf.uint32 and tf.uint64 are
    rejected; the lowest number of a signed dtype is excluded). *)
Theorem c80_int (d : int_dtype) (n : nat) (shape : oshape) (s : sched (sched (sbatch Z))) :
  d <> UInt32 -> d <> UInt64 ->
  instances n shape (batches_of s) ->
  (forall j x, In x (values_of j (batches_of s)) -> dmin d <= x <= dmax d /\ - dmax d <= x) ->
  exists mins maxs, sparse_min_and_max d shape s = Some (GVec mins, GVec maxs)
    /\ length mins = n /\ length maxs = n
    /\ forall j, (j < n)%nat -> values_of j (batches_of s) <> [] ->
         least_int (nth j mins 0) (values_of j (batches_of s))
         /\ greatest_int (nth j maxs 0) (values_of j (batches_of s)).
Proof.
  intros D1 D2 Hs HR.
  destruct (minmax_work_dtype d) as [w|] eqn:Ew; [|destruct d; cbn in Ew; congruence].
  destruct (int_columns d w n shape s Ew Hs (entries_of_values _ _ HR)) as (mins & maxs & E & L1 & L2 & H).
  exists mins, maxs. split; [exact E|]. split; [exact L1|]. split; [exact L2|].
  intros j J N. apply (H j J). exact N.
Qed.

Example c80_int_applies :
  instances 3 (KnownShape 3) (batches_of readings)
  /\ (forall j x, In x (values_of j (batches_of readings)) -> dmin Int16 <= x <= dmax Int16 /\ - dmax Int16 <= x)
  /\ values_of 0 (batches_of readings) = [7; 12]
  /\ sparse_min_and_max Int16 (KnownShape 3) readings = Some (GVec [7; -4; 32767], GVec [12; 100; -32767]).
Proof.
  split; [split; [repeat constructor|left; reflexivity]|].
  split; [|split; reflexivity].
  intros j x X. assert (In x [7; -4; 12; 100]) as H.
  { unfold values_of in X. cbn in X.
    repeat match type of X with context [if ?c then _ else _] => destruct c; cbn [app] in X end; cbn in *; tauto. }
  cbn in H. cbn. lia.
Qed.

(** Where a column of tf.int8, tf.int32 or tf.int64 has no value, tft.min gives the greatest number of the
    dtype, and tft.max the least plus one. *)
Theorem c80_int_missing (d : int_dtype) (n : nat) (shape : oshape) (s : sched (sched (sbatch Z))) :
  d = Int8 \/ d = Int32 \/ d = Int64 ->
  instances n shape (batches_of s) ->
  (forall j x, In x (values_of j (batches_of s)) -> dmin d <= x <= dmax d /\ - dmax d <= x) ->
  exists mins maxs, sparse_min_and_max d shape s = Some (GVec mins, GVec maxs)
    /\ forall j, (j < n)%nat -> values_of j (batches_of s) = [] ->
         nth j mins 0 = dmax d /\ nth j maxs 0 = dmin d + 1.
Proof.
  intros Hd Hs HR.
  assert (minmax_work_dtype d = Some d) as Ew by (destruct Hd as [->|[->| ->]]; reflexivity).
  destruct (int_columns d d n shape s Ew Hs (entries_of_values _ _ HR)) as (mins & maxs & E & L1 & L2 & H).
  exists mins, maxs. split; [exact E|]. intros j J N.
  destruct (proj2 (H j J) N) as [(m & M & ->) (m' & M' & ->)].
  assert (- dmax d = missing_int d) as Q by (destruct Hd as [->|[->| ->]]; reflexivity).
  rewrite <- Q in M, M'. assert (m = - dmax d) as -> by tauto. assert (m' = - dmax d) as -> by tauto.
  destruct Hd as [->|[->| ->]]; split; reflexivity.
Qed.

Example c80_int_missing_applies :
  instances 3 UnknownShape (batches_of readings) /\ values_of 2 (batches_of readings) = []
  /\ sparse_min_and_max Int64 UnknownShape readings
     = Some (GVec [7; -4; dmax Int64], GVec [12; 100; dmin Int64 + 1]).
Proof. split; [split; [repeat constructor|right; split; [reflexivity|discriminate]]|]. split; reflexivity. Qed.

(** Not so for the dtypes that are computed in tf.int32 and cast back.  A coordinate of a tf.uint8 column
    with no values has maximum 1.  A coordinate of a tf.int16 column with no values has minimum -1 and
    maximum 1 if the shape of an instance is not known, and other values if it is.  Nothing tells these
    from minima and maxima of values. *)
Theorem c80_int_missing_refuted :
  values_of 0 (batches_of absent) = []
  /\ sparse_min_and_max UInt8 (KnownShape 2) absent = Some (GVec [255; 3], GVec [1; 5])
  /\ sparse_min_and_max Int16 UnknownShape absent = Some (GVec [-1; 3], GVec [1; 5])
  /\ sparse_min_and_max Int16 (KnownShape 2) absent = Some (GVec [32767; 3], GVec [-32767; 5]).
Proof. repeat split; reflexivity. Qed.

(** If the shape of an instance is not known and batches differ in their widths, as batches of a
    tf.io.VarLenFeature do, the analysis fails, although the values are all there. *)
Theorem c80_widths_refuted :
  values_of 0 (batches_of ragged_widths) = [1] /\ values_of 2 (batches_of ragged_widths) = [5]
  /\ sparse_min_and_max Int64 UnknownShape ragged_widths = None
  /\ sparse_sum Int64 ragged_widths = None.
Proof. repeat split; reflexivity. Qed.

(** tft.sum with reduce_instance_dims=False of a sparse column of integers gives the exact sum at each
    coordinate, 0 where there is no value, if no batch overflows the dtype it is summed in ([r]: that of the
    column, tf.int64 for tf.uint8 and tf.uint16) and the total fits in tf.int64. *)
Theorem c80_sum (d r : int_dtype) (n : nat) (s : sched (sched (sbatch Z))) :
  (signed d = true /\ r = d) \/ ((d = UInt8 \/ d = UInt16) /\ r = Int64) ->
  instances n UnknownShape (batches_of s) ->
  (forall b j, In b (batches_of s) -> dmin r <= total (values_of j [b]) <= dmax r) ->
  (forall j, dmin Int64 <= total (values_of j (batches_of s)) <= dmax Int64) ->
  exists totals, sparse_sum d s = Some (GVec totals) /\ length totals = n
    /\ forall j, (j < n)%nat -> nth j totals 0 = total (values_of j (batches_of s)).
Proof.
  intros Hd Hs HB HT. apply (sum_columns d r n s); try assumption.
  destruct Hd as [[Sg ->]|[[->| ->] ->]]; try reflexivity. destruct d; try discriminate; reflexivity.
Qed.

Example c80_sum_applies :
  instances 3 UnknownShape (batches_of readings)
  /\ total (values_of 0 (batches_of readings)) = 19
  /\ sparse_sum Int8 readings = Some (GVec [19; 96; 0]).
Proof. split; [split; [repeat constructor|right; split; [reflexivity|discriminate]]|]. split; reflexivity. Qed.

Print Assumptions c80_float.
Print Assumptions c80_float_refuted.
Print Assumptions c80_int.
Print Assumptions c80_int_missing.
Print Assumptions c80_int_missing_refuted.
Print Assumptions c80_widths_refuted.
Print Assumptions c80_sum.
