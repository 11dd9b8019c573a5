(** C01 (tft.min / tft.max) and C02 (tft.sum / tft.size) on integer columns. *)
From Coq Require Import List ZArith Bool Lia Permutation.
From Verif Require Import CombineModel CombineProofs NumericModel NumericSpec NumericProofs.
Import ListNotations.
Open Scope Z_scope.

(** A schedule used in the examples: two partitions; the first is analysed in two bundles that are
    merged, one of which receives an empty batch. *)
Definition ex_sched (a b c : list Z) : sched (sched (list Z)) :=
  Merged (Bundle [Merged (Bundle [a; []]) [Bundle [b]]]) [Bundle [Bundle [c]]].

(** ** C01 *)

(** tft.max is the maximum of the column, however the rows are batched, bundled and merged, provided
    no value is the largest value of the dtype. *)
Theorem c01_max_exact : forall d w s,
  minmax_work_dtype d = Some w -> rows_of s <> [] ->
  Forall (in_range d) (rows_of s) -> Forall (fun x => x <> dmax d) (rows_of s) ->
  exists mn mx, min_and_max d s = Some (mn, mx) /\ is_max mx (rows_of s).
Proof. exact global_max_exact. Qed.
Print Assumptions c01_max_exact.

Example c01_max_exact_applies :
  let s := ex_sched [3; -128] [-7; 12] [5] in
  minmax_work_dtype Int8 = Some Int8 /\ rows_of s <> [] /\
  Forall (in_range Int8) (rows_of s) /\ Forall (fun x => x <> dmax Int8) (rows_of s) /\
  option_map snd (min_and_max Int8 s) = Some 12.
Proof. cbv -[Z.le]. repeat split; try discriminate; repeat constructor; lia || discriminate. Qed.

(** tft.min is the minimum of the column, provided no value is the smallest value of the dtype on
    which the batches are reduced and no value is the largest value of the dtype of the column. *)
Theorem c01_min_exact : forall d w s,
  minmax_work_dtype d = Some w -> rows_of s <> [] ->
  Forall (in_range d) (rows_of s) -> Forall (fun x => x <> dmax d) (rows_of s) ->
  Forall (fun x => dmin w < x) (rows_of s) ->
  exists mn mx, min_and_max d s = Some (mn, mx) /\ is_min mn (rows_of s).
Proof. exact global_min_exact. Qed.
Print Assumptions c01_min_exact.

Example c01_min_exact_applies :
  let s := ex_sched [3; -127] [-7; 12] [5] in
  minmax_work_dtype Int8 = Some Int8 /\ rows_of s <> [] /\
  Forall (in_range Int8) (rows_of s) /\ Forall (fun x => x <> dmax Int8) (rows_of s) /\
  Forall (fun x => dmin Int8 < x) (rows_of s) /\
  min_and_max Int8 s = Some (-127, 12).
Proof. cbv -[Z.le Z.lt]. repeat split; try discriminate; repeat constructor; lia || discriminate. Qed.

(** When no batch is empty (dense columns), tft.min is exact also for columns that contain the
    largest value of the dtype. *)
Theorem c01_min_exact_nonempty_batches : forall d w s,
  minmax_work_dtype d = Some w -> rows_of s <> [] -> Forall (fun b => b <> []) (batches_of s) ->
  Forall (in_range d) (rows_of s) -> Forall (fun x => dmin w < x) (rows_of s) ->
  exists mn mx, min_and_max d s = Some (mn, mx) /\ is_min mn (rows_of s).
Proof. exact global_min_exact_nonempty. Qed.
Print Assumptions c01_min_exact_nonempty_batches.

Example c01_min_exact_nonempty_batches_applies :
  let s := Merged (Bundle [Bundle [[255]; [255; 3]]]) [Bundle [Bundle [[255]]]] in
  minmax_work_dtype UInt8 = Some Int32 /\ rows_of s <> [] /\ Forall (fun b => b <> []) (batches_of s) /\
  Forall (in_range UInt8) (rows_of s) /\ Forall (fun x => dmin Int32 < x) (rows_of s) /\
  option_map fst (min_and_max UInt8 s) = Some 3.
Proof. cbv -[Z.le Z.lt]. repeat split; try discriminate; repeat constructor; lia || discriminate. Qed.

(** With reduce_instance_dims=False, both are exact for each coordinate; the only excluded value is
    the smallest value of a signed dtype. *)
Theorem c01_elementwise_exact : forall d w n s,
  minmax_work_dtype d = Some w -> rows_of s <> [] ->
  Forall (fun r => length r = n) (rows_of s) ->
  Forall (Forall (fun x => in_range d x /\ - dmax d <= x)) (rows_of s) ->
  exists mins maxs, min_and_max_elementwise d n s = Some (mins, maxs) /\
    length mins = n /\ length maxs = n /\
    forall j, (j < n)%nat ->
      is_min (nth j mins 0) (map (fun r => nth j r 0) (rows_of s)) /\
      is_max (nth j maxs 0) (map (fun r => nth j r 0) (rows_of s)).
Proof. exact (fun d w n s Hw => elementwise_exact d w n Hw s). Qed.
Print Assumptions c01_elementwise_exact.

Example c01_elementwise_exact_applies :
  let s := Merged (Bundle [Bundle [[[255; 2]; [255; 9]]]]) [Bundle [Bundle [[[255; 0]]; []]]] in
  rows_of s <> [] /\ Forall (fun r => length r = 2%nat) (rows_of s) /\
  Forall (Forall (fun x => in_range UInt8 x /\ - dmax UInt8 <= x)) (rows_of s) /\
  min_and_max_elementwise UInt8 2 s = Some ([255; 0], [255; 9]).
Proof. cbv -[Z.le Z.lt]. repeat split; try discriminate; repeat constructor; lia || discriminate. Qed.

(** Unsigned 32 and 64 bit columns are rejected. *)
Theorem c01_uint32_uint64_rejected : forall d s,
  (d = UInt32 \/ d = UInt64) -> min_and_max d s = None.
Proof. intros d s [->| ->]; reflexivity. Qed.
Print Assumptions c01_uint32_uint64_rejected.

(** Finding: on a column whose values all are the largest value of the dtype, tft.max returns the
    dtype-wrapped negation of that value, for every schedule. *)
Theorem c01_max_of_constant_dtype_max_column_is_wrong : forall d w s,
  minmax_work_dtype d = Some w -> Forall (fun b => b <> []) (batches_of s) ->
  Forall (fun x => x = dmax d) (rows_of s) ->
  min_and_max d s = Some (dmax d, wrap d (- dmax d)).
Proof. exact global_all_max. Qed.
Print Assumptions c01_max_of_constant_dtype_max_column_is_wrong.

(** The property without guards fails. *)
Theorem c01_max_refuted : exists d s,
  rows_of s <> [] /\ Forall (in_range d) (rows_of s) /\
  exists mn mx, min_and_max d s = Some (mn, mx) /\ ~ is_max mx (rows_of s).
Proof.
  exists UInt8, (Bundle [Bundle [[255; 255]; [255]]]).
  split; [discriminate|]. split; [repeat constructor; discriminate|].
  exists 255, 1. split; [reflexivity|].
  intros [H _]. cbn in H. repeat (destruct H as [H|H]; [discriminate|]). exact H.
Qed.
Print Assumptions c01_max_refuted.

(** The same rows, batched differently, give different maxima. *)
Theorem c01_max_schedule_independence_refuted : exists d s1 s2,
  Permutation (rows_of s1) (rows_of s2) /\ Forall (in_range d) (rows_of s1) /\
  Forall (fun b => b <> []) (batches_of s1) /\ Forall (fun b => b <> []) (batches_of s2) /\
  min_and_max d s1 <> min_and_max d s2.
Proof.
  exists UInt8, (Bundle [Bundle [[255]; [10]]]), (Bundle [Bundle [[255; 10]]]).
  split; [reflexivity|]. split; [repeat constructor; discriminate|].
  split; [repeat constructor; discriminate|]. split; [repeat constructor; discriminate|].
  vm_compute. discriminate.
Qed.
Print Assumptions c01_max_schedule_independence_refuted.

(** tft.min of a signed column holding the smallest value of the dtype. *)
Theorem c01_min_refuted : exists d s,
  rows_of s <> [] /\ Forall (in_range d) (rows_of s) /\
  exists mn mx, min_and_max d s = Some (mn, mx) /\ ~ is_min mn (rows_of s).
Proof.
  exists Int64, (Bundle [Bundle [[- 2 ^ 63; 5]]]).
  split; [discriminate|]. split; [repeat constructor; discriminate|].
  exists 5, 5. split; [reflexivity|].
  intros [_ H]. specialize (H (- 2 ^ 63) (or_introl eq_refl)). apply H. reflexivity.
Qed.
Print Assumptions c01_min_refuted.

(** ** C02 *)

(** tft.sum is the exact sum when the sum of each batch fits the dtype of the column and the total
    fits the output dtype. *)
Theorem c02_sum_exact : forall d s,
  Forall (fun b => in_range d (fold_right Z.add 0 b)) (batches_of s) ->
  in_range (sum_output_dtype d) (fold_right Z.add 0 (rows_of s)) ->
  tft_sum d s = Some (fold_right Z.add 0 (rows_of s)).
Proof. exact sum_exact. Qed.
Print Assumptions c02_sum_exact.

Example c02_sum_exact_applies :
  let s := ex_sched [100; 27] [-128] [127] in
  Forall (fun b => in_range Int8 (fold_right Z.add 0 b)) (batches_of s) /\
  in_range (sum_output_dtype Int8) (fold_right Z.add 0 (rows_of s)) /\
  tft_sum Int8 s = Some 126.
Proof. cbv -[Z.le Z.lt]. repeat split; try discriminate; repeat constructor; lia || discriminate. Qed.

(** Sums of 64-bit columns only require that all partial sums are representable: the result is
    always right modulo 2^64, for every schedule. *)
Theorem c02_sum_64bit : forall d s,
  bits d = 64 -> in_range d (fold_right Z.add 0 (rows_of s)) ->
  tft_sum d s = Some (fold_right Z.add 0 (rows_of s)).
Proof. exact sum_64bit. Qed.
Print Assumptions c02_sum_64bit.

Example c02_sum_64bit_applies :
  let s := Bundle [Bundle [[2 ^ 63 - 1; 1]; [-5]]] in
  bits Int64 = 64 /\ in_range Int64 (fold_right Z.add 0 (rows_of s)) /\ tft_sum Int64 s = Some (2 ^ 63 - 5).
Proof. vm_compute. repeat split; discriminate. Qed.

(** tft.size counts the elements. *)
Theorem c02_size_exact : forall (X : Type) (s : sched (sched (list X))),
  Z.of_nat (length (rows_of s)) < 2 ^ 63 ->
  tft_size s = Some (Z.of_nat (length (rows_of s))).
Proof. exact @size_exact. Qed.
Print Assumptions c02_size_exact.

Example c02_size_exact_applies : tft_size (ex_sched [1; 2] [3] [9; 9; 9]) = Some 6.
Proof. reflexivity. Qed.

(** Finding: narrow integer columns overflow inside a batch, so the sum depends on the batching. *)
Theorem c02_sum_refuted : exists d s,
  Forall (in_range d) (rows_of s) /\ in_range (sum_output_dtype d) (fold_right Z.add 0 (rows_of s)) /\
  tft_sum d s <> Some (fold_right Z.add 0 (rows_of s)).
Proof.
  exists Int8, (Bundle [Bundle [[100; 100]]]).
  split; [repeat constructor; discriminate|]. split; [split; discriminate|]. vm_compute. discriminate.
Qed.
Print Assumptions c02_sum_refuted.

Theorem c02_sum_schedule_independence_refuted : exists d s1 s2,
  Permutation (rows_of s1) (rows_of s2) /\ Forall (in_range d) (rows_of s1) /\ tft_sum d s1 <> tft_sum d s2.
Proof.
  exists Int8, (Bundle [Bundle [[100; 100]]]), (Bundle [Bundle [[100]; [100]]]).
  split; [reflexivity|]. split; [repeat constructor; discriminate|]. vm_compute. discriminate.
Qed.
Print Assumptions c02_sum_schedule_independence_refuted.
