(** C09 (tft.apply_buckets), C10 and C11 (tft.bucketize_per_key), C12 (tft.apply_buckets_with_interpolation). *)
From Coq Require Import String List ZArith QArith Bool Lia Lqa Sorting.Sorted.
From Verif Require Import NumericModel FloatModel PerKeyModel BucketModel BucketSpec BucketProofs.
Import ListNotations.
Open Scope Q_scope.

(** ** C09 *)

(** The bucket is the number of boundaries at or below the value, and the schema range is
    [0, number of boundaries]. *)
Theorem c09_apply_buckets_count : forall dx db b x,
  compatible dx db -> value_of dx x -> Forall (value_of db) b -> StronglySorted Qle b ->
  apply_buckets dx db (map Fin b) (Fin x) = (count_le x b, (0%nat, length b)).
Proof. exact apply_buckets_count. Qed.
Print Assumptions c09_apply_buckets_count.

Example c09_apply_buckets_count_applies :
  compatible (IntT Int64) Float32 /\ value_of (IntT Int64) 5 /\ Forall (value_of Float32) [2; 5; 5; 10] /\
  StronglySorted Qle [2; 5; 5; 10] /\ apply_buckets (IntT Int64) Float32 (map Fin [2; 5; 5; 10]) (Fin 5) = (3, (0, 4))%nat.
Proof.
  split; [right; split; [vm_compute; discriminate|exact I]|].
  split; [exists 5%Z; split; [reflexivity|split; vm_compute; discriminate]|].
  split; [repeat constructor|]. split; [|vm_compute; reflexivity].
  repeat constructor; vm_compute; discriminate.
Qed.

(** Larger values get larger buckets. *)
Theorem c09_count_monotone : forall x y b, x <= y -> (count_le x b <= count_le y b)%nat.
Proof. exact count_le_mono. Qed.
Print Assumptions c09_count_monotone.

(** NaN goes to the last bucket. *)
Theorem c09_apply_buckets_nan : forall dx db b,
  is_int dx = false -> is_int db = false -> fst (apply_buckets dx db b NaN) = length b.
Proof. exact apply_buckets_nan. Qed.
Print Assumptions c09_apply_buckets_nan.

(** Every value - whatever the dtypes, sorted boundaries or not - stays within the schema range. *)
Theorem c09_apply_buckets_in_schema_range : forall dx db b x,
  let '(i, (lo, hi)) := apply_buckets dx db b x in (lo <= i <= hi)%nat.
Proof. exact apply_buckets_range. Qed.
Print Assumptions c09_apply_buckets_in_schema_range.

(** Finding: the common dtype is the one with the larger maximum, which for float16 and integers is the
    integer dtype, so values (or boundaries) are truncated. *)
Theorem c09_float16_refuted :
  (exists b x, StronglySorted Qle b /\ Forall (value_of (IntT Int32)) b /\
     fst (apply_buckets Float16 (IntT Int32) (map Fin b) (Fin x)) <> count_le x b) /\
  (exists b x, StronglySorted Qle b /\ value_of (IntT Int64) x /\
     fst (apply_buckets (IntT Int64) Float16 (map Fin b) (Fin x)) <> count_le x b).
Proof.
  split.
  - exists [0], (- (1 # 2)). split; [repeat constructor|]. split.
    + constructor; [|constructor]. exists 0%Z. split; [reflexivity|split; vm_compute; discriminate].
    + vm_compute. discriminate.
  - exists [1 # 2], 0. split; [repeat constructor|]. split.
    + exists 0%Z. split; [reflexivity|split; vm_compute; discriminate].
    + vm_compute. discriminate.
Qed.
Print Assumptions c09_float16_refuted.

(** Finding: a negative value of a signed dtype wraps around when the boundaries are unsigned with a larger
    maximum. *)
Theorem c09_unsigned_boundaries_refuted :
  exists b x, StronglySorted Qle b /\ Forall (value_of (IntT UInt8)) b /\ value_of (IntT Int8) x /\
     fst (apply_buckets (IntT Int8) (IntT UInt8) (map Fin b) (Fin x)) <> count_le x b.
Proof.
  exists [10], (-1). split; [repeat constructor|]. split.
  - constructor; [|constructor]. exists 10%Z. split; [reflexivity|split; vm_compute; discriminate].
  - split; [exists (-1)%Z; split; [reflexivity|split; vm_compute; discriminate]|]. vm_compute. discriminate.
Qed.
Print Assumptions c09_unsigned_boundaries_refuted.

(** ** C10 *)

(** With three or more buckets: the number of boundaries of the value's own key at or below the value,
    independently of the boundaries of all other keys. *)
Theorem c10_own_key_bucket : forall num_buckets vocab matrix k x i row,
  (3 <= num_buckets)%nat -> NoDup vocab -> length matrix = length vocab ->
  Forall (fun r => length r = (num_buckets - 1)%nat) matrix ->
  nth_error vocab i = Some k -> nth_error matrix i = Some row -> well_separated row ->
  bucketize_per_key num_buckets vocab matrix k x
  = Some (Z.of_nat (count_le x row), (0%Z, (Z.of_nat num_buckets - 1)%Z)).
Proof. exact bucketize_per_key_count. Qed.
Print Assumptions c10_own_key_bucket.

(** The same without any condition on the own row: the boundaries that count are those of the row made
    strictly increasing, which depends on the own row alone. *)
Theorem c10_own_key_bucket_any_row : forall num_buckets vocab matrix k x i row,
  (3 <= num_buckets)%nat -> NoDup vocab -> length matrix = length vocab ->
  Forall (fun r => length r = (num_buckets - 1)%nat) matrix ->
  nth_error vocab i = Some k -> nth_error matrix i = Some row ->
  exists row', strict_row row = Some row' /\
    bucketize_per_key num_buckets vocab matrix k x
    = Some (Z.of_nat (count_le x row'), (0%Z, (Z.of_nat num_buckets - 1)%Z)).
Proof. exact bucketize_per_key_own_row. Qed.
Print Assumptions c10_own_key_bucket_any_row.

(** That row is strictly increasing, starts at the same boundary, and moves no boundary down. *)
Theorem c10_strict_row : forall row, row <> [] ->
  exists row', strict_row row = Some row' /\ StronglySorted Qlt row' /\ length row' = length row /\ hd 0 row' = hd 0 row.
Proof. exact strict_row_spec. Qed.
Print Assumptions c10_strict_row.

Theorem c10_strict_row_moves_up : forall row row', strict_row row = Some row' -> Forall2 Qle row row'.
Proof. exact strict_row_ge. Qed.
Print Assumptions c10_strict_row_moves_up.

Example c10_own_key_bucket_applies :
  let vocab := ["a"; "b"; "c"]%string in
  let matrix := [[0; 10; 20]; [-5; -1; 7]; [3; 3; 3]] in
  NoDup vocab /\ length matrix = length vocab /\ Forall (fun r => length r = 3%nat) matrix /\
  well_separated [-5; -1; 7] /\ bucketize_per_key 4 vocab matrix "b" 0 = Some (2, (0, 3))%Z /\
  bucketize_per_key 4 vocab matrix "b" (-6) = Some (0, (0, 3))%Z /\ bucketize_per_key 4 vocab matrix "b" 7 = Some (3, (0, 3))%Z.
Proof.
  split; [repeat constructor; cbn; intuition discriminate|]. split; [reflexivity|]. split; [repeat constructor|].
  split; [split; [reflexivity|vm_compute; repeat split; discriminate]|]. vm_compute. repeat split.
Qed.

(** With two buckets only the first key is right... *)
Theorem c10_two_buckets_first_key : forall vocab matrix k x b,
  NoDup vocab -> length matrix = length vocab -> Forall (fun r => length r = 1%nat) matrix ->
  nth_error vocab 0 = Some k -> nth_error matrix 0 = Some [b] ->
  bucketize_per_key 2 vocab matrix k x = Some (Z.of_nat (count_le x [b]), (0%Z, 1%Z)).
Proof. exact bucketize_per_key_two_buckets. Qed.
Print Assumptions c10_two_buckets_first_key.

(** Finding: ... for key number i the boundary b acts as if it were b - i. *)
Theorem c10_two_buckets_refuted :
  exists vocab matrix k x i b,
    NoDup vocab /\ length matrix = length vocab /\ Forall (fun r => length r = 1%nat) matrix /\
    nth_error vocab i = Some k /\ nth_error matrix i = Some [b] /\
    exists z r, bucketize_per_key 2 vocab matrix k x = Some (z, r) /\ z <> Z.of_nat (count_le x [b]).
Proof.
  exists ["a"; "b"]%string, [[0]; [5]], "b"%string, (9 # 2), 1%nat, 5.
  split; [repeat constructor; cbn; intuition discriminate|]. split; [reflexivity|]. split; [repeat constructor|].
  split; [reflexivity|]. split; [reflexivity|]. eexists _, _. split; [vm_compute; reflexivity|]. vm_compute. discriminate.
Qed.
Print Assumptions c10_two_buckets_refuted.

(** Finding: num_buckets = 1 passes the argument check and then raises. *)
Theorem c10_one_bucket_raises : forall vocab matrix k x, bucketize_per_key 1 vocab matrix k x = None.
Proof. reflexivity. Qed.
Print Assumptions c10_one_bucket_raises.

(** ** C11 *)

(** The schema range is [0, num_buckets - 1]; every value with a key of the analysis is in it, and a value
    with another key gives -1. *)
Theorem c11_seen_keys_in_schema_range : forall num_buckets vocab matrix k x z lo hi,
  bucketize_per_key num_buckets vocab matrix k x = Some (z, (lo, hi)) ->
  lo = 0%Z /\ hi = (Z.of_nat num_buckets - 1)%Z /\
  (In k vocab -> NoDup vocab -> (lo <= z <= hi)%Z) /\ (~ In k vocab -> z = (-1)%Z).
Proof. exact bucketize_per_key_range. Qed.
Print Assumptions c11_seen_keys_in_schema_range.

(** Finding: -1 is outside of the range written to the schema. *)
Theorem c11_unseen_key_refuted :
  exists num_buckets vocab matrix k x z lo hi,
    bucketize_per_key num_buckets vocab matrix k x = Some (z, (lo, hi)) /\ ~ (lo <= z <= hi)%Z.
Proof.
  exists 4%nat, ["a"]%string, [[0; 10; 20]], "z"%string, 5. eexists _, _, _. split; [vm_compute; reflexivity|].
  intros [H _]. apply H. reflexivity.
Qed.
Print Assumptions c11_unseen_key_refuted.

(** ** C12 *)

(** For sorted boundaries (non-finite ones are ignored): a function into [0, 1], defined on every finite value,
    monotone, 0 below the first and 1 from the last boundary on. *)
Theorem c12_interpolation : forall b, let qs := finites b in
  qs <> [] -> StronglySorted Qle qs ->
  exists f, (forall x, interpolate b (Fin x) = Some (Fin (f x))) /\
    (forall x, 0 <= f x <= 1) /\
    (forall x y, x <= y -> f x <= f y) /\
    (forall x, x < hd 0 qs -> f x == 0) /\
    (forall x, last qs 0 <= x -> f x == 1).
Proof. exact interpolate_spec. Qed.
Print Assumptions c12_interpolation.

(** Boundary number k of n distinct ones goes to k / (n - 1). *)
Theorem c12_boundaries_equally_spaced : forall b k, let qs := finites b in
  StronglySorted Qlt qs -> (2 <= length qs)%nat -> (k < length qs)%nat ->
  exists y, interpolate b (Fin (nth k qs 0)) = Some (Fin y) /\
    y == inject_Z (Z.of_nat k) / inject_Z (Z.of_nat (length qs) - 1).
Proof. exact interpolate_boundary. Qed.
Print Assumptions c12_boundaries_equally_spaced.

(** Infinities go to the ends. *)
Theorem c12_negative_infinity : forall b, let qs := finites b in qs <> [] ->
  exists y, interpolate b (Inf true) = Some (Fin y) /\ y == 0.
Proof. exact interpolate_neg_inf. Qed.
Print Assumptions c12_negative_infinity.
Theorem c12_positive_infinity : forall b, let qs := finites b in qs <> [] ->
  exists y, interpolate b (Inf false) = Some (Fin y) /\ y == 1.
Proof. exact interpolate_pos_inf. Qed.
Print Assumptions c12_positive_infinity.

(** NaN goes to the middle if there are two or more boundaries... *)
Theorem c12_nan : forall b, (2 <= length (finites b))%nat -> interpolate b NaN = Some (Fin (1 # 2)).
Proof. exact interpolate_nan. Qed.
Print Assumptions c12_nan.

Example c12_applies :
  let b := [Inf true; Fin 0; Fin 4; Fin 4; Fin 10; Inf false] in
  finites b <> [] /\ StronglySorted Qle (finites b) /\
  exists y, interpolate b (Fin 2) = Some (Fin y) /\ y == 1 # 6.
Proof.
  split; [discriminate|]. split; [repeat constructor; vm_compute; discriminate|].
  eexists. split; [vm_compute; reflexivity|]. reflexivity.
Qed.

(** Finding: ... but with a single boundary NaN goes to 1, against the documentation. *)
Theorem c12_nan_single_boundary_refuted : exists b, finites b <> [] /\ interpolate b NaN = Some (Fin 1).
Proof. exists [Fin 5]. split; [discriminate|reflexivity]. Qed.
Print Assumptions c12_nan_single_boundary_refuted.
