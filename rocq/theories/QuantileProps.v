(** C68: tft.bucketize splits a dataset into buckets of about the same weight, however it is batched and
    whatever the sketch of the quantiles, if only that keeps its promise. *)
From Coq Require Import List ZArith QArith Qabs Qround Bool Arith Lia Lqa Sorting.Sorted.
From Verif Require Import NumericModel FloatModel BucketModel QuantileModel QuantileSpec QuantileProofs QuantileExample.
Import ListNotations.
Local Open Scope Q_scope.

(** There are k - 1 boundaries for each feature, and every value is in one of k buckets, even if there
    is no data. *)
Theorem c68_boundaries : forall sketch (ops : sketch_ops sketch) r width k eps weights elementwise p,
  keeps_shape ops -> (1 <= k)%nat -> Forall (batch_ok (features elementwise width) weights) (batches_of p) ->
  length (quantiles ops r width k eps weights (negb elementwise) p) = features elementwise width /\
  Forall (fun row => length row = (k - 1)%nat) (quantiles ops r width k eps weights (negb elementwise) p).
Proof. exact @execute_any. Qed.

Theorem c68_range : forall sketch (ops : sketch_ops sketch) r dx width k epsilon weights elementwise p column x,
  keeps_shape ops -> (1 <= k)%nat -> Forall (batch_ok (features elementwise width) weights) (batches_of p) ->
  exists b, bucketize ops r dx width k epsilon weights elementwise p column x = Some b /\ (b < k)%nat.
Proof. exact @in_range. Qed.

Example c68_range_applies :
  keeps_shape keep_all /\ Forall (batch_ok (features true 2) true) (batches_of two_features) /\
  quantiles keep_all (fun x => x) 2 3 (1 # 100) true false two_features = [[2; 4]; [30; 40]] /\
  quantiles keep_all (fun x => x) 2 3 (1 # 100) true false (Add []) = [[0; 0]; [0; 0]] /\
  bucketize keep_all (fun x => x) Float32 2 3 None true true two_features 1 (Fin 35) = Some 1%nat.
Proof.
  split; [exact keep_all_shape|]. split; [|repeat split; vm_compute; reflexivity].
  apply Forall_cons; [|apply Forall_cons; [|apply Forall_cons; [|apply Forall_nil]]]; [exists 3%nat|exists 0%nat|exists 1%nat]; split; reflexivity.
Qed.

(** Every bucket has the same share of the weight, up to twice the error allowed and the weight of
    values that become the same float32 number, for integers and for values that are float32 numbers. *)
Theorem c68_balanced : forall sketch (ops : sketch_ops sketch) r dx width k epsilon weights elementwise p column m i,
  let f := features elementwise width in
  let eps := allowed_error k epsilon in
  let l := feature_entries f (feature elementwise column) weights (batches_of p) in
  rounding r -> (1 <= k)%nat -> keeps_promise ops eps f -> dataset f weights (batches_of p) ->
  (feature elementwise column < f)%nat -> 0 <= eps -> (i < k)%nat ->
  ((exists d, dx = IntT d) \/ forall e, In e l -> r (fst e) == fst e) -> ties_at_most r m l ->
  Qabs (bucket_weight (fun v => bucketize ops r dx width k epsilon weights elementwise p column (Fin v)) i l
        - total l / inject_Z (Z.of_nat k)) <= 2 * eps * total l + m.
Proof. intros sketch ops r dx width k epsilon weights elementwise p column m i f eps l Rr k1 Pr D Col. exact (balanced ops r dx width k epsilon weights elementwise p column Rr k1 Pr D Col m i). Qed.

(** For other values the boundaries are rounded while the values are not, which may cost as much again. *)
Theorem c68_balanced_float64 : forall sketch (ops : sketch_ops sketch) r dx width k epsilon weights elementwise p column m i,
  let f := features elementwise width in
  let eps := allowed_error k epsilon in
  let l := feature_entries f (feature elementwise column) weights (batches_of p) in
  rounding r -> (1 <= k)%nat -> keeps_promise ops eps f -> dataset f weights (batches_of p) ->
  (feature elementwise column < f)%nat -> 0 <= eps -> (i < k)%nat ->
  (forall d, dx <> IntT d) -> ties_at_most r m l ->
  Qabs (bucket_weight (fun v => bucketize ops r dx width k epsilon weights elementwise p column (Fin v)) i l
        - total l / inject_Z (Z.of_nat k)) <= 2 * eps * total l + 2 * m.
Proof. intros sketch ops r dx width k epsilon weights elementwise p column m i f eps l Rr k1 Pr D Col. exact (balanced_plain ops r dx width k epsilon weights elementwise p column Rr k1 Pr D Col m i). Qed.

Lemma two_features_dataset : dataset 2 true (batches_of two_features).
Proof.
  split; [apply Forall_cons; [|apply Forall_cons; [|apply Forall_cons; [|apply Forall_nil]]]; [exists 3%nat|exists 0%nat|exists 1%nat]; split; reflexivity|].
  intros [|[|j]] H; [| |lia]; (split; [repeat constructor; vm_compute; discriminate|vm_compute; reflexivity]).
Qed.
Example c68_balanced_applies :
  dataset 2 true (batches_of two_features) /\ keeps_promise keep_all (1 # 100) 2 /\ rounding round_to_128 /\
  feature_entries 2 1 true (batches_of two_features) = [(10, 1); (30, 1); (40, 4)] /\
  ties_at_most (fun x => x) 4 [(10, 1); (30, 1); (40, 4)] /\
  (forall i, bucket_weight (fun v => bucketize keep_all (fun x => x) Float32 2 3 None true true two_features 1 (Fin v)) i
     [(10, 1); (30, 1); (40, 4)] = nth i [1; 1; 4] 0).
Proof.
  split; [exact two_features_dataset|]. split; [apply keep_all_promise; [discriminate|lia]|].
  split; [exact round_to_128_rounding|]. split; [reflexivity|]. split.
  - intros v. rewrite !weight_cons. cbn [fst snd].
    destruct (Qeq_bool 10 v) eqn:A, (Qeq_bool 30 v) eqn:B, (Qeq_bool 40 v) eqn:C; try (vm_compute; discriminate);
      repeat match goal with H : Qeq_bool _ _ = true |- _ => apply Qeq_bool_iff in H end; lra.
  - intros [|[|[|i]]]; [vm_compute; reflexivity..|]. destruct i; vm_compute; reflexivity.
Qed.

(** By default a bucket is off by at most a fiftieth of the weight up to 100 buckets, and has at most
    three times its share for more. *)
Theorem c68_default_epsilon : forall sketch (ops : sketch_ops sketch) r dx width k weights elementwise p column m i,
  let f := features elementwise width in
  let l := feature_entries f (feature elementwise column) weights (batches_of p) in
  let w := bucket_weight (fun v => bucketize ops r dx width k None weights elementwise p column (Fin v)) i l in
  rounding r -> (1 <= k)%nat -> keeps_promise ops (allowed_error k None) f -> dataset f weights (batches_of p) ->
  (feature elementwise column < f)%nat -> (i < k)%nat ->
  ((exists d, dx = IntT d) \/ forall e, In e l -> r (fst e) == fst e) -> ties_at_most r m l ->
  ((k <= 100)%nat -> Qabs (w - total l / inject_Z (Z.of_nat k)) <= total l / 50 + m) /\
  ((100 <= k)%nat -> w <= 3 * (total l / inject_Z (Z.of_nat k)) + m).
Proof. exact @balanced_by_default. Qed.

Example c68_default_epsilon_applies :
  keeps_promise keep_all (allowed_error 3 None) 2 /\ keeps_promise keep_all (allowed_error 1000 None) 1 /\
  allowed_error 1000 None == 1 # 1000.
Proof. split; [|split; [|reflexivity]]; (apply keep_all_promise; [vm_compute; discriminate|lia]). Qed.

(** Larger values are not in smaller buckets; NaN is in the last. *)
Theorem c68_order : forall sketch (ops : sketch_ops sketch) r dx width k epsilon weights elementwise p column x y,
  let f := features elementwise width in
  rounding r -> (1 <= k)%nat -> keeps_promise ops (allowed_error k epsilon) f -> dataset f weights (batches_of p) ->
  (feature elementwise column < f)%nat -> x <= y ->
  exists a b, bucketize ops r dx width k epsilon weights elementwise p column (Fin x) = Some a /\
    bucketize ops r dx width k epsilon weights elementwise p column (Fin y) = Some b /\ (a <= b)%nat.
Proof. intros sketch ops r dx width k epsilon weights elementwise p column x y f Rr k1 Pr D Col. exact (monotone ops r dx width k epsilon weights elementwise p column Rr k1 Pr D Col x y). Qed.

Theorem c68_nan : forall sketch (ops : sketch_ops sketch) r dx width k epsilon weights elementwise p column,
  let f := features elementwise width in
  (1 <= k)%nat -> keeps_promise ops (allowed_error k epsilon) f -> dataset f weights (batches_of p) ->
  (feature elementwise column < f)%nat ->
  bucketize ops r dx width k epsilon weights elementwise p column NaN = Some (k - 1)%nat.
Proof. intros sketch ops r dx width k epsilon weights elementwise p column f k1 Pr D Col. exact (nan_last ops r dx width k epsilon weights elementwise p column k1 Pr D Col). Qed.

(** Distinct integers need not be spread over the buckets at all: sixty from 2^30, which are the same
    number in float32, are all in the last of ten. *)
Theorem c68_integers_refuted : exists p l,
  l = feature_entries 1 0 false (batches_of p) /\ length l = 60%nat /\ NoDup (map fst l) /\ dataset 1 false (batches_of p) /\
  forall sketch (ops : sketch_ops sketch) r, rounding r ->
  (forall i, (0 <= i < 60)%Z -> r (inject_Z (2 ^ 30 + i)) == inject_Z (2 ^ 30)) ->
  keeps_promise ops (1 # 100) 1 ->
  forall e, In e l -> bucketize ops r (IntT Int64) 1 10 None false false p 0 (Fin (fst e)) = Some 9%nat.
Proof.
  exists close_values, (map (fun i => (inject_Z (2 ^ 30 + Z.of_nat i), 1)) (seq 0 60)).
  split; [vm_compute; reflexivity|]. split; [reflexivity|]. split.
  { rewrite map_map. cbn [fst]. apply FinFun.Injective_map_NoDup; [|apply seq_NoDup].
    intros a b E. apply (f_equal Qnum) in E. unfold inject_Z in E. cbn [Qnum] in E. lia. }
  assert (D : dataset 1 false (batches_of close_values)).
  { split; [apply Forall_cons; [|apply Forall_cons; [|apply Forall_nil]]; exists 30%nat; (split; [reflexivity|discriminate])|].
    intros [|j] H; [|lia]. split; [vm_compute; repeat constructor; discriminate|vm_compute; reflexivity]. }
  split; [exact D|]. intros sketch ops r Rr H Pr e I.
  assert (A : forall e, In e (map (fun i => (inject_Z (2 ^ 30 + Z.of_nat i), 1)) (seq 0 60)) -> r (fst e) == inject_Z (2 ^ 30)).
  { intros e' I'. apply in_map_iff in I' as (i & <- & Hi). apply in_seq in Hi. cbn [fst]. apply H. lia. }
  apply (all_ties ops r (IntT Int64) 1 10 None false false close_values 0 Rr ltac:(lia) Pr D ltac:(cbn; lia)
           (inject_Z (2 ^ 30)) Int64 eq_refl); [exact A|exact (A e I)].
Qed.
Example c68_integers_refuted_applies :
  rounding round_to_128 /\ (forall i, (0 <= i < 60)%Z -> round_to_128 (inject_Z (2 ^ 30 + i)) == inject_Z (2 ^ 30)) /\
  keeps_promise keep_all (1 # 100) 1.
Proof.
  split; [exact round_to_128_rounding|]. split; [|apply keep_all_promise; [discriminate|lia]].
  intros i H. unfold round_to_128.
  assert (E : Qfloor (inject_Z (2 ^ 30 + i) / 128 + (1 # 2)) = 8388608%Z).
  { unfold Qfloor, Qdiv, Qplus, Qmult, Qinv, inject_Z. cbn [Qnum Qden]. 
    change (Z.pos (1 * 128 * 2)) with 256%Z. change (Z.pos (1 * 128)) with 128%Z.
    replace (((2 ^ 30 + i) * 1 * Z.pos 2 + 1 * 128)%Z) with ((2 * i + 128) + 8388608 * 256)%Z by lia.
    rewrite Z.div_add by lia. rewrite Z.div_small by lia. reflexivity. }
  rewrite E. reflexivity.
Qed.

(** One bucket is not an error, though the documentation says that it is. *)
Theorem c68_one_bucket_refuted : exists sketch (ops : sketch_ops sketch) p,
  keeps_promise ops (allowed_error 1 None) 1 /\ dataset 1 false (batches_of p) /\
  forall dx x, bucketize ops (fun x => x) dx 1 1 None false false p 0 x = Some 0%nat.
Proof.
  exists _, keep_all, close_values. split; [apply keep_all_promise; [discriminate|lia]|].
  assert (D : dataset 1 false (batches_of close_values)).
  { split; [apply Forall_cons; [|apply Forall_cons; [|apply Forall_nil]]; exists 30%nat; (split; [reflexivity|discriminate])|].
    intros [|j] H; [|lia]. split; [vm_compute; repeat constructor; discriminate|vm_compute; reflexivity]. }
  split; [exact D|]. intros dx x.
  destruct (in_range keep_all (fun x => x) dx 1 1 None false false close_values 0 x keep_all_shape ltac:(lia) (proj1 D)) as (b & -> & L).
  f_equal. lia.
Qed.

Print Assumptions c68_boundaries.
Print Assumptions c68_range.
Print Assumptions c68_balanced.
Print Assumptions c68_balanced_float64.
Print Assumptions c68_default_epsilon.
Print Assumptions c68_order.
Print Assumptions c68_nan.
Print Assumptions c68_integers_refuted.
Print Assumptions c68_one_bucket_refuted.
