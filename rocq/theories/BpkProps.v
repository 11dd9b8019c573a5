(** C81: tft.bucketize_per_key splits the rows of each key into buckets of about the same weight, however the
    dataset is batched and whatever the sketch of the quantiles, if only that keeps its promise. *)
From Coq Require Import String List ZArith QArith Qabs Bool Arith Lia Lqa Sorting.Sorted.
From Verif Require Import NumericModel FloatModel BucketModel BucketSpec QuantileModel QuantileSpec QuantileProofs QuantileExample
  BpkModel BpkSpec BpkProofs BpkExample.
Import ListNotations.
Local Open Scope Q_scope.

(** Every value with a key of the dataset is in one of the n buckets, even if all rows of the key are NaN or
    have no weight; a value with another key is in bucket -1. *)
Theorem c81_range : forall sketch (ops : sketch_ops sketch) r n epsilon weights inputs found plans key x,
  keeps_shape ops -> (3 <= n)%nat -> runs weights inputs found plans -> rows weights inputs <> [] ->
  exists b, bucketize_rows_per_key ops r n epsilon weights plans found key x = Some b /\
    (In key (map fst (rows weights inputs)) -> (0 <= b < Z.of_nat n)%Z) /\
    (~ In key (map fst (rows weights inputs)) -> b = (-1)%Z).
Proof. exact @in_buckets. Qed.

Lemma some_rows_complete : Forall (complete true) some_rows.
Proof. repeat constructor. Qed.
Example c81_range_applies :
  keeps_shape keep_all /\ runs true some_rows (all_keys some_rows) (by_batches true some_rows) /\
  In "c"%string (map fst (rows true some_rows)) /\ key_entries true some_rows "c" = [] /\
  bucketize_rows_per_key keep_all (fun x => x) 3 None true (by_batches true some_rows) (all_keys some_rows) "c" 5 = Some 2%Z /\
  bucketize_rows_per_key keep_all (fun x => x) 3 None true (by_batches true some_rows) (all_keys some_rows) "z" 5 = Some (-1)%Z.
Proof.
  split; [exact keep_all_shape|]. split; [exact (by_batches_runs _ _ some_rows_complete)|].
  split; [cbn; tauto|]. repeat split; vm_compute; reflexivity.
Qed.

(** The bucket depends on the rows of the key alone, and on how they are combined. *)
Theorem c81_own_rows : forall sketch (ops : sketch_ops sketch) r n epsilon weights inputs inputs' found found' plans plans' key x,
  keeps_shape ops -> (3 <= n)%nat -> runs weights inputs found plans -> runs weights inputs' found' plans' ->
  In key found -> In key found' -> plans key = plans' key ->
  bucketize_rows_per_key ops r n epsilon weights plans found key x
  = bucketize_rows_per_key ops r n epsilon weights plans' found' key x.
Proof. exact @other_keys. Qed.

Example c81_own_rows_applies :
  let more := some_rows ++ [Input ["0"; "z"]%string [Fin 100; Fin 200] [Fin 1; Fin 1]] in
  let plans := fun k => if String.eqb k "a" then by_batches true some_rows "a" else by_batches true more k in
  all_keys more <> all_keys some_rows /\
  bucketize_rows_per_key keep_all (fun x => x) 3 None true plans (all_keys more) "a" 25 = Some 1%Z /\
  bucketize_rows_per_key keep_all (fun x => x) 3 None true (by_batches true some_rows) (all_keys some_rows) "a" 25 = Some 1%Z.
Proof. split; [vm_compute; discriminate|]. split; vm_compute; reflexivity. Qed.

(** If the boundaries of a key are apart by a millionth of their range, its buckets are those that
    tft.bucketize computes of the rows of the key alone (for integers, and for float32 numbers). *)
Theorem c81_alone : forall sketch (ops : sketch_ops sketch) r n epsilon weights inputs found plans key x dx,
  rounding r -> keeps_shape ops -> keeps_promise ops (allowed_error n epsilon) 1 -> (3 <= n)%nat ->
  runs weights inputs found plans -> In key found -> good (key_entries weights inputs key) ->
  well_separated (nth 0 (quantiles ops r 1 n (allowed_error n epsilon) weights true (plans key)) []) ->
  ((exists d, dx = IntT d) \/ r x = x) ->
  exists b, bucketize ops r dx 1 n epsilon weights false (plans key) 0 (Fin x) = Some b /\
    bucketize_rows_per_key ops r n epsilon weights plans found key x = Some (Z.of_nat b).
Proof.
  intros sketch ops r n epsilon weights inputs found plans key x dx Rr Sh Pr n3 R I G W X.
  rewrite <- (proj1 (own_quantiles ops r n epsilon weights inputs found plans R Sh n3 key I)) in W.
  destruct (alone ops r n epsilon weights inputs found plans R Sh n3 Rr Pr key I G x W Int64) as (b & B & E).
  exists b. split; [|exact E]. destruct X as [[d ->]|X].
  - rewrite <- B. unfold bucketize, QuantileModel.apply_buckets. rewrite !widens. reflexivity.
  - rewrite <- B. unfold bucketize, QuantileModel.apply_buckets. rewrite !widens. destruct dx; cbn [cast_to_float32]; rewrite ?X; reflexivity.
Qed.

(** Then every bucket has the same share of the weight of the key, up to twice the error allowed and the
    weight of values that are the same float32 number. *)
Theorem c81_balanced : forall sketch (ops : sketch_ops sketch) r n epsilon weights inputs found plans key m i,
  let eps := allowed_error n epsilon in
  let l := key_entries weights inputs key in
  rounding r -> keeps_shape ops -> keeps_promise ops eps 1 -> 0 <= eps -> (3 <= n)%nat ->
  runs weights inputs found plans -> In key found -> good l -> (i < n)%nat ->
  well_separated (nth 0 (quantiles ops r 1 n eps weights true (plans key)) []) -> ties_at_most r m l ->
  Qabs (in_bucket (bucketize_rows_per_key ops r n epsilon weights plans found key) i l - total l / inject_Z (Z.of_nat n))
  <= 2 * eps * total l + m.
Proof.
  intros sketch ops r n epsilon weights inputs found plans key m i eps l Rr Sh Pr E0 n3 R I G Hi W T.
  unfold eps in W.
  rewrite <- (proj1 (own_quantiles ops r n epsilon weights inputs found plans R Sh n3 key I)) in W.
  exact (balanced_separated ops r n epsilon weights inputs found plans R Sh n3 Rr Pr key I G m i E0 Hi W T).
Qed.

Example c81_balanced_applies :
  keeps_promise keep_all (allowed_error 3 None) 1 /\ rounding round_to_128 /\
  key_entries true some_rows "a" = [(10, 1); (30, 2); (20, 1); (40, 1); (60, 1)] /\
  good (key_entries true some_rows "a") /\
  quantiles keep_all (fun x => x) 1 3 (allowed_error 3 None) true true (by_batches true some_rows "a") = [[20; 30]] /\
  well_separated [20; 30] /\
  (forall i, in_bucket (bucketize_rows_per_key keep_all (fun x => x) 3 None true (by_batches true some_rows) (all_keys some_rows) "a") i
     (key_entries true some_rows "a") = nth i [1; 1; 4] 0).
Proof.
  split; [apply keep_all_promise; [discriminate|lia]|]. split; [exact round_to_128_rounding|]. split; [reflexivity|].
  split; [split; [repeat constructor; vm_compute; discriminate|vm_compute; reflexivity]|]. split; [vm_compute; reflexivity|].
  split; [split; [reflexivity|split; [vm_compute; discriminate|exact Logic.I]]|].
  intros [|[|[|i]]]; [vm_compute; reflexivity..|].
  transitivity 0; [|destruct i; reflexivity]. unfold in_bucket.
  assert (N : forall v, In v [10; 30; 20; 40; 60] ->
    match bucketize_rows_per_key keep_all (fun x => x) 3 None true (by_batches true some_rows) (all_keys some_rows) "a" v with
    | Some j => (j =? Z.of_nat (S (S (S i))))%Z | None => false end = false).
  { intros v [<-|[<-|[<-|[<-|[<-|[]]]]]];
      match goal with |- match ?b with _ => _ end = _ => let y := eval vm_compute in b in change b with y end; cbv iota; apply Z.eqb_neq; lia. }
  change (key_entries true some_rows "a") with [(10, 1); (30, 2); (20, 1); (40, 1); (60, 1)].
  unfold weight. cbn [filter fst]. rewrite !N by (cbn; tauto). reflexivity.
Qed.

(** For any boundaries: if values are at most [d] apart, boundaries move by less than n millionths of [d],
    and a bucket may have, or lack, in addition the weight of the values in two intervals of that length. *)
Theorem c81_balanced_any : forall sketch (ops : sketch_ops sketch) r n epsilon weights inputs found plans key d m i,
  let eps := allowed_error n epsilon in
  let l := key_entries weights inputs key in
  rounding r -> keeps_shape ops -> keeps_promise ops eps 1 -> 0 <= eps -> (3 <= n)%nat ->
  runs weights inputs found plans -> In key found -> good l -> (i < n)%nat ->
  1 <= d -> spread_at_most r d l -> crowds_at_most r (inject_Z (Z.of_nat n) * ((1 # 1000000) * d)) m l ->
  Qabs (in_bucket (bucketize_rows_per_key ops r n epsilon weights plans found key) i l - total l / inject_Z (Z.of_nat n))
  <= 2 * eps * total l + 2 * m.
Proof.
  intros sketch ops r n epsilon weights inputs found plans key d m i eps l Rr Sh Pr E0 n3 R I G Hi D1 Sp Cr.
  exact (balanced_moved ops r n epsilon weights inputs found plans R Sh n3 Rr Pr key I G d m i E0 Hi D1 Sp Cr).
Qed.

Example c81_balanced_any_applies :
  spread_at_most (fun x => x) 50 (key_entries true some_rows "a") /\
  crowds_at_most (fun x => x) (inject_Z (Z.of_nat 3) * ((1 # 1000000) * 50)) 2 (key_entries true some_rows "a").
Proof.
  change (key_entries true some_rows "a") with [(10, 1); (30, 2); (20, 1); (40, 1); (60, 1)]. split.
  - intros e e' [<-|[<-|[<-|[<-|[<-|[]]]]]] [<-|[<-|[<-|[<-|[<-|[]]]]]]; vm_compute; discriminate.
  - intros v. change (inject_Z (Z.of_nat 3) * ((1 # 1000000) * 50)) with (150 # 1000000). rewrite !weight_cons. cbn [fst snd].
    assert (C : forall x, Qle_bool v x && Qle_bool x (v + (150 # 1000000)) = true -> v <= x <= v + (150 # 1000000)).
    { intros x H. apply andb_true_iff in H as [H1 H2]. apply Qle_bool_iff in H1, H2. now split. }
    destruct (Qle_bool v 10 && Qle_bool 10 _) eqn:A, (Qle_bool v 30 && Qle_bool 30 _) eqn:B, (Qle_bool v 20 && Qle_bool 20 _) eqn:D,
      (Qle_bool v 40 && Qle_bool 40 _) eqn:E, (Qle_bool v 60 && Qle_bool 60 _) eqn:F; try (vm_compute; discriminate);
      repeat match goal with H : (_ && _) = true |- _ => apply C in H end; lra.
Qed.

(** Finding: buckets of about the same size are not what one gets if values are close to each other compared to
    the range of the key.  Of twenty distinct float32 numbers, five buckets of tft.bucketize_per_key have
    3, 7, 10, 0 and 0, while those of tft.bucketize have 3, 4, 4, 4 and 5. *)
Theorem c81_close_values_refuted : exists sketch (ops : sketch_ops sketch) inputs found plans key,
  let l := key_entries false inputs key in
  keeps_promise ops (allowed_error 5 None) 1 /\ keeps_shape ops /\ runs false inputs found plans /\ In key found /\
  NoDup (map fst l) /\ total l == 20 /\
  map (fun i => in_bucket (bucketize_rows_per_key ops (fun x => x) 5 None false plans found key) i l) (seq 0 5) = [3; 7; 10; 0; 0] /\
  map (fun i => bucket_weight (fun v => bucketize ops (fun x => x) Float32 1 5 None false false (plans key) 0 (Fin v)) i l) (seq 0 5)
  = [3; 4; 4; 4; 5].
Proof.
  exists (nat * list (fl * fl))%type, keep_all, close_rows, (all_keys close_rows), (by_batches false close_rows), "a"%string.
  cbv zeta. split; [apply keep_all_promise; [discriminate|lia]|]. split; [exact keep_all_shape|].
  split; [apply by_batches_runs; constructor; [split; [reflexivity|discriminate]|constructor]|].
  split; [left; reflexivity|]. split; [|split; [vm_compute; reflexivity|split; vm_compute; reflexivity]].
  vm_compute. repeat (constructor; [cbn; intuition discriminate|]). constructor.
Qed.

(** Finding: with two buckets the rows of all keys but the first may be in one of them. *)
Theorem c81_two_buckets_refuted : exists sketch (ops : sketch_ops sketch) inputs found plans key,
  let l := key_entries false inputs key in
  keeps_promise ops (allowed_error 2 None) 1 /\ keeps_shape ops /\ runs false inputs found plans /\ In key found /\
  NoDup (map fst l) /\ total l == 4 /\
  map (fun i => in_bucket (bucketize_rows_per_key ops (fun x => x) 2 None false plans found key) i l) (seq 0 2) = [0; 4] /\
  map (fun i => bucket_weight (fun v => bucketize ops (fun x => x) Float32 1 2 None false false (plans key) 0 (Fin v)) i l) (seq 0 2)
  = [1; 3].
Proof.
  exists (nat * list (fl * fl))%type, keep_all, two_keys, (all_keys two_keys), (by_batches false two_keys), "b"%string.
  cbv zeta. split; [apply keep_all_promise; [discriminate|lia]|]. split; [exact keep_all_shape|].
  split; [apply by_batches_runs; constructor; [split; [reflexivity|discriminate]|constructor]|].
  split; [left; reflexivity|]. split; [|split; [vm_compute; reflexivity|split; vm_compute; reflexivity]].
  vm_compute. repeat (constructor; [cbn; intuition discriminate|]). constructor.
Qed.

Print Assumptions c81_range.
Print Assumptions c81_own_rows.
Print Assumptions c81_alone.
Print Assumptions c81_balanced.
Print Assumptions c81_balanced_any.
Print Assumptions c81_close_values_refuted.
Print Assumptions c81_two_buckets_refuted.
