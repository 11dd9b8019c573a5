(** * C50: histograms and densities *)
From Coq Require Import String List ZArith QArith Bool Sorting.Sorted Lia Lqa.
From Verif Require Import CombineModel NumericModel FloatModel MeanVarModel PerKeyModel.
From Verif Require Import HistogramModel HistogramSpec HistogramProofs.
Import ListNotations.
Local Notation length := List.length.
Open Scope Z_scope.

(** [bs] are the batches of the values of the dataset.  However the runner combines the
    counts, `tft.histogram` counts, in order, the values in each bin between the
    boundaries it returns; a bin without values has the count 0. *)
Theorem c50_counts : forall b bs sch keys,
  (2 <= length b)%nat -> Z.of_nat (length b) <= 2 ^ 31 -> StronglySorted Qle b ->
  Z.of_nat (length (concat bs)) < 2 ^ 63 ->
  runner_counts (map (bucket_keys (shifted b)) bs) sch keys ->
  histogram b sch keys
  = Some (map (fun i => how_many (in_bin (shifted b) i) (concat bs)) (seq 0 (length b - 1)), shifted b).
Proof. exact histogram_exact. Qed.

Definition ex_boundaries : list Q := map inject_Z [0; 1; 2; 3; 4].
Definition ex_batches : list (list fl) :=
  map (map (fun z => Fin (inject_Z z))) [[0; 1; 0]; []; [1; 0; 3; 0; 1]].
Definition run_histogram (b : list Q) (bs : list (list fl)) : option (list Z * list Q) :=
  let batches := map (bucket_keys (shifted b)) bs in
  histogram b (simple_schedule batches) (simple_keys batches).

Example c50_counts_applies :
  StronglySorted Qle ex_boundaries /\
  runner_counts (map (bucket_keys (shifted ex_boundaries)) ex_batches)
    (simple_schedule (map (bucket_keys (shifted ex_boundaries)) ex_batches))
    (simple_keys (map (bucket_keys (shifted ex_boundaries)) ex_batches)) /\
  option_map fst (run_histogram ex_boundaries ex_batches) = Some [4; 3; 0; 1].
Proof.
  split; [repeat constructor; vm_compute; discriminate|]. split; [apply simple_runner|].
  vm_compute. reflexivity.
Qed.

(** If no value is less than 0.0001 below a boundary, these are the numbers of values
    between the boundaries that were given. *)
Theorem c50_given_boundaries : forall b bs sch keys,
  (2 <= length b)%nat -> Z.of_nat (length b) <= 2 ^ 31 -> StronglySorted Qle b ->
  Z.of_nat (length (concat bs)) < 2 ^ 63 ->
  (forall q v, In q b -> In v (concat bs) -> ~ just_below q v) ->
  runner_counts (map (bucket_keys (shifted b)) bs) sch keys ->
  exists s, histogram b sch keys
  = Some (map (fun i => how_many (in_given_bin b i) (concat bs)) (seq 0 (length b - 1)), s).
Proof. exact given_boundaries. Qed.

Example c50_given_boundaries_applies :
  (forall q v, In q ex_boundaries -> In v (concat ex_batches) -> ~ just_below q v) /\
  map (fun i => how_many (in_given_bin ex_boundaries i) (concat ex_batches)) (seq 0 4) = [4; 3; 0; 1].
Proof.
  split; [|vm_compute; reflexivity]. intros q v Hq Hv (x & -> & A & B).
  apply in_map_iff in Hq as (a & <- & _).
  assert (In (Fin x) (map (fun z => Fin (inject_Z z)) [0; 1; 0; 1; 0; 3; 0; 1])) as Hx by exact Hv.
  apply in_map_iff in Hx as (c & E & _). injection E as <-.
  rewrite <- Zlt_Qlt in B. assert (c <= a - 1) as C by lia. rewrite Zle_Qle in C.
  unfold Z.sub in C. rewrite inject_Z_plus in C. change (inject_Z (- (1))) with (-1 # 1)%Q in C. lra.
Qed.

(** Every value is in exactly one bin, so the counts add up to the number of values. *)
Theorem c50_every_value_once : forall s, (2 <= length s)%nat -> StronglySorted Qle s ->
  (forall v, exists i, ((i < length s - 1)%nat /\ in_bin s i v = true) /\
     forall j, (j < length s - 1)%nat -> in_bin s j v = true -> j = i) /\
  forall vs, fold_right Z.add 0 (map (fun i => how_many (in_bin s i) vs) (seq 0 (length s - 1)))
             = Z.of_nat (length vs).
Proof. intros s L HS. split; intros; [apply one_bin|apply counts_sum]; assumption. Qed.

(** The density at a value is the share of the dataset in its bin, over the average width
    of a bin. *)
Theorem c50_density : forall s vs x, (2 <= length s)%nat -> StronglySorted Qle s ->
  vs <> [] -> (hd 0 s < last s 0)%Q ->
  let counts := map (fun i => how_many (in_bin s i) vs) (seq 0 (length s - 1)) in
  exists i q, (i < length s - 1)%nat /\ in_bin s i x = true /\
    density counts s x = Some (Fin q) /\
    (q == inject_Z (how_many (in_bin s i) vs) / inject_Z (Z.of_nat (length vs))
          / ((last s 0 - hd 0 s) / inject_Z (Z.of_nat (length s - 1))))%Q.
Proof. exact density_exact. Qed.

Example c50_density_applies :
  exists counts s q, run_histogram ex_boundaries ex_batches = Some (counts, s) /\
    (hd 0 s < last s 0)%Q /\ density counts s (Fin (1 # 1)) = Some (Fin q) /\ (q == 3 # 8)%Q.
Proof. do 3 eexists. split; [vm_compute; reflexivity|]. vm_compute. auto. Qed.

(** The densities are not negative and, times the width of a bin, add up to 1. *)
Theorem c50_densities_sum_to_one : forall s vs, (2 <= length s)%nat -> StronglySorted Qle s ->
  vs <> [] -> (hd 0 s < last s 0)%Q ->
  let counts := map (fun i => how_many (in_bin s i) vs) (seq 0 (length s - 1)) in
  let width := ((last s 0 - hd 0 s) / inject_Z (Z.of_nat (length s - 1)))%Q in
  exists qs, bucket_densities counts s = map Fin qs /\ length qs = (length s - 1)%nat /\
    Forall (fun q => (0 <= q)%Q) qs /\ (fold_right Qplus 0 (map (fun q => q * width) qs) == 1)%Q.
Proof. exact densities_exact. Qed.

(** With `categorical=True`: the distinct values, each with its number of occurrences; and
    the probability mass at any value, zero for one that does not occur. *)
Theorem c50_categories : forall batches sch keys, runner_counts batches sch keys ->
  Z.of_nat (length (concat batches)) < 2 ^ 63 -> concat batches <> [] ->
  exists vocab counts, count_per_key sch keys = Some (vocab, counts) /\
    NoDup vocab /\ (forall k, In k vocab <-> In k (concat batches)) /\
    counts = map (fun k => how_many (String.eqb k) (concat batches)) vocab /\
    forall x, exists q, mass_of_string counts vocab x = Some (Fin q) /\
      (q == inject_Z (how_many (String.eqb x) (concat batches)) / inject_Z (Z.of_nat (length (concat batches))))%Q.
Proof. exact mass_exact. Qed.

Theorem c50_integer_categories : forall (batches : list (list Z)) sch keys,
  runner_counts (map (map as_string) batches) sch keys ->
  Forall (fun z => dmin Int64 <= z <= dmax Int64) (concat batches) ->
  Z.of_nat (length (concat batches)) < 2 ^ 63 -> concat batches <> [] ->
  exists counts elements, histogram_of_integers sch keys = Some (counts, elements) /\
    NoDup elements /\ (forall z, In z elements <-> In z (concat batches)) /\
    counts = map (fun z => how_many (Z.eqb z) (concat batches)) elements /\
    forall x, exists q, mass_of_integer counts elements x = Some (Fin q) /\
      (q == inject_Z (how_many (Z.eqb x) (concat batches)) / inject_Z (Z.of_nat (length (concat batches))))%Q.
Proof. exact integers_exact. Qed.

Example c50_categories_apply :
  let batches := [[3; -12; 3]; [100; 3]] in
  let keys := map (map as_string) batches in
  runner_counts keys (simple_schedule keys) (simple_keys keys) /\
  histogram_of_integers (simple_schedule keys) (simple_keys keys) = Some ([1; 1; 3], [-12; 100; 3]) /\
  mass_of_integer [1; 1; 3] [-12; 100; 3] 3 = Some (Fin (3 # 5)) /\
  mass_of_integer [1; 1; 3] [-12; 100; 3] 4 = Some (Fin 0).
Proof. split; [apply simple_runner|]. vm_compute. auto. Qed.

(** The first example in the documentation gives four counts, not the five that are
    shown, and shifted boundaries. *)
Theorem c50_documented_example_refuted :
  exists counts, option_map fst (run_histogram ex_boundaries ex_batches) = Some counts /\
    counts <> [4; 3; 0; 1; 0] /\
    option_map snd (run_histogram ex_boundaries ex_batches) <> Some ex_boundaries.
Proof. eexists. split; [vm_compute; reflexivity|]. split; vm_compute; discriminate. Qed.

(** An integer `boundaries` is documented as the number of bins.  It gives one bin less;
    1 raises an error. *)
Theorem c50_bin_count_refuted :
  let data := map (map (fun z => Fin (inject_Z z))) [[0; 1; 0]; [2]] in
  (exists b counts s, boundaries_of (Count 3) 0 2 = Some b /\
     run_histogram b data = Some (counts, s) /\ length counts = 2%nat) /\
  (exists b, boundaries_of (Count 1) 0 2 = Some b /\ run_histogram b data = None).
Proof.
  split.
  - do 3 eexists. split; [reflexivity|]. split; vm_compute; reflexivity.
  - eexists. split; [reflexivity|]. vm_compute. reflexivity.
Qed.

(** The shift of the boundaries does not depend on the scale of the data: with the
    boundaries found from the minimum and the maximum, values smaller than 0.0001 are
    all counted in the last bin. *)
Theorem c50_small_values_refuted :
  let data := [[Fin 0; Fin (1 # 100000); Fin (2 # 100000); Fin (5 # 100000)]] in
  exists b s, boundaries_of (Count 6) 0 (5 # 100000) = Some b /\
    run_histogram b data = Some ([0; 0; 0; 0; 4], s).
Proof. do 2 eexists. split; [reflexivity|]. vm_compute. reflexivity. Qed.

(** A constant column has an infinite density, if the boundaries are found from the
    minimum and the maximum. *)
Theorem c50_constant_column_refuted :
  exists b counts s, boundaries_of (Count 5) 7 7 = Some b /\
    run_histogram b [[Fin 7; Fin 7]; [Fin 7]] = Some (counts, s) /\
    density counts s (Fin 7) = Some (Inf false).
Proof. do 3 eexists. split; [reflexivity|]. split; vm_compute; reflexivity. Qed.

Print Assumptions c50_counts.
Print Assumptions c50_given_boundaries.
Print Assumptions c50_every_value_once.
Print Assumptions c50_density.
Print Assumptions c50_densities_sum_to_one.
Print Assumptions c50_categories.
Print Assumptions c50_integer_categories.
Print Assumptions c50_documented_example_refuted.
Print Assumptions c50_bin_count_refuted.
Print Assumptions c50_small_values_refuted.
Print Assumptions c50_constant_column_refuted.
