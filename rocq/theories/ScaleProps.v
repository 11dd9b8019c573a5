(** C01 (floating point columns), C07 (tft.scale_by_min_max) and C08 (tft.scale_to_z_score). *)
From Coq Require Import String List ZArith QArith Qreals Reals Bool Lia Lqa Permutation.
From Verif Require Import CombineModel NumericSpec FloatModel MeanVarModel PerKeyModel.
From Verif Require Import ScaleModel ScaleSpec ScaleProofs ZScoreModel ZScoreSpec ZScoreProofs.
Import ListNotations.
Open Scope Q_scope.

Definition ex_finite : sched (sched (list fl)) :=
  Merged (Bundle [Merged (Bundle [[Fin 1; Fin (-2)]; []]) [Bundle [[Fin 3; Fin 8]]]]) [Bundle [Bundle [[]]]; Bundle [Bundle [[Fin 0]]]].

(** ** C01, floating point columns *)

(** tft.min and tft.max of finite values, for every way of batching, bundling and merging. *)
Theorem c01_float_min_max_exact : forall s : sched (sched (list fl)),
  Forall (fun x => is_finite x = true) (rows_of s) -> rows_of s <> [] ->
  exists mn mx, float_min_and_max s = (Fin mn, Fin mx) /\
    q_is_min mn (finites (rows_of s)) /\ q_is_max mx (finites (rows_of s)).
Proof. exact float_min_and_max_exact. Qed.
Print Assumptions c01_float_min_max_exact.

Example c01_float_min_max_exact_applies :
  Forall (fun x => is_finite x = true) (rows_of ex_finite) /\ rows_of ex_finite <> [] /\
  float_min_and_max ex_finite = (Fin (-2), Fin 8).
Proof. split; [repeat constructor|]. split; [discriminate|]. vm_compute. reflexivity. Qed.

(** Without any value the result is min = +inf, max = -inf. *)
Theorem c01_float_min_max_empty : forall s : sched (sched (list fl)),
  rows_of s = [] -> float_min_and_max s = (Inf false, Inf true).
Proof. exact float_min_and_max_empty. Qed.
Print Assumptions c01_float_min_max_empty.

(** Finding: an accumulator whose minimum is +inf is taken for an untouched one, so tft.max drops batches
    holding nothing but +inf, or not, depending on the schedule. *)
Theorem c01_float_infinity_refuted :
  exists s1 s2 : sched (sched (list fl)),
    Permutation (rows_of s1) (rows_of s2) /\ ~ In NaN (rows_of s1) /\
    snd (float_min_and_max s1) = Fin 1 /\ snd (float_min_and_max s2) = Inf false.
Proof.
  exists (Bundle [Bundle [[Inf false]; [Fin 1]]]), (Bundle [Bundle [[Fin 1]; [Inf false]]]).
  split; [apply perm_swap|]. split; [cbn; intuition discriminate|]. split; reflexivity.
Qed.
Print Assumptions c01_float_infinity_refuted.

(** The entry of a key in the per-key versions. *)
Theorem c06_float_min_max_per_key_exact : forall k (bs : list (list (string * fl))) s,
  Permutation (batches_of s) (inputs_of_key k (map float_batch_per_key bs)) ->
  let vs := values_of k (concat bs) in
  vs <> [] -> Forall (fun x => is_finite x = true) vs ->
  exists mn mx, float_key_min_and_max s = (Fin mn, Fin mx) /\ q_is_min mn (finites vs) /\ q_is_max mx (finites vs).
Proof. exact float_key_min_and_max_exact. Qed.
Print Assumptions c06_float_min_max_per_key_exact.

(** ** C07 *)

(** The scaling is a function [f] of the value alone once the dataset is fixed: it maps the analyzed range
    into [lo, hi], its ends to the ends, and preserves the order of all values, seen or not. *)
Theorem c07_scale_by_min_max : forall sigmoid lo hi (s : sched (sched (list fl))),
  is_sigmoid sigmoid -> lo < hi ->
  Forall (fun x => is_finite x = true) (rows_of s) -> rows_of s <> [] ->
  exists f mn mx,
    q_is_min mn (finites (rows_of s)) /\ q_is_max mx (finites (rows_of s)) /\
    (forall x, scale_by_min_max sigmoid lo hi s (Fin x) = Some (Fin (f x))) /\
    (forall x, mn <= x <= mx -> lo <= f x <= hi) /\
    (forall x y, x <= y -> f x <= f y) /\
    (mn < mx -> (forall x, x == mn -> f x == lo) /\ (forall x, x == mx -> f x == hi) /\ (forall x y, x < y -> f x < f y)).
Proof. exact scale_by_min_max_spec. Qed.
Print Assumptions c07_scale_by_min_max.

(** Every value of the analyzed dataset lands in the output range. *)
Theorem c07_dataset_in_range : forall sigmoid lo hi (s : sched (sched (list fl))) x,
  is_sigmoid sigmoid -> lo < hi ->
  Forall (fun x => is_finite x = true) (rows_of s) -> In x (rows_of s) ->
  exists y, scale_by_min_max sigmoid lo hi s x = Some (Fin y) /\ lo <= y <= hi.
Proof. exact scale_dataset_in_range. Qed.
Print Assumptions c07_dataset_in_range.

(** With an empty analysis dataset every value lands in the open range. *)
Theorem c07_empty_dataset_in_range : forall sigmoid lo hi (s : sched (sched (list fl))) x,
  is_sigmoid sigmoid -> lo < hi -> rows_of s = [] ->
  exists y, scale_by_min_max sigmoid lo hi s (Fin x) = Some (Fin y) /\ lo < y < hi.
Proof. exact scale_empty_dataset. Qed.
Print Assumptions c07_empty_dataset_in_range.

(** lo >= hi is rejected. *)
Theorem c07_rejects_empty_output_range : forall sigmoid lo hi s x,
  hi <= lo -> scale_by_min_max sigmoid lo hi s x = None.
Proof. exact scale_rejects. Qed.
Print Assumptions c07_rejects_empty_output_range.

Example c07_applies :
  is_sigmoid ex_sigmoid /\ -1 < 1 /\ Forall (fun x => is_finite x = true) (rows_of ex_finite) /\ rows_of ex_finite <> [] /\
  exists a b c, scale_by_min_max ex_sigmoid (-1) 1 ex_finite (Fin (-2)) = Some (Fin a) /\ a == -1 /\
    scale_by_min_max ex_sigmoid (-1) 1 ex_finite (Fin 3) = Some (Fin b) /\ b == 0 /\
    scale_by_min_max ex_sigmoid (-1) 1 (Bundle [Bundle [[Fin 2]]]) (Fin 2) = Some (Fin c) /\ c == 1 # 2.
Proof.
  split; [exact ex_sigmoid_ok|]. split; [reflexivity|]. split; [repeat constructor|]. split; [discriminate|].
  eexists _, _, _. split; [vm_compute; reflexivity|]. split; [reflexivity|].
  split; [vm_compute; reflexivity|]. split; [reflexivity|]. split; [vm_compute; reflexivity|]. reflexivity.
Qed.

(** Per key: every row of the analyzed dataset lands in the output range, whatever the schedules of the
    keys ([sch]) and the order in which their results arrive ([keys]). *)
Theorem c07_per_key_in_range : forall sigmoid lo hi (bs : list (list (string * fl))) (sch : string -> sched (sched (fl * fl))) keys k x,
  is_sigmoid sigmoid -> lo < hi ->
  NoDup keys ->
  (forall k, In k keys -> Permutation (batches_of (sch k)) (inputs_of_key k (map float_batch_per_key bs))) ->
  (forall k, In k keys <-> In k (map fst (concat bs))) ->
  Forall (fun p => is_finite (snd p) = true) (concat bs) ->
  In (k, x) (concat bs) ->
  let (vocab, results) := per_key_analysis float_key_min_and_max sch keys in
  exists y, scale_by_min_max_per_key sigmoid lo hi vocab results k x = Some (Fin y) /\ lo <= y <= hi.
Proof. exact scale_per_key_in_range. Qed.
Print Assumptions c07_per_key_in_range.

Example c07_per_key_in_range_applies :
  let bs := [[("b", Fin 1); ("a", Fin 7); ("b", Fin 3)]; [("a", Fin 9)]]%string in
  let sch := fun k => Bundle [Bundle (inputs_of_key k (map float_batch_per_key bs))] in
  let (vocab, results) := per_key_analysis float_key_min_and_max sch ["b"; "a"]%string in
  vocab = ["a"; "b"]%string /\
  (exists y, scale_by_min_max_per_key ex_sigmoid 0 1 vocab results "a" (Fin 7) = Some (Fin y) /\ y == 0) /\
  (exists y, scale_by_min_max_per_key ex_sigmoid 0 1 vocab results "b" (Fin 3) = Some (Fin y) /\ y == 1).
Proof.
  vm_compute. split; [reflexivity|]. split; eexists; (split; [reflexivity|]); reflexivity.
Qed.

(** A key that the analysis has not seen: the value is squashed into the open output range. *)
Theorem c07_per_key_unseen_in_range : forall sigmoid lo hi vocab results k x,
  is_sigmoid sigmoid -> lo < hi ->
  List.length results = List.length vocab -> NoDup vocab -> vocab <> [] -> ~ In k vocab ->
  exists y, scale_by_min_max_per_key sigmoid lo hi vocab results k (Fin x) = Some (Fin y) /\ lo < y < hi.
Proof. exact scale_per_key_unseen. Qed.
Print Assumptions c07_per_key_unseen_in_range.

(** ** C08 *)

(** Scaled by its own statistics, a column with two different finite values gets mean 0 and variance 1, and
    a column of one repeated value gets 0 everywhere. *)
Theorem c08_z_score : forall s : sched (sched (list fl)),
  let vs := finites (rows_of s) in vs <> [] ->
  exists z, (forall x, scale_to_z_score s x = Some (z x)) /\
    ((exists x y, In x vs /\ In y vs /\ ~ x == y) -> r_mean (map z vs) = 0%R /\ r_var (map z vs) = 1%R) /\
    ((forall x y, In x vs -> In y vs -> x == y) -> forall x, In x vs -> z x = 0%R).
Proof. exact z_score_spec. Qed.
Print Assumptions c08_z_score.

Example c08_z_score_applies :
  let vs := finites (rows_of ex_finite) in vs <> [] /\ (exists x y, In x vs /\ In y vs /\ ~ x == y).
Proof. split; [discriminate|]. exists 1, 8. cbn. split; [auto|]. split; [auto|]. discriminate. Qed.

(** The scaling preserves the order of all values. *)
Theorem c08_z_score_monotone : forall (s : sched (sched (list fl))) x y zx zy,
  scale_to_z_score s x = Some zx -> scale_to_z_score s y = Some zy -> x <= y -> (zx <= zy)%R.
Proof. exact z_score_mono. Qed.
Print Assumptions c08_z_score_monotone.

(** A key that the analysis has not seen leaves the value as it is. *)
Theorem c08_per_key_unseen : forall vocab results k x,
  List.length results = List.length vocab -> NoDup vocab -> vocab <> [] -> ~ In k vocab ->
  scale_to_z_score_per_key vocab results k x = Some (Q2R x).
Proof. exact z_score_per_key_unseen. Qed.
Print Assumptions c08_per_key_unseen.
