(** C06: per-key analyzers. *)
From Coq Require Import String List ZArith QArith Bool Lia Permutation Sorting.Sorted.
From Verif Require Import CombineModel CombineProofs NumericModel NumericSpec NumericProofs FloatModel MeanVarModel MeanVarSpec MeanVarProofs.
From Verif Require Import SortModel SortProofs PerKeyModel PerKeyProofs.
Import ListNotations.
Open Scope Z_scope.

(** [bs] are the batches of (key, value) rows of the dataset.  For each key, the runner may combine
    what the batches contribute for the key in any order and grouping ([s]). *)

Definition ex_rows : list (list (string * Z)) :=
  [[("a", 3); ("b", 7); ("a", -5)]; [("b", 1)]; [("a", 9)]]%string.

(** The number of rows with the key. *)
Theorem c06_count_per_key_exact : forall k (bs : list (list string)) s,
  Permutation (batches_of s) (inputs_of_key k (map batch_count_per_key bs)) ->
  Z.of_nat (List.length (concat bs)) < 2 ^ 63 ->
  key_count s = Some (Z.of_nat (count_occ String.string_dec (concat bs) k)).
Proof. exact key_count_exact. Qed.
Print Assumptions c06_count_per_key_exact.

Example c06_count_per_key_exact_applies :
  let bs := map (map fst) ex_rows in
  let s := Merged (Bundle [Bundle [[Sc 1]]]) [Bundle [Bundle [[Sc 2]]]] in
  Permutation (batches_of s) (inputs_of_key "a" (map batch_count_per_key bs)) /\
  Z.of_nat (List.length (concat bs)) < 2 ^ 63 /\ key_count s = Some 3.
Proof. split; [apply perm_swap|]. split; reflexivity. Qed.

(** The largest value among the rows with the key. *)
Theorem c06_max_per_key_exact : forall d w k (bs : list (list (string * Z))) s,
  per_key_work_dtype d = Some w ->
  Permutation (batches_of s) (inputs_of_key k (map (batch_minus_min_and_max_per_key w) bs)) ->
  let vs := values_of k (concat bs) in
  vs <> [] -> Forall (in_range d) vs -> Forall (fun x => x <> dmax d) vs ->
  exists mn mx, key_min_and_max d s = Some (mn, mx) /\ is_max mx vs.
Proof. exact key_max_exact. Qed.
Print Assumptions c06_max_per_key_exact.

(** The smallest value among the rows with the key. *)
Theorem c06_min_per_key_exact : forall d w k (bs : list (list (string * Z))) s,
  per_key_work_dtype d = Some w ->
  Permutation (batches_of s) (inputs_of_key k (map (batch_minus_min_and_max_per_key w) bs)) ->
  let vs := values_of k (concat bs) in
  vs <> [] -> Forall (in_range d) vs -> Forall (fun x => dmin w < x) vs ->
  exists mn mx, key_min_and_max d s = Some (mn, mx) /\ is_min mn vs.
Proof. exact key_min_exact. Qed.
Print Assumptions c06_min_per_key_exact.

Example c06_min_max_per_key_applies :
  let s := Merged (Bundle [Bundle [[Sc (-9); Sc 9]]]) [Bundle [Bundle [[Sc 5; Sc 3]]]] in
  let vs := values_of "a" (concat ex_rows) in
  per_key_work_dtype Int8 = Some Int8 /\
  Permutation (batches_of s) (inputs_of_key "a" (map (batch_minus_min_and_max_per_key Int8) ex_rows)) /\
  vs <> [] /\ Forall (in_range Int8) vs /\ Forall (fun x => x <> dmax Int8) vs /\ Forall (fun x => dmin Int8 < x) vs /\
  key_min_and_max Int8 s = Some (-5, 9).
Proof.
  split; [reflexivity|]. split; [apply perm_swap|]. cbv -[Z.le Z.lt].
  repeat split; try discriminate; repeat constructor; lia || discriminate.
Qed.

(** For every dtype but int16, the entry of a key is what tft.min / tft.max return on the rows with that
    key (for some batching of these rows). *)
Theorem c06_min_max_per_key_agree : forall d w k (bs : list (list (string * Z))) s,
  per_key_work_dtype d = Some w -> d <> Int16 ->
  Permutation (batches_of s) (inputs_of_key k (map (batch_minus_min_and_max_per_key w) bs)) ->
  exists s', Permutation (rows_of s') (values_of k (concat bs)) /\ key_min_and_max d s = min_and_max d s'.
Proof. exact key_agrees_with_global. Qed.
Print Assumptions c06_min_max_per_key_agree.

(** Finding: for int16 they disagree; the per-key minimum of [-32768; 5] is 5. *)
Theorem c06_int16_refuted :
  exists k (bs : list (list (string * Z))) s mn mx,
    Permutation (batches_of s) (inputs_of_key k (map (batch_minus_min_and_max_per_key Int16) bs)) /\
    per_key_work_dtype Int16 = Some Int16 /\
    Forall (in_range Int16) (values_of k (concat bs)) /\
    key_min_and_max Int16 s = Some (mn, mx) /\ ~ is_min mn (values_of k (concat bs)) /\
    forall s', rows_of s' = values_of k (concat bs) -> exists mx', min_and_max Int16 s' = Some (-32768, mx').
Proof.
  exists "a"%string, [[("a", -32768); ("a", 5)]]%string, (Bundle [Bundle [[Sc (-5); Sc 5]]]), 5, 5.
  split; [apply Permutation_refl|]. split; [reflexivity|]. split.
  { repeat constructor; discriminate. }
  split; [reflexivity|]. split.
  { intros [_ H]. specialize (H (-32768)). cbn in H. lia. }
  intros s' E. cbn in E.
  destruct (global_min_exact Int16 Int32 s' eq_refl) as (mn & mx & E' & [H1 H2]); rewrite ?E in *.
  - discriminate.
  - repeat constructor; discriminate.
  - repeat constructor; discriminate.
  - repeat constructor; reflexivity.
  - exists mx. rewrite E'. do 2 f_equal. specialize (H2 (-32768) (or_introl eq_refl)).
    destruct H1 as [<-|[<-|[]]]; [reflexivity|lia].
Qed.
Print Assumptions c06_int16_refuted.

(** The mean and variance of the finite values of the rows with the key. *)
Theorem c06_mean_and_var_per_key_exact : forall (bs : list (list (string * fl))) k (s : sched (sched (list mv))),
  Permutation (batches_of s) (inputs_of_key k (map batch_per_key bs)) ->
  let vs := finites (values_of k (concat bs)) in vs <> [] ->
  exists m v, nth_error (analyze (mv_combiner 1) s) 0 = Some (Fin m, Fin v) /\ (m == mean_of vs)%Q /\ (v == var_of vs)%Q.
Proof. exact mean_and_var_per_key_exact. Qed.
Print Assumptions c06_mean_and_var_per_key_exact.

Example c06_mean_and_var_per_key_exact_applies :
  let bs := [[("a", Fin 1); ("b", Fin 7); ("a", Fin 3)]; [("a", NaN); ("a", Fin 8)]]%string in
  let s := Bundle [Bundle (inputs_of_key "a" (map batch_per_key bs))] in
  finites (values_of "a" (concat bs)) = [1; 3; 8]%Q /\
  exists m v, nth_error (analyze (mv_combiner 1) s) 0 = Some (Fin m, Fin v) /\ (m == 4)%Q /\ (v == 26 # 3)%Q.
Proof. split; [reflexivity|]. eexists _, _. split; [vm_compute; reflexivity|]. split; reflexivity. Qed.

(** The returned key vector is sorted, and each key is paired with its own result; the order in which
    the results of the keys arrive does not matter. *)
Theorem c06_outputs_sorted_by_key : forall O (l : list (string * O)),
  let (ks, os) := merge_outputs_by_key l in
  Permutation (combine ks os) l /\ List.length ks = List.length os /\ StronglySorted (fun a b => bytes_leb a b = true) ks.
Proof. exact @merge_outputs_spec. Qed.
Print Assumptions c06_outputs_sorted_by_key.

Theorem c06_outputs_order_independent : forall O (l1 l2 : list (string * O)),
  NoDup (map fst l1) -> Permutation l1 l2 -> merge_outputs_by_key l1 = merge_outputs_by_key l2.
Proof. exact @merge_outputs_order_independent. Qed.
Print Assumptions c06_outputs_order_independent.

Example c06_outputs_order_independent_applies :
  let l := [("b", 1); ("ab", 2); ("a", 3)]%string in
  NoDup (map fst l) /\ merge_outputs_by_key l = (["a"; "ab"; "b"]%string, [3; 2; 1]).
Proof. split; [|reflexivity]. repeat constructor; cbn; intuition discriminate. Qed.

(** A row is mapped to the result of its own key; a key that was not seen in the analysis gives zero. *)
Theorem c06_map_per_key : forall O (zeros_like : O -> O) (results : list O) vocab k,
  List.length results = List.length vocab -> NoDup vocab -> vocab <> [] ->
  (forall j, nth_error vocab j = Some k -> map_per_key zeros_like results vocab k = nth_error results j) /\
  (~ In k vocab -> exists t0, map_per_key zeros_like results vocab k = Some (zeros_like t0)).
Proof. exact @map_per_key_spec. Qed.
Print Assumptions c06_map_per_key.

Example c06_map_per_key_applies :
  let vocab := ["a"; "b"]%string in
  NoDup vocab /\ map_per_key (fun _ => 0) [5; 7] vocab "b" = Some 7 /\ map_per_key (fun _ => 0) [5; 7] vocab "z" = Some 0.
Proof. split; [|split; reflexivity]. repeat constructor; cbn; intuition discriminate. Qed.
