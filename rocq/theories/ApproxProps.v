(** C69: tft.experimental.approximate_vocabulary. *)
From Coq Require Import String Ascii List ZArith QArith Qcanon Bool Permutation Sorting.Sorted.
From Verif Require Import SortModel VocabModel VocabSpec VocabProofs VocabFileProofs ApproxModel ApproxSpec ApproxProofs ApproxSketch ApproxSketchProofs ApproxExample.
Import ListNotations.
Local Open Scope Qc_scope.
Local Notation length := List.length.

(** For every batching, merging and caching of the rows, and every sketch that keeps its documented bounds:
    the file lists at most top_k values of the data, in decreasing order of (estimate, value), and the
    estimates are within the bounds of the true frequencies; a value that is not listed has estimate 0. *)
Theorem c69_bounds : forall sketch (ops : sketch_ops sketch) fmt is_string is_text weighted k store p lines,
  keeps_promise ops k ->
  (weighted = true -> Forall (fun r => 0 <= snd r) (concat (batches_of p))) ->
  approximate_vocabulary ops fmt is_string is_text weighted k store None p lines ->
  let text := is_string && is_text in
  let rs := concat (batches_of p) in
  exists l est,
    lines = lines_of fmt store is_string est l /\
    (length l <= k)%nat /\ StronglySorted (comes_before est) l /\
    (forall t, In t l -> eligible text weighted (Q2Qc 0) rs t) /\ (forall t, ~ In t l -> est t = Q2Qc 0) /\
    within_bounds k est (indicator weighted (accepted text rs)) (mass text weighted rs) (total (map est l)).
Proof. intros sketch ops fmt. exact (approximate_bounds ops fmt). Qed.
Print Assumptions c69_bounds.

Example c69_bounds_applies :
  keeps_promise misra_gries 3 /\
  approximate_vocabulary misra_gries no_format true true false 3 true None two_workers ["# a"; "# c"; "# b"]%string.
Proof. split; [apply misra_gries_promise|]. eexists. split; [reflexivity|vm_compute; reflexivity]. Qed.

(** A value with more than 1 / (top_k + 1) of the total frequency is in the file. *)
Theorem c69_heavy : forall sketch (ops : sketch_ops sketch) fmt is_string is_text weighted k store p lines t,
  keeps_promise ops k ->
  (weighted = true -> Forall (fun r => 0 <= snd r) (concat (batches_of p))) ->
  approximate_vocabulary ops fmt is_string is_text weighted k store None p lines ->
  let text := is_string && is_text in
  let rs := concat (batches_of p) in
  mass text weighted rs < Q2Qc (inject_Z (Z.of_nat (S k))) * indicator weighted (accepted text rs) t ->
  exists q, In (line_of fmt store (fun _ => q) t) lines.
Proof. intros sketch ops fmt. exact (approximate_heavy ops fmt). Qed.
Print Assumptions c69_heavy.

Example c69_heavy_applies :
  keeps_promise misra_gries 1 /\
  Forall (fun r => 0 <= snd r) (concat (batches_of weighted_rows)) /\
  approximate_vocabulary misra_gries no_format true true true 1 false None weighted_rows ["b"]%string /\
  mass true true (concat (batches_of weighted_rows))
    < Q2Qc (inject_Z 2) * indicator true (accepted true (concat (batches_of weighted_rows))) "b".
Proof.
  split; [apply misra_gries_promise|]. split; [repeat (apply Forall_cons; [vm_compute; discriminate|]); apply Forall_nil|].
  split; [eexists; split; [reflexivity|vm_compute; reflexivity]|vm_compute; reflexivity].
Qed.

(** When there are at most top_k different values, the file is exact: all of them, in decreasing order of
    (frequency, value), with their frequencies. *)
Theorem c69_exact : forall sketch (ops : sketch_ops sketch) fmt is_string is_text weighted k store p lines D,
  keeps_promise ops k ->
  let text := is_string && is_text in
  let rs := concat (batches_of p) in
  (weighted = true -> Forall (fun r => 0 < snd r) rs) ->
  (length D <= k)%nat -> (forall t, eligible text weighted (Q2Qc 0) rs t -> In t D) ->
  approximate_vocabulary ops fmt is_string is_text weighted k store None p lines ->
  exists l, is_ranking (indicator weighted rs) (eligible text weighted (Q2Qc 0) rs) l /\
    lines = lines_of fmt store is_string (indicator weighted rs) l.
Proof. intros sketch ops fmt. exact (approximate_exact ops fmt). Qed.
Print Assumptions c69_exact.

Example c69_exact_applies :
  keeps_promise misra_gries 3 /\
  Forall (fun r => 0 < snd r) (concat (batches_of weighted_rows)) /\
  (forall t, eligible true true (Q2Qc 0) (concat (batches_of weighted_rows)) t -> In t ["a"; "b"; "c"]%string) /\
  approximate_vocabulary misra_gries no_format true true true 3 true None weighted_rows ["# b"; "# a"; "# c"]%string.
Proof.
  split; [apply misra_gries_promise|]. split; [repeat (apply Forall_cons; [vm_compute; reflexivity|]); apply Forall_nil|].
  split; [|eexists; split; [reflexivity|vm_compute; reflexivity]].
  intros t [H _]. cbn in H. cbn. tauto.
Qed.

(** It is then the file of tft.vocabulary with the same top_k. *)
Theorem c69_same_as_vocabulary : forall sketch (ops : sketch_ops sketch) fmt sha1 q k datasets p lines lines' size D,
  keeps_promise ops k ->
  let rs := concat (batches_of p) in
  top_k q = Some k -> (0 < k)%nat -> frequency_threshold q = Q2Qc 0 -> coverage q = None -> reserved_tokens q = None ->
  fingerprint_shuffle q = false ->
  (is_weighted q = true -> Forall (fun r => 0 < snd r) rs) ->
  (length D <= k)%nat -> (forall t, eligible (is_string q && is_text q) (is_weighted q) (Q2Qc 0) rs t -> In t D) ->
  Permutation (all_rows datasets) rs ->
  approximate_vocabulary ops fmt (is_string q) (is_text q) (is_weighted q) k (store_frequency q) None p lines ->
  vocabulary fmt sha1 q datasets lines' size ->
  lines = lines'.
Proof. intros sketch ops fmt. exact (approximate_same_as_vocabulary ops fmt). Qed.
Print Assumptions c69_same_as_vocabulary.

Example c69_same_as_vocabulary_applies :
  let q := Params true true false (Some 3%nat) (Q2Qc 0) None false false None in
  Permutation (all_rows [[unit_rows ["a"]]; [unit_rows ["a"; "b"; "c"]]]%string) (concat (batches_of one_batch)) /\
  approximate_vocabulary misra_gries no_format true true false 3 false None one_batch ["a"; "c"; "b"]%string /\
  vocabulary no_format id q [[unit_rows ["a"]]; [unit_rows ["a"; "b"; "c"]]]%string ["a"; "c"; "b"]%string 3.
Proof.
  split; [apply Permutation_refl|]. split; [eexists; split; [reflexivity|vm_compute; reflexivity]|].
  apply sequential_vocabulary. vm_compute. reflexivity.
Qed.

(** Reserved tokens come first, in their order, and the other values follow as without them. *)
Theorem c69_reserved : forall sketch (ops : sketch_ops sketch) fmt is_string is_text weighted k store r p lines,
  keeps_promise ops k -> r <> [] ->
  (weighted = true -> Forall (fun r => 0 <= snd r) (concat (batches_of p))) ->
  approximate_vocabulary ops fmt is_string is_text weighted k store (Some r) p lines ->
  forall lines0, approximate_vocabulary ops fmt is_string is_text weighted k store None p lines0 ->
  exists l est, lines0 = lines_of fmt store is_string est l /\ StronglySorted (comes_before est) l /\
    (l <> [] -> lines = map (line_of fmt store (fun _ => Q2Qc (-1))) r
       ++ map (line_of fmt store est) (filter (fun t => negb (existsb (String.eqb t) r)) l)).
Proof. intros sketch ops fmt. exact (approximate_reserved ops fmt). Qed.
Print Assumptions c69_reserved.

Example c69_reserved_applies :
  approximate_vocabulary misra_gries no_format true true false 3 false (Some ["b"; "z"]%string) two_workers ["b"; "z"; "a"; "c"]%string.
Proof.
  eexists. split.
  - exists (map (fun e => [e]) (extract_output misra_gries true (execute misra_gries true false 3 two_workers))).
    split; [|reflexivity]. rewrite <- flat_map_concat_map. change (true && true) with true.
    generalize (extract_output misra_gries true (execute misra_gries true false 3 two_workers)).
    induction l as [|e l IH]; [constructor|]. cbn. now constructor.
  - vm_compute. reflexivity.
Qed.

(** The bounds are satisfiable for all histories: the Misra-Gries algorithm keeps them. *)
Theorem c69_misra_gries : forall k, keeps_promise misra_gries k.
Proof. exact misra_gries_promise. Qed.
Print Assumptions c69_misra_gries.

Example c69_misra_gries_applies :
  let s := merge misra_gries (add_values misra_gries (new_sketch misra_gries 1) [("a", Q2Qc 2); ("b", Q2Qc 1)]%string)
             (add_values misra_gries (new_sketch misra_gries 1) [("c", Q2Qc 5)]%string) in
  built misra_gries 1 s (([] ++ [("a"%string, Q2Qc 2); ("b"%string, Q2Qc 1)]) ++ [] ++ [("c"%string, Q2Qc 5)]) /\
  estimate misra_gries s = [(Q2Qc 4, "c"%string)].
Proof. split; [apply built_merge; apply built_add; apply built_new|vm_compute; reflexivity]. Qed.

(** The file depends on how the rows are batched: the same rows give the file of one value in one batch, and
    the file of an empty vocabulary when each row is its own batch. *)
Theorem c69_batching_refuted :
  exists p1 p2 lines1 lines2,
    keeps_promise misra_gries 1 /\
    Permutation (concat (batches_of p1)) (concat (batches_of p2)) /\
    approximate_vocabulary misra_gries no_format true true false 1 false None p1 lines1 /\
    approximate_vocabulary misra_gries no_format true true false 1 false None p2 lines2 /\
    lines1 = ["a"]%string /\ lines2 = ["49d0cd50-04bb-48c0-bc6f-5b575dce351a"]%string.
Proof.
  exists one_batch, four_batches, ["a"]%string, ["49d0cd50-04bb-48c0-bc6f-5b575dce351a"]%string.
  split; [apply misra_gries_promise|]. split; [apply perm_skip, perm_swap|].
  split; [eexists; split; [reflexivity|vm_compute; reflexivity]|].
  split; [eexists; split; [reflexivity|vm_compute; reflexivity]|]. split; reflexivity.
Qed.
Print Assumptions c69_batching_refuted.
