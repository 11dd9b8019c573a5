(** * C40: deep copies of collections *)
From Coq Require Import String.
From Coq Require Import List Arith Bool Lia.
From Verif Require Import DeepCopyModel DeepCopySpec DeepCopyProofs DeepCopyFinal DeepCopyExample.
Import ListNotations.
Local Open Scope string_scope.
Local Notation length := List.length.

Section Props.
Context {F : Type}.
Notation pipeline := (list (transform F)).

(** The copy is computed by the same transforms from the same data; what was in
    the pipeline before is not changed (but for resource hints), and the pipeline
    is well formed, so that it can be copied again. *)
Theorem c40_copy_computes_the_same : forall hints (p : pipeline) labels v p' labels' v',
  valid p -> before p (length p) v -> deep_copy hints p labels v = Some (p', labels', v') ->
  (forall c, computed p v c -> computed p' v' c) /\
  (forall t a, nth_error p t = Some a -> exists b, nth_error p' t = Some b /\ unchanged a b) /\
  valid p' /\ before p' (length p') v'.
Proof. intros. eapply same_computation; eassumption. Qed.

(** Every transform upstream, up to the materialization boundaries, is copied
    once, and nothing else is. *)
Theorem c40_copies_upstream_once : forall hints (p : pipeline) labels v p' labels' v',
  valid p -> before p (length p) v -> deep_copy hints p labels v = Some (p', labels', v') ->
  exists ts, NoDup ts /\ (forall t, In t ts <-> exists tag, to_copy p v (PColl t tag)) /\
    length p' = length p + length ts /\
    forall i t, nth_error ts i = Some t -> exists a b, nth_error p t = Some a /\ nth_error p' (length p + i) = Some b /\
      fn b = fn a /\ barrier b = barrier a /\ side_inputs b = side_inputs a /\ composites b = composites a.
Proof. intros. eapply copies_once; eassumption. Qed.

(** Labels of transforms stay unique. *)
Theorem c40_labels_unique : forall hints (p : pipeline) labels v p' labels' v',
  valid p -> before p (length p) v -> deep_copy hints p labels v = Some (p', labels', v') -> NoDup labels ->
  exists new, map label p' = (map label p ++ new)%list /\ NoDup new /\ (forall l, In l new -> ~ In l labels) /\
    (forall l, In l labels' <-> In l new \/ In l labels).
Proof. intros. eapply labels_unique; eassumption. Qed.

(** A copy is made of every collection that is not at a materialization boundary,
    when of each transform one output at most has to be copied. *)
Theorem c40_returns_partial : forall hints (p : pipeline) labels v,
  valid p -> before p (length p) v -> v <> PBegin -> ~ materialized p v -> one_output p v ->
  exists r, deep_copy hints p labels v = Some r.
Proof. intros. eapply returns; eassumption. Qed.

(** The copies read copies, and originals only at a materialization boundary, when
    moreover the ways to a collection have the same length. *)
Theorem c40_copies_read_copies_partial : forall hints (p : pipeline) labels v p' labels' v',
  valid p -> before p (length p) v -> one_output p v -> level p v ->
  deep_copy hints p labels v = Some (p', labels', v') ->
  (exists t tag, v' = PColl t tag /\ length p <= t) /\
  forall t b w, length p <= t -> nth_error p' t = Some b -> In w (main_inputs b) ->
    w = PBegin \/ (exists t' tag, w = PColl t' tag /\ length p <= t') \/ materialized p w.
Proof.
  intros hints p labels v p' labels' v' V B ONE LV E. destruct (reads_only_copies hints p labels v V B _ _ _ E ONE LV) as [N R]. split.
  - destruct v' as [|t tag]; [destruct N|]. now exists t, tag.
  - intros t b w L T W. destruct (R t b w L T W) as [H|[H|H]]; [now left| |now right; right]. right. left.
    destruct w as [|t' tag]; [destruct H|]. now exists t', tag.
Qed.
End Props.
Print Assumptions c40_copy_computes_the_same.
Print Assumptions c40_copies_upstream_once.
Print Assumptions c40_labels_unique.
Print Assumptions c40_returns_partial.
Print Assumptions c40_copies_read_copies_partial.

(** Two branches below a flatten, one of them up to a GroupByKey. *)
Example c40_applies :
  valid two_sources /\ before two_sources (length two_sources) (out 6) /\ out 6 <> PBegin /\ ~ materialized two_sources (out 6) /\
  one_output two_sources (out 6) /\ level two_sources (out 6) /\
  match deep_copy true two_sources (map label two_sources) (out 6) with
  | Some (p', labels', v') => v' = out 11 /\
      map (fun a => (label a, main_inputs a, outputs a)) (skipn 7 p') =
      [("Other.Copy0", [PBegin], ["None"]); ("Add1.Copy0", [out 1], ["None"]); ("Add.Copy0", [out 7], ["None"]);
       ("Add2.Copy0", [out 8], ["None"]); ("Flatten.Copy0", [out 10; out 9], ["None"])]
  | None => False
  end.
Proof.
  split; [exact two_sources_valid|]. split; [cbn; split; [lia|]; eexists; split; [reflexivity|now left]|]. split; [discriminate|].
  split; [now apply at_boundary_false|]. split; [exact two_sources_one_output|]. split; [exact two_sources_level|]. vm_compute. split; reflexivity.
Qed.

(** A copy can read an original: a collection that is flattened with what was
    computed from it is copied after the transform that reads it. *)
Theorem c40_diamond_refuted : exists (p : list (transform nat)) labels v p' labels' v' t b w,
  valid p /\ before p (length p) v /\ one_output p v /\ deep_copy true p labels v = Some (p', labels', v') /\
  length p <= t /\ nth_error p' t = Some b /\ In w (main_inputs b) /\ before p (length p) w /\ w <> PBegin /\ ~ materialized p w.
Proof.
  exists diamond, (map label diamond), (out 2). destruct (deep_copy true diamond (map label diamond) (out 2)) as [[[p' labels'] v']|] eqn:E; [|vm_compute in E; discriminate].
  exists p', labels', v', 3. vm_compute in E. injection E as <- <- <-. eexists. exists (out 0).
  split; [exact diamond_valid|]. split; [cbn; split; [lia|]; eexists; split; [reflexivity|now left]|]. split; [exact diamond_one_output|]. split; [reflexivity|].
  split; [cbn; lia|]. split; [reflexivity|]. split; [now left|]. split; [cbn; split; [lia|]; eexists; split; [reflexivity|now left]|]. split; [discriminate|now apply at_boundary_false].
Qed.
Print Assumptions c40_diamond_refuted.

(** Likewise for the second of two outputs of one transform. *)
Theorem c40_two_outputs_refuted : exists (p : list (transform nat)) labels v p' labels' v' t b w,
  valid p /\ before p (length p) v /\ level p v /\ deep_copy true p labels v = Some (p', labels', v') /\
  length p <= t /\ nth_error p' t = Some b /\ In w (main_inputs b) /\ before p (length p) w /\ w <> PBegin /\ ~ materialized p w.
Proof.
  exists partition, (map label partition), (out 2). destruct (deep_copy true partition (map label partition) (out 2)) as [[[p' labels'] v']|] eqn:E; [|vm_compute in E; discriminate].
  exists p', labels', v', 5. vm_compute in E. injection E as <- <- <-. eexists. exists (PColl 1 "1").
  split; [exact partition_valid|]. split; [cbn; split; [lia|]; eexists; split; [reflexivity|now left]|]. split; [exact partition_level|]. split; [reflexivity|].
  split; [cbn; lia|]. split; [reflexivity|]. split; [cbn; tauto|]. split; [cbn; split; [lia|]; eexists; split; [reflexivity|cbn; tauto]|]. split; [discriminate|now apply at_boundary_false].
Qed.
Print Assumptions c40_two_outputs_refuted.

(** No copy is made when the second output is met later than the transform: it is
    listed twice and an assertion fails. *)
Theorem c40_second_output_raises_refuted : exists (p : list (transform nat)) labels v,
  valid p /\ before p (length p) v /\ v <> PBegin /\ ~ materialized p v /\ deep_copy true p labels v = None.
Proof.
  exists partition_map, (map label partition_map), (out 3). split; [exact partition_map_valid|].
  split; [cbn; split; [lia|]; eexists; split; [reflexivity|now left]|]. split; [discriminate|]. split; [now apply at_boundary_false|reflexivity].
Qed.
Print Assumptions c40_second_output_raises_refuted.

(** Nor of a collection at a materialization boundary: [AnalyzeAndTransformDataset]
    of the output of a GroupByKey fails. *)
Theorem c40_boundary_raises_refuted : exists (p : list (transform nat)) labels v,
  valid p /\ before p (length p) v /\ v <> PBegin /\ one_output p v /\ level p v /\ deep_copy true p labels v = None.
Proof.
  exists grouped, (map label grouped), (out 1). split; [exact grouped_valid|].
  assert (forall w, ~ to_copy grouped (out 1) w) as N. { induction 1 as [B|]; [apply B; now apply at_boundary_true|tauto]. }
  split; [cbn; split; [lia|]; eexists; split; [reflexivity|now left]|]. split; [discriminate|].
  split; [intros t tag tag' H; now destruct (N _ H)|]. split; [exists (fun _ => 0); intros t tag a w H; now destruct (N _ H)|]. reflexivity.
Qed.
Print Assumptions c40_boundary_raises_refuted.

(** The transforms of one copy do not always have the same resource hint, and
    those of different copies can have the same one: after a copy of a collection,
    a copy of another one that was computed from it. *)
Theorem c40_hints_refuted : exists (p : list (transform nat)) labels v1 v2 p1 labels1 v1' p2 labels2 v2' t1 t2 t3,
  valid p /\ before p (length p) v1 /\ before p (length p) v2 /\
  deep_copy true p labels v1 = Some (p1, labels1, v1') /\ deep_copy true p1 labels1 v2 = Some (p2, labels2, v2') /\
  (length p <= t1 < length p1) /\ (length p1 <= t2 < length p2) /\ (length p1 <= t3 < length p2) /\
  option_map hint (nth_error p2 t1) = option_map hint (nth_error p2 t2) /\
  option_map hint (nth_error p2 t2) <> option_map hint (nth_error p2 t3).
Proof.
  exists chain, (map label chain), (out 1), (out 2).
  destruct (deep_copy true chain (map label chain) (out 1)) as [[[p1 labels1] v1']|] eqn:E1; [|vm_compute in E1; discriminate].
  exists p1, labels1, v1'. vm_compute in E1. injection E1 as <- <- <-.
  match goal with |- context [deep_copy true ?p ?l (out 2)] => destruct (deep_copy true p l (out 2)) as [[[p2 labels2] v2']|] eqn:E2; [|vm_compute in E2; discriminate] end.
  exists p2, labels2, v2', 3, 7, 6. vm_compute in E2. injection E2 as <- <- <-.
  split; [exact chain_valid|]. split; [cbn; split; [lia|]; eexists; split; [reflexivity|now left]|]. split; [cbn; split; [lia|]; eexists; split; [reflexivity|now left]|].
  split; [reflexivity|]. split; [reflexivity|]. split; [cbn; lia|]. split; [cbn; lia|]. split; [cbn; lia|]. split; [reflexivity|discriminate].
Qed.
Print Assumptions c40_hints_refuted.
