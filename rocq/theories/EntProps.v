(** What AnalyzeDataset and AnalyzeDatasetWithCache accept (C92). *)
From Coq Require Import String Ascii List Bool Arith Lia.
From Verif Require Import CacheKeyModel CacheKeyProofs EntModel EntSpec.
Import ListNotations.
Open Scope list_scope.

Lemma allowed_plain c : allowed c = true <-> plain c.
Proof.
  unfold allowed, plain. cbn zeta. rewrite !orb_true_iff, !andb_true_iff, !Nat.leb_le, !Nat.eqb_eq. lia.
Qed.
Lemma validate_proper k : validate_dataset_key k = true <-> proper k.
Proof.
  unfold validate_dataset_key. rewrite matches_spec. unfold proper. split; intros (s & N & A & K); exists s; (split; [exact N|]); (split; [|exact K]).
  - apply Forall_forall. intros c I. apply allowed_plain. now apply A.
  - intros c I. apply allowed_plain. revert c I. apply Forall_forall. exact A.
Qed.
Lemma expand_accepts pipeline passthrough t d :
  expand pipeline passthrough t d = Accepted <-> sound passthrough t (meta d) /\ (pipeline || flat_data d || existsb snd (data_dict d)) = true.
Proof.
  unfold expand, sound. set (p := pipeline || _ || _). clearbody p. destruct (meta d) as [n|n]; cbn.
  - destruct passthrough; cbn; [split; [discriminate | intros [[_ [_ E]] _]; discriminate]|].
    destruct n as [|n]; cbn; [split; [discriminate | intros [[_ [E _]] _]; lia]|].
    destruct t as [[[|k] v]|]; try (split; [discriminate | intros [[[x E] _] _]; discriminate]).
    destruct k as [|k]; cbn; [split; [discriminate | intros [[[x E] _] _]; discriminate]|].
    destruct v as [|v]; cbn; [|split; [discriminate | intros [[[x E] _] _]; discriminate]].
    destruct p; [|split; [discriminate | intros [_ E]; discriminate]]. split; [|reflexivity]. intros _. repeat split; [now exists k | lia].
  - destruct n as [|n]; cbn; [split; [discriminate | intros [[_ E] _]; lia]|].
    destruct t as [[[|k] v]|]; try (split; [discriminate | intros [[[x E] _] _]; discriminate]).
    destruct k as [|k]; cbn; [split; [discriminate | intros [[[x E] _] _]; discriminate]|].
    destruct v as [|v]; cbn; [|split; [discriminate | intros [[[x E] _] _]; discriminate]].
    destruct p; [|split; [discriminate | intros [_ E]; discriminate]]. split; [|reflexivity]. intros _. repeat split; [now exists k | lia].
Qed.

(** AnalyzeDataset accepts exactly the functions with outputs and without trainable variables, for data with features, and no keys
    to pass through instance dicts. *)
Theorem c92_analyze : forall pipeline passthrough t m, analyze_dataset pipeline passthrough t m = Accepted <-> sound passthrough t m.
Proof. intros. unfold analyze_dataset. rewrite expand_accepts. cbn. rewrite orb_true_r. cbn. intuition. Qed.
Example c92_analyze_applies : sound false (Some (Dict 2, 0)) (Instance_dicts 3) /\ analyze_dataset false false (Some (Dict 2, 1)) (Instance_dicts 3) = Trainable_error.
Proof. split; [|reflexivity]. split; [now exists 1 | split; [lia | reflexivity]]. Qed.

(** AnalyzeDatasetWithCache accepts exactly these, if the keys of the caches are proper, and there is a pipeline or a dataset that is
    not None. *)
Theorem c92_with_cache : forall pipeline passthrough t data caches m,
  analyze_dataset_with_cache pipeline passthrough t data caches m = Accepted <->
  sound passthrough t m /\ (forall c k n, caches = Some c -> In (k, n) c -> proper k) /\ (pipeline = true \/ exists k, In (k, true) data).
Proof.
  intros pipeline passthrough t data caches m. unfold analyze_dataset_with_cache.
  assert (X : existsb snd data = true <-> exists k : dataset_key, In (k, true) data).
  { rewrite existsb_exists. split; [intros [[k b] [I E]]; cbn in E; subst b; now exists k | intros [k I]; now exists (k, true)]. }
  assert (G : (pipeline = true \/ exists k, In (k, true) data) -> extract_input_pvalues pipeline (Dataset false data caches m) = true).
  { unfold extract_input_pvalues, input_pvalues. cbn. intros [->|[k I]]; [reflexivity|]. apply orb_true_iff. right. apply negb_true_iff, Nat.eqb_neq.
    assert (J : In (k, true) (filter snd data)) by (apply filter_In; now split). destruct (filter snd data); [destruct J | cbn; lia]. }
  assert (V : forallb validate_dataset_key (map fst match caches with Some c => c | None => [] end) = true <-> (forall c k n, caches = Some c -> In (k, n) c -> proper k)).
  { rewrite forallb_forall. split.
    - intros H c k n -> I. apply validate_proper, H. now apply (in_map fst) in I.
    - intros H k I. apply validate_proper. destruct caches as [c|]; [|destruct I]. apply in_map_iff in I. destruct I as [[k' n] [<- I]]. now apply (H c _ n). }
  assert (E : expand pipeline passthrough t (Dataset false data caches m) = Accepted <-> sound passthrough t m /\ (pipeline = true \/ exists k, In (k, true) data)).
  { rewrite expand_accepts. cbn. rewrite orb_false_r, orb_true_iff, X. reflexivity. }
  destruct (extract_input_pvalues pipeline _) eqn:P; cbn.
  - destruct (forallb _ _) eqn:Fb.
    + rewrite E. pose proof (proj1 V eq_refl). intuition.
    + split; [discriminate|]. intros [_ [H _]]. apply V in H. discriminate.
  - split; [discriminate|]. intros [_ [_ H]]. apply G in H. discriminate.
Qed.
Definition span (s : string) : dataset_key := new_dataset_key (text s) true.
Example c92_with_cache_applies :
  analyze_dataset_with_cache true false (Some (Dict 1, 0)) [(span "span-0", false)] (Some [(span "span-0", 2)]) (Tensor_adapter_config 1) = Accepted /\
  analyze_dataset_with_cache true false (Some (Dict 1, 0)) [(span "span-0", false)] (Some [(span "span 0", 2)]) (Tensor_adapter_config 1) = Key_error.
Proof. split; vm_compute; reflexivity. Qed.

Lemma both (A B C D : Prop) : (A <-> B) -> (C <-> D) -> (A /\ C <-> B /\ D).
Proof. tauto. Qed.
(** The error that there is no data is given exactly if there is no pipeline, no dataset that is not None, and no entry in any cache. *)
Theorem c92_no_data : forall pipeline passthrough t data caches m,
  analyze_dataset_with_cache pipeline passthrough t data caches m = Assertion_error <->
  pipeline = false /\ (forall k, ~ In (k, true) data) /\ (forall c k n, caches = Some c -> In (k, n) c -> n = 0).
Proof.
  intros pipeline passthrough t data caches m. unfold analyze_dataset_with_cache.
  assert (forall d, expand pipeline passthrough t d <> Assertion_error) as X.
  { intros d. unfold expand. destruct (_ && _); [discriminate|]. destruct (_ =? _); [discriminate|]. destruct t as [[[|n] v]|]; try discriminate.
    destruct (n =? 0); [discriminate|]. destruct (negb (v =? 0)); [discriminate|]. destruct (_ || _); discriminate. }
  assert (extract_input_pvalues pipeline (Dataset false data caches m) = false <->
    pipeline = false /\ (forall k, ~ In (k, true) data) /\ (forall c k n, caches = Some c -> In (k, n) c -> n = 0)) as E.
  { unfold extract_input_pvalues, input_pvalues. cbn [flat_data data_dict cache_dict]. rewrite orb_false_iff, negb_false_iff, Nat.eqb_eq. cbn [Nat.add].
    rewrite Nat.eq_add_0. apply and_iff_compat_l. apply both.
    - split.
      + intros L k I. assert (J : In (k, true) (filter snd data)) by (apply filter_In; now split). destruct (filter snd data); [destruct J | discriminate].
      + intros N. destruct (filter snd data) as [|[k b] l] eqn:F; [reflexivity|]. assert (J : In (k, b) (filter snd data)) by (rewrite F; now left).
        apply filter_In in J. destruct J as [J B]. cbn in B. subst b. now destruct (N k).
    - destruct caches as [c|]; [|split; [discriminate | reflexivity]]. split.
      + intros Z c' k n [= <-] I. induction c as [|[k' n'] c IH]; [destruct I|]. cbn in Z. destruct I as [[= -> ->]|I]; [lia | apply IH; [unfold list_sum; lia | exact I]].
      + intros H. specialize (fun k n => H c k n eq_refl). induction c as [|[k' n'] c IH]; [reflexivity|]. cbn. rewrite (H k' n' (or_introl eq_refl)).
        apply IH. intros k n I. apply (H k n). now right. }
  rewrite <- E. destruct (extract_input_pvalues _ _); cbn; [|now split]. split; [|discriminate]. destruct (forallb _ _); [intros Z; now apply X in Z | discriminate].
Qed.
Example c92_no_data_applies :
  analyze_dataset_with_cache false false (Some (Dict 1, 0)) [(span "span-0", false)] (Some [(span "span-0", 0)]) (Tensor_adapter_config 1) = Assertion_error /\
  analyze_dataset_with_cache false false (Some (Dict 1, 0)) [(span "span-0", false)] (Some [(span "span-0", 1)]) (Tensor_adapter_config 1) <> Assertion_error.
Proof. split; vm_compute; [reflexivity | discriminate]. Qed.

(** Keys of caches that are not proper are refused, whatever the rest is. *)
Theorem c92_cache_keys : forall pipeline passthrough t data caches m k n, In (k, n) caches -> ~ proper k ->
  pipeline = true \/ (exists k, In (k, true) data) -> analyze_dataset_with_cache pipeline passthrough t data (Some caches) m = Key_error.
Proof.
  intros pipeline passthrough t data caches m k n I N G. unfold analyze_dataset_with_cache.
  replace (extract_input_pvalues _ _) with true.
  - cbn. replace (forallb _ _) with false; [reflexivity|]. symmetry. apply not_true_iff_false. rewrite forallb_forall. intros H. apply N, validate_proper, H. now apply (in_map fst) in I.
  - symmetry. unfold extract_input_pvalues, input_pvalues. cbn. destruct G as [->|[k' J]]; [reflexivity|]. apply orb_true_iff. right. apply negb_true_iff, Nat.eqb_neq.
    assert (J' : In (k', true) (filter snd data)) by (apply filter_In; now split). destruct (filter snd data); [destruct J' | cbn; lia].
Qed.
Example c92_cache_keys_applies : ~ proper (span "") /\ analyze_dataset_with_cache false false None [(span "span-0", true)] (Some [(span "", 2)]) (Tensor_adapter_config 1) = Key_error.
Proof. split; [|vm_compute; reflexivity]. rewrite <- validate_proper. vm_compute. discriminate. Qed.

(** Keys of datasets that are not proper are refused.  Not so: the keys of the caches are looked at in their place, so that a dataset
    whose key is empty, and whose cache then is the base directory itself, is accepted. *)
Theorem c92_keys_refuted : exists data caches k, In (k, true) data /\ ~ proper k /\
  analyze_dataset_with_cache false false (Some (Dict 1, 0)) data caches (Tensor_adapter_config 1) = Accepted /\
  cache_path (text "/cache/") k = text "/cache/".
Proof.
  exists [(span "", true)], None, (span ""). split; [now left|]. split; [rewrite <- validate_proper; vm_compute; discriminate|]. split; vm_compute; reflexivity.
Qed.

(** Without data a pipeline is asked for.  Not so if there are caches: the analysis then fails when it looks for one. *)
Theorem c92_pipeline_refuted : exists data caches,
  analyze_dataset_with_cache false false (Some (Dict 1, 0)) data caches (Tensor_adapter_config 1) = Stop_iteration /\
  analyze_dataset_with_cache false false (Some (Dict 1, 0)) data None (Tensor_adapter_config 1) = Assertion_error.
Proof. exists [(span "span-0", false)], (Some [(span "span-0", 2)]). split; vm_compute; reflexivity. Qed.

Print Assumptions c92_analyze.
Print Assumptions c92_with_cache.
Print Assumptions c92_no_data.
Print Assumptions c92_cache_keys.
Print Assumptions c92_keys_refuted.
Print Assumptions c92_pipeline_refuted.
