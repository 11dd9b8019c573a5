(** * C76: analysis with the reported datasets and cache entries only

    [get_analysis_dataset_keys] reports the datasets to read, and [get_analysis_cache_entry_keys] the entries of the
    cache to read.  Others can be left out of [AnalyzeDatasetWithCache]. *)
From Coq Require Import String.
From Coq Require Import List Arith Bool.
From Verif Require Import OptimizeModel OptimizeSpec OptimizeProofs OptimizeShape OptimizeHistory OptimizeProps OptimizeExample
  RollModel RollSpec RollProofs.
Import ListNotations.

Section Props.
Context {B C K PC : Type}.
Variable partitionable : B -> bool.
Variable cache_coder : B -> option C.
Variable num_outputs : B -> nat.
Variable key_eqb : K -> K -> bool.
Variable is_cached : K -> bool.
Variable class_name : op B C K -> string.
Variable fields : string -> op B C K -> list string.
Variable tensor_path : string -> option string.
Variable sha1 : string -> string.
Variable cache_version : string.
Variable flatten : list PC -> PC.
Variable sem : op B C K -> list PC -> list PC.
Variable encode decode : C -> PC -> PC.
Variable eqv : PC -> PC -> Prop.
Variable data : K -> PC.
Variable size : PC -> nat.

Notation translated := (translated partitionable cache_coder num_outputs).
Notation run := (run partitionable cache_coder num_outputs class_name fields tensor_path sha1 cache_version key_eqb is_cached).
Notation available := (available partitionable cache_coder num_outputs class_name fields tensor_path sha1
  cache_version flatten sem encode decode data key_eqb is_cached).
Notation keys_identify := (keys_identify partitionable cache_coder class_name fields tensor_path sha1
  cache_version flatten sem encode decode eqv data).
Notation value_on := (value_on flatten sem encode decode data).
Notation entry_keys := (analysis_cache_entry_keys partitionable cache_coder num_outputs key_eqb is_cached class_name fields
  tensor_path sha1 cache_version).
Notation analyze datasets cache := (analyze_with_cache partitionable cache_coder num_outputs key_eqb is_cached class_name fields
  tensor_path sha1 cache_version flatten sem encode decode size datasets cache).
Notation saves root := (exists label b inputs index, root = Node label (Op b) inputs index /\ partitionable b = false).

(** With the reported datasets, whatever others are left out, the analysis succeeds; it gives what the analysis of all the datasets
    gives, the same output cache included; and this is the value without a cache. *)
Theorem c76_datasets :
  (forall a b, key_eqb a b = true <-> a = b) ->
  implementation partitionable cache_coder flatten sem encode decode eqv ->
  forall graphs : node B C K -> Prop,
  (forall root, graphs root -> translated root) -> keys_identify graphs ->
  forall cache, available graphs cache -> forall root, graphs root ->
  no_nested_caches partitionable cache_coder root -> saves root ->
  forall keys v emitted, NoDup keys -> run keys (Some cache) root = Some (v, emitted) ->
  forall pipeline datasets, gives (analysis_dataset_keys keys (flat v)) data keys datasets ->
  pipeline = true \/ (exists k p, In (k, Some p) datasets) ->
  exists value entries,
    analyze datasets cache pipeline root = Some (value, entries) /\
    analyze (all_given data keys) cache pipeline root = Some (value, entries) /\
    eqv value (value_on keys root) /\
    (forall k key p s, In (k, key, (p, s)) entries -> In k (analysis_dataset_keys keys (flat v)) /\ s = size (data k)).
Proof.
  intros KEY IMP graphs TR ID cache AV root G NN SV keys v emitted ND R pipeline datasets [DK DG] PIP.
  pose proof (TR _ G) as T.
  (* whatever is given, the result is that of [eval] *)
  assert (MAIN : forall ds, map fst ds = keys ->
    (forall k d, In (k, d) ds -> d = Some (data k) \/ (d = None /\ ~ In k (analysis_dataset_keys keys (flat v)))) ->
    pipeline = true \/ (exists k p, In (k, Some p) ds) ->
    analyze ds cache pipeline root =
      Some (eval flatten sem encode decode data keys cache (flat v),
            map (fun e => match e with (k, key, m) => (k, key, (eval flatten sem encode decode data keys cache m, size (data k))) end) emitted)
    /\ forall k key m, In (k, key, m) emitted -> In k (analysis_dataset_keys keys (flat v))).
  { clear datasets DK DG PIP. intros ds DK DG PIP.
    assert (REP : forall k, In (Some k) (inputs_of (flat v)) -> In k (analysis_dataset_keys keys (flat v)) /\ In k keys).
    { intros k I. destruct (reads_ok partitionable cache_coder num_outputs key_eqb is_cached class_name fields tensor_path sha1
        cache_version KEY keys (Some (entries cache)) root T v emitted R) as [RI _]. pose proof (RI k I) as IK. split; [|exact IK].
      unfold analysis_dataset_keys. destruct (existsb _ _); [exact IK|].
      apply in_concat. exists [k]. split; [|now left]. apply in_map_iff. exists (Some k). auto. }
    assert (ALL : In None (inputs_of (flat v)) -> analysis_dataset_keys keys (flat v) = keys).
    { intro I. unfold analysis_dataset_keys.
      assert (existsb (fun k : option K => match k with Some _ => false | None => true end) (inputs_of (flat v)) = true) as ->; [|reflexivity].
      apply existsb_exists. eauto. }
    assert (GIVEN : forall k, In k (analysis_dataset_keys keys (flat v)) -> In k keys -> In (k, Some (data k)) ds).
    { intros k I IK. rewrite <- DK in IK. apply in_map_iff in IK. destruct IK as ([k' d] & E & IK). cbn in E. subst k'.
      destruct (DG _ _ IK) as [->|[_ NI]]; [exact IK|contradiction]. }
    assert (DATA : forall k p, In (k, Some p) ds -> p = data k).
    { intros k p I. destruct (DG _ _ I) as [E|[E _]]; congruence. }
    assert (ND' : NoDup (map fst ds)) by (rewrite DK; exact ND).
    assert (CON : forall m, incl (inputs_of m) (inputs_of (flat v)) ->
        (forall l k key cc ins i, occurs (Node l (Decode k key cc) ins i) m -> occurs (Node l (Decode k key cc) ins i) (flat v)) ->
        construct key_eqb flatten sem encode decode ds cache m = Some (eval flatten sem encode decode data keys cache m)).
    { intros m INC OC. rewrite <- DK. apply construct_ok; [exact KEY|exact DATA|exact ND'| | |].
      - intros l k key cc ins i O. apply OC in O.
        destruct (decodes_ok partitionable cache_coder num_outputs key_eqb is_cached class_name fields tensor_path sha1
          cache_version KEY keys (entries cache) root T v emitted R) as [DI _].
        apply DI in O. unfold entries in O. destruct (cache k key); [discriminate|discriminate O].
      - intros k I. apply INC in I. destruct (REP _ I) as [I1 I2]. exists (data k). auto.
      - intros I [k d] ID'. apply INC in I. pose proof (ALL I) as EA. cbn.
        destruct (DG _ _ ID') as [->|[_ NI]]; [discriminate|]. rewrite EA in NI. exfalso. apply NI. rewrite <- DK.
        apply (in_map fst) in ID'. exact ID'. }
    assert (WR : forall k key m, In (k, key, m) emitted -> In k (analysis_dataset_keys keys (flat v)) /\ In k keys /\
        construct key_eqb flatten sem encode decode ds cache m = Some (eval flatten sem encode decode data keys cache m)).
    { intros k key m I.
      destruct (written_reads partitionable cache_coder num_outputs key_eqb is_cached class_name fields tensor_path sha1
        cache_version KEY keys (entries cache) root NN root (occurs_here root) T v emitted R) as [_ W].
      pose proof (W _ _ _ I) as IR.
      destruct (emitted_used partitionable cache_coder num_outputs key_eqb is_cached class_name fields tensor_path
        sha1 cache_version KEY keys (Some (entries cache)) ND root NN root (occurs_here root) T v emitted R _ I)
        as (x & (l & c & E) & Q).
      pose proof (shape_ok _ _ _ _ _ _ _ _ _ _ _ _ _ T _ _ R) as SH.
      assert (FV : truthy (fine v) = false).
      { destruct (fine v) as [f|] eqn:F; [|reflexivity]. exfalso.
        destruct (sh_fine _ _ _ _ _ _ _ _ _ _ SH f F) as (_ & FP & _). destruct SV as (lb & b & ins & ix & -> & PB).
        inversion FP as [|? ? ? ? P0 ? ?]; subst. cbn in P0. congruence. }
      rewrite FV in Q. cbn in E. subst m. pose proof (inputs_of_occurs _ _ Q) as INC.
      assert (INC' : incl (inputs_of (Node l (Encode c) [x] 0)) (inputs_of (flat v))).
      { intros y Y. cbn in Y. rewrite app_nil_r in Y. auto. }
      destruct (REP k (INC' _ IR)) as [I1 I2]. split; [exact I1|]. split; [exact I2|].
      apply CON; [exact INC'|]. intros l0 k0 key0 cc ins i O.
      inversion O as [|? n0 ? ? ? ? IN ON]; subst. destruct IN as [<-|[]]. eapply occurs_trans; eauto. }
    split; [|intros k key m I; apply (WR _ _ _ I)].
    unfold analyze_with_cache.
    assert (P : pipeline || existsb (fun d : K * option PC => match snd d with Some _ => true | None => false end) ds = true).
    { destruct PIP as [->|(k & p & I)]; [reflexivity|]. apply orb_true_iff. right. apply existsb_exists. exists (k, Some p). auto. }
    rewrite P, DK. unfold OptimizeSpec.run in R. cbn [option_map] in R. unfold entries in R. rewrite R.
    rewrite CON; [|apply incl_refl|auto].
    assert (SQ : sequence (map (output_entry key_eqb flatten sem encode decode size ds cache) emitted) =
      Some (map (fun e => match e with (k, key, m) => (k, key, (eval flatten sem encode decode data keys cache m, size (data k))) end) emitted));
      [|rewrite SQ; reflexivity].
    clear - WR GIVEN KEY ND'. induction emitted as [|[[k key] m] em IH]; cbn; [reflexivity|].
    destruct (WR k key m (or_introl eq_refl)) as (I1 & I2 & E). rewrite E. unfold dataset_metrics.
    rewrite (at_key_in key_eqb KEY k _ ds ND' (GIVEN k I1 I2)). rewrite IH; [reflexivity|].
    intros; eapply WR; right; eauto. }
  destruct (MAIN datasets DK DG PIP) as [E1 W].
  destruct (MAIN (all_given data keys)) as [E2 _].
  - unfold all_given. rewrite map_map. apply map_id.
  - intros k d I. unfold all_given in I. apply in_map_iff in I. destruct I as (k' & E & _). injection E as <- <-. auto.
  - destruct PIP as [->|(k & p & I)]; [auto|right]. exists k, (data k). unfold all_given. apply in_map_iff. exists k.
    split; [reflexivity|]. rewrite <- DK. apply (in_map fst) in I. exact I.
  - do 2 eexists. split; [exact E1|]. split; [exact E2|]. split.
    + exact (proj1 (c33_cache_does_not_change_results partitionable cache_coder num_outputs key_eqb is_cached
        class_name fields tensor_path sha1 cache_version flatten sem encode decode eqv data KEY IMP graphs TR ID cache AV root G keys v emitted R)).
    + intros k key p s I. apply in_map_iff in I. destruct I as ([[k' key'] m] & E & I). injection E as <- <- <- <-.
      split; [eapply W; eauto|reflexivity].
Qed.

(** Entries of the cache under other keys than the reported ones do not matter, for a run on any datasets; the
    keys may have been asked for with other datasets, one of them cached. *)
Theorem c76_entries :
  (forall a b, key_eqb a b = true <-> a = b) ->
  forall root, translated root ->
  forall keys' reported k0, entry_keys keys' root = Some reported -> In k0 keys' -> is_cached k0 = true ->
  forall datasets cache cache' pipeline, enough_of reported cache cache' ->
  (forall k key, cache' k key <> None -> cache' k key = cache k key) ->
  forall value entries, analyze datasets cache pipeline root = Some (value, entries) ->
  analyze datasets cache' pipeline root = Some (value, entries).
Proof.
  intros KEY root T keys' reported k0 REP K0 C0 datasets cache cache' pipeline EN SUB value entries A.
  unfold analyze_with_cache in *. destruct (pipeline || _); [|discriminate].
  set (c1 := fun k key => match cache k key with Some _ => true | None => false end) in *.
  set (c2 := fun k key => match cache' k key with Some _ => true | None => false end) in *.
  assert (SAME : forall k key, In key reported -> c1 k key = c2 k key) by (intros k key I; unfold c1, c2; rewrite EN; auto).
  assert (RUN : optimize partitionable cache_coder num_outputs key_eqb is_cached class_name fields tensor_path sha1 cache_version
      (map fst datasets) (Some c1) root = optimize partitionable cache_coder num_outputs key_eqb is_cached class_name fields tensor_path sha1 cache_version
      (map fst datasets) (Some c2) root).
  { eapply same_entries; eauto. constructor. }
  rewrite <- RUN. destruct (optimize _ _ _ _ _ _ _ _ _ _ _ (Some c1) root) as [[v em]|] eqn:O; [|discriminate].
  (* only entries that are still there are decoded *)
  pose proof (eq_trans (eq_sym RUN) eq_refl) as O2. clear RUN.
  assert (CON : forall n, decodes_in c2 n ->
      construct key_eqb flatten sem encode decode datasets cache' n = construct key_eqb flatten sem encode decode datasets cache n).
  { induction n as [label o inputs index IH] using node_rect'. intro DI. cbn [construct].
    assert (E : map (construct key_eqb flatten sem encode decode datasets cache') inputs = map (construct key_eqb flatten sem encode decode datasets cache) inputs).
    { apply map_ext_in. intros m I. apply IH; [exact I|]. intros l k key cc ins i OC. eapply DI. eapply occurs_below; eauto. }
    rewrite E. match goal with |- match ?s with Some _ => _ | None => _ end = _ => destruct s as [xs|]; [|reflexivity] end.
    destruct o; try reflexivity. match goal with |- option_map _ (cache' ?k0 ?key0) = _ => rename k0 into k; rename key0 into key end.
    rewrite SUB; [reflexivity|]. intro NE. assert (c2 k key = true) as D by (eapply DI; constructor).
    unfold c2 in D. rewrite NE in D. discriminate. }
  pose proof (decodes_ok partitionable cache_coder num_outputs key_eqb is_cached class_name fields tensor_path sha1
    cache_version KEY (map fst datasets) c2 root T v em O2) as [DI _].
  rewrite (CON _ DI).
  assert (EM : forall e, In e em -> output_entry key_eqb flatten sem encode decode size datasets cache' e =
      output_entry key_eqb flatten sem encode decode size datasets cache e).
  { intros [[k key] m] I. unfold output_entry. rewrite CON; [reflexivity|].
    eapply emitted_decodes; eauto. }
  rewrite (map_ext_in _ _ _ EM). exact A.
Qed.

(** What a run writes, it writes under reported keys, for given datasets that are cached, where there was no entry. *)
Theorem c76_written :
  (forall a b, key_eqb a b = true <-> a = b) ->
  forall root, translated root ->
  forall keys' reported k0, entry_keys keys' root = Some reported -> In k0 keys' -> is_cached k0 = true ->
  forall datasets cache pipeline value entries, analyze datasets cache pipeline root = Some (value, entries) ->
  forall k key p, In (k, key, p) entries ->
  In key reported /\ is_cached k = true /\ In k (map fst datasets) /\ cache k key = None.
Proof.
  intros KEY root T keys' reported k0 REP K0 C0 datasets cache pipeline value entries A k key p I.
  unfold analyze_with_cache in A. destruct (pipeline || _); [|discriminate].
  destruct (optimize _ _ _ _ _ _ _ _ _ _ _ _ root) as [[v em]|] eqn:O; [|discriminate].
  destruct (construct _ _ _ _ _ _ _ (flat v)); [|discriminate].
  destruct (sequence (map _ em)) as [out|] eqn:SQ; [|discriminate]. injection A as _ <-.
  apply sequence_map in SQ. destruct (Forall2_in_r _ _ _ _ SQ I) as ([[k' key'] m] & IM & E).
  unfold output_entry in E. destruct (construct _ _ _ _ _ _ _ m); [|discriminate].
  destruct (dataset_metrics _ _ _ k'); [|discriminate]. injection E as <- <- _.
  destruct (written_reported partitionable cache_coder num_outputs key_eqb is_cached class_name fields tensor_path sha1
    cache_version (map fst datasets) keys' _ _ reported k0 root T K0 C0 REP (fun _ _ _ => eq_refl) root (occurs_here root) T v em O _ _ _ IM)
    as (H1 & H2 & H3 & H4).
  repeat split; auto. cbn beta in H2. destruct (cache k' key'); [discriminate|reflexivity].
Qed.
End Props.

Notation toy_analyze := (analyze_with_cache toy_partitionable toy_coder (fun _ => 1) Nat.eqb (fun _ => true) toy_class toy_fields
  toy_path toy_sha1 "v1" toy_flatten toy_sem toy_encode toy_decode (fun p => sum (elems p))).

(** When everything is in the cache, no dataset is reported; without a dataset, and although there is data in
    the cache, the analysis fails unless a pipeline is given. *)
Theorem c76_pipeline_refuted :
  exists (cache : nat -> string -> option pc) datasets v,
    available toy_partitionable toy_coder (fun _ => 1) toy_class toy_fields toy_path toy_sha1 "v1"
      toy_flatten toy_sem toy_encode toy_decode toy_data Nat.eqb (fun _ => true) (eq toy_small) cache /\
    toy_run [0; 1] (Some cache) toy_small = Some (v, []) /\
    gives (analysis_dataset_keys [0; 1] (flat v)) toy_data [0; 1] datasets /\
    (forall k, In k [0; 1] -> exists key, cache k key <> None) /\
    toy_analyze datasets cache false toy_small = None /\
    toy_analyze datasets cache true toy_small = Some (([], [], [28; 0]), []).
Proof.
  exists toy_small_cache, [(0, None); (1, None)], (fst (toy_result toy_small [0; 1] (Some toy_small_cache))).
  split; [apply written_available; vm_compute; discriminate|]. split; [vm_compute; reflexivity|].
  split.
  { split; [reflexivity|]. intros k d [E|[E|[]]]; injection E as <- <-; right; split; try reflexivity; vm_compute; tauto. }
  split.
  { intros k [<-|[<-|[]]].
    - exists (match snd (toy_result toy_small [0; 1] (Some no_cache)) with e :: _ => snd (fst e) | [] => ""%string end).
      vm_compute. discriminate.
    - exists (match snd (toy_result toy_small [0; 1] (Some no_cache)) with e :: _ => snd (fst e) | [] => ""%string end).
      vm_compute. discriminate. }
  split; vm_compute; reflexivity.
Qed.

Definition three_datasets : list (nat * option pc) := [(0, None); (1, None); (2, Some (toy_data 2))].

(** The third of three datasets is not in the cache. *)
Example c76_datasets_applies :
  exists value entries,
    toy_analyze three_datasets toy_small_cache false toy_small = Some (value, entries) /\
    toy_analyze (all_given toy_data [0; 1; 2]) toy_small_cache false toy_small = Some (value, entries) /\
    toy_eqv value (value_on toy_flatten toy_sem toy_encode toy_decode toy_data [0; 1; 2] toy_small) /\
    (forall k key p s, In (k, key, (p, s)) entries ->
      In k (analysis_dataset_keys [0; 1; 2] (flat (fst (toy_result toy_small [0; 1; 2] (Some toy_small_cache))))) /\
      s = sum (elems (toy_data k))).
Proof.
  apply (c76_datasets toy_partitionable toy_coder (fun _ => 1) Nat.eqb (fun _ => true) toy_class toy_fields
    toy_path toy_sha1 "v1" toy_flatten toy_sem toy_encode toy_decode toy_eqv toy_data (fun p => sum (elems p)) Nat.eqb_eq
    toy_implementation (eq toy_small)) with (emitted := snd (toy_result toy_small [0; 1; 2] (Some toy_small_cache))).
  - intros r <-. exact (proj2 toy_translated).
  - apply one_graph_keys with (num_outputs := fun _ => 1);
      [exact toy_implementation | exact toy_sha1_length | exact (proj2 toy_translated) | exact (proj2 toy_labels)].
  - apply written_available. vm_compute. discriminate.
  - reflexivity.
  - exact toy_no_nested.
  - do 4 eexists. split; reflexivity.
  - repeat constructor; cbn; intuition discriminate.
  - vm_compute. reflexivity.
  - split; [reflexivity|]. intros k d I. cbn in I.
    destruct I as [E|[E|[E|[]]]]; injection E as <- <-; [right|right|left; reflexivity];
      (split; [reflexivity|]); vm_compute; intuition discriminate.
  - right. exists 2, (toy_data 2). right. right. left. reflexivity.
Qed.

Definition toy_reported : list string := match analysis_cache_entry_keys toy_partitionable toy_coder (fun _ => 1) Nat.eqb (fun _ => true)
  toy_class toy_fields toy_path toy_sha1 "v1" [7] toy_small with Some r => r | None => [] end.
(** The cache also has an entry that another analysis wrote. *)
Definition toy_larger (k : nat) (key : string) : option pc :=
  if String.eqb key "other" then Some empty_pc else toy_small_cache k key.

Example c76_entries_applies :
  List.length toy_reported = 1 /\
  toy_analyze three_datasets toy_small_cache false toy_small = toy_analyze three_datasets toy_larger false toy_small /\
  exists value entries, toy_analyze three_datasets toy_small_cache false toy_small = Some (value, entries) /\
  forall k key p, In (k, key, p) entries -> In key toy_reported /\ true = true /\ In k [0; 1; 2] /\ toy_small_cache k key = None.
Proof.
  split; [vm_compute; reflexivity|].
  destruct (toy_analyze three_datasets toy_larger false toy_small) as [[value entries]|] eqn:E; [|vm_compute in E; discriminate].
  assert (E' : toy_analyze three_datasets toy_small_cache false toy_small = Some (value, entries)).
  { eapply (c76_entries toy_partitionable toy_coder (fun _ => 1) Nat.eqb (fun _ => true) toy_class toy_fields
      toy_path toy_sha1 "v1" toy_flatten toy_sem toy_encode toy_decode (fun p => sum (elems p)) Nat.eqb_eq toy_small
      (proj2 toy_translated) [7] toy_reported 7); [vm_compute; reflexivity|now left|reflexivity| | |exact E].
    - intros k key I. vm_compute in I. destruct I as [<-|[]]. reflexivity.
    - intros k key NN. unfold toy_larger. destruct (String.eqb_spec key "other") as [->|]; [|reflexivity].
      exfalso. apply NN. unfold toy_small_cache, toy_written.
      destruct (find _ _) as [[[k' key'] m]|] eqn:F; [|reflexivity]. apply find_some in F. destruct F as [I EQ].
      vm_compute in I. destruct I as [I|[I|[]]]; injection I as <- <- _; apply andb_true_iff in EQ; destruct EQ as [_ EQ];
        vm_compute in EQ; discriminate. }
  split; [exact E'|]. exists value, entries. split; [exact E'|].
  apply (c76_written toy_partitionable toy_coder (fun _ => 1) Nat.eqb (fun _ => true) toy_class toy_fields
      toy_path toy_sha1 "v1" toy_flatten toy_sem toy_encode toy_decode (fun p => sum (elems p)) Nat.eqb_eq toy_small
      (proj2 toy_translated) [7] toy_reported 7) with (pipeline := false) (value := value) (datasets := three_datasets) (cache := toy_small_cache);
    [vm_compute; reflexivity|now left|reflexivity|exact E'].
Qed.

Print Assumptions c76_datasets.
Print Assumptions c76_entries.
Print Assumptions c76_written.
Print Assumptions c76_pipeline_refuted.
