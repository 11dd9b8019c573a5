(** * C33 and C34: the analyzer cache *)
From Coq Require Import String.
From Coq Require Import List Arith Bool.
From Verif Require Import OptimizeModel OptimizeSpec OptimizeProofs OptimizeShape OptimizeHistory OptimizeExample.
Import ListNotations.

Section Props.
Context {B C K PC : Type}.
Variable partitionable : B -> bool.
Variable cache_coder : B -> option C.
Variable num_outputs : B -> nat.
Variable key_eqb : K -> K -> bool.
Variable is_cached : K -> bool.
Variable class_name : op B C K -> string.
Variable fields : string -> op B C K -> list string.
Variable tensor_path : string -> option string.
Variable sha1 : string -> string.
Variable cache_version : string.
Variable flatten : list PC -> PC.
Variable sem : op B C K -> list PC -> list PC.
Variable encode decode : C -> PC -> PC.
Variable eqv : PC -> PC -> Prop.
Variable data : K -> PC.

Notation translated := (translated partitionable cache_coder num_outputs).
Notation run := (run (PC := PC) partitionable cache_coder num_outputs class_name fields tensor_path sha1 cache_version
  key_eqb is_cached).
Notation available := (available partitionable cache_coder num_outputs class_name fields tensor_path sha1
  cache_version flatten sem encode decode data key_eqb is_cached).
Notation keys_identify := (keys_identify partitionable cache_coder class_name fields tensor_path sha1
  cache_version flatten sem encode decode eqv data).
Notation has_entry_key := (has_entry_key partitionable class_name fields tensor_path sha1 cache_version).
Notation value_on := (value_on flatten sem encode decode data).
Notation eval_with := (eval flatten sem encode decode).

(** After any history of runs, of which any entries may have been kept, the
    optimised graph of a run with that cache computes what the run without a
    cache computes.  Entries that are written are for given datasets, were not
    in the cache, and decode to the value without a cache on that dataset. *)
Theorem c33_cache_does_not_change_results :
  (forall a b, key_eqb a b = true <-> a = b) ->
  implementation partitionable cache_coder flatten sem encode decode eqv ->
  forall graphs : node B C K -> Prop,
  (forall root, graphs root -> translated root) -> keys_identify graphs ->
  forall cache, available graphs cache -> forall root, graphs root ->
  forall keys v emitted, run keys (Some cache) root = Some (v, emitted) ->
  eqv (eval_with data keys cache (flat v)) (value_on keys root) /\
  (forall k key m, In (k, key, m) emitted ->
     In k keys /\ is_cached k = true /\ cache k key = None /\
     exists n c, occurs n root /\ cacheable cache_coder n c /\ has_entry_key n key /\
       eqv (decode c (eval_with data keys cache m)) (value_on [k] n)).
Proof.
  exact (fun KEY IMP graphs TR ID => history_result partitionable cache_coder num_outputs key_eqb is_cached
    class_name fields tensor_path sha1 cache_version KEY flatten sem encode decode eqv IMP data graphs TR ID).
Qed.

(** For runs of one preprocessing function on any datasets, no assumption about
    the keys is needed beyond different labels and digests of 20 bytes. *)
Theorem c33_one_preprocessing_fn :
  (forall a b, key_eqb a b = true <-> a = b) ->
  implementation partitionable cache_coder flatten sem encode decode eqv ->
  (forall s, String.length (sha1 s) = 20) ->
  forall root, translated root -> unique_labels root ->
  forall cache, available (eq root) cache ->
  forall keys v emitted, run keys (Some cache) root = Some (v, emitted) ->
  eqv (eval_with data keys cache (flat v)) (value_on keys root).
Proof.
  exact (fun KEY IMP SL root T UL cache A keys v emitted R =>
    proj1 (history_result partitionable cache_coder num_outputs key_eqb is_cached
      class_name fields tensor_path sha1 cache_version KEY flatten sem encode decode eqv IMP data (eq root)
      (fun r E => eq_ind root translated T r E)
      (one_graph_keys partitionable cache_coder num_outputs class_name fields tensor_path sha1 cache_version
         flatten sem encode decode eqv data root IMP SL T UL) cache A root eq_refl keys v emitted R)).
Qed.

(** Without caching, the graph computes the same and writes nothing. *)
Theorem c33_without_cache :
  (forall a b, key_eqb a b = true <-> a = b) ->
  implementation partitionable cache_coder flatten sem encode decode eqv ->
  forall keys root v emitted, translated root -> run keys None root = Some (v, emitted) ->
  eqv (eval_with data keys no_cache (flat v)) (value_on keys root) /\ emitted = [].
Proof.
  exact (fun KEY IMP => no_caching_result partitionable cache_coder num_outputs key_eqb is_cached
    class_name fields tensor_path sha1 cache_version KEY flatten sem encode decode eqv data IMP).
Qed.

(** The optimisation never raises. *)
Theorem c33_never_raises :
  (forall a b, key_eqb a b = true <-> a = b) ->
  forall keys (cache : option (K -> string -> option PC)) root,
  translated root -> paths_known partitionable tensor_path root ->
  exists v emitted, run keys cache root = Some (v, emitted).
Proof.
  exact (fun KEY keys cache => optimize_total partitionable cache_coder num_outputs key_eqb is_cached
    class_name fields tensor_path sha1 cache_version KEY keys (option_map entries cache)).
Qed.

(** Together, the cache that was given and the one that was written have every
    cacheable value of the first phase on every cached dataset. *)
Theorem c33_all_datasets_covered :
  forall keys (cache : K -> string -> option PC) root v emitted,
  translated root -> run keys (Some cache) root = Some (v, emitted) ->
  forall n c k, occurs n root -> first_phase partitionable n -> cacheable cache_coder n c ->
  In k keys -> is_cached k = true ->
  exists key, has_entry_key n key /\ (cache k key <> None \/ exists m, In (k, key, m) emitted).
Proof.
  exact (covered partitionable cache_coder num_outputs key_eqb is_cached class_name fields tensor_path sha1
    cache_version).
Qed.

(** What is reported as the analysis dataset keys suffices: on other data that
    agrees on the reported datasets, the run with the cache computes what the
    run without a cache computes on the original data. *)
Theorem c34_reported_datasets_suffice :
  (forall a b, key_eqb a b = true <-> a = b) ->
  implementation partitionable cache_coder flatten sem encode decode eqv ->
  forall graphs : node B C K -> Prop,
  (forall root, graphs root -> translated root) -> keys_identify graphs ->
  forall cache, available graphs cache -> forall root, graphs root ->
  forall keys v emitted, run keys (Some cache) root = Some (v, emitted) ->
  forall data', (forall k, In k (analysis_dataset_keys keys (flat v)) -> data k = data' k) ->
  eqv (eval_with data' keys cache (flat v)) (value_on keys root).
Proof.
  exact (fun KEY IMP graphs TR ID cache A root G keys v emitted R data' AG =>
    eq_ind _ (fun p => eqv p (value_on keys root))
      (proj1 (history_result partitionable cache_coder num_outputs key_eqb is_cached
        class_name fields tensor_path sha1 cache_version KEY flatten sem encode decode eqv IMP data graphs TR ID
        cache A root G keys v emitted R)) _
      (reported_enough flatten sem encode decode keys cache data data' (flat v)
        (proj1 (reads_ok partitionable cache_coder num_outputs key_eqb is_cached class_name fields tensor_path
           sha1 cache_version KEY keys (Some (entries cache)) root (TR root G) v emitted R)) AG)).
Qed.

(** When no cacheable value is computed from another one, this is so for what
    is written to the cache too. *)
Theorem c34_reported_datasets_suffice_for_written_cache :
  (forall a b, key_eqb a b = true <-> a = b) ->
  forall keys (cache : K -> string -> option PC) root v emitted, NoDup keys ->
  translated root -> no_nested_caches partitionable cache_coder root ->
  (exists label b inputs index, root = Node label (Op b) inputs index /\ partitionable b = false) ->
  run keys (Some cache) root = Some (v, emitted) ->
  forall data', (forall k, In k (analysis_dataset_keys keys (flat v)) -> data k = data' k) ->
  forall k key m, In (k, key, m) emitted ->
  eval_with data' keys cache m = eval_with data keys cache m.
Proof.
  exact (fun KEY => written_enough partitionable cache_coder num_outputs key_eqb is_cached class_name fields
    tensor_path sha1 cache_version KEY flatten sem encode decode data).
Qed.
End Props.
Print Assumptions c33_cache_does_not_change_results.
Print Assumptions c33_one_preprocessing_fn.
Print Assumptions c33_without_cache.
Print Assumptions c33_never_raises.
Print Assumptions c33_all_datasets_covered.
Print Assumptions c34_reported_datasets_suffice.
Print Assumptions c34_reported_datasets_suffice_for_written_cache.

(** The written cache alone does not cover every dataset: entries that were read
    are not written again. *)
Theorem c33_written_cache_alone_refuted :
  exists (cache : nat -> string -> option pc) keys v emitted,
    run toy_partitionable toy_coder (fun _ => 1) toy_class toy_fields toy_path toy_sha1 "v1" Nat.eqb (fun _ => true)
      keys (Some cache) toy_root = Some (v, emitted) /\
    In 0 keys /\ forall key m, ~ In (0, key, m) emitted.
Proof.
  exists toy_cache, [0; 1; 2], (fst (toy_result toy_root [0; 1; 2] (Some toy_cache))), (snd (toy_result toy_root [0; 1; 2] (Some toy_cache))).
  split; [vm_compute; reflexivity|]. split; [now left|]. intros key m I. vm_compute in I.
  repeat (destruct I as [I|I]; [discriminate I|]). exact I.
Qed.
Print Assumptions c33_written_cache_alone_refuted.

(** With a cache from a run on two datasets, a run on three reads the third
    dataset only for the cached analyzer, gives the same result, and writes an
    entry for the third dataset (the shared node occurs twice in the tree). *)
Example c33_applies :
  run toy_partitionable toy_coder (fun _ => 1) toy_class toy_fields toy_path toy_sha1 "v1" Nat.eqb (fun _ => true)
    [0; 1; 2] (Some toy_cache) toy_root = Some (toy_result toy_root [0; 1; 2] (Some toy_cache)) /\
  toy_eval [0; 1; 2] toy_cache (flat (fst (toy_result toy_root [0; 1; 2] (Some toy_cache)))) = ([], [], [643; 4471]) /\
  map (fun e => fst (fst e)) (snd (toy_result toy_root [0; 1; 2] (Some toy_cache))) = [2; 2] /\
  toy_eqv (toy_eval [0; 1; 2] toy_cache (flat (fst (toy_result toy_root [0; 1; 2] (Some toy_cache)))))
    (value_on toy_flatten toy_sem toy_encode toy_decode toy_data [0; 1; 2] toy_root).
Proof.
  split; [vm_compute; reflexivity|]. split; [vm_compute; reflexivity|]. split; [vm_compute; reflexivity|].
  apply (c33_one_preprocessing_fn toy_partitionable toy_coder (fun _ => 1) Nat.eqb (fun _ => true) toy_class toy_fields
    toy_path toy_sha1 "v1" toy_flatten toy_sem toy_encode toy_decode toy_eqv toy_data Nat.eqb_eq toy_implementation
    toy_sha1_length toy_root (proj1 toy_translated) (proj1 toy_labels)) with (emitted := snd (toy_result toy_root [0; 1; 2] (Some toy_cache))).
  - apply written_available. vm_compute. discriminate.
  - vm_compute. reflexivity.
Qed.

(** With one analyzer whose values on the first two datasets are cached, only
    the third dataset is reported, and the data of the others can be dropped. *)
Example c34_applies :
  analysis_dataset_keys [0; 1; 2] (flat (fst (toy_result toy_small [0; 1; 2] (Some toy_small_cache)))) = [2] /\
  no_nested_caches toy_partitionable toy_coder toy_small /\
  toy_eqv (eval toy_flatten toy_sem toy_encode toy_decode (fun k => if k =? 2 then toy_data k else empty_pc)
             [0; 1; 2] toy_small_cache (flat (fst (toy_result toy_small [0; 1; 2] (Some toy_small_cache)))))
    (value_on toy_flatten toy_sem toy_encode toy_decode toy_data [0; 1; 2] toy_small).
Proof.
  split; [vm_compute; reflexivity|]. split; [exact toy_no_nested|].
  apply (c34_reported_datasets_suffice toy_partitionable toy_coder (fun _ => 1) Nat.eqb (fun _ => true) toy_class toy_fields
    toy_path toy_sha1 "v1" toy_flatten toy_sem toy_encode toy_decode toy_eqv toy_data Nat.eqb_eq toy_implementation
    (eq toy_small)) with (emitted := snd (toy_result toy_small [0; 1; 2] (Some toy_small_cache))).
  - intros r <-. exact (proj2 toy_translated).
  - apply one_graph_keys with (num_outputs := fun _ => 1);
      [exact toy_implementation | exact toy_sha1_length | exact (proj2 toy_translated) | exact (proj2 toy_labels)].
  - apply written_available. vm_compute. discriminate.
  - reflexivity.
  - vm_compute. reflexivity.
  - intros k I. change (In k [2]) in I. destruct I as [<-|[]]. reflexivity.
Qed.
