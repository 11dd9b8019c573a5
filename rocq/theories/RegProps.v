(** Properties of the registry of implementations. *)
From Coq Require Import String List Bool.
From Verif Require Import RegModel RegSpec RegProofs RegExample.
Import ListNotations.
Local Open Scope string_scope.

(** Whatever has been registered, in whatever order: an operation is done by the implementation last registered
    for its class and the environment, and if there is none by the one last registered for its class without
    tags; the label says so, outputs come as a tuple, and a failure names the label.  If neither was ever
    registered this is an error. *)
Theorem c82_lookup : forall pcollection (apply : ptransform -> string -> list pcollection -> outputs pcollection) history v1 c label inputs,
  (forall p tagged, implemented history (environment v1) c p tagged ->
     visit apply (fold_left register history []) v1 c label inputs = applied (apply p (tagged label) inputs) (tagged label)) /\
  (Forall (fun r => ~ in_environment (environment v1) c r /\ ~ in_general c r) history ->
     visit apply (fold_left register history []) v1 c label inputs = No_implementation) /\
  ((exists p tagged, implemented history (environment v1) c p tagged) \/
   Forall (fun r => ~ in_environment (environment v1) c r /\ ~ in_general c r) history).
Proof.
  intros. split; [|split].
  - intros. now apply visit_implemented.
  - apply visit_none.
  - destruct (visit_spec apply history v1 c label inputs) as [(p & f & H & _)|[F _]]; [left; now exists p, f|now right].
Qed.
Example c82_lookup_applies :
  visit names (fold_left register (library ++ mine)%list []) true "Mine" "mine" [] = Outputs ["_Old/mine[tf_compat_v1]"] /\
  visit names (fold_left register (library ++ mine)%list []) false "Mine" "mine" [] = Outputs ["_Mine/mine"] /\
  visit names (fold_left register (library ++ mine)%list []) true "Theirs" "theirs" [] = No_implementation /\
  visit names (fold_left register (library ++ mine)%list []) false "EncodeCache" "encode" [] = Outputs ["_EncodeCacheImpl"; "encode"] /\
  visit names (fold_left register (library ++ mine)%list []) true "DecodeCache" "decode" [] = Failed_to_apply "decode" /\
  implemented (library ++ mine)%list (environment true) "Mine" "_Old" (fun label => label ++ "[tf_compat_v1]").
Proof.
  repeat split.
  apply (By_environment (library ++ mine)%list TF_COMPAT_V1 "Mine" (Registration "Mine" (Some [TF_COMPAT_V1]) "_Old")).
  exists library, (tl mine). split; [reflexivity|]. split.
  - split; [reflexivity|]. exists [TF_COMPAT_V1]. split; [reflexivity|now left].
  - repeat constructor; intros (E & ts & T & I); cbn in *; congruence.
Qed.

(** Registrations of other operations do not change what an operation does. *)
Theorem c82_others : forall pcollection (apply : ptransform -> string -> list pcollection -> outputs pcollection) history more v1 c label inputs,
  Forall (fun r => operation r <> c) more ->
  visit apply (fold_left register (history ++ more)%list []) v1 c label inputs
  = visit apply (fold_left register history []) v1 c label inputs.
Proof. intros * F. rewrite fold_left_app. unfold visit. rewrite wrapper_other by exact F. reflexivity. Qed.
Example c82_others_applies : Forall (fun r => operation r <> "PTransform") mine /\
  visit names (fold_left register library []) true "PTransform" "p" [] = Outputs ["_PTransformImpl/p"].
Proof. split; [repeat constructor; discriminate|reflexivity]. Qed.

(** Every operation an analysis is made of has an implementation in both environments, whatever a user
    registers besides.  In the library, implementations of the same operation are for different environments,
    so that the order in which its files are loaded does not matter. *)
Theorem c82_library : forall pcollection (apply : ptransform -> string -> list pcollection -> outputs pcollection) before more v1 c label inputs,
  In c operations ->
  visit apply (fold_left register (before ++ library ++ more)%list []) v1 c label inputs <> No_implementation.
Proof.
  intros * I. destruct (library_of_key apply c v1 I) as (r & Ir & K).
  destruct (visit_spec apply (before ++ library ++ more)%list v1 c label inputs) as [(p & f & _ & ->)|[F _]].
  - unfold applied. destruct (apply p (f label) inputs); discriminate.
  - exfalso. rewrite Forall_forall in F. destruct (F r) as [A B]; [|tauto]. apply in_app_iff. right. apply in_app_iff. now left.
Qed.
Example c82_library_applies : length operations = 29 /\ In "CreateSavedModel" operations /\
  visit names (fold_left register library []) true "CreateSavedModel" "save" [] = Outputs ["_CreateSavedModelImpl/save[tf_compat_v1]"] /\
  visit names (fold_left register library []) false "CreateSavedModel" "save" [] = Outputs ["_CreateSavedModelImplV2/save[tf_v2_only]"].
Proof. repeat split. cbn. tauto. Qed.
Theorem c82_order : forall pcollection (apply : ptransform -> string -> list pcollection -> outputs pcollection) loaded more v1 c label inputs,
  Permutation.Permutation library loaded -> Forall (fun r => operation r <> c) more ->
  visit apply (fold_left register (loaded ++ more)%list []) v1 c label inputs
  = visit apply (fold_left register library []) v1 c label inputs.
Proof.
  intros * P F. rewrite c82_others by exact F. now apply order_matters_not.
Qed.
Example c82_order_applies : Permutation.Permutation library (rev library) /\ rev library <> library.
Proof. split; [apply Permutation.Permutation_rev|discriminate]. Qed.

(** A second implementation for the same operation is not refused, although each should be registered only once:
    the assertion is about a generator object, which is always true.  It replaces the first one. *)
Theorem c82_once_refuted : exists c p q more v1,
  p <> q /\ In c operations /\ more = [Registration c None q] /\
  visit names (fold_left register library []) v1 c "label" [] = Outputs [p ++ "/label"] /\
  decorate (fold_left register library []) c None (Ptransform q) = Some (fold_left register (library ++ more)%list []) /\
  visit names (fold_left register (library ++ more)%list []) v1 c "label" [] = Outputs [q ++ "/label"].
Proof.
  exists "VocabularyMerge", "_VocabularyMergeImpl", "_Another", [Registration "VocabularyMerge" None "_Another"], false.
  split; [discriminate|]. split; [cbn; tauto|]. repeat split.
Qed.

(** Tags are documented to be strings of those of the environments.  A PTransform registered with such
    strings is accepted and never found. *)
Theorem c82_string_tags_refuted : exists c p reg,
  decorate (fold_left register library []) c (Some [Other (tag_value TF_COMPAT_V1); Other (tag_value TF_V2_ONLY)]) (Ptransform p) = Some reg /\
  forall v1 label, visit names reg v1 c label [] = No_implementation.
Proof. exists "Mine", "_Mine", (fold_left register (library ++ [Registration "Mine" (Some [Other "tf_compat_v1"; Other "tf_v2_only"]) "_Mine"])%list []). split; [reflexivity|]. intros [|] label; reflexivity. Qed.

Print Assumptions c82_lookup.
Print Assumptions c82_others.
Print Assumptions c82_library.
Print Assumptions c82_order.
Print Assumptions c82_once_refuted.
Print Assumptions c82_string_tags_refuted.
