(** * C52: writing and reading a transform function *)
From Coq Require Import String.
From Coq Require Import List Arith Bool.
From Verif Require Import PublishModel PublishSpec PublishProofs PublishFinal PublishExample.
Import ListNotations.

(** Whatever died or raised before in the output directory, and however the work of this
    run is scheduled among attempts that the runner gives up: when the work is done,
    `WriteTransformFn` publishes it.  Then the directory has exactly this metadata and
    this transform function (without its .tft_metadata directories) and no temporary
    files, `ReadTransformFn` returns them, and nothing else has changed. *)
Theorem c52_write_and_read : forall root s0 s um ut schema am name t cs s1,
  well_formed s0 -> history root s0 s -> um <> ut -> unused s root um -> unused s root ut ->
  distinct t -> ~ skipped name t ->
  work root um ut schema am name t cs -> run cs s = (s1, None) ->
  exists s2, run (publish root um ut) s1 = (s2, None) /\ published root schema am t s2 /\
    read_transform_fn s2 root = Some (output_transform_fn root, (false, schema)) /\
    (forall q, inside q root -> s2 q = Some Directory) /\ (forall q, elsewhere root q -> s2 q = s0 q).
Proof. exact write_and_read. Qed.

Example c52_write_and_read_applies :
  well_formed x_files /\ history x_root x_files x_died3 /\ unused x_died3 x_root "m" /\ unused x_died3 x_root "t" /\
  distinct x_tree /\ ~ skipped "7f3a" x_tree /\
  work x_root "m" "t" "new schema" None "7f3a" x_tree x_work /\ run x_work x_died3 = (x_written, None) /\
  read_transform_fn x_died3 x_root = None /\ x_died3 (temporary x_root "a" ++ ["schema.pbtxt"%string]) = Some (File "ne").
Proof.
  split; [exact x_files_well_formed|]. split; [exact x_history|].
  split; [apply x_unused; cbn; auto|]. split; [apply x_unused; cbn; auto|]. split; [exact x_tree_distinct|].
  split; [intros [E _]; discriminate E|]. split; [exact x_work_is|]. split; [exact x_runs|].
  split; vm_compute; reflexivity.
Qed.

(** The work is done without an error, if no file is in the way of the temporary
    directories. *)
Theorem c52_work_succeeds : forall root um ut schema am name ts cs s,
  um <> ut -> distinct (Node ts) -> unused s root um -> unused s root ut ->
  (forall q, inside q (root ++ ["transform_tmp"%string]) -> s q = None \/ s q = Some Directory) ->
  undisturbed_work root um ut schema am name (Node ts) cs -> exists s1, run cs s = (s1, None).
Proof. exact work_succeeds. Qed.

Example c52_work_succeeds_applies :
  distinct x_tree /\ undisturbed_work x_root "m" "t" "new schema" (Some "new map"%string) "7f3a" x_tree x_alone /\
  (forall q, inside q (x_root ++ ["transform_tmp"%string]) -> x_files q = None \/ x_files q = Some Directory) /\
  unused x_files x_root "m" /\ unused x_files x_root "t" /\ List.length x_alone = 7.
Proof.
  split; [exact x_tree_distinct|]. split; [exact x_alone_is|]. split.
  - intros q (r & E). destruct q as [|a [|b [|c [|d q]]]]; [now right|..]; unfold x_root in E; cbn [app] in E;
      [| | |discriminate E]; inversion E; subst; auto.
  - split; [intros r; reflexivity|]. split; [intros r; reflexivity|reflexivity].
Qed.

(** What a process leaves that dies while it publishes: the old outputs with the
    metadata whole or partly removed; the new metadata with the old transform function
    whole or partly removed; or the new outputs. *)
Theorem c52_interrupted_partial : forall root um ut s s', um <> ut -> well_formed s -> dies (publish root um ut) s s' ->
  (old_or_less (output_metadata root) s s' /\ moved (output_transform_fn root) (output_transform_fn root) s s' /\
   moved (temporary root um) (temporary root um) s s' /\ moved (temporary root ut) (temporary root ut) s s') \/
  (moved (temporary root um) (output_metadata root) s s' /\ old_or_less (output_transform_fn root) s s' /\
   s' (temporary root um) = None /\ moved (temporary root ut) (temporary root ut) s s') \/
  (moved (temporary root um) (output_metadata root) s s' /\ moved (temporary root ut) (output_transform_fn root) s s' /\
   s' (temporary root um) = None).
Proof. exact publish_stages. Qed.

Example c52_interrupted_applies :
  well_formed x_files /\ (let s := fst (run x_alone x_files) in snd (run x_alone x_files) = None /\ well_formed s /\
  dies (publish x_root "m" "t") s (effect (RemoveTree (output_metadata x_root)) s)).
Proof.
  split; [exact x_files_well_formed|]. split; [vm_compute; reflexivity|]. split.
  - apply wf_run, x_files_well_formed.
  - apply dies_skipped; [reflexivity|]. apply dies_later; [reflexivity..|]. apply dies_now.
Qed.

(** Publishing the same temporary directories again, after dying, succeeds as long as
    the metadata has not been renamed.  Afterwards it raises, and removes the metadata
    that was published. *)
Theorem c52_published_again_partial : forall root um ut s s', um <> ut -> well_formed s ->
  s (temporary root um) <> None -> s (temporary root ut) <> None -> dies (publish root um ut) s s' ->
  (s' (temporary root um) <> None -> exists s2, run (publish root um ut) s' = (s2, None) /\
     moved (temporary root um) (output_metadata root) s s2 /\ moved (temporary root ut) (output_transform_fn root) s s2 /\
     forall r, s2 (root ++ "transform_tmp"%string :: r) = None) /\
  (s' (temporary root um) = None -> exists s2, run (publish root um ut) s' = (s2, Some NotFoundError) /\
     forall r, s2 (output_metadata root ++ r) = None).
Proof.
  intros root um ut s s' NU W HM HT D. destruct (publish_again root um ut s s' NU W HM HT D) as [A B].
  split; [|exact B]. intros N. destruct (A N) as (s2 & R & PM & PF & PB). exists s2. split; [exact R|].
  split; [exact PM|]. split; [exact PF|]. intros r. specialize (PB r). now rewrite <- app_assoc in PB.
Qed.

Example c52_published_again_applies :
  let s := fst (run x_alone x_files) in s (temporary x_root "m") <> None /\ s (temporary x_root "t") <> None.
Proof. split; vm_compute; discriminate. Qed.

(** Publishing is not atomic: a process that dies between the two renames leaves the new
    metadata with the old transform function, or with a part of it, and
    `ReadTransformFn` returns them without an error. *)
Theorem c52_atomic_refuted : exists root um ut s, well_formed s /\
  s (output_transform_fn root ++ ["saved_model.pb"%string]) = Some (File "old graph"%string) /\
  s (temporary root ut ++ ["saved_model.pb"%string]) = Some (File "new graph"%string) /\
  read_transform_fn s root = Some (output_transform_fn root, (false, "old schema"%string)) /\
  (exists s', dies (publish root um ut) s s' /\
     read_transform_fn s' root = Some (output_transform_fn root, (false, "new schema"%string)) /\
     s' (output_transform_fn root ++ ["saved_model.pb"%string]) = Some (File "old graph"%string)) /\
  (exists s', dies (publish root um ut) s s' /\
     read_transform_fn s' root = Some (output_transform_fn root, (false, "new schema"%string)) /\
     s' (output_transform_fn root) = None).
Proof.
  exists x_root, "m"%string, "t"%string, x_ready. split; [apply wf_run, x_files_well_formed|].
  split; [vm_compute; reflexivity|]. split; [vm_compute; reflexivity|]. split; [vm_compute; reflexivity|]. split.
  - eexists. split; [apply dies_skipped; [reflexivity|]; apply dies_later; [reflexivity..|]; apply dies_later; [reflexivity..|]; apply dies_now|].
    split; vm_compute; reflexivity.
  - eexists. split; [apply dies_skipped; [reflexivity|]; apply dies_later; [reflexivity..|]; apply dies_later; [reflexivity..|];
      apply dies_later; [reflexivity..|]; apply dies_now|].
    split; vm_compute; reflexivity.
Qed.

(** Publishing cannot be repeated: a runner that retries it after it died behind the first
    rename gets an error, and nothing can be read afterwards. *)
Theorem c52_retry_refuted : exists root um ut s s' s2, well_formed s /\
  snd (run (publish root um ut) s) = None /\ dies (publish root um ut) s s' /\
  read_transform_fn s root <> None /\ read_transform_fn s' root <> None /\
  run (publish root um ut) s' = (s2, Some NotFoundError) /\ read_transform_fn s2 root = None.
Proof.
  exists x_root, "m"%string, "t"%string, x_ready. eexists. eexists. split; [apply wf_run, x_files_well_formed|].
  split; [vm_compute; reflexivity|]. split.
  { apply dies_skipped; [reflexivity|]; apply dies_later; [reflexivity..|]; apply dies_later; [reflexivity..|]; apply dies_now. }
  split; [vm_compute; discriminate|]. split; [vm_compute; discriminate|]. split.
  { rewrite (surjective_pairing (run _ _)). apply (f_equal (pair _)). vm_compute. reflexivity. }
  vm_compute. reflexivity.
Qed.

Print Assumptions c52_write_and_read.
Print Assumptions c52_work_succeeds.
Print Assumptions c52_interrupted_partial.
Print Assumptions c52_published_again_partial.
Print Assumptions c52_atomic_refuted.
Print Assumptions c52_retry_refuted.
