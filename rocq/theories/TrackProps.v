(** C66: tft.make_and_track_object. *)
From Coq Require Import String List Bool Arith Lia.
From Verif Require Import TrackModel TrackSpec TrackProofs TrackExample.
Import ListNotations.

(** Whatever calls are made in the traces of a scope: each call returns or raises exactly what the
    specification says.  In particular all calls with a name return the object that the first of them whose
    factory did not raise has made, and calls without a name one of their own. *)
Theorem c66_outcome : forall has calls j r,
  nth_error (snd (run (scope has) initial calls)) j = Some r <-> outcome has calls j r.
Proof. exact outcome_right. Qed.
Print Assumptions c66_outcome.

(** A factory is invoked only while its name has no object. *)
Theorem c66_invoked : forall has calls j,
  In j (invoked (fst (run (scope has) initial calls))) <-> invokes has calls j.
Proof. exact invoked_right. Qed.
Print Assumptions c66_invoked.

(** Every object that was returned is saved with the module, unless its name is an attribute that modules
    have or one that the saved module uses itself; ... *)
Theorem c66_saved : forall has fn calls j f name o,
  call_at calls j f name -> (forall n, name = Some n -> has n = None /\ ~ In n (taken fn)) ->
  nth_error (snd (run (scope has) initial calls)) j = Some (Returns (Some o)) ->
  In (Some o) (saved fn (fst (run (scope has) initial calls))).
Proof. exact saved_right. Qed.
Print Assumptions c66_saved.

(** ... and nothing else is: objects of calls that raised are not. *)
Theorem c66_saved_only : forall has fn calls o,
  In (Some o) (saved fn (fst (run (scope has) initial calls))) ->
  exists j, nth_error (snd (run (scope has) initial calls)) j = Some (Returns (Some o)) /\ o = Made j.
Proof. exact saved_only. Qed.
Print Assumptions c66_saved_only.

Example c66_applies :
  snd (run (scope tr_has) initial tr_calls) =
    [Returns (Some (Made 0)); Raises Factory; Returns (Some (Made 2)); Returns (Some (Made 3)); Returns (Some (Made 4));
     Returns (Some (Made 2)); Raises KerasWithoutName] /\
  invoked (fst (run (scope tr_has) initial tr_calls)) = [0; 1; 2; 3; 4; 6] /\
  (forall o, In (Some o) (saved "transform_fn" (fst (run (scope tr_has) initial tr_calls))) <-> In o [Made 0; Made 2; Made 3; Made 4]) /\
  (forall n, In n ["hub"; "layer"]%string -> tr_has n = None /\ ~ In n (taken "transform_fn")).
Proof.
  split; [vm_compute; reflexivity|]. split; [vm_compute; reflexivity|]. split.
  - intros o. vm_compute. split; intros H; decompose [or] H; try discriminate; try match goal with E : Some _ = Some _ |- _ => injection E as <- end; subst; auto 20; contradiction.
  - intros n [<-|[<-|[]]]; (split; [reflexivity|]); cbn; intuition discriminate.
Qed.

(** Outside of a function, of a scope or of a context nothing is tracked. *)
Theorem c66_outside : forall env calls, inside_function env && tracker env && module env = false ->
  let st := fst (run env initial calls) in
  attributes st = [] /\ (inside_function env = false \/ tracker env = false -> objects st = []) /\
  (inside_function env = false -> invoked st = []).
Proof. exact nothing_outside. Qed.
Print Assumptions c66_outside.
Example c66_outside_applies : inside_function (Env true false true tr_has) && tracker (Env true false true tr_has) && module (Env true false true tr_has) = false /\
  snd (run (Env true false true tr_has) initial tr_calls) <> [].
Proof. split; [reflexivity|vm_compute; discriminate]. Qed.

(** The tracker is gone after a scope, however it ended; programs that do not nest scopes are not stopped by
    them. *)
Theorem c66_scope_restored : forall p, fst (exec p None) = None.
Proof. exact exec_restores. Qed.
Print Assumptions c66_scope_restored.
Theorem c66_scopes : forall p, not_nested p -> exec p None = (None, finishes p).
Proof. exact not_nested_exec. Qed.
Print Assumptions c66_scopes.
Example c66_scopes_applies : not_nested (Seq (Scope 1 (Seq (Body true) (Body true))) (Scope 2 (Body false))) /\
  exec (Seq (Scope 1 (Seq (Body true) (Body true))) (Scope 2 (Body false))) None = (None, false) /\
  exec (Scope 1 (Scope 2 (Body true))) None = (None, false).
Proof. repeat split. Qed.

(** Finding: names that are not unique are not found out, although this is what the message of the
    exception is about: the second factory is ignored and its caller gets the object of the first. *)
Theorem c66_unique_names_refuted : exists calls name o,
  calls = [Call (Gives true) (Some name); Call (Gives false) (Some name)] /\
  snd (run (scope tr_has) initial calls) = [Returns (Some o); Returns (Some o)] /\ o = Made 0.
Proof. exists [Call (Gives true) (Some "a"%string); Call (Gives false) (Some "a"%string)], "a"%string, (Made 0). repeat split. Qed.
Print Assumptions c66_unique_names_refuted.

(** Finding: an object whose name is used by the saved module is returned, but not saved. *)
Theorem c66_taken_name_refuted : exists calls o,
  snd (run (scope tr_has) initial calls) = [Returns (Some o)] /\
  ~ In (Some o) (saved "transform_fn" (fst (run (scope tr_has) initial calls))).
Proof.
  exists [Call (Gives false) (Some "resources"%string)], (Made 0). split; [reflexivity|].
  vm_compute. intros H. decompose [or] H; try discriminate; contradiction.
Qed.
Print Assumptions c66_taken_name_refuted.

(** Finding: with the name of an attribute that modules have, the value of that attribute is returned and
    the factory is not invoked. *)
Theorem c66_attribute_name_refuted : exists calls n,
  snd (run (scope tr_has) initial calls) = [Returns (Some (Attribute n))] /\ invoked (fst (run (scope tr_has) initial calls)) = [].
Proof. exists [Call (Gives false) (Some "variables"%string)], "variables"%string. split; reflexivity. Qed.
Print Assumptions c66_attribute_name_refuted.
