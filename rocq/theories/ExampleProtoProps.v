(** C42: `ExampleProtoCoder.encode` forgets the instances encoded before. *)
From Coq Require Import String List Bool.
From Verif Require Import ExampleProtoModel ExampleProtoSpec ExampleProtoProofs ExampleProtoExample.
Import ListNotations.

(** For every schema, every history of calls on one coder, some of which may have
    raised half way, and every way values are cast: each call returns the very
    message, or raises the very exception, that it would on a new coder. *)
Theorem c42_history_does_not_matter :
  forall V P (payload : kind -> V -> outcome P) reshape features hs instances,
  make_handlers features = Ok hs -> consistent features ->
  encode_all payload reshape true hs (init hs) instances
  = map (fun i => snd (encode payload reshape true hs (init hs) i)) instances.
Proof.
  intros. now apply (history_forgotten V P payload reshape true features hs).
Qed.

Example c42_history_does_not_matter_applies :
  make_handlers x_features = Ok x_handlers /\ consistent x_features
  /\ exists m3 m4 m5 mn,
       encode_all x_payload x_reshape true x_handlers (init x_handlers) x_history
       = [Ok m3; Raise TypeError; Ok m4; Ok mn; Raise KeyError; Ok m5]
       /\ In ("s_values"%string, Some (KFloat, [5])) m5 /\ m4 <> m5.
Proof.
  split; [exact x_made|]. split; [exact x_consistent|].
  eexists. eexists. eexists. eexists. split; [vm_compute; reflexivity|].
  split; [cbn; tauto|discriminate].
Qed.

(** Whatever was encoded before, a message holds the values of its own instance
    only: an entry for each column and no other, empty for a missing value, and in
    a list of the dtype with all the values, in order, and nothing else for any
    other value; fixed lengths are those of the schema.  This holds also where
    deleting all elements of a list would not make it present. *)
Theorem c42_contents :
  forall V P (payload : kind -> V -> outcome P) reshape touch features hs instances n m,
  make_handlers features = Ok hs -> consistent features ->
  nth_error (encode_all payload reshape touch hs (init hs) instances) n = Some (Ok m) ->
  exists i, nth_error instances n = Some i /\ encodes payload reshape touch features i m.
Proof.
  intros V P payload reshape touch features hs instances n m Made Cons H.
  exact (history_contents V P payload reshape touch features hs Made Cons instances n m H).
Qed.

Example c42_contents_applies : exists m,
  nth_error (encode_all x_payload x_reshape false x_handlers (init x_handlers) x_history) 5
  = Some (Ok m) /\ In ("idx"%string, Some (KInt64, [5])) m.
Proof. eexists. split; [vm_compute; reflexivity|]. cbn. tauto. Qed.

(** An instance is encoded exactly when each column can be stored: no value, one object
    or a sequence for a variable length, a value of the right shape for a fixed one,
    and every element accepted by the list of the dtype.  What was encoded before, or
    raised, makes no difference. *)
Theorem c42_accepted :
  forall V P (payload : kind -> V -> outcome P) reshape touch features hs instances n i,
  make_handlers features = Ok hs -> consistent features -> nth_error instances n = Some i ->
  ((exists m, nth_error (encode_all payload reshape touch hs (init hs) instances) n = Some (Ok m))
   <-> encodable payload reshape features i).
Proof.
  intros V P payload reshape touch features hs instances n i Made Cons H.
  exact (history_accepts V P payload reshape touch features hs Made Cons instances n i H).
Qed.

Example c42_accepted_applies :
  (exists m, nth_error (encode_all x_payload x_reshape true x_handlers (init x_handlers) x_history) 2 = Some (Ok m)) /\
  encodable x_payload x_reshape x_features (x_good 4) /\ ~ encodable x_payload x_reshape x_features x_bad.
Proof.
  assert (exists m, nth_error (encode_all x_payload x_reshape true x_handlers (init x_handlers) x_history) 2 = Some (Ok m)) as H
    by (eexists; vm_compute; reflexivity).
  split; [exact H|]. split.
  - apply (c42_accepted _ _ _ _ true _ _ x_history 2 _ x_made x_consistent); [reflexivity|exact H].
  - intros E. apply (c42_accepted _ _ _ _ true _ _ x_history 1 _ x_made x_consistent) in E; [|reflexivity].
    destruct E as (m & E). vm_compute in E. discriminate.
Qed.

Print Assumptions c42_accepted.
Print Assumptions c42_history_does_not_matter.
Print Assumptions c42_contents.
