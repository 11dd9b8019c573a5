(** * What caching must not change *)
From Coq Require Import String.
From Coq Require Import List Arith Bool.
From Verif Require Import OptimizeModel.
Import ListNotations.

Section Spec.
Context {B C K PC : Type}.
Variable partitionable : B -> bool.
Variable cache_coder : B -> option C.
Variable num_outputs : B -> nat.
Variable class_name : op B C K -> string.
Variable fields : string -> op B C K -> list string.
Variable tensor_path : string -> option string.
Variable sha1 : string -> string.
Variable cache_version : string.

Notation op_partitionable := (op_partitionable partitionable).
Notation op_coder := (op_coder cache_coder).

(** [occurs m n]: the value [m] is [n] or is upstream of [n]. *)
Inductive occurs : node B C K -> node B C K -> Prop :=
| occurs_here n : occurs n n
| occurs_below m n label o inputs index :
    In n inputs -> occurs m n -> occurs m (Node label o inputs index).

(** No dataset is read. *)
Definition data_free (n : node B C K) : Prop :=
  forall label k inputs index, ~ occurs (Node label (Input k) inputs index) n.

(** The value is, or is computed by partitionable operations from, the result of
    a cacheable operation. *)
Fixpoint cached_path (n : node B C K) : bool :=
  match n with
  | Node _ o inputs _ =>
      op_partitionable o &&
      (match op_coder o with Some _ => true | None => false end || existsb cached_path inputs)
  end.

(** The graphs that [build] makes (analysis_graph_builder.py:676-790): saved
    models are applied to the flattened dataset, in phase 0 to a model without
    bindings; partitionable operations have inputs and one output; cacheable
    ones are partitionable; an operation on a cached path has that input only. *)
Inductive translated : node B C K -> Prop :=
| translated_input label : translated (Node label (Input None) [] 0)
| translated_apply label phase model input_label :
    translated model -> cached_path model = false -> (phase = 0 -> data_free model) ->
    translated (Node label (Apply phase) [model; Node input_label (Input None) [] 0] 0)
| translated_extract label keys input :
    translated input -> translated (Node label (Extract keys) [input] 0)
| translated_op label b inputs index :
    (forall n, In n inputs -> translated n) ->
    index < num_outputs b ->
    (partitionable b = true -> inputs <> [] /\ num_outputs b = 1) ->
    (cache_coder b <> None -> partitionable b = true) ->
    (existsb cached_path inputs = true -> length inputs = 1) ->
    translated (Node label (Op b) inputs index).

(** The implementation of the operations. *)
Variable flatten : list PC -> PC.
Variable sem : op B C K -> list PC -> list PC.
Variable encode decode : C -> PC -> PC.
(** Two PCollections are equivalent when no later operation tells them apart. *)
Variable eqv : PC -> PC -> Prop.

Definition out (i : nat) (outs : list PC) : PC := nth i outs (flatten []).

(** The documented requirements: Beam's [Flatten]; operations do not tell
    equivalent PCollections apart; partitionable operations may be applied to
    parts of the data (nodes.py:62-77); applying a saved model is a map;
    decoding gives back what was encoded (C29). *)
Record implementation : Prop := {
  eqv_refl : forall p, eqv p p;
  eqv_sym : forall p q, eqv p q -> eqv q p;
  eqv_trans : forall p q r, eqv p q -> eqv q r -> eqv p r;
  flatten_congr : forall ps qs, Forall2 eqv ps qs -> eqv (flatten ps) (flatten qs);
  flatten_one : forall p, eqv (flatten [p]) p;
  sem_congr : forall o xs ys i, Forall2 eqv xs ys -> eqv (out i (sem o xs)) (out i (sem o ys));
  sem_extract : forall keys (ps : list PC),
    eqv (out 0 (sem (Extract keys) [flatten ps]))
        (flatten (map (fun p => out 0 (sem (Extract keys) [p])) ps));
  sem_apply : forall phase model (ps : list PC),
    eqv (out 0 (sem (Apply phase) [model; flatten ps]))
        (flatten (map (fun p => out 0 (sem (Apply phase) [model; p])) ps));
  sem_partitionable : forall b, partitionable b = true ->
    forall (rows : list (list PC)) (n : nat), 0 < n -> (forall r, In r rows -> length r = n) ->
    eqv (out 0 (sem (Op b) (map (fun i => flatten (map (out i) rows)) (seq 0 n))))
        (flatten (map (fun r => out 0 (sem (Op b) r)) rows));
  coder_round_trip : forall b c xs, cache_coder b = Some c ->
    eqv (decode c (encode c (out 0 (sem (Op b) xs)))) (out 0 (sem (Op b) xs))
}.

Variable data : K -> PC.
Definition no_cache : K -> string -> option PC := fun _ _ => None.

(** The value without a cache, on the given datasets. *)
Definition value_on (keys : list K) (n : node B C K) : PC :=
  eval flatten sem encode decode data keys no_cache n.

(** The hash of the computation of a value, as documented: from the hashes of
    the inputs, the operation and its fields. *)
Inductive has_hash : node B C K -> string -> Prop :=
| hash_apply label inputs index : has_hash (Node label (Apply 0) inputs index) "APPLY_SAVEDMODEL"
| hash_op label o inputs index hashes h :
    o <> Apply 0 -> op_partitionable o = true ->
    Forall2 has_hash inputs hashes ->
    next_hashed_path class_name fields tensor_path sha1 (map Some hashes) label o = Some h ->
    has_hash (Node label o inputs index) h.

(** The key under which a value is cached. *)
Definition has_entry_key (n : node B C K) (key : string) : Prop :=
  match n with
  | Node label o _ _ => exists h, has_hash n h /\ key = cache_entry_key cache_version label h
  end.

Definition cacheable (n : node B C K) (c : C) : Prop :=
  match n with Node _ o _ _ => op_coder o = Some c end.

(** Computed in the first phase, without waiting for another analyzer. *)
Inductive first_phase : node B C K -> Prop :=
| first_apply label inputs index : first_phase (Node label (Apply 0) inputs index)
| first_op label o inputs index :
    op_partitionable o = true -> o <> Apply 0 ->
    (forall n, In n inputs -> first_phase n) -> first_phase (Node label o inputs index).

(** The paths of the tensors used in the first phase are known. *)
Definition paths_known (root : node B C K) : Prop :=
  forall label ks inputs index, occurs (Node label (Extract ks) inputs index) root ->
    first_phase (Node label (Extract ks) inputs index) -> forall key, In key ks -> tensor_path key <> None.

(** No cacheable operation is computed from the result of another one by
    partitionable operations. *)
Definition no_nested_caches (root : node B C K) : Prop :=
  forall label o inputs index, occurs (Node label o inputs index) root ->
    op_coder o <> None -> existsb cached_path inputs = false.

(** ** Histories *)

Variable key_eqb : K -> K -> bool.
Variable is_cached : K -> bool.

Definition entries (cache : K -> string -> option PC) : K -> string -> bool :=
  fun k key => match cache k key with Some _ => true | None => false end.

Definition run (keys : list K) (cache : option (K -> string -> option PC)) (root : node B C K) :=
  optimize partitionable cache_coder num_outputs key_eqb is_cached class_name fields tensor_path
    sha1 cache_version keys (option_map entries cache) root.

(** The caches that earlier runs can leave: each run is of one of the given
    graphs, on any datasets, with any cache available then; afterwards any entries
    of the cache it was given and of the cache it wrote may be available. *)
Inductive available (graphs : node B C K -> Prop) : (K -> string -> option PC) -> Prop :=
| available_none : available graphs no_cache
| available_run cache keys root v emitted cache' :
    available graphs cache -> graphs root ->
    run keys (Some cache) root = Some (v, emitted) ->
    (forall k key p, cache' k key = Some p ->
       cache k key = Some p \/
       exists n, In (k, key, n) emitted /\ p = eval flatten sem encode decode data keys cache n) ->
    available graphs cache'.

(** Values with the same entry key are cached by the same coder and are
    equivalent on every dataset. *)
Definition keys_identify (graphs : node B C K -> Prop) : Prop :=
  forall r r' n n' c c' key,
    graphs r -> graphs r' -> occurs n r -> occurs n' r' ->
    cacheable n c -> cacheable n' c' -> has_entry_key n key -> has_entry_key n' key ->
    c = c' /\ forall k, eqv (value_on [k] n) (value_on [k] n').

(** Operations that are different have different labels. *)
Definition unique_labels (root : node B C K) : Prop :=
  forall label o inputs index o' inputs' index',
    occurs (Node label o inputs index) root -> occurs (Node label o' inputs' index') root ->
    o = o' /\ inputs = inputs'.

End Spec.
