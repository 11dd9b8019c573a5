(** * C35: what a cache entry key says about the computation *)
From Coq Require Import String.
From Coq Require Import List Arith Bool Permutation.
From Verif Require Import ReadyModel ReadySpec OptimizeModel OptimizeSpec OptimizeExample
  CacheHashModel CacheHashSpec CacheHashProofs CacheHashExample.
Import ListNotations.

Section Props.
Variable sha1 : string -> string.

(** Two tensors with the same path are computed alike (the same inputs, the same
    outputs and attributes of operations, the same structure), unless two texts
    that were hashed for them collide.  Missing: that the types of the operations
    are the same, which is false ([c35_op_type_refuted]), and tensors with a
    different structure, for which see [c35_paths_any_structure_partial]. *)
Theorem c35_paths_partial :
  (forall s, String.length (sha1 s) = 20) ->
  forall c c' p, same_shape c c' ->
  path_of sha1 c = Some (Some p) -> path_of sha1 c' = Some (Some p) ->
  alike c c' \/ collision sha1 c c'.
Proof. exact (paths_partial sha1). Qed.

(** For tensors of any structure there is one more exception: different pieces of
    text that are the same when joined, which [c35_structure_refuted] shows.
    Missing: that the types of the operations are the same. *)
Theorem c35_paths_any_structure_partial : forall c c' p,
  path_of sha1 c = Some (Some p) -> path_of sha1 c' = Some (Some p) ->
  alike c c' \/ collision sha1 c c' \/ ambiguous sha1 c c'.
Proof. exact (paths_any_shape sha1). Qed.

(** A computation that did not change has the same path: an entry that was
    written is found again. *)
Theorem c35_unchanged_path : forall c c', alike c c' -> path_of sha1 c = path_of sha1 c'.
Proof. exact (alike_same_path sha1). Qed.

(** The path of a tensor of a graph is the path of the computation that the
    graph unfolds into: names of operations and the order of nodes do not matter. *)
Theorem c35_path_of_graph : forall g kinds names infos,
  (forall x, match names x with
             | Some n => exists ready, find x infos = Some (ready, source_path sha1 n)
             | None => find x infos = None
             end) ->
  forall c x, unfolds g kinds names x c ->
  has_path g (translate_kind sha1 kinds) infos x (path_of sha1 c).
Proof. exact (unfolds_path sha1). Qed.

(** The order in which the attributes of an operation are given does not matter. *)
Theorem c35_attribute_order : forall attrs attrs',
  Permutation attrs attrs' -> NoDup (map fst attrs) -> serialize_op_attr attrs = serialize_op_attr attrs'.
Proof. exact serialize_order. Qed.

Context {B C K : Type}.
Variable partitionable : B -> bool.
Variable class_name : op B C K -> string.
Variable fields : string -> op B C K -> list string.
Variable cache_version : string.

(** Two values with the same entry key have the same label and are computed
    alike, unless two texts that were hashed for them collide.  Missing as above,
    and the parameters of analyzers ([c35_analyzer_parameters_refuted]). *)
Theorem c35_entry_keys_partial :
  (forall s, String.length (sha1 s) = 20) ->
  (forall ks ks', class_name (Extract ks) = class_name (Extract ks')) ->
  forall tensors tensors' (n n' : node B C K) key, same_node_shape tensors tensors' n n' ->
  (forall label inputs index, n <> OptimizeModel.Node label (Apply 0) inputs index) ->
  has_entry_key partitionable class_name fields (tensor_paths sha1 tensors) sha1 cache_version n key ->
  has_entry_key partitionable class_name fields (tensor_paths sha1 tensors') sha1 cache_version n' key ->
  (match n, n' with OptimizeModel.Node label _ _ _, OptimizeModel.Node label' _ _ _ => label = label' end /\
   alike_nodes class_name fields tensors tensors' n n') \/
  node_collision sha1 partitionable class_name fields tensors tensors' n n'.
Proof.
  exact (fun SL CN tensors tensors' => entry_keys_partial sha1 SL partitionable class_name CN fields cache_version tensors tensors').
Qed.

(** Values that are computed alike have the same hash, whatever the names of the
    tensors. *)
Theorem c35_unchanged_value :
  (forall ks ks', class_name (Extract ks) = class_name (Extract ks')) ->
  (forall l (o : op B C K) l' o', op_text class_name fields l o = op_text class_name fields l' o' ->
     op_partitionable partitionable o = op_partitionable partitionable o') ->
  forall tensors tensors' (n n' : node B C K) h, alike_nodes class_name fields tensors tensors' n n' ->
  has_hash partitionable class_name fields (tensor_paths sha1 tensors) sha1 n h ->
  has_hash partitionable class_name fields (tensor_paths sha1 tensors') sha1 n' h.
Proof.
  exact (fun CN OP tensors tensors' => alike_same_hash sha1 partitionable class_name CN fields tensors tensors' OP).
Qed.
End Props.
Print Assumptions c35_paths_partial.
Print Assumptions c35_paths_any_structure_partial.
Print Assumptions c35_unchanged_path.
Print Assumptions c35_path_of_graph.
Print Assumptions c35_attribute_order.
Print Assumptions c35_entry_keys_partial.
Print Assumptions c35_unchanged_value.

(** Refuted: computations of different structure have different paths.  Pieces are
    hashed without what separates them: an input whose name is [0] followed by the
    digest of another input has the path of the first tensor of that input. *)
Theorem c35_structure_refuted : forall sha1, exists c c' p,
  path_of sha1 c = Some (Some p) /\ path_of sha1 c' = Some (Some p) /\ ~ alike c c'.
Proof.
  intros sha1. exists (TensorOf 0 (Source "x"%string)), (Source ("0" ++ sha1 "x")%string), (sha1 ("0" ++ sha1 "x"))%string.
  repeat split. intros A. inversion A.
Qed.
Print Assumptions c35_structure_refuted.

(** Refuted: different computations have different paths.  The type of an
    operation is not hashed, whatever the hash function. *)
Theorem c35_op_type_refuted : forall sha1, exists c c' p,
  same_shape c c' /\ path_of sha1 c = Some (Some p) /\ path_of sha1 c' = Some (Some p) /\ ~ same_computation c c'.
Proof.
  intros sha1. exists (unary "Square"), (unary "Identity"), (sha1 ("0" ++ sha1 ("T0 9" ++ sha1 "x")))%string.
  split; [repeat constructor|]. split; [reflexivity|]. split; [reflexivity|].
  intros H. inversion H as [|? ? ? HO|]; subst. inversion HO.
Qed.
Print Assumptions c35_op_type_refuted.

(** Refuted: analyzers with different parameters have different entry keys.  Of a
    combiner only the name of its class is hashed. *)
Theorem c35_analyzer_parameters_refuted : forall sha1 cache_version, exists key,
  has_entry_key (fun _ => true) combine_class combine_fields (tensor_paths sha1 (fun _ => column)) sha1 cache_version
    (combine_node "np.sum") key /\
  has_entry_key (fun _ => true) combine_class combine_fields (tensor_paths sha1 (fun _ => column)) sha1 cache_version
    (combine_node "np.max") key.
Proof.
  intros sha1 version. eexists. split; [apply combine_key|].
  exact (combine_key sha1 version "np.max").
Qed.
Print Assumptions c35_analyzer_parameters_refuted.

(** Refuted: a run with the cache of an earlier version of the preprocessing
    function computes what a run without a cache computes.  The earlier version
    sums squares; the hash function is injective. *)
Theorem c35_stale_cache_refuted :
  exists graph graph' cache v emitted,
  implementation toy_partitionable toy_coder toy_flatten ex_sem toy_encode toy_decode toy_eqv /\
  (forall s s', no_hash s = no_hash s' -> s = s') /\
  translated toy_partitionable toy_coder (fun _ => 1) graph /\ unique_labels graph /\
  translated toy_partitionable toy_coder (fun _ => 1) graph' /\ unique_labels graph' /\
  available toy_partitionable toy_coder (fun _ => 1) toy_class toy_fields (tensor_paths no_hash ex_tensors) no_hash "v1"
    toy_flatten ex_sem toy_encode toy_decode toy_data Nat.eqb (fun _ => true) (eq graph) cache /\
  ex_run [0] (Some cache) graph' = Some (v, emitted) /\
  ~ toy_eqv (ex_eval [0] cache (flat v))
      (value_on toy_flatten ex_sem toy_encode toy_decode toy_data [0] graph').
Proof.
  exists (ex_graph "Square:0"), (ex_graph "Identity:0"), ex_cache,
    (fst (ex_result "Identity:0" ex_cache)), (snd (ex_result "Identity:0" ex_cache)).
  split; [exact ex_implementation|]. split; [intros s s' E; exact E|].
  split; [apply ex_translated|]. split; [apply ex_labels|]. split; [apply ex_translated|].
  split; [apply ex_labels|]. split; [exact ex_available|]. split; [vm_compute; reflexivity|].
  intros (_ & _ & R). destruct ex_stale as [E E']. rewrite E, E' in R. discriminate R.
Qed.
Print Assumptions c35_stale_cache_refuted.

(** A tensor and an input whose name makes the same text: neither the same shape
    nor a collision. *)
Example c35_any_structure_applies :
  let c := TensorOf 0 column in let c' := Source "0x" in
  path_of no_hash c = Some (Some "0x"%string) /\ path_of no_hash c' = Some (Some "0x"%string) /\
  ambiguous no_hash c c'.
Proof.
  repeat split. exists (TensorOf 0 column), (Source "0x"), (1, ["0"; "x"]%string), (0, ["0x"]%string).
  repeat split; try constructor; try discriminate. reflexivity.
Qed.

(** The hypotheses are met: computations with the same structure, an attribute
    that differs, and the digest of 20 characters. *)
Example c35_applies :
  (forall s, String.length (toy_sha1 s) = 20) /\
  same_shape (unary "Square") (unary "Identity") /\
  path_of toy_sha1 (unary "Square") = path_of toy_sha1 (unary "Identity") /\
  path_of toy_sha1 (unary "Square") <>
    path_of toy_sha1 (TensorOf 0 (OpOf "Square" [("T"%string, Attr "0 1" false false)] [column])) /\
  path_of toy_sha1 (TensorOf 0 (OpOf "Add" int64_attrs [column; AnalyzerResult])) = Some None /\
  serialize_op_attr [("b"%string, Attr "2" false false); ("a"%string, Attr "1" false false)] =
    Some ["a"; "1"; "b"; "2"]%string /\
  serialize_op_attr [("f"%string, Attr "g" true false); ("Tin"%string, Attr "1" false false)] =
    Some ["Tin"; "1"]%string.
Proof.
  split; [exact toy_sha1_length|]. split; [repeat constructor|].
  split; [reflexivity|]. split; [vm_compute; discriminate|].
  repeat split; vm_compute; reflexivity.
Qed.

Example c35_entry_keys_applies :
  (forall ks ks', combine_class (Extract ks) = combine_class (Extract ks')) /\
  same_node_shape (fun _ => column) (fun _ => column) (combine_node "np.sum") (combine_node "np.max") /\
  exists key,
    has_entry_key (fun _ => true) combine_class combine_fields (tensor_paths toy_sha1 (fun _ => column)) toy_sha1 "v1"
      (combine_node "np.sum") key.
Proof.
  split; [reflexivity|]. split; [|eexists; apply combine_key].
  apply node_shape_op; try discriminate. constructor; [|constructor].
  apply node_shape_extract; repeat constructor.
Qed.
