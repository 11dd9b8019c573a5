(** Analyzers made of PTransforms of the user: tft.experimental.ptransform_analyzer, with a PTransform or with
    tft.experimental.CacheablePTransformAnalyzer, from the call to the analysis with and without cache. *)
From Coq Require Import String List Bool Arith Permutation.
Import ListNotations.

(** ** The call *)

Inductive outcome := Raises (* ValueError of the call *) | Fails (* ValueError when the analysis is built *) | Outputs (n : nat).

(** experimental/analyzers.py:273-302 and the number of tensors returned: nodes.py:159-161, one for each of
    [output_tensor_info_list].  All four operations of a cacheable analyzer are made with the same list (134-166),
    and analysis_graph_builder.py:183-195 [_validate_operation_def], with or without cache, refuses
    partitionable operations that have not one output.  Without outputs no tensor refers to the operations and they
    are not visited.  The lengths are those of [output_dtypes], [output_shapes] and [output_asset_default_values]. *)
Definition ptransform_analyzer (dtypes shapes : nat) (assets : option nat) (cacheable : bool) : outcome :=
  if negb (dtypes =? shapes) then Raises
  else if match assets with Some n => negb (n =? dtypes) | None => false end then Raises
  else if cacheable && (1 <? dtypes) then Fails
  else Outputs dtypes.

(** ** PTransforms *)

(** What a PTransform returns: a PCollection, a tuple of them, or tagged outputs, which have no length. *)
Inductive returned (B : Type) := Single (x : list B) | Tuple (xs : list (list B)) | Tagged (xs : list (list B)).
Arguments Single {B}. Arguments Tuple {B}. Arguments Tagged {B}.

(** beam/common.py:212-215, nodes.py:288-320 and the values bound to the tensors: the PCollection of each output of
    the operation, in order; [None] is an exception.  Of tagged outputs those beyond the last are dropped, and
    looking up one that is not there fails. *)
Definition visited {B : Type} (num_outputs : nat) (r : returned B) : option (list (list B)) :=
  match r with
  | Single x => if 1 =? num_outputs then Some [x] else None
  | Tuple xs => if List.length xs =? num_outputs then Some xs else None
  | Tagged xs => if num_outputs <=? List.length xs then Some (firstn num_outputs xs) else None
  end.
(** The value of a tensor is the only element of its PCollection (AsSingleton); otherwise the pipeline fails. *)
Definition the_element {B : Type} (x : list B) : option B := match x with [b] => Some b | _ => None end.
Fixpoint the_elements {B : Type} (xs : list (list B)) : option (list B) :=
  match xs with
  | [] => Some []
  | x :: xs' => match the_element x, the_elements xs' with Some b, Some bs => Some (b :: bs) | _, _ => None end
  end.
(** beam/analyzer_impls.py:1457-1459 for an analyzer that is not cacheable (experimental/analyzers.py:167-176): the
    PTransform is applied to all batches, whose order is any. *)
Definition run_plain {A B : Type} (ptransform : list A -> returned B) (num_outputs : nat) (batches : list A) (values : option (list B)) : Prop :=
  exists order, Permutation order batches /\
    values = match visited num_outputs (ptransform order) with Some xs => the_elements xs | None => None end.

(** A PTransform object with one output.  [address] is its identity in the process. *)
Record ptransform (A B : Type) := PTransform { class : string; ptransform_label : string; address : nat; apply : list A -> list B }.
Arguments PTransform {A B}. Arguments class {A B}. Arguments ptransform_label {A B}. Arguments address {A B}. Arguments apply {A B}.
(** repr of a PTransform: Beam gives its class, its label and its address, and not what it was made with.  The text
    is modelled by the three. *)
Definition repr {A B : Type} (p : ptransform A B) : string * string * nat := (class p, ptransform_label p, address p).

Section analyzers.
  (** Batches, accumulators, outputs, encoded accumulators. *)
  Context {batch acc out entry : Type}.
  (** The hashed path of the tensors that are analyzed (C35); the key of datasets. *)
  Context {source dataset : Type} (dataset_eqb : dataset -> dataset -> bool).

  (** analyzer_nodes.py:420-433; repr of a coder is its class. *)
  Record coder := Coder { coder_class : string; encode : acc -> entry; decode : entry -> acc }.
  (** experimental/analyzers.py:72-110 *)
  Record cacheable := Cacheable {
    make_accumulators : ptransform batch acc;
    merge_accumulators : ptransform acc acc;
    extract_output : ptransform acc out;
    cache_coder : coder }.

  (** What is hashed for the key of cache entries (analysis_graph_builder.py:233-261, 378-380; the types and shapes
      of the outputs are left out): the path of the inputs, the two operations with their fields, and
      the label of the second, which has the scope of the call. *)
  Record description := Description {
    d_label : string;
    d_source : source;
    d_make : string * string * nat;
    d_merge : string * string * nat;
    d_coder : string }.
  Context {key : Type} (key_eqb : key -> key -> bool) (hash : description -> key).

  (** An analysis with the analyzer.  [first_phase]: the inputs do not depend on other analyzers, otherwise there is
      no fine grained view (analysis_graph_builder.py:263-313, 422-458).  [with_cache]: the cache dict is not None. *)
  Record analysis := Analysis {
    analyzer : cacheable;
    label : string;
    inputs : source;
    first_phase : bool;
    with_cache : bool;
    datasets : list dataset;
    is_cached : dataset -> bool }.   (* DatasetKey.is_cached *)
  Definition describe (a : analysis) : description :=
    Description (label a) (inputs a) (repr (make_accumulators (analyzer a))) (repr (merge_accumulators (analyzer a)))
      (coder_class (cache_coder (analyzer a))).
  Definition entry_key (a : analysis) : key := hash (describe a).

  (** The cache: for dataset and key the elements of the PCollection of the entry. *)
  Definition cache := dataset -> key -> option (list entry).
  (** The batches of the tensors that are analyzed, in each dataset *)
  Context (batches : source -> dataset -> list batch).

  (** PCollections have no order: a stage is given the elements in any order. *)
  Definition stage {A B : Type} (p : ptransform A B) (x : list A) (y : list B) : Prop :=
    exists order, Permutation order x /\ y = apply p order.

  (** analysis_graph_builder.py:378-420: the accumulators of a dataset.  An entry is decoded; otherwise they are made
      and merged (local_merge_accumulators, 143-151 of experimental/analyzers.py). *)
  Definition local_merge (c : cache) (a : analysis) (d : dataset) (accs : list acc) : Prop :=
    match c d (entry_key a) with
    | Some entries => accs = map (decode (cache_coder (analyzer a))) entries
    | None => exists made, stage (make_accumulators (analyzer a)) (batches (inputs a) d) made /\
                           stage (merge_accumulators (analyzer a)) made accs
    end.
  (** ... of all datasets, in order (382-420) *)
  Fixpoint local_merges (c : cache) (a : analysis) (ds : list dataset) (accs : list (list acc)) : Prop :=
    match ds, accs with
    | [], [] => True
    | d :: ds', x :: accs' => local_merge c a d x /\ local_merges c a ds' accs'
    | _, _ => False
    end.
  (** analysis_graph_builder.py:398-418: what is encoded and added to the cache: what was computed for datasets that
      are to be cached.  The order of the elements of an entry is kept (merging makes one). *)
  Fixpoint written (c : cache) (a : analysis) (ds : list dataset) (accs : list (list acc)) : cache :=
    match ds, accs with
    | d :: ds', x :: accs' =>
        fun d' k' =>
          if dataset_eqb d d' && key_eqb (entry_key a) k' && is_cached a d && match c d (entry_key a) with None => true | Some _ => false end
          then Some (map (encode (cache_coder (analyzer a))) x) else written c a ds' accs' d' k'
    | _, _ => c
    end.

  (** Whether there is a fine grained view (analysis_graph_builder.py:275, 320-342, 428-445: with a cache dict and inputs
      of the first phase; without datasets it is empty, which counts as none) *)
  Definition fine_grained (a : analysis) : bool :=
    with_cache a && first_phase a && match datasets a with [] => false | _ :: _ => true end.

  (** A run: the PCollection of the output, and the cache afterwards (the entries it wrote, and those there were).
      Without a fine grained view all stages get the whole dataset (298-301, 344-346); otherwise the merged accumulators of the
      datasets are flattened (FlattenCache, 278-297), merged again and the output extracted. *)
  Definition run (c : cache) (a : analysis) (outs : list out) (c' : cache) : Prop :=
    exists accs merged,
      (if fine_grained a
       then exists parts, local_merges c a (datasets a) parts /\ accs = concat parts /\ c' = written c a (datasets a) parts
       else c' = c /\ exists made, stage (make_accumulators (analyzer a)) (flat_map (batches (inputs a)) (datasets a)) made /\
                                   stage (merge_accumulators (analyzer a)) made accs) /\
      stage (merge_accumulators (analyzer a)) accs merged /\
      stage (extract_output (analyzer a)) merged outs.

  (** Analyses one after another, each given the cache that the ones before left: the value of the output of each *)
  Fixpoint history (c : cache) (analyses : list analysis) (values : list (option out)) : Prop :=
    match analyses, values with
    | [], [] => True
    | a :: analyses', v :: values' => exists outs c', run c a outs c' /\ v = the_element outs /\ history c' analyses' values'
    | _, _ => False
    end.
  Definition no_cache : cache := fun _ _ => None.
End analyzers.
Arguments coder : clear implicits. Arguments cacheable : clear implicits. Arguments analysis : clear implicits.
Arguments description : clear implicits. Arguments cache : clear implicits.
