(** * The schema of the outputs of a preprocessing function

    Models /repo/tensorflow_transform/schema_inference.py and the part of tf_metadata/schema_utils.py it calls. *)
From Coq Require Import String Ascii List ZArith Bool Arith DecimalString.
From Verif Require Import SortModel.
Import ListNotations.
Local Open Scope list_scope.

(** What a call may do. *)
Inductive result (A : Type) := Returned (a : A) | Raised.
Arguments Returned {A}. Arguments Raised {A}.
Definition bind {A B} (r : result A) (f : A -> result B) : result B :=
  match r with Returned a => f a | Raised => Raised end.
Fixpoint map_result {A B} (f : A -> result B) (l : list A) : result (list B) :=
  match l with
  | [] => Returned []
  | a :: l' => bind (f a) (fun b => bind (map_result f l') (fun bs => Returned (b :: bs)))
  end.

(** Python dicts: keys in insertion order. *)
Definition dict (V : Type) := list (string * V).
Definition dict_get {V} (d : dict V) (k : string) : option V :=
  option_map snd (find (fun kv => String.eqb (fst kv) k) d).
Fixpoint dict_set {V} (d : dict V) (k : string) (v : V) : dict V :=
  match d with
  | [] => [(k, v)]
  | (k', v') :: d' => if String.eqb k' k then (k', v) :: d' else (k', v') :: dict_set d' k v
  end.
(** The value and the dict without it; None is the KeyError. *)
Definition dict_pop {V} (d : dict V) (k : string) : option (V * dict V) :=
  match dict_get d k with
  | Some v => Some (v, filter (fun kv => negb (String.eqb (fst kv) k)) d)
  | None => None
  end.

Inductive dtype := String_type | Int64 | Float32 | Other_type.
Definition dtype_eqb (a b : dtype) : bool :=
  match a, b with
  | String_type, String_type | Int64, Int64 | Float32, Float32 | Other_type, Other_type => true
  | _, _ => false
  end.

(** A static shape: None if the rank is not known, None for each dimension that is not. *)
Definition static_shape := option (list (option nat)).

(** Outputs. Tensors are named by their graph, each with its own name. A sparse tensor has tensors of indices and
    of values; a ragged one flat values, and its values have a static shape. *)
Inductive output :=
| Dense (tensor : string) (d : dtype) (shape : static_shape)
| Sparse (indices values : string) (d : dtype) (shape : static_shape)
| Ragged (flat_values : string) (d : dtype) (values_shape : static_shape).

Definition output_dtype (o : output) : dtype :=
  match o with Dense _ d _ | Sparse _ _ d _ | Ragged _ d _ => d end.
(** schema_inference.py:161-167 (_get_tensor_values): the name of the tensor. *)
Definition get_tensor_values (o : output) : string :=
  match o with Dense t _ _ => t | Sparse _ v _ _ => v | Ragged f _ _ => f end.

(** ** Annotations made while tracing *)

(** The tensor argument of annotate (schema_inference.py:513-549): none, which makes a string constant whose name
    the graph makes unique; a tensor; a sparse tensor. *)
Inductive target :=
| To_schema (constant : string)
| To_tensor (tensor : string) (d : dtype)
| To_sparse (indices values : string).
Inductive call :=
| Set_tensor_schema_override (tensor : string) (d : dtype) (min_value max_value : string)
| Annotate (type_url proto_message : string) (t : target)
| Annotate_sparse_output_shape (indices values shape : string)
| Annotate_true_sparse_output (indices values : string).

(** The collections of a graph; members name tensors (the second component of an annotated tensor is its dtype). *)
Record graph := Graph {
  override_tensors : list string; override_mins : list string; override_maxs : list string;
  annotation_tensors : list target; annotation_type_urls : list string; annotation_protos : list string;
  shape_tensors : list string; shapes : list string; sparse_tensors : list string }.
Definition empty_graph : graph := Graph [] [] [] [] [] [] [] [] [].

(** schema_inference.py:446-473 (set_tensor_schema_override), 513-549 (annotate), 861-869
    (annotate_sparse_output_shape, annotate_true_sparse_output). Arguments that are not tensors are left out. *)
Definition make_call (g : graph) (c : call) : result graph :=
  match c with
  | Set_tensor_schema_override t d lo hi =>
      if dtype_eqb d Int64 then
        Returned (Graph (override_tensors g ++ [t]) (override_mins g ++ [lo]) (override_maxs g ++ [hi])
                        (annotation_tensors g) (annotation_type_urls g) (annotation_protos g)
                        (shape_tensors g) (shapes g) (sparse_tensors g))
      else Raised
  | Annotate u p t =>
      Returned (Graph (override_tensors g) (override_mins g) (override_maxs g)
                      (annotation_tensors g ++ [t]) (annotation_type_urls g ++ [u]) (annotation_protos g ++ [p])
                      (shape_tensors g) (shapes g) (sparse_tensors g))
  | Annotate_sparse_output_shape _ v s =>
      Returned (Graph (override_tensors g) (override_mins g) (override_maxs g)
                      (annotation_tensors g) (annotation_type_urls g) (annotation_protos g)
                      (shape_tensors g ++ [v]) (shapes g ++ [s]) (sparse_tensors g))
  | Annotate_true_sparse_output _ v =>
      Returned (Graph (override_tensors g) (override_mins g) (override_maxs g)
                      (annotation_tensors g) (annotation_type_urls g) (annotation_protos g)
                      (shape_tensors g) (shapes g) (sparse_tensors g ++ [v]))
  end.
Fixpoint trace_calls (g : graph) (calls : list call) : result graph :=
  match calls with
  | [] => Returned g
  | c :: calls' => bind (make_call g c) (fun g' => trace_calls g' calls')
  end.

(** The values of tensors that do not depend on the inputs, once analyzers are evaluated. *)
Record session := Session { run_int : string -> Z; run_bytes : string -> string; run_shape : string -> list Z }.

(** ** Feature specs and schemas *)
Inductive partition := Uniform_row_length (length : nat) | Row_lengths (key : string).
Inductive spec :=
| FixedLenFeature (shape : list (option nat)) (d : dtype)
| VarLenFeature (d : dtype)
| SparseFeature (index_key : list string) (value_key : string) (d : dtype) (size : list (option Z)) (already_sorted : bool)
| RaggedFeature (d : dtype) (value_key : string) (partitions : list partition).

Record int_domain := IntDomain { d_min : option Z; d_max : option Z; is_categorical : bool }.
Inductive feature_type := INT | FLOAT | BYTES.
(** A google.protobuf.Any. *)
Record any := Any { type_url : string; any_value : string }.
Record feature := Feature {
  f_name : string; f_type : feature_type; min_fraction_1 : bool; f_shape : option (list (option nat));
  f_domain : option int_domain; extra_metadata : list any }.
Record sparse_feature := Sparse_feature { s_name : string; is_sorted : bool; index_feature : list string; value_feature : string }.
Record ragged_representation := Ragged_representation { feature_path : string; r_partitions : list partition }.
Record schema := Schema {
  features : list feature; sparse_features : list sparse_feature;
  representations : dict ragged_representation; schema_metadata : list any }.

(** schema_inference.py:48-49 *)
Definition decimal (n : nat) : string := DecimalString.NilZero.string_of_uint (Nat.to_uint n).
Definition sparse_values_name (name : string) : string := (name ++ "$sparse_values")%string.
Definition sparse_indices_name (name : string) (i : nat) : string := (name ++ "$sparse_indices_" ++ decimal i)%string.

(** schema_inference.py:52-79 (_ragged_feature_spec_from_batched_tensor); row_splits_dtype is left out. *)
Fixpoint ragged_partitions (name : string) (idx : nat) (dims : list (option nat)) : list partition :=
  match dims with
  | [] => []
  | Some dim :: dims' => Uniform_row_length dim :: ragged_partitions name idx dims'
  | None :: dims' => Row_lengths (name ++ "$row_lengths_" ++ decimal idx) :: ragged_partitions name (S idx) dims'
  end.
Definition ragged_feature_spec_from_batched_tensor (name : string) (d : dtype) (values_shape : static_shape) : result spec :=
  match values_shape with
  | None => Raised
  | Some dims => Returned (RaggedFeature d (name ++ "$ragged_values") (ragged_partitions name 1 (tl dims)))
  end.

(** schema_inference.py:82-158 (_feature_spec_from_batched_tensors), for one tensor *)
Definition feature_spec_from_batched_tensor (is_evaluation_complete : bool) (forced_sparse_keys : list string)
    (name : string) (o : output) : result spec :=
  match output_dtype o with
  | Other_type => Raised
  | d =>
      match o with
      | Sparse _ _ _ None => Raised
      | Sparse _ _ _ (Some shape) =>
          if (2 <? length shape) || existsb (String.eqb name) forced_sparse_keys then
            Returned (SparseFeature (map (sparse_indices_name name) (seq 0 (length shape - 1))) (sparse_values_name name) d
                                    (map (option_map Z.of_nat) (tl shape)) true)
          else Returned (VarLenFeature d)
      | Dense _ _ None | Dense _ _ (Some []) => Raised
      | Dense _ _ (Some (_ :: dims)) =>
          if is_evaluation_complete && existsb (fun dim => match dim with None => true | Some _ => false end) dims then Raised
          else Returned (FixedLenFeature dims d)
      | Ragged _ _ values_shape => ragged_feature_spec_from_batched_tensor name d values_shape
      end
  end.

(** What is known of a sparse output: its shape, or that it is one. *)
Inductive sparse_annotation := Annotated_shape (shape : list Z) | Annotated_sparse.

(** schema_inference.py:306-341 (_override_sparse_feature_annotated_shapes), for one annotation. tf.TensorShape
    does not take negative sizes. *)
Definition override_sparse_feature_annotated_shape (feature_spec : dict spec) (annotation : string * sparse_annotation) : result (dict spec) :=
  let (k, a) := annotation in
  match dict_get feature_spec k with
  | None => Raised
  | Some (SparseFeature index_key value_key d _ already_sorted) =>
      match a with
      | Annotated_sparse => Returned feature_spec
      | Annotated_shape size =>
          if existsb (fun s => (s <? 0)%Z) size then Raised
          else Returned (dict_set feature_spec k (SparseFeature index_key value_key d (map Some size) already_sorted))
      end
  | Some _ => Returned feature_spec
  end.
Fixpoint override_sparse_feature_annotated_shapes (feature_spec : dict spec) (annotations : dict sparse_annotation) : result (dict spec) :=
  match annotations with
  | [] => Returned feature_spec
  | a :: annotations' => bind (override_sparse_feature_annotated_shape feature_spec a)
                              (fun fs => override_sparse_feature_annotated_shapes fs annotations')
  end.

(** schema_utils.py:243-252 (_set_type) *)
Definition set_type (d : dtype) : result feature_type :=
  match d with Int64 => Returned INT | Float32 => Returned FLOAT | String_type => Returned BYTES | Other_type => Raised end.

(** schema_utils.py:166-211 (_sparse_feature_from_feature_spec), with lists of keys and sizes *)
Definition sparse_feature_from_feature_spec (index_key : list string) (value_key : string) (d : dtype) (size : list (option Z))
    (already_sorted : bool) (name : string) (domain : option int_domain) : result (list feature * feature * sparse_feature) :=
  if length index_key =? length size then
    let spec_size := map (fun s => match s with Some z => if (z =? -1)%Z then None else Some z | None => None end) size in
    let int_domains := map (option_map (fun s => IntDomain (Some 0%Z) (Some (s - 1)%Z) false)) spec_size in
    let index_features := map (fun kd => Feature (fst kd) INT false None (snd kd) []) (combine index_key int_domains) in
    bind (set_type d) (fun t =>
      Returned (index_features, Feature value_key t false None domain [], Sparse_feature name already_sorted index_key value_key))
  else Raised.

(** schema_utils.py:98-163 (_ragged_tensor_representation_from_feature_spec) *)
Definition ragged_tensor_representation_from_feature_spec (d : dtype) (value_key : string) (partitions : list partition)
    (domain : option int_domain) : result (feature * list feature * ragged_representation) :=
  bind (set_type d) (fun t =>
    Returned (Feature value_key t false None domain [],
              flat_map (fun p => match p with Row_lengths key => [Feature key INT false None None []] | Uniform_row_length _ => [] end) partitions,
              Ragged_representation value_key partitions)).

(** schema_utils.py:214-240 (_feature_from_feature_spec) *)
Definition feature_from_feature_spec (s : spec) (name : string) (domain : option int_domain) : result feature :=
  match s with
  | FixedLenFeature shape d => bind (set_type d) (fun t => Returned (Feature name t true (Some shape) domain []))
  | VarLenFeature d => bind (set_type d) (fun t => Returned (Feature name t false None domain []))
  | _ => Raised
  end.

(** schema_utils.py:32-95 (schema_from_feature_spec) *)
Definition add_spec (domains : dict int_domain) (s : schema) (item : string * spec) : result schema :=
  let (name, sp) := item in
  match sp with
  | SparseFeature index_key value_key d size already_sorted =>
      bind (sparse_feature_from_feature_spec index_key value_key d size already_sorted name (dict_get domains name)) (fun r =>
        let '(index_features, value_feature, sparse_feature) := r in
        Returned (Schema (features s ++ index_features ++ [value_feature]) (sparse_features s ++ [sparse_feature])
                         (representations s) (schema_metadata s)))
  | RaggedFeature d value_key partitions =>
      bind (ragged_tensor_representation_from_feature_spec d value_key partitions (dict_get domains name)) (fun r =>
        let '(value_feature, partitions_features, representation) := r in
        Returned (Schema (features s ++ value_feature :: partitions_features) (sparse_features s)
                         (dict_set (representations s) name representation) (schema_metadata s)))
  | _ =>
      bind (feature_from_feature_spec sp name (dict_get domains name)) (fun f =>
        Returned (Schema (features s ++ [f]) (sparse_features s) (representations s) (schema_metadata s)))
  end.
Fixpoint add_specs (domains : dict int_domain) (s : schema) (items : list (string * spec)) : result schema :=
  match items with
  | [] => Returned s
  | item :: items' => bind (add_spec domains s item) (fun s' => add_specs domains s' items')
  end.
Definition name_leb {V} (a b : string * V) : bool := String.leb (fst a) (fst b).
Definition schema_from_feature_spec (feature_spec : dict spec) (domains : dict int_domain) : result schema :=
  add_specs domains (Schema [] [] [] []) (py_sorted name_leb feature_spec).

(** ** From annotations to the schema *)

(** schema_inference.py:396-403: positions in the list of features stand for references to its protos. *)
Fixpoint feature_protos (i : nat) (fs : list feature) (d : dict nat) : dict nat :=
  match fs with [] => d | f :: fs' => feature_protos (S i) fs' (dict_set d (f_name f) i) end.
Fixpoint pop_all (d : dict nat) (keys : list string) : result (dict nat) :=
  match keys with
  | [] => Returned d
  | k :: keys' => match dict_pop d k with Some (_, d') => pop_all d' keys' | None => Raised end
  end.
Fixpoint pop_sparse (d : dict nat) (sfs : list sparse_feature) : result (dict nat) :=
  match sfs with
  | [] => Returned d
  | sf :: sfs' =>
      bind (pop_all d (index_feature sf)) (fun d1 =>
        match dict_pop d1 (value_feature sf) with
        | Some (v, d2) => pop_sparse (dict_set d2 (s_name sf) v) sfs'
        | None => Raised
        end)
  end.

(** schema_utils.py:462-516 (pop_ragged_source_columns). The check of the types of row lengths is left out: they
    are features made just before. *)
Definition row_length_keys (partitions : list partition) : list string :=
  flat_map (fun p => match p with Row_lengths key => [key] | Uniform_row_length _ => [] end) partitions.
Definition pop_ragged_source_columns (r : ragged_representation) (d : dict nat) : result (nat * dict nat) :=
  match dict_pop d (feature_path r) with
  | Some (v, d1) => bind (pop_all d1 (row_length_keys (r_partitions r))) (fun d2 => Returned (v, d2))
  | None => Raised
  end.
(** schema_inference.py:406-415 *)
Fixpoint pop_ragged (d : dict nat) (rs : dict ragged_representation) : result (dict nat) :=
  match rs with
  | [] => Returned d
  | (name, r) :: rs' => bind (pop_ragged_source_columns r d) (fun vd => pop_ragged (dict_set (snd vd) name (fst vd)) rs')
  end.

Fixpoint annotate_at (i : nat) (annotations : list any) (fs : list feature) : list feature :=
  match fs, i with
  | [], _ => []
  | f :: fs', 0 => Feature (f_name f) (f_type f) (min_fraction_1 f) (f_shape f) (f_domain f) (extra_metadata f ++ annotations) :: fs'
  | f :: fs', S i' => f :: annotate_at i' annotations fs'
  end.
(** schema_inference.py:417-421 *)
Fixpoint add_annotations (by_name : dict nat) (fs : list feature) (annotations : dict (list any)) : result (list feature) :=
  match annotations with
  | [] => Returned fs
  | (name, l) :: annotations' =>
      match dict_get by_name name with
      | Some i => add_annotations by_name (annotate_at i l fs) annotations'
      | None => Raised
      end
  end.

(** schema_inference.py:344-426 (_infer_feature_schema_common) *)
Fixpoint domains_of (outputs : dict output) (tensor_ranges : dict (option Z * option Z)) : dict int_domain :=
  match outputs with
  | [] => []
  | (name, _) :: outputs' =>
      match dict_get tensor_ranges name with
      | Some (lo, hi) => (name, IntDomain lo hi true) :: domains_of outputs' tensor_ranges
      | None => domains_of outputs' tensor_ranges
      end
  end.
Definition infer_feature_schema_common (outputs : dict output) (tensor_ranges : dict (option Z * option Z))
    (feature_annotations : dict (list any)) (global_annotations : list any) (sparse_output_annotations : dict sparse_annotation)
    (is_evaluation_complete : bool) : result schema :=
  let domains := domains_of outputs tensor_ranges in
  bind (map_result (fun no => bind (feature_spec_from_batched_tensor is_evaluation_complete (map fst sparse_output_annotations) (fst no) (snd no))
                                   (fun sp => Returned (fst no, sp))) outputs) (fun feature_spec =>
  bind (override_sparse_feature_annotated_shapes feature_spec sparse_output_annotations) (fun feature_spec =>
  bind (schema_from_feature_spec feature_spec domains) (fun s =>
  bind (pop_sparse (feature_protos 0 (features s) []) (sparse_features s)) (fun by_name =>
  bind (pop_ragged by_name (representations s)) (fun by_name =>
  bind (add_annotations by_name (features s) feature_annotations) (fun fs =>
  Returned (Schema fs (sparse_features s) (representations s) (schema_metadata s ++ global_annotations)))))))).

(** *** TensorFlow 1 *)
(** The hashable reference of a tensor or sparse tensor (tf_utils.py:545-569, hashable_tensor_or_op), or the name
    of the sentinel (schema_inference.py:443). *)
Inductive ref := Sentinel | Tensor_ref (name : string) | Composite_ref (indices values : string).
Definition ref_eqb (a b : ref) : bool :=
  match a, b with
  | Sentinel, Sentinel => true
  | Tensor_ref x, Tensor_ref y => String.eqb x y
  | Composite_ref i v, Composite_ref j w => String.eqb i j && String.eqb v w
  | _, _ => false
  end.
Definition global_sentinel : string := "tft_schema_override_global_sentinel".
(** name.split("/")[-1] *)
Fixpoint last_component (acc s : string) : string :=
  match s with
  | EmptyString => acc
  | String c s' => if Ascii.eqb c "/" then last_component "" s' else last_component (acc ++ String c "") s'
  end.
Definition named_like_sentinel (name : string) : bool := String.prefix global_sentinel (last_component "" name).

(** schema_inference.py:476-485 (_get_tensor_ranges): dict(zip(...)), later entries win *)
Definition get_tensor_ranges (g : graph) : list (string * (string * string)) :=
  fold_left (fun d kv => dict_set d (fst kv) (snd kv))
            (combine (override_tensors g) (combine (override_mins g) (override_maxs g))) [].

(** The name of a tensor or sparse tensor: that of the values for the latter. *)
Definition target_name (t : target) : string :=
  match t with To_schema c => c | To_tensor n _ => n | To_sparse _ v => v end.
Definition target_ref (t : target) : ref :=
  match t with To_schema c => Tensor_ref c | To_tensor n _ => Tensor_ref n | To_sparse i v => Composite_ref i v end.
(** schema_inference.py:552-590 (_get_schema_annotations) *)
Definition annotation_key (t : target) : ref :=
  if named_like_sentinel (target_name t) then Sentinel else target_ref t.
(** schema_inference.py:627-668 (_get_schema_annotations_common): those of a key, and the global ones. *)
Definition annotations_of {K} (eqb : K -> K -> bool) (keys : list K) (anys : list any) (k : K) : list any :=
  map snd (filter (fun ka => eqb (fst ka) k) (combine keys anys)).
Definition anys (ses : session) (type_urls protos : list string) : list any :=
  map (fun up => Any (run_bytes ses (fst up)) (run_bytes ses (snd up))) (combine type_urls protos).

(** schema_inference.py:872-903: those that are only sparse first, then the shapes. *)
Definition get_sparse_output_annotations (ses : session) (g : graph) : list (string * sparse_annotation) :=
  map (fun t => (t, Annotated_sparse)) (filter (fun t => negb (existsb (String.eqb t) (shape_tensors g))) (sparse_tensors g))
  ++ map (fun ts => (fst ts, Annotated_shape (run_shape ses (snd ts)))) (combine (shape_tensors g) (shapes g)).
Definition to_dict {V} (l : list (string * V)) : dict V := fold_left (fun d kv => dict_set d (fst kv) (snd kv)) l [].

(** schema_inference.py:170-238 (infer_feature_schema) *)
Definition infer_feature_schema (outputs : dict output) (g : graph) (ses : option session) : result schema :=
  let ranges := get_tensor_ranges g in
  let range kv := match ses with
                  | Some s => (Some (run_int s (fst kv)), Some (run_int s (snd kv)))
                  | None => (None, None)
                  end in
  let tensor_annotations k := match ses with
                              | Some s => annotations_of ref_eqb (map annotation_key (annotation_tensors g))
                                                         (anys s (annotation_type_urls g) (annotation_protos g)) k
                              | None => []
                              end in
  let sparse_output_annotations := match ses with Some s => to_dict (get_sparse_output_annotations s g) | None => [] end in
  let asserted := forallb (fun no => match dict_get ranges (get_tensor_values (snd no)) with
                                     | Some _ => dtype_eqb (output_dtype (snd no)) Int64
                                     | None => true
                                     end) outputs in
  if asserted then
    infer_feature_schema_common outputs
      (flat_map (fun no => match dict_get ranges (get_tensor_values (snd no)) with
                           | Some kv => [(fst no, range kv)]
                           | None => []
                           end) outputs)
      (map (fun no => (fst no, tensor_annotations (Tensor_ref (get_tensor_values (snd no))))) outputs)
      (tensor_annotations Sentinel)
      (flat_map (fun no => match dict_get sparse_output_annotations (get_tensor_values (snd no)) with
                           | Some a => [(fst no, a)]
                           | None => []
                           end) outputs)
      (match ses with Some _ => true | None => false end)
  else Raised.

(** *** TensorFlow 2 *)
(** schema_inference.py:671-677 (_get_tensor_value_to_key_map) *)
Definition get_tensor_value_to_key_map (outputs : dict output) : dict string :=
  to_dict (map (fun no => (get_tensor_values (snd no), fst no)) outputs).
(** schema_inference.py:680-743 (_get_schema_overrides): the feature a tensor is known as. *)
Definition override_key (keys : dict string) (default : bool) (t : target) : option string :=
  match dict_get keys (target_name t) with
  | Some k => Some k
  | None => if default && match t with
                          | To_schema _ | To_tensor _ String_type => named_like_sentinel (target_name t)
                          | _ => false
                          end
            then Some global_sentinel else None
  end.
Definition get_schema_overrides {V} (keys : dict string) (default : bool) (tensors : list target) (overrides : list V) : list (string * V) :=
  flat_map (fun tv => match override_key keys default (fst tv) with Some k => [(k, snd tv)] | None => [] end) (combine tensors overrides).

(** The distinct keys of a defaultdict, by first use. *)
Fixpoint distinct (seen : list string) (l : list string) : list string :=
  match l with
  | [] => []
  | k :: l' => if existsb (String.eqb k) seen then distinct seen l' else k :: distinct (k :: seen) l'
  end.

(** schema_inference.py:746-853 (get_traced_metadata_fn), 241-303 (infer_feature_schema_v2). The preprocessing
    function is traced again for the metadata: it is taken to make the same calls and tensors. *)
Definition infer_feature_schema_v2 (outputs : dict output) (g : graph) (ses : session) (evaluate_schema_overrides : bool) : result schema :=
  let keys := get_tensor_value_to_key_map outputs in
  let override_targets := map (fun t => To_tensor t Int64) (override_tensors g) in
  if evaluate_schema_overrides then
    let tensor_ranges := to_dict (map (fun kv => (fst kv, (Some (run_int ses (fst (snd kv))), Some (run_int ses (snd (snd kv))))))
                                      (get_schema_overrides keys false override_targets (combine (override_mins g) (override_maxs g)))) in
    let annotations := get_schema_overrides keys true (annotation_tensors g)
                                            (anys ses (annotation_type_urls g) (annotation_protos g)) in
    let of_key k := map snd (filter (fun ka => String.eqb (fst ka) k) annotations) in
    let feature_keys := filter (fun k => negb (String.eqb k global_sentinel)) (distinct [] (map fst annotations)) in
    let sparse_output_annotations :=
      to_dict (flat_map (fun ta => match dict_get keys (fst ta) with Some k => [(k, snd ta)] | None => [] end)
                        (get_sparse_output_annotations ses g)) in
    infer_feature_schema_common outputs tensor_ranges (map (fun k => (k, of_key k)) feature_keys) (of_key global_sentinel)
                                sparse_output_annotations true
  else
    let tensor_ranges := to_dict (map (fun kv => (fst kv, (None, None))) (get_schema_overrides keys false override_targets (override_tensors g))) in
    infer_feature_schema_common outputs tensor_ranges [] [] [] false.
