(** Types of the tensors of features (impl_helper.py:61-169, 264-342) and domains of the features of schemas of
    SequenceExamples (tf_metadata/schema_utils.py:370-450). *)
From Coq Require Import String List Bool Arith ZArith.
Import ListNotations.

(** ** Feature specs *)

Inductive dtype := Int64 | Float32 | String | Other_dtype (name : string).
(** A python list, or a tuple, of sizes *)
Inductive shape := Shape_list (dims : list nat) | Shape_tuple (dims : list nat).
(** SparseFeature.size: a list (of which -1 is unknown), or an int *)
Inductive size := Size_list (dims : list Z) | Size_int (n : nat).
(** Partitions of a RaggedFeature: RowLengths, RowSplits and the like, or UniformRowLength *)
Inductive partition := Rows | Uniform (length : nat).
Inductive feature_spec :=
  | FixedLen (s : shape) (t : dtype)
  | VarLen (t : dtype)
  | Sparse (value_key : string) (s : size) (t : dtype)
  | Ragged (value_key : string) (partitions : list partition) (t : dtype)
  | Sequence_feature (t : dtype).   (* any other kind, such as FixedLenSequenceFeature *)

(** ** Type specs *)

(** A dimension of a TensorShape: None or a number *)
Definition dim := option nat.
Inductive type_spec :=
  | TensorSpec (s : list dim) (t : dtype)
  | SparseTensorSpec (s : list dim) (t : dtype)
  | RaggedTensorSpec (s : list dim) (t : dtype) (ragged_rank : nat).
Inductive error := ValueError | TypeError.
Inductive result (A : Type) := Ok (x : A) | Err (e : error).
Arguments Ok {A}. Arguments Err {A}.

Definition dims_of (s : shape) : list nat := match s with Shape_list d | Shape_tuple d => d end.
(** None if dim == -1 else dim; the other negative sizes are not modelled *)
Definition known (n : Z) : dim := if (n =? -1)%Z then None else Some (Z.to_nat n).
(** impl_helper.py:305-313 *)
Definition partition_dim (p : partition) : dim := match p with Uniform n => Some n | Rows => None end.
Definition partition_rank (p : partition) : nat := match p with Uniform _ => 0 | Rows => 1 end.
(** impl_helper.py:286-322, for one feature.  An int cannot be iterated over; the row splits dtype is left out. *)
Definition type_spec_of (ragged_sequence_features : list string) (name : string) (spec : feature_spec) : result type_spec :=
  match spec with
  | FixedLen s t => Ok (TensorSpec (None :: map Some (dims_of s)) t)
  | VarLen t => Ok (SparseTensorSpec [None; None] t)
  | Sparse _ (Size_list dims) t => Ok (SparseTensorSpec (None :: map known dims) t)
  | Sparse _ (Size_int _) _ => Err TypeError
  | Ragged _ partitions t =>
      let sequence := existsb (String.eqb name) ragged_sequence_features in
      Ok (RaggedTensorSpec ([None; None] ++ (if sequence then [None] else []) ++ map partition_dim partitions) t
            (1 + (if sequence then 1 else 0) + fold_right (fun p n => partition_rank p + n) 0 partitions))
  | Sequence_feature _ => Err ValueError
  end.

(** ** Placeholders *)

(** impl_helper.py:144-169: the type of the placeholder of a feature; [None] + (2, 3) is a TypeError, and
    tf.compat.v1.sparse_placeholder takes -1 for unknown. *)
Definition placeholder_of (spec : feature_spec) : result type_spec :=
  match spec with
  | FixedLen (Shape_list dims) t => Ok (TensorSpec (None :: map Some dims) t)
  | FixedLen (Shape_tuple _) _ => Err TypeError
  | VarLen t => Ok (SparseTensorSpec [None; None] t)
  | Sparse _ (Size_list dims) t => Ok (SparseTensorSpec (None :: map known dims) t)
  | Sparse _ (Size_int n) t => Ok (SparseTensorSpec [None; Some n] t)
  | Ragged _ _ _ | Sequence_feature _ => Err ValueError
  end.
(** impl_helper.py:124-141: the placeholder has the type itself *)
Definition placeholder_of_type (t : type_spec) : result type_spec := Ok t.

Inductive spec := Feature (f : feature_spec) | Type_spec (t : type_spec).
(** impl_helper.py:105-114 *)
Definition is_feature_spec (s : spec) : bool := match s with Feature (Sequence_feature _) => false | Feature _ => true | Type_spec _ => false end.
Definition is_type_spec (s : spec) : bool := match s with Type_spec _ => true | Feature _ => false end.
Definition dtype_of (s : spec) : dtype :=
  match s with
  | Feature (FixedLen _ t) | Feature (VarLen t) | Feature (Sparse _ _ t) | Feature (Ragged _ _ t) | Feature (Sequence_feature t) => t
  | Type_spec (TensorSpec _ t) | Type_spec (SparseTensorSpec _ t) | Type_spec (RaggedTensorSpec _ t _) => t
  end.
Definition supported (t : dtype) : bool := match t with Int64 | Float32 | String => true | Other_dtype _ => false end.
(** impl_helper.py:86-100, for one feature *)
Definition placeholder (s : spec) : result type_spec :=
  if supported (dtype_of s) then match s with Feature f => placeholder_of f | Type_spec t => placeholder_of_type t end
  else Err ValueError.
(** The dict comprehension, which stops at the first exception *)
Fixpoint each {A B : Type} (f : string -> A -> result B) (d : list (string * A)) : result (list (string * B)) :=
  match d with
  | [] => Ok []
  | (k, x) :: d' =>
      match f k x with
      | Err e => Err e
      | Ok y => match each f d' with Ok ys => Ok ((k, y) :: ys) | Err e => Err e end
      end
  end.
(** impl_helper.py:61-102 *)
Definition batched_placeholders_from_specs (specs : list (string * spec)) : result (list (string * type_spec)) :=
  if forallb (fun e => is_feature_spec (snd e)) specs || forallb (fun e => is_type_spec (snd e)) specs
  then each (fun _ => placeholder) specs
  else Err TypeError.
(** impl_helper.py:264-323 *)
Definition get_type_specs_from_feature_specs (specs : list (string * feature_spec)) (ragged_sequence_features : list string) : result (list (string * type_spec)) :=
  each (type_spec_of ragged_sequence_features) specs.

(** ** Schemas of SequenceExamples *)

Inductive domain_info := No_domain | Domain (name : string) | Own_domain (d : string).   (* int_domain, float_domain, ... *)
Inductive feature := Leaf (name : string) (d : domain_info) | Struct (name : string) (children : list feature).
Record schema := Schema { features : list feature; string_domains : list (string * string) }.

(** d[k] = v *)
Fixpoint set {V : Type} (d : list (string * V)) (k : string) (v : V) : list (string * V) :=
  match d with
  | [] => [(k, v)]
  | (k', v') :: d' => if String.eqb k k' then (k, v) :: d' else (k', v') :: set d' k v
  end.
Fixpoint get {V : Type} (d : list (string * V)) (k : string) : option V :=
  match d with [] => None | (k', v) :: d' => if String.eqb k k' then Some v else get d' k end.
(** d.update(other), and {**d, **other} *)
Definition update {V : Type} (d other : list (string * V)) : list (string * V) := fold_left (fun d e => set d (fst e) (snd e)) other d.

(** schema_utils.py:438-441 *)
Definition get_string_domains (s : schema) : list (string * string) := update [] (string_domains s).
(** schema_utils.py:444-459 *)
Definition get_domain (sd : list (string * string)) (d : domain_info) : option string :=
  match d with No_domain => None | Domain n => get sd n | Own_domain x => Some x end.
(** schema_utils.py:419-435 *)
Fixpoint source_domains (sd : list (string * string)) (f : feature) : list (string * string) :=
  match f with
  | Struct _ children =>
      (fix all (fs : list feature) (result : list (string * string)) : list (string * string) :=
         match fs with [] => result | f' :: fs' => all fs' (update result (source_domains sd f')) end) children []
  | Leaf n d => match get_domain sd d with Some x => [(n, x)] | None => [] end
  end.
Definition get_source_feature_domains (sd : list (string * string)) (fs : list feature) : list (string * string) :=
  fold_left (fun result f => update result (source_domains sd f)) fs [].
(** schema_utils.py:401-416; the specs of context and sequence features are made by tfx_bsl. *)
Definition source_feature_name (name : string) (s : feature_spec) : option string :=
  match s with FixedLen _ _ | VarLen _ => Some name | Sparse v _ _ | Ragged v _ _ => Some v | Sequence_feature _ => None end.
Definition sequence_schema_as_feature_spec (s : schema) (context sequence : list (string * feature_spec))
    : result (list (string * feature_spec) * list (string * string)) :=
  let specs := update context sequence in
  let by_name := get_source_feature_domains (get_string_domains s) (features s) in
  match each (fun name sp => match source_feature_name name sp with Some n => Ok (get by_name n) | None => Err ValueError end) specs with
  | Err e => Err e
  | Ok ds => Ok (specs, flat_map (fun e => match snd e with Some d => [(fst e, d)] | None => [] end) ds)
  end.
(** impl_helper.py:333-342: the names of sequence columns, and the types of outputs to be written *)
Definition child_names (f : feature) : list string :=
  match f with Struct _ children => map (fun c => match c with Leaf n _ | Struct n _ => n end) children | Leaf _ _ => [] end.
Definition converter_types (s : schema) (specs : list (string * feature_spec)) : result (list (string * type_spec)) :=
  get_type_specs_from_feature_specs specs (flat_map child_names (features s)).
