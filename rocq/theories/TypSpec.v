(** The data of features in batches, when it has a type, and which domain a column has. *)
From Coq Require Import String List ZArith.
From Verif Require Import TypModel.
Import ListNotations.

(** ** Data *)

(** A dense tensor by its shape, a sparse tensor by its dense shape, a ragged tensor by the lengths of the rows of each
    partition, from the outermost, and the shape of its innermost values. *)
Inductive data := Dense (shape : list nat) | Sparse_data (dense_shape : list nat) | Ragged_data (rows : list (list nat)) (inner : list nat).

(** A number is of a dimension. *)
Definition of_dim (n : nat) (d : dim) : Prop := d = None \/ d = Some n.
(** Data has a type (tf.TypeSpec.is_compatible_with): the kind, the type, the number of dimensions and the sizes that are
    given; for ragged tensors also the number of partitions. *)
Inductive has_type (t : dtype) : data -> type_spec -> Prop :=
  | dense_type : forall s ds, Forall2 of_dim s ds -> has_type t (Dense s) (TensorSpec ds t)
  | sparse_type : forall s ds, Forall2 of_dim s ds -> has_type t (Sparse_data s) (SparseTensorSpec ds t)
  | ragged_type : forall rows inner b ds ds',
      of_dim (List.length (hd [] rows)) b ->
      Forall2 (fun lengths d => Forall (fun n => of_dim n d) lengths) rows ds -> Forall2 of_dim inner ds' ->
      has_type t (Ragged_data rows inner) (RaggedTensorSpec (b :: ds ++ ds') t (List.length rows)).

(** What tf.io parses the partitions of a ragged feature to, from the innermost: rows of a uniform length are a
    dimension of the values if these are not ragged, and rows like others otherwise. *)
Inductive parsed_partitions : list partition -> list (list nat) -> list nat -> Prop :=
  | no_partition : parsed_partitions [] [] []
  | partition_rows : forall ps rows inner lengths, parsed_partitions ps rows inner -> parsed_partitions (Rows :: ps) (lengths :: rows) inner
  | partition_values : forall ps inner n, parsed_partitions ps [] inner -> parsed_partitions (Uniform n :: ps) [] (n :: inner)
  | partition_uniform : forall ps rows inner n k more, parsed_partitions ps (rows :: more) inner ->
      parsed_partitions (Uniform n :: ps) (repeat n k :: rows :: more) inner.
(** A size of a sparse feature is -1, which is any, or itself. *)
Definition of_size (n : nat) (z : Z) : Prop := z = (-1)%Z \/ z = Z.of_nat n.
(** What a batch of [n] examples is parsed to.  [sequence]: the feature is one of the feature lists of SequenceExamples. *)
Inductive parsed (sequence : bool) (n : nat) : feature_spec -> data -> Prop :=
  | parsed_fixed : forall s t, parsed sequence n (FixedLen s t) (Dense (n :: match s with Shape_list d | Shape_tuple d => d end))
  | parsed_varlen : forall t m, parsed sequence n (VarLen t) (Sparse_data [n; m])
  | parsed_sparse : forall v sizes dims t, Forall2 of_size dims sizes -> parsed sequence n (Sparse v (Size_list sizes) t) (Sparse_data (n :: dims))
  | parsed_sparse_int : forall v k t, parsed sequence n (Sparse v (Size_int k) t) (Sparse_data [n; k])
  | parsed_ragged : forall v ps t lengths steps rows inner,
      List.length lengths = n -> parsed_partitions ps rows inner -> (sequence = true -> exists l, steps = [l]) -> (sequence = false -> steps = []) ->
      parsed sequence n (Ragged v ps t) (Ragged_data (lengths :: steps ++ rows) inner).
(** Partitions of which those of uniform length come last. *)
Inductive uniform_last : list partition -> Prop :=
  | only_uniform : forall lengths, uniform_last (map Uniform lengths)
  | rows_first : forall ps, uniform_last ps -> uniform_last (Rows :: ps).
Definition type_of (f : feature_spec) : dtype :=
  match f with FixedLen _ t | VarLen t | Sparse _ _ t | Ragged _ _ t | Sequence_feature t => t end.

(** ** Placeholders *)

(** The types that are taken *)
Definition takes (t : dtype) : Prop := t = Int64 \/ t = Float32 \/ t = String.
(** The kinds that are taken by the first version: fixed length with a list for a shape, variable length, sparse *)
Definition plain (f : feature_spec) : Prop :=
  match f with FixedLen (Shape_list _) _ | VarLen _ | Sparse _ _ _ => True | _ => False end.
Definition of_type (t : type_spec) : dtype := match t with TensorSpec _ d | SparseTensorSpec _ d | RaggedTensorSpec _ d _ => d end.

(** ** Domains *)

(** The columns of a schema, with what is said of their domains. *)
Inductive column_of : list feature -> string -> domain_info -> Prop :=
  | column_here : forall fs n d, In (Leaf n d) fs -> column_of fs n d
  | column_in : forall fs s children n d, In (Struct s children) fs -> column_of children n d -> column_of fs n d.
Fixpoint columns (f : feature) : list string :=
  match f with Leaf n _ => [n] | Struct _ children => flat_map columns children end.
(** The domain that is meant *)
Inductive means (s : schema) : domain_info -> option string -> Prop :=
  | means_none : means s No_domain None
  | means_own : forall d, means s (Own_domain d) (Some d)
  | means_shared : forall n d, In (n, d) (string_domains s) -> means s (Domain n) (Some d)
  | means_missing : forall n, (forall d, ~ In (n, d) (string_domains s)) -> means s (Domain n) None.
(** The column that the values of a feature are in *)
Inductive values_in : string -> feature_spec -> string -> Prop :=
  | in_fixed : forall n s t, values_in n (FixedLen s t) n
  | in_varlen : forall n t, values_in n (VarLen t) n
  | in_sparse : forall n v s t, values_in n (Sparse v s t) v
  | in_ragged : forall n v ps t, values_in n (Ragged v ps t) v.
