(** * Feature specs and schemas: tft.DatasetMetadata.from_feature_spec and back

    Models /repo/tensorflow_transform/tf_metadata/schema_utils.py and dataset_metadata.py. *)
From Coq Require Import String List ZArith Bool Arith.
From Verif Require Import SortModel SchemaModel.
Import ListNotations.
Local Open Scope list_scope.

(** IntDomain, FloatDomain and StringDomain protos; numbers of float domains are their texts. Anything else
    is not a domain. *)
Inductive domain :=
| Int_domain (min max : option Z) (is_categorical : bool)
| Float_domain (min max : option string)
| String_domain (name : option string) (values : list string)
| Other_domain (what : string).

(** Values of tf.io.SparseFeature's arguments: one key and size, or lists. *)
Inductive keys := One_key (k : string) | Key_list (l : list string).
Inductive sizes := One_size (z : Z) | Size_list (l : list (option Z)).
Inductive ragged_partition := By_row_lengths (key : string) | By_uniform_length (n : Z) | By_something_else.

(** A default value: one value, or a list; values are texts. *)
Inductive default := Value (v : string) | Values (l : list string).
(** tf.io.FixedLenFeature, VarLenFeature, SparseFeature, RaggedFeature, and other classes.  The sizes of a
    shape are integers. *)
Inductive fspec :=
| Fixed_len (shape : list Z) (d : dtype) (default_value : option default)
| Var_len (d : dtype)
| Sparse_spec (index_key : keys) (value_key : string) (d : dtype) (size : sizes) (already_sorted : bool)
| Ragged_spec (d : dtype) (value_key : option string) (partitions : list ragged_partition) (row_splits_dtype : dtype) (validate : bool)
| Other_spec (d : dtype).

(** schema_pb2.Feature.  The domain is a domain or the name of one of the schema's. *)
Inductive proto_type := T_INT | T_FLOAT | T_BYTES | T_STRUCT | T_UNKNOWN.
Inductive domain_info := Own (d : domain) | Named (name : string).
Record proto_feature := PF {
  p_name : string; p_type : proto_type;
  p_always : bool;                      (* presence.min_fraction == 1 *)
  p_shape : option (list Z); p_domain : option domain_info;
  p_deprecated : bool;                  (* a lifecycle_stage that hides the feature *)
  p_annotations : list string }.
Record proto_sparse := PS { ps_name : string; ps_sorted : bool; ps_index : list string; ps_value : string }.
(** The tensor representations of the group "": ragged tensors, and dense ones of the column of their name. *)
Inductive proto_partition := P_row_length (key : string) | P_uniform_row_length (n : Z).
Inductive proto_representation :=
| PR_ragged (feature_path : string) (partitions : list proto_partition)
| PR_dense (shape : list Z) (default_value : option (list string)).
Record proto_schema := PSchema {
  ps_features : list proto_feature; ps_sparse : list proto_sparse; ps_representations : dict proto_representation;
  ps_string_domains : list (string * domain); ps_annotations : list string }.

(** ** From feature specs *)

(** schema_utils.py:243-252 *)
Definition set_proto_type (d : dtype) : result proto_type :=
  match d with Int64 => Returned T_INT | Float32 => Returned T_FLOAT | String_type => Returned T_BYTES | Other_type => Raised end.
(** schema_utils.py:255-267 *)
Definition set_domain (d : option domain) : result (option domain_info) :=
  match d with None => Returned None | Some (Other_domain _) => Raised | Some d => Returned (Some (Own d)) end.
Definition make_feature (name : string) (d : dtype) (always : bool) (shape : option (list Z)) (dom : option domain) : result proto_feature :=
  bind (set_proto_type d) (fun t => bind (set_domain dom) (fun i => Returned (PF name t always shape i false []))).

Definition index_proto (key : string) (size : option Z) : proto_feature :=
  PF key T_INT false None (option_map (fun s => Own (Int_domain (Some 0%Z) (Some (s - 1)%Z) false)) size) false [].
(** schema_utils.py:166-211; a size of another kind than the keys is a failed assertion or a TypeError. *)
Definition sparse_from_spec (index_key : keys) (value_key : string) (d : dtype) (size : sizes) (already_sorted : bool)
    (name : string) (dom : option domain) : result (list proto_feature * proto_feature * proto_sparse) :=
  bind (match index_key, size with
        | Key_list ks, Size_list zs =>
            if length ks =? length zs then
              let spec_size := map (fun s => match s with Some z => if (z =? -1)%Z then None else Some z | None => None end) zs in
              Returned (map (fun kd => index_proto (fst kd) (snd kd)) (combine ks spec_size), ks)
            else Raised
        | One_key k, One_size z => Returned ([index_proto k (Some z)], [k])
        | _, _ => Raised
        end) (fun ir =>
  bind (make_feature value_key d false None dom) (fun v =>
  Returned (fst ir, v, PS name already_sorted (snd ir) value_key))).

(** schema_utils.py:98-163 *)
Definition key_or_name (value_key : option string) (name : string) : string :=
  match value_key with Some k => if String.eqb k "" then name else k | None => name end.
Definition partition_proto (p : ragged_partition) : result proto_partition :=
  match p with
  | By_uniform_length n => Returned (P_uniform_row_length n)
  | By_row_lengths key => Returned (P_row_length key)
  | By_something_else => Raised
  end.
Definition partition_features (ps : list proto_partition) : list proto_feature :=
  flat_map (fun p => match p with P_row_length key => [PF key T_INT false None None false []] | P_uniform_row_length _ => [] end) ps.
Definition ragged_from_spec (d : dtype) (value_key : option string) (partitions : list ragged_partition) (name : string)
    (dom : option domain) : result (proto_feature * list proto_feature * proto_representation) :=
  bind (make_feature (key_or_name value_key name) d false None dom) (fun v =>
  bind (map_result partition_proto partitions) (fun ps =>
  Returned (v, partition_features ps, PR_ragged (key_or_name value_key name) ps))).

(** schema_utils.py:214-240 *)
Definition plain_from_spec (sp : fspec) (name : string) (dom : option domain) : result proto_feature :=
  match sp with
  | Fixed_len shape d None => make_feature name d true (Some shape) dom
  | Fixed_len _ _ (Some _) => Raised
  | Var_len d => make_feature name d false None dom
  | _ => Raised
  end.

(** schema_utils.py:32-95.  should_set_generate_legacy_feature_spec is constantly False
    (schema_utils_legacy.py:17-19), so 536-607 is not reached. *)
Definition add_to_schema (domains : dict domain) (s : proto_schema) (item : string * fspec) : result proto_schema :=
  let (name, sp) := item in
  match sp with
  | Sparse_spec index_key value_key d size already_sorted =>
      bind (sparse_from_spec index_key value_key d size already_sorted name (dict_get domains name)) (fun r =>
        let '(index_features, value_feature, sparse_feature) := r in
        Returned (PSchema (ps_features s ++ index_features ++ [value_feature]) (ps_sparse s ++ [sparse_feature])
                          (ps_representations s) [] []))
  | Ragged_spec d value_key partitions _ _ =>
      bind (ragged_from_spec d value_key partitions name (dict_get domains name)) (fun r =>
        let '(value_feature, partitions_features, representation) := r in
        Returned (PSchema (ps_features s ++ value_feature :: partitions_features) (ps_sparse s)
                          (dict_set (ps_representations s) name representation) [] []))
  | _ =>
      bind (plain_from_spec sp name (dict_get domains name)) (fun f =>
        Returned (PSchema (ps_features s ++ [f]) (ps_sparse s) (ps_representations s) [] []))
  end.
Fixpoint add_all_to_schema (domains : dict domain) (s : proto_schema) (items : list (string * fspec)) : result proto_schema :=
  match items with
  | [] => Returned s
  | item :: items' => bind (add_to_schema domains s item) (fun s' => add_all_to_schema domains s' items')
  end.
Definition from_feature_spec (feature_spec : dict fspec) (domains : dict domain) : result proto_schema :=
  add_all_to_schema domains (PSchema [] [] [] [] []) (py_sorted (fun a b => String.leb (fst a) (fst b)) feature_spec).

(** ** To feature specs *)

(** tfx_bsl's InferTensorRepresentationsFromMixedSchema and CreateTfExampleParserConfig, from their
    documentation and the tests of schema_utils_test_cases.py: the representations of the schema take their
    columns first, then the sparse features theirs (an error if one is missing or taken), and every
    column that is left is a tensor of its own. *)
Definition dtype_of_proto (t : proto_type) : result dtype :=
  match t with T_INT => Returned Int64 | T_FLOAT => Returned Float32 | T_BYTES => Returned String_type | _ => Raised end.
Fixpoint take_columns (d : dict proto_feature) (names : list string) : result (list proto_feature * dict proto_feature) :=
  match names with
  | [] => Returned ([], d)
  | k :: names' =>
      match dict_pop d k with
      | Some (f, d') => bind (take_columns d' names') (fun fd => Returned (f :: fst fd, snd fd))
      | None => Raised
      end
  end.

(** schema_utils.py:281-303.  The decoding of bytes leaves the texts as they are. *)
Definition standardize_default_value (sp : fspec) : fspec :=
  match sp with Fixed_len shape d (Some (Values [v])) => Fixed_len shape d (Some (Value v)) | _ => sp end.

(** A tensor: its spec and its value feature. *)
Definition tensor := (fspec * proto_feature)%type.

Definition row_length_columns (ps : list proto_partition) : list string :=
  flat_map (fun p => match p with P_row_length key => [key] | P_uniform_row_length _ => [] end) ps.
Definition read_partition (p : proto_partition) : ragged_partition :=
  match p with P_row_length key => By_row_lengths key | P_uniform_row_length n => By_uniform_length n end.
(** schema_utils.py:462-533, with the types of row lengths checked *)
Definition is_int (f : proto_feature) : bool := match p_type f with T_INT => true | _ => false end.
Fixpoint read_representations (d : dict proto_feature) (rs : dict proto_representation) : result (dict tensor * dict proto_feature) :=
  match rs with
  | [] => Returned ([], d)
  | (name, PR_ragged path ps) :: rs' =>
      bind (take_columns d [path]) (fun vd =>
      bind (take_columns (snd vd) (row_length_columns ps)) (fun rd =>
      if forallb is_int (fst rd) then
        match fst vd with
        | [v] =>
            bind (dtype_of_proto (p_type v)) (fun dt =>
            bind (read_representations (snd rd) rs') (fun r =>
            Returned ((name, (Ragged_spec dt (Some path) (map read_partition ps) Int64 false, v)) :: fst r, snd r)))
        | _ => Raised
        end
      else Raised))
  | (name, PR_dense shape default_value) :: rs' =>
      bind (take_columns d [name]) (fun vd =>
      match fst vd with
      | [v] =>
          bind (dtype_of_proto (p_type v)) (fun dt =>
          bind (read_representations (snd vd) rs') (fun r =>
          Returned ((name, (standardize_default_value (Fixed_len shape dt (option_map Values default_value)), v)) :: fst r, snd r)))
      | _ => Raised
      end)
  end.

(** The size of a dimension of a sparse tensor, from the domain of its index feature. *)
Definition index_size (f : proto_feature) : result (option Z) :=
  match p_type f with
  | T_INT =>
      match p_domain f with
      | Some (Own (Int_domain (Some lo) (Some hi) _)) => if (lo =? 0)%Z then Returned (Some (hi + 1)%Z) else Raised
      | Some (Own (Int_domain _ _ _)) => Raised
      | _ => Returned (Some (-1)%Z)
      end
  | _ => Raised
  end.
Fixpoint read_sparse (d : dict proto_feature) (sfs : list proto_sparse) : result (dict tensor * dict proto_feature) :=
  match sfs with
  | [] => Returned ([], d)
  | sf :: sfs' =>
      bind (take_columns d (ps_index sf)) (fun id =>
      bind (take_columns (snd id) [ps_value sf]) (fun vd =>
      bind (map_result index_size (fst id)) (fun sizes =>
      match fst vd with
      | [v] =>
          bind (dtype_of_proto (p_type v)) (fun dt =>
          bind (read_sparse (snd vd) sfs') (fun r =>
          Returned ((ps_name sf, (Sparse_spec (Key_list (ps_index sf)) (ps_value sf) dt (Size_list sizes) (ps_sorted sf), v)) :: fst r, snd r)))
      | _ => Raised
      end)))
  end.
Definition read_plain (f : proto_feature) : result (string * tensor) :=
  bind (dtype_of_proto (p_type f)) (fun dt =>
  match p_shape f with
  | Some shape => if p_always f then Returned (p_name f, (standardize_default_value (Fixed_len shape dt None), f)) else Raised
  | None => Returned (p_name f, (Var_len dt, f))
  end).

(** schema_utils.py:438-459 *)
Definition get_domain (f : proto_feature) (string_domains : dict domain) : option domain :=
  match p_domain f with
  | None => None
  | Some (Named n) => dict_get string_domains n
  | Some (Own d) => Some d
  end.

(** schema_utils.py:306-367, for schemas without struct features; a name that two tensors have is an error. *)
Definition as_feature_spec (s : proto_schema) : result (dict fspec * dict domain) :=
  if existsb (fun f => match p_type f with T_STRUCT => true | _ => false end) (ps_features s) then Raised
  else
    let by_name := to_dict (map (fun f => (p_name f, f)) (filter (fun f => negb (p_deprecated f)) (ps_features s))) in
    bind (read_representations by_name (ps_representations s)) (fun rd =>
    bind (read_sparse (snd rd) (ps_sparse s)) (fun sd =>
    bind (map_result (fun nf => read_plain (snd nf)) (snd sd)) (fun plain =>
    let tensors := fst rd ++ fst sd ++ plain in
    let names := map fst tensors in
    if length (nodup string_dec names) =? length names then
      Returned (map (fun nt => (fst nt, fst (snd nt))) tensors,
                flat_map (fun nt => match get_domain (snd (snd nt)) (to_dict (ps_string_domains s)) with
                                    | Some d => [(fst nt, d)] | None => [] end) tensors)
    else Raised))).

(** beam/impl.py:1541-1556 *)
Definition remove_columns_from_metadata (s : proto_schema) (excluded_columns : list string) : result proto_schema :=
  bind (as_feature_spec s) (fun fd =>
  let keep {V} (d : dict V) := filter (fun nv => negb (existsb (String.eqb (fst nv)) excluded_columns)) d in
  from_feature_spec (keep (fst fd)) (keep (snd fd))).
