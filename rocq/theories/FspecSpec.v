(** * What feature specs and metadata say

    Written from the API: tft.DatasetMetadata.from_feature_spec, its schema, and the raw feature spec read
    from it. *)
From Coq Require Import String List ZArith Bool.
From Verif Require Import SchemaModel FspecModel.
Import ListNotations.

(** The types tf.Example has. *)
Definition example_dtype (d : dtype) : Prop := d = Int64 \/ d = Float32 \/ d = String_type.

(** A spec that metadata can be made from. *)
Definition acceptable (sp : fspec) : Prop :=
  match sp with
  | Fixed_len _ d default_value => example_dtype d /\ default_value = None
  | Var_len d => example_dtype d
  | Sparse_spec (One_key _) _ d (One_size _) _ => example_dtype d
  | Sparse_spec (Key_list ks) _ d (Size_list zs) _ => example_dtype d /\ List.length ks = List.length zs
  | Sparse_spec _ _ _ _ _ => False
  | Ragged_spec d _ partitions _ _ => example_dtype d /\ ~ In By_something_else partitions
  | Other_spec _ => False
  end.
Definition is_domain (d : domain) : Prop := match d with Other_domain _ => False | _ => True end.

(** A spec written as metadata writes it: keys in lists, every size and value key given, int64 row splits
    that are not validated. *)
Definition canonical (sp : fspec) : Prop :=
  acceptable sp /\
  match sp with
  | Sparse_spec index_key _ _ size _ =>
      match index_key, size with
      | Key_list _, Size_list zs => Forall (fun z => z <> None) zs
      | _, _ => False
      end
  | Ragged_spec _ value_key _ row_splits_dtype validate =>
      (exists k, value_key = Some k /\ k <> ""%string) /\ row_splits_dtype = Int64 /\ validate = false
  | _ => True
  end.

(** The columns of tf.Examples that a feature is parsed from. *)
Definition parsed_columns (name : string) (sp : fspec) : list string :=
  match sp with
  | Sparse_spec (One_key k) v _ _ _ => [k; v]
  | Sparse_spec (Key_list ks) v _ _ _ => ks ++ [v]
  | Ragged_spec _ v ps _ _ =>
      (match v with Some k => k | None => name end)
        :: flat_map (fun p => match p with By_row_lengths k => [k] | _ => [] end) ps
  | _ => [name]
  end.
Definition no_shared_columns (fs : dict fspec) : Prop :=
  NoDup (flat_map (fun it => parsed_columns (fst it) (snd it)) fs).

(** Two dicts that nobody can tell apart by their items. *)
Definition same_items {V} (a b : dict V) : Prop :=
  NoDup (map fst a) /\ NoDup (map fst b) /\ forall k v, In (k, v) a <-> In (k, v) b.
(** The items of the keys that satisfy P. *)
Definition items_where {V} (P : string -> Prop) (a b : dict V) : Prop :=
  NoDup (map fst b) /\ forall k v, In (k, v) b <-> In (k, v) a /\ P k.

Definition no_default (sp : fspec) : Prop := match sp with Fixed_len _ _ (Some _) => False | _ => True end.
Definition value_key_not_empty (sp : fspec) : Prop := match sp with Ragged_spec _ (Some k) _ _ _ => k <> ""%string | _ => True end.

(** The column that has the values of a feature, and their type. *)
Definition values_column (name : string) (sp : fspec) : string :=
  match sp with
  | Sparse_spec _ v _ _ _ => v
  | Ragged_spec _ (Some v) _ _ _ => v
  | _ => name
  end.
Definition values_type (sp : fspec) (t : proto_type) : Prop :=
  match sp with
  | Fixed_len _ d _ | Var_len d | Sparse_spec _ _ d _ _ | Ragged_spec d _ _ _ _ | Other_spec d =>
      match t with T_INT => d = Int64 | T_FLOAT => d = Float32 | T_BYTES => d = String_type | _ => False end
  end.
(** The domain a schema gives a feature: the feature's own, or the string domain it names. *)
Definition has_domain (s : proto_schema) (f : proto_feature) (d : domain) : Prop :=
  match p_domain f with
  | None => False
  | Some (Own d') => d = d'
  | Some (Named n) => In (n, d) (ps_string_domains s)
  end.
