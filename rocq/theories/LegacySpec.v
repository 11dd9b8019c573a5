(** * What older versions wrote

    Written from the formats: signatures with a tensor for each component of a feature, and JSON schemas. *)
From Coq Require Import String Ascii List ZArith Bool.
From Verif Require Import SchemaModel FspecModel FspecSpec LegacyModel.
Import ListNotations.

(** ** Signatures *)

(** A feature of a transform function: a tensor, or the tensors of a sparse tensor. *)
Inductive feature := Dense (t : tensor_info) | Sparse (indices values dense_shape : tensor_info).
(** Its items in a signature of an older version. *)
Definition old_items (nf : string * feature) : list (string * tensor_info) :=
  match nf with
  | (n, Dense t) => [(n ++ "$dense_tensor", t)]
  | (n, Sparse i v s) => [(n ++ "$indices", i); (n ++ "$values", v); (n ++ "$dense_shape", s)]
  end%string.
(** Its item in a signature of today. *)
Definition new_item (nf : string * feature) : string * tensor_info :=
  match nf with
  | (n, Dense t) => (n, t)
  | (n, Sparse i v s) => (n, Tensor_info (t_dtype v) None (Coo_sparse (t_name v) (t_name i) (t_name s)))
  end.
(** Names that are told apart: none is the name of a component of another; they are lines. *)
Definition one_line (n : string) : Prop := forall a b, n <> (a ++ String (Ascii.ascii_of_nat 10) b)%string.
Definition told_apart (fs : list (string * feature)) : Prop :=
  NoDup (map fst fs) /\ (forall n f, In (n, f) fs -> one_line n) /\
  forall n f g k t, In (n, f) fs -> In g fs -> In (k, t) (old_items g) -> k <> n.
(** A sparse feature with the name of a component. *)
Definition sparse_dense_shape (fs : list (string * feature)) : Prop := exists i v s, In ("dense_shape"%string, Sparse i v s) fs.
(** A name of today: it does not end like the name of a component. *)
Definition plain_name (n : string) : Prop :=
  forall p c, In c ["indices"; "values"; "dense_shape"; "dense_tensor"]%string ->
    n <> (p ++ "$" ++ c)%string /\ n <> (p ++ "$" ++ c ++ String (Ascii.ascii_of_nat 10) EmptyString)%string.

(** ** JSON schemas *)
Inductive old_values := Ints (min max : option Z) (is_categorical : bool) | Floats | Strings.
Inductive old_kind := Fixed (shape : list Z) (default_value : bool) | Variable_length.
Record old_feature := Old_feature { of_name : string; of_values : old_values; of_kind : old_kind }.

(** What the feature is today. *)
Definition spec_of (f : old_feature) : string * fspec :=
  let dt := match of_values f with Ints _ _ _ => Int64 | Floats => Float32 | Strings => String_type end in
  (of_name f, match of_kind f with Fixed shape _ => Fixed_len shape dt None | Variable_length => Var_len dt end).
Definition domains_of (f : old_feature) : list (string * domain) :=
  match of_values f with Ints lo hi c => [(of_name f, Int_domain lo hi c)] | _ => [] end.
Definition has_default (f : old_feature) : Prop := match of_kind f with Fixed _ d => d = true | Variable_length => False end.

Section spec.
  Context (int_of_string : string -> option Z).
  (** An object with a key, and without one; keys that are not mentioned do not matter. *)
  Definition has (j : json) (k : string) (v : json) : Prop := exists items, j = J_object items /\ NoDup (map fst items) /\ In (k, v) items.
  Definition has_no (j : json) (k : string) : Prop := exists items, j = J_object items /\ ~ In k (map fst items).
  (** Integers are numbers, or strings in protobuf's JSON. *)
  Definition integer (j : json) (z : Z) : Prop := j = J_int z \/ exists s, j = J_string s /\ int_of_string s = Some z.
  Definition maybe_integer (j : json) (k : string) (z : option Z) : Prop :=
    match z with None => has_no j k | Some z => exists v, has j k v /\ integer v z end.
  Definition describes_values (j : json) (v : old_values) : Prop :=
    match v with
    | Ints lo hi c => exists i, has j "ints" i /\ maybe_integer i "min" lo /\ maybe_integer i "max" hi /\
                        (has i "isCategorical" (J_bool c) \/ has_no i "isCategorical" /\ c = false)
    | Floats => has_no j "ints" /\ exists f, has j "floats" f /\ f <> J_null
    | Strings => has_no j "ints" /\ has_no j "floats" /\ exists s, has j "strings" s /\ s <> J_null
    end.
  Definition describes_shape (j : json) (shape : list Z) : Prop :=
    (exists axes, has j "axis" (J_list axes) /\ Forall2 (fun axis z => exists v, has axis "size" v /\ integer v z) axes shape) \/
    (has_no j "axis" /\ shape = []).
  Definition describes_default (j : json) (d : bool) : Prop :=
    if d then (exists v z, has j "intDefaultValue" v /\ integer v z) \/
              (exists l zs, has j "intDefaultValue" (J_list l) /\ Forall2 integer l zs) \/
              (has_no j "intDefaultValue" /\ exists v, has j "stringDefaultValue" v /\ v <> J_null) \/
              (has_no j "intDefaultValue" /\ has_no j "stringDefaultValue" /\ exists v, has j "floatDefaultValue" v /\ v <> J_null)
    else has_no j "intDefaultValue" /\ has_no j "stringDefaultValue" /\ has_no j "floatDefaultValue".
  Definition describes_feature (j : json) (f : old_feature) : Prop :=
    has j "name" (J_string (of_name f)) /\
    (exists d, has j "domain" d /\ describes_values d (of_values f)) /\
    exists po o, has j "parsingOptions" po /\ has po "tfOptions" o /\
      match of_kind f with
      | Fixed shape d => exists fixed s, has o "fixedLenFeature" fixed /\ describes_default fixed d /\ has j "fixedShape" s /\ describes_shape s shape
      | Variable_length => has_no o "fixedLenFeature" /\ exists v, has o "varLenFeature" v /\ v <> J_null
      end.
  Definition describes (j : json) (fs : list old_feature) : Prop :=
    NoDup (map of_name fs) /\
    ((exists l, has j "feature" (J_list l) /\ Forall2 describes_feature l fs) \/ (has_no j "feature" /\ fs = [])).
End spec.
