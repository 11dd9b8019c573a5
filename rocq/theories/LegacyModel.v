(** * Transform functions and metadata of older versions

    Models /repo/tensorflow_transform/saved/saved_transform_io.py:34-123, saved/saved_model_loader.py:27-93
    and tf_metadata/metadata_io.py:49-136. *)
From Coq Require Import String Ascii List ZArith Bool Arith.
From Verif Require Import SortModel SchemaModel FspecModel.
Import ListNotations.
Local Open Scope list_scope.

(** ** Signatures *)

(** meta_graph_pb2.TensorInfo; composite tensors have only the names of their components. *)
Inductive encoding :=
| No_encoding
| Tensor_name (name : string)
| Coo_sparse (values_tensor_name indices_tensor_name dense_shape_tensor_name : string)
| Composite (components : list string).
Record tensor_info := Tensor_info { t_dtype : nat; t_shape : option (list Z); t_encoding : encoding }.
Definition empty_info : tensor_info := Tensor_info 0 None No_encoding.
(** The name of a tensor info that has another encoding is the default, the empty string. *)
Definition t_name (t : tensor_info) : string := match t_encoding t with Tensor_name n => n | _ => EmptyString end.
Definition is_coo_sparse (t : tensor_info) : bool := match t_encoding t with Coo_sparse _ _ _ => true | _ => false end.
(** The fields of coo_sparse; setting one when the encoding is another clears that one. *)
Definition coo_fields (t : tensor_info) : string * string * string :=
  match t_encoding t with Coo_sparse v i s => (v, i, s) | _ => (EmptyString, EmptyString, EmptyString) end.

Inductive component := Indices | Values_ | Dense_shape | Dense_tensor.
Definition component_text (c : component) : string :=
  match c with Indices => "indices" | Values_ => "values" | Dense_shape => "dense_shape" | Dense_tensor => "dense_tensor" end%string.

(** saved_transform_io.py:34-36: the regular expression.  A dot does not match a newline, and the last dollar
    also matches before a newline at the end. *)
Definition newline : ascii := Ascii.ascii_of_nat 10.
Fixpoint strip_suffix (suffix s : string) : option string :=
  if String.eqb s suffix then Some EmptyString
  else match s with
       | EmptyString => None
       | String c s' => option_map (String c) (strip_suffix suffix s')
       end.
Fixpoint has_newline (s : string) : bool :=
  match s with EmptyString => false | String c s' => Ascii.eqb c newline || has_newline s' end.
Definition match_component (s : string) (c : component) : option (string * component) :=
  match strip_suffix ("$" ++ component_text c) s with
  | Some prefix => if has_newline prefix then None else Some (prefix, c)
  | None => None
  end.
Definition first_some {A} (l : list (option A)) : option A := match find (fun o => match o with Some _ => true | None => false end) l with Some o => o | None => None end.
Definition mangled (s : string) : option (string * component) :=
  let s' := match strip_suffix (String newline EmptyString) s with Some p => p | None => s end in
  first_some (map (match_component s') [Indices; Values_; Dense_shape; Dense_tensor]).

Definition delete {V} (d : dict V) (k : string) : dict V := filter (fun kv => negb (String.eqb (fst kv) k)) d.

(** saved_transform_io.py:52-87, for an item of the map.  A failed assertion raises. *)
Definition update_item (d : dict tensor_info) (original_name : string) : result (dict tensor_info) :=
  match mangled original_name, dict_get d original_name with
  | Some (name, original_tensor_type), Some original_tensor_info =>
      if (if String.eqb name "dense_shape"
          then match dict_get d name with None => true | Some _ => false end
          else match dict_get d name with None => true | Some t => is_coo_sparse t end)
      then
        let new_tensor_info := match dict_get d name with Some t => t | None => empty_info end in
        let '(v, i, s) := coo_fields new_tensor_info in
        let updated :=
          match original_tensor_type with
          | Indices => Tensor_info (t_dtype new_tensor_info) (t_shape new_tensor_info) (Coo_sparse v (t_name original_tensor_info) s)
          | Values_ => Tensor_info (t_dtype original_tensor_info) (t_shape new_tensor_info) (Coo_sparse (t_name original_tensor_info) i s)
          | Dense_shape => Tensor_info (t_dtype new_tensor_info) (t_shape new_tensor_info) (Coo_sparse v i (t_name original_tensor_info))
          | Dense_tensor => original_tensor_info
          end in
        Returned (delete (dict_set d name updated) original_name)
      else Raised
  | _, _ => Returned d
  end.
(** saved_transform_io.py:39-51: a copy of the items is iterated over, in the order of the map. *)
Fixpoint update_items (d : dict tensor_info) (names : list string) : result (dict tensor_info) :=
  match names with
  | [] => Returned d
  | n :: names' => bind (update_item d n) (fun d' => update_items d' names')
  end.
Definition update_map (d : dict tensor_info) : result (dict tensor_info) := update_items d (map fst d).

Record signature := Signature { inputs : dict tensor_info; outputs : dict tensor_info }.
Definition update_legacy_signature (s : signature) : result signature :=
  bind (update_map (inputs s)) (fun i => bind (update_map (outputs s)) (fun o => Returned (Signature i o))).

(** ** Saved models *)

(** The graph is not part of the model; assets are those of PublishModel. *)
Record meta_graph := Meta_graph { tags : list string; signature_def : dict signature }.
(** saved_model_loader.py:27-49: sets of tags are compared. *)
Definition same_set (a b : list string) : bool :=
  forallb (fun x => existsb (String.eqb x) b) a && forallb (fun x => existsb (String.eqb x) a) b.
Definition choose_meta_graph_def (saved_model : list meta_graph) : option meta_graph :=
  find (fun m => same_set (tags m) ["transform"%string]) saved_model.
(** saved_transform_io.py:90-123.  A signature that is not there is the empty one, as signature_def is the map of a
    proto. *)
Definition load_signature (saved_model : list meta_graph) : result signature :=
  match choose_meta_graph_def saved_model with
  | None => Raised
  | Some m => update_legacy_signature (match dict_get (signature_def m) "transform_signature" with Some s => s | None => Signature [] [] end)
  end.
(** saved_transform_io.py:480-498 *)
Definition exported_as_v1 (saved_model : list meta_graph) : bool :=
  match choose_meta_graph_def saved_model with Some _ => true | None => false end.

(** ** JSON schemas *)

(** Values of json.loads; numbers that are not integers are their texts. *)
Inductive json :=
| J_null | J_bool (b : bool) | J_int (z : Z) | J_float (text : string) | J_string (s : string) | J_list (l : list json)
| J_object (items : dict json).

Section json.
  (** int() of a string; None is ValueError. *)
  Context (int_of_string : string -> option Z).

  (** d[k], where d is not a dict or has no k: an error of some kind *)
  Definition get_item (j : json) (k : string) : result json :=
    match j with J_object items => match dict_get items k with Some v => Returned v | None => Raised end | _ => Raised end.
  (** d.get(k) *)
  Definition get_or_none (j : json) (k : string) : result json :=
    match j with J_object items => Returned (match dict_get items k with Some v => v | None => J_null end) | _ => Raised end.
  Definition is_null (j : json) : bool := match j with J_null => true | _ => false end.
  Definition as_text (j : json) : result string := match j with J_string s => Returned s | _ => Raised end.
  (** int(); int of a number that is not an integer is left out *)
  Definition as_int (j : json) : result Z :=
    match j with
    | J_int z => Returned z
    | J_bool b => Returned (if b then 1 else 0)%Z
    | J_string s => match int_of_string s with Some z => Returned z | None => Raised end
    | _ => Raised
    end.

  (** metadata_io.py:106-114 *)
  Definition dtype_from_json (domain : json) : result dtype :=
    bind (get_or_none domain "ints") (fun i => if negb (is_null i) then Returned Int64 else
    bind (get_or_none domain "floats") (fun f => if negb (is_null f) then Returned Float32 else
    bind (get_or_none domain "strings") (fun s => if negb (is_null s) then Returned String_type else Raised))).

  (** metadata_io.py:91-103.  isCategorical is a bool, or missing. *)
  Definition maybe_to_int (j : json) : result (option Z) := match j with J_null => Returned None | _ => bind (as_int j) (fun z => Returned (Some z)) end.
  Definition domain_from_json (domain : json) : result (option FspecModel.domain) :=
    bind (get_or_none domain "ints") (fun ints =>
    if is_null ints then Returned None
    else
      bind (get_or_none ints "min") (fun lo => bind (maybe_to_int lo) (fun lo' =>
      bind (get_or_none ints "max") (fun hi => bind (maybe_to_int hi) (fun hi' =>
      bind (get_or_none ints "isCategorical") (fun c =>
      match c with
      | J_null => Returned (Some (Int_domain lo' hi' false))
      | J_bool b => Returned (Some (Int_domain lo' hi' b))
      | _ => Raised
      end)))))).

  (** metadata_io.py:69-81 and 132-136.  What the default value is does not matter, only whether there is one: None,
      if there is none; KeyError moves on to the next key. *)
  Definition default_value_from_json (options : json) : result bool :=
    match options with
    | J_object items =>
        match dict_get items "intDefaultValue" with
        | Some (J_list l) => bind (map_result as_int l) (fun _ => Returned true)
        | Some v => bind (as_int v) (fun _ => Returned true)
        | None =>
            match dict_get items "stringDefaultValue" with
            | Some v => Returned (negb (is_null v))
            | None => match dict_get items "floatDefaultValue" with Some v => Returned (negb (is_null v)) | None => Returned false end
            end
        end
    | _ => Raised
    end.
  (** metadata_io.py:63-88 *)
  Definition column_schema_from_json (feature_dict : json) : result fspec :=
    bind (get_item feature_dict "domain") (fun domain => bind (dtype_from_json domain) (fun dt =>
    bind (get_item feature_dict "parsingOptions") (fun po => bind (get_item po "tfOptions") (fun tf_options =>
    bind (get_or_none tf_options "fixedLenFeature") (fun fixed =>
    if negb (is_null fixed) then
      bind (default_value_from_json fixed) (fun has_default =>
      bind (get_item feature_dict "fixedShape") (fun fs =>
      bind (match fs with
            | J_object items => match dict_get items "axis" with None => Returned [] | Some (J_list axes) => Returned axes | Some _ => Raised end
            | _ => Raised
            end) (fun axes =>
      bind (map_result (fun axis => bind (get_item axis "size") as_int) axes) (fun shape =>
      Returned (Fixed_len shape dt (if has_default then Some (Value "default") else None))))))
    else
      bind (get_or_none tf_options "varLenFeature") (fun varlen =>
      if negb (is_null varlen) then Returned (Var_len dt) else Raised)))))).

  (** metadata_io.py:49-60.  Domains that are None are left out, as domains.get(name) is None without them. *)
  Definition parse_schema_json (schema_dict : json) : result proto_schema :=
    bind (match schema_dict with
          | J_object items => match dict_get items "feature" with None => Returned [] | Some (J_list l) => Returned l | Some _ => Raised end
          | _ => Raised
          end) (fun features =>
    bind (map_result (fun f => bind (get_item f "name") (fun n => bind (as_text n) (fun n' => bind (column_schema_from_json f) (fun sp => Returned (n', sp))))) features) (fun specs =>
    bind (map_result (fun f => bind (get_item f "name") (fun n => bind (as_text n) (fun n' =>
                               bind (get_item f "domain") (fun d => bind (domain_from_json d) (fun dom => Returned (n', dom)))))) features) (fun domains =>
    from_feature_spec (to_dict specs) (flat_map (fun nd => match snd nd with Some d => [(fst nd, d)] | None => [] end) (to_dict domains))))).
End json.
