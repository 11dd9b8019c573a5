(** * What the key of a cache entry is made from

    Models /repo/tensorflow_transform/graph_tools.py:904-972
    ([_serialize_op_attr], [describe_path_as_analyzer_cache_hash]) and the texts of
    the fields that analysis_graph_builder.py:233-261 hashes.  The key itself is
    [next_hashed_path] and [cache_entry_key] of OptimizeModel. *)
From Coq Require Import String.
From Coq Require Import List Arith Bool.
From Coq Require DecimalString.
From Verif Require Import SortModel OptimizeModel.
Import ListNotations.

(** An [AttrValue]: its serialized bytes, whether the field [func] is set, and
    whether [list.func] is not empty. *)
Record attr := Attr { attr_bytes : string; attr_func : bool; attr_list_func : bool }.

(** [sorted(op_attr.items(), key=lambda kv: kv[0])]. *)
Definition sort_attrs (l : list (string * attr)) : list (string * attr) :=
  py_sorted (fun kv kv' => bytes_leb (fst kv) (fst kv')) l.

(** graph_tools.py:904-925.  [None] when it raises.  [func] and the other fields
    of an [AttrValue] are alternatives, so that it is empty without [func]. *)
Definition serialize_op_attr (op_attr : list (string * attr)) : option (list string) :=
  let sorted := sort_attrs op_attr in
  let kept :=
    if existsb (fun kv => String.eqb (fst kv) "f") op_attr
    then filter (fun kv => String.eqb (fst kv) "Tin" || String.eqb (fst kv) "Tout") sorted
    else sorted in
  if existsb (fun kv => attr_list_func (snd kv)) kept then None
  else Some (concat (map (fun kv => [fst kv; if attr_func (snd kv) then ""%string else attr_bytes (snd kv)]) kept)).

(** The computation of a tensor, the graph unfolded into a tree: a source with a
    name (an input; a table with its initializer is an operation here), the
    result of another analyzer, an output of an operation, an operation with its
    type, attributes and parents. *)
Inductive comp :=
| Source (name : string)
| AnalyzerResult
| TensorOf (value_index : nat) (operation : comp)
| OpOf (op_type : string) (op_attr : list (string * attr)) (parents : list comp).

Section Describe.
Variable sha1 : string -> string.

(** graph_tools.py:952-972, after the check of [x]. *)
Definition describe (values : list string) (parents : list (option string)) : option string :=
  match sequence parents with
  | None => None
  | Some ps => Some (sha1 (String.concat "" (values ++ ps)))
  end.

Definition value_index_text (i : nat) : string := DecimalString.NilZero.string_of_uint (Nat.to_uint i).

(** graph_tools.py:928-972 along a path (368-409, 509-543).  Outside: [None] when
    it raises; inside: [None] for what depends on another analyzer. *)
Fixpoint path_of (c : comp) : option (option string) :=
  match c with
  | Source name => Some (describe [name] [])
  | AnalyzerResult => Some None
  | TensorOf i o =>
      match path_of o with
      | Some p => Some (describe [value_index_text i] [p])
      | None => None
      end
  | OpOf _ attrs parents =>
      match sequence (map path_of parents), serialize_op_attr attrs with
      | Some ps, Some values => Some (describe values ps)
      | _, _ => None
      end
  end.

End Describe.

(** Python's [str((name, text))] for a string without quotes and backslashes, or
    for an object with the representation [text]. *)
Definition field_text (name text : string) : string := ("('" ++ name ++ "', " ++ text ++ ")")%string.
Definition quoted (text : string) : string := ("'" ++ text ++ "'")%string.

(** analyzer_nodes.py:349-350 and 423-424: [Combiner.__repr__] and
    [CacheCoder.__repr__]. *)
Definition class_repr (name : string) : string := ("<" ++ name ++ ">")%string.

(** A combiner (analyzer_nodes.py:342-416): its class and everything else that
    it was made with. *)
Record combiner (A : Type) := Combiner { combiner_class : string; parameters : A }.
Arguments Combiner {A}.
Arguments combiner_class {A}.
Arguments parameters {A}.

(** The texts hashed for [CacheableCombineAccumulate] (analyzer_nodes.py:556-588;
    analysis_graph_builder.py:244-254): properties in alphabetical order, then
    fields. *)
Definition accumulate_fields {A : Type} (c : combiner A) (coder_class label : string) : list string :=
  [field_text "cache_coder" (class_repr coder_class);
   field_text "is_partitionable" "True";
   field_text "num_outputs" "1";
   field_text "combiner" (class_repr (combiner_class c));
   field_text "label" (quoted label)].
