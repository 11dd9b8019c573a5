(** * When two computations are described alike *)
From Coq Require Import String.
From Coq Require Import List Arith Bool.
From Verif Require Import SortModel ReadyModel ReadySpec OptimizeModel OptimizeSpec CacheHashModel.
Import ListNotations.

(** The attributes of an operation as one text: the name and the value of each, in the
    order of the names.  Of an operation with a function [f] only the types [Tin] and
    [Tout] are shown, and functions are not shown; lists of functions have no text. *)
Definition attr_text (attrs : list (string * attr)) : option string :=
  let has_function := existsb (fun kv => String.eqb (fst kv) "f") attrs in
  let shown := filter (fun kv => negb has_function
                                 || String.eqb (fst kv) "Tin" || String.eqb (fst kv) "Tout")
                 (py_sorted (fun kv kv' => bytes_leb (fst kv) (fst kv')) attrs) in
  if existsb (fun kv => attr_list_func (snd kv)) shown then None
  else Some (String.concat ""
         (map (fun kv => fst kv ++ if attr_func (snd kv) then "" else attr_bytes (snd kv))%string shown)).

(** The same inputs are read, and the same outputs of operations with the same
    attributes are used in the same way.  The types of operations are not
    compared. *)
Inductive alike : comp -> comp -> Prop :=
| alike_source name : alike (Source name) (Source name)
| alike_tensor i o o' : alike o o' -> alike (TensorOf i o) (TensorOf i o')
| alike_op t t' attrs attrs' parents parents' text :
    attr_text attrs = Some text -> attr_text attrs' = Some text ->
    Forall2 alike parents parents' -> alike (OpOf t attrs parents) (OpOf t' attrs' parents').

(** The same, and with the same types. *)
Inductive same_computation : comp -> comp -> Prop :=
| same_source name : same_computation (Source name) (Source name)
| same_tensor i o o' : same_computation o o' -> same_computation (TensorOf i o) (TensorOf i o')
| same_op t attrs attrs' parents parents' text :
    attr_text attrs = Some text -> attr_text attrs' = Some text ->
    Forall2 same_computation parents parents' -> same_computation (OpOf t attrs parents) (OpOf t attrs' parents').

(** Operations have as many parents in both. *)
Inductive same_shape : comp -> comp -> Prop :=
| shape_source name name' : same_shape (Source name) (Source name')
| shape_result : same_shape AnalyzerResult AnalyzerResult
| shape_tensor i i' o o' : same_shape o o' -> same_shape (TensorOf i o) (TensorOf i' o')
| shape_op t t' attrs attrs' parents parents' :
    Forall2 same_shape parents parents' -> same_shape (OpOf t attrs parents) (OpOf t' attrs' parents').

Section Hashed.
Variable sha1 : string -> string.

(** [hashed c s]: to describe [c], the text [s] is hashed. *)
Inductive hashed : comp -> string -> Prop :=
| hashed_source name : hashed (Source name) name
| hashed_tensor i o s : hashed o s -> hashed (TensorOf i o) s
| hashed_tensor_top i o p :
    path_of sha1 o = Some (Some p) -> hashed (TensorOf i o) (value_index_text i ++ p)
| hashed_op t attrs parents c s : In c parents -> hashed c s -> hashed (OpOf t attrs parents) s
| hashed_op_top t attrs parents text ps :
    attr_text attrs = Some text ->
    map (path_of sha1) parents = map (fun p => Some (Some p)) ps ->
    hashed (OpOf t attrs parents) (text ++ String.concat "" ps).

(** Two different texts with the same digest, one from each. *)
Definition collision (c c' : comp) : Prop :=
  exists s s', hashed c s /\ hashed c' s' /\ s <> s' /\ sha1 s = sha1 s'.

(** The pieces of text that are joined and hashed for a computation, and its kind. *)
Inductive written : comp -> nat * list string -> Prop :=
| written_source name : written (Source name) (0, [name])
| written_tensor i o p :
    path_of sha1 o = Some (Some p) -> written (TensorOf i o) (1, [value_index_text i; p])
| written_op t attrs parents text ps :
    attr_text attrs = Some text ->
    map (path_of sha1) parents = map (fun p => Some (Some p)) ps ->
    written (OpOf t attrs parents) (2, text :: ps).

(** [inside d c]: [d] is [c] or computed on the way to it. *)
Inductive inside (d : comp) : comp -> Prop :=
| inside_here : inside d d
| inside_tensor i o : inside d o -> inside d (TensorOf i o)
| inside_op t attrs parents c : In c parents -> inside d c -> inside d (OpOf t attrs parents).

(** Different pieces that make the same text when joined, one from each. *)
Definition ambiguous (c c' : comp) : Prop :=
  exists d d' w w', inside d c /\ inside d' c' /\ written d w /\ written d' w' /\
    w <> w' /\ String.concat "" (snd w) = String.concat "" (snd w').

(** ** Values of the analysis graph *)
Context {B C K : Type}.
Variable partitionable : B -> bool.
Variable class_name : op B C K -> string.
Variable fields : string -> op B C K -> list string.
(** The computations of the tensors, by key, in the two runs. *)
Variable tensors tensors' : string -> comp.

Definition tensor_paths (tensors : string -> comp) (key : string) : option string :=
  match path_of sha1 (tensors key) with Some p => p | None => None end.

Notation has_hash t := (has_hash partitionable class_name fields (tensor_paths t) sha1) (only parsing).

Inductive same_node_shape : node B C K -> node B C K -> Prop :=
| node_shape_apply label inputs index label' inputs' index' :
    same_node_shape (Node label (Apply 0) inputs index) (Node label' (Apply 0) inputs' index')
| node_shape_extract label keys inputs index label' keys' inputs' index' :
    Forall2 (fun k k' => same_shape (tensors k) (tensors' k')) keys keys' ->
    Forall2 same_node_shape inputs inputs' ->
    same_node_shape (Node label (Extract keys) inputs index) (Node label' (Extract keys') inputs' index')
| node_shape_op label o inputs index label' o' inputs' index' :
    o <> Apply 0 -> o' <> Apply 0 -> (forall ks, o <> Extract ks) -> (forall ks, o' <> Extract ks) ->
    Forall2 same_node_shape inputs inputs' ->
    same_node_shape (Node label o inputs index) (Node label' o' inputs' index').

(** The name of the class and the fields, as one text. *)
Definition op_text (label : string) (o : op B C K) : string :=
  (class_name o ++ String.concat "" (fields label o))%string.

(** Operations with the same texts are applied to tensors that are computed
    alike. *)
Inductive alike_nodes : node B C K -> node B C K -> Prop :=
| alike_apply label inputs index label' inputs' index' :
    alike_nodes (Node label (Apply 0) inputs index) (Node label' (Apply 0) inputs' index')
| alike_extract label keys inputs index label' keys' inputs' index' :
    Forall2 (fun k k' => alike (tensors k) (tensors' k')) keys keys' ->
    Forall2 alike_nodes inputs inputs' ->
    alike_nodes (Node label (Extract keys) inputs index) (Node label' (Extract keys') inputs' index')
| alike_node_op label o inputs index label' o' inputs' index' :
    o <> Apply 0 -> o' <> Apply 0 -> (forall ks, o <> Extract ks) -> (forall ks, o' <> Extract ks) ->
    op_text label o = op_text label' o' ->
    Forall2 alike_nodes inputs inputs' ->
    alike_nodes (Node label o inputs index) (Node label' o' inputs' index').

(** [hashed_node t n s]: the text [s] is hashed for the key of [n], when the
    tensors are computed by [t]. *)
Inductive hashed_node (t : string -> comp) : node B C K -> string -> Prop :=
| hashed_below label o inputs index n s :
    In n inputs -> hashed_node t n s -> hashed_node t (Node label o inputs index) s
| hashed_tensor_path label keys inputs index k s :
    In k keys -> hashed (t k) s -> hashed_node t (Node label (Extract keys) inputs index) s
| hashed_here label o inputs index hashes s :
    Forall2 (has_hash t) inputs hashes ->
    (match o with
     | Extract keys => exists ps, map (tensor_paths t) keys = map Some ps /\
         s = (String.concat "" hashes ++ class_name o ++ String.concat "" ps)%string
     | _ => s = (String.concat "" hashes ++ op_text label o)%string
     end) ->
    hashed_node t (Node label o inputs index) s.

Definition node_collision (n n' : node B C K) : Prop :=
  exists s s', hashed_node tensors n s /\ hashed_node tensors' n' s' /\ s <> s' /\ sha1 s = sha1 s'.

End Hashed.

(** ** Graphs

    A node of a TensorFlow graph is described by what [describe_path] looks at. *)
Inductive kind := Is_tensor (value_index : nat) | Is_op (op_type : string) (op_attr : list (string * attr)).

(** The computation that a node of a graph unfolds into. *)
Inductive unfolds (g : tf_graph) (kinds : nat -> kind) (names : nat -> option (option string))
    : nat -> comp -> Prop :=
| unfolds_source x name : names x = Some (Some name) -> unfolds g kinds names x (Source name)
| unfolds_result x : names x = Some None -> unfolds g kinds names x AnalyzerResult
| unfolds_tensor x i o c :
    names x = None -> nth_error g x = Some (ReadyModel.Node [o]) -> kinds x = Is_tensor i ->
    unfolds g kinds names o c -> unfolds g kinds names x (TensorOf i c)
| unfolds_op x t attrs ps cs :
    names x = None -> nth_error g x = Some (ReadyModel.Node ps) -> kinds x = Is_op t attrs ->
    Forall2 (unfolds g kinds names) ps cs -> unfolds g kinds names x (OpOf t attrs cs).

(** [translate_path_fn] of a node, and the path of a source. *)
Definition translate_kind (sha1 : string -> string) (kinds : nat -> kind) (x : nat)
    (parents : list (option (option string))) : option (option string) :=
  match sequence parents with
  | None => None
  | Some ps =>
      match kinds x with
      | Is_tensor i => Some (describe sha1 [value_index_text i] ps)
      | Is_op _ attrs =>
          match serialize_op_attr attrs with
          | Some values => Some (describe sha1 values ps)
          | None => None
          end
      end
  end.

Definition source_path (sha1 : string -> string) (name : option string) : option (option string) :=
  match name with Some n => Some (describe sha1 [n] []) | None => Some None end.
