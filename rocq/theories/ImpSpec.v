(** Values of tensors, and what a SavedModel means for tensors that are given. *)
From Coq Require Import String List.
From Verif Require Import PreModel ImpModel.
Import ListNotations.

Section spec.
  Variables O V : Type.
  (** What an operation computes: its outputs. *)
  Variable run : O -> list V -> list V.
  (** The files of checkpoints: directory, name, slice *)
  Variable checkpoint : string -> string -> option nat -> option V.
  Local Notation node := (node O V).
  Local Notation graph := (graph O V).
  Local Notation saved_model := (saved_model O V).

  (** What is fed to a tensor, if anything is: the values that it may have. *)
  Definition feed := tensor -> option (V -> Prop).
  (** The value of a tensor *)
  Inductive value (ns : list node) (fed : feed) (variable : string -> V -> Prop) : tensor -> V -> Prop :=
  | value_fed t P v : fed t = Some P -> P v -> value ns fed variable t v
  | value_constant n v : fed (Tensor n 0) = None -> In (Node O V n (Constant O V v) []) ns -> value ns fed variable (Tensor n 0) v
  | value_variable n slice ins v : fed (Tensor n 0) = None -> In (Node O V n (Variable_op O V slice) ins) ns -> variable n v -> value ns fed variable (Tensor n 0) v
  | value_operation n i o ins vs v : fed (Tensor n i) = None -> In (Node O V n (Operation O V o) ins) ns ->
      Forall2 (value ns fed variable) ins vs -> nth_error (run o vs) i = Some v -> value ns fed variable (Tensor n i) v.

  (** The variables of a graph after its initializers have run *)
  Definition initialized (g : graph) (n : string) (v : V) : Prop :=
    exists i, dict_get (initializers O V g) n = Some i /\ checkpoint (checkpoint_dir i) (checkpoint_name i) (checkpoint_slice i) = Some v.
  (** The variables of a SavedModel: what was saved for them *)
  Definition saved_variable (m : saved_model) (dir n : string) (v : V) : Prop :=
    exists slice ins, In (Node O V n (Variable_op O V slice) ins) (saved_nodes O V m) /\
      match slice with
      | None => checkpoint dir n None = Some v
      | Some (full_name, i) => checkpoint dir full_name (Some i) = Some v
      end.

  (** The tensors of an input or output *)
  Definition components (e : encoding) : list tensor :=
    match e with Name t => [t] | Coo_sparse i v d => [i; v; d] | Composite ts => ts | Not_set => [] end.
  Definition parts (x : tensor_or_composite) : list tensor :=
    match x with Dense t => [t] | Sparse i v d => [i; v; d] | Other_composite ts => ts end.

  Section application.
    Variables (g : graph) (m : saved_model).
    Variables (given : list (string * tensor_or_composite)) (replacements : list (tensor * tensor)).
    Variables (g' : graph) (unbound : list (string * tensor_or_composite)).
    (** Tensor [t] of the model stands for [r]. *)
    Inductive stands_for (t r : tensor) : Prop :=
    | stands_replaced : In (t, r) replacements -> stands_for t r
    | stands_given k e x : In (k, e) (input_signature O V m) -> In (k, x) given -> In (t, r) (combine (components e) (parts x)) -> stands_for t r.
    Definition asset_of (t : tensor) (path : V) : Prop := In (t, path) (saved_assets O V m).
    (** Tensor [t] of the model is one of an input that was not given, for which [u] was returned. *)
    Definition left_open (t u : tensor) : Prop :=
      exists k e x, In (k, e) (input_signature O V m) /\ In (k, x) unbound /\ In (t, u) (combine (components e) (parts x)).

    (** [saved]: what is fed to the model, if [fed] is what is fed to the graph. *)
    Definition feeds (fed saved : feed) : Prop :=
      (forall t r, stands_for t r -> saved t = Some (value (nodes O V g') fed (initialized g') r)) /\
      (forall t path, asset_of t path -> exists P, saved t = Some P /\ forall v, P v <-> v = path) /\
      (forall t u, left_open t u -> (forall r, ~ stands_for t r) -> (forall path, ~ asset_of t path) -> saved t = fed u) /\
      (forall t, (forall r, ~ stands_for t r) -> (forall path, ~ asset_of t path) -> (forall u, ~ left_open t u) -> saved t = None) /\
      (* the graph: only tensors that were there and those returned are fed *)
      (forall t, fed t <> None -> In (t_op t) (map (node_name O V) (nodes O V g)) \/ exists t', left_open t' t).
  End application.

  (** A graph: names are in use once, inputs are there. *)
  Definition well_formed (g : graph) : Prop :=
    NoDup (map (node_name O V) (nodes O V g)) /\
    (forall n, In n (map (node_name O V) (nodes O V g)) -> dict_get (names_in_use O V g) (lower n) <> None) /\
    (forall n t, In n (nodes O V g) -> In t (node_inputs O V n) -> In (t_op t) (map (node_name O V) (nodes O V g))) /\
    (forall n i, In (n, i) (initializers O V g) -> In n (map (node_name O V) (nodes O V g))).
  Definition there (g : graph) (t : tensor) : Prop := In (t_op t) (map (node_name O V) (nodes O V g)).
  (** A SavedModel: names of nodes, inputs and outputs are there once; so are the tensors of inputs and assets; slices are
      called as TensorFlow calls them. *)
  Definition proper (m : saved_model) (replacements : list (tensor * tensor)) : Prop :=
    NoDup (map (node_name O V) (saved_nodes O V m)) /\
    (forall n t, In n (saved_nodes O V m) -> In t (node_inputs O V n) -> In (t_op t) (map (node_name O V) (saved_nodes O V m))) /\
    NoDup (map fst (input_signature O V m)) /\
    NoDup (flat_map (fun e => components (snd e)) (input_signature O V m) ++ map fst (saved_assets O V m) ++ map fst replacements) /\
    (forall n s ins, In (Node O V n (Variable_op O V s) ins) (saved_nodes O V m) ->
       match s with
       | None => partitioned n = None
       | Some (full_name, i) => exists digits, digits <> EmptyString /\ partitioned n = Some (full_name, digits)
       end).
  (** The beginning of a name *)
  Definition below (scope name : string) : Prop := exists rest, name = (scope ++ "/" ++ rest)%string.
  Definition slash_free (s : string) : Prop := forall a b, s <> (a ++ "/" ++ b)%string.
  (** The name scopes right in the current one, that operations are in, are in use. *)
  Definition scoped (current : string) (g : graph) : Prop :=
    forall s n, In n (map (node_name O V) (nodes O V g)) -> slash_free s -> below (in_scope current s) n ->
      dict_get (names_in_use O V g) (lower (in_scope current s)) <> None.

  Definition graph_ok (current : string) (g : graph) : Prop := well_formed g /\ scoped current g.
  (** A call: keys once, tensors that are there. *)
  Definition call_ok (g : graph) (m : saved_model) (given : list (string * tensor_or_composite)) (replacements : list (tensor * tensor)) : Prop :=
    proper m replacements /\ NoDup (map fst given) /\
    (forall k x r, In (k, x) given -> In r (parts x) -> there g r) /\ (forall t r, In (t, r) replacements -> there g r).

  (** Tensor [t] needs one of the [unbound] tensors, other than for a tensor that is [given]. *)
  Inductive needs (g : graph) (given unbound : list tensor) : tensor -> Prop :=
  | needs_itself t : ~ In t given -> In t unbound -> needs g given unbound t
  | needs_input t n i : ~ In t given -> In n (nodes O V g) -> node_name O V n = t_op t -> In i (node_inputs O V n) -> needs g given unbound i -> needs g given unbound t.
End spec.
