(** tft.apply_saved_model and tft.apply_function_with_checkpoint.

    A tensor is described by the expression that computes it.  Not modelled: dtypes and shapes, tags, devices, control
    dependencies, and ops of the loaded graph that happen to have the name of an input of the outer graph. *)
From Coq Require Import String Ascii List Bool Arith DecimalString.
Import ListNotations.

(** A tensor of a graph: output [t_index] of the operation [t_op]; its name is op:index. *)
Record tensor := Tensor { t_op : string; t_index : nat }.
Definition tensor_eqb (a b : tensor) : bool := String.eqb (t_op a) (t_op b) && Nat.eqb (t_index a) (t_index b).

Inductive error := ValueError | TypeError | KeyError | StopIteration | NotFound | FailedPrecondition.
Inductive result (A : Type) := Ok (a : A) | Err (e : error).
Arguments Ok {A} _.
Arguments Err {A} _.
Definition bind {A B} (r : result A) (f : A -> result B) : result B := match r with Ok a => f a | Err e => Err e end.
Notation "'do!' x <- r ; f" := (bind r (fun x => f)) (at level 200, x pattern, r at level 100, f at level 200).
Definition of_option {A} (e : error) (o : option A) : result A := match o with Some a => Ok a | None => Err e end.
Definition assert (b : bool) (e : error) : result unit := if b then Ok tt else Err e.

(** Expressions: operations over leaves, variables and constants. *)
Section expr.
  Variables O V : Type.
  Inductive expr (L : Type) :=
  | Leaf (l : L)
  | Var (name : string)
  | Const (v : V)
  | Ap (o : O) (args : list (expr L)).
End expr.
Arguments Leaf {O V L} _.
Arguments Var {O V L} _.
Arguments Const {O V L} _.
Arguments Ap {O V L} _ _.

Fixpoint all_some {A} (l : list (option A)) : option (list A) :=
  match l with
  | [] => Some []
  | Some a :: l' => option_map (cons a) (all_some l')
  | None :: _ => None
  end.

(** Python's str.lower, on ASCII letters. *)
Definition lower_ascii (c : ascii) : ascii :=
  let n := nat_of_ascii c in if Nat.leb 65 n && Nat.leb n 90 then ascii_of_nat (n + 32) else c.
Fixpoint lower (s : string) : string := match s with EmptyString => EmptyString | String c s' => String (lower_ascii c) (lower s') end.

Fixpoint dict_get {A} (d : list (string * A)) (k : string) : option A :=
  match d with [] => None | (k', a) :: d' => if String.eqb k' k then Some a else dict_get d' k end.

(** How TensorFlow names an operation (Graph.unique_name): names that differ in case only are the same name; a name in use
    gets the first free number from its count of uses on. *)
Definition suffixed (name : string) (i : nat) : string := (name ++ "_" ++ NilZero.string_of_uint (Nat.to_uint i))%string.
Fixpoint find_free (fuel : nat) (in_use : list (string * nat)) (base : string) (i : nat) : nat :=
  match fuel with
  | 0 => i
  | S fuel' => match dict_get in_use (suffixed base i) with Some _ => find_free fuel' in_use base (S i) | None => i end
  end.
Definition unique_name (in_use : list (string * nat)) (name : string) : string * list (string * nat) :=
  let key := lower name in
  match dict_get in_use key with
  | None => (name, (key, 1) :: in_use)
  | Some i => let in_use' := (key, S i) :: in_use in
              let j := find_free (S (length in_use')) in_use' key i in
              (suffixed name j, (suffixed key j, 1) :: in_use')
  end.
Fixpoint unique_names (in_use : list (string * nat)) (names : list string) : list string :=
  match names with
  | [] => []
  | n :: names' => let (n', in_use') := unique_name in_use n in n' :: unique_names in_use' names'
  end.

Section model.
  Variables O V : Type.

  (** Replaces the leaves; None if one has no replacement. *)
  Fixpoint subst {L L'} (f : L -> option L') (e : expr O V L) : option (expr O V L') :=
    match e with
    | Leaf l => option_map Leaf (f l)
    | Var n => Some (Var n)
    | Const v => Some (Const v)
    | Ap o args => option_map (Ap o) (all_some (map (subst f) args))
    end.

  (** tf.compat.v1.graph_util.convert_variables_to_constants, on an output: the variables it depends on are read from
      the session; None if one of them was not restored. *)
  Fixpoint freeze {L} (session : string -> option V) (e : expr O V L) : option (expr O V L) :=
    match e with
    | Leaf l => Some (Leaf l)
    | Var n => option_map Const (session n)
    | Const v => Some (Const v)
    | Ap o args => option_map (Ap o) (all_some (map (freeze session) args))
    end.

  Fixpoint leaves {L} (e : expr O V L) : list L :=
    match e with Leaf l => [l] | Ap _ args => flat_map leaves args | _ => [] end.

  (** What a tensor of the imported graph depends on: tensors of the outer graph, or placeholders nothing is fed to. *)
  Definition imported := expr O V (tensor + tensor).

  Definition map_get (m : list (tensor * tensor)) (k : tensor) : option tensor :=
    option_map snd (find (fun kv => tensor_eqb (fst kv) k) m).

  (** tf.import_graph_def: tensors named in [input_map] are replaced; it is a ValueError if one of them is not in the
      graph, which holds what the returned elements depend on.  A later entry of the dict replaces an earlier one. *)
  Definition import_graph_def (elements : list (expr O V tensor)) (input_map : list (tensor * tensor)) : result (list imported) :=
    do! _ <- assert (forallb (fun kv => existsb (tensor_eqb (fst kv)) (flat_map leaves elements)) input_map) ValueError;
    of_option ValueError (all_some (map (subst (fun t => match map_get (rev input_map) t with
                                                         | Some outer => Some (inl outer)
                                                         | None => Some (inr t)
                                                         end)) elements)).

  (** ** apply_function_with_checkpoint *)

  (** A tensor-in-tensor-out function: its outputs in terms of its arguments, whether it returns a single tensor, the
      variables it makes (op names, in order) and whether it makes a table initializer. *)
  Record function := Function {
    f_outputs : list (expr O V nat); f_single : bool; f_variables : list string; f_tables : bool }.

  (** pretrained_models.py:26-51 (_get_variables, with a scope): tf.get_collection keeps the variables whose name op:0
      matches the scope from its beginning.  The scope is a regular expression; only plain ones are modelled. *)
  Definition get_variables (variables : list string) (scope : string) : list string :=
    filter (fun n => String.prefix scope (n ++ ":0")) variables.

  (** pretrained_models.py:55-93 (_get_variables_to_restore) *)
  Definition get_variables_to_restore (variables : list string) (include exclude : option (list string)) : list string :=
    let vars_to_include := match include with None => variables | Some scopes => flat_map (get_variables variables) scopes end in
    let vars_to_exclude := match exclude with None => [] | Some scopes => flat_map (get_variables variables) scopes end in
    filter (fun v => negb (existsb (String.eqb v) vars_to_exclude)) vars_to_include.

  Fixpoint has_duplicates (l : list string) : bool :=
    match l with [] => false | x :: l' => existsb (String.eqb x) l' || has_duplicates l' end.

  (** tf.compat.v1.train.Saver(vars) and restore: a ValueError without variables or if one is given twice, NotFound if the
      checkpoint does not have one. *)
  Definition restore (vars : list string) (checkpoint : string -> option V) : result (string -> option V) :=
    do! _ <- assert (match vars with [] => false | _ => true end) ValueError;
    do! _ <- assert (negb (has_duplicates vars)) ValueError;
    do! _ <- assert (forallb (fun v => match checkpoint v with Some _ => true | None => false end) vars) NotFound;
    Ok (fun v => if existsb (String.eqb v) vars then checkpoint v else None).

  (** pretrained_models.py:232-306 (apply_function_with_checkpoint): whether a single tensor is returned, and the
      tensors. *)
  Definition apply_function_with_checkpoint (fn : function) (inputs : list tensor) (checkpoint : string -> option V)
      (include exclude : option (list string)) : result (bool * list imported) :=
    let input_placeholders := map (fun n => Tensor n 0) (unique_names [] (map t_op inputs)) in
    do! output_tensors <- of_option TypeError (all_some (map (subst (nth_error input_placeholders)) (f_outputs fn)));
    do! _ <- assert (negb (f_tables fn)) ValueError;
    do! session <- restore (get_variables_to_restore (f_variables fn) include exclude) checkpoint;
    do! output_graph <- of_option FailedPrecondition (all_some (map (freeze session) output_tensors));
    let input_map := map (fun t => (t, t)) inputs in
    do! outputs <- import_graph_def output_graph input_map;
    Ok (f_single fn, outputs).

  (** ** apply_saved_model *)

  Record signature := Signature { s_inputs : list (string * tensor); s_outputs : list (string * tensor) }.

  (** A metagraph that was loaded: its signatures, what a tensor computes (None: there is no such tensor), the values of
      its variables, and its table initializers with what they depend on. *)
  Record saved_model := SavedModel {
    m_signatures : list (string * signature);
    m_tensor : tensor -> option (expr O V tensor);
    m_variables : string -> option V;
    m_initializers : list (expr O V tensor) }.

  Inductive given := Single (t : tensor) | Dict (d : list (string * tensor)).

  Definition same_keys {A B} (a : list (string * A)) (b : list (string * B)) : bool :=
    forallb (fun k => existsb (String.eqb k) (map fst b)) (map fst a) && forallb (fun k => existsb (String.eqb k) (map fst a)) (map fst b).

  (** pretrained_models.py:153-162; an unknown name gives an empty message of the protocol buffer's map. *)
  Definition choose_signature (m : saved_model) (signature_name : option string) : result signature :=
    match signature_name with
    | Some ((String _ _) as n) => Ok (match dict_get (m_signatures m) n with Some s => s | None => Signature [] [] end)
    | _ => match m_signatures m with
           | [] => Err StopIteration
           | [(_, s)] => Ok s
           | _ => Err ValueError
           end
    end.

  (** pretrained_models.py:165-181 *)
  Definition make_input_map (s : signature) (inputs : given) : result (list (tensor * tensor)) :=
    match inputs with
    | Dict d => do! _ <- assert (same_keys (s_inputs s) d) ValueError;
                of_option KeyError (all_some (map (fun kt => option_map (fun name => (name, snd kt)) (dict_get (s_inputs s) (fst kt))) d))
    | Single t => match s_inputs s with [(_, name)] => Ok [(name, t)] | _ => Err ValueError end
    end.

  (** pretrained_models.py:183-204: the tensors and whether a single one is returned. *)
  Definition choose_outputs (s : signature) (output_keys : option (list string)) : result (list tensor * bool) :=
    match output_keys with
    | Some ((_ :: _) as keys) =>
        do! names <- of_option ValueError (all_some (map (dict_get (s_outputs s)) keys));
        Ok (names, false)
    | _ => match s_outputs s with [(_, name)] => Ok ([name], true) | _ => Err ValueError end
    end.

  (** pretrained_models.py:96-229 (apply_saved_model): whether a single tensor is returned, the tensors, and the table
      initializers that are added to the collection of the outer graph. *)
  Definition apply_saved_model (m : saved_model) (inputs : given) (signature_name : option string)
      (output_keys_in_signature : option (list string)) : result (bool * list imported * list imported) :=
    do! s <- choose_signature m signature_name;
    do! input_name_to_tensor_map <- make_input_map s inputs;
    do! (output_tensor_names, output_single_tensor) <- choose_outputs s output_keys_in_signature;
    do! output_tensors <- of_option KeyError (all_some (map (m_tensor m) output_tensor_names));
    do! constant_graph <- of_option FailedPrecondition (all_some (map (freeze (m_variables m)) (output_tensors ++ m_initializers m)));
    do! returned_elements <- import_graph_def constant_graph input_name_to_tensor_map;
    let n := length output_tensor_names in
    Ok (output_single_tensor, firstn n returned_elements, skipn n returned_elements).
End model.
