(** Applying a SavedModel of TF1 to tensors of a graph (saved/saved_transform_io.py:126-460), and
    TFTransformOutput.transform_raw_features on it (output_wrapper.py:299-376).

    None models an exception.  Not modelled: dtypes and shapes, control dependencies, functions of the graph library,
    the python functions of the model (C56) and table initializers. *)
From Coq Require Import String Ascii List Bool Arith DecimalString.
From Verif Require Import PreModel.
Import ListNotations.

(** ** Graphs *)

Section model.
  Variables O V : Type.

  (** A variable may be a slice of a partitioned one: its full name and the number of the slice
      ([_save_slice_info]). *)
  Inductive kind := Placeholder | Constant (v : V) | Variable_op (slice : option (string * nat)) | Operation (o : O).
  Record node := Node { node_name : string; node_kind : kind; node_inputs : list tensor }.
  (** What a variable is initialized with: a tensor of a checkpoint, or a slice of it. *)
  Record initializer := From_checkpoint { checkpoint_dir : string; checkpoint_name : string; checkpoint_slice : option nat }.
  Record graph := Graph {
    nodes : list node;
    names_in_use : list (string * nat);
    asset_filepaths : list tensor;              (* the collection of that name *)
    initializers : list (string * initializer) }.

  Definition names (g : graph) : list string := map node_name (nodes g).
  Definition in_graph (n : string) (ns : list string) : bool := existsb (String.eqb n) ns.

  (** ** SavedModels *)

  (** TensorInfo.encoding *)
  Inductive encoding := Name (t : tensor) | Coo_sparse (indices values dense_shape : tensor) | Composite (components : list tensor) | Not_set.
  Record saved_model := SavedModel {
    saved_nodes : list node;
    input_signature : list (string * encoding);
    output_signature : list (string * encoding);
    saved_assets : list (tensor * V);          (* tensors and the paths of their files *)
    trainable_variables : bool }.

  (** A tensor that is given or returned *)
  Inductive tensor_or_composite := Dense (t : tensor) | Sparse (indices values dense_shape : tensor) | Other_composite (components : list tensor).
  (** tf.nest.flatten(expand_composites=True) *)
  Definition flatten_tensor (x : tensor_or_composite) : list tensor :=
    match x with Dense t => [t] | Sparse i v d => [i; v; d] | Other_composite ts => ts end.

  (** d[k] = v and d.update, for dicts whose keys are names of tensors *)
  Fixpoint set_tensor (d : list (tensor * tensor)) (k v : tensor) : list (tensor * tensor) :=
    match d with [] => [(k, v)] | (k', v') :: d' => if tensor_eqb k k' then (k, v) :: d' else (k', v') :: set_tensor d' k v end.
  Definition update_map (d other : list (tensor * tensor)) : list (tensor * tensor) := fold_left (fun d e => set_tensor d (fst e) (snd e)) other d.
  Fixpoint get_tensor (d : list (tensor * tensor)) (k : tensor) : option tensor :=
    match d with [] => None | (k', v) :: d' => if tensor_eqb k k' then Some v else get_tensor d' k end.

  (** saved_transform_io.py:150-166: the entries for an input.  zip stops at the shorter list.  A composite tensor for an
      input with a name is refused by tf.import_graph_def. *)
  Definition expand (info : encoding) (replacement : tensor_or_composite) : option (list (tensor * tensor)) :=
    match info, replacement with
    | Coo_sparse i v d, Sparse i' v' d' => Some [(i, i'); (v, v'); (d, d')]
    | Coo_sparse _ _ _, _ => None
    | Composite components, _ => Some (combine components (flatten_tensor replacement))
    | Name t, Dense t' => Some [(t, t')]
    | Name _, _ => None
    | Not_set, _ => None
    end.
  (** saved_transform_io.py:126-167 *)
  Definition expand_input_map (logical_input_map : list (string * tensor_or_composite)) (signature : list (string * encoding)) : option (list (tensor * tensor)) :=
    option_map (fun entries => update_map [] (concat entries))
      (all_some (map (fun kx => match dict_get signature (fst kx) with Some info => expand info (snd kx) | None => None end) logical_input_map)).

  (** ** Import *)

  Definition in_scope (scope name : string) : string := match scope with EmptyString => name | _ => (scope ++ "/" ++ name)%string end.
  (** tf.convert_to_tensor of a path: a constant called Const, in the current name scope *)
  Fixpoint add_constants (current : string) (assets : list (tensor * V)) (g : graph) : graph * list (tensor * tensor) :=
    match assets with
    | [] => (g, [])
    | (t, path) :: assets' =>
        let (n, used) := unique_name (names_in_use g) (in_scope current "Const") in
        let g1 := Graph (nodes g ++ [Node n (Constant path) []]) used (asset_filepaths g) (initializers g) in
        let (g2, m) := add_constants current assets' g1 in (g2, (t, Tensor n 0) :: m)
    end.

  (** TF_ImportGraphDefOptionsSetUniquifyNames: a node whose name is in the graph gets another one. *)
  Fixpoint free_name (fuel : nat) (existing : list string) (name : string) (i : nat) : string :=
    match fuel with
    | 0 => suffixed name i
    | S fuel' => if in_graph (suffixed name i) existing then free_name fuel' existing name (S i) else suffixed name i
    end.
  Definition imported_name (existing : list string) (scope name : string) : string :=
    let n := in_scope scope name in if in_graph n existing then free_name (S (List.length existing)) existing n 1 else n.
  (** tf_saver.import_meta_graph: the inputs in [input_map] are replaced; a ValueError if a tensor of it is not in the
      graph. *)
  Definition import_node (existing : list string) (scope : string) (input_map : list (tensor * tensor)) (n : node) : node :=
    Node (imported_name existing scope (node_name n)) (node_kind n)
      (map (fun t => match get_tensor input_map t with Some r => r | None => Tensor (imported_name existing scope (t_op t)) (t_index t) end) (node_inputs n)).
  Definition import_meta_graph (g : graph) (scope : string) (input_map : list (tensor * tensor)) (saved : list node) : option graph :=
    if forallb (fun kv => in_graph (t_op (fst kv)) (map node_name saved)) input_map
    then let imported := map (import_node (names g) scope input_map) saved in
         Some (Graph (nodes g ++ imported)
                     (map (fun n => (lower (node_name n), 1)) imported ++ (lower scope, 1) :: names_in_use g)
                     (asset_filepaths g) (initializers g))
    else None.

  (** ** Variables *)

  (** str.startswith, and what follows *)
  Fixpoint strip_prefix (p s : string) : option string :=
    match p, s with
    | EmptyString, _ => Some s
    | String a p', String b s' => if Ascii.eqb a b then strip_prefix p' s' else None
    | String _ _, EmptyString => None
    end.
  Definition is_digit (c : ascii) : bool := (48 <=? nat_of_ascii c) && (nat_of_ascii c <=? 57).
  Fixpoint all_digits (s : string) : bool := match s with EmptyString => true | String c s' => is_digit c && all_digits s' end.
  (** saved_transform_io.py:170: the last /part_ that is followed by digits only *)
  Fixpoint partitioned (s : string) : option (string * string) :=
    match s with
    | EmptyString => None
    | String c s' =>
        match partitioned s' with
        | Some (base, digits) => Some (String c base, digits)
        | None => match strip_prefix "/part_" s with Some digits => if all_digits digits then Some (EmptyString, digits) else None | None => None end
        end
    end.
  (** saved_transform_io.py:349-378 with tf.compat.v1.train.init_from_checkpoint, for a variable: one that is called like a
      slice is set from the checkpoint by its slice info, and all slices of a variable must have the same full name.
      Missing slices are left out here, since SavedModels have all; they raise. *)
  Definition checkpoint_initializer (dir original : string) (slice : option (string * nat)) : option initializer :=
    match partitioned original with
    | Some (base, digits) =>
        if String.eqb digits "" then None                      (* int('') *)
        else match slice with Some (_, i) => Some (From_checkpoint dir base (Some i)) | None => None end
    | None => Some (From_checkpoint dir original None)
    end.
  (** The checkpoint must have the tensor *)
  Variable checkpoint : string -> string -> option nat -> option V.
  Definition variable_initializer (dir scope : string) (n : node) : option (list (string * initializer)) :=
    match node_kind n with
    | Variable_op slice =>
        match strip_prefix (scope ++ "/") (node_name n) with
        | None => Some []
        | Some original =>
            match checkpoint_initializer dir original slice with
            | Some i => if match checkpoint (checkpoint_dir i) (checkpoint_name i) (checkpoint_slice i) with Some _ => true | None => false end
                        then Some [(node_name n, i)] else None
            | None => None
            end
        end
    | _ => Some []
    end.
  (** init_from_checkpoint replaces the initializers of these variables *)
  Definition initialize_variables (dir scope : string) (g : graph) : option graph :=
    option_map (fun inits => Graph (nodes g) (names_in_use g) (asset_filepaths g) (concat inits ++ initializers g))
      (all_some (map (variable_initializer dir scope) (nodes g))).

  (** ** Outputs *)

  (** saved_transform_io.py:389-393; a KeyError if there is no such operation *)
  Definition lookup_remapped_tensor (g : graph) (scope : string) (input_map : list (tensor * tensor)) (t : tensor) : option tensor :=
    match get_tensor input_map t with
    | Some r => Some r
    | None => if in_graph (in_scope scope (t_op t)) (names g) then Some (Tensor (in_scope scope (t_op t)) (t_index t)) else None
    end.
  (** saved_transform_io.py:395-420 *)
  Definition lookup_info (g : graph) (scope : string) (input_map : list (tensor * tensor)) (info : encoding) : option tensor_or_composite :=
    let lookup := lookup_remapped_tensor g scope input_map in
    match info with
    | Name t => option_map Dense (lookup t)
    | Coo_sparse i v d => match lookup i, lookup v, lookup d with Some i', Some v', Some d' => Some (Sparse i' v' d') | _, _, _ => None end
    | Composite ts => option_map Other_composite (all_some (map lookup ts))
    | Not_set => None
    end.
  Definition lookup_all (g : graph) (scope : string) (input_map : list (tensor * tensor)) (d : list (string * encoding)) : option (list (string * tensor_or_composite)) :=
    all_some (map (fun ki => option_map (fun x => (fst ki, x)) (lookup_info g scope input_map (snd ki))) d).
  Definition has_name {A} (d : list (string * A)) (k : string) : bool := existsb (fun e => String.eqb (fst e) k) d.

  (** saved_transform_io.py:190-409, in a graph whose current name scope is [current].  [dir]: the directory of the model. *)
  Definition partially_apply_saved_transform (g : graph) (current dir : string) (m : saved_model)
      (logical_input_map : list (string * tensor_or_composite)) (tensor_replacement_map : list (tensor * tensor))
      : option (graph * list (string * tensor_or_composite) * list (string * tensor_or_composite)) :=
    let (g1, asset_tensor_dict) := add_constants current (saved_assets m) g in
    if forallb (fun kx => has_name (input_signature m) (fst kx)) logical_input_map then
      match expand_input_map logical_input_map (input_signature m) with
      | None => None
      | Some expanded =>
          let input_map := update_map (update_map expanded asset_tensor_dict) tensor_replacement_map in
          let scope := fst (unique_name (names_in_use g1) (in_scope current "transform")) in
          if trainable_variables m then None
          else match import_meta_graph g1 scope input_map (saved_nodes m) with
               | None => None
               | Some g2 =>
                   let g3 := Graph (nodes g2) (names_in_use g2) (asset_filepaths g2 ++ map snd asset_tensor_dict) (initializers g2) in
                   match initialize_variables dir scope g3 with
                   | None => None
                   | Some g4 =>
                       match lookup_all g4 scope input_map (output_signature m),
                             lookup_all g4 scope input_map (filter (fun ki => negb (has_name logical_input_map (fst ki))) (input_signature m)) with
                       | Some outputs, Some unbound => Some (g4, unbound, outputs)
                       | _, _ => None
                       end
                   end
               end
      end
    else None.

  (** ** transform_raw_features *)

  (** graph_tools.InitializableGraphAnalyzer.ready_to_run, for a tensor of a graph without tables: given tensors are
      ready, unbound ones are not, another placeholder raises.  All inputs are looked at (graph_tools.py:300-343). *)
  Fixpoint ready_to_run (fuel : nat) (g : graph) (given unbound : list tensor) (t : tensor) : option bool :=
    match fuel with
    | 0 => None
    | S fuel' =>
        if existsb (tensor_eqb t) given then Some true
        else if existsb (tensor_eqb t) unbound then Some false
        else match find (fun n => String.eqb (node_name n) (t_op t)) (nodes g) with
             | None => None
             | Some n =>
                 match node_kind n with
                 | Placeholder => None
                 | _ => option_map (forallb (fun b => b)) (all_some (map (ready_to_run fuel' g given unbound) (node_inputs n)))
                 end
             end
    end.
  Definition ready_feature (g : graph) (given unbound : list tensor) (x : tensor_or_composite) : option bool :=
    option_map (forallb (fun b => b)) (all_some (map (ready_to_run (S (List.length (nodes g))) g given unbound) (flatten_tensor x))).
  (** output_wrapper.py:352-376 *)
  Definition transform_raw_features_compat_v1 (g : graph) (current dir : string) (m : saved_model)
      (raw_features : list (string * tensor_or_composite)) (drop_unused_features : bool) : option (graph * list (string * tensor_or_composite)) :=
    match partially_apply_saved_transform g current dir m raw_features [] with
    | None => None
    | Some (g', unbound, transformed) =>
        if drop_unused_features then
          let given_tensors := flat_map (fun e => flatten_tensor (snd e)) raw_features in
          let unbound_tensors := flat_map (fun e => flatten_tensor (snd e)) unbound in
          option_map (fun l => (g', map fst (filter (fun p => snd p) l)))
            (all_some (map (fun e => option_map (fun b => (e, b)) (ready_feature g' given_tensors unbound_tensors (snd e))) transformed))
        else Some (g', transformed)
    end.
End model.
