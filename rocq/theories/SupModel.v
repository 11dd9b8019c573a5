(** * Inputs that are supplied for features that are not given
    /repo/tensorflow_transform/tf2_utils.py:74-207 and saved/saved_transform_io_v2.py:234-244, 353-368.
    [None]: an exception. *)
From Coq Require Import String List Arith Bool.
Import ListNotations.

(** tf.TensorShape: unknown, or a list of sizes that may be unknown *)
Definition static := option (list (option nat)).
(** A graph tensor that is an input of the function: what is known of its shape.  Of a ragged tensor, the row partitions from
    the outermost one, with their lengths if they are uniform, and the shape of flat_values. *)
Inductive spec :=
| Dense_spec (s : static)
| Sparse_spec (s values : static)
| Ragged_spec (partitions : list (option nat)) (flat : static)
| Other_spec.

Section model.
  Variable V : Type.
  Variable zero : V.
  Record array := Array { shape : list nat; values : list V }.
  Inductive value :=
  | Dense (a : array)
  | Sparse (indices : list (list nat)) (vals : array) (dense_shape : list nat)
  | Ragged (row_splits : list (list nat)) (flat_values : array).     (* outermost first *)

  (** tf.zeros *)
  Definition zeros (s : list nat) : array := Array s (repeat zero (fold_right Nat.mul 1 s)).
  (** tf2_utils.py:92-104; x or y in python: a size of 0 is replaced too. *)
  Definition or (x : option nat) (y : nat) : nat := match x with None | Some 0 => y | Some n => n end.
  Definition supply_missing_tensor (batch_size : nat) (s : static) : array :=
    match s with
    | None | Some [] => zeros []
    | Some (d :: ds) => zeros (or d batch_size :: map (fun d => match d with None => 1 | Some n => n end) ds)
    end.
  (** tf.raw_ops.PlaceholderWithDefault: the shapes must be compatible. *)
  Fixpoint compatible_sizes (ds : list (option nat)) (s : list nat) : bool :=
    match ds, s with
    | [], [] => true
    | d :: ds', n :: s' => match d with None => true | Some m => m =? n end && compatible_sizes ds' s'
    | _, _ => false
    end.
  Definition compatible (st : static) (s : list nat) : bool := match st with None => true | Some ds => compatible_sizes ds s end.
  Definition placeholder_with_default (a : array) (st : static) : option array := if compatible st (shape a) then Some a else None.

  (** tf2_utils.py:187-201: the number of rows of [values], from which the next row splits are made *)
  Fixpoint wrap (ragged_rank rows : nat) (row_splits : list (list nat)) : list (list nat) :=
    match ragged_rank with
    | 0 => row_splits
    | S k => let splits := seq 0 (rows + 1) in wrap k (List.length splits - 1) (splits :: row_splits)
    end.
  (** tf2_utils.py:136-206, for one key *)
  Definition supply (batch_size : nat) (tensor : spec) : option value :=
    match tensor with
    | Dense_spec s | Ragged_spec [] s => option_map Dense (placeholder_with_default (supply_missing_tensor batch_size s) s)
    | Sparse_spec s vs =>
        let vals := supply_missing_tensor batch_size vs in
        match s, shape vals with
        | Some dims, n :: _ =>
            let dense_rank := List.length dims in
            let indices := map (fun i => i :: repeat 0 (dense_rank - 1)) (seq 0 n) in
            let dense_shape := n :: repeat 1 (dense_rank - 1) in
            if compatible (Some [None; Some dense_rank]) [n; 1 + (dense_rank - 1)] && compatible (Some [Some dense_rank]) [List.length dense_shape]
            then option_map (fun v => Sparse indices v dense_shape) (placeholder_with_default vals vs) else None
        | _, _ => None                                           (* None - 1, or tf.shape(values)[0] of a scalar *)
        end
    | Ragged_spec partitions flat =>
        let vals := supply_missing_tensor batch_size flat in
        match shape vals with
        | [] => None
        | n :: _ => option_map (Ragged (wrap (List.length partitions) n [])) (placeholder_with_default vals flat)
        end
    | Other_spec => None                                         (* ValueError *)
    end.

  Fixpoint dict_get {A} (d : list (string * A)) (k : string) : option A :=
    match d with [] => None | (k', a) :: d' => if String.eqb k' k then Some a else dict_get d' k end.
  Fixpoint all_some {A} (l : list (option A)) : option (list A) :=
    match l with
    | [] => Some []
    | None :: _ => None
    | Some a :: l' => match all_some l' with Some r => Some (a :: r) | None => None end
    end.
  (** tf2_utils.py:107-207 *)
  Definition supply_missing_inputs (structured_inputs : list (string * spec)) (batch_size : nat) (missing_keys : list string) : option (list (string * value)) :=
    let missing_keys := match missing_keys with [] => map fst structured_inputs | _ => missing_keys end in
    all_some (map (fun k => match dict_get structured_inputs k with Some t => option_map (pair k) (supply batch_size t) | None => None end) missing_keys).

  (** saved_transform_io_v2.py:357-364 *)
  Definition batch_size_of (logical_input_map : list (string * value)) : option nat :=
    match logical_input_map with
    | [] => Some 1
    | (_, Ragged (splits :: _) _) :: _ => Some (List.length splits - 1)
    | (_, Ragged [] a) :: _ | (_, Dense a) :: _ => hd_error (shape a)
    | (_, Sparse _ _ dense_shape) :: _ => hd_error dense_shape
    end.
  (** saved_transform_io_v2.py:351-368: the inputs that the function is called with.  The order in which a set of keys is
      enumerated does not matter, since these are put in a dict and flattened by key. *)
  Definition modified_inputs (structured_inputs : list (string * spec)) (logical_input_map : list (string * value)) : option (list (string * value)) :=
    let unfed_input_keys := filter (fun k => negb (existsb (fun e => String.eqb (fst e) k) logical_input_map)) (map fst structured_inputs) in
    match unfed_input_keys with
    | [] => Some logical_input_map
    | _ =>
        match batch_size_of logical_input_map with
        | None => None
        | Some batch_size => option_map (fun missing => logical_input_map ++ missing) (supply_missing_inputs structured_inputs batch_size unfed_input_keys)
        end
    end.
End model.
