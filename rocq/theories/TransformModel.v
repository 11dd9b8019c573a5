(** * Transforming a dataset

    Models the part of /repo/tensorflow_transform/beam/impl.py that is around the
    transform graph: the columns that pass through, the conversion of transformed
    batches, slicing, and the encoding of transformed data. *)
From Coq Require Import String.
From Coq Require Import List Arith Bool.
Import ListNotations.
Local Notation length := List.length.

Inductive error := ValueError | IndexError | KeyError | TypeError | OtherError.
Inductive outcome (A : Type) := Ok (x : A) | Raise (e : error).
Arguments Ok {A} x.
Arguments Raise {A} e.

(** A Python dict with text keys: entries in the order of insertion. *)
Fixpoint lookup {A} (k : string) (d : list (string * A)) : option A :=
  match d with
  | [] => None
  | (k', x) :: d => if String.eqb k k' then Some x else lookup k d
  end.
(** `d[k] = x` *)
Fixpoint assign {A} (k : string) (x : A) (d : list (string * A)) : list (string * A) :=
  match d with
  | [] => [(k, x)]
  | (k', y) :: d => if String.eqb k k' then (k', x) :: d else (k', y) :: assign k x d
  end.
(** `d.update(e)` *)
Definition update {A} (d e : list (string * A)) : list (string * A) :=
  fold_left (fun d kx => assign (fst kx) (snd kx) d) e d.
(** `d` without the key `k` *)
Definition without {A} (k : string) (d : list (string * A)) : list (string * A) :=
  filter (fun kx => negb (String.eqb k (fst kx))) d.

Section Transform.
(** Values of columns, and batches of tensors. *)
Context {P T : Type}.
(** `==` of two values of a column, as a Python set compares them. *)
Variable eqb : P -> P -> bool.

(** A cell of a column of type list<primitive>: null or the values. *)
Definition cell := option (list P).
(** A `pa.RecordBatch`: the names and the columns. *)
Definition record_batch := list (string * list cell).

(** impl.py:511 and `RecordBatch.num_rows` *)
Definition num_rows (b : record_batch) : nat :=
  match b with [] => 0 | (_, c) :: _ => length c end.
(** `RecordBatch.slice` *)
Definition slice (offset len : nat) (b : record_batch) : record_batch :=
  map (fun nc => (fst nc, firstn len (skipn offset (snd nc)))) b.

(** impl.py:461-484 `_maybe_slice_large_record_batch`.  [nbytes] is arbitrary, as a
    slice may count the memory it shares.  The fuel is the number of rows: each half
    has fewer. *)
Variable nbytes : record_batch -> nat.
Variable max_bytes : nat.
Fixpoint maybe_slice (fuel : nat) (b : record_batch) : list record_batch :=
  if max_bytes <? nbytes b then
    if num_rows b <? 2 then [b]
    else match fuel with
    | 0 => [b]
    | S fuel =>
        let mid := num_rows b / 2 in
        (maybe_slice fuel (slice 0 mid b)
         ++ maybe_slice fuel (slice mid (num_rows b - mid) b))%list
    end
  else [b].

(** impl.py:297-305: the passthrough keys must not be among the names of the input
    tensors. *)
Definition keys_allowed (passthrough_keys schema_keys : list string) : bool :=
  negb (existsb (fun k => existsb (String.eqb k) schema_keys) passthrough_keys).

(** impl.py:336-352 `_get_passthrough_data_from_recordbatch` (the columns of the batch
    are those of the schema, and its names are different from each other) *)
Definition passthrough_data (passthrough_keys : list string) (b : record_batch) : list (string * list cell) :=
  flat_map (fun k => match lookup k b with Some c => [(k, c)] | None => [] end) passthrough_keys.

(** The tensors of a batch (`TensorAdapter.ToBatchTensors`), and the transform graph
    without the excluded outputs.  [None] when an exception is raised. *)
Variable adapt : record_batch -> option (list (string * T)).
Variable graph : list (string * T) -> option (list (string * T)).

(** impl.py:354-393 `_handle_batch`: a dict of tensors and columns *)
Definition handle_batch (passthrough_keys : list string) (b : record_batch)
  : outcome (list (string * (T + list cell))) :=
  match adapt b with
  | None => Raise OtherError
  | Some feed =>
      match graph feed with
      | None => Raise ValueError
      | Some outputs =>
          Ok (update (map (fun kt => (fst kt, inl (snd kt))) outputs)
                     (map (fun kc => (fst kc, inr (snd kc))) (passthrough_data passthrough_keys b)))
      end
  end.

(** `converter.convert`, which is to be given tensors for exactly the features of its
    schema, and the validation of impl.py:503-506. *)
Variable convert : list (string * T) -> option record_batch.
Variable validate : list (string * T) -> bool.

(** impl.py:524-526: the set of the first values of the cells; [None] when a cell is an
    empty list (IndexError).  A null cell counts as [None]. *)
Definition first_value (c : cell) : option (option P) :=
  match c with
  | None => Some None
  | Some [] => None
  | Some (x :: _) => Some (Some x)
  end.
Definition same_value (a b : option P) : bool :=
  match a, b with
  | None, None => true
  | Some x, Some y => eqb x y
  | _, _ => false
  end.
Fixpoint data_set (cells : list cell) (seen : list (option P)) : option (list (option P)) :=
  match cells with
  | [] => Some seen
  | c :: cells =>
      match first_value c with
      | None => None
      | Some v => data_set cells (if existsb (same_value v) seen then seen else seen ++ [v])%list
      end
  end.

(** impl.py:515-539: one passthrough column next to transformed columns of [batch_size]
    rows *)
Definition fit (batch_size : nat) (data : list cell) : outcome (list cell) :=
  if Nat.eqb (length data) batch_size || Nat.eqb (length data) 1 then Ok data
  else match data_set data [] with
  | None => Raise IndexError
  | Some [v] => Ok [option_map (fun x => [x]) v]
  | Some _ => Raise ValueError
  end.
Fixpoint add_passthrough (batch_size : nat) (data : list (string * (T + list cell)))
    (columns : record_batch) (unary : list (string * list cell))
  : outcome (record_batch * list (string * list cell)) :=
  match data with
  | [] => Ok (columns, unary)
  | (_, inl _) :: _ => Raise OtherError
  | (k, inr c) :: data =>
      match fit batch_size c with
      | Raise e => Raise e
      | Ok c =>
          if Nat.eqb (length c) batch_size
          then add_passthrough batch_size data (columns ++ [(k, c)])%list unary
          else add_passthrough batch_size data columns (unary ++ [(k, c)])%list
      end
  end.

(** impl.py:487-543 `_convert_to_record_batch`.  The entries that are not popped are
    tensors: a column could only be left if its key were not a passthrough key. *)
Definition convert_to_record_batch (passthrough_keys : list string) (validate_values : bool)
    (batch_dict : list (string * (T + list cell)))
  : outcome (list (record_batch * list (string * list cell))) :=
  let data := flat_map (fun k => match lookup k batch_dict with Some x => [(k, x)] | None => [] end)
                passthrough_keys in
  let tensors := flat_map (fun kx => match snd kx with inl t => [(fst kx, t)] | inr _ => [] end)
                   (fold_left (fun d k => without k d) passthrough_keys batch_dict) in
  if validate_values && negb (validate tensors) then Raise ValueError
  else match convert tensors with
  | None => Raise ValueError
  | Some [] => Raise IndexError
  | Some columns =>
      match add_passthrough (num_rows columns) data columns [] with
      | Raise e => Raise e
      | Ok (columns, unary) =>
          Ok (map (fun b => (b, unary)) (maybe_slice (num_rows columns) columns))
      end
  end.

(** impl.py:1722-1760 for one batch of the input *)
Definition transform_batch (passthrough_keys : list string) (output_record_batches : bool) (b : record_batch)
  : outcome (list (record_batch * list (string * list cell))) :=
  match handle_batch passthrough_keys b with
  | Raise e => Raise e
  | Ok batch_dict => convert_to_record_batch passthrough_keys (negb output_record_batches) batch_dict
  end.

(** impl_helper.py:172-233 `_example_to_dict`, `record_batch_to_instance_dicts`, through tf.Examples.
    Simplified: values of fixed length features are not reshaped, and arrays are not told
    from lists. *)
Definition instance_dicts (b : record_batch) : list (list (string * cell)) :=
  map (fun i => map (fun nc => (fst nc, nth i (snd nc) None)) b) (seq 0 (num_rows b)).

(** impl.py:546-559 `_transformed_batch_to_instance_dicts` *)
Definition to_instance_dicts (transformed : record_batch * list (string * list cell))
  : list (list (string * cell)) :=
  let (b, unary) := transformed in
  map (fun instance => fold_left (fun d kc => assign (fst kc) (nth 0 (snd kc) None) d) unary instance)
      (instance_dicts b).

(** impl.py:1762-1773: the instance dicts of one batch of the input *)
Definition transform_to_instances (passthrough_keys : list string) (b : record_batch)
  : outcome (list (list (string * cell))) :=
  match transform_batch passthrough_keys false b with
  | Raise e => Raise e
  | Ok outs => Ok (flat_map to_instance_dicts outs)
  end.

(** impl.py:1636-1777 `TransformDataset.expand` for record batches, with instance dicts
    as output; the output is a collection, here in the order of the batches *)
Fixpoint transform_batches (passthrough_keys : list string) (batches : list record_batch)
  : outcome (list (list (string * cell))) :=
  match batches with
  | [] => Ok []
  | b :: batches =>
      match transform_to_instances passthrough_keys b with
      | Raise e => Raise e
      | Ok instances =>
          match transform_batches passthrough_keys batches with
          | Raise e => Raise e
          | Ok more => Ok (instances ++ more)%list
          end
      end
  end.
Definition transform_dataset (passthrough_keys schema_keys : list string) (batches : list record_batch)
  : outcome (list (list (string * cell))) :=
  if keys_allowed passthrough_keys schema_keys then transform_batches passthrough_keys batches
  else Raise ValueError.

(** impl.py:1824-1834: the tf.Examples of a transformed record batch.  The encoder (of
    tfx_bsl) is given the whole record batch, and is taken to encode all its columns. *)
Definition encode_record_batch (transformed : record_batch * list (string * list cell))
  : list (list (string * cell)) :=
  instance_dicts (fst transformed).

(** impl.py:1835-1843: the tf.Example of an instance; `ExampleProtoCoder` encodes the
    features of the schema (see C42) *)
Definition encode_instance (features : list string) (instance : list (string * cell))
  : list (string * cell) :=
  flat_map (fun k => match lookup k instance with Some c => [(k, c)] | None => [] end) features.
End Transform.
Arguments cell P : clear implicits.
Arguments record_batch P : clear implicits.
