(** Protocol messages written by graphs: [_encode_proto], [_serialize_feature] and
    [serialize_example] (tf_utils.py:1808-1918), and the two annotations encoded in the graph. *)
From Coq Require Import String Ascii List Bool Arith NArith ZArith.
From Verif Require Import SortModel.
Import ListNotations.
Local Notation length := List.length.

(** Bytes are numbers below 256; that bound plays no role for contents, which are only copied. *)
Notation bytes := (list N) (only parsing).

(** The characters of a Python string; names are taken to be ASCII, so that a character is a byte. *)
Definition bytes_of (s : string) : bytes := map N_of_ascii (list_ascii_of_string s).

(** Elements of tensors: strings, int64 numbers, and float32 numbers as their 32 bits. *)
Inductive value : Type := VString (b : bytes) | VInt64 (z : Z) | VFloat (bits : N).
Inductive dtype : Type := DString | DInt64 | DFloat | DOther.

(** [tf.Tensor] of rank at least 1: the size of the first dimension, the other dimensions and the
    values in row-major order.  [tf.SparseTensor] of rank 2: the dense shape and the indices with
    their values.  [tf.RaggedTensor]s and sparse tensors of other ranks are left out. *)
Inductive tensor : Type :=
| Dense (dt : dtype) (batch : nat) (dims : list nat) (values : list value)
| Sparse (dt : dtype) (batch width : nat) (entries : list ((nat * nat) * value)).

Definition dtype_of (t : tensor) : dtype := match t with Dense d _ _ _ => d | Sparse d _ _ _ => d end.
Definition batch_of (t : tensor) : nat := match t with Dense _ b _ _ => b | Sparse _ b _ _ => b end.

(** Wire format.  A varint has seven bits in each byte, least significant first. *)
Fixpoint varint_loop (fuel : nat) (n : N) : bytes :=
  match fuel with
  | O => []
  | S fuel => if (n <? 128)%N then [n] else (n mod 128 + 128)%N :: varint_loop fuel (n / 128)%N
  end.
Definition varint (n : N) : bytes := varint_loop (S (N.size_nat n)) n.

Inductive ftype : Type := TBytes | TString | TMessage | TInt64 | TFloat.
Definition wire_type (t : ftype) : N := match t with TInt64 => 0 | TFloat => 5 | _ => 2 end.
Definition tag (number : N) (wt : N) : bytes := varint (number * 8 + wt)%N.
Definition delimited (b : bytes) : bytes := varint (N.of_nat (length b)) ++ b.

(** One value of a field without its tag.  int64 is written in two's complement, float as four
    bytes, least significant first; a value of another type is an error of the op. *)
Definition encode_value (t : ftype) (v : value) : option bytes :=
  match t, v with
  | TInt64, VInt64 z => Some (varint (Z.to_N (z mod 2 ^ 64)))
  | TFloat, VFloat n => Some [n mod 256; n / 256 mod 256; n / 65536 mod 256; n / 16777216 mod 256]%N
  | TBytes, VString b | TString, VString b | TMessage, VString b => Some (delimited b)
  | _, _ => None
  end.

Fixpoint all_some {A} (l : list (option A)) : option (list A) :=
  match l with
  | [] => Some []
  | Some x :: l' => match all_some l' with Some r => Some (x :: r) | None => None end
  | None :: _ => None
  end.

(** A field of a message type: its number, its type and whether it is packed. *)
Record field : Type := Field { f_number : N; f_type : ftype; f_packed : bool }.

(** The fields of the messages that are used.  tensorflow.* are those of TensorFlow's
    feature.proto and example.proto; the others are annotations.proto:7-20. *)
Inductive message_type : Type :=
| BytesList | FloatList | Int64List | Feature | FeatureEntry | Features | Example
| BucketBoundaries | VocabularyMetadata.
Definition field_of (m : message_type) (name : string) : option field :=
  match m with
  | BytesList => if String.eqb name "value" then Some (Field 1 TBytes false) else None
  | FloatList => if String.eqb name "value" then Some (Field 1 TFloat true) else None
  | Int64List => if String.eqb name "value" then Some (Field 1 TInt64 true) else None
  | Feature =>
      if String.eqb name "bytes_list" then Some (Field 1 TMessage false)
      else if String.eqb name "float_list" then Some (Field 2 TMessage false)
      else if String.eqb name "int64_list" then Some (Field 3 TMessage false) else None
  | FeatureEntry =>
      if String.eqb name "key" then Some (Field 1 TString false)
      else if String.eqb name "value" then Some (Field 2 TMessage false) else None
  | Features => if String.eqb name "feature" then Some (Field 1 TMessage false) else None
  | Example => if String.eqb name "features" then Some (Field 1 TMessage false) else None
  | BucketBoundaries => if String.eqb name "boundaries" then Some (Field 1 TFloat false) else None
  | VocabularyMetadata =>
      if String.eqb name "file_name" then Some (Field 1 TString false)
      else if String.eqb name "unfiltered_vocabulary_size" then Some (Field 2 TInt64 false)
      else if String.eqb name "filtered_vocabulary_size" then Some (Field 3 TInt64 false) else None
  end.

(** The bytes of one field of one row: the first [size] values of the row.  A packed field without
    values writes nothing. *)
Definition encode_field (f : field) (size : nat) (row : list value) : option bytes :=
  if length row <? size then None
  else
    match all_some (map (encode_value (f_type f)) (firstn size row)) with
    | None => None
    | Some vs =>
        if f_packed f then
          match vs with
          | [] => Some []
          | _ => Some (tag (f_number f) 2 ++ delimited (concat vs))
          end
        else Some (flat_map (fun v => tag (f_number f) (wire_type (f_type f)) ++ v) vs)
    end.

(** [tf.raw_ops.EncodeProto]: a message for each row, with the fields in the order of their numbers.
    Each field comes with a size and a row of values for each row of the batch. *)
Definition encode_row (fields : list (field * (nat * list value))) : option bytes :=
  match all_some (map (fun x => encode_field (fst x) (fst (snd x)) (snd (snd x)))
                    (py_sorted (fun x y => (f_number (fst x) <=? f_number (fst y))%N) fields)) with
  | Some l => Some (concat l)
  | None => None
  end.
Definition encode_op (batch : nat) (fields : list (field * (nat -> nat * list value)))
  : option (list bytes) :=
  all_some (map (fun r => encode_row (map (fun x => (fst x, snd x r)) fields)) (seq 0 batch)).

(** tf_utils.py:1810 *)
Definition default_value (d : dtype) : option value :=
  match d with
  | DString => Some (VString []) | DInt64 => Some (VInt64 0) | DFloat => Some (VFloat 0)
  | DOther => None
  end.

Fixpoint product (l : list nat) : nat := match l with [] => 1 | x :: l' => x * product l' end.

(** [tf.sparse.to_dense] checks that the indices are in bounds, in lexicographic order and
    different. *)
Fixpoint indices_valid (batch width : nat) (l : list (nat * nat)) : bool :=
  match l with
  | [] => true
  | (r, c) :: l' =>
      (r <? batch) && (c <? width)
      && match l' with
         | [] => true
         | (r', c') :: _ => (r <? r') || ((r =? r') && (c <? c'))
         end
      && indices_valid batch width l'
  end.
Fixpoint cell (d : value) (r c : nat) (entries : list ((nat * nat) * value)) : value :=
  match entries with
  | [] => d
  | ((r', c'), v) :: l => if (r =? r') && (c =? c') then v else cell d r c l
  end.

(** The size and the values of each row (tf_utils.py:1818-1832).  For a sparse tensor the size is
    the number of values of the row and the values are the row of [tf.sparse.to_dense]; a dense
    tensor is reshaped to rank 2. *)
Definition rows_of (t : tensor) : option (nat -> nat * list value) :=
  match t with
  | Sparse dt batch width entries =>
      match default_value dt with
      | Some d =>
          if indices_valid batch width (map fst entries) then
            Some (fun r => (length (filter (fun e => fst (fst e) =? r) entries),
                            map (fun c => cell d r c entries) (seq 0 width)))
          else None
      | None => None
      end
  | Dense _ _ dims values =>
      let width := product dims in
      Some (fun r => (width, firstn width (skipn (r * width) values)))
  end.

(** tf_utils.py:1813-1843.  The tensors are taken in the order of their names, stacking the sizes
    needs equal batch sizes. *)
Definition encode_proto (values_dict : list (string * tensor)) (m : message_type)
  : option (list bytes) :=
  let values := py_sorted (fun a b => String.leb (fst a) (fst b)) values_dict in
  match all_some (map (fun nt => match field_of m (fst nt), rows_of (snd nt) with
                                 | Some f, Some r => Some (f, r)
                                 | _, _ => None
                                 end) values) with
  | None => None
  | Some fields =>
      match values with
      | [] => None
      | (_, t) :: _ =>
          if forallb (fun nt => batch_of (snd nt) =? batch_of t) values
          then encode_op (batch_of t) fields else None
      end
  end.

(** A vector of strings. *)
Definition strings (l : list bytes) : tensor := Dense DString (length l) [] (map VString l).

(** tf_utils.py:1846-1885 *)
Definition serialize_feature (values : tensor) : option (list bytes) :=
  let via name m :=
    match encode_proto [("value"%string, values)] m with
    | Some l => encode_proto [(name, strings l)] Feature
    | None => None
    end in
  match dtype_of values with
  | DString => via "bytes_list"%string BytesList
  | DFloat => via "float_list"%string FloatList
  | DInt64 => via "int64_list"%string Int64List
  | DOther => None
  end.

(** The entries of one feature (tf_utils.py:1905-1915). *)
Definition serialize_entry (key : string) (value : tensor) : option (list bytes) :=
  match serialize_feature value with
  | None => None
  | Some serialized_value =>
      encode_proto
        [("key"%string, strings (repeat (bytes_of key) (length serialized_value)));
         ("value"%string, strings serialized_value)] FeatureEntry
  end.

(** [tf.stack(l, axis=1)] of vectors of strings: an error for no or for different sizes. *)
Definition stack (l : list (list bytes)) : option tensor :=
  match l with
  | [] => None
  | x :: _ =>
      if forallb (fun y => length y =? length x) l
      then Some (Dense DString (length x) [length l]
                   (flat_map (fun i => map (fun y => VString (nth i y [])) l) (seq 0 (length x))))
      else None
  end.

(** tf_utils.py:1888-1918.  [features] is a dict in the order of its insertions. *)
Definition serialize_example (features : list (string * tensor)) : option (list bytes) :=
  match all_some (map (fun kv => serialize_entry (fst kv) (snd kv))
                    (py_sorted (fun a b => String.leb (fst a) (fst b)) features)) with
  | None => None
  | Some entries =>
      match stack entries with
      | None => None
      | Some features_dict =>
          match encode_proto [("feature"%string, features_dict)] Features with
          | None => None
          | Some l => encode_proto [("features"%string, strings l)] Example
          end
      end
  end.

(** analyzers.py:2966-2990: the message of a vocabulary's annotation; the sizes are scalar int64
    tensors, the message that of the only row. *)
Definition vocabulary_metadata (file_name : string) (unfiltered filtered : Z) : option bytes :=
  match encode_proto
          [("unfiltered_vocabulary_size"%string, Dense DInt64 1 [] [VInt64 unfiltered]);
           ("filtered_vocabulary_size"%string, Dense DInt64 1 [] [VInt64 filtered]);
           ("file_name"%string, strings [bytes_of file_name])] VocabularyMetadata with
  | Some [m] => Some m
  | _ => None
  end.

(** mappers.py:2375-2391: the message of the boundaries' annotation, after the cast to float32;
    the boundaries are a tensor of any shape. *)
Definition bucket_boundaries (boundaries : list N) : option bytes :=
  match encode_op 1 [(Field 1 TFloat false, fun _ => (length boundaries, map VFloat boundaries))] with
  | Some [m] => Some m
  | _ => None
  end.
