(** CSV coder: `CsvCoder.encode`, its column handlers and its reusable writer.
    Models /repo/tensorflow_transform/coders/csv_coder.py. *)
From Coq Require Import NArith String List Bool.
Import ListNotations.
Local Notation length := List.length.

(** A Python `str`: the list of its code points. *)
Definition text := list N.

(** The double quote, the line feed and the carriage return. *)
Definition quote : N := 34%N.
Definition line_feed : N := 10%N.
Definition carriage_return : N := 13%N.

(** A Python value held by an instance: a `str`, a `bytes` (the text it decodes
    to, or nothing when it is not UTF-8), or any other object, of which the code
    uses only `str(x)` and `bool(x)`. *)
Inductive value : Type :=
| VStr (s : text)
| VBytes (decoded : option text)
| VOther (shown : text) (truth : bool).

(** What `instance[name]` can be: one value, a Python list, or a one-dimensional
    numpy array.  A nested list for a feature of rank 2 or more is given by its
    values in row-major order (csv_coder.py:75 flattens it). *)
Inductive field_value : Type :=
| One (v : value)
| PyList (l : list value)
| NdArray (l : list value).

(** The exceptions the modelled code lets out. *)
Inductive exn : Type :=
| TypeError | ValueError | IndexError | KeyError | UnicodeError.

Inductive outcome (A : Type) : Type :=
| Ok (a : A)
| Raise (e : exn).
Arguments Ok {A} _.
Arguments Raise {A} _.

(** `_to_string` (csv_coder.py:25-40): `tf.compat.as_str_any`, which decodes
    bytes as UTF-8, keeps a `str` and calls `str` on anything else. *)
Definition to_string (v : value) : outcome text :=
  match v with
  | VStr s => Ok s
  | VBytes (Some s) => Ok s
  | VBytes None => Raise UnicodeError
  | VOther s _ => Ok s
  end.

(** The list comprehension `[_to_string(x) for x in record]` (csv_coder.py:152):
    the first failure escapes. *)
Fixpoint to_strings (l : list value) : outcome (list text) :=
  match l with
  | [] => Ok []
  | v :: l =>
      match to_string v with
      | Raise e => Raise e
      | Ok s => match to_strings l with
                | Raise e => Raise e
                | Ok ss => Ok (s :: ss)
                end
      end
  end.

(** Whether `tf.compat.as_bytes` accepts a character: UTF-8 has no encoding for
    the surrogates U+D800 to U+DFFF. *)
Definition encodable_char (c : N) : bool :=
  negb ((55296 <=? c)%N && (c <=? 57343)%N).

Section Writer.
(** Whether `csv.writer` quotes a field because of a line feed or a carriage
    return although `lineterminator` is empty: false before Python 3.13, true
    from 3.13 on. *)
Variable quotes_newlines : bool.

(** `csv.writer` with the `excel` dialect, `QUOTE_MINIMAL` and
    `lineterminator=""` (csv_coder.py:133-135): the characters that make the
    writer quote a field. *)
Definition special (delimiter c : N) : bool :=
  (c =? delimiter)%N || (c =? quote)%N
  || (quotes_newlines && ((c =? line_feed)%N || (c =? carriage_return)%N)).

(** One field as `csv.writer` writes it: quoted, with its quotes doubled, when it
    holds a special character. *)
Definition write_field (delimiter : N) (f : text) : text :=
  if existsb (special delimiter) f
  then quote :: flat_map (fun c => if (c =? quote)%N then [quote; quote] else [c]) f ++ [quote]
  else f.

(** The fields of a row with the delimiter between them. *)
Fixpoint join (delimiter : N) (l : list text) : text :=
  match l with
  | [] => []
  | [f] => f
  | f :: l => f ++ delimiter :: join delimiter l
  end.

(** `writer.writerow` (csv_coder.py:152): a row made of one empty field is
    written as two quotes, so that it differs from the row without fields. *)
Definition write_row (delimiter : N) (fields : list text) : text :=
  match fields with
  | [[]] => [quote; quote]
  | _ => join delimiter (map (write_field delimiter) fields)
  end.

(** `_WriterWrapper.encode_record` (csv_coder.py:137-157) with the contents of
    `self._buffer` before and after.  The bytes it returns are given by the text
    they decode to.  When `as_bytes` raises, the buffer is not reset. *)
Definition encode_record (delimiter : N) (buffer : text) (record : list value)
  : text * outcome text :=
  match to_strings record with
  | Raise e => (buffer, Raise e)
  | Ok fields =>
      let buffer := buffer ++ write_row delimiter fields in
      if forallb encodable_char buffer then ([], Ok buffer) else (buffer, Raise UnicodeError)
  end.

(** A feature spec, as `schema_as_feature_spec` returns it.  Dtypes and default
    values are left out: only the conversion of values of rank 2 or more uses
    them, see [cast]. *)
Inductive feature_spec : Type :=
| FixedLen (shape : list nat)
| VarLen
| SparseFeature (index_keys : list string) (value_key : string)
| OtherSpec.

(** A `_FixedLenFeatureHandler` or a `_VarLenFeatureHandler`
    (csv_coder.py:43-112): name, index of the column, whether the secondary
    encoder is given. *)
Record handler : Type := Handler {
  h_name : string;
  h_fixed : option (list nat);
  h_index : nat;
  h_multi : bool
}.

(** A `CsvCoder`: its parameters and its handlers (csv_coder.py:165-270). *)
Record coder : Type := Coder {
  columns : list string;
  delimiter : N;
  secondary : option N;
  handlers : list handler
}.

(** `indices_by_name.get` (csv_coder.py:210-213): the dict comprehension keeps
    the last index of a name. *)
Fixpoint last_index (name : string) (columns : list string) : option nat :=
  match columns with
  | [] => None
  | c :: columns =>
      match last_index name columns with
      | Some i => Some (S i)
      | None => if String.eqb c name then Some 0 else None
      end
  end.

(** Whether `secondary_encoder_by_name.get(name)` is an encoder
    (csv_coder.py:207-209). *)
Definition is_multivalent (multivalent : list string) (name : string) : bool :=
  existsb (String.eqb name) multivalent.

(** The `_VarLenFeatureHandler`s of the keys of a sparse feature
    (csv_coder.py:247-263). *)
Fixpoint key_handlers (columns : list string) (multi : bool) (keys : list string)
  : outcome (list handler) :=
  match keys with
  | [] => Ok []
  | k :: keys =>
      match last_index k columns with
      | None => Raise ValueError
      | Some i =>
          match key_handlers columns multi keys with
          | Raise e => Raise e
          | Ok hs => Ok (Handler k None i multi :: hs)
          end
      end
  end.

(** The handlers of one feature (csv_coder.py:223-270). *)
Definition feature_handlers (columns multivalent : list string) (name : string)
    (spec : feature_spec) : outcome (list handler) :=
  let multi := is_multivalent multivalent name in
  match spec with
  | FixedLen shape =>
      match last_index name columns with
      | None => Raise ValueError
      | Some i => Ok [Handler name (Some shape) i multi]
      end
  | VarLen =>
      match last_index name columns with
      | None => Raise ValueError
      | Some i => Ok [Handler name None i multi]
      end
  | SparseFeature index_keys value_key =>
      key_handlers columns multi (index_keys ++ [value_key])
  | OtherSpec => Raise ValueError
  end.

(** The loop over the feature spec (csv_coder.py:219-270). *)
Fixpoint all_handlers (columns multivalent : list string)
    (features : list (string * feature_spec)) : outcome (list handler) :=
  match features with
  | [] => Ok []
  | (name, spec) :: features =>
      match feature_handlers columns multivalent name spec with
      | Raise e => Raise e
      | Ok hs =>
          match all_handlers columns multivalent features with
          | Raise e => Raise e
          | Ok hs' => Ok (hs ++ hs')
          end
      end
  end.

(** `CsvCoder.__init__` (csv_coder.py:165-270).  A delimiter is one character:
    `csv.writer` refuses anything else. *)
Definition make_coder (columns : list string) (features : list (string * feature_spec))
    (delimiter : N) (secondary : option N) (multivalent : list string) : outcome coder :=
  match secondary, multivalent with
  | None, _ :: _ => Raise ValueError
  | _, _ =>
      match all_handlers columns multivalent features with
      | Raise e => Raise e
      | Ok hs => Ok (Coder columns delimiter secondary hs)
      end
  end.

(** The mutable parts of a coder: the buffers of the main and of the secondary
    writer, empty when the coder is made (csv_coder.py:129). *)
Record buffers : Type := Buffers { main : text; second : text }.

Definition fresh : buffers := Buffers [] [].

(** The conversion to the dtype of the feature by `np.asarray` (csv_coder.py:75),
    applied from rank 2 on. *)
Variable cast : value -> value.
(** `str` of a list or of an array. *)
Variable show_sequence : list value -> text.

(** The values in a sequence given for a feature.  Simplified: a single object
    where a sequence is expected raises `TypeError`, as `len` of a number does;
    strings, which do have a length, are not distinguished. *)
Definition sequence (v : field_value) : outcome (list value) :=
  match v with
  | One _ => Raise TypeError
  | PyList l => Ok l
  | NdArray l => Ok l
  end.

(** `flattened_values` of a fixed length feature (csv_coder.py:69-75). *)
Definition flattened (shape : list nat) (v : field_value) : outcome (list value) :=
  match shape with
  | [] =>
      match v with
      | One v => Ok [v]
      | PyList l => Ok [VOther (show_sequence l) true]
      | NdArray l => Ok [VOther (show_sequence l) true]
      end
  | [_] => sequence v
  | _ =>
      match v with
      | One v => Ok [cast v]
      | PyList l => Ok (map cast l)
      | NdArray l => Ok (map cast l)
      end
  end.

(** `self._size` (csv_coder.py:59-61). *)
Definition size (shape : list nat) : nat := fold_left Nat.mul shape 1.

(** `bool` of a value. *)
Definition truthy (v : value) : bool :=
  match v with
  | VStr s => match s with [] => false | _ => true end
  | VBytes (Some []) => false
  | VBytes _ => true
  | VOther _ b => b
  end.

(** The truth of `values` in `... if values else ""` (csv_coder.py:112): a list
    is true when it has an element; an array of one element has the truth of this
    element, and one of several elements raises `ValueError`. *)
Definition sequence_truth (v : field_value) : outcome bool :=
  match v with
  | One v => Ok (truthy v)
  | PyList l => Ok (match l with [] => false | _ => true end)
  | NdArray [] => Ok false
  | NdArray [v] => Ok (truthy v)
  | NdArray _ => Raise ValueError
  end.

(** The call of the secondary encoder (csv_coder.py:84, 110): its result is put
    in the row as bytes. *)
Definition encode_secondary (c : coder) (b : buffers) (l : list value)
  : buffers * outcome value :=
  match secondary c with
  | None => (b, Raise ValueError)
  | Some d =>
      let '(second', r) := encode_record d (second b) l in
      (Buffers (main b) second',
       match r with Ok s => Ok (VBytes (Some s)) | Raise e => Raise e end)
  end.

(** `encode_value` of both handlers (csv_coder.py:67-86, 107-112): the value to
    be stored at the index of the handler. *)
Definition encode_value (c : coder) (b : buffers) (h : handler) (v : field_value)
  : buffers * outcome value :=
  match h_fixed h with
  | Some shape =>
      match flattened shape v with
      | Raise e => (b, Raise e)
      | Ok l =>
          if negb (Nat.eqb (length l) (size shape)) then (b, Raise ValueError)
          else if h_multi h then encode_secondary c b l
          else match l with
               | [] => (b, Raise IndexError)
               | v :: _ => (b, match to_string v with
                               | Ok s => Ok (VStr s)
                               | Raise e => Raise e
                               end)
               end
      end
  | None =>
      if h_multi h then
        match sequence v with
        | Raise e => (b, Raise e)
        | Ok l => encode_secondary c b l
        end
      else
        match sequence_truth v with
        | Raise e => (b, Raise e)
        | Ok false => (b, Ok (VStr []))
        | Ok true =>
            match sequence v with
            | Raise e => (b, Raise e)
            | Ok [] => (b, Raise IndexError)
            | Ok (v :: _) => (b, match to_string v with
                                 | Ok s => Ok (VStr s)
                                 | Raise e => Raise e
                                 end)
            end
        end
  end.

(** The assignment `string_list[index] = ...`. *)
Fixpoint store {A} (i : nat) (x : A) (l : list A) : list A :=
  match l, i with
  | [], _ => []
  | _ :: l, O => x :: l
  | y :: l, S i => y :: store i x l
  end.

(** `instance[name]`: a dict lookup, with the instance as a list of entries with
    different keys. *)
Fixpoint lookup (name : string) (instance : list (string * field_value))
  : option field_value :=
  match instance with
  | [] => None
  | (n, v) :: instance => if String.eqb n name then Some v else lookup name instance
  end.

(** The loop over the handlers (csv_coder.py:294-302).  The message added to a
    `TypeError` is left out. *)
Fixpoint fill (c : coder) (instance : list (string * field_value)) (hs : list handler)
    (b : buffers) (row : list value) : buffers * outcome (list value) :=
  match hs with
  | [] => (b, Ok row)
  | h :: hs =>
      match lookup (h_name h) instance with
      | None => (b, Raise KeyError)
      | Some v =>
          let '(b, r) := encode_value c b h v in
          match r with
          | Raise e => (b, Raise e)
          | Ok s => fill c instance hs b (store (h_index h) s row)
          end
      end
  end.

(** `str(None)`. *)
Definition none_value : value := VOther [78; 111; 110; 101]%N false.

(** `CsvCoder.encode` (csv_coder.py:281-303). *)
Definition encode (c : coder) (b : buffers) (instance : list (string * field_value))
  : buffers * outcome text :=
  let '(b, r) := fill c instance (handlers c) b (repeat none_value (length (columns c))) in
  match r with
  | Raise e => (b, Raise e)
  | Ok row =>
      let '(main', r) := encode_record (delimiter c) (main b) row in
      (Buffers main' (second b), r)
  end.

(** A history of calls of `encode` on one coder, each of which may raise. *)
Fixpoint encode_all (c : coder) (b : buffers)
    (instances : list (list (string * field_value))) : list (outcome text) :=
  match instances with
  | [] => []
  | i :: instances =>
      let '(b, r) := encode c b i in r :: encode_all c b instances
  end.
End Writer.
