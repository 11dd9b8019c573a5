(** What it means for a line of the CSV coder to be read back.  The reader is
    Python's `csv.reader` with the `excel` dialect, written as its automaton; it
    does not refer to the writer. *)
From Coq Require Import NArith String List Bool.
From Verif Require Import CsvModel.
Import ListNotations.
Local Notation length := List.length.

(** States of the reader. *)
Inductive mode : Type :=
| StartRecord | StartField | InField | InQuoted | QuoteInQuoted | EatNewline.

(** The reader's state: mode, characters of the field being read (latest first),
    fields of the record being read (latest first), finished records (latest
    first). *)
Record reader : Type := Reader {
  r_mode : mode;
  r_field : text;
  r_fields : list text;
  r_records : list (list text)
}.

Definition is_newline (c : N) : bool := (c =? line_feed)%N || (c =? carriage_return)%N.

Definition save (m : mode) (s : reader) : reader :=
  Reader m [] (rev (r_field s) :: r_fields s) (r_records s).

Definition add (m : mode) (c : N) (s : reader) : reader :=
  Reader m (c :: r_field s) (r_fields s) (r_records s).

Definition go (m : mode) (s : reader) : reader :=
  Reader m (r_field s) (r_fields s) (r_records s).

(** One character in the mode at the start of a field. *)
Definition start_field (d c : N) (s : reader) : reader :=
  if is_newline c then save EatNewline s
  else if (c =? quote)%N then go InQuoted s
  else if (c =? d)%N then save StartField s
  else add InField c s.

(** One character; `None` is `csv.Error`. *)
Definition read_char (d c : N) (s : reader) : option reader :=
  match r_mode s with
  | StartRecord => if is_newline c then Some (go EatNewline s) else Some (start_field d c s)
  | StartField => Some (start_field d c s)
  | InField =>
      Some (if is_newline c then save EatNewline s
            else if (c =? d)%N then save StartField s
            else add InField c s)
  | InQuoted => Some (if (c =? quote)%N then go QuoteInQuoted s else add InQuoted c s)
  | QuoteInQuoted =>
      Some (if (c =? quote)%N then add InQuoted c s
            else if (c =? d)%N then save StartField s
            else if is_newline c then save EatNewline s
            else add InField c s)
  | EatNewline => if is_newline c then Some s else None
  end.

(** The end of a line of the file: a record ends there unless a quoted field is
    open. *)
Definition end_of_line (s : reader) : reader :=
  let finish s := Reader StartRecord [] [] (rev (r_fields s) :: r_records s) in
  match r_mode s with
  | StartRecord => finish s
  | StartField | InField | QuoteInQuoted => finish (save StartRecord s)
  | InQuoted => s
  | EatNewline => finish s
  end.

(** A file is a sequence of lines, each ended by a line feed. *)
Fixpoint read_chars (d : N) (file : text) (s : reader) : option reader :=
  match file with
  | [] => Some s
  | c :: file =>
      match read_char d c s with
      | None => None
      | Some s => read_chars d file (if (c =? line_feed)%N then end_of_line s else s)
      end
  end.

(** `list(csv.reader(file, delimiter=d))` for a file whose last line is ended:
    the records, or `None` when the reader raises.  A quoted field still open at
    the end of the file is reported as `None` too: no line written by the coder
    should leave one. *)
Definition read_file (d : N) (file : text) : option (list (list text)) :=
  match read_chars d file (Reader StartRecord [] [] []) with
  | Some (Reader StartRecord [] [] records) => Some (rev records)
  | _ => None
  end.

(** The file with the given lines. *)
Definition file_of (lines : list text) : text :=
  flat_map (fun l => l ++ [line_feed]) lines.

(** A delimiter that can separate fields, and that UTF-8 can encode. *)
Definition proper_delimiter (d : N) : Prop :=
  d <> quote /\ d <> line_feed /\ d <> carriage_return /\ encodable_char d = true.

(** A text without line breaks. *)
Definition one_line (s : text) : Prop := forall c, In c s -> is_newline c = false.

(** A text UTF-8 can encode. *)
Definition encodable (s : text) : Prop := forall c, In c s -> encodable_char c = true.

(** The text a user sees for a value: the text of a `str`, the text a `bytes`
    object encodes, `str(x)` of anything else. *)
Inductive shows : value -> text -> Prop :=
| shows_str : forall s, shows (VStr s) s
| shows_bytes : forall s, shows (VBytes (Some s)) s
| shows_other : forall s b, shows (VOther s b) s.

(** The names of the columns a feature fills: its own, or those of its keys. *)
Definition filled_by (feature : string * feature_spec) : list string :=
  match snd feature with
  | SparseFeature index_keys value_key => index_keys ++ [value_key]
  | _ => [fst feature]
  end.

(** The values of one column of an instance. *)
Inductive values_of : field_value -> list value -> Prop :=
| values_one : forall v, values_of (One v) [v]
| values_list : forall l, values_of (PyList l) l
| values_array : forall l, values_of (NdArray l) l.

(** The number of values the spec asks for. *)
Fixpoint product (shape : list nat) : nat :=
  match shape with [] => 1 | n :: shape => n * product shape end.

(** How the text in a column shows the texts of its values: read as a line of the
    secondary delimiter when the feature is multivalent, and otherwise the text of
    the single value, empty when there is none. *)
Definition cell_shows (secondary : option N) (multivalent : bool)
    (texts : list text) (cell : text) : Prop :=
  if multivalent
  then exists d2, secondary = Some d2 /\ read_file d2 (file_of [cell]) = Some [texts]
  else match texts with
       | [] => cell = []
       | t :: others => cell = t /\ others = []
       end.

Section Instances.
(** See the variables of [CsvModel]. *)
Variable cast : value -> value.

(** The values a feature contributes to a column: those of the instance,
    converted to the dtype from rank 2 on. *)
Definition spec_values (spec : feature_spec) (l : list value) : list value :=
  match spec with
  | FixedLen (_ :: _ :: _) => map cast l
  | _ => l
  end.

(** A value the coder can be asked to write into a column of a feature: the
    number of values matches the spec, every value shows a text UTF-8 can encode,
    and a feature that is not multivalent has at most one value.  A column that
    is neither multivalent nor of fixed length is given by a list. *)
Definition writable (spec : feature_spec) (multivalent : bool) (v : field_value)
    (texts : list text) : Prop :=
  (exists l, values_of v l
             /\ Forall2 shows (spec_values spec l) texts)
  /\ Forall encodable texts
  /\ (multivalent = false -> length texts <= 1)
  /\ match spec with
     | FixedLen [] => exists w, v = One w
     | FixedLen shape =>
         (forall w, v <> One w)
         /\ length texts = product shape
         /\ (multivalent = false -> length texts = 1)
     | VarLen | SparseFeature _ _ =>
         (forall w, v <> One w)
         /\ (multivalent = false -> forall l, v <> NdArray l)
     | OtherSpec => False
     end.

(** The instance has a writable value for each column of each feature. *)
Definition writable_instance (features : list (string * feature_spec))
    (multivalent : list string) (instance : list (string * field_value))
    (texts : string -> list text) : Prop :=
  forall feature column, In feature features -> In column (filled_by feature) ->
    exists v, lookup column instance = Some v
              /\ writable (snd feature) (existsb (String.eqb (fst feature)) multivalent) v
                   (texts column).
End Instances.

(** The columns are those the features fill, each once. *)
Definition matching_columns (columns : list string)
    (features : list (string * feature_spec)) : Prop :=
  NoDup columns /\ NoDup (flat_map filled_by features)
  /\ (forall c, In c columns <-> In c (flat_map filled_by features)).

(** A cell for each column, in the order of the columns, that shows the texts of
    the column. *)
Definition row_shows (columns : list string) (features : list (string * feature_spec))
    (secondary : option N) (multivalent : list string) (texts : string -> list text)
    (row : list text) : Prop :=
  Forall2 (fun column cell =>
             forall feature, In feature features -> In column (filled_by feature) ->
               cell_shows secondary (existsb (String.eqb (fst feature)) multivalent)
                 (texts column) cell)
    columns row.
