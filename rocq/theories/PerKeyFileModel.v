(** * Per-key statistics in a file

    Models [key_vocabulary_filename] of the per-key scalers: writing the statistics
    of each key to a text file (analyzers.py:209-247, beam/analyzer_impls.py:1431-1443
    and 487-580) and applying it (tf_utils.py:1001-1060, mappers.py:410-421, 693-703).
    Batches are one-dimensional dense tensors. *)
From Coq Require Import String Ascii List Bool Arith.
From Verif Require Import SortModel VocabFileModel.
Import ListNotations.
Local Open Scope string_scope.
Local Open Scope list_scope.

(** The text between single characters: str.split(',') and its inverse ','.join. *)
Definition comma : ascii := ","%char.
Fixpoint join (parts : list string) : string :=
  match parts with
  | [] => ""
  | [p] => p
  | p :: ps => (p ++ String comma (join ps))%string
  end.
Fixpoint split_commas (acc : string) (s : string) : list string :=
  match s with
  | EmptyString => [acc]
  | String c s' => if Ascii.eqb c comma then acc :: split_commas EmptyString s'
                   else split_commas (acc ++ String c EmptyString)%string s'
  end.

(** A hash table of strings; adding a key twice is an error unless the values are
    equal (TensorFlow's static hash table). *)
Fixpoint table_find (k : string) (table : list (string * string)) : option string :=
  match table with
  | [] => None
  | (k', v) :: t => if String.eqb k k' then Some v else table_find k t
  end.
Fixpoint fill_table (rows : list (option (string * string))) (table : list (string * string))
    : option (list (string * string)) :=
  match rows with
  | [] => Some table
  | None :: _ => None
  | Some (k, v) :: rows =>
      match table_find k table with
      | None => fill_table rows (table ++ [(k, v)])
      | Some v' => if String.eqb v v' then fill_table rows table else None
      end
  end.

(** tf_utils.py:1034-1043: tf.lookup.TextFileInitializer with the delimiter [" "],
    column 1 as key and column 0 as value; further columns are not read. *)
Definition table_row (line : string) : option (string * string) :=
  match split_spaces EmptyString line with
  | v :: k :: _ => Some (k, v)
  | _ => None
  end.
Definition per_key_table (contents : string) : option (list (string * string)) :=
  fill_table (map table_row (table_lines contents)) [].

Section Numbers.
Context {N : Type}.
(** str() of a number, and tf.strings.to_number of a string. *)
Variable show : N -> string.
Variable read : string -> N.
(** hashlib.sha1 *)
Variable sha1 : string -> string.

(** beam/analyzer_impls.py:1440-1443: the value of a key is encoded, and comes first. *)
Definition encode_value (kv : string * list N) : string * string := (join (map show (snd kv)), fst kv).

(** beam/analyzer_impls.py:138-162 ([_OrderElementsFn]) with [store_frequency] and
    [fingerprint_shuffle], 90-99 and 102-108: sorted by fingerprint of the key; a
    dummy if there is none; the value, a space and the key. *)
Definition dummy_key : string := "49d0cd50-04bb-48c0-bc6f-5b575dce351a".
Definition ordered (entries : list (string * string)) : list (string * string) :=
  py_sorted (fun a b => bytes_leb (sha1 (snd a)) (sha1 (snd b))) entries.
Definition with_dummy (entries : list (string * string)) : list (string * string) :=
  match entries with [] => [("1", dummy_key)] | _ => entries end.
Definition entry_line (e : string * string) : string := (fst e ++ String " "%char (snd e))%string.

(** The contents of the file for the combined values of all keys, which Beam gives
    in any order. *)
Definition per_key_file (stats : list (string * list N)) : string :=
  write_text (map entry_line (with_dummy (ordered (map encode_value stats)))).

(** tf_utils.py:1032-1056: the strings of the numbers of each key: the value found in
    the table or the default, split, and padded to the longest of the batch. *)
Definition default_value : string := "0,0".
Definition number_strings (table : list (string * string)) (keys : list string) : list (list string) :=
  let rows := map (fun k => split_commas EmptyString
                (match table_find k table with Some v => v | None => default_value end)) keys in
  let width := fold_right Nat.max 0 (map (@List.length string) rows) in
  map (fun row => row ++ repeat "0" (width - List.length row)) rows.
(** tf_utils.py:1050-1057 *)
Definition to_number (s : string) : N := read (match s with EmptyString => "0" | _ => s end).
Definition apply_per_key_vocabulary (contents : string) (keys : list string) : option (list (list N)) :=
  option_map (fun table => map (map to_number) (number_strings table keys)) (per_key_table contents).

(** The columns that the scalers use, for every row of the batch (mappers.py:418-421,
    701-703); None: an error. *)
Fixpoint columns (rows : list (list N)) : option (list (N * N)) :=
  match rows with
  | [] => Some []
  | (a :: b :: _) :: rows => option_map (cons (a, b)) (columns rows)
  | _ :: _ => None
  end.
Definition file_statistics (stats : list (string * list N)) (keys : list string) : option (list (N * N)) :=
  match apply_per_key_vocabulary (per_key_file stats) keys with
  | Some rows => columns rows
  | None => None
  end.
End Numbers.

(** tf.strings.to_number with its default [out_type], float32, of the text of an
    integer: rounding to 24 bits, ties to even (overflow not modelled). *)
From Coq Require Import ZArith.
Definition float32_of_Z (z : Z) : Z :=
  let m := Z.abs z in
  let e := Z.max 0 (Z.log2 m - 23) in
  let q := (m / 2 ^ e)%Z in
  let r := (m mod 2 ^ e)%Z in
  let up := if (2 * r <? 2 ^ e)%Z then 0%Z
            else if (2 ^ e <? 2 * r)%Z then 1%Z
            else if (e =? 0)%Z then 0%Z else (q mod 2)%Z in
  (Z.sgn z * ((q + up) * 2 ^ e))%Z.
