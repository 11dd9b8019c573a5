(** Vocabulary files, reading them back, and the lookup tables built from them. *)
From Coq Require Import String Ascii List ZArith Bool Arith.
From Verif Require Import VocabModel.
Import ListNotations.
Open Scope Z_scope.

(** ** Files (analyzer_impls.py:516-533) *)

(** A text file is its contents; a TFRecord file the list of its records (gzip and framing not modelled). *)
Inductive file := Text (contents : string) | Records (records : list string).

(** beam.io.WriteToText: every record is followed by a newline. *)
Fixpoint write_text (lines : list string) : string :=
  match lines with [] => EmptyString | l :: ls => (l ++ String newline (write_text ls))%string end.

Definition write_file (is_text : bool) (lines : list string) : file :=
  if is_text then Text (write_text lines) else Records lines.

(** ** Reading the vocabulary (output_wrapper.py:217-262) *)

(** Iterating over a file opened with 'rb': pieces that end after a newline, and the rest. *)
Fixpoint readlines (acc : string) (s : string) : list string :=
  match s with
  | EmptyString => match acc with EmptyString => [] | _ => [acc] end
  | String c s' => if Ascii.eqb c newline then (acc ++ String newline EmptyString)%string :: readlines EmptyString s'
                   else readlines (acc ++ String c EmptyString)%string s'
  end.

(** bytes.rstrip(b'\n') *)
Fixpoint rstrip (s : string) : string :=
  match s with
  | EmptyString => EmptyString
  | String c s' => match rstrip s' with
                   | EmptyString => if Ascii.eqb c newline then EmptyString else String c EmptyString
                   | r => String c r
                   end
  end.

(** output_wrapper.py:245-262 *)
Definition vocabulary_by_name (f : file) : list string :=
  match f with Text s => map rstrip (readlines EmptyString s) | Records r => r end.

(** output_wrapper.py:217-243, when the size is not in the annotations. *)
Definition vocabulary_size_by_name (f : file) : nat :=
  match f with Text s => List.length (readlines EmptyString s) | Records r => List.length r end.

(** ** Lookup tables (mappers.py:1211-1250) *)

(** str.split(' ') *)
Fixpoint split_spaces (acc : string) (s : string) : list string :=
  match s with
  | EmptyString => [acc]
  | String c s' => if Ascii.eqb c " "%char then acc :: split_spaces EmptyString s'
                   else split_spaces (acc ++ String c EmptyString)%string s'
  end.

(** tf_utils.py:977-998 ([_split_vocabulary_entries]): the part after the first space, if there is one
    (indexing fails otherwise). *)
Fixpoint after_space (s : string) : option string :=
  match s with
  | EmptyString => None
  | String c s' => if Ascii.eqb c " "%char then Some s' else after_space s'
  end.

(** The lines that tf.lookup.TextFileInitializer reads: TensorFlow's line reader drops carriage returns. *)
Fixpoint drop_returns (s : string) : string :=
  match s with
  | EmptyString => EmptyString
  | String c s' => if Ascii.eqb c carriage_return then drop_returns s' else String c (drop_returns s')
  end.
Definition table_lines (contents : string) : list string := map (fun l => drop_returns (rstrip l)) (readlines EmptyString contents).

(** mappers.py:1228-1237: the key of a line; None: TensorFlow raises. *)
Definition text_key (store_frequency : bool) (line : string) : option string :=
  match line with
  | EmptyString => None
  | _ => if store_frequency then nth_error (split_spaces EmptyString line) 1 else Some line
  end.
(** mappers.py:1219-1225, tf_utils.py:911-945 *)
Definition record_key (store_frequency : bool) (record : string) : option string :=
  if store_frequency then after_space record else Some record.

(** Initialising a hash table whose values are line numbers: a repeated key is an error. *)
Fixpoint build_table (keys : list (option string)) (i : nat) (table : list (string * nat)) : option (list (string * nat)) :=
  match keys with
  | [] => Some table
  | None :: _ => None
  | Some k :: ks => if existsb (fun e => String.eqb k (fst e)) table then None else build_table ks (S i) (table ++ [(k, i)])
  end.
Definition vocabulary_table (store_frequency : bool) (f : file) : option (list (string * nat)) :=
  build_table (match f with
               | Text s => map (text_key store_frequency) (table_lines s)
               | Records r => map (record_key store_frequency) r
               end) 0 [].

Fixpoint find (t : string) (table : list (string * nat)) : option nat :=
  match table with [] => None | (k, i) :: table' => if String.eqb t k then Some i else find t table' end.

Section lookup.
  (** TensorFlow's string fingerprint. *)
  Variable hash : string -> nat.
  Variables (num_oov_buckets default_value : Z).

  (** StaticVocabularyTable / StaticHashTable (mappers.py:1244-1250). *)
  Definition lookup (table : list (string * nat)) (t : string) : Z :=
    match find t table with
    | Some i => Z.of_nat i
    | None => if 0 <? num_oov_buckets then Z.of_nat (List.length table) + Z.of_nat (hash t) mod num_oov_buckets
              else default_value
    end.
  Definition table_size (table : list (string * nat)) : Z :=
    Z.of_nat (List.length table) + (if 0 <? num_oov_buckets then num_oov_buckets else 0).

  (** mappers.py:1253-1306 ([_apply_vocabulary_internal]): the values of the output tensor. *)
  Definition apply_vocabulary (store_frequency : bool) (f : file) (x : list string) : option (list Z) :=
    option_map (fun table => map (lookup table) x) (vocabulary_table store_frequency f).

  (** mappers.py:1298-1305: the range registered in the schema. *)
  Definition schema_range (store_frequency : bool) (f : file) : option (Z * Z) :=
    option_map (fun table =>
      let size := table_size table in
      if num_oov_buckets <=? 0 then (Z.min 0 default_value, Z.max (size - 1) default_value) else (0, size - 1))
      (vocabulary_table store_frequency f).
End lookup.

(** mappers.py:1310-1370 *)
Definition get_num_buckets (range : Z * Z) : Z := snd range + 1.
(** output_wrapper.py:265-281: fails unless the minimum is 0. *)
Definition num_buckets_for_transformed_feature (range : Z * Z) : option Z :=
  if fst range =? 0 then Some (snd range + 1) else None.

(** ** compute_and_apply_vocabulary (mappers.py:1003-1148) *)

(** tf_utils.py:717-739: regex_replace(" ", "__SPACE__"). *)
Fixpoint map_spaces (s : string) : string :=
  match s with
  | EmptyString => EmptyString
  | String c s' => if Ascii.eqb c " "%char then ("__SPACE__" ++ map_spaces s')%string else String c (map_spaces s')
  end.
(** mappers.py:1116-1117 *)
Definition format_input (p : params) (t : string) : string :=
  if is_string p && store_frequency p && is_text p then map_spaces t else t.

Section compute_and_apply.
  Variables (fmt : Qcanon.Qc -> string) (sha1 : string -> string) (hash : string -> nat).
  Variables (num_oov_buckets default_value : Z).

  (** [compute_and_apply_vocabulary] on [datasets], then applied to the values [x]: writes [lines], and
      produces [out] (None: it raises). *)
  Definition compute_and_apply (p : params) (datasets : list (list (list (string * Qcanon.Qc)))) (x : list string)
      (lines : list string) (size : nat) (out : option (list Z)) : Prop :=
    vocabulary fmt sha1 p (map (map (map (fun r => (format_input p (fst r), snd r)))) datasets) lines size /\
    out = apply_vocabulary hash num_oov_buckets default_value (store_frequency p) (write_file (is_text p) lines) (map (format_input p) x).
End compute_and_apply.
