(** Vocabularies asked for by name: what tft.vocabulary, tft.experimental.approximate_vocabulary and
    tft.annotate_asset record while the preprocessing function is traced, and what
    tft.experimental.get_vocabulary_size_by_name and tft.TFTransformOutput make of it. *)
From Coq Require Import String Ascii List Bool Arith.
From Verif Require Import MiscModel VocabFileModel.
Import ListNotations.

(** Names are lists of (ASCII) characters, as in MiscModel. *)
Definition name := list ascii.

(** ** Dictionaries *)

(** d[k] = v: the value of a key that is there is replaced *)
Fixpoint dict_set {V : Type} (d : list (name * V)) (k : name) (v : V) : list (name * V) :=
  match d with
  | [] => [(k, v)]
  | (k', v') :: d' => if name_eqb k k' then (k, v) :: d' else (k', v') :: dict_set d' k v
  end.
(** dict(pairs), and the dict comprehension of annotators.py:212-215 *)
Definition dict_of {V : Type} (pairs : list (name * V)) : list (name * V) :=
  fold_left (fun d kv => dict_set d (fst kv) (snd kv)) pairs [].
(** d.get(k) *)
Definition dict_get {V : Type} (d : list (name * V)) (k : name) : option V :=
  option_map snd (List.find (fun e => name_eqb k (fst e)) d).

(** ** Calls of the preprocessing function *)

(** A call of tft.vocabulary, or of approximate_vocabulary ([v_approximate]); the entries its analysis
    writes and the size its analysis counts, with the reserved tokens (analyzers.py:2305-2329), are part of
    the call ([v_lines], [v_size]; VocabModel.vocabulary computes them). *)
Record vocab := Vocab {
  v_name : option name;    (* vocab_filename *)
  v_store : bool;          (* store_frequency *)
  v_scope : name;          (* the current name scope *)
  v_text : bool;           (* file_format == 'text' *)
  v_approximate : bool;
  v_lines : list string;
  v_size : nat }.
Inductive call := MakeVocabulary (v : vocab) | AnnotateAsset (key filename : name).

(** experimental/analyzers.py:303-328 ([_get_approx_vocab_filename]), with the prefixes of lines 59-60 *)
Definition approx_prefix (store_frequency : bool) : name :=
  if store_frequency then list_ascii_of_string "approx_vocab_" else list_ascii_of_string "approx_vocab_frequency_".
Definition get_approx_vocab_filename (vocab_filename : option name) (store_frequency : bool) (scope : name) : option name :=
  sanitized_vocab_filename vocab_filename (match vocab_filename with Some _ => None | None => Some (approx_prefix store_frequency) end) scope.

(** analyzers.py:2111-2112, experimental/analyzers.py:450-451.  sanitized_vocab_filename does not raise
    here: exactly one of its arguments is given. *)
Definition v_filename (v : vocab) : name :=
  match (if v_approximate v then get_approx_vocab_filename else get_vocab_filename) (v_name v) (v_store v) (v_scope v) with
  | Some f => f
  | None => []
  end.

(** What the graph holds: the collections of annotators.py:28-38 and the annotations of the schema that are
    VocabularyMetadata messages (file_name, filtered_vocabulary_size). *)
Record graph := Graph {
  asset_keys : list name;
  asset_filenames : list name;
  vocabulary_sizes : list (name * nat);
  vocabulary_metadata : list (name * nat) }.
Definition empty_graph : graph := Graph [] [] [] [].

(** annotators.py:230-246 ([annotate_asset]) *)
Definition annotate_asset (g : graph) (asset_key asset_filename : name) : graph :=
  Graph (asset_keys g ++ [asset_key]) (asset_filenames g ++ [asset_filename]) (vocabulary_sizes g) (vocabulary_metadata g).

(** annotators.py:249-253 ([annotate_vocab_size]) *)
Definition annotate_vocab_size (g : graph) (vocab_filename : name) (vocab_size : nat) : graph :=
  Graph (asset_keys g) (asset_filenames g) (vocabulary_sizes g ++ [(vocab_filename, vocab_size)]) (vocabulary_metadata g).

(** analyzers.py:2946-2993 ([_maybe_annotate_vocab_metadata]); [pb]: whether annotations_pb2 can be
    imported.  The unfiltered size, which is not read back, is left out; C60 is about how annotations get
    into the schema. *)
Definition maybe_annotate_vocab_metadata (pb : bool) (g : graph) (vocab_filename : name) (filtered_vocabulary_size : nat) : graph :=
  if pb then Graph (asset_keys g) (asset_filenames g) (vocabulary_sizes g) (vocabulary_metadata g ++ [(vocab_filename, filtered_vocabulary_size)])
  else g.

(** analyzers.py:1868-1894 ([register_vocab]) *)
Definition register_vocab (g : graph) (sanitized_filename : name) (vocabulary_size : option nat) (vocabulary_key : option name) (text : bool) : graph :=
  let vocabulary_key := match vocabulary_key with Some k => k | None => sanitized_filename end in
  let filename := written_name text sanitized_filename in
  let g := annotate_asset g vocabulary_key filename in
  match vocabulary_size with Some n => annotate_vocab_size g vocabulary_key n | None => g end.

(** analyzers.py:2330-2339 (tft.vocabulary) and experimental/analyzers.py:478-481 (approximate_vocabulary) *)
Definition step (pb : bool) (g : graph) (c : call) : graph :=
  match c with
  | AnnotateAsset key filename => annotate_asset g key filename
  | MakeVocabulary v =>
      if v_approximate v then register_vocab g (v_filename v) None (v_name v) (v_text v)
      else register_vocab (maybe_annotate_vocab_metadata pb g (v_filename v) (v_size v)) (v_filename v) (Some (v_size v)) (v_name v) (v_text v)
  end.
Definition trace (pb : bool) (calls : list call) : graph := fold_left (step pb) calls empty_graph.

(** experimental/annotators.py:32-92 ([get_vocabulary_size_by_name]), after [calls]; None models ValueError *)
Definition size_when_tracing (pb : bool) (calls : list call) (vocab_filename : name) : option nat :=
  dict_get (dict_of (vocabulary_sizes (trace pb calls))) vocab_filename.

(** ** What is written *)

(** os.path.basename: what follows the last slash *)
Fixpoint until_slash (s : name) : name :=
  match s with [] => [] | c :: s' => if Ascii.eqb c "/" then [] else c :: until_slash s' end.
Definition basename (path : name) : name := rev (until_slash (rev path)).

(** annotators.py:194-216 ([get_asset_annotations]) *)
Definition get_asset_annotations (g : graph) : list (name * name) :=
  dict_of (map (fun kf => (basename (fst kf), basename (snd kf))) (combine (asset_keys g) (asset_filenames g))).

(** impl.py:1253 and beam_metadata_io.py:91-105: the asset map that is written beside the schema, as it is
    read back (output_wrapper.py:161-166).  An empty one is not written and read as {}. *)
Definition asset_map (pb : bool) (calls : list call) : list (name * name) := get_asset_annotations (trace pb calls).

(** The assets directory of the SavedModel: the files the vocabularies are written to
    (analyzer_impls.py:504, 524-534) and other assets.  Of several analyses that write to one file one
    wins: here the last. *)
Definition vocabulary_files (calls : list call) : list (name * file) :=
  flat_map (fun c => match c with
                     | MakeVocabulary v => [(written_name (v_text v) (v_filename v), write_file (v_text v) (v_lines v))]
                     | AnnotateAsset _ _ => []
                     end) calls.
Definition assets (calls : list call) (others : list (name * file)) : list (name * file) := dict_of (others ++ vocabulary_files calls).

(** ** TFTransformOutput *)

(** str.endswith *)
Definition ends_with (suffix s : name) : bool := name_eqb suffix (skipn (List.length s - List.length suffix) s).

Section output.
  Variables (pb : bool) (calls : list call) (others : list (name * file)).

  (** output_wrapper.py:139-188 *)
  Definition file_by_name (vocab_filename : name) : found :=
    vocabulary_file_by_name (asset_map pb calls) (map fst (assets calls others)) vocab_filename.

  (** output_wrapper.py:190-215 ([_vocabulary_size_from_annotations]).  Other annotations of the schema
      unpack to a message whose size is 0, so they are passed over. *)
  Definition size_from_annotations (vocab_filename : name) : option nat :=
    option_map snd (List.find (fun m => name_eqb (fst m) vocab_filename && negb (snd m =? 0))
                      (if pb then vocabulary_metadata (trace pb calls) else [])).

  (** The branch on the name of the file (output_wrapper.py:228-243, 252-262): a file that is not of the
      format its name says is an error (None). *)
  Definition read_file (path : name) : option file :=
    match dict_get (assets calls others) path with
    | Some (Records r) => if ends_with (list_ascii_of_string "tfrecord.gz") path then Some (Records r) else None
    | Some (Text s) => if ends_with (list_ascii_of_string "tfrecord.gz") path then None else Some (Text s)
    | None => None
    end.

  (** output_wrapper.py:217-243; None models an exception *)
  Definition size_by_name (vocab_filename : name) : option nat :=
    match size_from_annotations vocab_filename with
    | Some n => Some n
    | None => match file_by_name vocab_filename with
              | Found path => option_map vocabulary_size_by_name (read_file path)
              | _ => None
              end
    end.

  (** output_wrapper.py:245-262; None models an exception *)
  Definition entries_by_name (vocab_filename : name) : option (list string) :=
    match file_by_name vocab_filename with
    | Found path => option_map vocabulary_by_name (read_file path)
    | _ => None
    end.
End output.
