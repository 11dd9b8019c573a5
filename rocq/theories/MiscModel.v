(** Small pure functions: recommended min_diff_from_avg, sums of labelled weights, vocabulary ranges,
    names of vocabulary files. *)
From Coq Require Import String Ascii List ZArith QArith Qround Bool Arith.
From Verif Require Import CombineModel.
Import ListNotations.
Open Scope Z_scope.

(** ** analyzers.py:2343-2379 ([calculate_recommended_min_diff_from_avg]) *)

(** int(min(25, max(2, (n - 10000) / (1000000 - 10000) * (25 - 2) + 2))); exact quotient, int() truncates
    towards zero. *)
Definition trunc (q : Q) : Z := Z.quot (Qnum q) (Zpos (Qden q)).
Definition q_max (a b : Q) : Q := if Qle_bool a b then b else a.
Definition q_min (a b : Q) : Q := if Qle_bool a b then a else b.
Definition recommended_min_diff_from_avg (dataset_size : Z) : Z :=
  trunc (q_min (25 # 1) (q_max (2 # 1)
    ((inject_Z (dataset_size - 10000) / inject_Z (1000000 - 10000)) * inject_Z (25 - 2) + (2 # 1))%Q)).

(** ** beam/analyzer_impls.py:247-271 ([sum_labeled_weights]) *)

(** labeled_weights.extend([0.0] * ...) if the accumulator is longer *)
Definition extend (l : list Q) (n : nat) : list Q := l ++ repeat 0%Q (n - List.length l).

(** the loop over i: adds acc[i] to l[i]; [l] is at least as long as [acc] *)
Fixpoint add_prefix (l acc : list Q) : list Q :=
  match l, acc with
  | x :: l', a :: acc' => (x + a)%Q :: add_prefix l' acc'
  | _, _ => l
  end.
Definition sum_labeled_weights (accs : list (Q * list Q)) : Q * list Q :=
  fold_left (fun '(total_weight, labeled_weights) acc =>
    ((total_weight + fst acc)%Q, add_prefix (extend labeled_weights (List.length (snd acc))) (snd acc)))
    accs (0%Q, []).

(** beam.CombinePerKey(sum_labeled_weights) for one key: the callable combines accumulators and inputs in
    any grouping. *)
Definition combine_labeled_weights (s : sched (Q * list Q)) : Q * list Q :=
  run (sum_labeled_weights []) (fun a x => sum_labeled_weights [a; x]) sum_labeled_weights s.

(** ** tf_utils.py:2215-2236 ([to_vocab_range]): tf.math.mod is the floor modulus. *)
Definition to_vocab_range (values : list Z) (vocab_size : Z) : list Z := map (fun v => v mod vocab_size) values.

(** mappers.py:1840-1885 ([hash_strings]): tf.strings.to_hash_bucket_fast, or strong with a key. *)
Definition hash_strings (hash : string -> Z) (values : list string) (hash_buckets : Z) : list Z :=
  map (fun v => hash v mod hash_buckets) values.

(** ** analyzers.py:1752-1787 ([sanitized_vocab_filename]) for ASCII names *)

Definition is_word (c : ascii) : bool :=
  let n := nat_of_ascii c in
  ((48 <=? n) && (n <=? 57) || (65 <=? n) && (n <=? 90) || (n =? 95) || (97 <=? n) && (n <=? 122))%nat.
(** \s on ASCII: tab, newline, vertical tab, form feed, carriage return, the separators 0x1c-0x1f, space *)
Definition is_space (c : ascii) : bool :=
  let n := nat_of_ascii c in ((9 <=? n) && (n <=? 13) || (28 <=? n) && (n <=? 32))%nat.
Definition is_hyphen (c : ascii) : bool := Ascii.eqb c "-"%char.

(** re.sub(r"[^\w\s-]", "_", s) *)
Definition replace_special (s : list ascii) : list ascii :=
  map (fun c => if is_word c || is_space c || is_hyphen c then c else "_"%char) s.
(** str.strip() *)
Fixpoint lstrip (s : list ascii) : list ascii :=
  match s with c :: s' => if is_space c then lstrip s' else s | [] => [] end.
Definition strip (s : list ascii) : list ascii := rev (lstrip (rev (lstrip s))).
(** re.sub(r"[-\s]+", "-", s); [in_run]: the previous character was replaced *)
Fixpoint collapse (in_run : bool) (s : list ascii) : list ascii :=
  match s with
  | [] => []
  | c :: s' => if is_hyphen c || is_space c then (if in_run then collapse true s' else "-"%char :: collapse true s')
               else c :: collapse false s'
  end.
Definition sanitized (filename : list ascii) : list ascii := collapse false (strip (replace_special filename)).

(** analyzers.py:1752-1787 and 1790-1813: None models ValueError; [scope]: the current name scope. *)
Definition sanitized_vocab_filename (filename prefix : option (list ascii)) (scope : list ascii) : option (list ascii) :=
  match filename, prefix with
  | None, None => None
  | Some _, Some _ => None
  | Some f, None => Some (sanitized f)
  | None, Some p => Some (sanitized (p ++ scope))
  end.
Definition vocab_prefix (store_frequency : bool) : list ascii :=
  list_ascii_of_string (if store_frequency then "vocab_frequency_" else "vocab_").
Definition get_vocab_filename (vocab_filename : option (list ascii)) (store_frequency : bool) (scope : list ascii) : option (list ascii) :=
  sanitized_vocab_filename vocab_filename (match vocab_filename with Some _ => None | None => Some (vocab_prefix store_frequency) end) scope.

(** ** output_wrapper.py:139-188 ([vocabulary_file_by_name]) *)

(** The file an analyzer writes (analyzer_impls.py:499, 520-528); gfile.glob of a name without special
    characters finds that name if it exists. *)
Definition tfrecord_suffix : list ascii := list_ascii_of_string ".tfrecord.gz".
Definition written_name (text : bool) (name : list ascii) : list ascii := if text then name else name ++ tfrecord_suffix.

Definition name_eqb (a b : list ascii) : bool := if list_eq_dec ascii_dec a b then true else false.
Definition glob (assets : list (list ascii)) (name : list ascii) : list (list ascii) := filter (name_eqb name) assets.

Inductive found := Found (f : list ascii) | Missing | TooMany.
(** [mapping]: the asset map written for tft.annotate_asset, if any; [assets]: the files of the directory. *)
Definition vocabulary_file_by_name (mapping : list (list ascii * list ascii)) (assets : list (list ascii)) (vocab_filename : list ascii) : found :=
  let by_glob :=
    let prefix := sanitized vocab_filename in
    match glob assets prefix ++ glob assets (prefix ++ tfrecord_suffix) with
    | [] => Missing
    | [f] => Found f
    | _ => TooMany
    end in
  match find (fun e => name_eqb vocab_filename (fst e)) mapping with
  | Some (_, f) => if existsb (name_eqb f) assets then Found f else by_glob
  | None => by_glob
  end.
