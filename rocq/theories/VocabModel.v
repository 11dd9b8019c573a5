(** tft.vocabulary: from the rows of a dataset to the lines of the vocabulary file. *)
From Coq Require Import String Ascii List ZArith QArith Qcanon Bool Permutation.
From Verif Require Import CombineModel MeanVarModel SortModel.
Import ListNotations.
Open Scope Z_scope.

(** Tokens are byte strings.  Tokens of integer columns are given by their decimal representation
    (analyzer_impls.py:193-196 encodes them before any comparison).  Indicators (counts, summed weights,
    mutual information) are exact rationals with Leibniz equality. *)
Notation token := string (only parsing).
Notation entry := (Qc * string)%type (only parsing).

Definition qc_leb (a b : Qc) : bool := Qle_bool a b.
Definition qc_of_nat (n : nat) : Qc := Q2Qc (inject_Z (Z.of_nat n)).
Definition qc_sum (l : list Qc) : Qc := fold_left Qcplus l (Q2Qc 0).

(** ** Which tokens enter a vocabulary *)

Definition newline : ascii := "010"%char.
Definition carriage_return : ascii := "013"%char.

Fixpoint contains (c : ascii) (s : string) : bool :=
  match s with EmptyString => false | String a s' => Ascii.eqb a c || contains c s' end.

(** analyzers.py:90-93: a full match of ^$|\C*[\n\r]\C* ; 2220-2224: only applied to string columns written
    to text files. *)
Definition filtered_out (is_text_of_strings : bool) (t : token) : bool :=
  is_text_of_strings && (String.eqb t EmptyString || contains newline t || contains carriage_return t).

(** ** Accumulate and merge *)

(** tf_utils.py:159-202 ([reduce_batch_weighted_counts]) followed by the flattening of
    analyzer_impls.py:582-604.  A batch is the list of its values with their weights; without weights the
    tokens are passed on as they are and counted (Count.PerElement), i.e. each has weight 1. *)
Definition reduce_batch (text weighted : bool) (batch : list (token * Qc)) : list (token * Qc) :=
  let kept := filter (fun r => negb (filtered_out text (fst r))) batch in
  if weighted then reduce_per_key qc_sum kept
  else map (fun r => (fst r, Q2Qc 1)) kept.

(** beam.CombinePerKey(sum) and beam.combiners.Count.PerElement: one output per distinct key, in any order;
    the values of a key are combined under a schedule of the runner's choice. *)
Definition combine_per_key_sum (inputs outputs : list (token * Qc)) : Prop :=
  NoDup (map fst outputs) /\
  (forall k, In k (map fst outputs) <-> In k (map fst inputs)) /\
  (forall k v, In (k, v) outputs ->
     exists s, Permutation (elements s) (values_of k inputs) /\
               v = run (Q2Qc 0) Qcplus (fun l => qc_sum l) s).

(** analyzer_impls.py:274-331 ([_VocabularyAccumulateImpl]) on each dataset, then 359-402
    ([_VocabularyMergeImpl]) on the union of the accumulators: (indicator, token) pairs in any order.
    [datasets]: the batches of each dataset. *)
Definition accumulate_and_merge (text weighted : bool) (datasets : list (list (list (token * Qc)))) (merged : list entry) : Prop :=
  exists accs out,
    Forall2 (fun batches acc => combine_per_key_sum (flat_map (reduce_batch text weighted) batches) acc) datasets accs /\
    combine_per_key_sum (concat accs) out /\
    merged = map (fun p => (snd p, fst p)) out.

(** ** Pruning *)

(** Python's comparison of (indicator, token) tuples. *)
Definition entry_leb (a b : entry) : bool :=
  if qc_leb (fst a) (fst b) then (if qc_leb (fst b) (fst a) then bytes_leb (snd a) (snd b) else true) else false.
Definition entry_geb (a b : entry) : bool := entry_leb b a.
Definition entry_eqb (a b : entry) : bool := entry_leb a b && entry_leb b a.

(** beam.combiners.Top.Of / LargestPerKey: the [k] largest elements, largest first. *)
Definition top_of (k : nat) (l : list entry) : list entry := firstn k (py_sorted entry_geb l).

(** analyzers.py:1894-1907 *)
Definition dummy_entry (is_string : bool) : entry :=
  (Q2Qc 1, if is_string then "49d0cd50-04bb-48c0-bc6f-5b575dce351a"%string else "-1"%string).
(** analyzer_impls.py:90-98 *)
Definition maybe_add_dummy (is_string : bool) (counts : list entry) : list entry :=
  match counts with [] => [dummy_entry is_string] | _ => counts end.

(** The distinct keys of a list in order of first appearance. *)
Definition distinct_keys (key_fn : token -> token) (l : list entry) : list token :=
  tf_unique [] (map (fun e => key_fn (snd e)) l).

(** analyzer_impls.py:156-243 ([_ApplyThresholdsAndTopK]) for single indicators (frequency and weighted
    frequency vocabularies; info_threshold is -inf).  The threshold filter of 171-190 is the identity for
    threshold 0 because indicators are not negative; it is applied in any case when threshold > 0. *)
Definition apply_thresholds_and_top_k (is_string : bool) (threshold : Qc) (top_k : option nat)
    (key_fn : option (token -> token)) (counts : list entry) : list entry :=
  let counts := if qc_leb threshold (Q2Qc 0) then counts else filter (fun e => qc_leb threshold (fst e)) counts in
  match top_k, key_fn with
  | None, _ => counts
  | Some k, Some f =>
      flat_map (fun key => top_of k (filter (fun e => String.eqb key (f (snd e))) counts)) (distinct_keys f counts)
  | Some k, None => maybe_add_dummy is_string (top_of k counts)
  end.

(** beam.Distinct *)
Fixpoint distinct (l : list entry) : list entry :=
  match l with
  | [] => []
  | e :: l' => if existsb (entry_eqb e) l' then distinct l' else e :: distinct l'
  end.

(** The arguments of tft.vocabulary. *)
Record params := Params {
  is_string : bool;                     (* input dtype is tf.string *)
  is_text : bool;                       (* file_format == 'text' *)
  is_weighted : bool;                   (* weights is not None *)
  top_k : option nat;
  frequency_threshold : Qc;             (* frequency_threshold or 0 *)
  coverage : option ((token -> token) * (option nat * Qc)); (* key_fn, coverage_top_k, coverage_frequency_threshold *)
  fingerprint_shuffle : bool;
  store_frequency : bool;
  reserved_tokens : option (list token) }.

(** analyzers.py:1826-1847 and analyzer_impls.py:421-446: the accepted values. *)
Definition valid_params (p : params) : Prop :=
  match top_k p with Some k => (0 < k)%nat | None => True end /\
  (0 <= frequency_threshold p)%Qc /\
  match coverage p with
  | Some (_, (k, f)) => match k with Some k => (0 < k)%nat | None => True end /\ (0 <= f)%Qc
  | None => True
  end.

(** analyzer_impls.py:405-479 ([_VocabularyPruneImpl]).  The order of the result matters only where the
    writer relies on it (see [order_and_write]). *)
Definition prune (p : params) (merged : list entry) : list entry :=
  let result := apply_thresholds_and_top_k (is_string p) (frequency_threshold p) (top_k p) None merged in
  match coverage p with
  | None => result
  | Some (f, (k, threshold)) =>
      distinct (result ++ apply_thresholds_and_top_k (is_string p) threshold k (Some f) merged)
  end.

(** ** Ordering and writing *)

(** analyzers.py:2299-2303 and analyzer_impls.py:537 *)
Definition input_is_sorted (p : params) : bool :=
  match top_k p, coverage p with Some _, None => negb (fingerprint_shuffle p) | _, _ => false end.

Section order.
  (** str() of an indicator, and hashlib.sha1(token).digest(). *)
  Variables (format_indicator : Qc -> string) (sha1 : token -> string).

  (** analyzer_impls.py:101-107 *)
  Definition count_and_token_to_bytes (e : entry) : string := (format_indicator (fst e) ++ String " "%char (snd e))%string.

  Definition format_entry (store : bool) (e : entry) : string := if store then count_and_token_to_bytes e else snd e.

  (** The order of list.sort( **sort_kwargs) (analyzer_impls.py:546-549): reverse=True, or by fingerprint. *)
  Definition sort_leb (p : params) : entry -> entry -> bool :=
    if fingerprint_shuffle p then fun a b => bytes_leb (sha1 (snd a)) (sha1 (snd b)) else entry_geb.

  (** analyzer_impls.py:126-153 ([_OrderElementsFn.process]): the entries written. *)
  Definition order_elements (p : params) (batches : list (list entry)) : list entry :=
    let counts :=
      match reserved_tokens p with
      | Some r => flat_map (filter (fun e => negb (existsb (String.eqb (snd e)) r))) batches
      | None => concat batches
      end in
    let counts := py_sorted (sort_leb p) counts in
    let counts := match reserved_tokens p with Some r => map (fun t => (Q2Qc (-1), t)) r ++ counts | None => counts end in
    maybe_add_dummy (is_string p) counts.

  (** analyzer_impls.py:482-579 ([_VocabularyOrderAndWriteImpl]): the entries in the order in which they are
      written.  If the input is sorted (537-545) they are written as they come out of Top.Of (the code relies
      on fusion for this); otherwise they are batched in any way, each batch is sorted, and all are sorted
      again. *)
  Definition ordered_entries (p : params) (pruned entries : list entry) : Prop :=
    match input_is_sorted p, reserved_tokens p with
    | true, None => entries = pruned
    | _, _ => exists batches, Permutation (concat batches) pruned /\
                entries = order_elements p (map (py_sorted (sort_leb p)) batches)
    end.

  (** analyzers.py:2227-2340 ([_vocabulary_analyzer_nodes]): a run of the analysis on [datasets] writes the
      records [lines] and registers [size] as the size of the vocabulary. *)
  Definition vocabulary (p : params) (datasets : list (list (list (token * Qc)))) (lines : list string) (size : nat) : Prop :=
    exists merged entries,
      accumulate_and_merge (is_string p && is_text p) (is_weighted p) datasets merged /\
      ordered_entries p (prune p merged) entries /\
      lines = map (format_entry (store_frequency p)) entries /\
      size = (Nat.max (List.length (prune p merged)) 1 + match reserved_tokens p with Some r => List.length r | None => 0 end)%nat.
End order.
