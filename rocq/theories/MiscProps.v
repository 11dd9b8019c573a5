(** C21 (recommended min_diff_from_avg), C22 (labelled weights), C45 (ranges), C46 (vocabulary file names). *)
From Coq Require Import String Ascii List ZArith QArith Bool Lia.
From Verif Require Import CombineModel MiscModel MiscSpec MiscProofs.
Import ListNotations.
Open Scope Z_scope.
Local Notation length := List.length.

(** ** C21 *)
Theorem c21_within_bounds : forall n, 2 <= recommended_min_diff_from_avg n <= 25.
Proof. exact recommended_range. Qed.
Print Assumptions c21_within_bounds.
Theorem c21_monotone : forall n m, n <= m -> recommended_min_diff_from_avg n <= recommended_min_diff_from_avg m.
Proof. exact recommended_mono. Qed.
Print Assumptions c21_monotone.
(** Both bounds are reached, at the documented sizes. *)
Theorem c21_small_and_large : forall n,
  (n <= 10000 -> recommended_min_diff_from_avg n = 2) /\ (1000000 <= n -> recommended_min_diff_from_avg n = 25).
Proof. exact recommended_ends. Qed.
Print Assumptions c21_small_and_large.
Example c21_applies : recommended_min_diff_from_avg 505000 = 13 /\ recommended_min_diff_from_avg 505001 = 13 /\ recommended_min_diff_from_avg 540000 = 14.
Proof. vm_compute. auto. Qed.

(** ** C22 *)

(** Whatever the grouping: the total weight, and for every label the sum of its weights over the rows that
    know it; the result knows as many labels as the row with the most. *)
Theorem c22_labeled_weights : forall s : sched (Q * list Q),
  let result := combine_labeled_weights s in
  (fst result == q_total (map fst (elements s)))%Q /\
  length (snd result) = fold_right Nat.max 0%nat (map (fun row => length (snd row)) (elements s)) /\
  forall label, (label_weight label result == q_total (map (label_weight label) (elements s)))%Q.
Proof. exact combine_represents. Qed.
Print Assumptions c22_labeled_weights.
Example c22_applies :
  combine_labeled_weights (Merged (Bundle [(3, [1; 2])]) [Bundle [(5, [0; 1; 4]); (2, [2])]; Bundle []])%Q
  = (10, [3; 3; 4])%Q.
Proof. vm_compute. reflexivity. Qed.

(** ** C45 *)
Theorem c45_to_vocab_range : forall values vocab_size, 0 < vocab_size ->
  Forall (fun v => 0 <= v < vocab_size) (to_vocab_range values vocab_size) /\
  length (to_vocab_range values vocab_size) = length values /\
  (forall i v, nth_error values i = Some v -> 0 <= v < vocab_size -> nth_error (to_vocab_range values vocab_size) i = Some v).
Proof. exact vocab_range_spec. Qed.
Print Assumptions c45_to_vocab_range.
Example c45_to_vocab_range_applies : to_vocab_range [-1; 0; 4; 5; 12] 5 = [4; 0; 4; 0; 2].
Proof. reflexivity. Qed.
Theorem c45_hash_strings : forall hash values hash_buckets, 0 < hash_buckets ->
  Forall (fun v => 0 <= v < hash_buckets) (hash_strings hash values hash_buckets) /\
  (forall i j s, nth_error values i = Some s -> nth_error values j = Some s ->
     nth_error (hash_strings hash values hash_buckets) i = nth_error (hash_strings hash values hash_buckets) j).
Proof. exact hash_strings_spec. Qed.
Print Assumptions c45_hash_strings.
Example c45_hash_strings_applies :
  hash_strings (fun s => Z.of_nat (String.length s)) ["abcd"; ""; "x"]%string 3 = [1; 0; 1].
Proof. reflexivity. Qed.

(** ** C46 *)
Theorem c46_safe_characters : forall name, Forall safe_char (sanitized name).
Proof. exact sanitized_safe. Qed.
Print Assumptions c46_safe_characters.
Theorem c46_idempotent : forall name, sanitized (sanitized name) = sanitized name.
Proof. exact sanitized_idempotent. Qed.
Print Assumptions c46_idempotent.

(** The file written for the vocabulary [name] is found under [name] - given as the user wrote it -, if no
    annotated asset has that name and there is no file of the other format with the same sanitized name. *)
Theorem c46_file_found_by_name : forall mapping assets name text scope store_frequency f,
  NoDup assets -> ~ In name (map fst mapping) ->
  get_vocab_filename (Some name) store_frequency scope = Some f ->
  In (written_name text f) assets -> ~ In (written_name (negb text) f) assets ->
  vocabulary_file_by_name mapping assets name = Found (written_name text f).
Proof. exact file_found. Qed.
Print Assumptions c46_file_found_by_name.
Example c46_file_found_by_name_applies :
  let name := list_ascii_of_string " my/vocab  file.txt" in
  let f := list_ascii_of_string "my_vocab-file_txt" in
  get_vocab_filename (Some name) true [] = Some f /\
  vocabulary_file_by_name [] [list_ascii_of_string "other"; written_name false f] name = Found (written_name false f) /\
  get_vocab_filename None true (list_ascii_of_string "a/b") = Some (list_ascii_of_string "vocab_frequency_a_b").
Proof. repeat split. Qed.

(** An annotated asset takes precedence; whatever is returned exists. *)
Theorem c46_annotated_asset_found : forall mapping assets name f,
  In f assets -> find (fun e => name_eqb name (fst e)) mapping = Some (name, f) ->
  vocabulary_file_by_name mapping assets name = Found f.
Proof. exact file_mapped. Qed.
Print Assumptions c46_annotated_asset_found.
Theorem c46_only_existing_files : forall mapping assets name f,
  vocabulary_file_by_name mapping assets name = Found f -> In f assets.
Proof. exact file_only_existing. Qed.
Print Assumptions c46_only_existing_files.
Example c46_annotated_asset_applies :
  let n := list_ascii_of_string "key" in let f := list_ascii_of_string "file" in
  In f [n; f] /\ find (fun e => name_eqb n (fst e)) [(n, f)] = Some (n, f) /\ vocabulary_file_by_name [(n, f)] [n; f] n = Found f.
Proof. cbn. auto. Qed.

(** Findings: a name of white space gives the empty file name; different names may share a file; a text and a
    TFRecord vocabulary whose names share the sanitized form cannot be told apart. *)
Theorem c46_empty_name_refuted : exists name, name <> [] /\ sanitized name = [].
Proof. exists (list_ascii_of_string "  "). split; [discriminate|reflexivity]. Qed.
Print Assumptions c46_empty_name_refuted.
Theorem c46_distinct_names_refuted :
  (exists n1 n2, n1 <> n2 /\ sanitized n1 = sanitized n2) /\
  (exists n1 n2, n1 <> n2 /\ let assets := [written_name true (sanitized n1); written_name false (sanitized n2)] in
     NoDup assets /\ vocabulary_file_by_name [] assets n1 = TooMany /\ vocabulary_file_by_name [] assets n2 = TooMany).
Proof.
  split; exists (list_ascii_of_string "a.b"), (list_ascii_of_string "a_b"); (split; [discriminate|]); [reflexivity|].
  cbv zeta. split; [|split; reflexivity]. repeat constructor; cbn; intuition discriminate.
Qed.
Print Assumptions c46_distinct_names_refuted.
