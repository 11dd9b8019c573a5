(** C65: vocabularies asked for by name. *)
From Coq Require Import String Ascii List Bool Arith Lia QArith Qcanon.
From Verif Require Import MiscModel MiscSpec MiscProofs VocabModel VocabSpec VocabFileModel VocabFileProofs ByNameModel ByNameSpec ByNameProofs ByNameLink ByNameExample.
Import ListNotations.
Local Open Scope nat_scope.
Local Notation length := List.length.

(** Whatever else the preprocessing function computes and annotates: a vocabulary is found again, with all
    its entries in order, under the name it was given (or that of its file), if no other vocabulary has a
    name that gives the same file and no other name hides it. *)
Theorem c65_entries : forall pb calls1 v calls2 others n,
  own_files (calls1 ++ MakeVocabulary v :: calls2) -> other_names others v -> not_hidden (calls1 ++ calls2) n ->
  lines_ok v -> asked_for v n ->
  entries_by_name pb (calls1 ++ MakeVocabulary v :: calls2) others n = Some (v_lines v).
Proof. exact by_name_entries. Qed.
Print Assumptions c65_entries.

(** Then the size is the number of the entries, while tracing and afterwards, with and without the
    annotations of the schema, if that is what was registered (approximate vocabularies register nothing). *)
Theorem c65_size : forall pb calls1 v calls2 others n,
  own_files (calls1 ++ MakeVocabulary v :: calls2) -> other_names others v -> not_hidden (calls1 ++ calls2) n ->
  lines_ok v -> asked_for v n -> 0 < length (v_lines v) ->
  (v_approximate v = false -> v_size v = length (v_lines v)) ->
  size_by_name pb (calls1 ++ MakeVocabulary v :: calls2) others n = Some (length (v_lines v)) /\
  (v_approximate v = false -> size_when_tracing pb (calls1 ++ MakeVocabulary v :: calls2) n = Some (length (v_lines v))).
Proof. exact by_name_size. Qed.
Print Assumptions c65_size.

Example c65_example_applies :
  own_files bn_calls /\
  (forall v, In v [bn_one; bn_two; bn_three; bn_four] -> other_names bn_others v /\ lines_ok v /\ 0 < length (v_lines v) /\
     (v_approximate v = false -> v_size v = length (v_lines v))) /\
  not_hidden bn_calls (nm "my vocab") /\ not_hidden bn_calls (nm "dir/words") /\
  map (entries_by_name true bn_calls bn_others) [nm "my vocab"; nm "dir/words"; nm "vocab_frequency_z_vocabulary"; nm "approx_vocab_approximate_vocabulary"]
    = [Some (v_lines bn_one); Some (v_lines bn_two); Some (v_lines bn_three); Some (v_lines bn_four)] /\
  map (size_by_name true bn_calls bn_others) [nm "my vocab"; nm "dir/words"; nm "vocab_frequency_z_vocabulary"; nm "approx_vocab_approximate_vocabulary"; nm "none"]
    = [Some 2; Some 1; Some 3; Some 2; None] /\
  file_by_name true bn_calls bn_others (nm "key") = Found (nm "c.txt").
Proof.
  split.
  { split; [cbn; repeat constructor; cbn; intuition discriminate|vm_compute; intuition discriminate]. }
  split.
  { intros v [<-|[<-|[<-|[<-|[]]]]]; (split; [intros o [<-|[]]; split; vm_compute; discriminate|]);
      (split; [intros _; cbn; repeat constructor; cbn; intuition discriminate|]); (split; [cbn; lia|]); cbn; congruence. }
  split.
  { split.
    - intros u given H E N [Hs [->|(d & ->)]]; [now apply N|].
      cbn in H. destruct H as [H|[H|[H|[H|[H|[]]]]]]; try discriminate; injection H as <-; cbn in E; try discriminate; injection E as E.
      + assert (In slash (nm "my vocab")) as C by (unfold nm; cbn [list_ascii_of_string]; rewrite E; apply in_app_iff; right; now left).
        now apply Hs.
      + assert (rev (nm "dir/words") = rev (d ++ slash :: nm "my vocab")) as C by (f_equal; exact E).
        rewrite rev_app_distr in C. vm_compute in C. discriminate.
    - intros k f H [Hs [->|(d & ->)]]; cbn in H; destruct H as [H|[H|[H|[H|[H|[]]]]]]; try discriminate.
      injection H as E _. assert (rev (nm "key") = rev (d ++ slash :: nm "my vocab")) as C by (f_equal; exact E).
      rewrite rev_app_distr in C. vm_compute in C. discriminate. }
  split.
  { split; intros; intros [Hs _]; apply Hs; cbn; tauto. }
  split; [vm_compute; reflexivity|]. split; vm_compute; reflexivity.
Qed.

(** With the analysis of tft.vocabulary (C13 - C20): the entries it wrote, also those of reserved tokens
    without line breaks; ... *)
Theorem c65_analysed_entries : forall fmt sha1 p datasets pb calls1 calls2 v others n,
  own_files (calls1 ++ MakeVocabulary v :: calls2) -> other_names others v -> not_hidden (calls1 ++ calls2) n -> asked_for v n ->
  (forall q, ~ has_newline (fmt q)) -> valid_params p -> is_string p = true ->
  (forall r, reserved_tokens p = Some r -> Forall (fun t => ~ has_newline t) r) ->
  is_text p = v_text v -> vocabulary fmt sha1 p datasets (v_lines v) (v_size v) ->
  entries_by_name pb (calls1 ++ MakeVocabulary v :: calls2) others n = Some (v_lines v).
Proof. exact analysed_entries. Qed.
Print Assumptions c65_analysed_entries.

(** ... and, without reserved tokens, their number. *)
Theorem c65_analysed_size : forall fmt sha1 p datasets pb calls1 calls2 v others n,
  own_files (calls1 ++ MakeVocabulary v :: calls2) -> other_names others v -> not_hidden (calls1 ++ calls2) n -> asked_for v n ->
  (forall q, ~ has_newline (fmt q)) -> valid_params p -> is_string p = true -> reserved_tokens p = None ->
  coverage p = None \/ ~ In (snd (dummy_entry true)) (map fst (all_rows datasets)) ->
  is_text p = v_text v -> v_approximate v = false -> vocabulary fmt sha1 p datasets (v_lines v) (v_size v) ->
  size_by_name pb (calls1 ++ MakeVocabulary v :: calls2) others n = Some (length (v_lines v)) /\
  size_when_tracing pb (calls1 ++ MakeVocabulary v :: calls2) n = Some (length (v_lines v)).
Proof. exact analysed_size. Qed.
Print Assumptions c65_analysed_size.

Example c65_analysed_applies :
  (forall q, ~ has_newline (bn_fmt q)) /\ valid_params (bn_params true None) /\
  vocabulary bn_fmt id (bn_params true None) [[bn_rows ["b"; "a"; "b"]%string]] (v_lines bn_one) (v_size bn_one) /\
  vocabulary bn_fmt id (bn_params true (Some ["z"; "b"]%string)) [[bn_rows ["b"; "a"; "b"]%string]] (v_lines bn_reserved) (v_size bn_reserved).
Proof.
  split; [intros q; cbn; intuition discriminate|]. split; [split; [exact Logic.I|split; [vm_compute; discriminate|exact Logic.I]]|].
  split; apply sequential_vocabulary; vm_compute; reflexivity.
Qed.

(** An asset annotated under a key without slashes is found under it, if no later name hides the key. *)
Theorem c65_annotated_asset : forall pb calls1 k f calls2 others f',
  ~ In slash k -> last_component f f' -> In f' (map fst (assets (calls1 ++ AnnotateAsset k f :: calls2) others)) ->
  (forall k' g, In (AnnotateAsset k' g) calls2 -> ~ hides k' k) ->
  (forall u n, In (MakeVocabulary u) calls2 -> asked_for u n -> ~ hides n k) ->
  file_by_name pb (calls1 ++ AnnotateAsset k f :: calls2) others k = Found f'.
Proof. exact annotated_asset. Qed.
Print Assumptions c65_annotated_asset.

Example c65_annotated_asset_applies :
  ~ In slash (nm "key") /\ last_component (nm "tmp/c.txt") (nm "c.txt") /\ In (nm "c.txt") (map fst (assets bn_calls bn_others)) /\
  ~ hides (nm "dir/words") (nm "key").
Proof.
  split; [cbn; intuition discriminate|]. split; [split; [cbn; intuition discriminate|right; now exists (nm "tmp")]|].
  split; [vm_compute; tauto|]. intros [_ [H|(d & H)]]; [discriminate|].
  apply (f_equal (@rev ascii)) in H. rewrite rev_app_distr in H. vm_compute in H. discriminate.
Qed.

(** Finding: the keys of the asset map are cut at their last slash, so a later vocabulary "dir/words" hides
    the vocabulary "words", although they have files of their own: asking for "words" gives the entries of
    "dir/words", and the size of "words". *)
Theorem c65_slash_refuted : exists calls v u n,
  own_files calls /\ In (MakeVocabulary v) calls /\ asked_for v n /\ v_name u <> v_name v /\
  entries_by_name true calls [] n = Some (v_lines u) /\ v_lines u <> v_lines v /\
  size_by_name true calls [] n = Some (v_size v) /\ v_size v <> length (v_lines u).
Proof.
  exists [MakeVocabulary bn_words; MakeVocabulary bn_dir_words], bn_words, bn_dir_words, (nm "words").
  split; [split; [cbn; repeat constructor; cbn; intuition discriminate|vm_compute; intuition discriminate]|]. split; [now left|]. split; [reflexivity|].
  split; [discriminate|]. split; [vm_compute; reflexivity|]. split; [discriminate|]. split; [vm_compute; reflexivity|cbn; discriminate].
Qed.
Print Assumptions c65_slash_refuted.

(** Finding: an asset annotated under a key with a slash is not found under it. *)
Theorem c65_asset_key_refuted : exists k f, k <> [] /\
  file_by_name true [AnnotateAsset k f] [(f, Text "x"%string)] k = Missing /\
  file_by_name true [AnnotateAsset (nm "key") f] [(f, Text "x"%string)] (nm "key") = Found f.
Proof. exists (nm "dir/key"), (nm "c.txt"). split; [discriminate|]. split; vm_compute; reflexivity. Qed.
Print Assumptions c65_asset_key_refuted.

(** Finding: with a reserved token that is also in the data the size under the name is not the number of the
    entries under that name; it is for a name that is not its own file name, since then the lines of the file are counted. *)
Theorem c65_reserved_size_refuted : exists p datasets lines size,
  valid_params p /\ vocabulary bn_fmt id p datasets lines size /\
  (let v := Vocab (Some (nm "words")) false [] true false lines size in
   entries_by_name true [MakeVocabulary v] [] (nm "words") = Some lines /\
   size_by_name true [MakeVocabulary v] [] (nm "words") = Some size /\ length lines < size) /\
  (let v := Vocab (Some (nm "my words")) false [] true false lines size in
   size_by_name true [MakeVocabulary v] [] (nm "my words") = Some (length lines) /\
   size_when_tracing true [MakeVocabulary v] (nm "my words") = Some size).
Proof.
  exists (bn_params true (Some ["z"; "b"]%string)), [[bn_rows ["b"; "a"; "b"]%string]], (v_lines bn_reserved), (v_size bn_reserved).
  split; [split; [exact Logic.I|split; [vm_compute; discriminate|exact Logic.I]]|].
  split; [apply c65_analysed_applies|]. split; cbv zeta.
  - split; [vm_compute; reflexivity|]. split; [vm_compute; reflexivity|cbn; lia].
  - split; vm_compute; reflexivity.
Qed.
Print Assumptions c65_reserved_size_refuted.

(** Finding: the names of approximate vocabularies without a name are swapped: "approx_vocab_frequency_..."
    is the one without frequencies. *)
Theorem c65_approximate_names_refuted : exists v, v_name v = None /\ v_approximate v = true /\ v_store v = false /\
  v_filename v = nm "approx_vocab_frequency_approximate_vocabulary".
Proof. exists (Vocab None false (nm "approximate_vocabulary") true true [] 0). repeat split. Qed.
Print Assumptions c65_approximate_names_refuted.
