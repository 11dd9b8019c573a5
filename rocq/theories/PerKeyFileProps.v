(** * Properties of per-key statistics in a file *)
From Coq Require Import String List ZArith.
From Verif Require Import PerKeyModel PerKeyFileModel PerKeyFileSpec PerKeyFileProofs PerKeyFileExample.
Import ListNotations.
Local Open Scope string_scope.
Local Open Scope list_scope.

(** C63: when no key has a space or a line break, every row gets from the file the
    statistics of its key, and zeros when its key was not in the data, whatever the
    order in which Beam gives the keys and the text of numbers, provided that text is
    read back. *)
Theorem c63_file : forall (N : Type) (show : N -> string) (read : string -> N) (sha1 : string -> string) zero,
  read "0" = zero ->
  forall stats keys,
  Forall (fun kv => one_word (fst kv)) stats ->
  Forall (fun kv => readable show read (fst (snd kv)) /\ readable show read (snd (snd kv))) stats ->
  NoDup (map fst stats) -> (stats = [] -> ~ In dummy_key keys) ->
  exists out, file_statistics show read sha1 (as_lists stats) keys = Some out /\
    Forall2 (statistics_of zero stats) keys out.
Proof. exact @file_right. Qed.
Print Assumptions c63_file.

Example c63_file_applies :
  Forall (fun kv => one_word (fst kv)) ex_stats /\
  Forall (fun kv => readable ex_show ex_read (fst (snd kv)) /\ readable ex_show ex_read (snd (snd kv))) ex_stats /\
  NoDup (map fst ex_stats) /\
  file_statistics ex_show ex_read ex_sha1 (as_lists ex_stats) ["rome"; "paris"; "oslo"; ""; "rome"] =
    Some [(7, 100); (-3, 12); (0, 0); (5, 5); (7, 100)]%Z.
Proof. exact (conj ex_stats_words (conj ex_stats_readable (conj ex_stats_keys eq_refl))). Qed.

(** C63: then the file gives what the same analyzer gives without a file. *)
Theorem c63_same_as_memory : forall (N : Type) (show : N -> string) (read : string -> N) (sha1 : string -> string) zero,
  read "0" = zero ->
  forall stats vocab results keys,
  Forall (fun kv => one_word (fst kv)) stats ->
  Forall (fun kv => readable show read (fst (snd kv)) /\ readable show read (snd (snd kv))) stats ->
  NoDup (map fst stats) -> stats <> [] -> merge_outputs_by_key stats = (vocab, results) ->
  exists out, file_statistics show read sha1 (as_lists stats) keys = Some out /\
    map (map_per_key (fun _ => (zero, zero)) results vocab) keys = map Some out.
Proof. exact @same_as_memory. Qed.
Print Assumptions c63_same_as_memory.

Example c63_same_as_memory_applies :
  ex_stats <> [] /\
  merge_outputs_by_key ex_stats = ([""; "paris"; "rome"], [(5, 5); (-3, 12); (7, 100)]%Z) /\
  map_per_key (fun _ => (0, 0)%Z) [(5, 5); (-3, 12); (7, 100)]%Z [""; "paris"; "rome"] "paris" = Some (-3, 12)%Z.
Proof. split; [discriminate|]. split; reflexivity. Qed.

(** C63: with spaces in keys, a row gets the statistics of the key whose text up to
    its first space is the key of the row. *)
Theorem c63_first_word : forall (N : Type) (show : N -> string) (read : string -> N) (sha1 : string -> string) zero,
  read "0" = zero ->
  forall stats words keys,
  Forall (fun kv => one_line (fst kv)) stats ->
  Forall (fun kv => readable show read (fst (snd kv)) /\ readable show read (snd (snd kv))) stats ->
  Forall2 (fun kv w => first_word (fst kv) w) stats words -> NoDup words ->
  (stats = [] -> ~ In dummy_key keys) ->
  exists out, file_statistics show read sha1 (as_lists stats) keys = Some out /\
    Forall2 (statistics_of zero (combine words (map snd stats))) keys out.
Proof. exact @by_first_word. Qed.
Print Assumptions c63_first_word.

Example c63_first_word_applies :
  Forall (fun kv => one_line (fst kv)) ex_city /\
  Forall (fun kv => readable ex_show ex_read (fst (snd kv)) /\ readable ex_show ex_read (snd (snd kv))) ex_city /\
  Forall2 (fun kv w => first_word (fst kv) w) ex_city ["new"; "rome"] /\ NoDup ["new"; "rome"] /\
  file_statistics ex_show ex_read ex_sha1 (as_lists ex_city) ["new"; "rome"] = Some [(-3, 12); (7, 100)]%Z.
Proof. exact (conj ex_city_lines (conj ex_city_readable (conj ex_city_first (conj ex_words_apart eq_refl)))). Qed.

(** C63: two keys with the same first word and other statistics: the transform cannot
    be initialized. *)
Theorem c63_conflict : forall (N : Type) (show : N -> string) (read : string -> N) (sha1 : string -> string),
  forall stats w k1 v1 k2 v2 keys,
  Forall (fun kv => one_line (fst kv)) stats ->
  Forall (fun kv => readable show read (fst (snd kv)) /\ readable show read (snd (snd kv))) stats ->
  In (k1, v1) stats -> In (k2, v2) stats -> first_word k1 w -> first_word k2 w -> v1 <> v2 ->
  file_statistics show read sha1 (as_lists stats) keys = None.
Proof. exact @conflict. Qed.
Print Assumptions c63_conflict.

Example c63_conflict_applies :
  Forall (fun kv => one_line (fst kv)) ex_cities /\
  Forall (fun kv => readable ex_show ex_read (fst (snd kv)) /\ readable ex_show ex_read (snd (snd kv))) ex_cities /\
  In ("new york", (-3, 12)%Z) ex_cities /\ In ("new jersey", (7, 100)%Z) ex_cities /\
  per_key_file ex_show ex_sha1 (as_lists ex_cities) =
    "7,100 new jersey
-3,12 new york
".
Proof. exact (conj ex_cities_lines (conj ex_cities_readable (conj (or_introl eq_refl) (conj (or_intror (or_introl eq_refl)) eq_refl)))). Qed.

(** C63 is false of keys with spaces: a row whose key, in the data, has a space gets
    zeros, as if its key was unknown, and a row with an unknown key gets the
    statistics of another key. *)
Theorem c63_spaces_refuted : exists (stats : list (string * (Z * Z))) known got1 unknown got2,
  Forall (fun kv => one_line (fst kv)) stats /\
  Forall (fun kv => readable ex_show ex_read (fst (snd kv)) /\ readable ex_show ex_read (snd (snd kv))) stats /\
  NoDup (map fst stats) /\
  file_statistics ex_show ex_read ex_sha1 (as_lists stats) [known; unknown] = Some [got1; got2] /\
  (In known (map fst stats) /\ got1 = (0, 0)%Z /\ ~ statistics_of 0%Z stats known got1) /\
  (existsb (String.eqb unknown) (map fst stats) = false /\ got2 <> (0, 0)%Z /\ ~ statistics_of 0%Z stats unknown got2).
Proof.
  exists ex_city, "new york", (0, 0)%Z, "new", (-3, 12)%Z.
  split; [exact ex_city_lines|]. split; [exact ex_city_readable|]. split; [exact ex_city_keys|].
  split; [reflexivity|]. split; (split; [|split]).
  - now left.
  - reflexivity.
  - exact ex_city_wrong.
  - reflexivity.
  - discriminate.
  - exact ex_city_wrong_unknown.
Qed.
Print Assumptions c63_spaces_refuted.

(** C63 is false of float64 statistics: they are written in full and read as float32,
    so that with a file the mean of a column of float64 is rounded to 24 bits. *)
Theorem c63_float64_refuted : exists (stats : list (string * (Z * Z))) keys out,
  Forall (fun kv => one_word (fst kv)) stats /\
  Forall (fun kv => readable ex_show ex_read (fst (snd kv)) /\ readable ex_show ex_read (snd (snd kv))) stats /\
  file_statistics ex_show ex_read32 ex_sha1 (as_lists stats) keys = Some out /\
  ~ Forall2 (statistics_of 0%Z stats) keys out.
Proof.
  exact (ex_intro _ ex_large (ex_intro _ ["a"] (ex_intro _ [(16777216, 4)%Z]
    (conj ex_large_words (conj ex_large_readable (conj eq_refl ex_large_wrong)))))).
Qed.
Print Assumptions c63_float64_refuted.
