(** Properties C29-C32: coders of cached accumulators, the cache on a file system, dataset keys. *)
From Coq Require Import String Ascii List ZArith Bool.
From Verif Require Import CacheCoderModel CacheCoderSpec CacheCoderProofs CacheFSModel CacheFSSpec CacheFSProofs
  CacheKeyModel CacheKeySpec CacheKeyProofs.
Import ListNotations.
Open Scope nat_scope.
Open Scope string_scope.
Open Scope list_scope.
Local Notation length := List.length.

(** * C29: decoding an encoded accumulator returns it *)

(** The key-value coder, for all byte strings; bytes after the record do not matter. *)
Theorem c29_key_value : forall big_endian token value encoded more,
  kv_encode big_endian (token, value) = Some encoded ->
  kv_decode big_endian (encoded ++ more) = Some (token, value).
Proof. exact kv_round_trip. Qed.
Print Assumptions c29_key_value.

(** Encoding fails only for strings of 2^63 bytes. *)
Theorem c29_encodes : forall big_endian token value,
  (Z.of_nat (length token) < 2 ^ 63)%Z -> (Z.of_nat (length value) < 2 ^ 63)%Z ->
  exists encoded, kv_encode big_endian (token, value) = Some encoded.
Proof. exact kv_encode_accepts. Qed.
Print Assumptions c29_encodes.

(** A truncated record is rejected, not misread. *)
Theorem c29_truncated : forall big_endian token value encoded k,
  kv_encode big_endian (token, value) = Some encoded -> (k < length encoded)%nat ->
  kv_decode big_endian (firstn k encoded) = None.
Proof. exact kv_truncated. Qed.
Print Assumptions c29_truncated.

Example c29_key_value_applies :
  match kv_encode false (text "a,", text "") with
  | Some encoded => length encoded = 18%nat /\ kv_decode false (firstn 17 encoded) = None
  | None => False
  end /\ (Z.of_nat (length (text "a,")) < 2 ^ 63)%Z.
Proof. vm_compute. repeat split. Qed.

(** Entries of a vocabulary: string and integer tokens; counts, weights and mean accumulators. *)
Theorem c29_vocabulary : forall F (show : F -> list ascii) read big_endian is_string token value encoded,
  float_literals show read ->
  vocabulary_encode F show big_endian is_string (token, value) = Some encoded ->
  vocabulary_decode F read big_endian is_string encoded = Some (token, value).
Proof. intros F show read e s t v b H. exact (vocabulary_round_trip show read H e s t v b). Qed.
Print Assumptions c29_vocabulary.

(** Accumulators of per-key combiners, as nested lists of numbers. *)
Theorem c29_per_key : forall F (show : F -> list ascii) read big_endian key value encoded,
  float_literals show read ->
  per_key_encode F show big_endian (key, value) = Some encoded ->
  per_key_decode F read big_endian encoded = Some (key, value).
Proof. intros F show read e k v b H. exact (per_key_round_trip show read H e k v b). Qed.
Print Assumptions c29_per_key.

(** Lists of numbers through JSON. *)
Theorem c29_json : forall F (show : F -> list ascii) read j,
  float_literals show read -> loads F read (dumps F show j) = Some j.
Proof. intros F show read j H. exact (json_round_trip show read H j). Qed.
Print Assumptions c29_json.

(** Two floats, written "0.5" and "1e-07". *)
Definition show_half (b : bool) : list ascii := text (if b then "0.5" else "1e-07").
Definition read_half (s : list ascii) : option bool :=
  if list_eq_dec ascii_dec s (text "0.5") then Some true
  else if list_eq_dec ascii_dec s (text "1e-07") then Some false else None.
Example c29_vocabulary_applies :
  float_literals show_half read_half /\
  (exists encoded, vocabulary_encode bool show_half false true
     (TBytes (text "to ken"), IMeanAndVar bool (JInt _ 7) (JList _ [JFloat _ true; JFloat _ false]) (JList _ []) (JFloat _ false)) = Some encoded) /\
  vocabulary_encode bool show_half true false (TInt (-12), ICount bool 3) =
    Some (text "" ++ repeat "000"%char 7 ++ ["003"%char] ++ repeat "000"%char 7 ++ ["001"%char] ++ text "-123") /\
  dumps bool show_half (JList _ [JInt _ (-1); JList _ []; JFloat _ true]) = text "[-1, [], 0.5]".
Proof.
  split; [|split; [eexists; vm_compute; reflexivity|split; vm_compute; reflexivity]].
  intros [|]; (split; [discriminate|split; [|split; vm_compute; reflexivity]]);
    repeat (constructor; [unfold number_char; cbn; intuition discriminate|]); constructor.
Qed.

(** * C30: reading returns the last completed write *)

(** After any sequence of completed writes, with any sharding and any interleaving by the runner, a read of
    any datasets and entry keys returns exactly the last written records. *)
Theorem c30_last_write : forall A (history : list (list (string * list (string * list (list A))))) fs datasets wanted,
  completed history fs ->
  exists result, read_cache fs datasets wanted = Some result /\
    forall dataset key, find2 result dataset key =
      if existsb (String.eqb dataset) datasets && wanted key then last_written history dataset key else None.
Proof. intros A. exact read_completed. Qed.
Print Assumptions c30_last_write.

(** A pipeline that writes the cache it reads still reads the old records, at any point of the write. *)
Theorem c30_read_while_writing : forall A (fs : string -> dir A) request steps done dataset key index,
  reachable fs -> valid_request request -> write_run fs request steps -> prefix done steps ->
  In (key, index) (read_manifest (fs dataset)) ->
  read_index (exec fs done dataset) index = read_index (fs dataset) index.
Proof. intros A. exact read_while_writing. Qed.
Print Assumptions c30_read_while_writing.

(** Two writes: a and b in two and one shards, then b again. *)
Definition request1 : list (string * list (string * list (list nat))) := [("d", [("a", [[1]; [2; 3]]); ("b", [[4]])])].
Definition request2 : list (string * list (string * list (list nat))) := [("d", [("b", [[5]; [6]; []])]); ("e", [("a", [[7]])])].
Definition in_order (f : string -> dir nat) (r : list (string * list (string * list (list nat)))) : list (step nat) :=
  fst (write_cache f r) ++ List.concat (snd (write_cache f r)).
Example c30_last_write_applies :
  let f1 := exec empty_fs (in_order empty_fs request1) in
  let f2 := exec f1 (in_order f1 request2) in
  completed [request1; request2] f2 /\ reachable f1 /\ valid_request request2 /\ write_run f1 request2 (in_order f1 request2) /\
  In ("b", 1) (read_manifest (f1 "d")) /\
  read_cache f2 ["d"; "e"; "g"] (fun _ => true) = Some [("d", [("a", [1; 2; 3]); ("b", [5; 6])]); ("e", [("a", [7])])].
Proof.
  intros f1 f2.
  assert (V1 : valid_request request1).
  { split; cbn; [repeat constructor; intros []|]. repeat constructor; cbn; intuition discriminate. }
  assert (V2 : valid_request request2).
  { split; cbn; [repeat constructor; cbn; intuition discriminate|]. repeat constructor; cbn; intuition discriminate. }
  assert (R : forall f r, write_run f r (in_order f r)) by (intros f r; eexists; split; [apply interleave_concat|reflexivity]).
  assert (C1 : completed [request1] f1) by exact (completed_snoc [] empty_fs request1 _ completed_nil V1 (R _ _)).
  split; [|split; [exact (completed_reachable _ _ C1)|split; [exact V2|split; [apply R|split; [vm_compute; tauto|vm_compute; reflexivity]]]]].
  exact (completed_snoc [request1] f1 request2 _ C1 V2 (R _ _)).
Qed.

(** * C31: crashes *)

(** Wherever the process dies, an entry that is not being written keeps its records or is no longer found. *)
Theorem c31_other_entries : forall A (fs : string -> dir A) request steps done dataset key,
  reachable fs -> valid_request request -> write_run fs request steps -> prefix done steps ->
  written request dataset key = None ->
  entry (exec fs done) dataset key = entry fs dataset key \/ entry (exec fs done) dataset key = Absent.
Proof. intros A. exact untouched. Qed.
Print Assumptions c31_other_entries.

(** An entry that is being written: old records, nothing, an error, or some of the new shards; never the
    records of another entry. *)
Theorem c31_written_entries_partial : forall A (fs : string -> dir A) request steps done dataset key shards,
  reachable fs -> valid_request request -> write_run fs request steps -> prefix done steps ->
  find2 request dataset key = Some shards ->
  entry (exec fs done) dataset key = entry fs dataset key \/ entry (exec fs done) dataset key = Absent \/
  entry (exec fs done) dataset key = Raised \/
  exists n, entry (exec fs done) dataset key = Got (List.concat (firstn n shards)).
Proof. intros A. exact crash_outcomes. Qed.
Print Assumptions c31_written_entries_partial.

(** Unless the crash was within the replacement of a manifest, every later completed write is read back. *)
Theorem c31_later_writes_partial : forall A (fs : string -> dir A) request steps dataset key data,
  reachable fs -> valid_request request -> write_run fs request steps ->
  written request dataset key = Some data ->
  entry (exec fs steps) dataset key = Got data.
Proof. intros A. exact recovery. Qed.
Print Assumptions c31_later_writes_partial.

Example c31_applies :
  let f1 := exec empty_fs (in_order empty_fs request1) in
  let crashed := firstn 8 (in_order f1 request2) in
  prefix crashed (in_order f1 request2) /\ reachable (exec f1 crashed) /\
  entry f1 "d" "b" = Got [4] /\ entry (exec f1 crashed) "d" "b" = Got [5] /\ entry (exec f1 crashed) "d" "a" = Got [1; 2; 3] /\
  written request2 "d" "a" = None /\ find2 request2 "d" "b" = Some [[5]; [6]; []].
Proof.
  intros f1 crashed. destruct c30_last_write_applies as (_ & HR & HV & HW & _). fold f1 in HR, HW.
  assert (HP : prefix crashed (in_order f1 request2)) by (exists (skipn 8 (in_order f1 request2)); symmetry; apply firstn_skipn).
  split; [exact HP|]. split; [|vm_compute; repeat split].
  apply (reachable_snoc f1 request2 (in_order f1 request2) crashed HR HV HW HP). intros d.
  assert (N : forall steps : list (step nat), map (fun s => String.eqb (location s) "d" || String.eqb (location s) "e") steps
      = map (fun _ => true) steps -> d <> "d"%string -> d <> "e"%string ->
      forallb (fun s => negb (String.eqb d (location s))) steps = true).
  { intros steps H Hd He. apply forallb_forall. intros s I. apply negb_true_iff, String.eqb_neq. intros ->.
    assert (HS : (String.eqb (location s) "d" || String.eqb (location s) "e") = true).
    { clear - H I. induction steps as [|x steps IH]; [destruct I|]. cbn [map] in H. injection H as H1 H2.
      destruct I as [->|I]; auto. }
    apply orb_prop in HS. destruct HS as [HS|HS]; apply String.eqb_eq in HS; auto. }
  destruct (string_dec d "d") as [->|Hd]; [vm_compute; split; discriminate|].
  destruct (string_dec d "e") as [->|He]; [vm_compute; split; discriminate|].
  rewrite (exec_elsewhere crashed d f1) by (apply N; [vm_compute; reflexivity | exact Hd | exact He]).
  unfold f1.
  rewrite (exec_elsewhere _ d empty_fs) by (apply N; [vm_compute; reflexivity | exact Hd | exact He]).
  split; [discriminate | intros _; reflexivity].
Qed.

(** Finding: the manifest is written before the records.  After a crash in between, reading the cache raises
    (no file matches), for every entry of every dataset read with it, and the old records are lost. *)
Theorem c31_read_raises_refuted : exists history (fs : string -> dir nat) request steps done,
  completed history fs /\ valid_request request /\ write_run fs request steps /\ prefix done steps /\
  entry fs "d" "b" = Got [4] /\ entry (exec fs done) "d" "b" = Raised /\
  read_cache (exec fs done) ["d"] (fun _ => true) = None.
Proof.
  set (f1 := exec empty_fs (in_order empty_fs request1)).
  exists [request1], f1, request2, (in_order f1 request2), (firstn 6 (in_order f1 request2)).
  destruct c30_last_write_applies as (HC & HR & HV & HW & _). fold f1 in HR, HW.
  split; [|split; [exact HV|split; [exact HW|split; [exists (skipn 6 (in_order f1 request2)); symmetry; apply firstn_skipn|vm_compute; repeat split]]]].
  apply (completed_snoc [] empty_fs request1 _ completed_nil).
  - split; cbn; [repeat constructor; intros []|]. repeat constructor; cbn; intuition discriminate.
  - eexists; split; [apply interleave_concat|reflexivity].
Qed.
Print Assumptions c31_read_raises_refuted.

(** Finding: a crash while the shards of an entry are put in place leaves part of the records, and reading
    returns that part without an error. *)
Theorem c31_part_of_the_records_refuted : exists (fs : string -> dir nat) request steps done,
  reachable fs /\ valid_request request /\ write_run fs request steps /\ prefix done steps /\
  entry fs "d" "b" = Got [4] /\ written request "d" "b" = Some [5; 6] /\ entry (exec fs done) "d" "b" = Got [5].
Proof.
  set (f1 := exec empty_fs (in_order empty_fs request1)).
  exists f1, request2, (in_order f1 request2), (firstn 8 (in_order f1 request2)).
  destruct c30_last_write_applies as (_ & HR & HV & HW & _). fold f1 in HR, HW.
  split; [exact HR|split; [exact HV|split; [exact HW|split; [exists (skipn 8 (in_order f1 request2)); symmetry; apply firstn_skipn|vm_compute; repeat split]]]].
Qed.
Print Assumptions c31_part_of_the_records_refuted.

(** Finding: the manifest is removed before the new one is written.  After a crash in between, the next
    completed write starts again at index 0; if the runner makes another number of shards, the records of an
    old, unrelated entry are read as part of the new one. *)
Definition request3 : list (string * list (string * list (list nat))) := [("d", [("c", [[9]])])].
Theorem c31_lost_manifest_refuted : exists (fs : string -> dir nat) request steps done request' steps',
  reachable fs /\ valid_request request /\ write_run fs request steps /\ prefix done steps /\
  valid_request request' /\ write_run (exec fs done) request' steps' /\
  written request' "d" "c" = Some [9] /\ entry (exec (exec fs done) steps') "d" "c" = Got [1; 2; 3; 9].
Proof.
  set (f1 := exec empty_fs (in_order empty_fs request1)).
  exists f1, request2, (in_order f1 request2), (firstn 1 (in_order f1 request2)), request3,
    (in_order (exec f1 (firstn 1 (in_order f1 request2))) request3).
  destruct c30_last_write_applies as (_ & HR & HV & HW & _). fold f1 in HR, HW.
  split; [exact HR|split; [exact HV|split; [exact HW|split; [exists (skipn 1 (in_order f1 request2)); symmetry; apply firstn_skipn|]]]].
  split; [|split; [eexists; split; [apply interleave_concat|reflexivity]|vm_compute; repeat split]].
  split; cbn; [repeat constructor; intros []|]. repeat constructor; cbn; intuition discriminate.
Qed.
Print Assumptions c31_lost_manifest_refuted.

(** * C32: dataset keys *)

(** A key contains none of / \ * @ [ ] : = *)
Theorem c32_no_separators : forall name cached c, In c (key (new_dataset_key name cached)) -> ~ In c special.
Proof. intros name cached c H. exact (proj1 (sanitized_In name c H)). Qed.
Print Assumptions c32_no_separators.

(** Making a key of a key changes nothing. *)
Theorem c32_idempotent : forall name cached,
  new_dataset_key (key (new_dataset_key name cached)) cached = new_dataset_key name cached.
Proof. intros name cached. exact (f_equal (fun k => DatasetKey k cached) (sanitized_idempotent name)). Qed.
Print Assumptions c32_idempotent.

(** Names of letters, digits, ".", "-" and "_" are kept, so different ones have different keys. *)
Theorem c32_allowed_names_kept : forall name cached, matches name = true -> key (new_dataset_key name cached) = name.
Proof. exact validated_unchanged. Qed.
Print Assumptions c32_allowed_names_kept.

(** Different keys have different paths; except for "", "." and ".." they name different directories directly
    below the base directory. *)
Theorem c32_paths : forall base s t cached cached',
  cache_path base (new_dataset_key s cached) = cache_path base (new_dataset_key t cached') ->
  key (new_dataset_key s cached) = key (new_dataset_key t cached').
Proof. exact path_injective. Qed.
Print Assumptions c32_paths.

Theorem c32_directories : forall base name cached,
  let k := key (new_dataset_key name cached) in
  k <> [] -> k <> text "." -> k <> text ".." ->
  directory (cache_path base (new_dataset_key name cached)) = directory base ++ [k].
Proof. exact directory_path. Qed.
Print Assumptions c32_directories.

(** What validation accepts: a non-empty word of allowed characters, maybe with a newline behind it. *)
Theorem c32_validation : forall k, validate_dataset_key k = true <->
  exists word, word <> [] /\ (forall c, In c word -> allowed c = true) /\ (key k = word \/ key k = word ++ ["010"%char]).
Proof. intros k. exact (matches_spec (key k)). Qed.
Print Assumptions c32_validation.

(** A non-cacheable key is never a cached one, and comes from one key only. *)
Theorem c32_non_cacheable : forall k l, is_cached k = true -> is_cached l = true ->
  non_cacheable k <> l /\ (non_cacheable k = non_cacheable l -> k = l).
Proof.
  intros k l Hk Hl. split; [intros E; rewrite <- E in Hl; discriminate Hl|].
  exact (non_cacheable_injective k l (eq_trans Hk (eq_sym Hl))).
Qed.
Print Assumptions c32_non_cacheable.

Example c32_applies :
  key (new_dataset_key (text "span-1*@[v]:x=/\y") true) = text "span-1STARAT--v--PxE--y" /\
  matches (text "Span-1_v.2") = true /\ is_cached (new_dataset_key (text "a") true) = true /\
  cache_path (text "/tmp/cache") (new_dataset_key (text "span-1") true) = text "/tmp/cache/span-1" /\
  directory (text "/tmp/./cache/span-1") = [text "tmp"; text "cache"; text "span-1"].
Proof. vm_compute. repeat split. Qed.

(** Finding: different dataset names can get the same key, and so share a cache directory. *)
Theorem c32_collision_refuted : exists s t, s <> t /\
  new_dataset_key s true = new_dataset_key t true /\ validate_dataset_key (new_dataset_key s true) = true.
Proof. exists (text "train/day"), (text "train-day"). split; [discriminate|vm_compute; repeat split]. Qed.
Print Assumptions c32_collision_refuted.

(** Finding: the key ".." is accepted, and its cache is written outside the base directory. *)
Theorem c32_parent_refuted : exists name, validate_dataset_key (new_dataset_key name true) = true /\
  directory (cache_path (text "/tmp/cache") (new_dataset_key name true)) = [text "tmp"].
Proof. exists (text ".."). vm_compute. repeat split. Qed.
Print Assumptions c32_parent_refuted.

(** Finding: a key that ends in a newline passes the validation. *)
Theorem c32_newline_refuted : exists name, In "010"%char name /\ allowed "010"%char = false /\
  validate_dataset_key (new_dataset_key name true) = true.
Proof. exists (text "day" ++ ["010"%char]). vm_compute. repeat split. tauto. Qed.
Print Assumptions c32_newline_refuted.
