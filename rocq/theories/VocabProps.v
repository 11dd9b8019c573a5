(** C13 - C20: tft.vocabulary, tft.apply_vocabulary and tft.compute_and_apply_vocabulary. *)
From Coq Require Import String Ascii List ZArith QArith Qcanon Bool Permutation Sorting.Sorted Lia.
From Verif Require Import SortModel VocabModel VocabSpec VocabProofs VocabFileModel VocabFileProofs.
Import ListNotations.
Open Scope string_scope.
Open Scope list_scope.
Local Notation length := List.length.

(** ** C13: order and independence of the execution *)

(** Two analyses of the same rows - split into datasets and batches in any way and executed under any
    schedules - write the same file and register the same size, for every choice of the arguments.  With
    fingerprint_shuffle the fingerprints must be distinct, and the dummy token must not be among the data. *)
Theorem c13_schedule_independent : forall fmt sha1 p d1 d2 lines1 size1 lines2 size2,
  (fingerprint_shuffle p = true ->
     fingerprints_distinct sha1 (snd (dummy_entry (is_string p)) :: map fst (all_rows d1)) /\
     ~ In (snd (dummy_entry (is_string p))) (map fst (all_rows d1))) ->
  Permutation (all_rows d1) (all_rows d2) ->
  vocabulary fmt sha1 p d1 lines1 size1 -> vocabulary fmt sha1 p d2 lines2 size2 ->
  lines1 = lines2 /\ size1 = size2.
Proof. exact vocabulary_same_rows. Qed.
Print Assumptions c13_schedule_independent.

Definition rows_of (l : list string) : list (string * Qc) := map (fun t => (t, Q2Qc 1)) l.
Definition p0 : params := Params true true false None (Q2Qc 0) None false false None.
Definition no_fmt (q : Qc) : string := "1".

Example c13_schedule_independent_applies :
  Permutation (all_rows [[rows_of ["b"; "a"]]; [rows_of ["c"; "a"]; rows_of ["b"]]])
              (all_rows [[rows_of ["a"]]; [rows_of ["c"; "b"; "a"; "b"]]]) /\
  vocabulary no_fmt id p0 [[rows_of ["b"; "a"]]; [rows_of ["c"; "a"]; rows_of ["b"]]] ["b"; "a"; "c"] 3 /\
  vocabulary no_fmt id p0 [[rows_of ["a"]]; [rows_of ["c"; "b"; "a"; "b"]]] ["b"; "a"; "c"] 3.
Proof.
  split; [|split; apply sequential_vocabulary; vm_compute; reflexivity].
  unfold all_rows, rows_of. cbn.
  apply (Permutation_map (fun t => (t, Q2Qc 1)) (l := ["b"; "a"; "c"; "a"; "b"]) (l' := ["a"; "c"; "b"; "a"; "b"])).
  change ["b"; "a"; "c"; "a"; "b"] with (["b"] ++ ["a"; "c"] ++ ["a"; "b"]).
  change ["a"; "c"; "b"; "a"; "b"] with (["a"; "c"] ++ ["b"] ++ ["a"; "b"]).
  rewrite !app_assoc. apply Permutation_app_tail, Permutation_app_comm.
Qed.

(** The file lists the eligible tokens in decreasing order of (indicator, token), cut after top_k. *)
Theorem c13_order : forall fmt sha1 p datasets lines size,
  valid_params p -> coverage p = None -> reserved_tokens p = None -> fingerprint_shuffle p = false ->
  vocabulary fmt sha1 p datasets lines size ->
  let rs := all_rows datasets in
  let ind := indicator (is_weighted p) rs in
  exists l, is_ranking ind (eligible (is_string p && is_text p) (is_weighted p) (frequency_threshold p) rs) l /\
    let selected := first_of (top_k p) l in
    lines = match selected with
            | [] => [format_entry fmt (store_frequency p) (dummy_entry (is_string p))]
            | _ => map (line_of fmt (store_frequency p) ind) selected
            end /\
    size = Nat.max (length selected) 1.
Proof. exact vocabulary_exact. Qed.
Print Assumptions c13_order.

Definition p1 : params := Params true true false (Some 2%nat) (Q2Qc 2) None false false None.
Example c13_order_applies :
  valid_params p1 /\
  vocabulary no_fmt id p1 [[rows_of ["b"; "a"]; []]; [rows_of ["c"; "a"]; rows_of ["b"; ""; "c"; "b"; "d"]]] ["b"; "c"] 2.
Proof.
  split; [split; [cbn; lia|split; [vm_compute; discriminate|exact I]]|].
  apply sequential_vocabulary. vm_compute. reflexivity.
Qed.

(** A ranking is determined by what it ranks, so the theorem above fixes the file. *)
Theorem c13_ranking_unique : forall f P l1 l2, is_ranking f P l1 -> is_ranking f P l2 -> l1 = l2.
Proof. exact ranking_unique. Qed.
Print Assumptions c13_ranking_unique.

Example c13_ranking_unique_applies :
  is_ranking (fun t => if String.eqb t "a" then Q2Qc 2 else Q2Qc 1) (fun t => In t ["b"; "a"; "c"]) ["a"; "c"; "b"].
Proof.
  split.
  - repeat constructor; (left; reflexivity) || (right; split; reflexivity).
  - cbn. intros t. tauto.
Qed.

(** fingerprint_shuffle: the same tokens, in the order of their fingerprints. *)
Theorem c13_fingerprint_order : forall fmt sha1 p datasets lines size,
  valid_params p -> coverage p = None -> reserved_tokens p = None -> fingerprint_shuffle p = true ->
  fingerprints_distinct sha1 (map fst (all_rows datasets)) ->
  vocabulary fmt sha1 p datasets lines size ->
  let rs := all_rows datasets in
  let ind := indicator (is_weighted p) rs in
  exists l, is_ranking ind (eligible (is_string p && is_text p) (is_weighted p) (frequency_threshold p) rs) l /\
    let selected := first_of (top_k p) l in
    size = Nat.max (length selected) 1 /\
    (selected = [] -> lines = [format_entry fmt (store_frequency p) (dummy_entry (is_string p))]) /\
    (selected <> [] -> exists shuffled, Permutation shuffled selected /\
       StronglySorted (fun t u => bytes_leb (sha1 t) (sha1 u) = true) shuffled /\
       lines = map (line_of fmt (store_frequency p) ind) shuffled).
Proof. exact vocabulary_fingerprint. Qed.
Print Assumptions c13_fingerprint_order.

Definition p_shuffled : params := Params true true false (Some 2%nat) (Q2Qc 0) None true false None.
Example c13_fingerprint_order_applies :
  valid_params p_shuffled /\ fingerprints_distinct id (map fst (all_rows [[rows_of ["b"; "a"; "c"; "b"; "c"]]])) /\
  vocabulary no_fmt id p_shuffled [[rows_of ["b"; "a"; "c"; "b"; "c"; "c"]]] ["b"; "c"] 2.
Proof.
  split; [split; [cbn; lia|split; [vm_compute; discriminate|exact I]]|]. split; [intros t u _ _ H; exact H|].
  apply sequential_vocabulary. vm_compute. reflexivity.
Qed.

(** Reserved tokens come first; the others follow in their usual order, without those that are reserved. *)
Theorem c13_reserved_order : forall fmt sha1 p r datasets lines size,
  valid_params p -> coverage p = None -> reserved_tokens p = Some r -> fingerprint_shuffle p = false ->
  vocabulary fmt sha1 p datasets lines size ->
  let rs := all_rows datasets in
  let ind := indicator (is_weighted p) rs in
  exists l, is_ranking ind (eligible (is_string p && is_text p) (is_weighted p) (frequency_threshold p) rs) l /\
    let selected := first_of (top_k p) l in
    size = (Nat.max (length selected) 1 + length r)%nat /\
    (r <> [] -> top_k p = None \/ selected <> [] ->
     lines = map (fun t => format_entry fmt (store_frequency p) (Q2Qc (-1), t)) r
             ++ map (line_of fmt (store_frequency p) ind) (filter (fun t => negb (existsb (String.eqb t) r)) selected)).
Proof. exact vocabulary_reserved. Qed.
Print Assumptions c13_reserved_order.

Definition p_reserved : params := Params true true false (Some 2%nat) (Q2Qc 0) None false false (Some ["z"; "b"]).
Example c13_reserved_order_applies :
  valid_params p_reserved /\
  vocabulary no_fmt id p_reserved [[rows_of ["b"; "a"; "c"; "b"; "c"; "c"]]] ["z"; "b"; "c"] 4.
Proof.
  split; [split; [cbn; lia|split; [vm_compute; discriminate|exact I]]|].
  apply sequential_vocabulary. vm_compute. reflexivity.
Qed.

(** ** C14: which tokens are selected *)

(** Without store_frequency: every line is an eligible token; at most top_k; an eligible token is missing
    only if the vocabulary is full, and then nothing in the vocabulary ranks below it. *)
Theorem c14_selection : forall fmt sha1 p datasets lines size,
  valid_params p -> coverage p = None -> reserved_tokens p = None -> store_frequency p = false ->
  (fingerprint_shuffle p = true -> fingerprints_distinct sha1 (map fst (all_rows datasets))) ->
  vocabulary fmt sha1 p datasets lines size ->
  let rs := all_rows datasets in
  let ind := indicator (is_weighted p) rs in
  let ok := eligible (is_string p && is_text p) (is_weighted p) (frequency_threshold p) rs in
  (exists t, ok t) ->
  Forall ok lines /\
  (forall k, top_k p = Some k -> (length lines <= k)%nat) /\
  (forall t, ok t -> ~ In t lines ->
     (exists k, top_k p = Some k /\ length lines = k) /\
     forall u, In u lines -> comes_before ind u t) /\
  size = length lines.
Proof. exact vocabulary_selection. Qed.
Print Assumptions c14_selection.

Example c14_selection_applies :
  let datasets := [[rows_of ["b"; "a"]; []]; [rows_of ["c"; "a"]; rows_of ["b"; ""; "c"; "b"; "d"]]] in
  (exists t, eligible true false (Q2Qc 2) (all_rows datasets) t) /\
  eligible true false (Q2Qc 2) (all_rows datasets) "a" /\ ~ In "a" ["b"; "c"] /\
  vocabulary no_fmt id p1 datasets ["b"; "c"] 2.
Proof.
  cbv zeta.
  assert (E : eligible true false (Q2Qc 2) (all_rows [[rows_of ["b"; "a"]; []]; [rows_of ["c"; "a"]; rows_of ["b"; ""; "c"; "b"; "d"]]]) "a").
  { split; [cbn; tauto|]. split.
    - intros _. apply (filtered_out_one_line true); reflexivity.
    - right. vm_compute. discriminate. }
  split; [now exists "a"|]. split; [exact E|]. split; [intros [H|[H|[]]]; discriminate|]. apply c13_order_applies.
Qed.

(** No excluded token has a strictly greater indicator than an included one. *)
Theorem c14_no_better_token_excluded : forall fmt sha1 p datasets lines size,
  valid_params p -> coverage p = None -> reserved_tokens p = None -> store_frequency p = false ->
  (fingerprint_shuffle p = true -> fingerprints_distinct sha1 (map fst (all_rows datasets))) ->
  vocabulary fmt sha1 p datasets lines size ->
  let rs := all_rows datasets in
  let ind := indicator (is_weighted p) rs in
  (exists t, eligible (is_string p && is_text p) (is_weighted p) (frequency_threshold p) rs t) ->
  forall t u, In t (map fst rs) -> (is_string p && is_text p = true -> one_line t) -> ~ In t lines -> In u lines -> (ind t <= ind u)%Qc.
Proof. exact vocabulary_no_better. Qed.
Print Assumptions c14_no_better_token_excluded.

Example c14_no_better_token_excluded_applies :
  vocabulary no_fmt id p1 [[rows_of ["b"; "a"]; []]; [rows_of ["c"; "a"]; rows_of ["b"; ""; "c"; "b"; "d"]]] ["b"; "c"] 2 /\
  one_line "d" /\ ~ In "d" ["b"; "c"].
Proof.
  split; [apply c13_order_applies|]. split; [apply (filtered_out_one_line true); reflexivity|].
  intros [H|[H|[]]]; discriminate.
Qed.

(** ** C15: lookups *)

(** compute_and_apply_vocabulary maps the i-th line to i, and other tokens to default_value or into the
    out-of-vocabulary buckets. *)
Theorem c15_lookup : forall fmt sha1 hash num_oov_buckets default_value p datasets x lines size out,
  (forall q, plain (fmt q)) ->
  valid_params p -> is_string p = true -> reserved_tokens p = None -> store_frequency p = false ->
  coverage p = None \/ ~ In (snd (dummy_entry true)) (map fst (all_rows datasets)) ->
  compute_and_apply fmt sha1 hash num_oov_buckets default_value p datasets x lines size out ->
  NoDup lines /\ length lines = size /\
  exists f, out = Some (map f x) /\
    (forall i t, nth_error lines i = Some t -> f t = Z.of_nat i) /\
    (forall t, ~ In t lines ->
       (0 < num_oov_buckets -> Z.of_nat size <= f t < Z.of_nat size + num_oov_buckets)%Z /\
       (num_oov_buckets <= 0 -> f t = default_value)%Z).
Proof. exact compute_and_apply_lookup. Qed.
Print Assumptions c15_lookup.

Example c15_lookup_applies :
  compute_and_apply no_fmt id (fun _ => 5%nat) 3 (-1) p0 [[rows_of ["b"; "a"; "b"]]] ["a"; "x"; "b"] ["b"; "a"] 2
    (Some [1; 4; 0]%Z) /\ (forall q, plain (no_fmt q)).
Proof.
  split; [|intros q; repeat split].
  split; [apply sequential_vocabulary; vm_compute; reflexivity|vm_compute; reflexivity].
Qed.

(** Distinct vocabulary tokens get distinct indices. *)
Theorem c15_injective : forall (f : string -> Z) lines,
  (forall i t, nth_error lines i = Some t -> f t = Z.of_nat i) ->
  forall t u, In t lines -> In u lines -> f t = f u -> t = u.
Proof. exact index_injective. Qed.
Print Assumptions c15_injective.

Example c15_injective_applies : forall i t, nth_error ["b"; "a"] i = Some t -> (if String.eqb t "a" then 1 else 0)%Z = Z.of_nat i.
Proof. intros [|[|[|]]] t; cbn; intros [= <-]; reflexivity. Qed.

(** The lookup also works for a vocabulary whose reserved tokens are distinct. *)
Theorem c15_lookup_reserved : forall fmt sha1 hash num_oov_buckets default_value p r datasets x lines size out,
  (forall q, plain (fmt q)) ->
  valid_params p -> is_string p = true -> reserved_tokens p = Some r -> store_frequency p = false ->
  NoDup r -> (is_text p = true -> Forall one_line r) ->
  coverage p = None \/ ~ In (snd (dummy_entry true)) (map fst (all_rows datasets)) ->
  compute_and_apply fmt sha1 hash num_oov_buckets default_value p datasets x lines size out ->
  NoDup lines /\ (length lines <= size)%nat /\
  exists f, out = Some (map f x) /\
    (forall i t, nth_error lines i = Some t -> f t = Z.of_nat i) /\
    (forall t, ~ In t lines ->
       (0 < num_oov_buckets -> Z.of_nat (length lines) <= f t < Z.of_nat (length lines) + num_oov_buckets)%Z /\
       (num_oov_buckets <= 0 -> f t = default_value)%Z).
Proof. exact compute_and_apply_reserved. Qed.
Print Assumptions c15_lookup_reserved.

Example c15_lookup_reserved_applies :
  compute_and_apply no_fmt id (fun _ => 5%nat) 3 (-1) p_reserved [[rows_of ["b"; "a"; "c"; "b"; "c"; "c"]]] ["c"; "b"; "a"] ["z"; "b"; "c"] 4
    (Some [2; 1; 5]%Z) /\ NoDup ["z"; "b"] /\ Forall one_line ["z"; "b"].
Proof.
  split; [split; [apply sequential_vocabulary; vm_compute; reflexivity|vm_compute; reflexivity]|].
  split; [repeat constructor; cbn; intuition discriminate|].
  repeat constructor; try discriminate; cbn; intuition discriminate.
Qed.

(** Finding: a token reserved twice makes the table fail to initialise. *)
Theorem c15_duplicate_reserved_refuted : exists p datasets lines size,
  valid_params p /\ is_string p = true /\
  vocabulary no_fmt id p datasets lines size /\
  vocabulary_table (store_frequency p) (write_file (is_text p) lines) = None.
Proof.
  exists (Params true true false None (Q2Qc 0) None false false (Some ["z"; "z"])), [[rows_of ["b"]]], ["z"; "z"; "b"], 3%nat.
  split; [split; [exact I|split; [vm_compute; discriminate|exact I]]|]. split; [reflexivity|].
  split; [apply sequential_vocabulary; vm_compute; reflexivity|vm_compute; reflexivity].
Qed.
Print Assumptions c15_duplicate_reserved_refuted.

(** ** C16: the schema range *)

(** Whatever the file, the default value and the number of buckets: the output is in the declared range. *)
Theorem c16_in_schema_range : forall hash num_oov_buckets default_value store f x out range,
  apply_vocabulary hash num_oov_buckets default_value store f x = Some out ->
  schema_range num_oov_buckets default_value store f = Some range ->
  Forall (fun i => fst range <= i <= snd range)%Z out.
Proof. exact apply_in_range. Qed.
Print Assumptions c16_in_schema_range.

Example c16_in_schema_range_applies :
  let f := write_file true ["b"; "a"] in
  apply_vocabulary (fun _ => 5%nat) 3 (-1) false f ["a"; "x"; "b"] = Some [1; 4; 0]%Z /\
  schema_range 3 (-1) false f = Some (0, 4)%Z /\
  apply_vocabulary (fun _ => 5%nat) 0 (-1) false f ["a"; "x"; "b"] = Some [1; -1; 0]%Z /\
  schema_range 0 (-1) false f = Some (-1, 1)%Z.
Proof. repeat split. Qed.

(** Both ends of the declared range are produced by some token (with some string hash), so the range is exact. *)
Theorem c16_range_attained : forall num_oov_buckets default_value store f range,
  vocabulary_table store f <> Some [] ->
  schema_range num_oov_buckets default_value store f = Some range ->
  (exists hash t, apply_vocabulary hash num_oov_buckets default_value store f [t] = Some [fst range]) /\
  (exists hash t, apply_vocabulary hash num_oov_buckets default_value store f [t] = Some [snd range]).
Proof. exact range_attained. Qed.
Print Assumptions c16_range_attained.

Example c16_range_attained_applies :
  vocabulary_table false (write_file true ["b"; "a"]) <> Some [] /\
  schema_range 3 (-1) false (write_file true ["b"; "a"]) = Some (0, 4)%Z.
Proof. split; [vm_compute; discriminate|reflexivity]. Qed.

(** The range is declared exactly when the output exists, and the numbers of buckets exceed every index. *)
Theorem c16_num_buckets : forall hash num_oov_buckets default_value store f x out,
  apply_vocabulary hash num_oov_buckets default_value store f x = Some out ->
  exists range, schema_range num_oov_buckets default_value store f = Some range /\
    Forall (fun i => i < get_num_buckets range)%Z out /\
    (forall n, num_buckets_for_transformed_feature range = Some n -> Forall (fun i => 0 <= i < n)%Z out) /\
    ((0 < num_oov_buckets \/ 0 <= default_value)%Z -> num_buckets_for_transformed_feature range = Some (get_num_buckets range)).
Proof. exact apply_num_buckets. Qed.
Print Assumptions c16_num_buckets.

Example c16_num_buckets_applies :
  apply_vocabulary (fun _ => 5%nat) 3 (-1) false (write_file true ["b"; "a"]) ["a"; "x"; "b"] = Some [1; 4; 0]%Z /\
  num_buckets_for_transformed_feature (0, 4)%Z = Some 5%Z.
Proof. split; reflexivity. Qed.

(** The registered size of the vocabulary is the number of indices, unless there are reserved tokens. *)
Theorem c16_registered_size : forall fmt sha1 p datasets lines size,
  valid_params p -> is_string p = true -> reserved_tokens p = None ->
  coverage p = None \/ ~ In (snd (dummy_entry true)) (map fst (all_rows datasets)) ->
  vocabulary fmt sha1 p datasets lines size -> size = length lines.
Proof. exact registered_size. Qed.
Print Assumptions c16_registered_size.
Example c16_registered_size_applies : vocabulary no_fmt id p0 [[rows_of ["b"; "a"; "b"]]] ["b"; "a"] 2.
Proof. apply sequential_vocabulary; vm_compute; reflexivity. Qed.

(** Finding: a reserved token that also occurs in the data (or an empty vocabulary beside reserved tokens)
    is counted twice, so the registered size exceeds the number of lines. *)
Theorem c16_reserved_size_refuted :
  (exists p datasets lines size, valid_params p /\ is_string p = true /\
     vocabulary no_fmt id p datasets lines size /\ datasets <> [] /\ (length lines < size)%nat) /\
  (exists p lines size, valid_params p /\ is_string p = true /\
     vocabulary no_fmt id p [] lines size /\ (length lines < size)%nat).
Proof.
  split.
  - exists p_reserved, [[rows_of ["b"; "a"; "c"; "b"; "c"; "c"]]], ["z"; "b"; "c"], 4%nat.
    split; [apply c13_reserved_order_applies|]. split; [reflexivity|]. split; [apply c13_reserved_order_applies|].
    split; [discriminate|cbn; lia].
  - exists (Params true true false None (Q2Qc 0) None false false (Some ["z"])), ["z"], 2%nat.
    split; [split; [exact I|split; [vm_compute; discriminate|exact I]]|]. split; [reflexivity|].
    split; [apply sequential_vocabulary; vm_compute; reflexivity|cbn; lia].
Qed.
Print Assumptions c16_reserved_size_refuted.

(** ** C17: reading a vocabulary back *)

Theorem c17_read_back : forall fmt sha1 p datasets lines size,
  (forall q, contains newline (fmt q) = false) ->
  valid_params p -> is_string p = true ->
  (forall r, reserved_tokens p = Some r -> Forall (fun t => contains newline t = false) r) ->
  vocabulary fmt sha1 p datasets lines size ->
  vocabulary_by_name (write_file (is_text p) lines) = lines /\
  vocabulary_size_by_name (write_file (is_text p) lines) = length lines.
Proof. exact read_back. Qed.
Print Assumptions c17_read_back.

Example c17_read_back_applies :
  let bad := String newline "x" in
  vocabulary no_fmt id p0 [[rows_of ["b"; bad; ""; "a b"; "b"]]] ["b"; "a b"] 2 /\
  vocabulary_by_name (write_file true ["b"; "a b"]) = ["b"; "a b"] /\
  vocabulary_by_name (write_file true ["b"; bad]) <> ["b"; bad].
Proof. split; [apply sequential_vocabulary; vm_compute; reflexivity|]. split; [reflexivity|discriminate]. Qed.

(** Finding: reserved tokens are not filtered, so one with a newline becomes two lines (and all later
    indices shift). *)
Theorem c17_reserved_newline_refuted : exists p datasets lines size,
  valid_params p /\ is_string p = true /\ vocabulary no_fmt id p datasets lines size /\
  vocabulary_by_name (write_file (is_text p) lines) <> lines /\
  apply_vocabulary (fun _ => 0%nat) 0 (-1) false (write_file (is_text p) lines) ["b"] = Some [2%Z] /\
  nth_error lines 1 = Some "b".
Proof.
  exists (Params true true false None (Q2Qc 0) None false false (Some [("x" ++ String newline "y")%string])), [[rows_of ["b"]]].
  exists [("x" ++ String newline "y")%string; "b"], 2%nat.
  split; [split; [exact I|split; [vm_compute; discriminate|exact I]]|]. split; [reflexivity|].
  split; [apply sequential_vocabulary; vm_compute; reflexivity|]. split; [discriminate|]. split; reflexivity.
Qed.
Print Assumptions c17_reserved_newline_refuted.

(** ** C18: the empty vocabulary *)

(** If no token is eligible the file consists of the dummy entry and the size is 1; otherwise every line
    belongs to an eligible token (the dummy entry is not added). *)
Theorem c18_empty_vocabulary : forall fmt sha1 p datasets lines size,
  valid_params p -> coverage p = None -> reserved_tokens p = None ->
  (fingerprint_shuffle p = true -> fingerprints_distinct sha1 (map fst (all_rows datasets))) ->
  vocabulary fmt sha1 p datasets lines size ->
  let rs := all_rows datasets in
  let ok := eligible (is_string p && is_text p) (is_weighted p) (frequency_threshold p) rs in
  ((forall t, ~ ok t) -> lines = [format_entry fmt (store_frequency p) (dummy_entry (is_string p))] /\ size = 1%nat) /\
  ((exists t, ok t) ->
     Forall (fun line => exists t, ok t /\ line = line_of fmt (store_frequency p) (indicator (is_weighted p) rs) t) lines /\
     lines <> []).
Proof. exact vocabulary_empty. Qed.
Print Assumptions c18_empty_vocabulary.

Example c18_empty_vocabulary_applies :
  vocabulary no_fmt id p1 [[rows_of ["a"; "b"]]] ["49d0cd50-04bb-48c0-bc6f-5b575dce351a"] 1 /\
  (forall t, ~ eligible true false (Q2Qc 2) (all_rows [[rows_of ["a"; "b"]]]) t) /\
  vocabulary no_fmt id p1 [[rows_of ["a"; "b"; "a"]]] ["a"] 1.
Proof.
  split; [apply sequential_vocabulary; vm_compute; reflexivity|]. split; [|apply sequential_vocabulary; vm_compute; reflexivity].
  intros t (H1 & _ & [H|H]); [discriminate|].
  destruct H1 as [<-|[<-|[]]]; vm_compute in H; now apply H.
Qed.

(** Every file has at least one line, whatever the arguments. *)
Theorem c18_never_empty : forall fmt sha1 p datasets lines size,
  vocabulary fmt sha1 p datasets lines size -> lines <> [] /\ (0 < size)%nat.
Proof. exact vocabulary_never_empty. Qed.
Print Assumptions c18_never_empty.

Example c18_never_empty_applies : vocabulary no_fmt id p0 [] ["49d0cd50-04bb-48c0-bc6f-5b575dce351a"] 1.
Proof. apply sequential_vocabulary; vm_compute; reflexivity. Qed.

(** Finding: with top_k the dummy entry is added before coverage tokens and reserved tokens are, so it
    appears in vocabularies that are not empty. *)
Theorem c18_dummy_beside_tokens_refuted :
  (exists p lines size, valid_params p /\ reserved_tokens p = None /\
     vocabulary no_fmt id p [[rows_of ["a"]]] lines size /\
     lines = ["a"; "49d0cd50-04bb-48c0-bc6f-5b575dce351a"]) /\
  (exists p lines size, valid_params p /\ reserved_tokens p = Some ["z"] /\
     vocabulary no_fmt id p [] lines size /\ lines = ["z"; "49d0cd50-04bb-48c0-bc6f-5b575dce351a"]).
Proof.
  split.
  - exists (Params true true false (Some 3%nat) (Q2Qc 2) (Some (id, (Some 1%nat, Q2Qc 0))) false false None), ["a"; "49d0cd50-04bb-48c0-bc6f-5b575dce351a"], 2%nat.
    split; [split; [cbn; lia|split; [vm_compute; discriminate|split; [lia|vm_compute; discriminate]]]|]. split; [reflexivity|].
    split; [apply sequential_vocabulary; vm_compute; reflexivity|reflexivity].
  - exists (Params true true false (Some 3%nat) (Q2Qc 0) None false false (Some ["z"])), ["z"; "49d0cd50-04bb-48c0-bc6f-5b575dce351a"], 2%nat.
    split; [split; [cbn; lia|split; [vm_compute; discriminate|exact I]]|]. split; [reflexivity|].
    split; [apply sequential_vocabulary; vm_compute; reflexivity|reflexivity].
Qed.
Print Assumptions c18_dummy_beside_tokens_refuted.

(** ** C19: store_frequency *)

(** With store_frequency the token of each line is found at its line number: always for TFRecord files, and
    for text files after the replacement of spaces that compute_and_apply_vocabulary applies to its input. *)
Theorem c19_store_frequency_lookup : forall fmt sha1 hash num_oov_buckets default_value p datasets x lines size out,
  (forall q, plain (fmt q)) ->
  valid_params p -> is_string p = true -> reserved_tokens p = None -> store_frequency p = true ->
  coverage p = None \/ ~ In (snd (dummy_entry true)) (map (format_input p) (map fst (all_rows datasets))) ->
  compute_and_apply fmt sha1 hash num_oov_buckets default_value p datasets x lines size out ->
  exists tokens, NoDup tokens /\ length tokens = size /\
    Forall2 (fun line t => exists q, line = (fmt q ++ String " "%char t)%string) lines tokens /\
    exists f, out = Some (map f x) /\
      (forall i t, nth_error tokens i = Some (format_input p t) -> f t = Z.of_nat i) /\
      (forall t, ~ In (format_input p t) tokens ->
         (0 < num_oov_buckets -> Z.of_nat size <= f t < Z.of_nat size + num_oov_buckets)%Z /\
         (num_oov_buckets <= 0 -> f t = default_value)%Z).
Proof. exact compute_and_apply_store. Qed.
Print Assumptions c19_store_frequency_lookup.

Definition p_store : params := Params true true false None (Q2Qc 0) None false true None.
Example c19_store_frequency_lookup_applies :
  compute_and_apply no_fmt id (fun _ => 5%nat) 0 (-1) p_store [[rows_of ["b"; "a c"; "b"]]] ["a c"; "x"; "b"] ["1 b"; "1 a__SPACE__c"] 2
    (Some [1; -1; 0]%Z).
Proof. split; [apply sequential_vocabulary; vm_compute; reflexivity|vm_compute; reflexivity]. Qed.

(** The replacement keeps tokens without underscores apart. *)
Theorem c19_no_underscore_distinct : forall s t,
  contains "_"%char s = false -> contains "_"%char t = false -> map_spaces s = map_spaces t -> s = t.
Proof. exact map_spaces_inj. Qed.
Print Assumptions c19_no_underscore_distinct.
Example c19_no_underscore_distinct_applies : contains "_"%char "a b" = false /\ map_spaces "a b" <> map_spaces "a  b".
Proof. split; [reflexivity|discriminate]. Qed.

(** Finding: other tokens may collide - even if neither contains "__SPACE__" -, getting the same index
    and a joint count. *)
Theorem c19_space_collision_refuted :
  (exists lines size, compute_and_apply no_fmt id (fun _ => 0%nat) 0 (-1) p_store [[rows_of ["a b"; "a__SPACE__b"]]]
     ["a b"; "a__SPACE__b"] lines size (Some [0; 0]%Z) /\ size = 1%nat) /\
  map_spaces " SPACE__" = map_spaces "__SPACE ".
Proof.
  split; [|reflexivity]. exists ["1 a__SPACE__b"], 1%nat. split; [|reflexivity].
  split; [apply sequential_vocabulary; vm_compute; reflexivity|vm_compute; reflexivity].
Qed.
Print Assumptions c19_space_collision_refuted.

(** Finding: tft.vocabulary followed by tft.apply_vocabulary does not replace spaces: tokens with spaces
    are not found, and two that agree up to the first space break the table. *)
Theorem c19_vocabulary_spaces_refuted :
  (exists lines size, vocabulary no_fmt id p_store [[rows_of ["a b"]]] lines size /\
     apply_vocabulary (fun _ => 0%nat) 0 (-1) true (write_file true lines) ["a b"; "a"] = Some [-1; 0]%Z) /\
  (exists lines size, vocabulary no_fmt id p_store [[rows_of ["a b"; "a c"]]] lines size /\
     apply_vocabulary (fun _ => 0%nat) 0 (-1) true (write_file true lines) [] = None).
Proof.
  split.
  - exists ["1 a b"], 1%nat. split; [apply sequential_vocabulary; vm_compute; reflexivity|reflexivity].
  - exists ["1 a c"; "1 a b"], 2%nat. split; [apply sequential_vocabulary; vm_compute; reflexivity|reflexivity].
Qed.
Print Assumptions c19_vocabulary_spaces_refuted.

(** ** C20: coverage *)

Theorem c20_coverage_appends : forall fmt sha1 p f k thr datasets lines size,
  valid_params p -> coverage p = Some (f, (k, thr)) -> reserved_tokens p = None -> fingerprint_shuffle p = false ->
  vocabulary fmt sha1 p datasets lines size ->
  let rs := all_rows datasets in
  let ind := indicator (is_weighted p) rs in
  let text := is_string p && is_text p in
  forall l, is_ranking ind (eligible text (is_weighted p) (frequency_threshold p) rs) l ->
  let standard := first_of (top_k p) l in
  top_k p = None \/ standard <> [] ->
  exists extra,
    StronglySorted (comes_before ind) (standard ++ extra) /\
    (forall t, In t (standard ++ extra) <-> In t standard \/ covered text (is_weighted p) f k thr rs t) /\
    lines = match standard ++ extra with
            | [] => [format_entry fmt (store_frequency p) (dummy_entry (is_string p))]
            | ts => map (line_of fmt (store_frequency p) ind) ts
            end /\
    size = Nat.max (length (standard ++ extra)) 1.
Proof. exact vocabulary_coverage. Qed.
Print Assumptions c20_coverage_appends.

Definition first_letter (t : string) : string := substring 0 1 t.
Definition p_coverage : params := Params true true false (Some 1%nat) (Q2Qc 0) (Some (first_letter, (Some 1%nat, Q2Qc 0))) false false None.
Example c20_coverage_appends_applies :
  valid_params p_coverage /\
  vocabulary no_fmt id p_coverage [[rows_of ["ab"; "ab"; "ab"; "ac"; "ac"; "bx"; "by"]]] ["ab"; "by"] 2 /\
  is_ranking (indicator false (rows_of ["ab"; "ab"; "ab"; "ac"; "ac"; "bx"; "by"]))
    (eligible true false (Q2Qc 0) (rows_of ["ab"; "ab"; "ab"; "ac"; "ac"; "bx"; "by"])) ["ab"; "ac"; "by"; "bx"].
Proof.
  split; [split; [cbn; lia|split; [vm_compute; discriminate|split; [lia|vm_compute; discriminate]]]|].
  split; [apply sequential_vocabulary; vm_compute; reflexivity|]. split.
  - repeat constructor; (left; vm_compute; reflexivity) || (right; split; vm_compute; reflexivity).
  - intros t. split.
    + intros H. split; [cbn in *; tauto|]. split; [|now left]. intros _.
      apply (filtered_out_one_line true); [|reflexivity]. repeat (destruct H as [<-|H]; [reflexivity|]). destruct H.
    + intros [H _]. cbn in *. tauto.
Qed.
