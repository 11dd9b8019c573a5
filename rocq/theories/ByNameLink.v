(** Vocabularies computed by tft.vocabulary, asked for by name. *)
From Coq Require Import String Ascii List Bool Arith Lia Qcanon.
From Verif Require Import MiscModel MiscSpec MiscProofs VocabModel VocabSpec VocabProofs VocabFileModel VocabFileProofs ByNameModel ByNameSpec ByNameProofs.
Import ListNotations.
Local Notation length := List.length.

Section analysis.
  Variables (fmt : Qc -> string) (sha1 : string -> string) (p : params) (datasets : list (list (list (string * Qc)))).
  Variables (pb : bool) (calls1 calls2 : list call) (v : vocab) (others : list (name * file)) (n : name).
  Let calls := calls1 ++ MakeVocabulary v :: calls2.

  Lemma analysed_entries :
    own_files calls -> other_names others v -> not_hidden (calls1 ++ calls2) n -> asked_for v n ->
    (forall q, ~ has_newline (fmt q)) -> valid_params p -> is_string p = true ->
    (forall r, reserved_tokens p = Some r -> Forall (fun t => ~ has_newline t) r) ->
    is_text p = v_text v -> vocabulary fmt sha1 p datasets (v_lines v) (v_size v) ->
    entries_by_name pb calls others n = Some (v_lines v).
  Proof.
    intros O H V A F VP S0 R T An. rewrite (asked_key _ _ A) in *.
    unfold entries_by_name, calls. rewrite (found_file pb calls1 calls2 v others O H V), (read_path calls1 calls2 v others O). cbn [option_map].
    f_equal. rewrite <- T. apply (read_back fmt sha1 p datasets _ _ (fun q => no_newline _ (F q)) VP S0) in An as [E _]; [exact E|].
    intros r Hr. eapply Forall_impl; [|exact (R r Hr)]. intros t. apply no_newline.
  Qed.

  Lemma analysed_size :
    own_files calls -> other_names others v -> not_hidden (calls1 ++ calls2) n -> asked_for v n ->
    (forall q, ~ has_newline (fmt q)) -> valid_params p -> is_string p = true -> reserved_tokens p = None ->
    coverage p = None \/ ~ In (snd (dummy_entry true)) (map fst (all_rows datasets)) ->
    is_text p = v_text v -> v_approximate v = false -> vocabulary fmt sha1 p datasets (v_lines v) (v_size v) ->
    size_by_name pb calls others n = Some (length (v_lines v)) /\ size_when_tracing pb calls n = Some (length (v_lines v)).
  Proof.
    intros O H V A F VP S0 R C T Ap An. rewrite (asked_key _ _ A) in *.
    pose proof (registered_size fmt sha1 p datasets _ _ VP S0 R C An) as E.
    assert (P : (0 < v_size v)%nat) by (destruct An as (m & es & _ & _ & _ & ->); lia).
    split; [|unfold calls; rewrite (traced_size pb calls1 calls2 v O Ap); now f_equal].
    unfold size_by_name, calls. destruct (size_from_annotations pb (calls1 ++ MakeVocabulary v :: calls2) (key v)) as [k|] eqn:An'.
    - destruct (list_eq_dec ascii_dec (key v) (v_filename v)) as [K|K].
      + destruct pb eqn:Ep; [|discriminate]. rewrite (annotation_own true calls1 calls2 v O eq_refl Ap K P) in An'. congruence.
      + rewrite (annotation_other pb calls1 calls2 v O (or_intror K)) in An'. discriminate.
    - rewrite (found_file pb calls1 calls2 v others O H V), (read_path calls1 calls2 v others O). cbn [option_map].
      f_equal. rewrite <- T. apply (read_back fmt sha1 p datasets _ _ (fun q => no_newline _ (F q)) VP S0) in An as [_ E']; [exact E'|].
      intros r Hr. congruence.
  Qed.
End analysis.
