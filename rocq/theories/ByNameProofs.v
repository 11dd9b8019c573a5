(** Proofs about vocabularies asked for by name. *)
From Coq Require Import String Ascii List Bool Arith Lia.
From Verif Require Import MiscModel MiscSpec MiscProofs VocabModel VocabFileModel VocabFileProofs ByNameModel ByNameSpec.
Import ListNotations.
Local Notation length := List.length.

(** ** Dictionaries *)

Lemma name_eqb_refl k : name_eqb k k = true.
Proof. now apply name_eqb_eq. Qed.
Lemma name_eqb_neq a b : a <> b -> name_eqb a b = false.
Proof. intros H. destruct (name_eqb a b) eqn:E; [|reflexivity]. now apply name_eqb_eq in E. Qed.

Lemma get_set {V} (d : list (name * V)) k v k' :
  dict_get (dict_set d k v) k' = if name_eqb k' k then Some v else dict_get d k'.
Proof.
  unfold dict_get. induction d as [|[k0 v0] d IH]; cbn [dict_set].
  - cbn [List.find fst]. destruct (name_eqb k' k); reflexivity.
  - destruct (name_eqb k k0) eqn:E.
    + apply name_eqb_eq in E. subst k0. cbn [List.find fst]. destruct (name_eqb k' k); reflexivity.
    + cbn [List.find fst]. destruct (name_eqb k' k0) eqn:E0; [|exact IH].
      apply name_eqb_eq in E0. subst k0. destruct (name_eqb k' k) eqn:E1; [|reflexivity].
      apply name_eqb_eq in E1. subst k. now rewrite name_eqb_refl in E.
Qed.

Lemma dict_of_snoc {V} (l : list (name * V)) k v : dict_of (l ++ [(k, v)]) = dict_set (dict_of l) k v.
Proof. unfold dict_of. now rewrite fold_left_app. Qed.

Lemma dict_of_none {V} (l : list (name * V)) k : ~ In k (map fst l) -> dict_get (dict_of l) k = None.
Proof.
  induction l as [|[k' v] l IH] using rev_ind; [reflexivity|].
  rewrite map_app. cbn [map fst]. intros H. rewrite dict_of_snoc, get_set.
  rewrite name_eqb_neq; [apply IH|]; intros C; apply H, in_app_iff; [now left|right; now left].
Qed.

Lemma dict_of_last {V} (l1 l2 : list (name * V)) k v :
  ~ In k (map fst l2) -> dict_get (dict_of (l1 ++ (k, v) :: l2)) k = Some v.
Proof.
  induction l2 as [|[k' v'] l2 IH] using rev_ind; intros H.
  - now rewrite dict_of_snoc, get_set, name_eqb_refl.
  - rewrite app_comm_cons, app_assoc, dict_of_snoc, get_set. rewrite map_app in H. cbn [map fst] in H.
    rewrite name_eqb_neq; [apply IH|]; intros C; apply H, in_app_iff; [now left|right; now left].
Qed.

Lemma in_set {V} (d : list (name * V)) k v k' : In k' (map fst (dict_set d k v)) <-> k' = k \/ In k' (map fst d).
Proof.
  induction d as [|[k0 v0] d IH]; cbn [dict_set].
  - cbn. intuition.
  - destruct (name_eqb k k0) eqn:E.
    + apply name_eqb_eq in E. subst k0. cbn. intuition.
    + cbn [map fst In]. rewrite IH. tauto.
Qed.
Lemma nodup_set {V} (d : list (name * V)) k v : NoDup (map fst d) -> NoDup (map fst (dict_set d k v)).
Proof.
  induction d as [|[k0 v0] d IH]; cbn [dict_set].
  - intros _. cbn. constructor; [intros []|constructor].
  - intros H. cbn [map fst] in H. inversion H as [|? ? H1 H2]; subst.
    destruct (name_eqb k k0) eqn:E.
    + apply name_eqb_eq in E. subst k0. cbn [map fst]. now constructor.
    + cbn [map fst]. constructor; [|auto]. rewrite in_set. intros [->|C]; [|auto].
      now rewrite name_eqb_refl in E.
Qed.
Lemma dict_of_nodup {V} (l : list (name * V)) : NoDup (map fst (dict_of l)).
Proof.
  induction l as [|[k v] l IH] using rev_ind; [constructor|]. rewrite dict_of_snoc. now apply nodup_set.
Qed.
Lemma dict_of_in {V} (l : list (name * V)) k : In k (map fst (dict_of l)) <-> In k (map fst l).
Proof.
  induction l as [|[k' v] l IH] using rev_ind; [reflexivity|].
  rewrite dict_of_snoc, in_set, map_app, in_app_iff, IH. cbn. intuition.
Qed.

Lemma get_find {V} (d : list (name * V)) k v : dict_get d k = Some v -> List.find (fun e => name_eqb k (fst e)) d = Some (k, v).
Proof.
  unfold dict_get. match goal with |- context [List.find ?f d] => destruct (List.find f d) as [[k' v']|] eqn:E end; [|discriminate]. cbn. intros [= ->].
  apply find_some in E as [_ E]. cbn in E. apply name_eqb_eq in E. now subst.
Qed.

(** ** What the graph holds *)

Definition key (v : vocab) : name := match v_name v with Some n => n | None => v_filename v end.
Definition asset_pair (c : call) : name * name :=
  match c with
  | MakeVocabulary v => (key v, written_name (v_text v) (v_filename v))
  | AnnotateAsset k f => (k, f)
  end.
Definition size_pair (c : call) : list (name * nat) :=
  match c with
  | MakeVocabulary v => if v_approximate v then [] else [(key v, v_size v)]
  | AnnotateAsset _ _ => []
  end.
Definition metadata_pair (c : call) : list (name * nat) :=
  match c with
  | MakeVocabulary v => if v_approximate v then [] else [(v_filename v, v_size v)]
  | AnnotateAsset _ _ => []
  end.

Lemma trace_graph pb calls :
  let g := trace pb calls in
  length (asset_keys g) = length (asset_filenames g) /\
  combine (asset_keys g) (asset_filenames g) = map asset_pair calls /\
  vocabulary_sizes g = flat_map size_pair calls /\
  vocabulary_metadata g = (if pb then flat_map metadata_pair calls else []).
Proof.
  cbv zeta. unfold trace. induction calls as [|c calls IH] using rev_ind.
  - cbn. destruct pb; auto.
  - rewrite fold_left_app, map_app, !flat_map_app. cbn [fold_left map flat_map]. rewrite !app_nil_r.
    destruct IH as (E1 & E2 & E3 & E4). set (g := fold_left (step pb) calls empty_graph) in *.
    assert (C : forall a b x y, length a = length b -> combine (a ++ [x]) (b ++ [y]) = combine a b ++ [(x, y)] :> list (name * name)).
    { clear. induction a as [|a0 a IH]; intros [|b0 b] x y E; try discriminate; [reflexivity|].
      cbn in E |- *. f_equal. apply IH. lia. }
    destruct c as [v|k f]; cbn [step asset_pair size_pair metadata_pair].
    + destruct (v_approximate v); cbn [register_vocab annotate_asset annotate_vocab_size asset_keys asset_filenames vocabulary_sizes vocabulary_metadata].
      * rewrite !app_length, (C _ _ _ _ E1), E2, E3, E4, !app_nil_r. cbn. split; [lia|]. split; [reflexivity|].
        split; [reflexivity|now destruct pb].
      * unfold maybe_annotate_vocab_metadata. destruct pb; cbn [asset_keys asset_filenames vocabulary_sizes vocabulary_metadata];
          rewrite !app_length, (C _ _ _ _ E1), E2, E3, E4; cbn; (split; [lia|]); auto.
    + cbn [annotate_asset asset_keys asset_filenames vocabulary_sizes vocabulary_metadata].
      rewrite !app_length, (C _ _ _ _ E1), E2, E3, E4, !app_nil_r. cbn. split; [lia|]. split; [reflexivity|].
      split; [reflexivity|now destruct pb].
Qed.

(** ** Paths *)

Lemma basename_no_slash p : ~ In slash (basename p).
Proof.
  unfold basename. rewrite <- in_rev. induction (rev p) as [|c s IH]; cbn [until_slash]; [auto|].
  destruct (Ascii.eqb c "/") eqn:E; [intros []|]. intros [->|C]; [|auto]. now rewrite Ascii.eqb_refl in E.
Qed.
Lemma until_slash_id s : ~ In slash s -> until_slash s = s.
Proof.
  induction s as [|c s IH]; cbn [until_slash]; [auto|]. intros H.
  destruct (Ascii.eqb c "/") eqn:E.
  - apply Ascii.eqb_eq in E. subst c. destruct H. now left.
  - f_equal. apply IH. intros C. apply H. now right.
Qed.
Lemma until_slash_app s t : ~ In slash s -> until_slash (s ++ slash :: t) = s.
Proof.
  induction s as [|c s IH]; cbn [until_slash app]; intros H.
  - now rewrite Ascii.eqb_refl.
  - destruct (Ascii.eqb c "/") eqn:E.
    + apply Ascii.eqb_eq in E. subst c. destruct H. now left.
    + f_equal. apply IH. intros C. apply H. now right.
Qed.
Lemma basename_last p n : last_component p n -> basename p = n.
Proof.
  intros [H [->|(d & ->)]]; unfold basename.
  - rewrite until_slash_id; [apply rev_involutive|]. now rewrite <- in_rev.
  - rewrite rev_app_distr. cbn [rev]. rewrite <- app_assoc. cbn [app].
    rewrite until_slash_app; [apply rev_involutive|]. now rewrite <- in_rev.
Qed.
Lemma until_slash_split s : s = until_slash s \/ exists t, s = until_slash s ++ slash :: t.
Proof.
  induction s as [|c s IH]; cbn [until_slash]; [now left|].
  destruct (Ascii.eqb c "/") eqn:E.
  - apply Ascii.eqb_eq in E. subst c. right. now exists s.
  - destruct IH as [IH|(t & IH)]; [left; now f_equal|right; exists t; cbn [app]; now f_equal].
Qed.
Lemma last_basename p : last_component p (basename p).
Proof.
  split; [apply basename_no_slash|]. unfold basename.
  destruct (until_slash_split (rev p)) as [E|(t & E)].
  - left. rewrite <- E. now rewrite rev_involutive.
  - right. exists (rev t). apply (f_equal (@rev ascii)) in E. rewrite rev_involutive, rev_app_distr in E. cbn [rev] in E.
    now rewrite <- app_assoc in E.
Qed.
Lemma basename_plain n : ~ In slash n -> basename n = n.
Proof. intros H. apply basename_last. split; [exact H|now left]. Qed.

(** ** Names of files *)

Lemma filename_sanitized v : exists s, v_filename v = sanitized s.
Proof.
  unfold v_filename, get_vocab_filename, get_approx_vocab_filename, sanitized_vocab_filename.
  destruct (v_approximate v), (v_name v); eauto.
Qed.
Lemma filename_key v : sanitized (key v) = v_filename v.
Proof.
  unfold key. destruct (v_name v) as [n|] eqn:E.
  - unfold v_filename, get_vocab_filename, get_approx_vocab_filename, sanitized_vocab_filename. rewrite E. now destruct (v_approximate v).
  - destruct (filename_sanitized v) as [s ->]. apply sanitized_idempotent.
Qed.
Lemma filename_fixed v : sanitized (v_filename v) = v_filename v.
Proof. destruct (filename_sanitized v) as [s ->]. apply sanitized_idempotent. Qed.
Lemma same_key u v : key u = key v -> v_filename u = v_filename v.
Proof. intros E. now rewrite <- (filename_key u), E, filename_key. Qed.

Lemma filename_chars v c : In c (v_filename v) -> c <> slash /\ c <> "."%char.
Proof.
  destruct (filename_sanitized v) as [s ->]. intros H.
  pose proof (proj1 (Forall_forall _ _) (sanitized_safe s) c H) as F. unfold safe_char in F.
  split; intros ->; unfold slash in F; cbn in F; repeat (destruct F as [F|F]; [discriminate|]); destruct F.
Qed.
Lemma filename_no_slash v : ~ In slash (v_filename v).
Proof. intros H. now destruct (filename_chars _ _ H). Qed.
Lemma written_no_slash v t : ~ In slash (written_name t (v_filename v)).
Proof.
  unfold written_name. destruct t; [apply filename_no_slash|]. rewrite in_app_iff. intros [H|H]; [now apply filename_no_slash in H|].
  cbn in H. repeat (destruct H as [H|H]; [discriminate|]). destruct H.
Qed.
Lemma written_same u v s t : written_name s (v_filename u) = written_name t (v_filename v) -> v_filename u = v_filename v /\ s = t.
Proof.
  unfold written_name. destruct s, t; intros E; [auto| | |].
  - exfalso. assert (D : In "."%char (v_filename u)) by (rewrite E; apply in_app_iff; right; now left). now destruct (filename_chars _ _ D).
  - exfalso. assert (D : In "."%char (v_filename v)) by (rewrite <- E; apply in_app_iff; right; now left). now destruct (filename_chars _ _ D).
  - apply app_inv_tail in E. auto.
Qed.

(** ** Finding the file of a vocabulary *)

Section find.
  Variables (pb : bool) (calls1 calls2 : list call) (v : vocab) (others : list (name * file)).
  Let calls := calls1 ++ MakeVocabulary v :: calls2.
  Hypothesis Own : own_files calls.
  Hypothesis Others : other_names others v.

  Lemma vocabularies_app l1 l2 : vocabularies (l1 ++ l2) = vocabularies l1 ++ vocabularies l2.
  Proof. unfold vocabularies. apply flat_map_app. Qed.
  Lemma in_vocabularies u l : In u (vocabularies l) <-> In (MakeVocabulary u) l.
  Proof.
    unfold vocabularies. rewrite in_flat_map. split.
    - intros ([w|k f] & H & C); cbn in C; [|destruct C]. destruct C as [->|[]]. exact H.
    - intros H. exists (MakeVocabulary u). split; [exact H|now left].
  Qed.

  Lemma other_filename u : In (MakeVocabulary u) (calls1 ++ calls2) -> v_filename u <> v_filename v.
  Proof.
    intros H E. pose proof (proj1 Own) as O. unfold calls in O. rewrite vocabularies_app, map_app in O. cbn [vocabularies flat_map map] in O.
    apply NoDup_remove_2 in O. apply O. rewrite <- map_app. apply in_map_iff. exists u. split; [exact E|].
    change (In u (vocabularies calls1 ++ vocabularies calls2)). rewrite <- vocabularies_app. now apply in_vocabularies.
  Qed.

  Lemma files_app l1 l2 : vocabulary_files (l1 ++ l2) = vocabulary_files l1 ++ vocabulary_files l2.
  Proof. apply flat_map_app. Qed.
  Lemma file_of_other l t : (forall u, In (MakeVocabulary u) l -> v_filename u <> v_filename v) ->
    ~ In (written_name t (v_filename v)) (map fst (vocabulary_files l)).
  Proof.
    intros H C. apply in_map_iff in C as ([n f] & E & C). cbn in E. subst n. unfold vocabulary_files in C.
    apply in_flat_map in C as ([u|k g] & Hu & C); cbn in C; [|destruct C]. destruct C as [C|[]]. injection C as C _.
    apply written_same in C as [C _]. now apply (H u).
  Qed.

  Let path := written_name (v_text v) (v_filename v).

  Lemma asset_there : dict_get (assets calls others) path = Some (write_file (v_text v) (v_lines v)).
  Proof.
    unfold assets, calls. rewrite files_app. cbn [vocabulary_files flat_map app].
    rewrite app_assoc. apply dict_of_last. apply (file_of_other calls2). intros u Hu. apply other_filename, in_app_iff. now right.
  Qed.
  Lemma asset_listed : In path (map fst (assets calls others)).
  Proof.
    unfold assets. apply dict_of_in. rewrite map_app, in_app_iff. right. unfold calls. rewrite files_app, map_app, in_app_iff.
    right. now left.
  Qed.
  Lemma asset_other_format : ~ In (written_name (negb (v_text v)) (v_filename v)) (map fst (assets calls others)).
  Proof.
    unfold assets. rewrite dict_of_in, map_app, in_app_iff. intros [C|C].
    - apply in_map_iff in C as (o & E & C). destruct (Others o C) as [D1 D2]. unfold written_name in E. destruct (v_text v); cbn in E; auto.
    - unfold calls in C. rewrite files_app, map_app in C. cbn [vocabulary_files flat_map map app fst] in C. apply in_app_iff in C as [C|[C|C]].
      + revert C. apply file_of_other. intros u Hu. apply other_filename, in_app_iff. now left.
      + apply written_same in C as [_ C]. now destruct (v_text v).
      + revert C. apply (file_of_other calls2). intros u Hu. apply other_filename, in_app_iff. now right.
  Qed.

  Hypothesis Visible : not_hidden (calls1 ++ calls2) (key v).

  Lemma other_basename c : In c (calls1 ++ calls2) -> basename (fst (asset_pair c)) <> key v.
  Proof.
    intros H E. destruct Visible as [V1 V2].
    assert (L : hides (fst (asset_pair c)) (key v)) by (rewrite <- E; apply last_basename).
    destruct c as [u|k f]; cbn [asset_pair fst] in *; [|now apply (V2 k f)].
    assert (D : key u = key v -> False) by (intros D; apply (other_filename u H); now apply same_key).
    unfold key at 1 in L. unfold key at 1 in E. destruct (v_name u) as [n|] eqn:En.
    - apply (V1 u n H En); [|exact L]. intros ->. apply D. unfold key at 1. now rewrite En.
    - rewrite (basename_plain _ (filename_no_slash u)) in E. apply D. unfold key at 1. now rewrite En.
  Qed.

  Lemma map_entry : (In slash (key v) /\ dict_get (asset_map pb calls) (key v) = None) \/ dict_get (asset_map pb calls) (key v) = Some path.
  Proof.
    unfold asset_map, get_asset_annotations. destruct (trace_graph pb calls) as (_ & -> & _). rewrite map_map.
    destruct (in_dec ascii_dec slash (key v)) as [S0|S0].
    - left. split; [exact S0|]. apply dict_of_none. rewrite map_map. cbn [fst]. intros C. apply in_map_iff in C as (c & E & _).
      apply (basename_no_slash (fst (asset_pair c))). now rewrite E.
    - right. unfold calls. rewrite map_app. cbn [map asset_pair fst snd].
      rewrite (basename_plain _ S0), (basename_plain _ (written_no_slash v (v_text v))). fold path. apply dict_of_last.
      rewrite map_map. cbn [fst]. intros C. apply in_map_iff in C as (c & E & C).
      apply (other_basename c); [|exact E]. apply in_app_iff. now right.
  Qed.

  Lemma found_file : file_by_name pb calls others (key v) = Found path.
  Proof.
    unfold file_by_name. destruct map_entry as [[_ E]|E].
    - assert (N : ~ In (key v) (map fst (asset_map pb calls))).
      { intros C. apply in_map_iff in C as ([k f] & Ek & C). cbn in Ek. subst k. unfold dict_get in E.
        match type of E with context [List.find ?f ?l] => destruct (List.find f l) as [|] eqn:F end; [discriminate|]. apply (List.find_none _ _ F) in C. cbn in C. now rewrite name_eqb_refl in C. }
      unfold path. apply (file_found _ _ _ (v_text v) [] true); [apply dict_of_nodup|exact N| |apply asset_listed|apply asset_other_format].
      cbn. f_equal. apply filename_key.
    - apply file_mapped; [apply asset_listed|]. now apply get_find.
  Qed.

  Lemma ends_name t : ends_with (list_ascii_of_string "tfrecord.gz") (written_name t (v_filename v)) = negb t.
  Proof.
    unfold ends_with, written_name. destruct t; cbn [negb].
    - apply name_eqb_neq. intros E.
      assert (D : In "."%char (v_filename v)).
      { rewrite <- (firstn_skipn (length (v_filename v) - length (list_ascii_of_string "tfrecord.gz")) (v_filename v)), in_app_iff.
        right. rewrite <- E. cbn. tauto. }
      now destruct (filename_chars _ _ D).
    - apply name_eqb_eq. unfold tfrecord_suffix.
      rewrite app_length.
      replace (length (v_filename v) + length (list_ascii_of_string ".tfrecord.gz") - length (list_ascii_of_string "tfrecord.gz"))
        with (length (v_filename v) + 1) by (cbn; lia).
      rewrite skipn_app, skipn_all2 by lia. now replace (length (v_filename v) + 1 - length (v_filename v)) with 1 by lia.
  Qed.

  Lemma read_path : read_file calls others path = Some (write_file (v_text v) (v_lines v)).
  Proof.
    unfold read_file. rewrite asset_there. unfold path. rewrite ends_name. now destruct (v_text v).
  Qed.

  Hypothesis Lines : lines_ok v.

  Lemma no_newline s : ~ has_newline s -> contains newline s = false.
  Proof.
    induction s as [|c s IH]; cbn; [auto|]. intros H. apply orb_false_iff. split; [|apply IH; tauto].
    apply Ascii.eqb_neq. intros ->. apply H. now left.
  Qed.
  Lemma lines_plain : v_text v = true -> Forall (fun l => contains newline l = false) (v_lines v).
  Proof. intros E. eapply Forall_impl; [|exact (Lines E)]. intros l. apply no_newline. Qed.

  Lemma read_entries : vocabulary_by_name (write_file (v_text v) (v_lines v)) = v_lines v.
  Proof. unfold write_file. destruct (v_text v) eqn:E; [apply by_name_write, lines_plain, E|reflexivity]. Qed.
  Lemma read_size : vocabulary_size_by_name (write_file (v_text v) (v_lines v)) = length (v_lines v).
  Proof.
    unfold write_file. destruct (v_text v) eqn:E; [|reflexivity]. cbn [vocabulary_size_by_name].
    rewrite (readlines_write _ (lines_plain E)). apply map_length.
  Qed.

  Lemma found_entries : entries_by_name pb calls others (key v) = Some (v_lines v).
  Proof. unfold entries_by_name. rewrite found_file, read_path. cbn [option_map]. now rewrite read_entries. Qed.

  Lemma annotation_other : (v_approximate v = true \/ key v <> v_filename v) -> size_from_annotations pb calls (key v) = None.
  Proof.
    intros H. unfold size_from_annotations. match goal with |- context [List.find ?f ?l] => destruct (List.find f l) as [[n k]|] eqn:F end; [|reflexivity]. exfalso.
    apply find_some in F as [F E]. destruct pb eqn:P; [|destruct F]. destruct (trace_graph pb calls) as (_ & _ & _ & M).
    rewrite P in M. rewrite M in F. cbn [fst snd] in E. apply andb_true_iff in E as [E _]. apply name_eqb_eq in E. subst n.
    apply in_flat_map in F as ([u|k' f] & Hu & F); cbn in F; [|destruct F]. destruct (v_approximate u) eqn:A; [destruct F|].
    destruct F as [F|[]]. injection F as F _.
    assert (Eu : v_filename u = v_filename v) by (rewrite <- (filename_key v), <- F; symmetry; apply filename_fixed).
    unfold calls in Hu. apply in_app_iff in Hu as [Hu|[Hu|Hu]].
    - apply (other_filename u); [apply in_app_iff; now left|exact Eu].
    - injection Hu as <-. destruct H as [H|H]; [congruence|]. now apply H.
    - apply (other_filename u); [apply in_app_iff; now right|exact Eu].
  Qed.

  Lemma annotation_own : pb = true -> v_approximate v = false -> key v = v_filename v -> 0 < v_size v ->
    size_from_annotations pb calls (key v) = Some (v_size v).
  Proof.
    intros P A K Pos. unfold size_from_annotations. destruct (trace_graph pb calls) as (_ & _ & _ & ->). rewrite P.
    unfold calls. rewrite flat_map_app. cbn [flat_map metadata_pair]. rewrite A. cbn [app].
    assert (F : forall l r, (forall u, In (MakeVocabulary u) l -> v_filename u <> v_filename v) ->
      List.find (fun m : name * nat => name_eqb (fst m) (key v) && negb (snd m =? 0)) (flat_map metadata_pair l ++ r) =
      List.find (fun m : name * nat => name_eqb (fst m) (key v) && negb (snd m =? 0)) r).
    { intros l r H. induction l as [|c l IH]; [reflexivity|]. cbn [flat_map]. rewrite <- app_assoc.
      assert (R : List.find (fun m : name * nat => name_eqb (fst m) (key v) && negb (snd m =? 0)) (flat_map metadata_pair l ++ r) =
                  List.find (fun m : name * nat => name_eqb (fst m) (key v) && negb (snd m =? 0)) r)
        by (apply IH; intros u Hu; apply H; now right).
      destruct c as [u|k f]; cbn [metadata_pair app]; [|exact R]. destruct (v_approximate u); cbn [app]; [exact R|].
      cbn [List.find fst snd]. rewrite (name_eqb_neq (v_filename u) (key v)); [exact R|]. rewrite K. apply H. now left. }
    rewrite F by (intros u Hu; apply other_filename, in_app_iff; now left). cbn [List.find fst snd].
    rewrite K, name_eqb_refl. destruct (Nat.eqb_spec (v_size v) 0); [lia|reflexivity].
  Qed.

  Lemma found_size : 0 < v_size v ->
    size_by_name pb calls others (key v) = Some (v_size v) /\ pb = true /\ v_approximate v = false /\ key v = v_filename v \/
    size_by_name pb calls others (key v) = Some (length (v_lines v)) /\ (pb = false \/ v_approximate v = true \/ key v <> v_filename v).
  Proof.
    intros Pos. unfold size_by_name.
    assert (R : size_from_annotations pb calls (key v) = None ->
      match size_from_annotations pb calls (key v) with
      | Some n => Some n
      | None => match file_by_name pb calls others (key v) with
                | Found p => option_map vocabulary_size_by_name (read_file calls others p) | _ => None end
      end = Some (length (v_lines v))).
    { intros ->. rewrite found_file, read_path. cbn [option_map]. now rewrite read_size. }
    destruct (list_eq_dec ascii_dec (key v) (v_filename v)) as [K|K].
    - destruct (v_approximate v) eqn:A; [right; split; [apply R, annotation_other; now left|auto]|].
      destruct pb eqn:P.
      + left. pose proof (annotation_own P A K Pos) as S0. rewrite P in S0. rewrite S0. auto.
      + right. split; [|auto]. apply R. unfold size_from_annotations. reflexivity.
    - right. split; [apply R, annotation_other; now right|auto].
  Qed.

  Lemma traced_size : v_approximate v = false -> size_when_tracing pb calls (key v) = Some (v_size v).
  Proof.
    intros A. unfold size_when_tracing. destruct (trace_graph pb calls) as (_ & _ & -> & _). unfold calls. rewrite flat_map_app.
    cbn [flat_map size_pair]. rewrite A. cbn [app]. apply dict_of_last. intros C. apply in_map_iff in C as ([n k] & E & C).
    cbn in E. subst n. apply in_flat_map in C as ([u|k' f] & Hu & C); cbn in C; [|destruct C].
    destruct (v_approximate u); [destruct C|]. destruct C as [C|[]]. injection C as C _.
    apply (other_filename u); [apply in_app_iff; now right|]. now apply same_key.
  Qed.
End find.

Lemma asked_key v n : asked_for v n -> n = key v.
Proof. unfold asked_for, key. now destruct (v_name v). Qed.

(** ** Statements *)

Lemma by_name_entries pb calls1 v calls2 others n :
  own_files (calls1 ++ MakeVocabulary v :: calls2) -> other_names others v -> not_hidden (calls1 ++ calls2) n ->
  lines_ok v -> asked_for v n ->
  entries_by_name pb (calls1 ++ MakeVocabulary v :: calls2) others n = Some (v_lines v).
Proof. intros O H V L A. rewrite (asked_key _ _ A) in *. now apply found_entries. Qed.

Lemma by_name_size pb calls1 v calls2 others n :
  own_files (calls1 ++ MakeVocabulary v :: calls2) -> other_names others v -> not_hidden (calls1 ++ calls2) n ->
  lines_ok v -> asked_for v n -> 0 < length (v_lines v) ->
  (v_approximate v = false -> v_size v = length (v_lines v)) ->
  size_by_name pb (calls1 ++ MakeVocabulary v :: calls2) others n = Some (length (v_lines v)) /\
  (v_approximate v = false -> size_when_tracing pb (calls1 ++ MakeVocabulary v :: calls2) n = Some (length (v_lines v))).
Proof.
  intros O H V L A P E. rewrite (asked_key _ _ A) in *. split.
  - destruct (v_approximate v) eqn:EA.
    + unfold size_by_name. rewrite (annotation_other pb calls1 calls2 v O (or_introl EA)).
      rewrite (found_file pb calls1 calls2 v others O H V), (read_path calls1 calls2 v others O). cbn [option_map]. now rewrite (read_size v L).
    + specialize (E eq_refl). destruct (found_size pb calls1 calls2 v others O H V L) as [[S0 _]|[S0 _]]; [lia|now rewrite S0, E|exact S0].
  - intros EA. rewrite (traced_size pb calls1 calls2 v O EA). f_equal. auto.
Qed.

(** An annotated asset: the last call that gives its key wins. *)
Lemma annotated_asset pb calls1 k f calls2 others f' :
  ~ In slash k -> last_component f f' -> In f' (map fst (assets (calls1 ++ AnnotateAsset k f :: calls2) others)) ->
  (forall k' g, In (AnnotateAsset k' g) calls2 -> ~ hides k' k) ->
  (forall u n, In (MakeVocabulary u) calls2 -> asked_for u n -> ~ hides n k) ->
  file_by_name pb (calls1 ++ AnnotateAsset k f :: calls2) others k = Found f'.
Proof.
  intros Hk Hf I N1 N2. unfold file_by_name. apply file_mapped; [exact I|]. apply get_find.
  unfold asset_map, get_asset_annotations.
  destruct (trace_graph pb (calls1 ++ AnnotateAsset k f :: calls2)) as (_ & -> & _). rewrite map_map, map_app.
  cbn [map asset_pair fst snd]. rewrite (basename_plain _ Hk), (basename_last _ _ Hf). apply dict_of_last.
  rewrite map_map. cbn [fst]. intros C. apply in_map_iff in C as (c & E & C).
  assert (Hd : hides (fst (asset_pair c)) k) by (rewrite <- E; apply last_basename).
  destruct c as [u|k' g]; cbn [asset_pair fst] in Hd; [|now apply (N1 k' g)].
  apply (N2 u (key u) C); [|exact Hd]. unfold asked_for, key. now destruct (v_name u).
Qed.
