(** Proofs about vocabulary files and lookups. *)
From Coq Require Import String Ascii List ZArith QArith Qcanon Bool Arith Lia Permutation.
From Verif Require Import CombineModel SortModel SortProofs VocabModel VocabSpec VocabProofs VocabFileModel.
Import ListNotations.
Open Scope Z_scope.
Local Notation length := List.length.

Lemma contains_in c s : contains c s = true <-> In c (list_ascii_of_string s).
Proof.
  induction s as [|a s IH]; cbn; [split; [discriminate|intros []]|].
  rewrite orb_true_iff, IH, Ascii.eqb_eq. tauto.
Qed.
Lemma contains_not_in c s : contains c s = false <-> ~ In c (list_ascii_of_string s).
Proof. rewrite <- contains_in. destruct (contains c s); split; congruence. Qed.

Lemma append_empty s : (s ++ "")%string = s.
Proof. induction s as [|a s IH]; cbn; [reflexivity|now rewrite IH]. Qed.
Lemma append_assoc' a b c : ((a ++ b) ++ c)%string = (a ++ (b ++ c))%string.
Proof. induction a as [|x a IH]; cbn; [reflexivity|now rewrite IH]. Qed.
Lemma contains_app c a b : contains c (a ++ b) = contains c a || contains c b.
Proof. induction a as [|x a IH]; cbn; [reflexivity|]. now rewrite IH, orb_assoc. Qed.

Lemma readlines_line l : contains newline l = false -> forall acc rest,
  readlines acc (l ++ String newline rest) = (acc ++ l ++ String newline EmptyString)%string :: readlines EmptyString rest.
Proof.
  induction l as [|c l IH]; intros H acc rest; cbn [append readlines].
  - now rewrite Ascii.eqb_refl.
  - cbn in H. apply orb_false_iff in H as [H1 H2]. rewrite H1. rewrite (IH H2). now rewrite append_assoc'.
Qed.

Lemma readlines_write lines : Forall (fun l => contains newline l = false) lines ->
  readlines EmptyString (write_text lines) = map (fun l => (l ++ String newline EmptyString)%string) lines.
Proof.
  induction 1 as [|l lines H HF IH]; cbn [write_text map]; [reflexivity|].
  rewrite (readlines_line l H). now rewrite IH.
Qed.

Lemma rstrip_id l : contains newline l = false -> rstrip l = l.
Proof.
  induction l as [|c l IH]; cbn; [reflexivity|]. intros H. apply orb_false_iff in H as [H1 H2]. rewrite (IH H2).
  destruct l; [now rewrite H1|reflexivity].
Qed.
Lemma rstrip_line l : contains newline l = false -> rstrip (l ++ String newline EmptyString) = l.
Proof.
  induction l as [|c l IH]; cbn [append contains]; [reflexivity|]. intros H. apply orb_false_iff in H as [H1 H2].
  cbn [rstrip]. rewrite (IH H2). destruct l; [now rewrite H1|reflexivity].
Qed.

Lemma by_name_write lines : Forall (fun l => contains newline l = false) lines ->
  vocabulary_by_name (Text (write_text lines)) = lines.
Proof.
  intros H. cbn. rewrite (readlines_write _ H), map_map.
  induction H as [|l lines Hl H IH]; cbn [map]; [reflexivity|]. now rewrite (rstrip_line l Hl), IH.
Qed.

Lemma drop_returns_id l : contains carriage_return l = false -> drop_returns l = l.
Proof.
  induction l as [|c l IH]; cbn; [reflexivity|]. intros H. apply orb_false_iff in H as [H1 H2]. now rewrite H1, (IH H2).
Qed.

Lemma table_lines_write lines :
  Forall (fun l => contains newline l = false) lines -> Forall (fun l => contains carriage_return l = false) lines ->
  table_lines (write_text lines) = lines.
Proof.
  intros H1 H2. unfold table_lines. rewrite (readlines_write _ H1), map_map.
  induction H1 as [|l lines Hl H IH]; cbn [map]; [reflexivity|]. inversion H2; subst.
  rewrite (rstrip_line l Hl), drop_returns_id by assumption. now rewrite IH.
Qed.

(** ** Tables *)

Lemma build_table_nodup keys : forall i table,
  (forall k, In k keys -> ~ In k (map fst table)) -> NoDup keys ->
  build_table (map Some keys) i table = Some (table ++ combine keys (seq i (length keys))).
Proof.
  induction keys as [|k keys IH]; intros i table HD HN; cbn [map build_table combine seq length]; [now rewrite app_nil_r|].
  inversion HN; subst.
  assert (E : existsb (fun e => String.eqb k (fst e)) table = false).
  { apply not_true_iff_false. rewrite existsb_exists. intros ([k' j] & Hi & E). cbn in E. apply String.eqb_eq in E. subst k'.
    apply (HD k (or_introl eq_refl)). apply in_map_iff. now exists (k, j). }
  rewrite E. rewrite IH; [now rewrite <- app_assoc| |assumption].
  intros k' Hk' C. rewrite map_app in C. apply in_app_or in C as [C|[C|[]]].
  - exact (HD k' (or_intror Hk') C).
  - cbn in C. subst k'. contradiction.
Qed.

Lemma find_combine keys : NoDup keys -> forall i n t, nth_error keys n = Some t -> find t (combine keys (seq i (length keys))) = Some (i + n)%nat.
Proof.
  induction 1 as [|k keys Hk HN IH]; intros i n t Ht; [destruct n; discriminate|].
  cbn [length seq combine find]. destruct n as [|n]; cbn in Ht.
  - injection Ht as <-. rewrite String.eqb_refl. f_equal. lia.
  - destruct (String.eqb t k) eqn:E.
    + apply String.eqb_eq in E. subst. apply nth_error_In in Ht. contradiction.
    + rewrite (IH (S i) n t Ht). f_equal. lia.
Qed.
Lemma find_none keys vals t : ~ In t keys -> find t (combine keys vals) = None.
Proof.
  revert vals. induction keys as [|k keys IH]; intros [|v vals] H; cbn; try reflexivity.
  destruct (String.eqb t k) eqn:E; [apply String.eqb_eq in E; subst; destruct H; now left|].
  apply IH. intros C. apply H. now right.
Qed.

(** The table built from distinct keys. *)
Definition table_of (keys : list string) : list (string * nat) := combine keys (seq 0 (length keys)).
Lemma table_of_length keys : length (table_of keys) = length keys.
Proof. unfold table_of. rewrite combine_length, seq_length. apply Nat.min_id. Qed.

Section lookups.
  Variables (hash : string -> nat) (oov default : Z).
  Lemma lookup_in keys n t : NoDup keys -> nth_error keys n = Some t -> lookup hash oov default (table_of keys) t = Z.of_nat n.
  Proof. intros HN H. unfold lookup, table_of. now rewrite (find_combine keys HN 0 n t H). Qed.
  Lemma lookup_out keys t : ~ In t keys ->
    (0 < oov -> Z.of_nat (length keys) <= lookup hash oov default (table_of keys) t < Z.of_nat (length keys) + oov) /\
    (oov <= 0 -> lookup hash oov default (table_of keys) t = default).
  Proof.
    intros H. assert (Hn : find t (table_of keys) = None) by (apply find_none; exact H).
    unfold lookup. rewrite Hn, table_of_length. split; intros Ho.
    - destruct (Z.ltb_spec 0 oov); [|lia]. pose proof (Z.mod_pos_bound (Z.of_nat (hash t)) oov). lia.
    - destruct (Z.ltb_spec 0 oov); [lia|reflexivity].
  Qed.
End lookups.

(** Any table that can be built has the values 0 .. size-1. *)
Lemma build_table_values keys : forall i table result,
  length table = i -> (forall k j, In (k, j) table -> (j < i)%nat) ->
  build_table keys i table = Some result ->
  forall k j, In (k, j) result -> (j < length result)%nat.
Proof.
  induction keys as [|[k|] keys IH]; intros i table result HL HI; cbn [build_table].
  - intros [= <-]. subst i. exact HI.
  - destruct (existsb _ _); [discriminate|]. apply IH.
    + rewrite app_length. cbn. lia.
    + intros k' j C. apply in_app_or in C as [C|[C|[]]]; [apply HI in C; lia|]. injection C as <- <-. lia.
  - discriminate.
Qed.
Lemma find_In t table i : find t table = Some i -> In (t, i) table.
Proof.
  induction table as [|[k j] table IH]; cbn; [discriminate|]. destruct (String.eqb t k) eqn:E; [|auto].
  apply String.eqb_eq in E. intros [= ->]. subst. now left.
Qed.

Lemma apply_in_range hash oov default store f x out range :
  apply_vocabulary hash oov default store f x = Some out ->
  schema_range oov default store f = Some range ->
  Forall (fun i => fst range <= i <= snd range) out.
Proof.
  unfold apply_vocabulary, schema_range. destruct (vocabulary_table store f) as [table|] eqn:ET; [|discriminate].
  cbn. intros [= <-] [= <-]. apply Forall_map, Forall_forall. intros t _.
  assert (HV : forall k j, In (k, j) table -> (j < length table)%nat).
  { unfold vocabulary_table in ET. refine (build_table_values _ 0 [] table eq_refl _ ET). intros k j []. }
  unfold lookup, table_size. destruct (find t table) as [i|] eqn:Ef.
  - apply find_In, HV in Ef. destruct (Z.leb_spec oov 0), (Z.ltb_spec 0 oov); cbn [fst snd]; lia.
  - destruct (Z.leb_spec oov 0), (Z.ltb_spec 0 oov); cbn [fst snd]; try lia.
    pose proof (Z.mod_pos_bound (Z.of_nat (hash t)) oov). lia.
Qed.

(** ** The entries of a run *)

Lemma ordered_perm sha1 p pruned entries :
  (input_is_sorted p = true -> pruned <> []) ->
  ordered_entries sha1 p pruned entries ->
  Permutation entries (maybe_add_dummy (is_string p) (add_reserved p (remove_reserved p pruned))).
Proof.
  intros HN HO. unfold ordered_entries in HO.
  assert (G : forall batches, Permutation (concat batches) pruned ->
     Permutation (order_elements sha1 p (map (py_sorted (sort_leb sha1 p)) batches))
                 (maybe_add_dummy (is_string p) (add_reserved p (remove_reserved p pruned)))).
  { intros batches HP. unfold order_elements.
    assert (D : forall a b, Permutation a b -> Permutation (maybe_add_dummy (is_string p) a) (maybe_add_dummy (is_string p) b)).
    { intros a b H. destruct a; [apply Permutation_nil in H; subst; constructor; constructor|].
      destruct b; [symmetry in H; apply Permutation_nil in H; discriminate|exact H]. }
    apply D. unfold add_reserved, remove_reserved. destruct (reserved_tokens p) as [r|].
    - apply Permutation_app_head. rewrite py_sorted_perm, flat_map_filter_sorted. now apply filter_perm.
    - rewrite py_sorted_perm, concat_sorted. exact HP. }
  destruct (input_is_sorted p) eqn:EI; [destruct (reserved_tokens p) eqn:ER|].
  - destruct HO as (bs & HP & ->). now apply G.
  - subst entries. unfold add_reserved, remove_reserved. rewrite ER. specialize (HN eq_refl). destruct pruned; [congruence|reflexivity].
  - destruct HO as (bs & HP & ->). now apply G.
Qed.

Lemma maybe_nonempty s l : maybe_add_dummy s l <> [].
Proof. destruct l; cbn; discriminate. Qed.

Lemma prune_sorted_nonempty p m : input_is_sorted p = true -> prune p m <> [].
Proof.
  unfold input_is_sorted, prune. destruct (top_k p); [|discriminate]. destruct (coverage p); [discriminate|]. intros _.
  unfold apply_thresholds_and_top_k. apply maybe_nonempty.
Qed.

Lemma nodup_tokens text weighted datasets m : accumulate_and_merge text weighted datasets m -> NoDup (map snd m).
Proof. intros H. now destruct (merged_spec _ _ _ _ H). Qed.

Lemma nodup_snd_inj {A B} (l : list (A * B)) a b : NoDup (map snd l) -> In a l -> In b l -> snd a = snd b -> a = b.
Proof.
  induction l as [|e l IH]; cbn; [intros _ []|]. intros HN Ha Hb E. inversion HN; subst.
  destruct Ha as [->|Ha], Hb as [->|Hb]; auto.
  - destruct H1. rewrite E. now apply in_map.
  - destruct H1. rewrite <- E. now apply in_map.
Qed.
Lemma nodup_snd_sub {A B} (l q : list (A * B)) :
  NoDup q -> (forall a b, In a q -> In b q -> snd a = snd b -> a = b) -> NoDup (map snd q).
Proof.
  induction 1 as [|e q Hn Hq IH]; intros H; cbn; constructor; [|apply IH; intros; apply H; cbn; auto].
  intros C. apply in_map_iff in C as (e' & E & He'). apply Hn. rewrite <- (H e' e); cbn; auto.
Qed.

Lemma nodup_app_l {A} (a b : list A) : NoDup (a ++ b) -> NoDup a.
Proof.
  induction a as [|x a IH]; cbn; [constructor|]. intros H. inversion H; subst. constructor; [|auto].
  intros C. apply H2. apply in_or_app. now left.
Qed.

Lemma prune_nodup p text weighted datasets m :
  valid_params p -> accumulate_and_merge text weighted datasets m ->
  coverage p = None \/ ~ In (snd (dummy_entry (is_string p))) (map fst (all_rows datasets)) ->
  NoDup (map snd (prune p m)).
Proof.
  intros (_ & Vf & _) HM HC.
  assert (HT : forall e, In e m -> In (snd e) (map fst (all_rows datasets))).
  { intros [v t] He. destruct (merged_spec _ _ _ _ HM) as [_ HI]. apply HI in He. tauto. }
  assert (std : NoDup (map snd (apply_thresholds_and_top_k (is_string p) (frequency_threshold p) (top_k p) None m))).
  { destruct (standard_arm _ _ _ _ HM (is_string p) (frequency_threshold p) (top_k p)) as [SP _].
    apply (Permutation_NoDup (Permutation_sym (Permutation_map snd SP))).
    assert (NR : NoDup (ranked m (frequency_threshold p))).
    { unfold ranked. apply (Permutation_NoDup (Permutation_sym (Permutation_map snd (py_sorted_perm entry_geb _)))).
      apply (passing_well_formed _ _ _ _ HM). }
    assert (ME : forall f (l : list string), map snd (map (fun t => (f t, t) : Qc * string) l) = l)
      by (intros f l; rewrite map_map; cbn; apply map_id).
    destruct (top_k p) as [n|].
    - rewrite dummy_or_map. destruct (firstn n _) eqn:E; [cbn; constructor; [tauto|constructor]|].
      rewrite ME, <- E. rewrite <- (firstn_skipn n) in NR. now apply nodup_app_l in NR.
    - now rewrite ME. }
  unfold prune in *. destruct (coverage p) as [[f [k thr]]|] eqn:EC; [|exact std].
  destruct HC as [?|HC]; [discriminate|].
  apply nodup_snd_sub; [exact m|apply distinct_spec|].
  intros a b Ha Hb E.
  assert (PT : forall e, In e (distinct (apply_thresholds_and_top_k (is_string p) (frequency_threshold p) (top_k p) None m ++
                   apply_thresholds_and_top_k (is_string p) thr k (Some f) m)) -> In e m \/ e = dummy_entry (is_string p)).
  { intros e He. apply (prune_tokens p _ _ _ _ e HM). unfold prune. now rewrite EC. }
  destruct (PT a Ha) as [Ha'| ->], (PT b Hb) as [Hb'| ->]; [| | |reflexivity].
  - apply (nodup_snd_inj m); auto. eapply nodup_tokens; eassumption.
  - apply HT in Ha'. rewrite E in Ha'. contradiction.
  - apply HT in Hb'. rewrite <- E in Hb'. contradiction.
Qed.

Lemma prune_one_line p weighted datasets m e :
  accumulate_and_merge true weighted datasets m -> is_string p = true -> In e (prune p m) -> one_line (snd e).
Proof.
  intros HM HS He. destruct (prune_tokens p _ _ _ _ e HM He) as [H| ->].
  - destruct (merged_spec _ _ _ _ HM) as [_ HI]. destruct e as [v t]. apply HI in H as (_ & H & _).
    now apply (filtered_out_one_line true t).
  - rewrite HS. cbn. repeat split; [discriminate| |]; intros C; repeat (destruct C as [C|C]; [discriminate|]); destruct C.
Qed.

Lemma dummy_one_line : one_line (snd (dummy_entry true)).
Proof. cbn. repeat split; [discriminate| |]; intros C; repeat (destruct C as [C|C]; [discriminate|]); destruct C. Qed.

(** ** Keys of the lines *)

Lemma split_first a : contains " "%char a = false -> forall acc b,
  split_spaces acc (a ++ String " "%char b) = (acc ++ a)%string :: split_spaces EmptyString b.
Proof.
  induction a as [|c a IH]; intros H acc b; cbn [append split_spaces].
  - rewrite Ascii.eqb_refl. now rewrite append_empty.
  - cbn in H. apply orb_false_iff in H as [H1 H2]. rewrite H1, (IH H2). now rewrite append_assoc'.
Qed.
Lemma split_none a : contains " "%char a = false -> forall acc, split_spaces acc a = [(acc ++ a)%string].
Proof.
  induction a as [|c a IH]; intros H acc; cbn [split_spaces]; [now rewrite append_empty|].
  cbn in H. apply orb_false_iff in H as [H1 H2]. rewrite H1, (IH H2). now rewrite append_assoc'.
Qed.
Lemma after_first a b : contains " "%char a = false -> after_space (a ++ String " "%char b) = Some b.
Proof.
  induction a as [|c a IH]; intros H; cbn [append after_space]; [now rewrite Ascii.eqb_refl|].
  cbn in H. apply orb_false_iff in H as [H1 H2]. now rewrite H1, (IH H2).
Qed.

(** str() of a number has neither spaces nor line breaks. *)
Definition plain (s : string) : Prop :=
  contains " "%char s = false /\ contains newline s = false /\ contains carriage_return s = false.

Lemma one_line_contains t : one_line t -> t <> EmptyString /\ contains newline t = false /\ contains carriage_return t = false.
Proof. intros (H1 & H2 & H3). repeat split; [exact H1| |]; now apply contains_not_in. Qed.

Section keys.
  Variable fmt : Qc -> string.
  Hypothesis Hfmt : forall q, plain (fmt q).

  Lemma entry_text_key store e :
    one_line (snd e) -> (store = true -> contains " "%char (snd e) = false) ->
    text_key store (format_entry fmt store e) = Some (snd e).
  Proof.
    intros H1 H2. apply one_line_contains in H1 as (H1 & _). destruct store.
    - cbn [format_entry]. unfold count_and_token_to_bytes. unfold text_key.
      destruct (fmt (fst e) ++ String " "%char (snd e))%string eqn:E.
      { destruct (fmt (fst e)); discriminate. }
      rewrite <- E. rewrite split_first by apply Hfmt. rewrite split_none by auto. reflexivity.
    - cbn. destruct (snd e); [congruence|reflexivity].
  Qed.
  Lemma entry_record_key store e : record_key store (format_entry fmt store e) = Some (snd e).
  Proof. destruct store; [|reflexivity]. apply after_first, Hfmt. Qed.

  Lemma entry_no_break store e c : (forall q, contains c (fmt q) = false) -> c <> " "%char ->
    contains c (snd e) = false -> contains c (format_entry fmt store e) = false.
  Proof.
    intros H Hc Ht. destruct store; [|exact Ht]. cbn [format_entry]. unfold count_and_token_to_bytes. rewrite contains_app, H. cbn [orb contains].
    rewrite Ht, orb_false_r. apply Ascii.eqb_neq. congruence.
  Qed.

  Lemma table_of_entries (is_text store : bool) entries :
    NoDup (map snd entries) ->
    (is_text = true -> Forall (fun e => one_line (snd e)) entries) ->
    (is_text = true -> store = true -> Forall (fun e => contains " "%char (snd e) = false) entries) ->
    vocabulary_table store (write_file is_text (map (format_entry fmt store) entries)) = Some (table_of (map snd entries)).
  Proof.
    intros HN H1 H2. unfold vocabulary_table, write_file.
    assert (E : match (if is_text then Text (write_text (map (format_entry fmt store) entries)) else Records (map (format_entry fmt store) entries)) with
                | Text s => map (text_key store) (table_lines s)
                | Records r => map (record_key store) r end = map Some (map snd entries)).
    { destruct is_text.
      - specialize (H1 eq_refl). specialize (H2 eq_refl). rewrite Forall_forall in H1.
        rewrite table_lines_write.
        + rewrite !map_map. apply map_ext_in. intros e He. apply entry_text_key; [auto|].
          intros Hs. specialize (H2 Hs). rewrite Forall_forall in H2. auto.
        + apply Forall_map, Forall_forall. intros e He. apply entry_no_break; [intros q; apply Hfmt|discriminate|].
          apply (one_line_contains _ (H1 e He)).
        + apply Forall_map, Forall_forall. intros e He. apply entry_no_break; [intros q; apply Hfmt|discriminate|].
          apply (one_line_contains _ (H1 e He)).
      - rewrite !map_map. apply map_ext. intros e. apply entry_record_key. }
    rewrite E. rewrite build_table_nodup; [reflexivity|intros k _ []|exact HN].
  Qed.
End keys.

(** ** A whole run, without reserved tokens *)

Lemma run_entries fmt sha1 p datasets lines size :
  valid_params p -> is_string p = true -> reserved_tokens p = None ->
  coverage p = None \/ ~ In (snd (dummy_entry (is_string p))) (map fst (all_rows datasets)) ->
  vocabulary fmt sha1 p datasets lines size ->
  exists entries, lines = map (format_entry fmt (store_frequency p)) entries /\ NoDup (map snd entries) /\
    length entries = size /\
    (is_text p = true -> Forall (fun e => one_line (snd e)) entries) /\
    (forall e, In e entries -> snd e = snd (dummy_entry true) \/ In (snd e) (map fst (all_rows datasets))) /\
    (forall e, In e entries -> e = dummy_entry true \/ fst e = indicator (is_weighted p) (all_rows datasets) (snd e)).
Proof.
  intros HV HS HR HC (m & entries & HM & HO & -> & ->).
  apply ordered_perm in HO; [|apply prune_sorted_nonempty].
  unfold add_reserved, remove_reserved in HO. rewrite HR in HO.
  exists entries. split; [reflexivity|].
  assert (HI : forall e, In e (maybe_add_dummy (is_string p) (prune p m)) -> In e (prune p m) \/ e = dummy_entry (is_string p)).
  { intros e He. destruct (prune p m); [destruct He as [<-|[]]; now right|now left]. }
  split; [|split; [|split; [|split]]].
  - apply (Permutation_NoDup (Permutation_sym (Permutation_map snd HO))).
    pose proof (prune_nodup p _ _ _ _ HV HM HC) as HN.
    destruct (prune p m); [cbn; constructor; [tauto|constructor]|exact HN].
  - rewrite (Permutation_length HO), HR. destruct (prune p m); [reflexivity|]. cbn [maybe_add_dummy length]. lia.
  - intros HT. rewrite HS, HT in HM. cbn in HM. apply Forall_forall. intros e He. apply (Permutation_in _ HO) in He.
    apply HI in He as [He| ->]; [eapply prune_one_line; eassumption|]. rewrite HS. apply dummy_one_line.
  - intros e He. apply (Permutation_in _ HO) in He. apply HI in He as [He| ->]; [|rewrite HS; now left].
    destruct (prune_tokens p _ _ _ _ e HM He) as [H| ->]; [right|rewrite HS; now left].
    destruct (merged_spec _ _ _ _ HM) as [_ HQ]. destruct e as [v t]. apply HQ in H. tauto.
  - intros e He. apply (Permutation_in _ HO) in He. apply HI in He as [He| ->]; [|rewrite HS; now left].
    destruct (prune_tokens p _ _ _ _ e HM He) as [H| ->]; [right|rewrite HS; now left].
    destruct (merged_spec _ _ _ _ HM) as [_ HQ]. destruct e as [v t]. apply HQ in H. tauto.
Qed.

Lemma map_spaces_no_space t : contains " "%char (map_spaces t) = false.
Proof.
  induction t as [|c t IH]; [reflexivity|]. cbn [map_spaces]. destruct (Ascii.eqb c " "%char) eqn:E.
  - cbn. exact IH.
  - cbn. now rewrite E, IH.
Qed.

Lemma all_rows_map (f : string -> string) datasets :
  map fst (all_rows (map (map (map (fun r : string * Qc => (f (fst r), snd r)))) datasets)) = map f (map fst (all_rows datasets)).
Proof.
  unfold all_rows. rewrite <- concat_map, <- concat_map, !map_map. reflexivity.
Qed.

Lemma compute_and_apply_spec fmt sha1 hash oov default p datasets x lines size out :
  (forall q, plain (fmt q)) ->
  valid_params p -> is_string p = true -> reserved_tokens p = None ->
  coverage p = None \/ ~ In (snd (dummy_entry true)) (map (format_input p) (map fst (all_rows datasets))) ->
  compute_and_apply fmt sha1 hash oov default p datasets x lines size out ->
  exists entries, lines = map (format_entry fmt (store_frequency p)) entries /\ NoDup (map snd entries) /\ length entries = size /\
    exists f, out = Some (map f x) /\
      (forall i t, nth_error (map snd entries) i = Some (format_input p t) -> f t = Z.of_nat i) /\
      (forall t, ~ In (format_input p t) (map snd entries) ->
         (0 < oov -> Z.of_nat size <= f t < Z.of_nat size + oov) /\ (oov <= 0 -> f t = default)).
Proof.
  intros Hf HV HS HR HC [HRun ->].
  apply run_entries in HRun; try assumption; [|rewrite all_rows_map, HS; exact HC].
  destruct HRun as (entries & -> & HN & HL & H1 & H2 & _). exists entries. repeat (split; [assumption || reflexivity|]).
  exists (fun t => lookup hash oov default (table_of (map snd entries)) (format_input p t)).
  split.
  - unfold apply_vocabulary. rewrite table_of_entries; try assumption.
    + cbn. now rewrite map_map.
    + intros HT Hst. apply Forall_forall. intros e He. apply H2 in He as [->|He]; [reflexivity|].
      rewrite all_rows_map in He. apply in_map_iff in He as (t & <- & _). unfold format_input. rewrite HS, HT, Hst. apply map_spaces_no_space.
  - split.
    + intros i t Ht. now apply lookup_in.
    + intros t Ht. destruct (lookup_out hash oov default _ _ Ht) as [A B]. rewrite map_length, HL in A. split; assumption.
Qed.

Lemma read_back fmt sha1 p datasets lines size :
  (forall q, contains newline (fmt q) = false) ->
  valid_params p -> is_string p = true -> (forall r, reserved_tokens p = Some r -> Forall (fun t => contains newline t = false) r) ->
  vocabulary fmt sha1 p datasets lines size ->
  vocabulary_by_name (write_file (is_text p) lines) = lines /\
  vocabulary_size_by_name (write_file (is_text p) lines) = length lines.
Proof.
  intros Hf HV HS HR (m & entries & HM & HO & -> & _).
  apply ordered_perm in HO; [|apply prune_sorted_nonempty].
  destruct (is_text p) eqn:HT; [|split; reflexivity]. cbn [write_file]. rewrite HS in HM. cbn in HM.
  assert (HF : Forall (fun l => contains newline l = false) (map (format_entry fmt (store_frequency p)) entries)).
  { apply Forall_map, Forall_forall. intros e He. apply entry_no_break; [exact Hf|discriminate|].
    apply (Permutation_in _ HO) in He.
    assert (HD : contains newline (snd (dummy_entry (is_string p))) = false) by (rewrite HS; reflexivity).
    assert (HP : forall e, In e (remove_reserved p (prune p m)) -> contains newline (snd e) = false).
    { intros e' He'. assert (Hp : In e' (prune p m)) by (unfold remove_reserved in He'; destruct (reserved_tokens p); [now apply filter_In in He'|exact He']).
      pose proof (prune_one_line p _ _ _ _ HM HS Hp) as H1. apply one_line_contains in H1. tauto. }
    unfold add_reserved in He. destruct (reserved_tokens p) as [r|].
    - specialize (HR r eq_refl). rewrite Forall_forall in HR.
      destruct (map (fun t => (Q2Qc (-1), t)) r ++ remove_reserved p (prune p m)) eqn:E; [destruct He as [<-|[]]; exact HD|].
      rewrite <- E in He. cbn [maybe_add_dummy] in He.
      assert (He' : In e (map (fun t => (Q2Qc (-1), t)) r ++ remove_reserved p (prune p m))).
      { rewrite E in He. rewrite E. exact He. }
      apply in_app_or in He' as [He'|He']; [|auto]. apply in_map_iff in He' as (t & <- & Ht). now apply HR.
    - destruct (remove_reserved p (prune p m)) eqn:E; [destruct He as [<-|[]]; exact HD|]. rewrite <- E in *. apply HP.
      destruct (remove_reserved p (prune p m)); [discriminate|exact He]. }
  split; [now apply by_name_write|]. cbn [vocabulary_size_by_name]. rewrite (readlines_write _ HF). now rewrite map_length.
Qed.

(** ** The space replacement *)

Lemma map_spaces_inj s t : contains "_"%char s = false -> contains "_"%char t = false -> map_spaces s = map_spaces t -> s = t.
Proof.
  revert t. induction s as [|a s IH]; intros [|b t]; cbn [contains map_spaces]; intros H1 H2 E.
  - reflexivity.
  - destruct (Ascii.eqb b " "); discriminate.
  - destruct (Ascii.eqb a " "); discriminate.
  - apply orb_false_iff in H1 as [Ha H1], H2 as [Hb H2].
    destruct (Ascii.eqb a " ") eqn:Ea, (Ascii.eqb b " ") eqn:Eb.
    + apply Ascii.eqb_eq in Ea, Eb. subst. f_equal. cbn in E. injection E as E. now apply IH.
    + cbn in E. injection E as E' _. subst. discriminate.
    + cbn in E. injection E as E' _. subst. discriminate.
    + injection E as -> E. f_equal. now apply IH.
Qed.

(** ** One possible run (used to show that hypotheses can be met) *)

Definition sequential_merge (text weighted : bool) (datasets : list (list (list (string * Qc)))) : list (Qc * string) :=
  map (fun p => (snd p, fst p))
    (MeanVarModel.reduce_per_key qc_sum (concat (map (fun batches => MeanVarModel.reduce_per_key qc_sum (flat_map (reduce_batch text weighted) batches)) datasets))).
Definition sequential_entries (sha1 : string -> string) (p : params) (pruned : list (Qc * string)) : list (Qc * string) :=
  match input_is_sorted p, reserved_tokens p with
  | true, None => pruned
  | _, _ => order_elements sha1 p (map (py_sorted (sort_leb sha1 p)) [pruned])
  end.
Definition sequential_run (fmt : Qc -> string) (sha1 : string -> string) (p : params) (datasets : list (list (list (string * Qc)))) : list string * nat :=
  let pruned := prune p (sequential_merge (is_string p && is_text p) (is_weighted p) datasets) in
  (map (format_entry fmt (store_frequency p)) (sequential_entries sha1 p pruned),
   (Nat.max (length pruned) 1 + match reserved_tokens p with Some r => length r | None => 0 end)%nat).

Lemma reduce_is_combine inputs : combine_per_key_sum inputs (MeanVarModel.reduce_per_key qc_sum inputs).
Proof.
  unfold combine_per_key_sum, MeanVarModel.reduce_per_key.
  destruct (MeanVarProofs.tf_unique_spec (map fst inputs) []) as [HN HI].
  rewrite map_map. cbn [fst]. rewrite map_id. split; [exact HN|]. split.
  - intros k. rewrite HI. tauto.
  - intros k v H. apply in_map_iff in H as (k' & E & _). injection E as -> <-.
    exists (Bundle (MeanVarModel.values_of k inputs)). split; reflexivity.
Qed.

Lemma sequential_run_ok fmt sha1 p datasets :
  let '(lines, size) := sequential_run fmt sha1 p datasets in vocabulary fmt sha1 p datasets lines size.
Proof.
  unfold sequential_run, vocabulary. cbv zeta.
  exists (sequential_merge (is_string p && is_text p) (is_weighted p) datasets).
  eexists. split; [|split; [|split; reflexivity]].
  - eexists. eexists. split; [|split; [apply reduce_is_combine|reflexivity]].
    induction datasets as [|d ds IH]; cbn [map]; constructor; [apply reduce_is_combine|exact IH].
  - unfold ordered_entries, sequential_entries.
    destruct (input_is_sorted p), (reserved_tokens p); try reflexivity;
      (eexists; split; [|reflexivity]); cbn; now rewrite app_nil_r.
Qed.
Lemma sequential_vocabulary fmt sha1 p datasets lines size :
  sequential_run fmt sha1 p datasets = (lines, size) -> vocabulary fmt sha1 p datasets lines size.
Proof. intros E. pose proof (sequential_run_ok fmt sha1 p datasets) as H. now rewrite E in H. Qed.

(** ** Consequences *)

Lemma vocabulary_cases fmt sha1 p datasets lines size :
  valid_params p -> coverage p = None -> reserved_tokens p = None ->
  (fingerprint_shuffle p = true -> fingerprints_distinct sha1 (map fst (all_rows datasets))) ->
  vocabulary fmt sha1 p datasets lines size ->
  let rs := all_rows datasets in
  let ind := indicator (is_weighted p) rs in
  exists l, is_ranking ind (eligible (is_string p && is_text p) (is_weighted p) (frequency_threshold p) rs) l /\
    let selected := first_of (top_k p) l in
    size = Nat.max (length selected) 1 /\
    (selected = [] -> lines = [format_entry fmt (store_frequency p) (dummy_entry (is_string p))]) /\
    (selected <> [] -> exists order, Permutation order selected /\ lines = map (line_of fmt (store_frequency p) ind) order).
Proof.
  intros HV HC HR HF HRun. destruct (fingerprint_shuffle p) eqn:E.
  - destruct (vocabulary_fingerprint fmt sha1 p datasets lines size HV HC HR E (HF eq_refl) HRun) as (l & H1 & H2 & H3 & H4).
    exists l. split; [exact H1|]. split; [exact H2|]. split; [exact H3|]. intros Hn. destruct (H4 Hn) as (o & A & _ & B). now exists o.
  - destruct (vocabulary_exact fmt sha1 p datasets lines size HV HC HR E HRun) as (l & H1 & H2 & H3).
    exists l. split; [exact H1|]. split; [exact H3|]. split.
    + intros Hn. now rewrite Hn in H2.
    + intros Hn. exists (first_of (top_k p) l). split; [reflexivity|]. destruct (first_of (top_k p) l); [congruence|exact H2].
Qed.

Lemma selected_nonempty p f P l : valid_params p -> is_ranking f P l -> (exists t, P t) -> first_of (top_k p) l <> [].
Proof.
  intros (Vk & _) [_ HI] (t & Ht). apply HI in Ht. destruct l as [|a l]; [destruct Ht|].
  destruct (top_k p) as [k|]; cbn; [|discriminate]. destruct k; [lia|discriminate].
Qed.

Lemma vocabulary_empty fmt sha1 p datasets lines size :
  valid_params p -> coverage p = None -> reserved_tokens p = None ->
  (fingerprint_shuffle p = true -> fingerprints_distinct sha1 (map fst (all_rows datasets))) ->
  vocabulary fmt sha1 p datasets lines size ->
  let rs := all_rows datasets in
  let ok := eligible (is_string p && is_text p) (is_weighted p) (frequency_threshold p) rs in
  ((forall t, ~ ok t) -> lines = [format_entry fmt (store_frequency p) (dummy_entry (is_string p))] /\ size = 1%nat) /\
  ((exists t, ok t) ->
     Forall (fun line => exists t, ok t /\ line = line_of fmt (store_frequency p) (indicator (is_weighted p) rs) t) lines /\
     lines <> []).
Proof.
  intros HV HC HR HF HRun. destruct (vocabulary_cases _ _ _ _ _ _ HV HC HR HF HRun) as (l & HL & HS & HE & HN). cbv zeta. split.
  - intros Hno. assert (l = []) by (destruct l as [|a l]; [reflexivity|]; destruct (Hno a); apply HL; now left). subst l.
    assert (E : first_of (top_k p) [] = []) by (destruct (top_k p) as [[|]|]; reflexivity). rewrite E in *. auto.
  - intros Hex. pose proof (selected_nonempty p _ _ l HV HL Hex) as Hne. destruct (HN Hne) as (o & HP & ->). split.
    + apply Forall_map, Forall_forall. intros t Ht. exists t. split; [|reflexivity]. apply HL.
      apply (first_of_In (top_k p)). now apply (Permutation_in _ HP).
    + destruct o; [apply Permutation_nil in HP; congruence|discriminate].
Qed.

Lemma vocabulary_selection fmt sha1 p datasets lines size :
  valid_params p -> coverage p = None -> reserved_tokens p = None -> store_frequency p = false ->
  (fingerprint_shuffle p = true -> fingerprints_distinct sha1 (map fst (all_rows datasets))) ->
  vocabulary fmt sha1 p datasets lines size ->
  let rs := all_rows datasets in
  let ind := indicator (is_weighted p) rs in
  let ok := eligible (is_string p && is_text p) (is_weighted p) (frequency_threshold p) rs in
  (exists t, ok t) ->
  Forall ok lines /\
  (forall k, top_k p = Some k -> (length lines <= k)%nat) /\
  (forall t, ok t -> ~ In t lines ->
     (exists k, top_k p = Some k /\ length lines = k) /\
     forall u, In u lines -> comes_before ind u t) /\
  size = length lines.
Proof.
  intros HV HC HR HST HF HRun. destruct (vocabulary_cases _ _ _ _ _ _ HV HC HR HF HRun) as (l & HL & HS & _ & HN). cbv zeta. intros Hex.
  pose proof (selected_nonempty p _ _ l HV HL Hex) as Hne. destruct (HN Hne) as (o & HP & EL). rewrite HST in EL.
  assert (lines = o) by (rewrite EL; unfold line_of; apply map_id). subst o. clear EL HN.
  assert (Hin : forall t, In t lines <-> In t (first_of (top_k p) l)) by (intros t; split; apply Permutation_in; [|symmetry]; exact HP).
  split; [|split; [|split]].
  - apply Forall_forall. intros t Ht. apply HL, (first_of_In (top_k p)). now apply Hin.
  - intros k Hk. rewrite (Permutation_length HP), Hk. cbn. rewrite firstn_length. lia.
  - intros t Ht Hn. rewrite Hin in Hn. split.
    + apply HL in Ht. destruct (top_k p) as [k|]; cbn in *; [|contradiction]. exists k. split; [reflexivity|].
      rewrite (Permutation_length HP). apply firstn_length_le.
      destruct (Nat.le_gt_cases k (length l)) as [?|Hgt]; [assumption|]. rewrite firstn_all2 in Hn by lia. contradiction.
    + intros u Hu. apply Hin in Hu. destruct Ht as (T1 & T2 & T3). eapply standard_first; eauto.
  - rewrite HS, (Permutation_length HP). destruct (first_of (top_k p) l); [congruence|]. cbn. lia.
Qed.

Lemma comes_before_le f t u : comes_before f t u -> (f u <= f t)%Qc.
Proof. intros [H|[-> _]]; [now apply Qclt_le_weak|apply Qcle_refl]. Qed.

Lemma vocabulary_no_better fmt sha1 p datasets lines size :
  valid_params p -> coverage p = None -> reserved_tokens p = None -> store_frequency p = false ->
  (fingerprint_shuffle p = true -> fingerprints_distinct sha1 (map fst (all_rows datasets))) ->
  vocabulary fmt sha1 p datasets lines size ->
  let rs := all_rows datasets in
  let ind := indicator (is_weighted p) rs in
  (exists t, eligible (is_string p && is_text p) (is_weighted p) (frequency_threshold p) rs t) ->
  forall t u, In t (map fst rs) -> (is_string p && is_text p = true -> one_line t) -> ~ In t lines -> In u lines -> (ind t <= ind u)%Qc.
Proof.
  intros HV HC HR HST HF HRun. cbv zeta. intros Hex t u Ht Ho Hn Hu.
  destruct (vocabulary_cases _ _ _ _ _ _ HV HC HR HF HRun) as (l & HL & HS & _ & HN).
  pose proof (selected_nonempty p _ _ l HV HL Hex) as Hne. destruct (HN Hne) as (o & HP & EL). rewrite HST in EL.
  assert (lines = o) by (rewrite EL; unfold line_of; apply map_id). subst o.
  apply comes_before_le. apply (standard_first _ _ _ _ (top_k p) l u t HL).
  - now apply (Permutation_in _ HP).
  - intros C. apply Hn. now apply (Permutation_in _ (Permutation_sym HP)).
  - exact Ht.
  - exact Ho.
Qed.

Lemma vocabulary_never_empty fmt sha1 p datasets lines size :
  vocabulary fmt sha1 p datasets lines size -> lines <> [] /\ (0 < size)%nat.
Proof.
  intros (m & entries & HM & HO & -> & ->). split; [|lia].
  apply ordered_perm in HO; [|apply prune_sorted_nonempty].
  intros C. apply map_eq_nil in C. subst. apply Permutation_nil in HO. now apply maybe_nonempty in HO.
Qed.

Lemma registered_size fmt sha1 p datasets lines size :
  valid_params p -> is_string p = true -> reserved_tokens p = None ->
  coverage p = None \/ ~ In (snd (dummy_entry true)) (map fst (all_rows datasets)) ->
  vocabulary fmt sha1 p datasets lines size -> size = length lines.
Proof.
  intros HV HS HR HC HRun. apply run_entries in HRun; try assumption; [|now rewrite HS].
  destruct HRun as (entries & -> & _ & HL & _). rewrite map_length. auto.
Qed.

Lemma format_input_id p t : store_frequency p = false -> format_input p t = t.
Proof. intros H. unfold format_input. rewrite H, andb_false_r. reflexivity. Qed.

Lemma format_input_ids p l : store_frequency p = false -> map (format_input p) l = l.
Proof. intros H. rewrite <- map_id. apply map_ext. intros t. now apply format_input_id. Qed.

Lemma compute_and_apply_lookup fmt sha1 hash oov default p datasets x lines size out :
  (forall q, plain (fmt q)) ->
  valid_params p -> is_string p = true -> reserved_tokens p = None -> store_frequency p = false ->
  coverage p = None \/ ~ In (snd (dummy_entry true)) (map fst (all_rows datasets)) ->
  compute_and_apply fmt sha1 hash oov default p datasets x lines size out ->
  NoDup lines /\ length lines = size /\
  exists f, out = Some (map f x) /\
    (forall i t, nth_error lines i = Some t -> f t = Z.of_nat i) /\
    (forall t, ~ In t lines ->
       (0 < oov -> Z.of_nat size <= f t < Z.of_nat size + oov)%Z /\
       (oov <= 0 -> f t = default)%Z).
Proof.
  intros Hf HV HS HR HST HC HRun. rewrite <- (format_input_ids p (map fst (all_rows datasets)) HST) in HC.
  destruct (compute_and_apply_spec _ _ _ _ _ _ _ _ _ _ _ Hf HV HS HR HC HRun) as (entries & -> & HN & HL & f & E & H1 & H2).
  rewrite HST. cbn [format_entry]. change (map (format_entry fmt false) entries) with (map snd entries).
  split; [exact HN|]. split; [now rewrite map_length|]. exists f. split; [exact E|]. split.
  - intros i t Ht. apply H1. now rewrite (format_input_id p t HST).
  - intros t Ht. apply H2. now rewrite (format_input_id p t HST).
Qed.

Lemma compute_and_apply_store fmt sha1 hash oov default p datasets x lines size out :
  (forall q, plain (fmt q)) ->
  valid_params p -> is_string p = true -> reserved_tokens p = None -> store_frequency p = true ->
  coverage p = None \/ ~ In (snd (dummy_entry true)) (map (format_input p) (map fst (all_rows datasets))) ->
  compute_and_apply fmt sha1 hash oov default p datasets x lines size out ->
  exists tokens, NoDup tokens /\ length tokens = size /\
    Forall2 (fun line t => exists q, line = (fmt q ++ String " "%char t)%string) lines tokens /\
    exists f, out = Some (map f x) /\
      (forall i t, nth_error tokens i = Some (format_input p t) -> f t = Z.of_nat i) /\
      (forall t, ~ In (format_input p t) tokens ->
         (0 < oov -> Z.of_nat size <= f t < Z.of_nat size + oov)%Z /\ (oov <= 0 -> f t = default)%Z).
Proof.
  intros Hf HV HS HR HST HC HRun.
  destruct (compute_and_apply_spec _ _ _ _ _ _ _ _ _ _ _ Hf HV HS HR HC HRun) as (entries & -> & HN & HL & H).
  exists (map snd entries). split; [exact HN|]. split; [now rewrite map_length|]. split; [|exact H].
  rewrite HST. clear. induction entries as [|e es IH]; cbn; constructor; [|exact IH]. now exists (fst e).
Qed.

Lemma index_injective (f : string -> Z) lines :
  (forall i t, nth_error lines i = Some t -> f t = Z.of_nat i) ->
  forall t u, In t lines -> In u lines -> f t = f u -> t = u.
Proof.
  intros H t u Ht Hu E. apply In_nth_error in Ht as [i Hi], Hu as [j Hj].
  rewrite (H i t Hi), (H j u Hj) in E. apply Nat2Z.inj in E. subst. congruence.
Qed.

Lemma apply_num_buckets hash oov default store f x out :
  apply_vocabulary hash oov default store f x = Some out ->
  exists range, schema_range oov default store f = Some range /\
    Forall (fun i => i < get_num_buckets range)%Z out /\
    (forall n, num_buckets_for_transformed_feature range = Some n -> Forall (fun i => 0 <= i < n)%Z out) /\
    ((0 < oov \/ 0 <= default)%Z -> num_buckets_for_transformed_feature range = Some (get_num_buckets range)).
Proof.
  intros H. destruct (schema_range oov default store f) as [range|] eqn:E.
  2:{ unfold apply_vocabulary, schema_range in *. destruct (vocabulary_table store f); discriminate. }
  pose proof (apply_in_range _ _ _ _ _ _ _ _ H E) as HR. exists range. split; [reflexivity|].
  rewrite Forall_forall in HR. split; [|split].
  - apply Forall_forall. intros i Hi. specialize (HR i Hi). unfold get_num_buckets. lia.
  - unfold num_buckets_for_transformed_feature. destruct (Z.eqb_spec (fst range) 0); [|discriminate]. intros n [= <-].
    apply Forall_forall. intros i Hi. specialize (HR i Hi). lia.
  - unfold schema_range in E. destruct (vocabulary_table store f); [|discriminate]. cbn in E. injection E as <-.
    unfold num_buckets_for_transformed_feature, get_num_buckets. intros Hc.
    destruct (Z.leb_spec oov 0); cbn [fst snd]; [|reflexivity]. rewrite Z.min_l by lia. reflexivity.
Qed.

Lemma compute_and_apply_reserved fmt sha1 hash oov default p r datasets x lines size out :
  (forall q, plain (fmt q)) ->
  valid_params p -> is_string p = true -> reserved_tokens p = Some r -> store_frequency p = false ->
  NoDup r -> (is_text p = true -> Forall one_line r) ->
  coverage p = None \/ ~ In (snd (dummy_entry true)) (map fst (all_rows datasets)) ->
  compute_and_apply fmt sha1 hash oov default p datasets x lines size out ->
  NoDup lines /\ (length lines <= size)%nat /\
  exists f, out = Some (map f x) /\
    (forall i t, nth_error lines i = Some t -> f t = Z.of_nat i) /\
    (forall t, ~ In t lines ->
       (0 < oov -> Z.of_nat (length lines) <= f t < Z.of_nat (length lines) + oov)%Z /\
       (oov <= 0 -> f t = default)%Z).
Proof.
  intros Hf HV HS HR HST HNr HOr HC [HRun ->].
  destruct HRun as (m & entries & HM & HO & -> & ->).
  assert (ED : all_rows (map (map (map (fun r0 : string * Qc => (format_input p (fst r0), snd r0)))) datasets) = all_rows datasets).
  { unfold all_rows. rewrite <- concat_map, <- concat_map. rewrite <- (map_id (concat (concat datasets))) at 2.
    apply map_ext. intros [t w]. cbn. now rewrite format_input_id. }
  apply ordered_perm in HO; [|apply prune_sorted_nonempty].
  pose proof (prune_nodup p _ _ _ _ HV HM) as HN. rewrite ED, HS in HN. specialize (HN HC).
  unfold add_reserved, remove_reserved in HO. rewrite HR in HO. rewrite HR.
  set (kept := filter (fun e => negb (existsb (String.eqb (snd e)) r)) (prune p m)) in *.
  set (all := map (fun t => (Q2Qc (-1), t)) r ++ kept) in *.
  assert (EA : map snd all = r ++ map snd kept) by (unfold all; rewrite map_app, map_map; cbn; now rewrite map_id).
  assert (NK : NoDup (map snd kept)).
  { unfold kept. clear -HN. induction (prune p m) as [|e l IH]; cbn in *; [constructor|]. inversion HN; subst.
    destruct (negb _); cbn; [|auto]. constructor; [|auto]. intros C. apply H1. apply in_map_iff in C as (e' & E & He').
    apply filter_In in He' as [He' _]. rewrite <- E. now apply in_map. }
  assert (NA : NoDup (map snd all)).
  { rewrite EA. assert (D : forall t, In t r -> ~ In t (map snd kept)).
    { intros t Ht C. apply in_map_iff in C as (e & <- & He). unfold kept in He. apply filter_In in He as [_ He].
      apply negb_true_iff in He. rewrite <- not_true_iff_false in He. apply He. apply existsb_exists. exists (snd e).
      split; [exact Ht|apply String.eqb_refl]. }
    clearbody kept. clear -HNr NK D. induction HNr as [|t r Hn HNr IH]; cbn; [exact NK|]. constructor.
    - intros C. apply in_app_or in C as [C|C]; [contradiction|]. exact (D t (or_introl eq_refl) C).
    - apply IH. intros u Hu. apply D. now right. }
  assert (NE : NoDup (map snd entries)).
  { apply (Permutation_NoDup (Permutation_sym (Permutation_map snd HO))).
    destruct all; [cbn; constructor; [tauto|constructor]|exact NA]. }
  rewrite HST. change (map (format_entry fmt false) entries) with (map snd entries).
  split; [exact NE|]. split.
  - rewrite map_length, (Permutation_length HO).
    assert (LK : (length kept <= length (prune p m))%nat).
    { unfold kept. clear. induction (prune p m) as [|e l IH]; cbn; [lia|]. destruct (negb _); cbn; lia. }
    assert (LA : length all = (length r + length kept)%nat) by (unfold all; now rewrite app_length, map_length).
    destruct all; cbn [maybe_add_dummy length] in *; lia.
  - exists (lookup hash oov default (table_of (map snd entries))).
    assert (HT : vocabulary_table false (write_file (is_text p) (map snd entries)) = Some (table_of (map snd entries))).
    { apply (table_of_entries fmt Hf (is_text p) false entries NE); [|discriminate].
      intros HT. rewrite HS, HT in HM. cbn in HM. apply Forall_forall. intros e He. apply (Permutation_in _ HO) in He.
      assert (Hin : In e all \/ e = dummy_entry true) by (destruct all; [rewrite HS in He; destruct He as [<-|[]]; now right|now left]).
      destruct Hin as [Hin| ->]; [|apply dummy_one_line].
      unfold all in Hin. apply in_app_or in Hin as [Hin|Hin].
      - apply in_map_iff in Hin as (t & <- & Ht). specialize (HOr HT). rewrite Forall_forall in HOr. now apply HOr.
      - unfold kept in Hin. apply filter_In in Hin as [Hin _]. eapply prune_one_line; eassumption. }
    split.
    + unfold apply_vocabulary. rewrite HT. cbn. f_equal. now rewrite format_input_ids.
    + split.
      * intros i t Ht. now apply lookup_in.
      * intros t Ht. destruct (lookup_out hash oov default _ _ Ht) as [A B]. split; assumption.
Qed.

(** ** The declared range is attained *)

Lemma unseen (table : list (string * nat)) : exists t, find t table = None.
Proof.
  assert (H : exists n, forall k i, In (k, i) table -> (String.length k < n)%nat).
  { induction table as [|[k i] table [n IH]]; [exists 0%nat; intros ? ? []|].
    exists (S (Nat.max n (String.length k))). intros k' i' [[= <- <-]|H']; [lia|]. apply IH in H'. lia. }
  destruct H as [n H]. 
  assert (L : exists t, String.length t = n).
  { clear. induction n as [|n [t <-]]; [now exists ""%string|]. exists (String "a" t). reflexivity. }
  destruct L as [t <-]. exists t. induction table as [|[k i] table IH]; [reflexivity|]. cbn.
  destruct (String.eqb_spec t k) as [->|_]; [exfalso; specialize (H k i (or_introl eq_refl)); lia|].
  apply IH. intros k' i' H'. apply (H k' i'). now right.
Qed.

Lemma build_table_finds keys : forall i table out,
  i = length table -> (forall k j, nth_error table j = Some k -> find (fst k) table = Some j /\ snd k = j) ->
  build_table keys i table = Some out ->
  forall k j, nth_error out j = Some k -> find (fst k) out = Some j.
Proof.
  induction keys as [|[k|] keys IH]; cbn [build_table]; intros i table out Hi HT H; [|  |discriminate].
  - injection H as <-. intros k j Hk. now apply HT.
  - destruct (existsb _ table) eqn:E; [discriminate|]. refine (IH _ _ _ _ _ H); [rewrite app_length; cbn; lia|].
    assert (FA : forall t tb tb', find t (tb ++ tb') = match find t tb with Some i => Some i | None => find t tb' end).
    { intros t tb tb'. induction tb as [|[a b] tb IHt]; [reflexivity|]. cbn. destruct (String.eqb t a); auto. }
    intros k' j Hj. destruct (Nat.lt_ge_cases j (length table)) as [Hl|Hl].
    + rewrite nth_error_app1 in Hj by exact Hl. rewrite FA. destruct (HT _ _ Hj) as [-> ?]. auto.
    + rewrite nth_error_app2 in Hj by exact Hl. destruct (j - length table)%nat as [|[|]] eqn:EJ; cbn in Hj; try discriminate.
      injection Hj as <-. cbn [fst snd]. rewrite FA.
      assert (find k table = None) as ->.
      { clear -E. induction table as [|[a b] tb IH]; [reflexivity|]. cbn in *. apply Bool.orb_false_iff in E as [E1 E2]. rewrite E1. auto. }
      cbn. rewrite String.eqb_refl. split; [f_equal|]; lia.
Qed.

Lemma range_attained oov default store f range :
  vocabulary_table store f <> Some [] -> schema_range oov default store f = Some range ->
  (exists hash t, apply_vocabulary hash oov default store f [t] = Some [fst range]) /\
  (exists hash t, apply_vocabulary hash oov default store f [t] = Some [snd range]).
Proof.
  unfold apply_vocabulary, schema_range. destruct (vocabulary_table store f) as [table|] eqn:ET; [|discriminate].
  cbn [option_map]. intros HN [= <-].
  assert (HF : forall k j, nth_error table j = Some k -> find (fst k) table = Some j).
  { unfold vocabulary_table in ET. refine (build_table_finds _ 0 [] table eq_refl _ ET). intros k [|j]; discriminate. }
  destruct (unseen table) as [u Hu].
  assert (H0 : exists t, find t table = Some 0%nat).
  { destruct table as [|[k i] table]; [congruence|]. exists k. apply (HF (k, i) 0%nat eq_refl). }
  assert (HL : exists t, find t table = Some (length table - 1)%nat).
  { destruct (nth_error table (length table - 1)) as [k|] eqn:E; [exists (fst k); now apply HF|].
    apply nth_error_None in E. destruct table; [congruence|cbn in E; lia]. }
  assert (HT : (length table <> 0)%nat) by (destruct table; [congruence|discriminate]).
  destruct H0 as [t0 H0], HL as [tl HL]. unfold table_size.
  destruct (Z.leb_spec oov 0) as [Ho|Ho]; [destruct (Z.ltb_spec 0 oov); [lia|]|destruct (Z.ltb_spec 0 oov); [|lia]]; cbn [fst snd].
  - split.
    + destruct (Z.min_spec 0 default) as [[_ ->]|[_ ->]].
      * exists (fun _ => 0%nat), t0. cbn. unfold lookup. now rewrite H0.
      * exists (fun _ => 0%nat), u. cbn. unfold lookup. rewrite Hu. now destruct (Z.ltb_spec 0 oov); [lia|].
    + destruct (Z.max_spec (Z.of_nat (length table) + 0 - 1) default) as [[_ ->]|[_ ->]].
      * exists (fun _ => 0%nat), u. cbn. unfold lookup. rewrite Hu. now destruct (Z.ltb_spec 0 oov); [lia|].
      * exists (fun _ => 0%nat), tl. cbn. unfold lookup. rewrite HL. do 2 f_equal. lia.
  - split.
    + exists (fun _ => 0%nat), t0. cbn. unfold lookup. now rewrite H0.
    + exists (fun _ => Z.to_nat (oov - 1)), u. cbn. unfold lookup. rewrite Hu. destruct (Z.ltb_spec 0 oov); [|lia].
      do 2 f_equal. rewrite Z2Nat.id by lia. rewrite Z.mod_small by lia. lia.
Qed.
