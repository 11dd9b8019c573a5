(** Proofs about tfidf. *)
From Coq Require Import String List ZArith QArith Bool Arith Lia Sorting.Sorted Permutation.
From Verif Require Import SortModel SortProofs MiscModel SparseModel SparseSpec SparseProofs SparseRowsProofs.
Import ListNotations.
Open Scope Z_scope.
Open Scope list_scope.
Local Notation length := List.length.

Definition keys_of (x : sparse Z) := combine (map fst (indices x)) (values x).
Definition doc_keys (V : Z) (ds : list (list Z)) : list (Z * Z) :=
  concat (map (fun '(r, d) => map (fun term => (Z.of_nat r, term)) (terms_of V d)) (combine (seq 0 (length ds)) ds)).

Lemma occurrences_row (x : sparse Z) r term :
  length (filter (index_eqb (Z.of_nat r, term)) (keys_of x)) = occurrences term (row x r).
Proof.
  unfold occurrences, row, keys_of. destruct x as [ix vs sh]. cbn. revert vs. induction ix as [|[i j] ix IH]; intros [|v vs]; cbn; auto.
  unfold index_eqb at 1. cbn. rewrite (Z.eqb_sym (Z.of_nat r) i). destruct (i =? Z.of_nat r); cbn; [|apply IH].
  destruct (term =? v); cbn; now rewrite IH.
Qed.
Lemma in_terms V d term : 0 <= term < V -> (In term (terms_of V d) <-> In term d).
Proof.
  intros Hr. unfold terms_of. rewrite filter_In, in_map_iff, negb_true_iff, Nat.eqb_neq. unfold occurrences. split.
  - intros [_ H]. destruct (filter (Z.eqb term) d) as [|y l] eqn:E; [cbn in H; lia|].
    assert (Hy : In y (filter (Z.eqb term) d)) by (rewrite E; now left). apply filter_In in Hy as [Hy E']. apply Z.eqb_eq in E'. now subst.
  - intros H. split.
    + exists (Z.to_nat term). split; [apply Z2Nat.id; lia|]. apply in_seq. lia.
    + assert (Hin : In term (filter (Z.eqb term) d)) by (apply filter_In; split; auto; apply Z.eqb_refl).
      destruct (filter (Z.eqb term) d); [destruct Hin|cbn; lia].
Qed.
Lemma terms_range V d term : In term (terms_of V d) -> 0 <= term < V.
Proof. unfold terms_of. rewrite filter_In, in_map_iff. intros [[n [<- Hn]] _]. apply in_seq in Hn. lia. Qed.
Lemma terms_sorted V d : StronglySorted Z.lt (terms_of V d).
Proof.
  unfold terms_of. set (p := fun term => _). clearbody p. generalize 0%nat as s. induction (Z.to_nat V) as [|n IH]; intros s; cbn; [constructor|].
  destruct (p (Z.of_nat s)); auto. constructor; auto. apply Forall_forall. intros y Hy. apply filter_In in Hy as [Hy _].
  apply in_map_iff in Hy as [m [<- Hm]]. apply in_seq in Hm. lia.
Qed.
Lemma terms_nodup V d : NoDup (terms_of V d).
Proof.
  pose proof (terms_sorted V d) as H. induction H as [|a l H IH Hf]; constructor; auto. intros Hin. rewrite Forall_forall in Hf. specialize (Hf a Hin). lia.
Qed.

(** The sorted distinct keys are the terms of the documents. *)
Lemma unique_from_sorted (R : Z * Z -> Z * Z -> Prop) l : StronglySorted R l -> forall seen, StronglySorted R (unique_from index_eqb seen l).
Proof.
  induction 1 as [|x l Hs IH Hf]; intros seen; cbn; [constructor|]. destruct (existsb (index_eqb x) seen); auto. constructor; auto.
  rewrite Forall_forall in *. intros y Hy. apply (unique_from_in index_eqb index_eqb_eq) in Hy. now apply Hf.
Qed.
Lemma doc_keys_sorted V ds : StronglySorted (fun a b => index_leb a b = true) (doc_keys V ds).
Proof.
  unfold doc_keys. generalize 0%nat as k. induction ds as [|d ds IH]; intros k; cbn [length seq combine map concat]; [constructor|].
  pose proof (terms_sorted V d) as Hs. induction Hs as [|x l Hs IHs Hf]; cbn; [apply IH|]. constructor; auto.
  apply Forall_forall. intros y Hy. apply in_app_or in Hy as [Hy|Hy].
  - apply in_map_iff in Hy as [z [<- Hz]]. rewrite Forall_forall in Hf. specialize (Hf z Hz). unfold index_leb. cbn.
    rewrite Z.eqb_refl. destruct (Z.leb_spec x z); [now rewrite orb_true_r|lia].
  - apply in_concat in Hy as [q [Hq Hy]]. apply in_map_iff in Hq as [[r e] [<- Hre]]. apply in_combine_l, in_seq in Hre.
    apply in_map_iff in Hy as [z [<- _]]. unfold index_leb. cbn. destruct (Z.ltb_spec (Z.of_nat k) (Z.of_nat r)); [reflexivity|lia].
Qed.
Lemma doc_keys_in V ds r term : In (r, term) (doc_keys V ds) <-> exists n d, r = Z.of_nat n /\ nth_error ds n = Some d /\ In term (terms_of V d).
Proof.
  unfold doc_keys. rewrite in_concat. split.
  - intros [q [Hq Hy]]. apply in_map_iff in Hq as [[n d] [<- Hnd]]. apply in_map_iff in Hy as [z [[= <- <-] Hz]]. exists n, d. split; auto. split; auto.
    apply In_nth_error in Hnd as [m Hm].
    assert (Hg : forall k m, nth_error (combine (seq k (length ds)) ds) m = Some (n, d) -> n = (k + m)%nat /\ nth_error ds m = Some d).
    { clear. induction ds as [|d0 ds IH]; intros k [|m] H; cbn in *; try discriminate.
      - injection H as -> ->. split; [lia|reflexivity].
      - apply IH in H as [-> H]. split; [lia|exact H]. }
    apply Hg in Hm as [-> Hm]. exact Hm.
  - intros [n [d [-> [Hn Ht]]]]. exists (map (fun t => (Z.of_nat n, t)) (terms_of V d)). split; [|now apply in_map].
    apply in_map_iff. exists (n, d). split; auto.
    assert (Hg : forall k, In ((k + n)%nat, d) (combine (seq k (length ds)) ds)).
    { clear Ht. revert n Hn. induction ds as [|d0 ds IH]; intros [|n] Hn k; cbn in *; try discriminate.
      - injection Hn as ->. left. f_equal. lia.
      - right. rewrite <- Nat.add_succ_comm. now apply IH. }
    apply (Hg 0%nat).
Qed.
Lemma doc_keys_nodup V ds : NoDup (doc_keys V ds).
Proof.
  unfold doc_keys. generalize 0%nat as k. induction ds as [|d ds IH]; intros k; cbn [length seq combine map concat]; [constructor|].
  pose proof (terms_nodup V d) as Hs. induction Hs as [|x l Hx Hs IHs]; cbn; [apply IH|]. constructor; auto.
  intros Hin. apply in_app_or in Hin as [Hy|Hy].
  - apply in_map_iff in Hy as [z [[= ->] Hz]]. contradiction.
  - apply in_concat in Hy as [q [Hq Hy]]. apply in_map_iff in Hq as [[r e] [<- Hre]]. apply in_combine_l, in_seq in Hre.
    apply in_map_iff in Hy as [z [[= H _] _]]. lia.
Qed.

Section batch.
  Variables (V : Z) (x : sparse Z).
  Hypothesis V_pos : 0 < V.
  Hypothesis x_shape : in_shape x.
  Let c := cleaned x V.
  Let ds := documents V x.

  Lemma cleaned_rows : rows c = ds.
  Proof.
    unfold rows, ds, documents, rows, c, cleaned. cbn [dense_shape]. rewrite map_map. apply map_ext. intros r. unfold row. cbn [indices values].
    unfold to_vocab_range. generalize (indices x) (values x). induction l as [|i l IH]; intros [|v vs]; cbn; auto.
    destruct (fst i =? Z.of_nat r); cbn; [f_equal|]; apply IH.
  Qed.
  Lemma ds_length : Z.of_nat (length ds) = fst (dense_shape x).
  Proof. unfold ds, documents. rewrite map_length, rows_length. destruct x_shape as [_ [_ H]]. lia. Qed.
  Lemma row_ds r d : nth_error ds r = Some d -> row c r = d.
  Proof.
    rewrite <- cleaned_rows. unfold rows. rewrite nth_error_map. destruct (nth_error (seq _ _) r) as [m|] eqn:E; [|discriminate].
    cbn [option_map]. intros [= <-]. assert (Hlt : (r < Z.to_nat (fst (dense_shape c)))%nat).
    { assert (Hs : nth_error (seq 0 (Z.to_nat (fst (dense_shape c)))) r <> None) by congruence. apply nth_error_Some in Hs. now rewrite seq_length in Hs. }
    assert (Hl := nth_error_nth _ _ 0%nat E). rewrite seq_nth in Hl by auto. cbn in Hl. now subst.
  Qed.
  Lemma keys_in r term : In (r, term) (keys_of c) <-> exists n d, r = Z.of_nat n /\ nth_error ds n = Some d /\ In term d.
  Proof.
    split.
    - intros H. assert (Hr : 0 <= r < fst (dense_shape x)).
      { unfold keys_of in H. apply in_combine_l in H. apply in_map_iff in H as [i [<- Hi]]. destruct x_shape as [_ [Hf _]]. rewrite Forall_forall in Hf. now apply Hf. }
      exists (Z.to_nat r). assert (Hn : (Z.to_nat r < length ds)%nat) by (pose proof ds_length; lia).
      destruct (nth_error ds (Z.to_nat r)) as [d|] eqn:Hd; [|apply nth_error_None in Hd; lia]. exists d. split; [lia|]. split; auto.
      rewrite <- (row_ds _ _ Hd). pose proof (occurrences_row c (Z.to_nat r) term) as Ho. rewrite Z2Nat.id in Ho by lia.
      assert (Hin : In (r, term) (filter (index_eqb (r, term)) (keys_of c))) by (apply filter_In; split; auto; now apply index_eqb_eq).
      unfold occurrences in Ho. destruct (filter (Z.eqb term) (row c (Z.to_nat r))) as [|y l] eqn:E.
      + apply length_zero_iff_nil in Ho. rewrite Ho in Hin. destruct Hin.
      + assert (Hy : In y (filter (Z.eqb term) (row c (Z.to_nat r)))) by (rewrite E; now left). apply filter_In in Hy as [Hy E']. apply Z.eqb_eq in E'. now subst.
    - intros [n [d [-> [Hd Hin]]]]. rewrite <- (row_ds _ _ Hd) in Hin. pose proof (occurrences_row c n term) as Ho.
      assert (Hin' : In term (filter (Z.eqb term) (row c n))) by (apply filter_In; split; auto; apply Z.eqb_refl).
      unfold occurrences in Ho. destruct (filter (index_eqb (Z.of_nat n, term)) (keys_of c)) as [|y l] eqn:E.
      + cbn [length] in Ho. symmetry in Ho. apply length_zero_iff_nil in Ho. rewrite Ho in Hin'. destruct Hin'.
      + assert (Hy : In y (filter (index_eqb (Z.of_nat n, term)) (keys_of c))) by (rewrite E; now left).
        apply filter_In in Hy as [Hy E']. apply index_eqb_eq in E'. now subst.
  Qed.
  Lemma ds_range d term : In d ds -> In term d -> 0 <= term < V.
  Proof.
    unfold ds, documents. intros Hd Ht. apply in_map_iff in Hd as [r [<- _]]. apply in_map_iff in Ht as [v [<- _]]. now apply Z.mod_pos_bound.
  Qed.
  Lemma distinct_keys : unique index_eqb (py_sorted index_leb (keys_of c)) = doc_keys V ds.
  Proof.
    apply (sorted_unique index_leb).
    - apply unique_from_sorted. apply py_sorted_sorted; [apply index_leb_total|apply index_leb_trans].
    - apply doc_keys_sorted.
    - apply NoDup_Permutation; [apply unique_from_nodup, index_eqb_eq|apply doc_keys_nodup|].
      intros [r term]. unfold unique. rewrite (unique_from_in index_eqb index_eqb_eq), doc_keys_in. cbn [In].
      assert (Hp : In (r, term) (py_sorted index_leb (keys_of c)) <-> In (r, term) (keys_of c))
        by (split; apply Permutation_in; [apply py_sorted_perm|apply Permutation_sym, py_sorted_perm]).
      rewrite Hp, keys_in. split.
      + intros [[n [d [-> [Hd Hin]]]] _]. exists n, d. split; auto. split; auto. apply in_terms; auto. apply (ds_range d); auto. eapply nth_error_In; eauto.
      + intros [n [d [-> [Hd Hin]]]]. split; [|tauto]. exists n, d. split; auto. split; auto. apply (in_terms V); auto. now apply (terms_range V d).
    - intros [a b] [a' b'] _ _ H1 H2. apply index_leb_spec in H1, H2. cbn in *. f_equal; lia.
  Qed.

  (** Functions on (row, term) as functions on documents. *)
  Lemma map_doc_keys {B} (f : Z * Z -> B) (g : list Z -> Z -> B) :
    (forall n d term, nth_error ds n = Some d -> f (Z.of_nat n, term) = g d term) ->
    map f (doc_keys V ds) = concat (map (fun d => map (g d) (terms_of V d)) ds).
  Proof.
    clearbody ds. intros H. unfold doc_keys.
    assert (Hg : forall k, (forall n d term, nth_error ds n = Some d -> f (Z.of_nat (k + n), term) = g d term) ->
      map f (concat (map (fun '(r, d) => map (fun term => (Z.of_nat r, term)) (terms_of V d)) (combine (seq k (length ds)) ds)))
      = concat (map (fun d => map (g d) (terms_of V d)) ds)).
    { clear H. induction ds as [|d l IH]; intros k H; [reflexivity|]. cbn [length seq combine map concat]. rewrite map_app, map_map. f_equal.
      - apply map_ext. intros term. specialize (H 0%nat d term eq_refl). now rewrite Nat.add_0_r in H.
      - apply IH. intros n e term Hn. rewrite Nat.add_succ_comm. now apply (H (S n)). }
    apply (Hg 0%nat). exact H.
  Qed.
  Lemma keys_rows : map fst (doc_keys V ds) = row_ids_from 0 (map (terms_of V) ds).
  Proof.
    unfold doc_keys. generalize 0%nat as k. clearbody ds. induction ds as [|d l IH]; intros k; cbn [length seq combine map concat row_ids_from]; [reflexivity|].
    rewrite map_app, map_map, IH. f_equal. cbn. induction (terms_of V d); cbn; congruence.
  Qed.
  Lemma keys_terms : map snd (doc_keys V ds) = concat (map (terms_of V) ds).
  Proof. rewrite (map_doc_keys snd (fun _ term => term)) by auto. f_equal. apply map_ext. intros d. apply map_id. Qed.

  Lemma term_counts_eq : term_counts c = map (fun k => (k, Z.of_nat (length (filter (index_eqb k) (keys_of c))))) (doc_keys V ds).
  Proof. unfold term_counts. fold (keys_of c). now rewrite distinct_keys. Qed.

  Lemma term_frequency_eq : to_term_frequency c V = Some (Sparse (doc_keys V ds)
     (concat (map (fun d => map (term_frequency_of d) (terms_of V d)) ds)) (fst (dense_shape x), V)).
  Proof.
    unfold to_term_frequency. rewrite term_counts_eq, !map_map. cbn [fst snd]. rewrite map_id.
    assert (Hsize : forall n d, nth_error ds n = Some d -> nth_error (row_counts (fst (dense_shape c)) (map fst (indices c))) n = Some (Z.of_nat (length d))).
    { intros n d Hd. change (row_counts _ _) with (word_count c). rewrite word_count_rows, cleaned_rows.
      - rewrite nth_error_map, Hd. reflexivity.
      - unfold in_shape, c, cleaned in *. cbn [indices values dense_shape]. unfold to_vocab_range. rewrite map_length. exact x_shape. }
    rewrite (gather_map _ (fun r => Z.of_nat (length (nth (Z.to_nat r) ds [])))).
    - f_equal. f_equal. rewrite map_map.
      rewrite (map2_map (fun c0 size => (inject_Z c0 / inject_Z size)%Q) (fun k => Z.of_nat (length (filter (index_eqb k) (keys_of c))))
                 (fun k => Z.of_nat (length (nth (Z.to_nat (fst k)) ds [])))).
      apply map_doc_keys. intros n d term Hd. unfold term_frequency_of. rewrite occurrences_row, (row_ds _ _ Hd). cbn [fst].
      now rewrite Nat2Z.id, (nth_error_nth _ _ [] Hd).
    - intros r Hr. apply in_map_iff in Hr as [[r' term] [<- Hk]]. apply doc_keys_in in Hk as [n [d [-> [Hd _]]]]. cbn [fst].
      split; [lia|]. rewrite Nat2Z.id, (Hsize n d Hd). now rewrite (nth_error_nth _ _ [] Hd).
  Qed.

  Lemma count_docs_eq vals sh : count_docs_with_term (Sparse (doc_keys V ds) vals (sh, V)) =
    map (fun term => Z.of_nat (documents_with term ds)) (range V).
  Proof.
    unfold count_docs_with_term. cbn [indices dense_shape snd]. rewrite keys_terms. apply map_ext_in. intros term Ht. f_equal.
    unfold range in Ht. apply in_map_iff in Ht as [n [<- Hn]]. apply in_seq in Hn. set (term := Z.of_nat n).
    unfold documents_with. clearbody ds. induction ds as [|d l IH]; cbn [map concat filter]; auto. rewrite filter_app, app_length, IH.
    assert (H1 : length (filter (Z.eqb term) (terms_of V d)) = if negb (occurrences term d =? 0)%nat then 1%nat else 0%nat).
    { destruct (in_dec Z.eq_dec term (terms_of V d)) as [Hin|Hin].
      - assert (Ho : negb (occurrences term d =? 0)%nat = true) by (unfold terms_of in Hin; apply filter_In in Hin; apply Hin). rewrite Ho.
        pose proof (terms_nodup V d) as Hnd. clear - Hin Hnd. induction Hnd as [|y q Hy Hnd IHq]; [destruct Hin|]. cbn.
        destruct Hin as [->|Hin].
        + rewrite Z.eqb_refl. cbn. rewrite filter_none; auto. intros z Hz. apply Z.eqb_neq. intros ->. contradiction.
        + destruct (Z.eqb_spec term y) as [->|_]; [contradiction|auto].
      - rewrite filter_none by (intros z Hz; apply Z.eqb_neq; intros ->; contradiction).
        destruct (negb (occurrences term d =? 0)%nat) eqn:Ho; auto. exfalso. apply Hin. unfold terms_of. apply filter_In. split; auto.
        apply in_map_iff. exists n. split; auto. apply in_seq. lia. }
    rewrite H1. destruct (negb _); cbn; lia.
  Qed.
End batch.

Lemma vector_sum_eq n V (ls : list (Z -> Z)) : n = Z.to_nat V ->
  vector_sum n (map (fun f => map f (range V)) ls) = map (fun term => z_total (map (fun f => f term) ls)) (range V).
Proof.
  intros ->. induction ls as [|f ls IH]; cbn [map vector_sum].
  - unfold range. rewrite map_map. cbn. symmetry. apply map_const_repeat.
  - rewrite IH, map2_map. reflexivity.
Qed.
Lemma documents_with_app term l1 l2 : documents_with term (l1 ++ l2) = (documents_with term l1 + documents_with term l2)%nat.
Proof. unfold documents_with. now rewrite filter_app, app_length. Qed.
Lemma total_documents_with V term bs : z_total (map (fun b => Z.of_nat (documents_with term (documents V b))) bs)
  = Z.of_nat (documents_with term (flat_map (documents V) bs)).
Proof. unfold z_total. induction bs as [|b bs IH]; cbn [map fold_right flat_map]; [reflexivity|]. rewrite documents_with_app, IH. lia. Qed.
Lemma total_sizes V bs : Forall in_shape bs -> z_total (map (fun b => fst (@dense_shape Z b)) bs) = Z.of_nat (length (flat_map (documents V) bs)).
Proof.
  unfold z_total. induction 1 as [|b bs Hb Hbs IH]; cbn [map fold_right flat_map]; [reflexivity|]. rewrite app_length, IH, Nat2Z.inj_add.
  f_equal. now rewrite ds_length.
Qed.
Lemma sequence_map {A B} (f : A -> option B) (g : A -> B) l : (forall a, In a l -> f a = Some (g a)) -> sequence (map f l) = Some (map g l).
Proof. induction l as [|a l IH]; intros H; cbn; auto. rewrite (H a (or_introl eq_refl)), IH; auto. intros b Hb. apply H. now right. Qed.
Lemma aligned_lengths {A B} (r1 : list (list A)) (r2 : list (list B)) : map (@length A) r1 = map (@length B) r2 -> aligned_indices r1 = aligned_indices r2.
Proof.
  unfold aligned_indices. generalize 0%nat at 2 4 as k. revert r2. induction r1 as [|a r1 IH]; intros [|b r2] k H; cbn in H; try discriminate; [reflexivity|].
  injection H as H1 H2. cbn [length seq combine map concat]. rewrite H1. f_equal. now apply IH.
Qed.

Lemma tfidf_spec log V smooth bs b : 1 < V -> Forall in_shape (b :: bs) ->
  let docs := flat_map (documents V) bs in
  tfidf log V smooth bs b = Some
    (tensor_of_rows (map (terms_of V) (documents V b)),
     tensor_of_rows (map (fun d => map (fun term => (term_frequency_of d term * idf_of log smooth docs term)%Q) (terms_of V d)) (documents V b))).
Proof.
  intros HV Hs docs. inversion Hs as [|? ? Hb Hbs]; subst. unfold tfidf.
  erewrite (sequence_map _ _ bs).
  2:{ intros a Ha. rewrite Forall_forall in Hbs. apply term_frequency_eq; [lia|auto]. }
  rewrite term_frequency_eq by (auto; lia). rewrite map_map.
  erewrite (map_ext_in _ _ bs); [|intros a Ha; apply count_docs_eq; lia].
  assert (Hsum : vector_sum (Z.to_nat V) (map (fun a => map (fun term => Z.of_nat (documents_with term (documents V a))) (range V)) bs)
    = map (fun term => Z.of_nat (documents_with term docs)) (range V)).
  { rewrite <- (map_map (fun a term => Z.of_nat (documents_with term (documents V a))) (fun f => map f (range V)) bs).
    rewrite vector_sum_eq by auto. apply map_ext. intros term. rewrite map_map. apply total_documents_with. }
  rewrite Hsum. rewrite (total_sizes V bs Hbs). fold docs. unfold to_tfidf, squeeze_gather. rewrite !map_length, range_length.
  destruct (Z.to_nat V =? 1)%nat eqn:E1; [apply Nat.eqb_eq in E1; lia|]. cbn [indices values dense_shape fst].
  rewrite map_map.
  rewrite (gather_map _ (fun term => document_frequency_to_idf log (Z.of_nat (length docs)) smooth (Z.of_nat (documents_with term docs)))).
  - unfold split_tfidfs_to_outputs. cbn [indices values dense_shape fst]. rewrite keys_rows, segment_rows, aligned_indices_combine, keys_terms, columns_max.
    set (ds := documents V b).
    set (w := fun d => map (fun term => (term_frequency_of d term * idf_of log smooth docs term)%Q) (terms_of V d)).
    assert (Hlen : map (@length Z) (map (terms_of V) ds) = map (@length Q) (map w ds)).
    { rewrite !map_map. apply map_ext. intros d. unfold w. now rewrite map_length. }
    unfold tensor_of_rows. rewrite <- (aligned_lengths _ _ Hlen), <- Hlen, !map_length.
    assert (Hd : Z.of_nat (length ds) = fst (dense_shape b)) by now apply ds_length. rewrite Hd. f_equal. f_equal. f_equal.
    rewrite concat_map, map_map. clear. induction ds as [|d l IH]; cbn [map concat]; auto.
    assert (Happ : forall (a1 a2 b1 b2 : list Q), length a1 = length b1 -> map2 Qmult (a1 ++ a2) (b1 ++ b2) = map2 Qmult a1 b1 ++ map2 Qmult a2 b2).
    { induction a1 as [|q a1 IHa]; intros a2 [|q' b1] b2 H; cbn in *; try discriminate; auto. f_equal. apply IHa. lia. }
    rewrite Happ by now rewrite !map_length. rewrite map2_map, IH. reflexivity.
  - intros term Ht. rewrite keys_terms in Ht. apply in_concat in Ht as [q [Hq Ht]]. apply in_map_iff in Hq as [d [<- _]].
    apply terms_range in Ht. split; [lia|]. now rewrite nth_error_map, range_nth_error.
Qed.

(** One term only: tf.squeeze turns the vector into a scalar and the transformation raises. *)
Lemma term_frequency_shape x V tf : to_term_frequency x V = Some tf -> snd (dense_shape tf) = V.
Proof. unfold to_term_frequency. destruct (gather _ _); [|discriminate]. now intros [= <-]. Qed.
Lemma sequence_in {A} (l : list (option A)) r a : sequence l = Some r -> In a r -> In (Some a) l.
Proof.
  revert r. induction l as [|[y|] l IH]; intros r H Ha; cbn in H; try discriminate; [injection H as <-; destruct Ha|].
  destruct (sequence l) as [r'|]; [|discriminate]. injection H as <-. destruct Ha as [->|Ha]; [now left|]. right. now apply (IH r').
Qed.
Lemma tfidf_one_term log smooth bs b : tfidf log 1 smooth bs b = None.
Proof.
  unfold tfidf. destruct (sequence _) as [a|] eqn:Hs; auto. destruct (to_term_frequency (cleaned b 1) 1) as [tf|]; auto.
  assert (H : length (vector_sum (Z.to_nat 1) (map count_docs_with_term a)) = 1%nat).
  { assert (Ha : forall tf', In tf' a -> snd (dense_shape tf') = 1).
    { intros tf' Ht. eapply sequence_in in Hs; [|exact Ht]. apply in_map_iff in Hs as [y [Hy _]]. now apply term_frequency_shape in Hy. }
    clear Hs. induction a as [|y a IH]; [reflexivity|]. cbn [map vector_sum]. rewrite map2_length.
    - unfold count_docs_with_term. now rewrite map_length, range_length, (Ha y (or_introl eq_refl)).
    - rewrite IH by (intros tf' Ht; apply Ha; now right). unfold count_docs_with_term. now rewrite map_length, range_length, (Ha y (or_introl eq_refl)). }
  unfold to_tfidf, squeeze_gather. now rewrite map_length, H.
Qed.

(** Frequencies of a document sum to one. *)
Lemma q_sum_div (f : Z -> Z) n l : (q_sum (map (fun t => inject_Z (f t) / inject_Z n) l) == inject_Z (z_total (map f l)) / inject_Z n)%Q.
Proof.
  unfold q_sum, z_total. induction l as [|t l IH]; cbn [map fold_right].
  - unfold Qdiv. rewrite Qmult_0_l. reflexivity.
  - rewrite IH, inject_Z_plus. unfold Qdiv. rewrite Qmult_plus_distr_l. reflexivity.
Qed.
Lemma total_occurrences d : forall l, NoDup l -> (forall t, In t d -> In t l) ->
  z_total (map (fun t => Z.of_nat (occurrences t d)) l) = Z.of_nat (length d).
Proof.
  induction d as [|x d IH]; intros l Hn Hin.
  - unfold z_total. clear. induction l as [|y l IHl]; cbn [map fold_right]; auto.
  - cbn [length]. rewrite Nat2Z.inj_succ, <- (IH l Hn) by (intros t Ht; apply Hin; now right).
    assert (Hx : In x l) by (apply Hin; now left). clear IH Hin. unfold z_total. induction Hn as [|y l Hy Hn IHn]; [destruct Hx|]. cbn [map fold_right].
    unfold occurrences at 1 3. cbn [filter]. destruct Hx as [->|Hx].
    + rewrite Z.eqb_refl. cbn [length]. assert (He : map (fun t => Z.of_nat (occurrences t (x :: d))) l = map (fun t => Z.of_nat (occurrences t d)) l).
      { apply map_ext_in. intros t Ht. unfold occurrences. cbn [filter]. destruct (Z.eqb_spec t x) as [->|_]; [contradiction|reflexivity]. }
      rewrite He. lia.
    + rewrite IHn by auto. destruct (Z.eqb_spec y x) as [->|_]; [contradiction|]. lia.
Qed.
Lemma frequencies_sum V d : d <> [] -> (forall t, In t d -> 0 <= t < V) -> (q_sum (map (term_frequency_of d) (terms_of V d)) == 1)%Q.
Proof.
  intros Hd Hr. unfold term_frequency_of. rewrite q_sum_div, total_occurrences; [|apply terms_nodup|].
  - unfold Qdiv. apply Qmult_inv_r. intros H. destruct d as [|x d]; [contradiction|]. unfold Qeq in H. cbn in H. lia.
  - intros t Ht. apply in_terms; auto.
Qed.
