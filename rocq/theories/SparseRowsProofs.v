(** Proofs about deduplication, left alignment, dense conversion and word counts. *)
From Coq Require Import String List ZArith QArith Bool Arith Lia Sorting.Sorted Permutation.
From Verif Require Import SortModel SortProofs MiscModel SparseModel SparseSpec SparseProofs.
Import ListNotations.
Open Scope Z_scope.
Open Scope list_scope.
Local Notation length := List.length.

(** ** unique *)
Section unique_facts.
  Context {A : Type} (eqb : A -> A -> bool).
  Hypothesis eqb_spec : forall x y, eqb x y = true <-> x = y.

  Lemma existsb_eqb x l : existsb (eqb x) l = true <-> In x l.
  Proof.
    rewrite existsb_exists. split; [intros [y [Hy He]]; apply eqb_spec in He; now subst|]. intros H. exists x. split; auto. now apply eqb_spec.
  Qed.
  Lemma unique_from_in seen l x : In x (unique_from eqb seen l) <-> In x l /\ ~ In x seen.
  Proof.
    revert seen. induction l as [|y l IH]; intros seen; cbn; [tauto|].
    destruct (existsb (eqb y) seen) eqn:Hy.
    - apply existsb_eqb in Hy. rewrite IH. split; [tauto|]. intros [[->|H] Hn]; [contradiction|tauto].
    - assert (Hny : ~ In y seen) by (intros H; apply existsb_eqb in H; congruence).
      cbn. rewrite IH. cbn. split.
      + intros [->|[H1 H2]]; [tauto|]. tauto.
      + intros [[->|H1] H2]; [tauto|]. destruct (eqb y x) eqn:E; [apply eqb_spec in E; tauto|].
        right. split; auto. intros [->|H]; [|contradiction]. assert (eqb x x = true) by now apply eqb_spec. congruence.
  Qed.
  Lemma unique_from_nodup seen l : NoDup (unique_from eqb seen l).
  Proof.
    revert seen. induction l as [|y l IH]; intros seen; cbn; [constructor|]. destruct (existsb (eqb y) seen); auto.
    constructor; auto. rewrite unique_from_in. cbn. tauto.
  Qed.
  Lemma unique_from_prefix seen l k : exists m, firstn m (unique_from eqb seen l) = unique_from eqb seen (firstn k l).
  Proof.
    revert seen k. induction l as [|y l IH]; intros seen k; cbn; [exists 0%nat; destruct k; reflexivity|].
    destruct k as [|k]; [exists 0%nat; destruct (existsb _ _); reflexivity|]. cbn [firstn unique_from].
    destruct (existsb (eqb y) seen); [apply IH|]. destruct (IH (y :: seen) k) as [m Hm]. exists (S m). cbn. now f_equal.
  Qed.
  Lemma unique_first_occurrences l : first_occurrences l (unique eqb l).
  Proof.
    unfold unique. split; [apply unique_from_nodup|]. split.
    - intros x. rewrite unique_from_in. cbn. tauto.
    - intros k. destruct (unique_from_prefix [] l k) as [m Hm]. exists m. intros x. rewrite Hm, unique_from_in. cbn. tauto.
  Qed.
End unique_facts.

(** [first_occurrences] determines its result. *)
Lemma first_occurrences_unique {A} (l o1 o2 : list A) : (forall x y : A, x = y \/ x <> y) ->
  first_occurrences l o1 -> first_occurrences l o2 -> o1 = o2.
Proof.
  intros Hdec [Hn1 [Hi1 Hp1]] [Hn2 [Hi2 Hp2]].
  (* by induction on the prefixes of l *)
  assert (Hk : forall k, exists m, firstn m o1 = firstn m o2 /\ forall x, In x (firstn m o1) <-> In x (firstn k l)).
  { induction k as [|k [m [He Hm]]].
    - exists 0%nat. cbn. tauto.
    - destruct (nth_error l k) as [y|] eqn:Hy.
      2:{ exists m. split; auto. intros x. rewrite Hm, !firstn_all2; [tauto| |]; apply nth_error_None in Hy; lia. }
      assert (Hfk : firstn (S k) l = firstn k l ++ [y]).
      { clear - Hy. revert k Hy. induction l as [|a l IH]; intros [|k] Hy; cbn in *; try discriminate; [now injection Hy as ->|].
        now rewrite IH. }
      assert (Hd : In y (firstn k l) \/ ~ In y (firstn k l)).
      { generalize (firstn k l) as q. induction q as [|a q IHq]; [now right|]. destruct (Hdec a y) as [->|Hne]; [left; now left|].
        destruct IHq as [H|H]; [left; now right|]. right. intros [->|H']; contradiction. }
      destruct Hd as [Hd|Hd].
      + exists m. split; auto. intros x. rewrite Hm, Hfk, in_app_iff. cbn. split; [tauto|]. intros [H|[->|[]]]; auto.
      + (* the next element of both is y *)
        assert (Hnext : forall o, NoDup o -> (forall x, In x (firstn m o) <-> In x (firstn k l)) ->
                  (forall k, exists m, forall x, In x (firstn m o) <-> In x (firstn k l)) -> (m <= length o)%nat -> nth_error o m = Some y).
        { intros o Hn Hmo Hpo Hle. destruct (Hpo (S k)) as [m' Hm'].
          assert (Hyin : In y (firstn m' o)) by (apply Hm'; rewrite Hfk; apply in_or_app; right; now left).
          assert (Hlt : (m < m')%nat).
          { destruct (le_lt_dec m' m) as [Hc|Hc]; auto. exfalso. apply Hd, Hmo.
            assert (Hin : forall a b (q : list A) z, (a <= b)%nat -> In z (firstn a q) -> In z (firstn b q)).
            { clear. induction a as [|a IH]; intros [|b] [|w q] z Hab; cbn; try tauto; try lia. intros [->|H]; [now left|]. right. apply (IH b); auto. lia. }
            now apply (Hin m' m). }
          destruct (nth_error o m) as [z|] eqn:Hz.
          - assert (Hzin : In z (firstn m' o)).
            { assert (Hg : forall a b (q : list A) w, (a < b)%nat -> nth_error q a = Some w -> In w (firstn b q)).
              { clear. induction a as [|a IH]; intros [|b] [|w q] v Hab Hv; cbn in *; try discriminate; try lia; [injection Hv as ->; now left|].
                right. apply (IH b); auto. lia. }
              now apply (Hg m m'). }
            apply Hm' in Hzin. rewrite Hfk in Hzin. apply in_app_iff in Hzin as [Hzin|[<-|[]]]; auto.
            exfalso. apply Hmo in Hzin.
            (* z occurs twice in o *)
            assert (Hsplit : o = firstn m o ++ skipn m o) by now rewrite firstn_skipn.
            assert (Hsk : exists q, skipn m o = z :: q).
            { clear - Hz. revert m Hz. induction o as [|a o IH]; intros [|m] Hz; cbn in *; try discriminate; [injection Hz as ->; now exists o|auto]. }
            destruct Hsk as [q Hq]. rewrite Hsplit, Hq in Hn. apply NoDup_remove_2 in Hn. apply Hn. apply in_or_app. now left.
          - apply nth_error_None in Hz. assert (m = length o) by lia. subst m. rewrite (firstn_all2 o) in Hyin by lia.
            rewrite firstn_all in Hmo. exfalso. apply Hd, Hmo, Hyin. }
        assert (Hmo2 : forall x, In x (firstn m o2) <-> In x (firstn k l)) by (intros x; rewrite <- He; apply Hm).
        (* choose m within both lengths *)
        set (m' := Nat.min m (length o1)).
        assert (Hlen : length (firstn m o1) = length (firstn m o2)) by now rewrite He.
        rewrite !firstn_length in Hlen.
        destruct (le_lt_dec m (length o1)) as [H1|H1].
        * assert (H2 : (m <= length o2)%nat) by lia.
          pose proof (Hnext o1 Hn1 Hm Hp1 H1) as Hy1. pose proof (Hnext o2 Hn2 Hmo2 Hp2 H2) as Hy2.
          assert (Hs : forall (o : list A), nth_error o m = Some y -> firstn (S m) o = firstn m o ++ [y]).
          { clear. revert m. intros m o. revert m. induction o as [|a o IH]; intros [|m] H; cbn in *; try discriminate; [now injection H as ->|]. now rewrite IH. }
          exists (S m). rewrite (Hs o1 Hy1), (Hs o2 Hy2), He. split; auto. intros x. rewrite <- He, Hfk, !in_app_iff, Hm. tauto.
        * exfalso. apply Hd, Hm. rewrite firstn_all2 by lia. apply Hi1. eapply nth_error_In; eauto. }
  destruct (Hk (length l)) as [m [He Hm]]. rewrite firstn_all in Hm.
  assert (Hall : forall o, NoDup o -> (forall x, In x o <-> In x l) -> (forall x, In x (firstn m o) <-> In x l) -> firstn m o = o).
  { intros o Hn Hi Hf. destruct (skipn m o) as [|z q] eqn:Hq.
    - rewrite <- (firstn_skipn m o) at 2. now rewrite Hq, app_nil_r.
    - exfalso. rewrite <- (firstn_skipn m o), Hq in Hn. apply NoDup_remove_2 in Hn. apply Hn. apply in_or_app. left.
      apply Hf, Hi. rewrite <- (firstn_skipn m o), Hq. apply in_or_app. right. now left. }
  rewrite <- (Hall o1 Hn1 Hi1 Hm), <- (Hall o2 Hn2 Hi2); [exact He|]. intros x. rewrite <- He. apply Hm.
Qed.

(** ** Deduplication *)
Definition input_rows {A} (input : rank2 A) : list (list A) :=
  match input with SparseInput t => rows t | DenseInput m => m end.

Lemma dedup_fold {A} (eqb : A -> A -> bool) (input : rank2 A) (f : nat -> list A) : forall n s ixs vals mx, 0 <= mx ->
  (forall i, (s <= i < s + n)%nat -> row_values input (Z.of_nat i) = f i) ->
  fold_left (deduplicate_row eqb input) (map Z.of_nat (seq s n)) (ixs, vals, mx) =
  (ixs ++ aligned_from s (map (fun i => unique eqb (f i)) (seq s n)), vals ++ concat (map (fun i => unique eqb (f i)) (seq s n)),
   Z.max mx (Z.of_nat (fold_right Nat.max 0%nat (map (@length A) (map (fun i => unique eqb (f i)) (seq s n)))))).
Proof.
  induction n as [|n IH]; intros s ixs vals mx Hmx Hf.
  - cbn. rewrite !app_nil_r. f_equal. lia.
  - cbn [seq map fold_left]. unfold deduplicate_row at 2. rewrite Hf by lia. rewrite IH; [|lia|intros i Hi; apply Hf; lia].
    unfold aligned_from. cbn [length seq combine map concat fold_right]. rewrite !map_length, <- !app_assoc. f_equal; [f_equal|].
    + f_equal. f_equal. now rewrite range_nat, map_map.
    + lia.
Qed.
Lemma dedup_rows {A} (eqb : A -> A -> bool) (input : rank2 A) :
  match input with SparseInput t => in_shape t | DenseInput _ => True end ->
  deduplicate_tensor_per_row eqb input = tensor_of_rows (map (unique eqb) (input_rows input)).
Proof.
  intros Hin. unfold deduplicate_tensor_per_row, range.
  assert (Hrows : input_rows input = map (fun i => row_values input (Z.of_nat i)) (seq 0 (Z.to_nat (batch_dim input)))).
  { destruct input as [t|m]; cbn [input_rows row_values batch_dim].
    - unfold rows, row. apply map_ext. intros r. f_equal. apply filter_ext_in. intros [[i j] v] He. cbn [fst snd].
      destruct Hin as [_ [Hs _]]. apply in_combine_l in He. rewrite Forall_forall in Hs. specialize (Hs _ He). cbn in Hs.
      destruct (i =? Z.of_nat r); cbn; auto. symmetry. apply andb_true_iff. split; [apply Z.leb_le|apply Z.ltb_lt]; lia.
    - rewrite Nat2Z.id. rewrite <- (map_seq_nth m []) at 1. apply map_ext. intros r. now rewrite Nat2Z.id. }
  rewrite (dedup_fold eqb input (fun i => row_values input (Z.of_nat i))); [|lia|auto]. cbn [app].
  unfold tensor_of_rows. rewrite Hrows, !map_map. f_equal. f_equal.
  - rewrite map_length, seq_length. destruct input as [t|m]; cbn [batch_dim]; [|lia]. destruct Hin as [_ [_ Hn]]. now rewrite Z2Nat.id.
  - rewrite Z.max_r; [reflexivity|lia].
Qed.
Lemma univalent_rows {A} (l : list A) : l <> [] -> univalent_dense_to_sparse l = tensor_of_rows (map (fun x => [x]) l).
Proof.
  intros Hl. unfold univalent_dense_to_sparse, tensor_of_rows. f_equal.
  - unfold aligned_indices. rewrite map_length, range_nat, map_map. generalize 0%nat at 1 3 as k. clear Hl. induction l as [|x l IH]; intros k; cbn; auto. f_equal. apply IH.
  - clear Hl. induction l as [|x l IH]; cbn; auto. now f_equal.
  - f_equal; [now rewrite map_length|]. rewrite map_map. cbn [length].
    assert (H : forall l : list A, (fold_right Nat.max 0 (map (fun _ => 1) l) <= 1)%nat)
      by (clear; induction l as [|y l IH]; cbn [map fold_right]; lia).
    destruct l as [|x l]; [contradiction|]. cbn [map fold_right]. specialize (H l). lia.
Qed.

Lemma windows_tensor_in_shape {A} (rs : list (list A)) : in_shape (tensor_of_rows rs).
Proof.
  unfold in_shape, tensor_of_rows. cbn [indices values dense_shape fst snd]. rewrite <- aligned_indices_combine.
  assert (Hl : length (row_ids_from 0 rs) = length (columns_of rs)) by now rewrite row_ids_from_length, columns_length.
  split; [rewrite combine_length, row_ids_from_length, columns_length; lia|]. split; [|lia].
  apply Forall_forall. intros [i j] Hin. cbn. split.
  - apply in_combine_l in Hin. assert (H0 := row_ids_from_ge rs 0 i Hin). split; [lia|].
    assert (Hub : forall k, In i (row_ids_from k rs) -> i < Z.of_nat (k + length rs)).
    { clear. induction rs as [|r rs IH]; intros k Hi; [destruct Hi|]. cbn [row_ids_from length] in *. apply in_app_or in Hi as [Hi|Hi].
      - apply repeat_spec in Hi. lia.
      - apply IH in Hi. lia. }
    apply Hub in Hin. lia.
  - apply in_combine_r in Hin. clear Hl. induction rs as [|r rs IH]; [destruct Hin|]. cbn [columns_of flat_map] in Hin. cbn [map fold_right].
    apply in_app_or in Hin as [Hi|Hi]; [apply in_map_iff in Hi as [c [<- Hc]]; apply in_seq in Hc; lia|]. specialize (IH Hi). lia.
Qed.
Lemma rows_of_tensor {A} (rs : list (list A)) : rows (tensor_of_rows rs) = rs.
Proof.
  unfold rows, row, tensor_of_rows. cbn [indices values dense_shape fst]. rewrite Nat2Z.id, <- aligned_indices_combine.
  assert (H : forall k r, (k <= r)%nat ->
    map snd (filter (fun e => fst (fst e) =? Z.of_nat r) (combine (combine (row_ids_from k rs) (columns_of rs)) (concat rs)))
    = nth (r - k) rs []).
  { induction rs as [|x rs IH]; intros k r Hk; [cbn; now destruct (r - k)%nat|].
    cbn [row_ids_from columns_of flat_map concat]. rewrite combine_app by now rewrite repeat_length, map_length, seq_length.
    rewrite combine_app by now rewrite combine_length, repeat_length, map_length, seq_length, Nat.min_id.
    rewrite filter_app, map_app. fold (columns_of rs).
    assert (Hblock : map snd (filter (fun e => fst (fst e) =? Z.of_nat r)
                 (combine (combine (repeat (Z.of_nat k) (length x)) (map Z.of_nat (seq 0 (length x)))) x)) = if (k =? r)%nat then x else []).
    { assert (Hg : forall (cs : list Z), length cs = length x -> map snd (filter (fun e => fst (fst e) =? Z.of_nat r)
                 (combine (combine (repeat (Z.of_nat k) (length x)) cs) x)) = if (k =? r)%nat then x else []).
      { induction x as [|a x IHx]; intros [|c cs] Hc; cbn in Hc; try discriminate; cbn.
        - now destruct (k =? r)%nat.
        - destruct (Z.of_nat k =? Z.of_nat r) eqn:E.
          + apply Z.eqb_eq, Nat2Z.inj in E. subst. rewrite Nat.eqb_refl in *. cbn. f_equal. apply IHx. now injection Hc.
          + apply Z.eqb_neq in E. destruct (k =? r)%nat eqn:E2; [apply Nat.eqb_eq in E2; subst; lia|]. apply IHx. now injection Hc. }
      apply Hg. now rewrite map_length, seq_length. }
    rewrite Hblock. destruct (k =? r)%nat eqn:E.
    - apply Nat.eqb_eq in E. subst. rewrite Nat.sub_diag. cbn [nth]. rewrite filter_none; [apply app_nil_r|].
      intros [[i j] v] Hin. apply in_combine_l, in_combine_l, row_ids_from_ge in Hin. cbn. apply Z.eqb_neq. lia.
    - apply Nat.eqb_neq in E. cbn [app]. rewrite (IH (S k) r) by lia. replace (r - k)%nat with (S (r - S k)) by lia. reflexivity. }
  etransitivity; [|apply (map_seq_nth rs [])]. apply map_ext. intros r. rewrite (H 0%nat r) by lia. now rewrite Nat.sub_0_r.
Qed.
Lemma bag_rows t n0 n1 sep : in_shape t -> row_major t -> (1 <= n0)%nat -> (n0 <= n1)%nat ->
  bag_of_words t n0 n1 sep = Some (tensor_of_rows (map (fun r => unique String.eqb (windows n0 n1 sep r)) (rows t))).
Proof.
  intros Hi Hm H0 H1. unfold bag_of_words. rewrite ngrams_rows by auto. rewrite dedup_rows by apply windows_tensor_in_shape.
  cbn [input_rows]. now rewrite rows_of_tensor, map_map.
Qed.

(** ** word_count *)
Lemma word_count_rows {A} (t : sparse A) : in_shape t -> word_count t = map (fun r => Z.of_nat (length r)) (rows t).
Proof.
  intros [Hl _]. unfold word_count, row_counts, range, rows. rewrite !map_map. apply map_ext. intros r. f_equal. unfold row.
  rewrite map_length. rewrite <- (combine_fst (indices t) (values t) Hl) at 1. rewrite map_map. clear Hl.
  induction (combine (indices t) (values t)) as [|e l IH]; cbn; auto. rewrite Z.eqb_sym. destruct (_ =? _); cbn; now rewrite IH.
Qed.

(** ** Stable sorting and left alignment *)
Lemma filter_insert {A} (leb : A -> A -> bool) (p : A -> bool) x l :
  (forall y, In y l -> p x = true -> p y = true -> leb x y = true) ->
  filter p (insert_sorted leb x l) = if p x then x :: filter p l else filter p l.
Proof.
  induction l as [|y l IH]; intros H; cbn; [reflexivity|]. destruct (leb x y) eqn:E; cbn; [reflexivity|].
  rewrite IH by (intros z Hz; apply H; now right). destruct (p x) eqn:Px, (p y) eqn:Py; auto.
  rewrite (H y (or_introl eq_refl) eq_refl Py) in E. discriminate.
Qed.
Lemma filter_py_sorted {A} (leb : A -> A -> bool) (p : A -> bool) l :
  (forall x y, p x = true -> p y = true -> leb x y = true) -> filter p (py_sorted leb l) = filter p l.
Proof.
  intros H. unfold py_sorted. induction l as [|x l IH]; cbn; auto. rewrite filter_insert by auto. rewrite IH. reflexivity.
Qed.
Lemma index_leb_total a b : index_leb a b = true \/ index_leb b a = true.
Proof. unfold index_leb. destruct (Z.ltb_spec (fst a) (fst b)), (Z.ltb_spec (fst b) (fst a)), (Z.eqb_spec (fst a) (fst b)), (Z.eqb_spec (fst b) (fst a)), (Z.leb_spec (snd a) (snd b)), (Z.leb_spec (snd b) (snd a)); cbn; auto; lia. Qed.
Lemma index_leb_trans a b c : index_leb a b = true -> index_leb b c = true -> index_leb a c = true.
Proof. unfold index_leb. destruct (Z.ltb_spec (fst a) (fst b)), (Z.ltb_spec (fst b) (fst c)), (Z.ltb_spec (fst a) (fst c)), (Z.eqb_spec (fst a) (fst b)), (Z.eqb_spec (fst b) (fst c)), (Z.eqb_spec (fst a) (fst c)), (Z.leb_spec (snd a) (snd b)), (Z.leb_spec (snd b) (snd c)), (Z.leb_spec (snd a) (snd c)); cbn; auto; try lia; try discriminate. Qed.
Lemma index_leb_spec a b : index_leb a b = true -> fst a < fst b \/ fst a = fst b /\ snd a <= snd b.
Proof. unfold index_leb. destruct (Z.ltb_spec (fst a) (fst b)), (Z.eqb_spec (fst a) (fst b)), (Z.leb_spec (snd a) (snd b)); cbn; auto; discriminate. Qed.

Definition sorted_entries {A} (t : sparse A) := py_sorted (fun a b : (Z * Z) * A => index_leb (fst a) (fst b)) (entries t).
Lemma reorder_entries {A} (t : sparse A) : entries (reorder t) = sorted_entries t.
Proof.
  unfold entries, reorder, sorted_entries. cbn [indices values]. fold (entries t). set (l := py_sorted _ _). clearbody l.
  induction l as [|[i v] l IH]; cbn; auto. now f_equal.
Qed.
Lemma sorted_entries_sorted {A} (t : sparse A) : StronglySorted (fun a b : (Z * Z) * A => index_leb (fst a) (fst b) = true) (sorted_entries t).
Proof. unfold sorted_entries. apply py_sorted_sorted; [intros a b; apply index_leb_total|intros a b c; apply index_leb_trans]. Qed.
Lemma reorder_row_major {A} (t : sparse A) : row_major (reorder t).
Proof.
  unfold row_major, reorder. cbn [indices]. fold (entries t). fold (sorted_entries t).
  pose proof (sorted_entries_sorted t) as Hs. induction Hs as [|e l Hs IH Hf]; intros i j a b Hij Ha Hb; [destruct i; discriminate|].
  destruct i as [|i], j as [|j]; try lia; cbn in Ha, Hb.
  - injection Ha as <-. rewrite nth_error_map in Hb. destruct (nth_error l j) as [e'|] eqn:He; [|discriminate]. cbn in Hb. injection Hb as <-.
    apply nth_error_In in He. rewrite Forall_forall in Hf. specialize (Hf _ He). apply index_leb_spec in Hf. lia.
  - apply (IH i j); auto. lia.
Qed.
Lemma reorder_in_shape {A} (t : sparse A) : in_shape t -> in_shape (reorder t).
Proof.
  intros [Hl [Hf Hn]]. unfold in_shape, reorder. cbn [indices values dense_shape]. split; [now rewrite !map_length|]. split; auto.
  apply Forall_forall. intros i Hi. apply in_map_iff in Hi as [[i' v] [<- He]]. cbn.
  eapply Permutation_in in He; [|apply py_sorted_perm]. apply in_combine_l in He. rewrite Forall_forall in Hf. now apply Hf.
Qed.
Lemma reorder_row {A} (t : sparse A) r : in_shape t -> row (reorder t) r = row_by_column t r.
Proof.
  intros Hi. unfold row. fold (entries (reorder t)). rewrite reorder_entries.
  set (l := filter (fun e => fst (fst e) =? Z.of_nat r) (sorted_entries t)).
  assert (Hc := blocks_concat (fun e : (Z * Z) * A => snd (fst e)) (Z.to_nat (snd (dense_shape t))) l).
  rewrite <- Hc.
  - unfold row_by_column. rewrite concat_map, flat_map_concat_map, !map_map. f_equal. apply map_ext. intros c. f_equal.
    unfold block, l. fold (entries t).
    assert (Hff : forall (p q : (Z * Z) * A -> bool) ll, filter p (filter q ll) = filter (fun x => q x && p x) ll).
    { intros p q ll. induction ll as [|x ll IH]; cbn; auto. destruct (q x); cbn; [destruct (p x)|]; now rewrite IH. }
    rewrite Hff. unfold sorted_entries. apply filter_py_sorted. intros [[a b] x] [[a' b'] y]; cbn. rewrite !andb_true_iff, !Z.eqb_eq.
    intros [-> ->] [-> ->]. unfold index_leb. cbn. now rewrite Z.eqb_refl, Z.leb_refl, orb_true_r.
  - clear Hc. unfold l. clear l. pose proof (sorted_entries_sorted t) as Hs. induction Hs as [|e q Hs IH Hf]; cbn; [constructor|].
    destruct (fst (fst e) =? Z.of_nat r) eqn:E; auto. constructor; auto. apply Forall_forall. intros e' He'. apply filter_In in He' as [He' E'].
    rewrite Forall_forall in Hf. specialize (Hf _ He'). apply index_leb_spec in Hf. apply Z.eqb_eq in E, E'. unfold le_key. lia.
  - apply Forall_forall. intros [i v] He. unfold l in He. apply filter_In in He as [He _]. unfold sorted_entries in He.
    eapply Permutation_in in He; [|apply py_sorted_perm]. apply in_combine_l in He. destruct Hi as [_ [Hf _]]. rewrite Forall_forall in Hf.
    specialize (Hf _ He). cbn. rewrite Z2Nat.id; lia.
Qed.

Lemma unique_from_seen_ext {A} (eqb : A -> A -> bool) l : forall s1 s2, (forall x, existsb (eqb x) s1 = existsb (eqb x) s2) ->
  unique_from eqb s1 l = unique_from eqb s2 l.
Proof.
  induction l as [|x l IH]; intros s1 s2 H; cbn; auto. rewrite (H x). destruct (existsb (eqb x) s2); auto. f_equal. apply IH.
  intros y. cbn. now rewrite H.
Qed.
Lemma unique_from_skip l (k : Z) : ~ In k l -> forall seen, unique_from Z.eqb (k :: seen) l = unique_from Z.eqb seen l.
Proof.
  induction l as [|x l IH]; intros Hk seen; cbn; auto. assert (Hx : x =? k = false) by (apply Z.eqb_neq; intros ->; apply Hk; now left).
  rewrite Hx. cbn. destruct (existsb (Z.eqb x) seen); [apply IH; intros H; apply Hk; now right|]. f_equal.
  rewrite <- (IH (fun H => Hk (or_intror H)) (x :: seen)). apply unique_from_seen_ext. intros y. cbn. destruct (y =? k), (y =? x); reflexivity.
Qed.
Lemma unique_from_repeat (k : Z) n l : unique_from Z.eqb [k] (repeat k n ++ l) = unique_from Z.eqb [k] l.
Proof. induction n as [|n IH]; cbn; auto. now rewrite Z.eqb_refl. Qed.
Lemma unique_counts_rows {A} (rs : list (list A)) : forall k,
  concat (map range (unique_counts (row_ids_from k rs))) = columns_of rs.
Proof.
  induction rs as [|r rs IH]; intros k; [reflexivity|]. cbn [row_ids_from columns_of flat_map]. fold (columns_of rs).
  assert (Hnot : ~ In (Z.of_nat k) (row_ids_from (S k) rs)) by (intros H; apply row_ids_from_ge in H; lia).
  destruct r as [|x r]; [apply IH|]. cbn [length repeat app]. unfold unique_counts, unique. cbn [unique_from existsb].
  rewrite unique_from_repeat, unique_from_skip by auto. cbn [map concat]. f_equal.
  - rewrite range_nat. f_equal. f_equal. change (Z.of_nat k :: repeat (Z.of_nat k) (length r) ++ row_ids_from (S k) rs)
      with (repeat (Z.of_nat k) (S (length r)) ++ row_ids_from (S k) rs). rewrite filter_app, app_length.
    rewrite filter_all by (intros y Hy; apply repeat_spec in Hy; subst; apply Z.eqb_refl).
    rewrite filter_none; [rewrite repeat_length; cbn; lia|]. intros y Hy. apply Z.eqb_neq. intros <-. contradiction.
  - rewrite <- (IH (S k)). unfold unique_counts, unique. f_equal. f_equal. apply map_ext_in. intros y Hy. f_equal. f_equal.
    apply (unique_from_in Z.eqb Z.eqb_eq) in Hy as [Hy _]. cbn [filter]. destruct (y =? Z.of_nat k) eqn:E.
    + apply Z.eqb_eq in E. subst. contradiction.
    + rewrite filter_app, (filter_none _ (repeat _ _)); auto. intros z Hz. apply repeat_spec in Hz. now subst.
Qed.

Lemma left_align_rows {A} (t : sparse A) : in_shape t ->
  let rs := map (row_by_column t) (seq 0 (Z.to_nat (fst (dense_shape t)))) in
  sparse_tensor_left_align t = Sparse (aligned_indices rs) (concat rs) (dense_shape t).
Proof.
  intros Hi rs. unfold sparse_tensor_left_align.
  assert (Hrs : rows (reorder t) = rs).
  { unfold rows, rs. apply map_ext. intros r. now apply reorder_row. }
  pose proof (row_ids (reorder t) (reorder_in_shape t Hi) (reorder_row_major t)) as Hids.
  pose proof (concat_rows (reorder t) (reorder_in_shape t Hi) (reorder_row_major t)) as Hv.
  rewrite Hrs in Hids, Hv. rewrite Hids, <- Hv, unique_counts_rows, aligned_indices_combine. reflexivity.
Qed.
(** A tensor in row-major order (rows, and columns within rows) is only re-indexed. *)
Definition canonical {A} (t : sparse A) : Prop :=
  forall i j a b, (i < j)%nat -> nth_error (indices t) i = Some a -> nth_error (indices t) j = Some b ->
    fst a < fst b \/ fst a = fst b /\ snd a <= snd b.
Lemma canonical_sorted {A} (t : sparse A) : length (indices t) = length (values t) -> canonical t -> sorted_entries t = entries t.
Proof.
  unfold canonical, sorted_entries, entries, py_sorted. destruct t as [ix vs sh]. cbn. revert vs. induction ix as [|i ix IH]; intros [|v vs] Hl Hc; cbn in *; try discriminate; auto.
  rewrite IH; [|lia|].
  - destruct (combine ix vs) as [|[j w] l] eqn:E; cbn; auto.
    assert (Hle : index_leb i j = true).
    { destruct ix as [|j' ix]; [discriminate|]. destruct vs as [|w' vs]; [discriminate|]. cbn in E. injection E as -> -> _.
      destruct (Hc 0%nat 1%nat i j ltac:(lia) eq_refl eq_refl) as [H|[H1 H2]]; unfold index_leb.
      - now rewrite (proj2 (Z.ltb_lt _ _) H).
      - rewrite H1, Z.eqb_refl, (proj2 (Z.leb_le _ _) H2). now rewrite orb_true_r. }
    now rewrite Hle.
  - intros a b x y Hab Ha Hb. apply (Hc (S a) (S b)); auto. lia.
Qed.
Lemma left_align_canonical {A} (t : sparse A) : in_shape t -> canonical t ->
  sparse_tensor_left_align t = Sparse (aligned_indices (rows t)) (values t) (dense_shape t).
Proof.
  intros Hi Hc. rewrite left_align_rows by auto.
  assert (Hr : map (row_by_column t) (seq 0 (Z.to_nat (fst (dense_shape t)))) = rows t).
  { unfold rows. apply map_ext. intros r. rewrite <- reorder_row by auto. unfold row. fold (entries (reorder t)).
    rewrite reorder_entries, canonical_sorted; auto. apply Hi. }
  rewrite Hr, (concat_rows t Hi); auto. intros i j a b Hij Ha Hb. destruct (Hc i j a b Hij Ha Hb); lia.
Qed.

(** ** Dense conversion *)
Lemma index_eqb_eq a b : index_eqb a b = true <-> a = b.
Proof. unfold index_eqb. destruct a, b. cbn. rewrite andb_true_iff, !Z.eqb_eq. split; [intros [-> ->]; reflexivity|now intros [= -> ->]]. Qed.
Lemma increasing_nodup l : increasing l = true -> NoDup l.
Proof.
  intros H. assert (Hs : StronglySorted (fun a b => index_leb b a = false) l).
  { apply Sorted_StronglySorted.
    - intros a b c H1 H2. destruct (index_leb c a) eqn:E; auto. exfalso.
      destruct (index_leb_total a b) as [H3|H3]; [|congruence]. rewrite (index_leb_trans c a b E H3) in H2. discriminate.
    - induction l as [|a [|b l] IH]; [repeat constructor|repeat constructor|]. cbn [increasing] in H. apply andb_true_iff in H as [H1 H2].
      apply andb_true_iff in H1 as [_ H1]. constructor; [now apply IH|]. constructor. now apply negb_true_iff. }
  clear H. induction Hs as [|a l Hs IH Hf]; constructor; auto. intros Hin. rewrite Forall_forall in Hf. specialize (Hf a Hin). cbn in Hf.
  destruct (index_leb_total a a); congruence.
Qed.
Lemma find_entry {A} : forall (ix : list (Z * Z)) (vs : list A) i v, NoDup ix -> In (i, v) (combine ix vs) ->
  find (fun e => index_eqb (fst e) i) (combine ix vs) = Some (i, v).
Proof.
  induction ix as [|j ix IH]; intros [|w vs] i v Hn Hin; cbn in *; try tauto. inversion Hn; subst.
  destruct Hin as [[= -> ->]|Hin].
  - now rewrite (proj2 (index_eqb_eq i i) eq_refl).
  - destruct (index_eqb j i) eqn:E; [|now apply IH]. apply index_eqb_eq in E. subst. apply in_combine_l in Hin. contradiction.
Qed.
Lemma range_nth_error n r : 0 <= r < n -> nth_error (range n) (Z.to_nat r) = Some r.
Proof.
  intros H. unfold range. rewrite nth_error_map, (nth_error_nth' _ 0%nat) by (rewrite seq_length; lia). cbn. rewrite seq_nth by lia.
  f_equal. lia.
Qed.
Lemma to_dense_spec {A} (t : sparse A) shape d m : sparse_tensor_to_dense_with_shape t shape d = Some m ->
  let rws := size_or (fst shape) (fst (dense_shape t)) in let cols := size_or (snd shape) (snd (dense_shape t)) in
  length m = Z.to_nat rws /\ Forall (fun l => length l = Z.to_nat cols) m /\
  (forall i v, In (i, v) (combine (indices t) (values t)) -> dense_at m (fst i) (snd i) = Some v) /\
  (forall r c, 0 <= r < rws -> 0 <= c < cols -> length (indices t) = length (values t) -> ~ In (r, c) (indices t) -> dense_at m r c = Some d).
Proof.
  unfold sparse_tensor_to_dense_with_shape. fold (size_or (fst shape) (fst (dense_shape t))). fold (size_or (snd shape) (snd (dense_shape t))).
  set (rws := size_or _ _). set (cols := size_or (snd shape) _). destruct (increasing (indices t) && _) eqn:E; [|discriminate]. apply andb_true_iff in E as [Hinc Hw].
  intros [= <-]. cbv zeta. split; [now rewrite map_length, range_length|]. split.
  { apply Forall_forall. intros l Hl. apply in_map_iff in Hl as [r [<- _]]. now rewrite map_length, range_length. }
  assert (Hat : forall r c, 0 <= r < rws -> 0 <= c < cols ->
    dense_at (map (fun r => map (fun c => match find (fun e => index_eqb (fst e) (r, c)) (combine (indices t) (values t)) with Some e => snd e | None => d end) (range cols)) (range rws)) r c
    = Some (match find (fun e => index_eqb (fst e) (r, c)) (combine (indices t) (values t)) with Some e => snd e | None => d end)).
  { intros r c Hr Hc. unfold dense_at. rewrite nth_error_map, range_nth_error by auto. cbn. now rewrite nth_error_map, range_nth_error. }
  split.
  - intros [r c] v Hin. cbn [fst snd]. rewrite forallb_forall in Hw. assert (Hrc := Hw (r, c) (in_combine_l _ _ _ _ Hin)).
    unfold within in Hrc. cbn in Hrc. rewrite !andb_true_iff, !Z.leb_le, !Z.ltb_lt in Hrc. rewrite Hat by lia.
    rewrite (find_entry _ _ (r, c) v); auto. now apply increasing_nodup.
  - intros r c Hr Hc Hl Hn. rewrite Hat by auto. destruct (find _ _) as [e|] eqn:Hf; auto. exfalso. apply find_some in Hf as [He Hq].
    apply index_eqb_eq in Hq. destruct e as [i v]. cbn in Hq. subst. apply in_combine_l in He. contradiction.
Qed.
Lemma to_dense_some {A} (t : sparse A) shape d :
  (exists m, sparse_tensor_to_dense_with_shape t shape d = Some m) <->
  (forall i j a b, (i < j)%nat -> nth_error (indices t) i = Some a -> nth_error (indices t) j = Some b -> fst a < fst b \/ fst a = fst b /\ snd a < snd b) /\
  Forall (fun i => 0 <= fst i < size_or (fst shape) (fst (dense_shape t)) /\ 0 <= snd i < size_or (snd shape) (snd (dense_shape t))) (indices t).
Proof.
  unfold sparse_tensor_to_dense_with_shape. fold (size_or (fst shape) (fst (dense_shape t))). fold (size_or (snd shape) (snd (dense_shape t))).
  set (rws := size_or _ _). set (cols := size_or (snd shape) _).
  assert (Hw : forallb (within rws cols) (indices t) = true <-> Forall (fun i => 0 <= fst i < rws /\ 0 <= snd i < cols) (indices t)).
  { rewrite forallb_forall, Forall_forall. unfold within. split; intros H i Hi; specialize (H i Hi); rewrite ?andb_true_iff, ?Z.leb_le, ?Z.ltb_lt in *; lia. }
  assert (Hlt : forall a b, index_leb a b && negb (index_leb b a) = true <-> fst a < fst b \/ fst a = fst b /\ snd a < snd b).
  { intros a b. unfold index_leb. destruct (Z.ltb_spec (fst a) (fst b)), (Z.eqb_spec (fst a) (fst b)), (Z.leb_spec (snd a) (snd b)),
      (Z.ltb_spec (fst b) (fst a)), (Z.eqb_spec (fst b) (fst a)), (Z.leb_spec (snd b) (snd a)); cbn; split; intros; auto; try lia; discriminate. }
  assert (Hi : increasing (indices t) = true <->
    (forall i j a b, (i < j)%nat -> nth_error (indices t) i = Some a -> nth_error (indices t) j = Some b -> fst a < fst b \/ fst a = fst b /\ snd a < snd b)).
  { generalize (indices t) as l. clear - Hlt. induction l as [|a l IH].
    - split; auto. intros _ [|i] j a b _ H; discriminate.
    - destruct l as [|b l].
      + split; auto. intros _ [|i] [|[|j]] x y Hij Hx Hy; try discriminate; try lia.
      + change (increasing (a :: b :: l)) with (index_leb a b && negb (index_leb b a) && increasing (b :: l)). rewrite andb_true_iff, Hlt, IH. split.
        * intros [H1 H2] [|i] [|j] x y Hij Hx Hy; try lia; cbn in Hx.
          -- injection Hx as <-. destruct j as [|j]; cbn in Hy; [now injection Hy as <-|]. specialize (H2 0%nat (S j) b y ltac:(lia) eq_refl Hy). lia.
          -- apply (H2 i j); auto. lia.
        * intros H. split; [apply (H 0%nat 1%nat); auto|]. intros i j x y Hij Hx Hy. apply (H (S i) (S j)); auto. lia. }
  rewrite <- Hw, <- Hi. destruct (increasing (indices t)), (forallb (within rws cols) (indices t)); cbn; split; intros H; eauto; try (now destruct H); destruct H as [m H]; discriminate.
Qed.
