From Coq Require Import String Ascii List ZArith QArith Qcanon Bool Lia Permutation Sorting.Sorted.
From Verif Require Import CombineModel CombineProofs MeanVarModel MeanVarProofs PerKeyProofs SortModel SortProofs VocabModel VocabSpec.
Import ListNotations.
Open Scope Z_scope.

(** ** Sums *)

Lemma total_app a b : total (a ++ b) = Qcplus (total a) (total b).
Proof. induction a as [|x a IH]; cbn; [now rewrite Qcplus_0_l|]. rewrite IH. apply Qcplus_assoc. Qed.
Lemma total_perm a b : Permutation a b -> total a = total b.
Proof.
  induction 1 as [|x a b _ IH|x y a|a b c _ IH1 _ IH2]; cbn; [reflexivity|now rewrite IH| |congruence].
  rewrite !Qcplus_assoc. f_equal. apply Qcplus_comm.
Qed.
Lemma qc_sum_total_from l : forall a, fold_left Qcplus l a = Qcplus a (total l).
Proof. induction l as [|x l IH]; cbn; intros a; [now rewrite Qcplus_0_r|]. rewrite IH. symmetry. apply Qcplus_assoc. Qed.
Lemma qc_sum_total l : qc_sum l = total l.
Proof. unfold qc_sum. rewrite qc_sum_total_from. apply Qcplus_0_l. Qed.
Lemma total_concat ls : total (concat ls) = total (map total ls).
Proof. induction ls as [|l ls IH]; cbn; [reflexivity|]. rewrite total_app, IH. reflexivity. Qed.

Lemma run_sum_total s : run (Q2Qc 0) Qcplus (fun l => qc_sum l) s = total (elements s).
Proof.
  apply (run_rep (Q2Qc 0) Qcplus (fun l => qc_sum l) (fun l a => a = total l) eq_refl (fun _ => True)).
  - intros l a x _ ->. rewrite total_app. cbn. now rewrite Qcplus_0_r.
  - intros ls ags _ HF. rewrite qc_sum_total, total_concat. f_equal.
    induction HF as [|l a ls ags -> _ IH]; cbn; [reflexivity|now rewrite IH].
  - apply Forall_forall. trivial.
Qed.

Lemma combine_per_key_value inputs outputs k v :
  combine_per_key_sum inputs outputs -> In (k, v) outputs -> v = total (values_of k inputs).
Proof.
  intros (_ & _ & H) HI. destruct (H _ _ HI) as (s & HP & ->). rewrite run_sum_total. now apply total_perm.
Qed.

Lemma values_of_in {V} k (l : list (string * V)) v : In v (values_of k l) <-> In (k, v) l.
Proof.
  unfold values_of. rewrite in_map_iff. split.
  - intros ([k' v'] & <- & H). apply filter_In in H as [H E]. cbn in *. apply String.eqb_eq in E. now subst.
  - intros H. exists (k, v). split; [reflexivity|]. apply filter_In. split; [exact H|]. cbn. apply String.eqb_refl.
Qed.

Lemma values_of_nodup {V} k v (l : list (string * V)) :
  NoDup (map fst l) -> In (k, v) l -> values_of k l = [v].
Proof.
  unfold values_of. induction l as [|[k' v'] l IH]; cbn; [tauto|]. intros HN [E|H].
  - injection E as -> ->. rewrite String.eqb_refl. cbn. f_equal. inversion HN; subst.
    destruct (filter _ l) as [|p l'] eqn:E; [reflexivity|]. exfalso. apply H1.
    assert (Hp : In p (filter (fun p => String.eqb k (fst p)) l)) by (rewrite E; now left).
    apply filter_In in Hp as [Hp Ek]. apply String.eqb_eq in Ek. rewrite Ek. now apply in_map.
  - inversion HN; subst. destruct (String.eqb k k') eqn:E.
    + apply String.eqb_eq in E. subst. exfalso. apply H2. change k' with (fst (k', v)). now apply in_map.
    + apply IH; assumption.
Qed.

Lemma values_of_none {V} k (l : list (string * V)) : ~ In k (map fst l) -> values_of k l = [].
Proof.
  intros H. apply values_of_no_key. destruct (existsb _ _) eqn:E; [|reflexivity].
  apply existsb_exists in E as (k' & Hk & Ek). apply String.eqb_eq in Ek. subst. contradiction.
Qed.

(** Combining per key keeps the total of every key. *)
Lemma combine_per_key_total inputs outputs k :
  combine_per_key_sum inputs outputs -> total (values_of k outputs) = total (values_of k inputs).
Proof.
  intros H. destruct (in_dec string_dec k (map fst outputs)) as [Hi|Hn].
  - apply in_map_iff in Hi as ([k' v] & E & Hi). cbn in E. subst k'.
    rewrite (values_of_nodup k v outputs (proj1 H) Hi). cbn. rewrite Qcplus_0_r.
    now apply combine_per_key_value with (1 := H).
  - rewrite (values_of_none k outputs Hn). rewrite values_of_none; [reflexivity|].
    intros C. apply Hn. apply (proj1 (proj2 H)). exact C.
Qed.

(** ** The batch reduction *)

Definition kept (text : bool) (rs : rows) : rows := filter (fun r => negb (filtered_out text (fst r))) rs.

Definition row_weight (weighted : bool) (r : string * Qc) : Qc := if weighted then snd r else Q2Qc 1.

Lemma kept_concat text ls : kept text (concat ls) = concat (map (kept text) ls).
Proof. unfold kept. induction ls as [|l ls IH]; cbn; [reflexivity|]. now rewrite filter_app, IH. Qed.

Lemma reduce_batch_total text weighted b k :
  total (values_of k (reduce_batch text weighted b)) = total (values_of k (map (fun r => (fst r, row_weight weighted r)) (kept text b))).
Proof.
  unfold reduce_batch. fold (kept text b). destruct weighted; unfold row_weight.
  - replace (map (fun r : string * Qc => (fst r, snd r)) (kept text b)) with (kept text b)
      by (rewrite <- map_id at 1; apply map_ext; intros []; reflexivity).
    set (K := kept text b). unfold reduce_per_key.
    destruct (tf_unique_spec (map fst K) []) as [HN HI].
    destruct (in_dec string_dec k (map fst K)) as [Hi|Hn].
    + rewrite (values_of_nodup k (qc_sum (values_of k K))).
      * cbn. rewrite Qcplus_0_r. apply qc_sum_total.
      * rewrite map_map. cbn. now rewrite map_id.
      * apply in_map_iff. exists k. split; [reflexivity|]. apply HI. split; [exact Hi|intros []].
    + rewrite !values_of_none; [reflexivity|exact Hn|].
      rewrite map_map. cbn. rewrite map_id. intros C. apply HI in C as [C _]. contradiction.
  - reflexivity.
Qed.

Lemma reduce_batch_keys text weighted b k :
  In k (map fst (reduce_batch text weighted b)) <-> In k (map fst (kept text b)).
Proof.
  unfold reduce_batch. fold (kept text b). destruct weighted.
  - unfold reduce_per_key. rewrite map_map. cbn. rewrite map_id.
    destruct (tf_unique_spec (map fst (kept text b)) []) as [_ HI]. rewrite HI. cbn. tauto.
  - rewrite map_map. cbn. tauto.
Qed.

Lemma indicator_values weighted rs k :
  indicator weighted rs k = total (values_of k (map (fun r => (fst r, row_weight weighted r)) rs)).
Proof.
  unfold indicator, values_of. f_equal. induction rs as [|r rs IH]; cbn; [reflexivity|].
  destruct (String.eqb k (fst r)); cbn; now rewrite IH.
Qed.

Lemma flat_map_keys {A V} (f : A -> list (string * V)) l k :
  In k (map fst (flat_map f l)) <-> exists b, In b l /\ In k (map fst (f b)).
Proof.
  rewrite flat_map_concat_map, concat_map, map_map. rewrite in_concat. split.
  - intros (x & Hx & Hk). apply in_map_iff in Hx as (b & <- & Hb). eauto.
  - intros (b & Hb & Hk). exists (map fst (f b)). split; [apply in_map_iff; now exists b|exact Hk].
Qed.

Lemma values_of_flat_map {A V} (f : A -> list (string * V)) k l :
  values_of k (flat_map f l) = flat_map (fun b => values_of k (f b)) l.
Proof. induction l as [|b l IH]; cbn [flat_map]; [reflexivity|]. now rewrite values_of_app, IH. Qed.
Lemma total_flat_map {A} (f g : A -> list Qc) l :
  (forall b, In b l -> total (f b) = total (g b)) -> total (flat_map f l) = total (flat_map g l).
Proof.
  induction l as [|b l IH]; cbn; intros H; [reflexivity|]. rewrite !total_app, H by auto. f_equal. apply IH. auto.
Qed.

Lemma kept_in text b r : In r (kept text b) <-> In r b /\ filtered_out text (fst r) = false.
Proof. unfold kept. rewrite filter_In. now rewrite negb_true_iff. Qed.

(** All rows of the datasets. *)

Lemma dataset_total text weighted batches k :
  total (values_of k (flat_map (reduce_batch text weighted) batches)) = indicator weighted (kept text (concat batches)) k.
Proof.
  rewrite indicator_values, values_of_flat_map.
  rewrite (total_flat_map _ (fun b => values_of k (map (fun r => (fst r, row_weight weighted r)) (kept text b)))).
  2: { intros b _. apply reduce_batch_total. }
  f_equal. rewrite kept_concat, concat_map, map_map. rewrite <- (flat_map_concat_map _ batches). now rewrite values_of_flat_map.
Qed.
Lemma dataset_keys text weighted batches k :
  In k (map fst (flat_map (reduce_batch text weighted) batches)) <-> In k (map fst (kept text (concat batches))).
Proof.
  rewrite flat_map_keys, kept_concat, <- flat_map_concat_map, flat_map_keys.
  split; intros (b & Hb & Hk); exists b; (split; [exact Hb|]); now apply (reduce_batch_keys text weighted b k).
Qed.

Lemma indicator_app weighted a b k : indicator weighted (a ++ b) k = Qcplus (indicator weighted a k) (indicator weighted b k).
Proof. unfold indicator. rewrite filter_app, map_app. apply total_app. Qed.
Lemma kept_app text a b : kept text (a ++ b) = kept text a ++ kept text b.
Proof. apply filter_app. Qed.

Lemma accs_total text weighted datasets accs k :
  Forall2 (fun batches acc => combine_per_key_sum (flat_map (reduce_batch text weighted) batches) acc) datasets accs ->
  total (values_of k (concat accs)) = indicator weighted (kept text (all_rows datasets)) k /\
  (In k (map fst (concat accs)) <-> In k (map fst (kept text (all_rows datasets)))).
Proof.
  unfold all_rows. induction 1 as [|batches acc ds accs H _ [IH1 IH2]]; cbn [concat]; [now split|].
  rewrite concat_app, kept_app, indicator_app, values_of_app, total_app, !map_app, !in_app_iff. split.
  - rewrite IH1. f_equal. rewrite (combine_per_key_total _ _ _ H). apply dataset_total.
  - rewrite IH2. rewrite (proj1 (proj2 H) k), dataset_keys. reflexivity.
Qed.

(** The merged entries: every accepted token once, with its indicator. *)
Lemma merged_spec text weighted datasets merged :
  accumulate_and_merge text weighted datasets merged ->
  NoDup (map snd merged) /\
  forall v t, In (v, t) merged <->
    In t (map fst (all_rows datasets)) /\ filtered_out text t = false /\ v = indicator weighted (all_rows datasets) t.
Proof.
  intros (accs & out & HA & HO & ->). rewrite map_map. cbn. split; [exact (proj1 HO)|].
  intros v t.
  assert (Hk : In t (map fst out) <-> In t (map fst (kept text (all_rows datasets)))).
  { rewrite (proj1 (proj2 HO) t). apply (accs_total _ _ _ _ t HA). }
  assert (Hv : forall w, In (t, w) out -> w = indicator weighted (kept text (all_rows datasets)) t).
  { intros w Hw. rewrite (combine_per_key_value _ _ _ _ HO Hw). apply (accs_total _ _ _ _ t HA). }
  assert (HI : filtered_out text t = false -> indicator weighted (kept text (all_rows datasets)) t = indicator weighted (all_rows datasets) t).
  { intros Hf. unfold indicator. f_equal. f_equal. unfold kept.
    clear -Hf. induction (all_rows datasets) as [|r rs IH]; cbn; [reflexivity|].
    destruct (String.eqb t (fst r)) eqn:E.
    - pose proof E as E'. apply String.eqb_eq in E'. rewrite <- E', Hf. cbn. rewrite E. now rewrite IH.
    - destruct (negb (filtered_out text (fst r))); cbn; [rewrite E|]; exact IH. }
  assert (HK : In t (map fst (kept text (all_rows datasets))) <-> In t (map fst (all_rows datasets)) /\ filtered_out text t = false).
  { rewrite !in_map_iff. split.
    - intros (r & <- & Hr). apply kept_in in Hr as [Hr Hf]. split; [|exact Hf]. now exists r.
    - intros ((r & <- & Hr) & Hf). exists r. split; [reflexivity|]. now apply kept_in. }
  split.
  - intros H. apply in_map_iff in H as ([t' w] & E & Hi). cbn in E. injection E as <- <-.
    destruct (proj1 HK (proj1 Hk (in_map fst _ _ Hi))) as [H1 H2].
    split; [exact H1|]. split; [exact H2|]. rewrite (Hv _ Hi). now apply HI.
  - intros (H1 & H2 & ->). destruct (proj1 (in_map_iff _ _ _) (proj2 Hk (proj2 HK (conj H1 H2)))) as ([t' w] & E & Hi).
    cbn in E. subst t'. apply in_map_iff. exists (t, w). split; [|exact Hi]. cbn. rewrite <- (HI H2). now rewrite <- (Hv w Hi).
Qed.

(** ** The order of entries *)

Lemma qc_leb_le a b : qc_leb a b = true <-> (a <= b)%Qc.
Proof. unfold qc_leb, Qcle. apply Qle_bool_iff. Qed.
Lemma qc_leb_total a b : qc_leb a b = true \/ qc_leb b a = true.
Proof. rewrite !qc_leb_le. destruct (Qclt_le_dec a b) as [H|H]; [left; now apply Qclt_le_weak|now right]. Qed.
Lemma qc_leb_antisym a b : qc_leb a b = true -> qc_leb b a = true -> a = b.
Proof. rewrite !qc_leb_le. apply Qcle_antisym. Qed.
Lemma qc_leb_trans a b c : qc_leb a b = true -> qc_leb b c = true -> qc_leb a c = true.
Proof. rewrite !qc_leb_le. apply Qcle_trans. Qed.
Lemma qc_leb_false a b : qc_leb a b = false <-> (b < a)%Qc.
Proof.
  destruct (qc_leb a b) eqn:E; split; try discriminate; try reflexivity.
  - intros H. apply qc_leb_le in E. exfalso. exact (Qclt_not_le _ _ H E).
  - intros _. destruct (Qclt_le_dec b a) as [H|H]; [exact H|]. apply qc_leb_le in H. congruence.
Qed.

Lemma entry_leb_total a b : entry_leb a b = true \/ entry_leb b a = true.
Proof.
  unfold entry_leb. pose proof (qc_leb_total (fst a) (fst b)) as H.
  destruct (qc_leb (fst a) (fst b)), (qc_leb (fst b) (fst a)); auto. apply bytes_leb_total.
Qed.
Lemma entry_leb_antisym a b : entry_leb a b = true -> entry_leb b a = true -> a = b.
Proof.
  unfold entry_leb. destruct a as [x t], b as [y u]; cbn.
  destruct (qc_leb x y) eqn:E1; [|discriminate]. destruct (qc_leb y x) eqn:E2; [|discriminate].
  intros H1 H2. f_equal; [now apply qc_leb_antisym|now apply bytes_leb_antisym].
Qed.
Lemma entry_leb_trans a b c : entry_leb a b = true -> entry_leb b c = true -> entry_leb a c = true.
Proof.
  unfold entry_leb. destruct a as [x t], b as [y u], c as [z w]; cbn.
  destruct (qc_leb x y) eqn:E1; [|discriminate]. destruct (qc_leb y z) eqn:E2; [|discriminate].
  rewrite (qc_leb_trans _ _ _ E1 E2).
  destruct (qc_leb y x) eqn:E3, (qc_leb z y) eqn:E4; intros H1 H2.
  - rewrite (qc_leb_trans _ _ _ E4 E3). now apply bytes_leb_trans with u.
  - destruct (qc_leb z x) eqn:E5; [|reflexivity]. rewrite (qc_leb_trans _ _ _ E5 E1) in E4. discriminate.
  - destruct (qc_leb z x) eqn:E5; [|reflexivity]. rewrite (qc_leb_trans _ _ _ E2 E5) in E3. discriminate.
  - destruct (qc_leb z x) eqn:E5; [|reflexivity]. rewrite (qc_leb_trans _ _ _ E5 E1) in E4. discriminate.
Qed.
Lemma entry_geb_total a b : entry_geb a b = true \/ entry_geb b a = true.
Proof. apply entry_leb_total. Qed.
Lemma entry_geb_trans a b c : entry_geb a b = true -> entry_geb b c = true -> entry_geb a c = true.
Proof. unfold entry_geb. intros H1 H2. now apply entry_leb_trans with b. Qed.
Lemma entry_geb_antisym a b : entry_geb a b = true -> entry_geb b a = true -> a = b.
Proof. unfold entry_geb. intros H1 H2. now apply entry_leb_antisym. Qed.
Lemma entry_eqb_eq a b : entry_eqb a b = true <-> a = b.
Proof.
  unfold entry_eqb. rewrite andb_true_iff. split.
  - intros [H1 H2]. now apply entry_leb_antisym.
  - intros ->. destruct (entry_leb_total b b); auto.
Qed.

Lemma sorted_geb_perm l1 l2 : Permutation l1 l2 -> py_sorted entry_geb l1 = py_sorted entry_geb l2.
Proof.
  intros H. apply py_sorted_perm_eq; [exact entry_geb_total|exact entry_geb_trans|exact H|].
  intros x y _ _. apply entry_geb_antisym.
Qed.

(** ** Pruning is invariant under permutation *)

Lemma top_of_perm k l1 l2 : Permutation l1 l2 -> top_of k l1 = top_of k l2.
Proof. intros H. unfold top_of. now rewrite (sorted_geb_perm _ _ H). Qed.

Lemma filter_perm {A} (f : A -> bool) l1 l2 : Permutation l1 l2 -> Permutation (filter f l1) (filter f l2).
Proof.
  induction 1 as [|x l1 l2 _ IH|x y l|l1 l2 l3 _ IH1 _ IH2]; cbn; [constructor| | |now rewrite IH1].
  - destruct (f x); [now constructor|exact IH].
  - destruct (f x), (f y); try apply Permutation_refl. constructor.
Qed.

Lemma tf_unique_perm l1 l2 : Permutation l1 l2 -> Permutation (tf_unique [] l1) (tf_unique [] l2).
Proof.
  intros H. destruct (tf_unique_spec l1 []) as [N1 I1], (tf_unique_spec l2 []) as [N2 I2].
  apply NoDup_Permutation; [exact N1|exact N2|]. intros k. rewrite I1, I2. split; intros [Hk Hn]; (split; [|exact Hn]).
  - now apply (Permutation_in k H).
  - now apply (Permutation_in k (Permutation_sym H)).
Qed.

Lemma flat_map_perm {A B} (f g : A -> list B) l1 l2 :
  Permutation l1 l2 -> (forall x, f x = g x) -> Permutation (flat_map f l1) (flat_map g l2).
Proof.
  intros H E. rewrite (flat_map_ext f g E). clear E.
  induction H as [|x l1 l2 _ IH|x y l|l1 l2 l3 _ IH1 _ IH2]; cbn; [constructor|now rewrite IH| |now rewrite IH1].
  rewrite !app_assoc. apply Permutation_app_tail, Permutation_app_comm.
Qed.

Lemma thresholds_perm s thr k f l1 l2 :
  Permutation l1 l2 ->
  Permutation (apply_thresholds_and_top_k s thr k f l1) (apply_thresholds_and_top_k s thr k f l2) /\
  (forall n, k = Some n -> f = None -> apply_thresholds_and_top_k s thr k f l1 = apply_thresholds_and_top_k s thr k f l2).
Proof.
  intros H. unfold apply_thresholds_and_top_k.
  set (c1 := if qc_leb thr (Q2Qc 0) then l1 else _). set (c2 := if qc_leb thr (Q2Qc 0) then l2 else _).
  assert (Hc : Permutation c1 c2) by (subst c1 c2; destruct (qc_leb thr (Q2Qc 0)); [exact H|now apply filter_perm]).
  clearbody c1 c2. destruct k as [k|]; [|split; [exact Hc|discriminate]].
  destruct f as [f|]; (split; [|intros n _ E; try discriminate]).
  - apply flat_map_perm.
    + unfold distinct_keys. apply tf_unique_perm. now apply Permutation_map.
    + intros key. apply top_of_perm. now apply filter_perm.
  - now rewrite (top_of_perm k _ _ Hc).
  - now rewrite (top_of_perm k _ _ Hc).
Qed.

Lemma distinct_spec l : NoDup (distinct l) /\ forall e, In e (distinct l) <-> In e l.
Proof.
  induction l as [|a l [IHn IHi]]; cbn; [split; [constructor|tauto]|].
  destruct (existsb (entry_eqb a) l) eqn:E.
  - split; [exact IHn|]. intros e. rewrite IHi. split; [now right|]. intros [->|H]; [|exact H].
    apply existsb_exists in E as (x & Hx & Ex). apply entry_eqb_eq in Ex. now subst.
  - split.
    + constructor; [|exact IHn]. rewrite IHi. intros C.
      assert (existsb (entry_eqb a) l = true) by (apply existsb_exists; exists a; split; [exact C|now apply entry_eqb_eq]). congruence.
    + intros e. cbn. rewrite IHi. tauto.
Qed.
Lemma distinct_perm l1 l2 : Permutation l1 l2 -> Permutation (distinct l1) (distinct l2).
Proof.
  intros H. destruct (distinct_spec l1) as [N1 I1], (distinct_spec l2) as [N2 I2].
  apply NoDup_Permutation; [exact N1|exact N2|]. intros e. rewrite I1, I2. split; intros Hk.
  - now apply (Permutation_in e H).
  - now apply (Permutation_in e (Permutation_sym H)).
Qed.

Lemma prune_perm p l1 l2 :
  Permutation l1 l2 ->
  Permutation (prune p l1) (prune p l2) /\ (input_is_sorted p = true -> prune p l1 = prune p l2).
Proof.
  intros H. unfold prune, input_is_sorted.
  destruct (thresholds_perm (is_string p) (frequency_threshold p) (top_k p) None l1 l2 H) as [HP HE].
  destruct (coverage p) as [[f [k thr]]|].
  - split; [|destruct (top_k p); discriminate].
    apply distinct_perm. apply Permutation_app; [exact HP|].
    now apply (thresholds_perm (is_string p) thr k (Some f) l1 l2 H).
  - split; [exact HP|]. destruct (top_k p) as [n|] eqn:E; [|discriminate]. intros _. now apply (HE n).
Qed.

(** ** The merged entries of two analyses of the same rows *)

Lemma indicator_perm weighted r1 r2 t : Permutation r1 r2 -> indicator weighted r1 t = indicator weighted r2 t.
Proof. intros H. unfold indicator. apply total_perm. apply Permutation_map. now apply filter_perm. Qed.

Lemma nodup_map {A B} (f : A -> B) l : NoDup (map f l) -> NoDup l.
Proof. apply NoDup_map_inv. Qed.

Lemma merged_perm text weighted d1 d2 m1 m2 :
  accumulate_and_merge text weighted d1 m1 -> accumulate_and_merge text weighted d2 m2 ->
  Permutation (all_rows d1) (all_rows d2) -> Permutation m1 m2.
Proof.
  intros H1 H2 HP. destruct (merged_spec _ _ _ _ H1) as [N1 I1], (merged_spec _ _ _ _ H2) as [N2 I2].
  apply NoDup_Permutation; [now apply nodup_map with (f := snd)|now apply nodup_map with (f := snd)|].
  intros [v t]. rewrite I1, I2. rewrite (indicator_perm weighted _ _ t HP).
  split; intros (Ht & Hr); (split; [|exact Hr]).
  - now apply (Permutation_in t (Permutation_map fst HP)).
  - now apply (Permutation_in t (Permutation_map fst (Permutation_sym HP))).
Qed.

(** ** Ordering *)

Lemma flat_map_filter_sorted (f : entry -> bool) leb batches :
  Permutation (flat_map (filter f) (map (py_sorted leb) batches)) (filter f (concat batches)).
Proof.
  induction batches as [|b bs IH]; cbn; [constructor|]. rewrite filter_app. apply Permutation_app; [|exact IH].
  apply filter_perm, py_sorted_perm.
Qed.
Lemma concat_sorted leb (batches : list (list entry)) : Permutation (concat (map (py_sorted leb) batches)) (concat batches).
Proof. induction batches as [|b bs IH]; cbn; [constructor|]. apply Permutation_app; [apply py_sorted_perm|exact IH]. Qed.

Section ordering.
  Variables (fmt : Qc -> string) (sha1 : string -> string) (p : params).

  Lemma sort_leb_total a b : sort_leb sha1 p a b = true \/ sort_leb sha1 p b a = true.
  Proof. unfold sort_leb. destruct (fingerprint_shuffle p); [apply bytes_leb_total|apply entry_geb_total]. Qed.
  Lemma sort_leb_trans a b c : sort_leb sha1 p a b = true -> sort_leb sha1 p b c = true -> sort_leb sha1 p a c = true.
  Proof. unfold sort_leb. destruct (fingerprint_shuffle p); [apply bytes_leb_trans|apply entry_geb_trans]. Qed.

  (** The entries are pairwise comparable in the sort order. *)
  Definition order_is_strict (l : list entry) : Prop :=
    forall a b, In a l -> In b l -> sort_leb sha1 p a b = true -> sort_leb sha1 p b a = true -> a = b.

  Definition remove_reserved (l : list entry) : list entry :=
    match reserved_tokens p with
    | Some r => filter (fun e => negb (existsb (String.eqb (snd e)) r)) l
    | None => l
    end.
  Definition add_reserved (l : list entry) : list entry :=
    match reserved_tokens p with Some r => map (fun t => (Q2Qc (-1), t)) r ++ l | None => l end.

  Lemma order_elements_eq batches pruned :
    Permutation (concat batches) pruned -> order_is_strict pruned ->
    order_elements sha1 p (map (py_sorted (sort_leb sha1 p)) batches)
    = maybe_add_dummy (is_string p) (add_reserved (py_sorted (sort_leb sha1 p) (remove_reserved pruned))).
  Proof.
    intros HP HS. unfold order_elements, add_reserved. f_equal.
    assert (E : py_sorted (sort_leb sha1 p)
       match reserved_tokens p with
       | Some r => flat_map (filter (fun e => negb (existsb (String.eqb (snd e)) r))) (map (py_sorted (sort_leb sha1 p)) batches)
       | None => concat (map (py_sorted (sort_leb sha1 p)) batches)
       end = py_sorted (sort_leb sha1 p) (remove_reserved pruned)).
    { symmetry. apply py_sorted_perm_eq; [exact sort_leb_total|exact sort_leb_trans| |].
      - unfold remove_reserved. symmetry. destruct (reserved_tokens p) as [r|].
        + rewrite flat_map_filter_sorted. now apply filter_perm.
        + rewrite concat_sorted. exact HP.
      - intros a b Ha Hb. apply HS.
        + unfold remove_reserved in Ha. destruct (reserved_tokens p); [now apply filter_In in Ha|exact Ha].
        + unfold remove_reserved in Hb. destruct (reserved_tokens p); [now apply filter_In in Hb|exact Hb]. }
    destruct (reserved_tokens p); now rewrite E.
  Qed.

  (** What is written, as a function of the pruned entries. *)
  Definition written (pruned : list entry) : list entry :=
    match input_is_sorted p, reserved_tokens p with
    | true, None => pruned
    | _, _ => maybe_add_dummy (is_string p) (add_reserved (py_sorted (sort_leb sha1 p) (remove_reserved pruned)))
    end.

  Lemma ordered_entries_written pruned entries :
    order_is_strict pruned -> ordered_entries sha1 p pruned entries -> entries = written pruned.
  Proof.
    intros HS. unfold ordered_entries, written.
    destruct (input_is_sorted p); [destruct (reserved_tokens p) eqn:E|].
    - intros (bs & HP & ->). now apply order_elements_eq.
    - trivial.
    - intros (bs & HP & ->). now apply order_elements_eq.
  Qed.

  Lemma written_perm m1 m2 :
    Permutation m1 m2 -> order_is_strict (prune p m1) -> written (prune p m1) = written (prune p m2).
  Proof.
    intros HP HS. destruct (prune_perm p m1 m2 HP) as [HQ HE]. unfold written.
    assert (G : maybe_add_dummy (is_string p) (add_reserved (py_sorted (sort_leb sha1 p) (remove_reserved (prune p m1))))
       = maybe_add_dummy (is_string p) (add_reserved (py_sorted (sort_leb sha1 p) (remove_reserved (prune p m2))))).
    { do 2 f_equal. apply py_sorted_perm_eq; [exact sort_leb_total|exact sort_leb_trans| |].
      - unfold remove_reserved. destruct (reserved_tokens p); [now apply filter_perm|exact HQ].
      - intros a b Ha Hb. apply HS.
        + unfold remove_reserved in Ha. destruct (reserved_tokens p); [now apply filter_In in Ha|exact Ha].
        + unfold remove_reserved in Hb. destruct (reserved_tokens p); [now apply filter_In in Hb|exact Hb]. }
    destruct (input_is_sorted p); [destruct (reserved_tokens p)|]; auto.
  Qed.
End ordering.

(** ** Entries and rankings *)

Lemma filtered_out_one_line text t : filtered_out text t = false <-> (text = true -> one_line t).
Proof.
  unfold filtered_out, one_line. destruct text; cbn [andb]; [|split; [discriminate|reflexivity]].
  assert (C : forall c s, contains c s = false <-> ~ In c (list_ascii_of_string s)).
  { intros c s. induction s as [|a s IH]; cbn; [tauto|]. rewrite orb_false_iff, IH. rewrite Ascii.eqb_neq. tauto. }
  rewrite !orb_false_iff, !C, String.eqb_neq. tauto.
Qed.

Lemma ltb_leb t u : t <> u -> bytes_leb t u = true -> String.ltb t u = true.
Proof.
  unfold bytes_leb, String.leb, String.ltb. intros Hn. destruct (String.compare t u) eqn:E; auto.
  apply String.compare_eq_iff in E. contradiction.
Qed.
Lemma ltb_irrefl t : String.ltb t t = false.
Proof.
  unfold String.ltb. destruct (String.compare t t) eqn:E; try reflexivity.
  pose proof (String.compare_antisym t t) as H. rewrite E in H. discriminate.
Qed.

Lemma strongly_sorted_app {A} (R : A -> A -> Prop) l1 l2 :
  StronglySorted R (l1 ++ l2) <-> StronglySorted R l1 /\ StronglySorted R l2 /\ forall x y, In x l1 -> In y l2 -> R x y.
Proof.
  induction l1 as [|a l1 IH]; cbn.
  - split; [intros H; repeat split; [constructor|exact H|tauto]|tauto].
  - split.
    + intros H. inversion H; subst. apply IH in H2 as (H1 & H4 & H5).
      apply Forall_app in H3 as [H3 H3']. rewrite Forall_forall in H3'. repeat split; [now constructor|exact H4|].
      intros x y [<-|Hx] Hy; [now apply H3'|now apply H5].
    + intros (H1 & H2 & H3). inversion H1; subst. constructor; [apply IH; repeat split; auto|].
      apply Forall_app. split; [assumption|]. apply Forall_forall. intros y Hy. apply H3; auto.
Qed.

Section ranking.
  Variable ind : string -> Qc.
  (** Entries carry their token's indicator, and tokens are distinct. *)
  Definition well_formed (l : list entry) : Prop := NoDup (map snd l) /\ forall v t, In (v, t) l -> v = ind t.

  Lemma geb_comes_before a b : snd a <> snd b -> fst a = ind (snd a) -> fst b = ind (snd b) ->
    entry_geb a b = true <-> comes_before ind (snd a) (snd b).
  Proof.
    unfold entry_geb, entry_leb, comes_before. destruct a as [x t], b as [y u]; cbn. intros Hn -> ->.
    destruct (qc_leb (ind u) (ind t)) eqn:E1.
    - destruct (qc_leb (ind t) (ind u)) eqn:E2.
      + split.
        * intros H. right. split; [now apply qc_leb_antisym|]. apply ltb_leb; auto.
        * intros [H|[_ H]].
          -- apply qc_leb_le in E2. exfalso. exact (Qclt_not_le _ _ H E2).
          -- unfold bytes_leb, String.leb. unfold String.ltb in H. now destruct (String.compare u t).
      + apply qc_leb_false in E2. split; [now left|reflexivity].
    - apply qc_leb_false in E1. split; [discriminate|]. intros [H|[H _]].
      + exfalso. exact (Qclt_not_le _ _ H (Qclt_le_weak _ _ E1)).
      + rewrite H in E1. exfalso. exact (Qclt_not_le _ _ E1 (Qcle_refl _)).
  Qed.

  Lemma well_formed_perm l1 l2 : Permutation l1 l2 -> well_formed l1 -> well_formed l2.
  Proof.
    intros HP [H1 H2]. split.
    - now apply (Permutation_NoDup (Permutation_map snd HP)).
    - intros v t H. apply H2. now apply (Permutation_in _ (Permutation_sym HP)).
  Qed.
  Lemma well_formed_incl l1 l2 : well_formed l2 -> NoDup l1 -> incl l1 l2 -> well_formed l1.
  Proof.
    intros [H1 H2] HN HI. split; [|intros v t H; now apply H2, HI].
    induction HN as [|[v t] l Hn HN IH]; cbn; [constructor|]. constructor; [|apply IH; intros x Hx; apply HI; now right].
    intros C. apply in_map_iff in C as ([w u] & E & Hu). cbn in E. subst u. apply Hn.
    rewrite (H2 v t) by (apply HI; now left). now rewrite <- (H2 w t) by (apply HI; now right).
  Qed.

  Lemma sorted_strict l : well_formed l -> StronglySorted (fun a b => entry_geb a b = true) l ->
    StronglySorted (comes_before ind) (map snd l).
  Proof.
    intros [HN HI] HS. induction HS as [|a l HS IH HF]; cbn; [constructor|].
    inversion HN; subst. constructor.
    - apply IH; [assumption|]. intros v t H. apply HI. now right.
    - apply Forall_forall. intros u Hu. apply in_map_iff in Hu as (b & <- & Hb).
      apply geb_comes_before.
      + intros E. apply H1. rewrite E. now apply in_map.
      + apply HI. left. now destruct a.
      + apply HI. right. now destruct b.
      + rewrite Forall_forall in HF. now apply HF.
  Qed.

  Lemma ranking_of_entries l P :
    well_formed l -> (forall t, In t (map snd l) <-> P t) -> is_ranking ind P (map snd (py_sorted entry_geb l)).
  Proof.
    intros HW HP. split.
    - apply sorted_strict; [|now apply py_sorted_sorted; [exact entry_geb_total|exact entry_geb_trans]].
      apply (well_formed_perm l); [symmetry; apply py_sorted_perm|exact HW].
    - intros t. rewrite <- HP. split; apply Permutation_in; [|symmetry]; apply Permutation_map, py_sorted_perm.
  Qed.

  Lemma entries_of_tokens l : well_formed l -> l = map (fun t => (ind t, t)) (map snd l).
  Proof.
    intros [_ H]. rewrite map_map. rewrite <- map_id at 1. apply map_ext_in. intros [v t] Hi. cbn. now rewrite (H v t Hi).
  Qed.

  Lemma well_formed_nodup l : well_formed l -> NoDup l.
  Proof. intros [H _]. now apply NoDup_map_inv with (f := snd). Qed.

  (** Membership in the first [k] of a sorted list. *)
  Lemma firstn_sorted_in k l e :
    well_formed l -> In e (firstn k (py_sorted entry_geb l)) <->
    In e l /\ (length (filter (fun x => entry_geb x e && negb (entry_eqb x e)) l) < k)%nat.
  Proof.
    intros HW. set (s := py_sorted entry_geb l).
    assert (HP : Permutation s l) by apply py_sorted_perm.
    assert (HS : StronglySorted (fun a b => entry_geb a b = true) s)
      by (apply py_sorted_sorted; [exact entry_geb_total|exact entry_geb_trans]).
    assert (HN : NoDup s) by (apply (Permutation_NoDup (Permutation_sym HP)); now apply well_formed_nodup).
    rewrite <- (Permutation_length (filter_perm _ _ _ HP)).
    assert (Hi : In e l <-> In e s) by (split; apply Permutation_in; [symmetry|]; exact HP). rewrite Hi. clear Hi HP HW.
    clearbody s. clear l. revert k. induction s as [|a s IH]; intros k; [destruct k; cbn; intuition lia|].
    inversion HS as [|? ? HS' HF]; subst. inversion HN as [|? ? Hna HN']; subst.
    rewrite Forall_forall in HF.
    destruct k as [|k]; [cbn [firstn]; split; [intros []|intros [_ H]; lia]|].
    cbn [firstn In filter].
    destruct (entry_eqb a e) eqn:E.
    - apply entry_eqb_eq in E. subst e. split; [|auto]. intros _. split; [now left|].
      rewrite andb_false_r.
      assert (Z : filter (fun x => entry_geb x a && negb (entry_eqb x a)) s = []).
      { destruct (filter _ s) as [|x r] eqn:Ef; [reflexivity|]. exfalso.
        assert (Hx : In x (filter (fun x => entry_geb x a && negb (entry_eqb x a)) s)) by (rewrite Ef; now left).
        apply filter_In in Hx as [Hx Hb]. apply andb_true_iff in Hb as [Hb Hc].
        assert (x = a) by (apply entry_geb_antisym; [exact Hb|now apply HF]). subst. contradiction. }
      rewrite Z. cbn. lia.
    - assert (Hae : a <> e) by (intros ->; rewrite (proj2 (entry_eqb_eq e e) eq_refl) in E; discriminate).
      cbn [negb]. rewrite andb_true_r. specialize (IH HS' HN' k). split.
      + intros [?|H]; [contradiction|]. apply IH in H as [H1 H2]. split; [now right|].
        rewrite (HF e H1). cbn [length]. lia.
      + intros [[?|H1] H2]; [contradiction|]. right. apply IH. split; [exact H1|].
        rewrite (HF e H1) in H2. cbn [length] in H2. lia.
  Qed.

  Lemma top_of_among_first k l P v t :
    well_formed l -> (forall u, In u (map snd l) <-> P u) ->
    In (v, t) (top_of k l) <-> v = ind t /\ among_first ind P k t.
  Proof.
    intros HW HP. unfold top_of. rewrite firstn_sorted_in by exact HW.
    assert (HB : forall u, In u (map snd (filter (fun x => entry_geb x (ind t, t) && negb (entry_eqb x (ind t, t))) l))
                  <-> P u /\ comes_before ind u t).
    { intros u. rewrite in_map_iff. split.
      - intros ([w u'] & E & Hx). cbn in E. subst u'. apply filter_In in Hx as [Hx Hb].
        split; [apply HP; apply in_map_iff; now exists (w, u)|].
        apply andb_true_iff in Hb as [Hb Hc]. apply negb_true_iff in Hc.
        pose proof (proj2 HW w u Hx) as ->.
        apply (geb_comes_before (ind u, u) (ind t, t)); auto.
        cbn. intros ->. rewrite (proj2 (entry_eqb_eq _ _) eq_refl) in Hc. discriminate.
      - intros [Hu Hb]. apply HP in Hu. apply in_map_iff in Hu as ([w u'] & E & Hx). cbn in E. subst u'.
        exists (w, u). split; [reflexivity|]. apply filter_In. split; [exact Hx|].
        pose proof (proj2 HW w u Hx) as ->.
        assert (u <> t).
        { intros ->. destruct Hb as [Hb|[_ Hb]]; [exact (Qclt_not_le _ _ Hb (Qcle_refl _))|]. now rewrite ltb_irrefl in Hb. }
        apply andb_true_iff. split; [now apply (geb_comes_before (ind u, u) (ind t, t))|].
        apply negb_true_iff. destruct (entry_eqb (ind u, u) (ind t, t)) eqn:E; [|reflexivity].
        apply entry_eqb_eq in E. congruence. }
    split.
    - intros [Hi Hl]. pose proof (proj2 HW v t Hi) as ->. split; [reflexivity|]. split; [apply HP, in_map_iff; now exists (ind t, t)|].
      eexists. split; [|split; [exact HB|now rewrite map_length]].
      destruct HW as [HN _]. clear -HN. induction l as [|a l IH]; cbn in *; [constructor|].
      inversion HN; subst. destruct (entry_geb _ _ && _); cbn; [|auto]. constructor; [|auto].
      intros C. apply H1. apply in_map_iff in C as (x & E & Hx). apply filter_In in Hx as [Hx _]. rewrite <- E. now apply in_map.
    - intros [-> [Hp (better & Hn & Hb & Hl)]].
      assert (Hi : In (ind t, t) l).
      { apply HP in Hp. apply in_map_iff in Hp as ([w t'] & E & Hi). cbn in E. subst t'. now rewrite <- (proj2 HW w t Hi). }
      split; [exact Hi|]. eapply Nat.le_lt_trans; [|exact Hl].
      rewrite <- (map_length snd). apply NoDup_incl_length.
      + destruct HW as [HN _]. clear -HN. induction l as [|a l IH]; cbn in *; [constructor|].
        inversion HN; subst. destruct (entry_geb _ _ && _); cbn; [|auto]. constructor; [|auto].
        intros C. apply H1. apply in_map_iff in C as (x & E & Hx). apply filter_In in Hx as [Hx _]. rewrite <- E. now apply in_map.
      + intros u Hu. apply Hb. now apply HB.
  Qed.
End ranking.

(** ** The vocabulary *)

Definition passing (thr : Qc) (m : list entry) : list entry :=
  if qc_leb thr (Q2Qc 0) then m else filter (fun e => qc_leb thr (fst e)) m.

Lemma firstn_In {A} (x : A) n l : In x (firstn n l) -> In x l.
Proof. revert l. induction n as [|n IH]; intros [|a l]; cbn; try tauto. intros [->|H]; [now left|right; now apply IH]. Qed.

Section run.
  Variables (text weighted : bool) (datasets : list (list (list (string * Qc)))) (m : list entry).
  Hypothesis HM : accumulate_and_merge text weighted datasets m.
  Let rs := all_rows datasets.
  Let ind := indicator weighted rs.

  Lemma merged_well_formed : well_formed ind m.
  Proof.
    destruct (merged_spec _ _ _ _ HM) as [HN HI]. split; [exact HN|]. intros v t H. now apply HI in H.
  Qed.

  Lemma passing_well_formed thr : well_formed ind (passing thr m).
  Proof.
    unfold passing. destruct (qc_leb thr (Q2Qc 0)); [exact merged_well_formed|].
    apply (well_formed_incl ind _ m merged_well_formed).
    - apply NoDup_filter. apply (well_formed_nodup ind), merged_well_formed.
    - intros e He. now apply filter_In in He.
  Qed.

  Lemma passing_eligible thr t : (0 <= thr)%Qc -> In t (map snd (passing thr m)) <-> eligible text weighted thr rs t.
  Proof.
    intros H0. destruct (merged_spec _ _ _ _ HM) as [HN HI]. unfold eligible, passing.
    assert (Hm : In t (map snd m) <-> In t (map fst rs) /\ (text = true -> one_line t)).
    { rewrite in_map_iff, <- filtered_out_one_line. split.
      - intros ([v t'] & E & H). cbn in E. subst t'. apply HI in H. unfold rs. tauto.
      - intros [H1 H2]. exists (ind t, t). split; [reflexivity|]. apply HI. repeat split; auto. }
    destruct (qc_leb thr (Q2Qc 0)) eqn:E.
    - rewrite Hm. apply qc_leb_le in E. assert (thr = Q2Qc 0) by now apply Qcle_antisym. tauto.
    - apply qc_leb_false in E. rewrite in_map_iff. split.
      + intros ([v t'] & Et & H). cbn in Et. subst t'. apply filter_In in H as [H Hq]. cbn in Hq. apply qc_leb_le in Hq.
        pose proof H as H'. apply HI in H' as (H1 & H2 & ->). split; [exact H1|]. split; [now apply filtered_out_one_line|]. now right.
      + intros (H1 & H2 & [H3|H3]); [rewrite H3 in E; exfalso; exact (Qclt_not_le _ _ E (Qcle_refl _))|].
        exists (ind t, t). split; [reflexivity|]. apply filter_In. split; [|cbn; now apply qc_leb_le].
        apply HI. repeat split; auto. now apply filtered_out_one_line.
  Qed.

  Definition ranked (thr : Qc) : list string := map snd (py_sorted entry_geb (passing thr m)).

  Lemma ranked_is_ranking thr : (0 <= thr)%Qc -> is_ranking ind (eligible text weighted thr rs) (ranked thr).
  Proof. intros H0. apply ranking_of_entries; [apply passing_well_formed|]. intros t. now apply passing_eligible. Qed.

  Lemma sorted_passing thr : py_sorted entry_geb (passing thr m) = map (fun t => (ind t, t)) (ranked thr).
  Proof.
    apply entries_of_tokens. apply (well_formed_perm ind (passing thr m)); [symmetry; apply py_sorted_perm|apply passing_well_formed].
  Qed.

  Lemma standard_arm s thr k :
    Permutation (apply_thresholds_and_top_k s thr k None m)
      (match k with None => map (fun t => (ind t, t)) (ranked thr)
                  | Some k => maybe_add_dummy s (map (fun t => (ind t, t)) (firstn k (ranked thr))) end) /\
    (forall n, k = Some n -> apply_thresholds_and_top_k s thr k None m = maybe_add_dummy s (map (fun t => (ind t, t)) (firstn n (ranked thr)))).
  Proof.
    unfold apply_thresholds_and_top_k. fold (passing thr m). destruct k as [k|].
    - assert (E : maybe_add_dummy s (top_of k (passing thr m)) = maybe_add_dummy s (map (fun t => (ind t, t)) (firstn k (ranked thr)))).
      { f_equal. unfold top_of. rewrite sorted_passing. apply firstn_map. }
      split; [now rewrite E|]. intros n [= <-]. exact E.
    - split; [|discriminate]. rewrite <- sorted_passing. symmetry. apply py_sorted_perm.
  Qed.
End run.

Lemma ranking_unique f P l1 l2 : is_ranking f P l1 -> is_ranking f P l2 -> l1 = l2.
Proof.
  intros [S1 I1] [S2 I2].
  assert (Irr : forall t, ~ comes_before f t t).
  { intros t [H|[_ H]]; [exact (Qclt_not_le _ _ H (Qcle_refl _))|]. now rewrite ltb_irrefl in H. }
  assert (Asym : forall t u, comes_before f t u -> comes_before f u t -> False).
  { intros t u [H1|[E1 H1]] [H2|[E2 H2]].
    - exact (Qclt_not_le _ _ H1 (Qclt_le_weak _ _ H2)).
    - rewrite E2 in H1. exact (Qclt_not_le _ _ H1 (Qcle_refl _)).
    - rewrite E1 in H2. exact (Qclt_not_le _ _ H2 (Qcle_refl _)).
    - unfold String.ltb in *. rewrite String.compare_antisym in H1. destruct (String.compare t u); cbn in *; discriminate. }
  assert (HI : forall t, In t l1 <-> In t l2) by (intros t; rewrite I1, I2; reflexivity). clear I1 I2 P.
  revert l2 S2 HI. induction S1 as [|a l1 S1 IH HF]; intros l2 S2 HI.
  - destruct l2 as [|b l2]; [reflexivity|]. destruct (proj2 (HI b)). now left.
  - destruct S2 as [|b l2 S2 HF2]; [destruct (proj1 (HI a)); now left|].
    rewrite Forall_forall in HF, HF2.
    assert (a = b).
    { destruct (proj1 (HI a)) as [E|Ha]; [now left|auto|]. destruct (proj2 (HI b)) as [E|Hb]; [now left|auto|].
      exfalso. exact (Asym _ _ (HF _ Hb) (HF2 _ Ha)). }
    subst b. f_equal. apply IH; [exact S2|]. intros t. split; intros Ht.
    + destruct (proj1 (HI t)) as [E|H]; [now right| |exact H]. subst. destruct (Irr t). now apply HF.
    + destruct (proj2 (HI t)) as [E|H]; [now right| |exact H]. subst. destruct (Irr t). now apply HF2.
Qed.

Lemma sort_leb_default sha1 p : fingerprint_shuffle p = false -> sort_leb sha1 p = entry_geb.
Proof. unfold sort_leb. now intros ->. Qed.

Lemma strict_default sha1 p l : fingerprint_shuffle p = false -> order_is_strict sha1 p l.
Proof. intros H a b _ _. rewrite (sort_leb_default sha1 p H). apply entry_geb_antisym. Qed.

Lemma dummy_or_map s (f : string -> entry) l : maybe_add_dummy s (map f l) = match l with [] => [dummy_entry s] | _ => map f l end.
Proof. now destruct l. Qed.

(** A ranking of tokens sorts to itself. *)
Lemma sort_ranked (ind : string -> Qc) l l' :
  StronglySorted (comes_before ind) l' -> Permutation l (map (fun t => (ind t, t)) l') -> py_sorted entry_geb l = map (fun t => (ind t, t)) l'.
Proof.
  intros HS HP. apply (sorted_unique entry_geb).
  - apply py_sorted_sorted; [exact entry_geb_total|exact entry_geb_trans].
  - clear HP. induction HS as [|a l' HS IH HF]; cbn; constructor; [exact IH|].
    rewrite Forall_forall in *. intros e He. apply in_map_iff in He as (t & <- & Ht).
    pose proof (HF t Ht) as HB. apply (geb_comes_before ind); auto.
    cbn. intros ->. destruct HB as [HB|[_ HB]]; [exact (Qclt_not_le _ _ HB (Qcle_refl _))|]. now rewrite ltb_irrefl in HB.
  - rewrite py_sorted_perm. exact HP.
  - intros x y _ _. apply entry_geb_antisym.
Qed.

Lemma format_entries fmt store ind l :
  map (format_entry fmt store) (map (fun t => (ind t, t)) l) = map (line_of fmt store ind) l.
Proof. rewrite map_map. reflexivity. Qed.

(** Without coverage, reserved tokens and shuffling. *)
Lemma vocabulary_exact fmt sha1 p datasets lines size :
  valid_params p -> coverage p = None -> reserved_tokens p = None -> fingerprint_shuffle p = false ->
  vocabulary fmt sha1 p datasets lines size ->
  let rs := all_rows datasets in
  let ind := indicator (is_weighted p) rs in
  exists l, is_ranking ind (eligible (is_string p && is_text p) (is_weighted p) (frequency_threshold p) rs) l /\
    let selected := first_of (top_k p) l in
    lines = match selected with
            | [] => [format_entry fmt (store_frequency p) (dummy_entry (is_string p))]
            | _ => map (line_of fmt (store_frequency p) ind) selected
            end /\
    size = Nat.max (length selected) 1.
Proof.
  intros (Vk & Vf & _) HC HR HF (m & entries & HM & HO & -> & ->). cbv zeta.
  set (text := is_string p && is_text p) in *. set (rs := all_rows datasets). set (ind := indicator (is_weighted p) rs).
  set (L := ranked m (frequency_threshold p)).
  exists L. split; [apply (ranked_is_ranking _ _ _ _ HM _ Vf)|].
  rewrite HR. rewrite Nat.add_0_r.
  apply ordered_entries_written in HO; [|now apply strict_default].
  destruct (standard_arm _ _ _ _ HM (is_string p) (frequency_threshold p) (top_k p)) as [SP SE].
  fold rs ind L in SP, SE.
  unfold prune in *. rewrite HC in *. unfold written, input_is_sorted in HO. rewrite HC, HF, HR in HO.
  assert (RL : StronglySorted (comes_before ind) L) by apply (ranked_is_ranking _ _ _ _ HM _ Vf).
  destruct (top_k p) as [k|] eqn:Ek; cbn [first_of].
  - rewrite (SE k eq_refl) in *. cbn [negb] in HO. subst entries.
    rewrite dummy_or_map. destruct (firstn k L) as [|t0 l0] eqn:EF; [split; reflexivity|].
    split; [apply format_entries|]. rewrite map_length. reflexivity.
  - rewrite (sort_leb_default sha1 p HF) in HO. unfold add_reserved, remove_reserved in HO. rewrite HR in HO.
    cbn [negb andb] in HO. rewrite (sort_ranked ind _ L RL SP) in HO. subst entries. rewrite dummy_or_map. split.
    + destruct L; [reflexivity|]. apply format_entries.
    + rewrite (Permutation_length SP), map_length. reflexivity.
Qed.

(** With shuffling: the same tokens, ordered by fingerprint. *)
Lemma vocabulary_fingerprint fmt sha1 p datasets lines size :
  valid_params p -> coverage p = None -> reserved_tokens p = None -> fingerprint_shuffle p = true ->
  fingerprints_distinct sha1 (map fst (all_rows datasets)) ->
  vocabulary fmt sha1 p datasets lines size ->
  let rs := all_rows datasets in
  let ind := indicator (is_weighted p) rs in
  exists l, is_ranking ind (eligible (is_string p && is_text p) (is_weighted p) (frequency_threshold p) rs) l /\
    let selected := first_of (top_k p) l in
    size = Nat.max (length selected) 1 /\
    (selected = [] -> lines = [format_entry fmt (store_frequency p) (dummy_entry (is_string p))]) /\
    (selected <> [] -> exists shuffled, Permutation shuffled selected /\
       StronglySorted (fun t u => bytes_leb (sha1 t) (sha1 u) = true) shuffled /\
       lines = map (line_of fmt (store_frequency p) ind) shuffled).
Proof.
  intros (Vk & Vf & _) HC HR HF HD (m & entries & HM & HO & -> & ->). cbv zeta.
  set (text := is_string p && is_text p) in *. set (rs := all_rows datasets) in *. set (ind := indicator (is_weighted p) rs).
  set (L := ranked m (frequency_threshold p)).
  exists L. pose proof (ranked_is_ranking _ _ _ _ HM _ Vf) as RL. fold rs ind L in RL. split; [exact RL|].
  rewrite HR. rewrite Nat.add_0_r.
  set (S := first_of (top_k p) L).
  assert (SP : Permutation (prune p m) (maybe_add_dummy (is_string p) (map (fun t => (ind t, t)) S)) /\ S <> [] \/
               S = [] /\ (prune p m = [] \/ prune p m = [dummy_entry (is_string p)])).
  { destruct (standard_arm _ _ _ _ HM (is_string p) (frequency_threshold p) (top_k p)) as [SP SE]. fold rs ind L in SP, SE.
    unfold prune. rewrite HC. subst S. destruct (top_k p) as [k|]; cbn [first_of] in *.
    - rewrite (SE k eq_refl). destruct (firstn k L); [right|left]; cbn; auto. split; [reflexivity|discriminate].
    - destruct L; [right|left].
      + split; [reflexivity|]. left. cbn in SP. symmetry in SP. now apply Permutation_nil in SP.
      + split; [exact SP|discriminate]. }
  assert (HS : order_is_strict sha1 p (prune p m)).
  { intros a b Ha Hb. unfold sort_leb. rewrite HF. intros H1 H2.
    pose proof (bytes_leb_antisym _ _ H1 H2) as E.
    destruct SP as [[SP Hne]|[_ [E0|E0]]]; [|rewrite E0 in Ha; destruct Ha|rewrite E0 in Ha, Hb; destruct Ha as [<-|[]], Hb as [<-|[]]; reflexivity].
    rewrite dummy_or_map in SP. destruct S as [|t0 S0] eqn:ES; [congruence|].
    apply (Permutation_in _ SP) in Ha, Hb. apply in_map_iff in Ha as (t & <- & Ht). apply in_map_iff in Hb as (u & <- & Hu).
    cbn in E. assert (t = u); [|now subst]. apply HD; [| |exact E].
    - assert (Hin : In t L) by (rewrite <- ES in Ht; subst S; destruct (top_k p); cbn in Ht; [exact (firstn_In _ _ _ Ht)|exact Ht]).
      apply RL in Hin. now destruct Hin.
    - assert (Hin : In u L) by (rewrite <- ES in Hu; subst S; destruct (top_k p); cbn in Hu; [exact (firstn_In _ _ _ Hu)|exact Hu]).
      apply RL in Hin. now destruct Hin. }
  apply (ordered_entries_written sha1 p) in HO; [|exact HS].
  assert (IS : input_is_sorted p = false) by (unfold input_is_sorted; rewrite HF; destruct (top_k p), (coverage p); reflexivity).
  unfold written, add_reserved, remove_reserved in HO. rewrite IS, HR in HO.
  destruct SP as [[SP Hne]|[ES E0]].
  - rewrite dummy_or_map in SP. destruct S as [|t0 S0] eqn:ES; [congruence|]. rewrite <- ES in *.
    split; [rewrite (Permutation_length SP), map_length; reflexivity|]. split; [rewrite ES; discriminate|]. intros _.
    assert (HQ : Permutation (py_sorted (sort_leb sha1 p) (prune p m)) (map (fun t => (ind t, t)) S))
      by (rewrite py_sorted_perm; exact SP).
    apply Permutation_map_inv in HQ as (T & ET & HT).
    exists T. split; [now symmetry|].
    rewrite ET in HO. rewrite dummy_or_map in HO.
    assert (HTn : T <> []) by (intros ->; apply Permutation_sym, Permutation_nil in HT; congruence).
    split.
    + pose proof (py_sorted_sorted (sort_leb sha1 p) (sort_leb_total sha1 p) (sort_leb_trans sha1 p) (prune p m)) as HSo.
      rewrite ET in HSo. unfold sort_leb in HSo. rewrite HF in HSo. clear -HSo.
      induction T as [|t T IH]; [constructor|]. cbn in HSo. inversion HSo as [|? ? H1 H2]; subst. constructor; [now apply IH|].
      rewrite Forall_forall in *. intros u Hu. apply (H2 (ind u, u)). apply in_map_iff. now exists u.
    + destruct T; [congruence|]. subst entries. apply format_entries.
  - split; [rewrite ES; destruct E0 as [E0|E0]; rewrite E0; reflexivity|]. split; [|congruence]. intros _.
    destruct E0 as [E0|E0]; rewrite E0 in HO; cbn in HO; now subst entries.
Qed.

(** ** Coverage *)

Lemma coverage_arm text weighted datasets m s f k thr v t :
  accumulate_and_merge text weighted datasets m -> (0 <= thr)%Qc ->
  let rs := all_rows datasets in
  In (v, t) (apply_thresholds_and_top_k s thr k (Some f) m) <->
  v = indicator weighted rs t /\ covered text weighted f k thr rs t.
Proof.
  intros HM H0. cbv zeta. set (rs := all_rows datasets). set (ind := indicator weighted rs).
  pose proof (passing_well_formed _ _ _ _ HM thr) as HW. fold rs ind in HW.
  assert (HE : forall u, In u (map snd (passing thr m)) <-> eligible text weighted thr rs u)
    by (intros u; now apply (passing_eligible _ _ _ _ HM)).
  unfold apply_thresholds_and_top_k, covered. fold (passing thr m). destruct k as [k|].
  - rewrite in_flat_map.
    assert (HK : forall key, (forall u, In u (map snd (filter (fun e => String.eqb key (f (snd e))) (passing thr m)))
                   <-> eligible text weighted thr rs u /\ f u = key)).
    { intros key u. rewrite <- HE. rewrite !in_map_iff. split.
      - intros (e & <- & He). apply filter_In in He as [He Hk]. apply String.eqb_eq in Hk. split; [now exists e|now symmetry].
      - intros [(e & <- & He) Hk]. exists e. split; [reflexivity|]. apply filter_In. split; [exact He|]. apply String.eqb_eq. now symmetry. }
    assert (HWk : forall key, well_formed ind (filter (fun e => String.eqb key (f (snd e))) (passing thr m))).
    { intros key. apply (well_formed_incl ind _ (passing thr m) HW).
      - apply NoDup_filter. now apply (well_formed_nodup ind).
      - intros e He. now apply filter_In in He. }
    split.
    + intros (key & _ & Hi). apply (top_of_among_first ind k _ _ v t (HWk key) (HK key)) in Hi as [-> Ha].
      split; [reflexivity|]. assert (key = f t) by (symmetry; apply Ha). subst key. exact Ha.
    + intros [-> Ha]. exists (f t). split.
      * unfold distinct_keys. apply (tf_unique_spec _ []). split; [|auto].
        destruct Ha as [[Ha _] _]. apply HE in Ha. apply in_map_iff in Ha as (e & <- & He).
        apply in_map_iff. now exists e.
      * now apply (top_of_among_first ind k _ _ (ind t) t (HWk (f t)) (HK (f t))).
  - split.
    + intros Hi. split; [now apply (proj2 HW)|]. apply HE, in_map_iff. now exists (v, t).
    + intros [-> Hi]. apply HE in Hi. apply in_map_iff in Hi as ([w u] & E & Hi). cbn in E. subst u.
      fold ind. now rewrite <- (proj2 HW w t Hi).
Qed.

Lemma filter_sorted {A} (R : A -> A -> Prop) f l : StronglySorted R l -> StronglySorted R (filter f l).
Proof.
  induction 1 as [|a l HS IH HF]; cbn; [constructor|]. destruct (f a); [|exact IH]. constructor; [exact IH|].
  rewrite Forall_forall in *. intros y Hy. apply filter_In in Hy as [Hy _]. now apply HF.
Qed.
Lemma first_of_sorted R k l : StronglySorted R l -> StronglySorted R (first_of k l).
Proof.
  destruct k as [k|]; cbn; [|trivial]. intros H. rewrite <- (firstn_skipn k l) in H. now apply strongly_sorted_app in H.
Qed.
Lemma first_of_In k l t : In t (first_of k l) -> In t l.
Proof. destruct k; cbn; [apply firstn_In|trivial]. Qed.

(** The entries kept by the first arm come before all other admissible tokens. *)
Lemma standard_first text weighted rs thr k l t u :
  is_ranking (indicator weighted rs) (eligible text weighted thr rs) l ->
  In t (first_of k l) -> ~ In u (first_of k l) -> In u (map fst rs) -> (text = true -> one_line u) ->
  comes_before (indicator weighted rs) t u.
Proof.
  intros [HS HI] Ht Hu Hr Ho. set (ind := indicator weighted rs) in *.
  destruct (Qclt_le_dec (ind u) thr) as [Hlt|Hle].
  - destruct (proj1 (HI t) (first_of_In _ _ _ Ht)) as (_ & _ & [E|E]).
    + destruct k as [k|]; cbn [first_of] in *.
      * assert (Hul : In u l) by (apply HI; split; [exact Hr|]; split; [exact Ho|]; auto).
        rewrite <- (firstn_skipn k l) in Hul, HS. apply in_app_or in Hul as [?|Hul]; [contradiction|].
        apply strongly_sorted_app in HS as (_ & _ & HS). now apply HS.
      * destruct Hu. apply HI. split; [exact Hr|]; split; [exact Ho|]; auto.
    + left. eapply Qclt_le_trans; [exact Hlt|exact E].
  - assert (Hul : In u l) by (apply HI; split; [exact Hr|]; split; [exact Ho|]; auto).
    destruct k as [k|]; cbn [first_of] in *; [|contradiction].
    rewrite <- (firstn_skipn k l) in Hul, HS. apply in_app_or in Hul as [?|Hul]; [contradiction|].
    apply strongly_sorted_app in HS as (_ & _ & HS). now apply HS.
Qed.

Lemma covered_eligible text weighted f k thr rs t : covered text weighted f k thr rs t -> eligible text weighted thr rs t.
Proof. unfold covered. destruct k; [|trivial]. intros [[H _] _]. exact H. Qed.

Lemma vocabulary_coverage fmt sha1 p f k thr datasets lines size :
  valid_params p -> coverage p = Some (f, (k, thr)) -> reserved_tokens p = None -> fingerprint_shuffle p = false ->
  vocabulary fmt sha1 p datasets lines size ->
  let rs := all_rows datasets in
  let ind := indicator (is_weighted p) rs in
  let text := is_string p && is_text p in
  forall l, is_ranking ind (eligible text (is_weighted p) (frequency_threshold p) rs) l ->
  let standard := first_of (top_k p) l in
  top_k p = None \/ standard <> [] ->
  exists extra,
    StronglySorted (comes_before ind) (standard ++ extra) /\
    (forall t, In t (standard ++ extra) <-> In t standard \/ covered text (is_weighted p) f k thr rs t) /\
    lines = match standard ++ extra with
            | [] => [format_entry fmt (store_frequency p) (dummy_entry (is_string p))]
            | ts => map (line_of fmt (store_frequency p) ind) ts
            end /\
    size = Nat.max (length (standard ++ extra)) 1.
Proof.
  intros (Vk & Vf & Vc) HC HR HF (m & entries & HM & HO & -> & ->). cbv zeta.
  rewrite HC in Vc. destruct Vc as [_ Vt].
  set (text := is_string p && is_text p) in *. set (rs := all_rows datasets). set (ind := indicator (is_weighted p) rs).
  intros l RL. set (std := first_of (top_k p) l). intros Hstd.
  pose proof (ranked_is_ranking _ _ _ _ HM _ Vf) as RL'. fold rs ind in RL'.
  assert (l = ranked m (frequency_threshold p)) by (eapply ranking_unique; eassumption). subst l. clear RL'.
  apply (ordered_entries_written sha1 p) in HO; [|now apply strict_default].
  rewrite HR, Nat.add_0_r.
  destruct (standard_arm _ _ _ _ HM (is_string p) (frequency_threshold p) (top_k p)) as [SP _]. fold rs ind in SP.
  assert (SP' : Permutation (apply_thresholds_and_top_k (is_string p) (frequency_threshold p) (top_k p) None m) (map (fun t => (ind t, t)) std)).
  { rewrite SP. unfold std in *. destruct (top_k p) as [n|]; cbn [first_of] in *; [|reflexivity].
    destruct Hstd as [Hn|Hn]; [discriminate|]. rewrite dummy_or_map.
    destruct (firstn n (ranked m (frequency_threshold p))); [congruence|reflexivity]. }
  clear SP. set (pr := prune p m) in *.
  assert (HI : forall e, In e pr <-> exists t, e = (ind t, t) /\ (In t std \/ covered text (is_weighted p) f k thr rs t)).
  { intros e. unfold pr, prune. rewrite HC. destruct (distinct_spec (apply_thresholds_and_top_k (is_string p) (frequency_threshold p) (top_k p) None m ++ apply_thresholds_and_top_k (is_string p) thr k (Some f) m)) as [_ HD].
    rewrite HD, in_app_iff. destruct e as [v t]. rewrite (coverage_arm _ _ _ _ (is_string p) f k thr v t HM Vt). fold rs ind. split.
    - intros [H|[-> H]]; [|exists t; auto]. apply (Permutation_in _ SP') in H. apply in_map_iff in H as (u & E & Hu). exists u. auto.
    - intros (u & E & [H|H]); injection E as -> ->; [left|right; auto].
      apply (Permutation_in _ (Permutation_sym SP')). apply in_map_iff. now exists u. }
  assert (ND : NoDup pr) by (unfold pr, prune; rewrite HC; apply distinct_spec).
  assert (WF : well_formed ind pr).
  { split.
    - assert (G : forall q, NoDup q -> (forall e, In e q -> In e pr) -> NoDup (map snd q)).
      { induction 1 as [|e q Hn Hq IH]; intros Hi; cbn; constructor; [|apply IH; intros; apply Hi; now right].
        intros C. apply in_map_iff in C as (e' & E & He'). apply Hn.
        pose proof (proj1 (HI e) (Hi e (or_introl eq_refl))) as (t & -> & _).
        pose proof (proj1 (HI e') (Hi e' (or_intror He'))) as (t' & -> & _). cbn in E. now subst. }
      now apply G.
    - intros v t H. apply HI in H as (u & E & _). now injection E as -> ->. }
  set (P := fun t => In t std \/ covered text (is_weighted p) f k thr rs t).
  assert (RP : is_ranking ind P (map snd (py_sorted entry_geb pr))).
  { apply ranking_of_entries; [exact WF|]. intros t. rewrite in_map_iff. split.
    - intros (e & <- & He). apply HI in He as (u & -> & Hu). exact Hu.
    - intros Ht. exists (ind t, t). split; [reflexivity|]. apply HI. now exists t. }
  set (all := map snd (py_sorted entry_geb pr)) in *.
  set (extra := filter (fun t => negb (existsb (String.eqb t) std)) all).
  assert (HX : forall t, In t extra <-> P t /\ ~ In t std).
  { intros t. unfold extra. rewrite filter_In, (proj2 RP t), negb_true_iff.
    assert (HB : existsb (String.eqb t) std = false <-> ~ In t std).
    { rewrite <- not_true_iff_false, existsb_exists. split; intros H C; apply H.
      - exists t. split; [exact C|apply String.eqb_refl].
      - destruct C as (u & Hu & E). apply String.eqb_eq in E. now subst. }
    now rewrite HB. }
  assert (RE : is_ranking ind P (std ++ extra)).
  { split.
    - apply strongly_sorted_app. split; [apply first_of_sorted, RL|]. split; [apply filter_sorted, RP|].
      intros x y Hx Hy. apply HX in Hy as [[Hy|Hy] Hn]; [contradiction|].
      apply covered_eligible in Hy as (H1 & H2 & _). eapply standard_first; eauto.
    - intros t. rewrite in_app_iff, HX. unfold P. split; [tauto|].
      intros H. destruct (in_dec string_dec t std); tauto. }
  assert (EA : all = std ++ extra) by (eapply ranking_unique; eassumption).
  exists extra. split; [apply RE|]. split; [apply RE|].
  assert (IS : input_is_sorted p = false) by (unfold input_is_sorted; rewrite HC; now destruct (top_k p)).
  unfold written, add_reserved, remove_reserved in HO. rewrite IS, HR in HO.
  rewrite (sort_leb_default sha1 p HF) in HO.
  assert (EP : py_sorted entry_geb pr = map (fun t => (ind t, t)) (std ++ extra)).
  { rewrite <- EA. apply entries_of_tokens. apply (well_formed_perm ind pr); [symmetry; apply py_sorted_perm|exact WF]. }
  rewrite EP in HO. subst entries. rewrite dummy_or_map. split.
  - destruct (std ++ extra); [reflexivity|]. apply format_entries.
  - rewrite <- EA. unfold all. rewrite map_length. now rewrite (Permutation_length (py_sorted_perm entry_geb pr)).
Qed.

(** ** Reserved tokens *)

Lemma filter_entries (ind : string -> Qc) r ts :
  filter (fun e => negb (existsb (String.eqb (snd e)) r)) (map (fun t => (ind t, t)) ts)
  = map (fun t => (ind t, t)) (filter (fun t => negb (existsb (String.eqb t) r)) ts).
Proof. induction ts as [|t ts IH]; cbn; [reflexivity|]. destruct (negb _); cbn; now rewrite IH. Qed.

Lemma vocabulary_reserved fmt sha1 p r datasets lines size :
  valid_params p -> coverage p = None -> reserved_tokens p = Some r -> fingerprint_shuffle p = false ->
  vocabulary fmt sha1 p datasets lines size ->
  let rs := all_rows datasets in
  let ind := indicator (is_weighted p) rs in
  exists l, is_ranking ind (eligible (is_string p && is_text p) (is_weighted p) (frequency_threshold p) rs) l /\
    let selected := first_of (top_k p) l in
    size = (Nat.max (length selected) 1 + length r)%nat /\
    (r <> [] -> top_k p = None \/ selected <> [] ->
     lines = map (fun t => format_entry fmt (store_frequency p) (Q2Qc (-1), t)) r
             ++ map (line_of fmt (store_frequency p) ind) (filter (fun t => negb (existsb (String.eqb t) r)) selected)).
Proof.
  intros (Vk & Vf & _) HC HR HF (m & entries & HM & HO & -> & ->). cbv zeta.
  set (text := is_string p && is_text p) in *. set (rs := all_rows datasets). set (ind := indicator (is_weighted p) rs).
  set (L := ranked m (frequency_threshold p)).
  exists L. pose proof (ranked_is_ranking _ _ _ _ HM _ Vf) as RL. fold rs ind L in RL. split; [exact RL|].
  rewrite HR. apply ordered_entries_written in HO; [|now apply strict_default].
  destruct (standard_arm _ _ _ _ HM (is_string p) (frequency_threshold p) (top_k p)) as [SP _]. fold rs ind L in SP.
  set (S := first_of (top_k p) L) in *.
  assert (LP : Nat.max (length (prune p m)) 1 = Nat.max (length S) 1).
  { unfold prune. rewrite HC, (Permutation_length SP). unfold S. destruct (top_k p) as [n|]; cbn [first_of].
    - rewrite dummy_or_map. destruct (firstn n L); [reflexivity|]. now rewrite map_length.
    - now rewrite map_length. }
  rewrite LP. split; [reflexivity|]. intros Hr HN.
  assert (SP' : Permutation (prune p m) (map (fun t => (ind t, t)) S)).
  { unfold prune. rewrite HC, SP. unfold S in *. destruct (top_k p) as [n|]; cbn [first_of] in *; [|reflexivity].
    destruct HN as [Hn|Hn]; [discriminate|]. rewrite dummy_or_map. destruct (firstn n L); [congruence|reflexivity]. }
  unfold written, add_reserved, remove_reserved in HO. rewrite HR in HO.
  rewrite (sort_leb_default sha1 p HF) in HO.
  rewrite (sort_ranked ind _ (filter (fun t => negb (existsb (String.eqb t) r)) S)) in HO.
  - assert (HO' : entries = map (fun t => (Q2Qc (-1), t)) r ++ map (fun t => (ind t, t)) (filter (fun t => negb (existsb (String.eqb t) r)) S)).
    { rewrite HO. destruct (input_is_sorted p); (destruct r; [congruence|reflexivity]). }
    rewrite HO', map_app, map_map. f_equal. apply format_entries.
  - apply filter_sorted, first_of_sorted, RL.
  - rewrite <- filter_entries. now apply filter_perm.
Qed.

(** ** Same rows, same file *)

Lemma prune_tokens p text weighted datasets m e :
  accumulate_and_merge text weighted datasets m -> In e (prune p m) ->
  In e m \/ e = dummy_entry (is_string p).
Proof.
  intros HM. assert (A : forall thr k, In e (apply_thresholds_and_top_k (is_string p) thr k None m) -> In e m \/ e = dummy_entry (is_string p)).
  { intros thr k. unfold apply_thresholds_and_top_k. set (c := if qc_leb thr (Q2Qc 0) then m else _).
    assert (Hc : forall x, In x c -> In x m) by (intros x; unfold c; destruct (qc_leb _ _); [trivial|intros Hx; now apply filter_In in Hx]).
    destruct k as [k|]; [|intros H; left; auto].
    intros H. assert (G : In e (top_of k c) \/ e = dummy_entry (is_string p)).
    { destruct (top_of k c) eqn:E; cbn in H; [destruct H as [<-|[]]; now right|left; exact H]. }
    destruct G as [G|G]; [left|now right]. unfold top_of in G. apply firstn_In in G.
    apply Hc. now apply (Permutation_in _ (py_sorted_perm entry_geb c)). }
  assert (B : forall thr k f, In e (apply_thresholds_and_top_k (is_string p) thr k (Some f) m) -> In e m).
  { intros thr k f. unfold apply_thresholds_and_top_k. set (c := if qc_leb thr (Q2Qc 0) then m else _).
    assert (Hc : forall x, In x c -> In x m) by (intros x; unfold c; destruct (qc_leb _ _); [trivial|intros Hx; now apply filter_In in Hx]).
    destruct k as [k|]; [|auto]. intros H. apply in_flat_map in H as (key & _ & H). unfold top_of in H. apply firstn_In in H.
    apply (Permutation_in _ (py_sorted_perm entry_geb _)) in H. apply filter_In in H as [H _]. auto. }
  unfold prune. destruct (coverage p) as [[f [k thr]]|]; [|apply A].
  intros H. apply (proj1 (proj2 (distinct_spec _) e)) in H. apply in_app_or in H as [H|H]; [eapply A; eassumption|left; eapply B; eassumption].
Qed.

Lemma vocabulary_same_rows fmt sha1 p d1 d2 lines1 size1 lines2 size2 :
  (fingerprint_shuffle p = true ->
     fingerprints_distinct sha1 (snd (dummy_entry (is_string p)) :: map fst (all_rows d1)) /\
     ~ In (snd (dummy_entry (is_string p))) (map fst (all_rows d1))) ->
  Permutation (all_rows d1) (all_rows d2) ->
  vocabulary fmt sha1 p d1 lines1 size1 -> vocabulary fmt sha1 p d2 lines2 size2 ->
  lines1 = lines2 /\ size1 = size2.
Proof.
  intros HD HP (m1 & e1 & HM1 & HO1 & -> & ->) (m2 & e2 & HM2 & HO2 & -> & ->).
  pose proof (merged_perm _ _ _ _ _ _ HM1 HM2 HP) as HM.
  assert (HS : order_is_strict sha1 p (prune p m1)).
  { destruct (fingerprint_shuffle p) eqn:HF; [|now apply strict_default].
    destruct (HD eq_refl) as [HD1 HD2]. intros a b Ha Hb. unfold sort_leb. rewrite HF. intros H1 H2.
    pose proof (bytes_leb_antisym _ _ H1 H2) as E.
    assert (HT : forall e, In e m1 -> In (snd e) (map fst (all_rows d1)) /\ fst e = indicator (is_weighted p) (all_rows d1) (snd e)).
    { intros [v t] He. destruct (merged_spec _ _ _ _ HM1) as [_ HI]. apply HI in He. tauto. }
    destruct (prune_tokens p _ _ _ _ a HM1 Ha) as [Ha'| ->], (prune_tokens p _ _ _ _ b HM1 Hb) as [Hb'| ->]; [| | |reflexivity].
    - destruct (HT a Ha') as [A1 A2], (HT b Hb') as [B1 B2].
      assert (ET : snd a = snd b) by (apply HD1; [now right|now right|exact E]).
      destruct a as [va ta], b as [vb tb]; cbn in *. subst tb. now rewrite A2, B2.
    - destruct (HT a Ha') as [A1 A2].
      assert (ET : snd a = snd (dummy_entry (is_string p))) by (apply HD1; [now right|now left|exact E]).
      rewrite ET in A1. contradiction.
    - destruct (HT b Hb') as [B1 B2].
      assert (ET : snd (dummy_entry (is_string p)) = snd b) by (apply HD1; [now left|now right|exact E]).
      rewrite <- ET in B1. contradiction. }
  assert (HS2 : order_is_strict sha1 p (prune p m2)).
  { destruct (prune_perm p _ _ HM) as [HQ _]. intros a b Ha Hb. apply HS; apply (Permutation_in _ (Permutation_sym HQ)); assumption. }
  apply ordered_entries_written in HO1; [|exact HS]. apply ordered_entries_written in HO2; [|exact HS2].
  subst e1 e2. split.
  - f_equal. now apply written_perm.
  - destruct (prune_perm p _ _ HM) as [HQ _]. now rewrite (Permutation_length HQ).
Qed.
