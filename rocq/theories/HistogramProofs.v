(** * Proofs about histograms *)
From Coq Require Import String List ZArith QArith Bool Permutation Sorting.Sorted Lia Arith Lqa.
From Coq Require DecimalString DecimalZ DecimalPos.
From Verif Require Import CombineModel NumericModel FloatModel MeanVarModel SortModel SortProofs.
From Verif Require Import PerKeyModel PerKeyProofs BucketModel HistogramModel HistogramSpec.
Import ListNotations.
Local Notation length := List.length.
Open Scope Z_scope.

(** ** Text of integers *)
Lemma string_back : forall z, DecimalString.NilZero.int_of_string (as_string z) = Some (Z.to_int z).
Proof.
  assert (forall p, Pos.to_uint p <> Decimal.Nil) as NN.
  { intros p E. apply (f_equal Pos.of_uint) in E. rewrite DecimalPos.Unsigned.of_to in E. discriminate. }
  intros z. unfold as_string. apply DecimalString.NilZero.isi; destruct z as [|p|p]; cbn; try discriminate;
    intros E; injection E as E; now apply NN in E.
Qed.

Lemma to_number_as_string : forall d z, dmin d <= z <= dmax d -> to_number d (as_string z) = Some z.
Proof.
  intros d z H. unfold to_number. rewrite string_back, DecimalZ.of_to.
  destruct H as [H1 H2]. apply Z.leb_le in H1, H2. now rewrite H1, H2.
Qed.

Lemma as_string_inj : forall a b, as_string a = as_string b -> a = b.
Proof.
  intros a b E. pose proof (string_back a) as Ha. rewrite E, string_back in Ha. injection Ha as Ha.
  apply (f_equal Z.of_int) in Ha. now rewrite !DecimalZ.of_to in Ha.
Qed.

(** ** Lists of results *)
Lemma all_some_map : forall A B (f : A -> option B) (g : A -> B) l,
  (forall x, In x l -> f x = Some (g x)) -> all_some (map f l) = Some (map g l).
Proof.
  induction l as [|x l IH]; intros H; cbn; [reflexivity|].
  rewrite (H x (or_introl eq_refl)), IH; [reflexivity|]. intros y Hy. apply H. now right.
Qed.
Lemma all_some_Some : forall A (l : list A), all_some (map Some l) = Some l.
Proof. intros A l. rewrite (all_some_map _ _ Some (fun x => x)); [now rewrite map_id|auto]. Qed.

(** ** Buckets *)
Lemma fltb_mono : forall a b v, (a <= b)%Q -> fltb (Fin b) v = true -> fltb (Fin a) v = true.
Proof.
  intros a b [q| |neg] L; cbn; [|auto|auto].
  rewrite !negb_true_iff. intros H. apply not_true_iff_false. intros H'.
  apply Qle_bool_iff in H'. assert (Qle_bool q b = true); [|congruence].
  apply Qle_bool_iff. eapply Qle_trans; eassumption.
Qed.

Lemma searchsorted_left_spec : forall c v, StronglySorted Qle c ->
  let i := searchsorted_left (map Fin c) v in
  (i <= length c)%nat /\
  (forall j, (j < i)%nat -> fltb (Fin (nth j c 0%Q)) v = true) /\
  (forall j, (i <= j < length c)%nat -> fltb (Fin (nth j c 0%Q)) v = false).
Proof.
  intros c v HS. induction HS as [|h t HS IH HF]; cbn [map searchsorted_left].
  - cbn. repeat split; [lia|lia|lia].
  - destruct (fltb (Fin h) v) eqn:E; cbn zeta in *.
    + destruct IH as (L & A & B). repeat split.
      * cbn. lia.
      * intros [|j] Hj; [exact E|]. cbn. apply A. lia.
      * intros [|j] [Hj Hj']; [lia|]. cbn in *. apply B. lia.
    + repeat split; [lia|lia|]. intros [|j] [_ Hj]; [exact E|]. cbn [nth length] in *.
      apply not_true_iff_false. intros F. assert (fltb (Fin h) v = true); [|congruence].
      rewrite Forall_forall in HF. eapply fltb_mono; [|exact F]. apply HF, nth_In. lia.
Qed.

Lemma removelast_map : forall A B (f : A -> B) l, removelast (map f l) = map f (removelast l).
Proof.
  induction l as [|x l IH]; [reflexivity|]. destruct l as [|y l]; [reflexivity|].
  cbn [map removelast] in *. now rewrite IH.
Qed.
Lemma removelast_length : forall A (l : list A), length (removelast l) = (length l - 1)%nat.
Proof.
  induction l as [|x l IH]; [reflexivity|]. destruct l as [|y l]; [reflexivity|].
  cbn [removelast length] in *. rewrite IH. lia.
Qed.
Lemma nth_removelast : forall A (d : A) l j, (S j < length l)%nat -> nth j (removelast l) d = nth j l d.
Proof.
  induction l as [|x l IH]; intros j H; [reflexivity|]. destruct l as [|y l]; [cbn in H; lia|].
  destruct j as [|j]; [reflexivity|]. cbn [removelast nth]. apply IH. cbn in *. lia.
Qed.
Lemma removelast_sorted : forall l, StronglySorted Qle l -> StronglySorted Qle (removelast l).
Proof.
  intros l HS. induction HS as [|x l HS IH HF]; [constructor|]. destruct l as [|y l]; [constructor|].
  cbn [removelast] in *. constructor; [exact IH|].
  rewrite Forall_forall in *. intros z Hz. apply HF.
  clear -Hz. revert y Hz. induction l as [|a l IH]; intros y Hz; [destruct Hz|].
  destruct Hz as [<-|Hz]; [now left|right]. apply IH. exact Hz.
Qed.

Lemma bucket_index_in_bin : forall s v, (2 <= length s)%nat -> StronglySorted Qle s ->
  (bucket_index s v < length s - 1)%nat /\
  forall i, (i < length s - 1)%nat -> in_bin s i v = (bucket_index s v =? i)%nat.
Proof.
  intros s v L HS. destruct s as [|s0 t]; [cbn in L; lia|].
  assert (E : bucket_index (s0 :: t) v = searchsorted_left (map Fin (removelast t)) v).
  { unfold bucket_index, assign_buckets. cbn [map tl]. rewrite <- removelast_map.
    replace (Qle_bool (num_max Float32) (num_max Float32)) with true by (symmetry; apply Qle_bool_iff, Qle_refl).
    reflexivity. }
  rewrite E. inversion HS as [|? ? HSt HF]; subst. cbn [length] in L.
  destruct (searchsorted_left_spec (removelast t) v (removelast_sorted t HSt)) as (A & B & C).
  set (k := searchsorted_left (map Fin (removelast t)) v) in *. clearbody k.
  rewrite removelast_length in *. split; [cbn; lia|].
  intros i Hi. cbn [length] in Hi.
  assert (U : (i =? 0)%nat || fltb (Fin (nth i (s0 :: t) 0%Q)) v = (i <=? k)%nat).
  { destruct i as [|i]; [reflexivity|]. cbn [Nat.eqb orb nth].
    rewrite <- (nth_removelast _ 0%Q t i) by lia.
    destruct (Nat.leb_spec (S i) k) as [H|H]; [apply B; lia|apply C; lia]. }
  assert (V : (i + 2 =? length (s0 :: t))%nat || negb (fltb (Fin (nth (S i) (s0 :: t) 0%Q)) v)
              = (k <=? i)%nat).
  { destruct (Nat.eqb_spec (i + 2) (length (s0 :: t))) as [H|H]; cbn [length] in H.
    - cbn [orb]. symmetry. apply Nat.leb_le. lia.
    - cbn [orb nth]. rewrite <- (nth_removelast _ 0%Q t i) by lia.
      destruct (Nat.leb_spec k i) as [H'|H']; [rewrite C by lia|rewrite B by lia]; reflexivity. }
  unfold in_bin. rewrite U, V.
  destruct (Nat.eqb_spec k i), (Nat.leb_spec i k), (Nat.leb_spec k i); cbn; try reflexivity; lia.
Qed.

(** ** The counts of keys *)
Lemma count_occ_filter : forall (k : string) l,
  count_occ String.string_dec l k = length (filter (String.eqb k) l).
Proof.
  induction l as [|x l IH]; [reflexivity|]. cbn [count_occ filter].
  destruct (String.string_dec x k) as [->|N].
  - rewrite String.eqb_refl. cbn. now rewrite IH.
  - replace (String.eqb k x) with false; [exact IH|]. symmetry. apply String.eqb_neq. congruence.
Qed.

Definition occurrences (batches : list (list string)) (k : string) : Z :=
  how_many (String.eqb k) (concat batches).

Lemma count_per_key_spec : forall batches sch keys, runner_counts batches sch keys ->
  Z.of_nat (length (concat batches)) < 2 ^ 63 ->
  exists vocab, count_per_key sch keys = Some (vocab, map (occurrences batches) vocab) /\
    Permutation vocab keys.
Proof.
  intros batches sch keys [ND KO KI] L. unfold count_per_key, per_key_analysis.
  set (l := map (fun k => (k, key_count (sch k))) keys).
  pose proof (merge_outputs_spec l) as M.
  destruct (merge_outputs_by_key l) as [vocab counts] eqn:E. destruct M as (P & LE' & _).
  assert (PV : Permutation vocab keys).
  { assert (vocab = map fst (combine vocab counts)) as ->.
    { clear -LE'. revert counts LE'. induction vocab as [|x v IH]; intros [|y c] H; cbn in *; try lia; [reflexivity|].
      f_equal. apply IH. lia. }
    apply (Permutation_map fst) in P. etransitivity; [exact P|]. unfold l. rewrite map_map. cbn. now rewrite map_id. }
  assert (C : counts = map (fun k => Some (occurrences batches k)) vocab).
  { assert (F : forall k c, In (k, c) (combine vocab counts) -> c = Some (occurrences batches k)).
    { intros k c H. apply (Permutation_in _ P) in H. unfold l in H. apply in_map_iff in H as (k' & H & Hk).
      injection H as <- <-. rewrite (key_count_exact k' batches (sch k') (KI k' Hk) L).
      unfold occurrences, how_many. now rewrite count_occ_filter. }
    clear -LE' F. revert counts LE' F. induction vocab as [|x v IH]; intros [|y c] H F; cbn in *; try lia; [reflexivity|].
    f_equal; [apply F; now left|]. apply IH; [lia|]. intros. apply F. now right. }
  exists vocab. split; [|exact PV]. rewrite C.
  rewrite (all_some_map _ _ _ (occurrences batches)) by auto. reflexivity.
Qed.

(** ** Reordering *)
Lemma sorted_perm_seq : forall l a n, StronglySorted Z.le l ->
  Permutation l (map Z.of_nat (seq a n)) -> l = map Z.of_nat (seq a n).
Proof.
  intros l a n HS P.
  apply (sorted_unique Z.leb); [|  | exact P|].
  - clear P. induction HS as [|x l HS IH HF]; [constructor|]. constructor; [exact IH|].
    eapply Forall_impl; [|exact HF]. intros y Hy. apply Z.leb_le, Hy.
  - clear. revert a. induction n as [|n IH]; intros a; cbn; [constructor|]. constructor; [apply IH|].
    apply Forall_forall. intros y Hy. apply in_map_iff in Hy as (j & <- & Hj). apply in_seq in Hj.
    apply Z.leb_le. lia.
  - intros x y _ _ H1 H2. apply Z.leb_le in H1, H2. lia.
Qed.

Lemma argsort_spec : forall l n, Permutation l (map Z.of_nat (seq 0 n)) ->
  length (argsort l) = n /\
  forall i, (i < n)%nat -> exists p, nth_error (argsort l) i = Some p /\ nth_error l p = Some (Z.of_nat i).
Proof.
  intros l n P. unfold argsort.
  set (leb := fun a b : Z * nat => fst a <=? fst b). set (pairs := combine l (seq 0 (length l))).
  pose proof (py_sorted_perm leb pairs) as PP.
  assert (HS : StronglySorted Z.le (map fst (py_sorted leb pairs))).
  { assert (S0 : StronglySorted (le leb) (py_sorted leb pairs)).
    { apply py_sorted_sorted.
      - intros x y. unfold leb. rewrite !Z.leb_le. lia.
      - intros x y z. unfold leb. rewrite !Z.leb_le. lia. }
    clear -S0. induction S0 as [|x m S0 IH HF]; cbn; [constructor|]. constructor; [exact IH|].
    apply Forall_forall. intros y Hy. apply in_map_iff in Hy as (z & <- & Hz).
    rewrite Forall_forall in HF. apply Z.leb_le. exact (HF z Hz). }
  assert (F : map fst pairs = l).
  { unfold pairs. generalize (seq_length (length l) 0). generalize (seq 0 (length l)).
    clear. induction l as [|x l IH]; intros [|y m] H; cbn in *; try lia; [reflexivity|]. f_equal. apply IH. lia. }
  assert (E : map fst (py_sorted leb pairs) = map Z.of_nat (seq 0 n)).
  { apply sorted_perm_seq; [exact HS|]. etransitivity; [apply Permutation_map, PP|]. now rewrite F. }
  assert (LL : length (py_sorted leb pairs) = n).
  { apply (f_equal (@List.length Z)) in E. now rewrite !map_length, seq_length in E. }
  split; [now rewrite map_length|].
  intros i Hi. destruct (nth_error (py_sorted leb pairs) i) as [[z p]|] eqn:N.
  2:{ apply nth_error_None in N. lia. }
  exists p. rewrite nth_error_map, N. split; [reflexivity|].
  assert (Z0 : z = Z.of_nat i).
  { apply (f_equal (fun m => nth_error m i)) in E. rewrite !nth_error_map, N in E.
    rewrite (nth_error_nth' _ 0%nat) in E by (now rewrite seq_length). cbn in E.
    rewrite seq_nth in E by exact Hi. now injection E. }
  apply nth_error_In in N. apply (Permutation_in _ PP) in N. unfold pairs in N. subst z.
  clear -N. rewrite <- (Nat.add_0_r p). apply In_nth_error in N as (k & N).
  assert (N' : nth_error l k = Some (Z.of_nat i) /\ nth_error (seq 0 (length l)) k = Some p).
  { revert N. generalize (seq 0 (length l)). generalize k. clear.
    induction l as [|x l IH]; intros [|k] [|y m] N; cbn in *; try discriminate.
    - injection N as -> ->. auto.
    - apply IH, N. }
  destruct N' as [N1 N2]. assert (k < length l)%nat by (apply nth_error_Some; congruence).
  rewrite (nth_error_nth' _ 0%nat) in N2 by (now rewrite seq_length).
  rewrite seq_nth in N2 by assumption. injection N2 as <-. cbn. now rewrite Nat.add_0_r.
Qed.

Lemma list_eq_nth_error : forall A (l1 l2 : list A), (forall i, nth_error l1 i = nth_error l2 i) -> l1 = l2.
Proof.
  induction l1 as [|x l1 IH]; intros [|y l2] H; [reflexivity|now specialize (H 0%nat)|now specialize (H 0%nat)|].
  f_equal; [specialize (H 0%nat); cbn in H; congruence|]. apply IH. intros i. exact (H (S i)).
Qed.

Lemma reorder_spec : forall (vocab : list nat) (count : nat -> Z) n,
  NoDup vocab -> (forall i, In i vocab -> (i < n)%nat) -> (forall i, ~ In i vocab -> count i = 0) ->
  Z.of_nat n <= dmax Int32 ->
  reorder_histogram (map (fun i => as_string (Z.of_nat i)) vocab) (map count vocab) (Z.of_nat n)
  = Some (map count (seq 0 n)).
Proof.
  intros vocab count n ND B Zc Hn. unfold reorder_histogram.
  rewrite map_map. rewrite (all_some_map _ _ _ Z.of_nat).
  2:{ intros i Hi. apply to_number_as_string. specialize (B i Hi). cbn in *. lia. }
  replace (Z.of_nat n <? 0) with false by (symmetry; apply Z.ltb_ge; lia).
  rewrite Nat2Z.id, map_length.
  assert (LV : (length vocab <= n)%nat).
  { rewrite <- (seq_length n 0). apply NoDup_incl_length; [exact ND|]. intros i Hi. apply in_seq. specialize (B i Hi). lia. }
  replace (Z.of_nat n - Z.of_nat (length vocab) <? 0) with false by (symmetry; apply Z.ltb_ge; lia).
  set (missing := filter (fun i => negb (existsb (Z.eqb i) (map Z.of_nat vocab))) (map Z.of_nat (seq 0 n))).
  assert (M : forall z, In z missing <-> exists i, z = Z.of_nat i /\ (i < n)%nat /\ ~ In i vocab).
  { intros z. unfold missing. rewrite filter_In, in_map_iff, negb_true_iff. split.
    - intros ((i & <- & Hi) & E). apply in_seq in Hi. exists i. split; [reflexivity|]. split; [lia|].
      intros V. apply not_true_iff_false in E. apply E, existsb_exists. exists (Z.of_nat i).
      split; [now apply in_map|apply Z.eqb_refl].
    - intros (i & -> & Hi & NV). split; [exists i; split; [reflexivity|apply in_seq; lia]|].
      apply not_true_iff_false. intros E. apply existsb_exists in E as (z & Hz & E).
      apply Z.eqb_eq in E. apply in_map_iff in Hz as (j & <- & Hj). apply Nat2Z.inj in E. now subst j. }
  assert (NDM : NoDup (map Z.of_nat vocab ++ missing)).
  { assert (N1 : NoDup (map Z.of_nat vocab)) by (apply FinFun.Injective_map_NoDup; [intros a b; apply Nat2Z.inj|exact ND]).
    assert (N2 : NoDup missing).
    { apply NoDup_filter, FinFun.Injective_map_NoDup; [intros a b; apply Nat2Z.inj|apply seq_NoDup]. }
    assert (DJ : forall z, In z (map Z.of_nat vocab) -> ~ In z missing).
    { intros z Hz Hm. apply in_map_iff in Hz as (i & <- & Hi). apply M in Hm as (j & E & _ & NV).
      apply Nat2Z.inj in E. now subst j. }
    clearbody missing. clear -N1 N2 DJ. induction (map Z.of_nat vocab) as [|x l IH]; [exact N2|].
    inversion N1; subst. cbn. constructor.
    - rewrite in_app_iff. intros [H|H]; [contradiction|]. now apply (DJ x (or_introl eq_refl)).
    - apply IH; [assumption|]. intros z Hz. apply DJ. now right. }
  assert (P : Permutation (map Z.of_nat vocab ++ missing) (map Z.of_nat (seq 0 n))).
  { apply NoDup_Permutation; [exact NDM| |].
    - apply FinFun.Injective_map_NoDup; [intros a b; apply Nat2Z.inj|apply seq_NoDup].
    - intros z. rewrite in_app_iff, M, !in_map_iff. split.
      + intros [(i & <- & Hi)|(i & -> & Hi & _)]; exists i; (split; [reflexivity|apply in_seq]).
        * specialize (B i Hi). lia.
        * lia.
      + intros (i & <- & Hi). apply in_seq in Hi. destruct (in_dec Nat.eq_dec i vocab) as [V|V].
        * left. now exists i.
        * right. exists i. repeat split; [lia|exact V]. }
  destruct (argsort_spec _ n P) as [AL AS].
  set (padded := (map count vocab ++ repeat 0 (Z.to_nat (Z.of_nat n - Z.of_nat (length vocab))))%list).
  assert (G : map (nth_error padded) (argsort (map Z.of_nat vocab ++ missing))
              = map Some (map count (seq 0 n))).
  { apply list_eq_nth_error. intros i. destruct (Nat.lt_ge_cases i n) as [Hi|Hi].
    2:{ rewrite (proj2 (nth_error_None _ _)) by (rewrite map_length; lia).
        symmetry. apply nth_error_None. rewrite !map_length, seq_length. lia. }
    destruct (AS i Hi) as (p & N1 & N2). rewrite nth_error_map, N1. cbn [option_map].
    rewrite map_map, nth_error_map, (nth_error_nth' _ 0%nat) by (now rewrite seq_length).
    rewrite seq_nth by exact Hi. cbn [option_map Nat.add]. f_equal.
    destruct (Nat.lt_ge_cases p (length vocab)) as [Hp|Hp].
    - rewrite nth_error_app1 in N2 by (now rewrite map_length). rewrite nth_error_map in N2.
      unfold padded. rewrite nth_error_app1 by (now rewrite map_length). rewrite nth_error_map.
      destruct (nth_error vocab p) as [j|]; [|discriminate]. cbn in *. injection N2 as N2.
      apply Nat2Z.inj in N2. now subst j.
    - rewrite nth_error_app2 in N2 by (now rewrite map_length). apply nth_error_In in N2 as N3.
      apply M in N3 as (j & E & _ & NV). apply Nat2Z.inj in E. subst j.
      rewrite (Zc i NV). unfold padded. rewrite nth_error_app2 by (now rewrite map_length).
      rewrite map_length. rewrite map_length in N2.
      assert (HL : (p - length vocab < length missing)%nat) by (apply nth_error_Some; congruence).
      assert (LM : (length vocab + length missing = n)%nat).
      { apply Permutation_length in P. now rewrite app_length, !map_length, seq_length in P. }
      apply nth_error_repeat. lia. }
  rewrite G. apply all_some_Some.
Qed.

(** ** The histogram *)
Lemma preimages : forall A B (f : A -> B) l, (forall y, In y l -> exists x, y = f x) ->
  exists l', l = map f l'.
Proof.
  induction l as [|y l IH]; intros H; [now exists []|].
  destruct (H y (or_introl eq_refl)) as (x & ->). destruct IH as (l' & ->).
  - intros z Hz. apply H. now right.
  - now exists (x :: l').
Qed.

Lemma shifted_sorted : forall b, StronglySorted Qle b -> StronglySorted Qle (shifted b).
Proof.
  intros b HS. unfold shifted. induction HS as [|x l HS IH HF]; cbn; [constructor|]. constructor; [exact IH|].
  apply Forall_forall. intros y Hy. apply in_map_iff in Hy as (z & <- & Hz).
  rewrite Forall_forall in HF. specialize (HF z Hz). lra.
Qed.
Lemma shifted_length : forall b, length (shifted b) = length b.
Proof. intros b. apply map_length. Qed.

Definition index_key (i : nat) : string := as_string (Z.of_nat i).

Lemma concat_keys : forall s bs,
  concat (map (bucket_keys s) bs) = map (fun x => index_key (bucket_index s x)) (concat bs).
Proof. intros s bs. rewrite concat_map. reflexivity. Qed.

Lemma filter_map : forall A B (f : A -> B) p l, filter p (map f l) = map f (filter (fun x => p (f x)) l).
Proof. induction l as [|x l IH]; cbn; [reflexivity|]. rewrite IH. now destruct (p (f x)). Qed.

Lemma index_key_eqb : forall i j, String.eqb (index_key i) (index_key j) = (j =? i)%nat.
Proof.
  intros i j. destruct (Nat.eqb_spec j i) as [->|N]; [apply String.eqb_refl|].
  apply String.eqb_neq. intros E. apply as_string_inj, Nat2Z.inj in E. congruence.
Qed.

Lemma how_many_keys : forall s bs i,
  occurrences (map (bucket_keys s) bs) (index_key i)
  = how_many (fun x => bucket_index s x =? i)%nat (concat bs).
Proof.
  intros s bs i. unfold occurrences, how_many. rewrite concat_keys, filter_map, map_length.
  f_equal. f_equal. apply filter_ext. intros x. apply index_key_eqb.
Qed.

Lemma how_many_ext : forall A (p q : A -> bool) l, (forall x, p x = q x) -> how_many p l = how_many q l.
Proof. intros A p q l H. unfold how_many. now rewrite (filter_ext _ _ H). Qed.

Lemma histogram_exact : forall b bs sch keys,
  (2 <= length b)%nat -> Z.of_nat (length b) <= 2 ^ 31 -> StronglySorted Qle b ->
  Z.of_nat (length (concat bs)) < 2 ^ 63 ->
  runner_counts (map (bucket_keys (shifted b)) bs) sch keys ->
  histogram b sch keys
  = Some (map (fun i => how_many (in_bin (shifted b) i) (concat bs)) (seq 0 (length b - 1)), shifted b).
Proof.
  intros b bs sch keys L2 LB HS LN R. unfold histogram.
  set (s := shifted b) in *.
  assert (Ls : length s = length b) by apply shifted_length.
  assert (Hs : StronglySorted Qle s) by (apply shifted_sorted, HS).
  assert (BI : forall x, (bucket_index s x < length b - 1)%nat).
  { intros x. rewrite <- Ls. apply bucket_index_in_bin; [lia|exact Hs]. }
  destruct (count_per_key_spec _ _ _ R) as (vocab & E & PV).
  { rewrite concat_keys, map_length. exact LN. }
  rewrite E. destruct R as [ND KO _].
  assert (KV : forall k, In k vocab <-> In k (concat (map (bucket_keys s) bs))).
  { intros k. rewrite <- KO. split; apply Permutation_in; [exact PV|now symmetry]. }
  destruct (preimages _ _ index_key vocab) as (vn & ->).
  { intros k Hk. apply KV in Hk. rewrite concat_keys in Hk. apply in_map_iff in Hk as (x & <- & _). eauto. }
  assert (NDn : NoDup vn).
  { apply (NoDup_map_inv index_key). eapply Permutation_NoDup; [symmetry; exact PV|exact ND]. }
  assert (Iff : forall i, In i vn <-> exists x, In x (concat bs) /\ bucket_index s x = i).
  { intros i. split.
    - intros Hi. apply (in_map index_key), KV in Hi. rewrite concat_keys in Hi.
      apply in_map_iff in Hi as (x & Hx & Ix). exists x. split; [exact Ix|]. apply as_string_inj, Nat2Z.inj in Hx. exact Hx.
    - intros (x & Hx & <-). assert (Hk : In (index_key (bucket_index s x)) (map index_key vn)).
      { apply KV. rewrite concat_keys. apply in_map_iff. eauto. }
      apply in_map_iff in Hk as (j & Hj & Ij). apply as_string_inj, Nat2Z.inj in Hj. now subst j. }
  rewrite map_map, Ls. replace (Z.of_nat (length b) - 1) with (Z.of_nat (length b - 1)) by lia.
  unfold index_key at 1. rewrite (reorder_spec vn (fun i => occurrences (map (bucket_keys s) bs) (index_key i))).
  - cbn [option_map]. f_equal. f_equal. apply map_ext_in. intros i Hi. apply in_seq in Hi.
    rewrite how_many_keys. apply how_many_ext. intros x. symmetry. apply bucket_index_in_bin; [lia|exact Hs|lia].
  - exact NDn.
  - intros i Hi. apply Iff in Hi as (x & _ & <-). apply BI.
  - intros i Hi. rewrite how_many_keys. unfold how_many.
    replace (filter (fun x => (bucket_index s x =? i)%nat) (concat bs)) with (@nil fl); [reflexivity|].
    symmetry. destruct (filter _ _) as [|x l] eqn:F; [reflexivity|].
    assert (In x (x :: l)) as Hx by now left. rewrite <- F in Hx. apply filter_In in Hx as [Hx He].
    apply Nat.eqb_eq in He. destruct Hi. apply Iff. eauto.
  - cbn in *. lia.
Qed.

Lemma one_bin : forall s v, (2 <= length s)%nat -> StronglySorted Qle s ->
  exists i, ((i < length s - 1)%nat /\ in_bin s i v = true) /\
    forall j, (j < length s - 1)%nat -> in_bin s j v = true -> j = i.
Proof.
  intros s v L HS. destruct (bucket_index_in_bin s v L HS) as [A B].
  exists (bucket_index s v). split; [split; [exact A|rewrite B by exact A; apply Nat.eqb_refl]|].
  intros j Hj H. rewrite B in H by exact Hj. symmetry. now apply Nat.eqb_eq.
Qed.

Lemma sum_indicator : forall k n a, fold_right Z.add 0 (map (fun i => if (k =? i)%nat then 1 else 0) (seq a n))
  = if (a <=? k)%nat && (k <? a + n)%nat then 1 else 0.
Proof.
  induction n as [|n IH]; intros a; cbn [seq map fold_right].
  - destruct (Nat.leb_spec a k), (Nat.ltb_spec k (a + 0)); cbn; lia.
  - rewrite IH. destruct (Nat.eqb_spec k a), (Nat.leb_spec (S a) k), (Nat.leb_spec a k),
      (Nat.ltb_spec k (S a + n)), (Nat.ltb_spec k (a + S n)); cbn; lia.
Qed.

Lemma sum_add : forall (f g : nat -> Z) l,
  fold_right Z.add 0 (map (fun i => f i + g i) l) = fold_right Z.add 0 (map f l) + fold_right Z.add 0 (map g l).
Proof. induction l as [|x l IH]; cbn; [reflexivity|]. rewrite IH. lia. Qed.

Lemma counts_sum : forall s vs, (2 <= length s)%nat -> StronglySorted Qle s ->
  fold_right Z.add 0 (map (fun i => how_many (in_bin s i) vs) (seq 0 (length s - 1))) = Z.of_nat (length vs).
Proof.
  intros s vs L HS. induction vs as [|v vs IH].
  - cbn. induction (seq 0 (length s - 1)) as [|i l IH]; [reflexivity|]. cbn. exact IH.
  - destruct (bucket_index_in_bin s v L HS) as [A B].
    rewrite (map_ext_in _ (fun i => (if (bucket_index s v =? i)%nat then 1 else 0) + how_many (in_bin s i) vs)).
    + rewrite sum_add, IH, sum_indicator.
      destruct (Nat.ltb_spec (bucket_index s v) (0 + (length s - 1))); [|lia]. cbn [Nat.leb andb]. cbn [length]. lia.
    + intros i Hi. apply in_seq in Hi. unfold how_many. cbn [filter]. rewrite B by lia.
      destruct (bucket_index s v =? i)%nat; cbn [length]; lia.
Qed.

(** ** Densities *)
Lemma fdiv_fin : forall a b, ~ (b == 0)%Q -> fdiv (Fin a) (Fin b) = Fin (a / b).
Proof.
  intros a b H. cbn. destruct (Qeq_bool b 0) eqn:E; [|reflexivity]. apply Qeq_bool_iff in E. contradiction.
Qed.

Lemma density_exact : forall s vs x, (2 <= length s)%nat -> StronglySorted Qle s ->
  vs <> [] -> (hd 0 s < last s 0)%Q ->
  let counts := map (fun i => how_many (in_bin s i) vs) (seq 0 (length s - 1)) in
  exists i q, (i < length s - 1)%nat /\ in_bin s i x = true /\
    density counts s x = Some (Fin q) /\
    (q == inject_Z (how_many (in_bin s i) vs) / inject_Z (Z.of_nat (length vs))
          / ((last s 0 - hd 0 s) / inject_Z (Z.of_nat (length s - 1))))%Q.
Proof.
  intros s vs x L HS NE W counts.
  destruct (bucket_index_in_bin s x L HS) as [A B].
  exists (bucket_index s x).
  assert (LC : length counts = (length s - 1)%nat) by (unfold counts; now rewrite map_length, seq_length).
  assert (SC : fold_right Z.add 0 counts = Z.of_nat (length vs)) by (apply counts_sum; assumption).
  assert (NV : ~ (inject_Z (Z.of_nat (length vs)) == 0)%Q).
  { intros H. destruct vs; [congruence|]. unfold Qeq in H. cbn in H. lia. }
  assert (NL : ~ (inject_Z (Z.of_nat (length s - 1)) == 0)%Q).
  { intros H. unfold Qeq in H. cbn [inject_Z Qnum Qden] in H. lia. }
  assert (NW : ~ ((last s 0 - hd 0 s) / inject_Z (Z.of_nat (length s - 1)) == 0)%Q).
  { intros H. assert ((last s 0 - hd 0 s) == 0)%Q.
    { rewrite <- (Qmult_div_r (last s 0 - hd 0 s)%Q _ NL). rewrite H. ring. }
    lra. }
  eexists. split; [exact A|]. split; [rewrite B by exact A; apply Nat.eqb_refl|].
  unfold density, density_at, bucket_densities, probabilities.
  replace (Z.of_nat (bucket_index s x) <? 0) with false by (symmetry; apply Z.ltb_ge; lia).
  rewrite Nat2Z.id, LC, SC, fdiv_fin by exact NL. rewrite !nth_error_map.
  unfold counts at 1. rewrite nth_error_map, (nth_error_nth' _ 0%nat) by (now rewrite seq_length).
  rewrite seq_nth by exact A. cbn [option_map Nat.add]. rewrite fdiv_fin by exact NV. rewrite fdiv_fin by exact NW.
  split; reflexivity.
Qed.

Lemma sum_density : forall s vs, (2 <= length s)%nat -> StronglySorted Qle s ->
  vs <> [] ->
  forall width, ~ (width == 0)%Q ->
  (fold_right Qplus 0 (map (fun i => inject_Z (how_many (in_bin s i) vs) / inject_Z (Z.of_nat (length vs)) / width * width)
                         (seq 0 (length s - 1))) == 1)%Q.
Proof.
  intros s vs L HS NE width NW.
  assert (NV : ~ (inject_Z (Z.of_nat (length vs)) == 0)%Q).
  { intros H. destruct vs; [congruence|]. unfold Qeq in H. cbn in H. lia. }
  assert (G : forall l : list nat, (fold_right Qplus 0%Q (map (fun i => (inject_Z (how_many (in_bin s i) vs) / inject_Z (Z.of_nat (length vs)) / width * width)%Q) l)
    == inject_Z (fold_right Z.add 0%Z (map (fun i => how_many (in_bin s i) vs) l)) / inject_Z (Z.of_nat (length vs)))%Q).
  { induction l as [|i l IH]; cbn [map fold_right]; [now field|].
    rewrite IH, inject_Z_plus. now field. }
  rewrite G, counts_sum by assumption. now field.
Qed.

(** ** Categories *)
Lemma vocab_sum : forall (vocab data : list string), NoDup vocab -> (forall k, In k data -> In k vocab) ->
  fold_right Z.add 0 (map (fun k => how_many (String.eqb k) data) vocab) = Z.of_nat (length data).
Proof.
  intros vocab data ND. induction data as [|x data IH]; intros H.
  - clear. induction vocab; cbn; auto.
  - assert (E : forall l, fold_right Z.add 0 (map (fun k => how_many (String.eqb k) (x :: data)) l)
              = fold_right Z.add 0 (map (fun k => if String.eqb k x then 1 else 0) l)
                + fold_right Z.add 0 (map (fun k => how_many (String.eqb k) data) l)).
    { induction l as [|k l IHl]; cbn [map fold_right]; [reflexivity|]. rewrite IHl.
      assert (how_many (String.eqb k) (x :: data) = (if String.eqb k x then 1 else 0) + how_many (String.eqb k) data).
      { unfold how_many. cbn [filter]. destruct (String.eqb k x); cbn [length]; lia. }
      lia. }
    rewrite E, IH by (intros k Hk; apply H; now right).
    assert (O : fold_right Z.add 0 (map (fun k => if String.eqb k x then 1 else 0) vocab) = 1).
    { specialize (H x (or_introl eq_refl)). clear -ND H. induction ND as [|k l NI ND IH]; [destruct H|].
      cbn. destruct H as [->|H].
      - rewrite String.eqb_refl.
        assert (Z0 : fold_right Z.add 0 (map (fun k => if String.eqb k x then 1 else 0) l) = 0).
        { clear -NI. induction l as [|y l IH]; [reflexivity|]. cbn. rewrite IH by (intros F; apply NI; now right).
          destruct (String.eqb_spec y x) as [->|]; [destruct NI; now left|reflexivity]. }
        now rewrite Z0.
      - destruct (String.eqb_spec k x) as [->|N]; [contradiction|]. now rewrite IH. }
    rewrite O. cbn [length]. lia.
Qed.

Lemma mass_exact : forall batches sch keys, runner_counts batches sch keys ->
  Z.of_nat (length (concat batches)) < 2 ^ 63 -> concat batches <> [] ->
  exists vocab counts, count_per_key sch keys = Some (vocab, counts) /\
    NoDup vocab /\ (forall k, In k vocab <-> In k (concat batches)) /\
    counts = map (fun k => how_many (String.eqb k) (concat batches)) vocab /\
    forall x, exists q, mass_of_string counts vocab x = Some (Fin q) /\
      (q == inject_Z (how_many (String.eqb x) (concat batches)) / inject_Z (Z.of_nat (length (concat batches))))%Q.
Proof.
  intros batches sch keys R L NE.
  destruct (count_per_key_spec _ _ _ R L) as (vocab & E & PV). destruct R as [ND KO _].
  assert (KV : forall k, In k vocab <-> In k (concat batches)).
  { intros k. rewrite <- KO. split; apply Permutation_in; [exact PV|now symmetry]. }
  assert (NDv : NoDup vocab) by (eapply Permutation_NoDup; [symmetry; exact PV|exact ND]).
  exists vocab, (map (occurrences batches) vocab). split; [exact E|]. split; [exact NDv|].
  split; [exact KV|]. split; [reflexivity|]. intros x.
  unfold mass_of_string, density_at, probabilities.
  assert (SC : fold_right Z.add 0 (map (occurrences batches) vocab) = Z.of_nat (length (concat batches))).
  { apply vocab_sum; [exact NDv|]. intros k Hk. now apply KV. }
  rewrite SC.
  assert (NV : ~ (inject_Z (Z.of_nat (length (concat batches))) == 0)%Q).
  { intros H. destruct (concat batches); [congruence|]. unfold Qeq in H. cbn in H. lia. }
  destruct (lookup_key_spec x vocab) as [L1 L2].
  destruct (in_dec String.string_dec x vocab) as [I|I].
  - destruct (L1 I) as [P1 P2]. replace (lookup_key x vocab <? 0) with false by (symmetry; apply Z.ltb_ge; lia).
    rewrite !nth_error_map, P2. cbn [option_map]. rewrite fdiv_fin by exact NV.
    eexists. split; [reflexivity|reflexivity].
  - rewrite (L2 I). cbn [Z.ltb Z.compare Z.to_nat].
    destruct vocab as [|k0 v].
    { destruct (concat batches) as [|y l] eqn:EC; [congruence|]. destruct (proj2 (KV y) (or_introl eq_refl)). }
    cbn [map nth_error]. exists 0%Q. split; [reflexivity|].
    assert (Z0 : how_many (String.eqb x) (concat batches) = 0).
    { unfold how_many. destruct (filter (String.eqb x) (concat batches)) as [|y l] eqn:F; [reflexivity|].
      assert (Hy : In y (y :: l)) by now left. rewrite <- F in Hy. apply filter_In in Hy as [Hy He].
      apply String.eqb_eq in He. subst y. destruct I. now apply KV. }
    rewrite Z0. now field.
Qed.

Lemma lookup_integer_key : forall z vocab, lookup_integer z vocab = lookup_key (as_string z) (map as_string vocab).
Proof.
  intros z vocab. unfold lookup_integer, lookup_key.
  assert (M : forall i, matching_indices i z vocab = match_indices i (as_string z) (map as_string vocab)).
  { induction vocab as [|y v IH]; intros i; cbn; [reflexivity|]. rewrite IH. f_equal.
    destruct (Z.eqb_spec z y) as [->|N]; [now rewrite String.eqb_refl|].
    destruct (String.eqb_spec (as_string z) (as_string y)) as [E|]; [|reflexivity]. apply as_string_inj in E. contradiction. }
  rewrite M. now destruct vocab.
Qed.

Lemma integers_exact : forall (batches : list (list Z)) sch keys,
  runner_counts (map (map as_string) batches) sch keys ->
  Forall (fun z => dmin Int64 <= z <= dmax Int64) (concat batches) ->
  Z.of_nat (length (concat batches)) < 2 ^ 63 -> concat batches <> [] ->
  exists counts elements, histogram_of_integers sch keys = Some (counts, elements) /\
    NoDup elements /\ (forall z, In z elements <-> In z (concat batches)) /\
    counts = map (fun z => how_many (Z.eqb z) (concat batches)) elements /\
    forall x, exists q, mass_of_integer counts elements x = Some (Fin q) /\
      (q == inject_Z (how_many (Z.eqb x) (concat batches)) / inject_Z (Z.of_nat (length (concat batches))))%Q.
Proof.
  intros batches sch keys R FB L NE.
  assert (CC : concat (map (map as_string) batches) = map as_string (concat batches)) by (symmetry; apply concat_map).
  assert (HM : forall z, how_many (String.eqb (as_string z)) (concat (map (map as_string) batches))
                         = how_many (Z.eqb z) (concat batches)).
  { intros z. rewrite CC. unfold how_many. rewrite filter_map, map_length. f_equal. f_equal. apply filter_ext.
    intros y. destruct (Z.eqb_spec z y) as [->|N]; [apply String.eqb_refl|].
    apply String.eqb_neq. intros E. apply as_string_inj in E. contradiction. }
  destruct (mass_exact _ _ _ R) as (vocab & counts & E & ND & KV & C & M).
  { rewrite CC, map_length. exact L. } { rewrite CC. intros H. apply map_eq_nil in H. contradiction. }
  destruct (preimages _ _ as_string vocab) as (elements & ->).
  { intros k Hk. apply KV in Hk. rewrite CC in Hk. apply in_map_iff in Hk as (z & <- & _). eauto. }
  assert (KE : forall z, In z elements <-> In z (concat batches)).
  { intros z. split.
    - intros Hz. apply (in_map as_string), KV in Hz. rewrite CC in Hz. apply in_map_iff in Hz as (y & Ey & Hy).
      apply as_string_inj in Ey. now subst y.
    - intros Hz. apply (in_map as_string) in Hz. rewrite <- CC in Hz. apply KV in Hz.
      apply in_map_iff in Hz as (y & Ey & Hy). apply as_string_inj in Ey. now subst y. }
  exists counts, elements. unfold histogram_of_integers. rewrite E, map_map.
  rewrite (all_some_map _ _ _ (fun z => z)).
  2:{ intros z Hz. apply to_number_as_string. rewrite Forall_forall in FB. now apply FB, KE. }
  rewrite map_id. split; [reflexivity|]. split; [now apply (NoDup_map_inv as_string)|]. split; [exact KE|].
  split; [rewrite C, map_map; apply map_ext; intros z; apply HM|].
  intros x. destruct (M (as_string x)) as (q & Mq & Eq). exists q.
  unfold mass_of_integer. rewrite lookup_integer_key. split; [exact Mq|].
  rewrite Eq, HM, CC, map_length. reflexivity.
Qed.

(** A list of densities sums up to one over the bins of the histogram. *)
Lemma densities_exact : forall s vs, (2 <= length s)%nat -> StronglySorted Qle s ->
  vs <> [] -> (hd 0 s < last s 0)%Q ->
  let counts := map (fun i => how_many (in_bin s i) vs) (seq 0 (length s - 1)) in
  let width := ((last s 0 - hd 0 s) / inject_Z (Z.of_nat (length s - 1)))%Q in
  exists qs, bucket_densities counts s = map Fin qs /\ length qs = (length s - 1)%nat /\
    Forall (fun q => (0 <= q)%Q) qs /\ (fold_right Qplus 0 (map (fun q => q * width) qs) == 1)%Q.
Proof.
  intros s vs L HS NE W counts width.
  assert (LC : length counts = (length s - 1)%nat) by (unfold counts; now rewrite map_length, seq_length).
  assert (SC : fold_right Z.add 0 counts = Z.of_nat (length vs)) by (apply counts_sum; assumption).
  assert (PV : (0 < inject_Z (Z.of_nat (length vs)))%Q).
  { destruct vs; [congruence|]. unfold Qlt. cbn [inject_Z Qnum Qden length]. lia. }
  assert (PL : (0 < inject_Z (Z.of_nat (length s - 1)))%Q).
  { unfold Qlt. cbn [inject_Z Qnum Qden]. lia. }
  assert (PW : (0 < width)%Q).
  { unfold width. apply Qlt_shift_div_l; [exact PL|]. lra. }
  assert (NV : ~ (inject_Z (Z.of_nat (length vs)) == 0)%Q) by (intros H; rewrite H in PV; now apply Qlt_irrefl in PV).
  assert (NL : ~ (inject_Z (Z.of_nat (length s - 1)) == 0)%Q) by (intros H; rewrite H in PL; now apply Qlt_irrefl in PL).
  assert (NW : ~ (width == 0)%Q) by (intros H; rewrite H in PW; now apply Qlt_irrefl in PW).
  exists (map (fun i => (inject_Z (how_many (in_bin s i) vs) / inject_Z (Z.of_nat (length vs)) / width)%Q)
            (seq 0 (length s - 1))).
  split; [|split; [|split]].
  - unfold bucket_densities, probabilities. rewrite LC, SC, fdiv_fin by exact NL.
    unfold counts. rewrite !map_map. apply map_ext. intros i.
    rewrite fdiv_fin by exact NV. now rewrite fdiv_fin by exact NW.
  - now rewrite map_length, seq_length.
  - apply Forall_forall. intros q Hq. apply in_map_iff in Hq as (i & <- & _).
    apply Qle_shift_div_l; [exact PW|]. rewrite Qmult_0_l. apply Qle_shift_div_l; [exact PV|]. rewrite Qmult_0_l.
    unfold how_many, Qle. cbn [inject_Z Qnum Qden]. lia.
  - rewrite map_map. apply sum_density; assumption.
Qed.

(** ** A runner for every dataset *)
Definition simple_schedule (batches : list (list string)) (k : string) : sched (sched (list arr)) :=
  Bundle [Bundle (inputs_of_key k (map batch_count_per_key batches))].
Definition simple_keys (batches : list (list string)) : list string :=
  nodup String.string_dec (concat batches).

Lemma simple_runner : forall batches,
  runner_counts batches (simple_schedule batches) (simple_keys batches).
Proof.
  intros batches. split.
  - apply NoDup_nodup.
  - intros k. apply nodup_In.
  - intros k _. cbn. now rewrite !app_nil_r.
Qed.

(** ** The boundaries that are given *)
Lemma shifted_from_on : forall b j v, (j < length b)%nat -> ~ just_below (nth j b 0%Q) v ->
  fltb (Fin (nth j (shifted b) 0%Q)) v = from_on (nth j b 0%Q) v.
Proof.
  intros b j v Hj N. unfold shifted.
  rewrite (nth_indep _ 0%Q ((fun q => q - (1 # 10000))%Q 0%Q)) by now rewrite map_length.
  rewrite (map_nth (fun q => (q - (1 # 10000))%Q)). set (q := nth j b 0%Q) in *.
  destruct v as [x| |[|]]; cbn [fltb from_on]; try reflexivity.
  destruct (Qle_bool q x) eqn:E.
  - apply Qle_bool_iff in E. apply negb_true_iff. destruct (Qle_bool x (q - (1 # 10000))) eqn:F; [|reflexivity].
    apply Qle_bool_iff in F. lra.
  - assert (x < q)%Q as L. { apply Qnot_le_lt. intros C. apply Qle_bool_iff in C. congruence. }
    apply negb_false_iff. apply Qle_bool_iff. apply Qnot_lt_le. intros C. apply N. exists x. auto.
Qed.

Lemma how_many_ext_in : forall A (p q : A -> bool) l, (forall x, In x l -> p x = q x) -> how_many p l = how_many q l.
Proof. intros A p q l H. unfold how_many. now rewrite (filter_ext_in _ _ _ H). Qed.

Lemma given_boundaries : forall b bs sch keys,
  (2 <= length b)%nat -> Z.of_nat (length b) <= 2 ^ 31 -> StronglySorted Qle b ->
  Z.of_nat (length (concat bs)) < 2 ^ 63 ->
  (forall q v, In q b -> In v (concat bs) -> ~ just_below q v) ->
  runner_counts (map (bucket_keys (shifted b)) bs) sch keys ->
  exists s, histogram b sch keys
  = Some (map (fun i => how_many (in_given_bin b i) (concat bs)) (seq 0 (length b - 1)), s).
Proof.
  intros b bs sch keys L2 LB HS LN NB R. exists (shifted b). rewrite (histogram_exact b bs) by assumption.
  f_equal. f_equal. apply map_ext_in. intros i Hi. apply in_seq in Hi. apply how_many_ext_in. intros v Hv.
  unfold in_bin, in_given_bin. rewrite shifted_length.
  destruct (Nat.eq_dec i 0) as [->|Z0].
  - cbn [Nat.eqb orb andb]. destruct (0 + 2 =? length b)%nat; [reflexivity|]. cbn [orb]. f_equal.
    apply shifted_from_on; [lia|]. apply NB; [apply nth_In; lia|exact Hv].
  - rewrite !shifted_from_on; try lia; try reflexivity; apply NB; try exact Hv; apply nth_In; lia.
Qed.
