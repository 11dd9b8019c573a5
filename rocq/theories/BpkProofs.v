From Coq Require Import String List ZArith QArith Qabs Bool Arith Lia Lqa Sorting.Sorted Sorting.Permutation.
From Verif Require Import NumericModel FloatModel BucketModel BucketSpec BucketProofs PerKeyModel PerKeyProofs
  QuantileModel QuantileSpec QuantileProofs BpkModel BpkSpec.
Import ListNotations.
Local Open Scope Q_scope.

(** ** Rows and batches of one row *)
Lemma split_rows weights b p : split_inputs_by_key weights b = Some p ->
  rows_of weights b = map (fun kb => (fst kb, nth 0 (flat_of 1 weights (snd kb)) (NaN, NaN))) p /\
  Forall (fun kb => batch_ok 1 weights (snd kb) /\ length (flat_of 1 weights (snd kb)) = 1%nat) p.
Proof.
  unfold split_inputs_by_key, rows_of. destruct b as [ks vs ws]; cbn [keys values row_weights].
  destruct (Nat.eqb_spec (length vs) (length ks)) as [E|E]; cbn [negb]; [|discriminate].
  destruct weights; cbn [andb].
  - destruct (Nat.eqb_spec (length ws) (length ks)) as [E'|E']; cbn [negb]; [|discriminate]. intros [= <-].
    revert vs ws E E'. induction ks as [|k ks IH]; intros [|v vs] [|w ws] E E'; try discriminate; [split; [reflexivity|constructor]|].
    cbn [length] in E, E'. destruct (IH vs ws ltac:(lia) ltac:(lia)) as [I1 I2]. cbn [length seq map combine]. split.
    + f_equal. rewrite <- seq_shift, map_map. exact I1.
    + constructor; [|exact I2]. split; [exists 1%nat; split; reflexivity|reflexivity].
  - intros [= <-]. clear ws. revert vs E. induction ks as [|k ks IH]; intros [|v vs] E; try discriminate; [split; [reflexivity|constructor]|].
    cbn [length] in E. destruct (IH vs ltac:(lia)) as [I1 I2]. cbn [length seq map combine]. split.
    + f_equal. rewrite <- seq_shift, map_map. exact I1.
    + constructor; [|exact I2]. split; [exists 1%nat; split; [reflexivity|discriminate]|reflexivity].
Qed.
Lemma all_rows_split weights inputs parts : Forall2 (fun b p => split_inputs_by_key weights b = Some p) inputs parts ->
  rows weights inputs = map (fun kb => (fst kb, nth 0 (flat_of 1 weights (snd kb)) (NaN, NaN))) (concat parts) /\
  Forall (fun kb => batch_ok 1 weights (snd kb) /\ length (flat_of 1 weights (snd kb)) = 1%nat) (concat parts).
Proof.
  unfold rows. induction 1 as [|b p bs ps H F [I1 I2]]; [split; [reflexivity|constructor]|].
  destruct (split_rows weights b p H) as [S1 S2]. cbn [flat_map concat]. split.
  - now rewrite S1, I1, map_app.
  - apply Forall_app. now split.
Qed.

(** One feature: all values are of it. *)
Lemma flat_map_ext_in' {A B} (f g : A -> list B) l : (forall x, In x l -> f x = g x) -> flat_map f l = flat_map g l.
Proof. induction l as [|x l IH]; intros H; [reflexivity|]. cbn. rewrite (H x) by now left. f_equal. apply IH. intros y I. apply H. now right. Qed.
Lemma column_one flat : column_entries 1 0 flat = flat_map (fun vw => entry_of (fst vw) (snd vw)) flat.
Proof.
  unfold column_entries. induction flat as [|[v w] flat IH] using rev_ind; [reflexivity|].
  rewrite app_length. cbn [length]. rewrite Nat.add_1_r, seq_S, !flat_map_app. f_equal.
  - rewrite <- IH. apply flat_map_ext_in'. intros i I. apply in_seq in I. now rewrite nth_error_app1 by lia.
  - cbn [flat_map Nat.add]. rewrite nth_error_app2, Nat.sub_diag by lia. cbn [nth_error]. now rewrite Nat.mod_1_r.
Qed.
Lemma feature_one weights bs : Forall (fun b => length (flat_of 1 weights b) = 1%nat) bs ->
  feature_entries 1 0 weights bs
  = flat_map (fun b => let x := nth 0 (flat_of 1 weights b) (NaN, NaN) in entry_of (fst x) (snd x)) bs.
Proof.
  intros F. unfold feature_entries. rewrite column_one. induction F as [|b bs H F IH]; [reflexivity|].
  cbn [flat_map]. rewrite flat_map_app, IH. f_equal. destruct (flat_of 1 weights b) as [|x [|]]; try discriminate.
  cbn. apply app_nil_r.
Qed.

(** ** The entries of a key *)
Section runner.
  Variables (weights : bool) (inputs : list input) (found : list string) (plans : string -> plan).
  Hypothesis R : runs weights inputs found plans.

  Lemma found_nodup : NoDup found. Proof. destruct R as (parts & _ & N & _). exact N. Qed.
  Lemma found_keys k : In k found <-> In k (map fst (rows weights inputs)).
  Proof.
    destruct R as (parts & F & _ & K & _). destruct (all_rows_split _ _ _ F) as [E _].
    rewrite (K k), E, map_map. cbn [fst]. reflexivity.
  Qed.
  Lemma plan_ok k : In k found -> Forall (batch_ok 1 weights) (batches_of (plans k)) /\
    Permutation (feature_entries 1 0 weights (batches_of (plans k))) (key_entries weights inputs k).
  Proof.
    destruct R as (parts & F & _ & _ & P). intros I. specialize (P k I). destruct (all_rows_split _ _ _ F) as [E O].
    assert (O' : Forall (fun b => batch_ok 1 weights b /\ length (flat_of 1 weights b) = 1%nat)
                   (map snd (filter (fun kb => String.eqb (fst kb) k) (concat parts)))).
    { apply Forall_map, Forall_forall. intros kb H. apply filter_In in H as [H _]. rewrite Forall_forall in O. now apply O. }
    assert (O2 : Forall (fun b => batch_ok 1 weights b /\ length (flat_of 1 weights b) = 1%nat) (batches_of (plans k))).
    { apply Forall_forall. intros b H. rewrite Forall_forall in O'. apply O'. now apply (Permutation_in _ P). }
    split; [eapply Forall_impl; [|exact O2]; cbv beta; tauto|].
    rewrite feature_one by (eapply Forall_impl; [|exact O2]; cbv beta; tauto).
    eapply Permutation_trans; [apply Permutation_flat_map, P|]. unfold key_entries. rewrite E.
    generalize (concat parts). clear. intros l. induction l as [|kb l IH]; [constructor|]. cbn [filter map flat_map fst snd].
    destruct (String.eqb (fst kb) k); cbn [map flat_map]; [apply Permutation_app_head, IH|exact IH].
  Qed.
End runner.

(** ** Permutations do not matter *)
Lemma weight_perm k l l' : Permutation l l' -> weight k l == weight k l'.
Proof.
  induction 1 as [|e l l' P IH|e e' l|l l' l'' P1 I1 P2 I2]; [reflexivity| | |].
  - rewrite !weight_cons, IH. reflexivity.
  - rewrite !weight_cons. ring.
  - rewrite I1. exact I2.
Qed.
Lemma total_perm l l' : Permutation l l' -> total l == total l'.
Proof. apply weight_perm. Qed.
Lemma good_perm l l' : Permutation l l' -> good l -> good l'.
Proof. intros P [F T]. split; [|now rewrite <- (total_perm _ _ P)]. apply Forall_forall. intros e I. rewrite Forall_forall in F. apply F. apply (Permutation_in _ (Permutation_sym P) I). Qed.

(** ** Boundaries that are moved up *)
Lemma cumsum_le eps t : 0 <= eps -> forall i a a' d, StronglySorted Qle (a :: t) -> a' <= a + d ->
  nth i (a' :: np_cumsum a' (map (fun d => qmax d eps) (np_diff (a :: t)))) 0
  <= nth i (a :: t) 0 + d + inject_Z (Z.of_nat i) * eps \/ (length (a :: t) <= i)%nat.
Proof.
  intros E0. induction t as [|b t IH]; intros i a a' d S L.
  - destruct i as [|i]; [left; change (inject_Z (Z.of_nat 0)) with 0; cbn [nth]; lra|right; cbn; lia].
  - change (np_diff (a :: b :: t)) with ((b - a) :: np_diff (b :: t)). cbn [map np_cumsum].
    destruct i as [|i]; [left; change (inject_Z (Z.of_nat 0)) with 0; cbn [nth]; lra|]. cbn [nth].
    assert (Hab : a <= b) by (inversion S as [|? ? _ F]; subst; inversion F; assumption).
    assert (Q : qmax (b - a) eps <= b - a + eps).
    { unfold qmax. destruct (Qle_bool (b - a) eps) eqn:X; [apply Qle_bool_iff in X; lra|lra]. }
    destruct (IH i b (a' + qmax (b - a) eps) (d + eps)) as [H|H]; [inversion S; assumption|lra| |right; cbn in *; lia].
    left. eapply Qle_trans; [exact H|]. rewrite (Nat2Z.inj_succ i). unfold Z.succ. rewrite inject_Z_plus.
    change (inject_Z 1) with 1. change (match i with 0%nat => b | Datatypes.S m => nth m t 0 end) with (nth i (b :: t) 0). apply Qle_lteq. right. ring.
Qed.
Definition gap (row : list Q) : Q :=
  let e := micro * (last row 0 - hd 0 row) in if Qle_bool e 0 then micro else e.
Lemma gap_pos row : 0 < gap row.
Proof. unfold gap. cbv zeta. destruct (Qle_bool (micro * (last row 0 - hd 0 row)) 0) eqn:E; [reflexivity|]. apply qle_bool_false in E. exact E. Qed.
Lemma strict_row_near row row' i : strict_row row = Some row' -> StronglySorted Qle row -> (i < length row)%nat ->
  nth i row 0 <= nth i row' 0 <= nth i row 0 + inject_Z (Z.of_nat i) * gap row.
Proof.
  intros E S L. split.
  - assert (F := strict_row_ge _ _ E). clear E S. revert i L. induction F as [|a b l l' H F IH]; intros i L; cbn in L; [lia|].
    destruct i as [|i]; cbn; [exact H|]. apply IH. lia.
  - destruct row as [|a t]; [discriminate|]. assert (G := gap_pos (a :: t)). unfold strict_row in E. injection E as <-.
    change (if Qle_bool (micro * (last (a :: t) 0 - a)) 0 then micro else micro * (last (a :: t) 0 - a)) with (gap (a :: t)).
    destruct (cumsum_le (gap (a :: t)) t ltac:(lra) i a a 0 S ltac:(lra)) as [H|H]; [|lia].
    eapply Qle_trans; [exact H|]. apply Qle_lteq. right. ring.
Qed.

(** ** Weights of buckets for boundaries that are not exactly the quantiles *)
Section moved.
  Variables (eps : Q) (n : nat) (l : list entry) (qs bs : list Q) (m m' : Q) (X : Q -> Q).
  Hypothesis n1 : (1 <= n)%nat.
  Hypothesis eps0 : 0 <= eps.
  Hypothesis G : nonneg l.
  Hypothesis Ap : approximates eps n l qs.
  Hypothesis Lb : length bs = (n - 1)%nat.
  Hypothesis Sb : StronglySorted Qle bs.
  Hypothesis m0 : 0 <= m.
  Hypothesis m'0 : 0 <= m'.
  Hypothesis upper : forall i, (1 <= i < n)%nat -> weight (fun x => below (nth (i - 1) bs 0) (X x)) l <= weight (below (nth i qs 0)) l + m'.
  Hypothesis lower : forall i, (1 <= i < n)%nat -> weight (at_most (nth i qs 0)) l <= weight (fun x => below (nth (i - 1) bs 0) (X x)) l + m.

  Definition mbucket (x : Q) : nat := count_le (X x) bs.
  Definition mup_to (i : nat) : Q := weight (fun x => (mbucket x <? i)%nat) l.

  Lemma mup_to_inner i : (1 <= i < n)%nat -> mup_to i == weight (fun x => below (nth (i - 1) bs 0) (X x)) l.
  Proof.
    intros L. unfold mup_to. apply weight_ext. intros e _. destruct i as [|i]; [lia|]. rewrite Nat.sub_succ, Nat.sub_0_r.
    assert (P := count_le_position bs (X (fst e)) i Sb). rewrite Lb in P. specialize (P ltac:(lia)).
    unfold mbucket, below. destruct (qle_bool_spec (nth i bs 0) (X (fst e))) as [H|H]; cbn [negb].
    - apply Nat.ltb_ge. destruct (Nat.leb_spec (count_le (X (fst e)) bs) i) as [C|C]; [|lia].
      exfalso. assert (X (fst e) < nth i bs 0) by (now apply P). lra.
    - apply Nat.ltb_lt. assert (C : (count_le (X (fst e)) bs <=? i)%nat = true) by (apply P; lra).
      apply Nat.leb_le in C. lia.
  Qed.
  Lemma mup_to_bounds i : (i <= n)%nat ->
    mup_to i <= (fraction i n + eps) * total l + m' /\ (fraction i n - eps) * total l - m <= mup_to i.
  Proof.
    intros L. assert (T : 0 <= total l) by apply weight_nonneg, G.
    destruct (Nat.eq_dec i 0) as [->|N0]; [|destruct (Nat.eq_dec i n) as [->|Nn]].
    - assert (E : mup_to 0 == 0) by (apply weight_none; reflexivity). rewrite E.
      assert (F : fraction 0 n == 0) by (unfold fraction, Qdiv; cbn; ring). rewrite F. split; nra.
    - assert (E : mup_to n == total l).
      { apply weight_ext. intros e _. apply Nat.ltb_lt. unfold mbucket. assert (H := count_le_length (X (fst e)) bs). lia. }
      rewrite E. assert (F : fraction n n == 1).
      { unfold fraction. apply Qmult_inv_r. intros C. unfold Qeq in C. cbn in C. lia. }
      rewrite F. split; nra.
    - rewrite mup_to_inner by lia. destruct Ap as (_ & _ & A). destruct (A i L) as (_ & A1 & A2).
      specialize (upper i ltac:(lia)). specialize (lower i ltac:(lia)). split; lra.
  Qed.
  Lemma mbucket_bounds i : (i < n)%nat ->
    Qabs (weight (fun x => (mbucket x =? i)%nat) l - total l / inject_Z (Z.of_nat n)) <= 2 * eps * total l + (m + m').
  Proof.
    intros L.
    assert (E : mup_to (S i) == mup_to i + weight (fun x => (mbucket x =? i)%nat) l).
    { apply weight_split; intros e _.
      - destruct (Nat.ltb_spec (mbucket (fst e)) (S i)), (Nat.ltb_spec (mbucket (fst e)) i), (Nat.eqb_spec (mbucket (fst e)) i); cbn; lia.
      - destruct (Nat.ltb_spec (mbucket (fst e)) i), (Nat.eqb_spec (mbucket (fst e)) i); cbn; lia. }
    destruct (mup_to_bounds i ltac:(lia)) as [U1 L1]. destruct (mup_to_bounds (S i) ltac:(lia)) as [U2 L2].
    rewrite fraction_S in U2, L2 by exact n1.
    assert (E' : total l / inject_Z (Z.of_nat n) == 1 / inject_Z (Z.of_nat n) * total l) by (unfold Qdiv; ring).
    rewrite E'. apply Qabs_case; intros _; lra.
  Qed.
End moved.

(** ** The boundaries of a key *)
Section statements.
  Context {sketch : Type} (ops : sketch_ops sketch).
  Variables (r : Q -> Q) (n : nat) (epsilon : option Q) (weights : bool) (inputs : list input) (found : list string) (plans : string -> plan).
  Hypothesis R : runs weights inputs found plans.
  Hypothesis Sh : keeps_shape ops.
  Hypothesis n3 : (3 <= n)%nat.
  Notation eps := (allowed_error n epsilon).
  Notation own k := (key_boundaries ops r n eps weights (plans k)).

  Lemma own_quantiles k : In k found ->
    own k = nth 0 (quantiles ops r 1 n eps weights true (plans k)) [] /\ length (own k) = (n - 1)%nat.
  Proof.
    intros I. destruct (plan_ok _ _ _ _ R k I) as [B _].
    destruct (execute_any ops r 1 n eps weights false (plans k) Sh ltac:(lia) B) as [L F].
    change (negb false) with true in *. change (features false 1) with 1%nat in L.
    unfold key_boundaries. unfold quantiles in *. cbn [features] in *.
    destruct (extract_output ops r (Combiner n eps weights false 1) (execute ops (Combiner n eps weights false 1) (plans k))) as [|row [|]]; try discriminate.
    cbn [concat nth]. rewrite app_nil_r. split; [reflexivity|]. inversion F; assumption.
  Qed.

  Lemma aligned key : In key found -> exists vocab matrix i,
    quantiles_per_key ops r n eps weights plans found = (vocab, matrix) /\ NoDup vocab /\ length matrix = length vocab /\
    Forall (fun row => length row = (n - 1)%nat) matrix /\ nth_error vocab i = Some key /\ nth_error matrix i = Some (own key).
  Proof.
    intros I. unfold quantiles_per_key.
    assert (M := merge_outputs_spec (map (fun k => (k, own k)) found)).
    destruct (merge_outputs_by_key (map (fun k => (k, own k)) found)) as [vocab matrix]. destruct M as (P & L & _).
    assert (V : Permutation vocab found).
    { assert (P' := Permutation_map fst P). rewrite map_map in P'. cbn [fst] in P'. rewrite map_id in P'.
      replace (map fst (combine vocab matrix)) with vocab in P'; [exact P'|].
      clear - L. revert matrix L. induction vocab as [|v vs IH]; intros [|a ms] L; try discriminate; [reflexivity|].
      cbn [combine map fst]. f_equal. apply IH. cbn in L. lia. }
    assert (M : forall k row, In (k, row) (combine vocab matrix) -> In k found /\ row = own k).
    { intros k row H. apply (Permutation_in _ P) in H. apply in_map_iff in H as (k' & E & H). inversion E; subst. now split. }
    assert (H : In (key, own key) (combine vocab matrix)).
    { apply (Permutation_in _ (Permutation_sym P)). apply in_map_iff. now exists key. }
    apply In_nth_error in H as (i & H). exists vocab, matrix, i.
    split; [reflexivity|]. split; [apply (Permutation_NoDup (Permutation_sym V)); exact (found_nodup _ _ _ _ R)|].
    split; [now symmetry|]. split.
    - apply Forall_forall. intros row J. apply In_nth_error in J as (j & J).
      assert (Hj : (j < length vocab)%nat) by (rewrite L; apply nth_error_Some; congruence).
      destruct (nth_error vocab j) as [k|] eqn:K; [|apply nth_error_None in K; lia].
      assert (C : nth_error (combine vocab matrix) j = Some (k, row)).
      { clear - J K. revert matrix j J K. induction vocab as [|v vs IH]; intros [|a ms] [|j] J K; try discriminate; cbn in *; [congruence|now apply IH]. }
      destruct (M k row (nth_error_In _ _ C)) as [If ->]. apply own_quantiles, If.
    - clear - H. revert matrix i H. induction vocab as [|v vs IH]; intros [|a ms] [|i] H; try discriminate; cbn in *.
      + inversion H; subst. split; reflexivity.
      + now apply IH.
  Qed.

  Lemma own_bucket key x : In key found -> exists row', strict_row (own key) = Some row' /\
    bucketize_rows_per_key ops r n epsilon weights plans found key x = Some (Z.of_nat (count_le (r x) row')).
  Proof.
    intros I. destruct (aligned key I) as (vocab & matrix & i & E & ND & L & F & E1 & E2).
    destruct (bucketize_per_key_own_row n vocab matrix key (r x) i _ n3 ND L F E1 E2) as (row' & S & B).
    exists row'. split; [exact S|]. unfold bucketize_rows_per_key. destruct (Nat.ltb_spec n 1); [lia|].
    replace (match epsilon with Some e => e | None => default_epsilon n end) with eps
      by (rewrite <- eps_allowed by lia; reflexivity).
    rewrite E, B. reflexivity.
  Qed.
  Lemma own_bucket_separated key x : In key found -> well_separated (own key) ->
    bucketize_rows_per_key ops r n epsilon weights plans found key x = Some (Z.of_nat (count_le (r x) (own key))).
  Proof.
    intros I W. destruct (aligned key I) as (vocab & matrix & i & E & ND & L & F & E1 & E2).
    assert (B := bucketize_per_key_count n vocab matrix key (r x) i _ n3 ND L F E1 E2 W).
    unfold bucketize_rows_per_key. destruct (Nat.ltb_spec n 1); [lia|].
    replace (match epsilon with Some e => e | None => default_epsilon n end) with eps
      by (rewrite <- eps_allowed by lia; reflexivity).
    rewrite E, B. reflexivity.
  Qed.

  Hypothesis Rr : rounding r.
  Hypothesis Pr : keeps_promise ops eps 1.
  Section key.
    Variable key : string.
    Notation l := (key_entries weights inputs key).
    Notation l' := (feature_entries 1 0 weights (batches_of (plans key))).
    Hypothesis I : In key found.
    Hypothesis Gl : good l.

    Lemma perm : Permutation l' l. Proof. exact (proj2 (plan_ok _ _ _ _ R key I)). Qed.
    Lemma key_dataset : dataset 1 weights (batches_of (plans key)).
    Proof.
      split; [exact (proj1 (plan_ok _ _ _ _ R key I))|]. intros j J. replace j with 0%nat by lia.
      exact (good_perm _ _ (Permutation_sym perm) Gl).
    Qed.
    Lemma approx : exists qs, approximates eps n l' qs /\ own key = boundaries_of r qs.
    Proof.
      assert (P' : keeps_promise ops (eps_of n epsilon) 1) by (rewrite eps_allowed by lia; exact Pr).
      assert (A := row_approximates ops 1 n epsilon weights false (plans key) 0 ltac:(lia) P' (proj1 key_dataset) (proj2 key_dataset) ltac:(cbn; lia)).
      rewrite eps_allowed in A by lia. eexists. split; [exact A|].
      destruct (own_quantiles key I) as [-> _].
      assert (B := execute_built ops (Combiner n eps weights false 1) (plans key) (proj1 key_dataset)).
      destruct (Pr _ _ n ltac:(lia) B (proj2 key_dataset)) as [L _].
      unfold quantiles, extract_output, row_quantiles. rewrite eps_allowed by lia. cbn [num_quantiles include_max_and_min col_of f_of].
      destruct (get_quantiles ops (execute ops (Combiner n eps weights false 1) (plans key)) n) as [|row rows]; [cbn in L; lia|reflexivity].
    Qed.
    Lemma own_sorted : StronglySorted Qle (own key).
    Proof. destruct approx as (qs & A & ->). apply boundaries_sorted; [apply Rr|apply A]. Qed.

    Lemma alone x : well_separated (own key) -> forall d,
      exists b, bucketize ops r (IntT d) 1 n epsilon weights false (plans key) 0 (Fin x) = Some b /\
        bucketize_rows_per_key ops r n epsilon weights plans found key x = Some (Z.of_nat b).
    Proof.
      intros W d. rewrite (own_bucket_separated key x I W). eexists. split; [|reflexivity].
      unfold bucketize. destruct (Nat.ltb_spec n 1); [lia|]. f_equal.
      replace (match epsilon with Some e => e | None => default_epsilon n end) with eps
        by (rewrite <- eps_allowed by lia; reflexivity).
      change (negb false) with true. rewrite <- (proj1 (own_quantiles key I)).
      rewrite apply_buckets_count by exact own_sorted. reflexivity.
    Qed.
    Lemma balanced_separated m i : 0 <= eps -> (i < n)%nat -> well_separated (own key) -> ties_at_most r m l ->
      Qabs (in_bucket (bucketize_rows_per_key ops r n epsilon weights plans found key) i l - total l / inject_Z (Z.of_nat n))
      <= 2 * eps * total l + m.
    Proof.
      intros E0 Hi W T. assert (P := perm).
      assert (H := balanced ops r (IntT Int64) 1 n epsilon weights false (plans key) 0 Rr ltac:(lia) Pr key_dataset ltac:(cbn; lia) m i E0 Hi
                     (or_introl (ex_intro _ Int64 eq_refl))).
      cbn [features feature] in H. rewrite (total_perm _ _ P) in H.
      assert (T' : ties_at_most r m l') by (intros v; rewrite (weight_perm _ _ _ P); apply T). specialize (H T').
      assert (E : in_bucket (bucketize_rows_per_key ops r n epsilon weights plans found key) i l
        == bucket_weight (fun v => bucketize ops r (IntT Int64) 1 n epsilon weights false (plans key) 0 (Fin v)) i l').
      { unfold in_bucket, bucket_weight. rewrite (weight_perm _ _ _ P). apply weight_ext. intros e _.
        destruct (alone (fst e) W Int64) as (b & -> & ->). destruct (Nat.eqb_spec b i), (Z.eqb_spec (Z.of_nat b) (Z.of_nat i)); (reflexivity || lia). }
      rewrite E. exact H.
    Qed.

    Lemma own_among i : (i < n - 1)%nat -> exists e, In e l /\ r (fst e) == nth i (own key) 0.
    Proof.
      intros L. destruct approx as (qs & A & ->). destruct A as (A1 & A2 & A3).
      destruct (A3 (S i) ltac:(lia)) as ((e & Ie & Ee) & _). exists e. split; [apply (Permutation_in _ perm Ie)|].
      rewrite boundaries_nth by lia. apply Qle_antisym; apply Rr; rewrite Ee; apply Qle_refl.
    Qed.
    Lemma gap_bound d : 1 <= d -> spread_at_most r d l -> gap (own key) <= micro * d.
    Proof.
      intros D1 Sp. unfold gap. assert (L := proj2 (own_quantiles key I)).
      destruct (own_among 0 ltac:(lia)) as (e & Ie & Ee). destruct (own_among (n - 2) ltac:(lia)) as (e' & Ie' & Ee').
      assert (H := Sp e e' Ie Ie').
      assert (E0 : nth 0 (own key) 0 = hd 0 (own key)) by (destruct (own key); reflexivity).
      assert (E1 : nth (n - 2) (own key) 0 = last (own key) 0).
      { assert (Ll : forall (q : list Q), nth (length q - 1) q 0 = last q 0).
        { induction q as [|a [|b q] IH]; [reflexivity..|]. cbn [length last] in *. rewrite <- IH.
          replace (S (S (length q)) - 1)%nat with (S (length q)) by lia. replace (S (length q) - 1)%nat with (length q) by lia. reflexivity. }
        rewrite <- Ll, L. f_equal. lia. }
      rewrite E0 in Ee. rewrite E1 in Ee'. cbv zeta. unfold micro.
      destruct (Qle_bool _ 0); lra.
    Qed.
    Lemma balanced_moved d m i : 0 <= eps -> (i < n)%nat -> 1 <= d -> spread_at_most r d l ->
      crowds_at_most r (inject_Z (Z.of_nat n) * (micro * d)) m l ->
      Qabs (in_bucket (bucketize_rows_per_key ops r n epsilon weights plans found key) i l - total l / inject_Z (Z.of_nat n))
      <= 2 * eps * total l + 2 * m.
    Proof.
      intros E0 Hi D1 Sp Cr. assert (P := perm).
      assert (Gn : nonneg l') by (apply (proj2 key_dataset 0%nat); lia).
      assert (m0 : 0 <= m).
      { eapply Qle_trans; [|apply (Cr 0)]. apply weight_nonneg. exact (proj1 Gl). }
      assert (C' : forall v, weight (fun x => Qle_bool v (r x) && Qle_bool (r x) (v + inject_Z (Z.of_nat n) * (micro * d))) l' <= m).
      { intros v. rewrite (weight_perm _ _ _ P). apply Cr. }
      destruct (own_bucket key 0 I) as (row' & S & _).
      assert (L := proj2 (own_quantiles key I)). assert (So := own_sorted). assert (Gb := gap_bound d D1 Sp).
      assert (Gp := gap_pos (own key)).
      destruct (strict_row_spec (own key)) as (row'' & S' & SS & L' & _); [intros C; rewrite C in L; cbn in L; lia|].
      rewrite S in S'. injection S' as <-.
      assert (Sb : StronglySorted Qle row').
      { clear - SS. induction SS as [|a q SS IH F]; constructor; [exact IH|]. eapply Forall_impl; [|exact F]. intros; cbv beta in *; lra. }
      assert (Nr : forall j, (j < n - 1)%nat -> nth j (own key) 0 <= nth j row' 0 <= nth j (own key) 0 + inject_Z (Z.of_nat n) * (micro * d)).
      { intros j J. destruct (strict_row_near (own key) row' j S So ltac:(lia)) as [N1 N2]. split; [exact N1|].
        eapply Qle_trans; [exact N2|]. apply Qplus_le_compat; [apply Qle_refl|].
        assert (Z.of_nat j <= Z.of_nat n)%Z by lia. assert (inject_Z (Z.of_nat j) <= inject_Z (Z.of_nat n)) by now rewrite <- Zle_Qle.
        assert (0 <= inject_Z (Z.of_nat j)) by (change 0 with (inject_Z 0); rewrite <- Zle_Qle; lia). nra. }
      destruct approx as (qs & A & E). assert (Aq : length qs = (n + 1)%nat) by (destruct A as [-> _]; lia).
      assert (U : forall j, (1 <= j < n)%nat -> weight (fun x => below (nth (j - 1) row' 0) (r x)) l' <= weight (below (nth j qs 0)) l' + m).
      { intros j J. assert (N := Nr (j - 1)%nat ltac:(lia)). rewrite E, boundaries_nth in N by lia.
        replace (Datatypes.S (j - 1)) with j in N by lia.
        eapply Qle_trans; [|apply Qplus_le_compat; [apply Qle_refl|apply (C' (r (nth j qs 0)))]].
        eapply Qle_trans; [|apply weight_or; exact Gn]. apply weight_mono; [exact Gn|].
        intros e _ B. apply below_spec in B. apply orb_true_iff.
        destruct (Qlt_le_dec (fst e) (nth j qs 0)) as [H|H]; [left; now apply below_spec|right].
        apply (proj1 Rr) in H. apply andb_true_iff. split; apply Qle_bool_iff; lra. }
      assert (W : forall j, (1 <= j < n)%nat -> weight (at_most (nth j qs 0)) l' <= weight (fun x => below (nth (j - 1) row' 0) (r x)) l' + m).
      { intros j J. assert (N := Nr (j - 1)%nat ltac:(lia)). rewrite E, boundaries_nth in N by lia.
        replace (Datatypes.S (j - 1)) with j in N by lia.
        eapply Qle_trans; [|apply Qplus_le_compat; [apply Qle_refl|apply (C' (r (nth j qs 0)))]].
        eapply Qle_trans; [|apply weight_or; exact Gn]. apply weight_mono; [exact Gn|].
        intros e _ B. apply at_most_spec in B. apply (proj1 Rr) in B. apply orb_true_iff.
        destruct (Qlt_le_dec (r (fst e)) (nth (j - 1) row' 0)) as [H|H]; [left; now apply below_spec|right].
        apply andb_true_iff. split; apply Qle_bool_iff; lra. }
      assert (H := mbucket_bounds eps n l' qs row' m m r ltac:(lia) E0 Gn A ltac:(lia) Sb m0 m0 U W i Hi).
      assert (X : in_bucket (bucketize_rows_per_key ops r n epsilon weights plans found key) i l == weight (fun x => (mbucket row' r x =? i)%nat) l').
      { unfold in_bucket. rewrite (weight_perm _ _ _ P). apply weight_ext. intros e _. unfold mbucket.
        destruct (own_bucket key (fst e) I) as (row'' & S' & ->). rewrite S in S'. injection S' as <-.
        destruct (Nat.eqb_spec (count_le (r (fst e)) row') i), (Z.eqb_spec (Z.of_nat (count_le (r (fst e)) row')) (Z.of_nat i)); (reflexivity || lia). }
      rewrite X. rewrite (total_perm _ _ P) in H. eapply Qle_trans; [exact H|]. lra.
    Qed.
  End key.
End statements.

(** Other keys do not matter. *)
Lemma other_keys {sketch} (ops : sketch_ops sketch) r n epsilon weights inputs inputs' found found' plans plans' key x :
  keeps_shape ops -> (3 <= n)%nat -> runs weights inputs found plans -> runs weights inputs' found' plans' ->
  In key found -> In key found' -> plans key = plans' key ->
  bucketize_rows_per_key ops r n epsilon weights plans found key x = bucketize_rows_per_key ops r n epsilon weights plans' found' key x.
Proof.
  intros Sh n3 R R' I I' E.
  destruct (own_bucket ops r n epsilon weights inputs found plans R Sh n3 key x I) as (row & S & ->).
  destruct (own_bucket ops r n epsilon weights inputs' found' plans' R' Sh n3 key x I') as (row' & S' & ->).
  rewrite E in S. rewrite S in S'. now injection S' as <-.
Qed.

(** Every key of the dataset has buckets, and other keys have -1. *)
Lemma in_buckets {sketch} (ops : sketch_ops sketch) r n epsilon weights inputs found plans key x :
  keeps_shape ops -> (3 <= n)%nat -> runs weights inputs found plans -> rows weights inputs <> [] ->
  exists b, bucketize_rows_per_key ops r n epsilon weights plans found key x = Some b /\
    (In key (map fst (rows weights inputs)) -> (0 <= b < Z.of_nat n)%Z) /\
    (~ In key (map fst (rows weights inputs)) -> b = (-1)%Z).
Proof.
  intros Sh n3 R NE. assert (FK := found_keys _ _ _ _ R). destruct (in_dec String.string_dec key found) as [I|I].
  - destruct (own_bucket ops r n epsilon weights inputs found plans R Sh n3 key x I) as (row' & S & ->).
    eexists. split; [reflexivity|]. split; [intros _|intros C; destruct (C (proj1 (FK key) I))].
    assert (L := proj2 (own_quantiles ops r n epsilon weights inputs found plans R Sh n3 key I)).
    destruct (strict_row_spec (key_boundaries ops r n (allowed_error n epsilon) weights (plans key))) as (row'' & S' & _ & L' & _);
      [intros C; rewrite C in L; cbn in L; lia|].
    rewrite S in S'. injection S' as <-. assert (H := count_le_length (r x) row'). lia.
  - assert (E : exists k0, In k0 found).
    { destruct (rows weights inputs) as [|[k0 v] rest] eqn:E; [congruence|]. exists k0. apply FK. left. reflexivity. }
    destruct E as (k0 & I0). destruct (aligned ops r n epsilon weights inputs found plans R Sh n3 k0 I0) as (vocab & matrix & i & E & ND & L & F & E1 & E2).
    destruct (join_matrix n matrix) as (m & Em & G & EJ); [lia|exact F|].
    unfold bucketize_rows_per_key. destruct (Nat.ltb_spec n 1); [lia|].
    replace (match epsilon with Some e => e | None => default_epsilon n end) with (allowed_error n epsilon)
      by (rewrite <- eps_allowed by lia; reflexivity).
    rewrite E. unfold bucketize_per_key. destruct (Nat.ltb_spec n 1); [lia|]. rewrite EJ. unfold apply_buckets_with_keys.
    assert (NI : ~ In key vocab).
    { unfold quantiles_per_key in E. assert (M := merge_outputs_spec (map (fun k => (k, key_boundaries ops r n (allowed_error n epsilon) weights (plans k))) found)).
      rewrite E in M. destruct M as (P & L2 & _). intros C. apply I.
      assert (P' := Permutation_map fst P). rewrite map_map in P'. cbn [fst] in P'. rewrite map_id in P'.
      apply (Permutation_in _ P'). apply In_nth_error in C as (j & C).
      assert (Hj : (j < length matrix)%nat) by (rewrite <- L2; apply nth_error_Some; congruence).
      clear - C Hj. revert j matrix C Hj. induction vocab as [|v vs IH]; intros [|j] [|a ms] C Hj; try discriminate; cbn in Hj; try lia; cbn in *.
      - left. congruence.
      - right. apply (IH j ms C). lia. }
    destruct (lookup_key_spec key vocab) as [_ K]. rewrite (K NI). cbn [Z.ltb Z.compare Z.to_nat j_scale j_shift].
    assert (Lm : length m = length matrix) by (rewrite <- (map_length Some m), <- Em, map_length; reflexivity).
    destruct m as [|row m]; [destruct vocab; [destruct i; discriminate|cbn in *; lia]|].
    cbn [map shifts nth_error]. eexists. split; [reflexivity|]. split; [intros C; destruct (I (proj2 (FK key) C))|reflexivity].
Qed.
