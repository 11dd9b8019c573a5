(** * Proofs about the information of a token: expectations, labels and datasets *)
From Coq Require Import List ZArith Reals Bool Arith Lia Lra Permutation.
From Verif Require Import InfoModel InfoSpec InfoProofs.
Import ListNotations.
Local Open Scope R_scope.

Lemma ln_2_pos : 0 < ln 2.
Proof. rewrite <- ln_1. apply ln_increasing; lra. Qed.
Lemma log_2_mult a b : 0 < a -> 0 < b -> log_2 (a * b) = log_2 a + log_2 b.
Proof. intros A B. unfold log_2. rewrite ln_mult by assumption. pose proof ln_2_pos. field. lra. Qed.
Lemma log_2_div a b : 0 < a -> 0 < b -> log_2 (a / b) = log_2 a - log_2 b.
Proof. intros A B. unfold log_2. replace (ln (a / b)) with (ln a - ln b); [pose proof ln_2_pos; field; lra|]. unfold Rdiv. rewrite ln_mult, ln_Rinv by (assumption || now apply Rinv_0_lt_compat). ring. Qed.
Lemma is_zero_true x : x = 0 -> is_zero x = true.
Proof. intros H. unfold is_zero. destruct (Req_EM_T x 0); [reflexivity|contradiction]. Qed.
Lemma is_zero_false x : x <> 0 -> is_zero x = false.
Proof. intros H. unfold is_zero. destruct (Req_EM_T x 0); [contradiction|reflexivity]. Qed.

(** ** The expected information *)
Lemma expected_loop_right coefficient : forall pmf a b, (forall k p, In (k, p) pmf -> (0 <= k)%Z) ->
  expected_loop coefficient pmf a b
  = Some (a + total (fun kp => if (fst kp =? 0)%Z then 0 else IZR (fst kp) * (coefficient + log_2 (IZR (fst kp))) * snd kp) pmf, b + total snd pmf).
Proof.
  induction pmf as [|[k p] pmf IH]; intros a b H; cbn [expected_loop total fold_right fst snd]; [now rewrite !Rplus_0_r|].
  assert (Hk := H k p (or_introl eq_refl)). destruct (Z.eqb_spec k 0) as [->|Ne]; cbn [bind].
  - rewrite IH by (intros k' p' I; apply (H k' p'); now right). f_equal. f_equal; unfold total; lra.
  - rewrite log2_some by (apply IZR_lt; lia). cbn [bind]. rewrite IH by (intros k' p' I; apply (H k' p'); now right). f_equal. f_equal; unfold total; lra.
Qed.

Lemma falses_labels labels : falses labels = (length labels - trues labels)%nat.
Proof. pose proof (trues_falses labels). lia. Qed.

Section Expected.
Variable lgamma : R -> option R.
Hypothesis lgamma_right : is_lgamma lgamma.
Variables (x : nat) (labels : list bool) (arrs : list (list bool)).
Let n := length labels.
Let y := trues labels.
Hypothesis x_le : (x <= n)%nat.
Hypothesis arrs_all : all_arrangements n x arrs.

Lemma y_le : (y <= n)%nat.
Proof. unfold y, n. pose proof (trues_falses labels). lia. Qed.
Lemma arrs_perm : Permutation arrs (arr n x).
Proof. apply NoDup_Permutation; [apply arrs_all|apply arr_nodup|]. intros bs. rewrite arr_in. apply arrs_all. Qed.
Lemma arrs_length : length arrs = binom n x.
Proof. rewrite (Permutation_length arrs_perm). apply arr_length. Qed.
Lemma arrs_pos : 0 < INR (length arrs).
Proof. rewrite arrs_length. apply lt_0_INR, binom_pos, x_le. Qed.
Lemma count_in_arrs k : length (filter (fun bs => both bs labels =? k)%nat arrs) = (if k <=? x then binom y k * binom (n - y) (x - k) else 0)%nat.
Proof.
  unfold y, n. rewrite <- falses_labels, <- count_both. apply Permutation_length.
  pose proof arrs_perm as P. unfold n in P. clear -P. induction P; cbn [filter]; try (destruct (both _ _ =? k)%nat); try (destruct (both _ _ =? k)%nat); eauto using Permutation.
Qed.
Lemma both_range bs : In bs arrs -> In (both bs labels) (seq (x + y - n) (S (Nat.min x y) - (x + y - n))).
Proof.
  intros I. apply arrs_all in I as [L T]. destruct (both_bounds bs labels L) as (A & B & C). rewrite T in *. fold n in C. fold y in B, C. apply in_seq. pose proof y_le. lia.
Qed.

(** The probability of every overlap is its share of the arrangements. *)
Theorem probabilities_right : exists l, hypergeometric_pmf lgamma (INR n) (INR x) (INR y) = Some l /\ NoDup (map fst l) /\
  (forall k p, In (k, p) l -> (0 <= k)%Z /\ p = INR (length (filter (fun bs => both bs labels =? Z.to_nat k)%nat arrs)) / INR (length arrs)) /\
  (forall bs, In bs arrs -> In (Z.of_nat (both bs labels)) (map fst l)).
Proof.
  rewrite (pmf_right lgamma lgamma_right n x y x_le y_le). eexists. split; [reflexivity|]. rewrite map_map. cbn [fst]. split; [|split].
  - apply FinFun.Injective_map_NoDup; [intros a b; apply Nat2Z.inj|apply seq_NoDup].
  - intros k p I. apply in_map_iff in I as (j & E & I). injection E as <- <-. split; [lia|]. apply in_seq in I. rewrite Nat2Z.id, count_in_arrs, arrs_length.
    pose proof (start_le n x y x_le y_le). destruct (Nat.leb_spec j x) as [_|L]; [|lia]. apply (probability n x y x_le y_le). lia.
  - intros bs I. apply both_range in I. apply in_map_iff. exists (both bs labels). split; [reflexivity|exact I].
Qed.

Lemma total_in_arrs F : total (fun bs => F (both bs labels)) arrs
  = INR (length arrs) * total (fun j => F j * exp (numerator n x y - denominator n x y j)) (seq (x + y - n) (S (Nat.min x y) - (x + y - n))).
Proof.
  rewrite (total_group (fun bs => both bs labels) F (seq (x + y - n) (S (Nat.min x y) - (x + y - n))) arrs (seq_NoDup _ _) both_range), <- total_scale.
  apply total_ext. intros k I. apply in_seq in I. rewrite count_in_arrs. pose proof (start_le n x y x_le y_le).
  destruct (Nat.leb_spec k x) as [_|L]; [|lia]. rewrite (probability n x y x_le y_le) by lia. rewrite <- arrs_length. pose proof arrs_pos. field. lra.
Qed.

(** The expectation is the average over all the arrangements. *)
Theorem expected_right : calculate_partial_expected_mutual_information lgamma (INR n) (INR x) (INR y)
  = Some (average (fun bs => pair_information n x y (both bs labels)) arrs).
Proof.
  pose proof arrs_pos as P. unfold calculate_partial_expected_mutual_information.
  assert (Z0 : (x = 0 \/ y = 0)%nat -> average (fun bs => pair_information n x y (both bs labels)) arrs = 0).
  { intros H. unfold average. rewrite (total_ext _ (fun _ => 0)), total_zero; [unfold Rdiv; lra|]. intros bs I. apply arrs_all in I as [L T].
    destruct (both_bounds bs labels L) as (A & B & _). rewrite T in A. fold y in B. unfold pair_information. assert (both bs labels = 0%nat) as -> by lia. reflexivity. }
  destruct (Nat.eq_dec x 0) as [E|Nx]; [rewrite (is_zero_true (INR x)) by (now rewrite E); cbn [orb]; rewrite Z0; auto|].
  destruct (Nat.eq_dec y 0) as [E|Ny]; [rewrite (is_zero_true (INR y)) by (now rewrite E); rewrite orb_true_r; rewrite Z0; auto|].
  assert (Px : 0 < INR x) by (apply lt_0_INR; lia). assert (Py : 0 < INR y) by (apply lt_0_INR; lia). assert (Pn : 0 < INR n) by (apply lt_0_INR; lia).
  rewrite !is_zero_false by lra. cbn [orb]. rewrite !log2_some by assumption. cbn [bind].
  rewrite (pmf_right lgamma lgamma_right n x y x_le y_le). cbn [bind]. rewrite expected_loop_right.
  2:{ intros k p I. apply in_map_iff in I as (j & E & _). injection E as <- _. lia. }
  cbn [bind fst snd]. rewrite !Rplus_0_l, !total_map. cbn [fst snd].
  set (ks := seq (x + y - n) (S (Nat.min x y) - (x + y - n))).
  assert (One : total (fun j => exp (numerator n x y - denominator n x y j)) ks = 1).
  { pose proof (total_in_arrs (fun _ => 1)) as T. cbv beta in T. rewrite total_const in T. fold ks in T.
    rewrite (total_ext _ (fun j => exp (numerator n x y - denominator n x y j))) in T by (intros; lra). nra. }
  rewrite One. unfold divide. destruct (Req_EM_T 1 0) as [E|_]; [lra|]. f_equal. unfold average. rewrite total_in_arrs. fold ks.
  match goal with |- _ = _ * ?t / _ => replace (INR (length arrs) * t / INR (length arrs)) with t by (field; lra) end.
  unfold Rdiv. rewrite Rinv_1, Rmult_1_r. apply total_ext. intros k _. unfold pair_information.
  destruct (Nat.eqb_spec k 0) as [->|Nk]; [cbn; lra|]. destruct (Z.eqb_spec (Z.of_nat k) 0) as [E|_]; [lia|]. rewrite <- INR_IZR_INZ.
  assert (Pk : 0 < INR k) by (apply lt_0_INR; lia). unfold about_label.
  rewrite log_2_div, !log_2_div by (assumption || (apply Rdiv_lt_0_compat; assumption)). field. lra.
Qed.
End Expected.

(** ** Sizes of lists of rows *)
Definition nonneg (rows : list row) : Prop := forall r, In r rows -> 0 <= weight r.
Lemma total_nonneg {A} (f : A -> R) l : (forall a, In a l -> 0 <= f a) -> 0 <= total f l.
Proof. unfold total. induction l as [|a l IH]; intros H; cbn; [lra|]. assert (H1 := H a (or_introl eq_refl)). assert (H2 := IH (fun b I => H b (or_intror I))). lra. Qed.
Lemma size_nonneg rows : nonneg rows -> 0 <= size rows.
Proof. intros H. now apply total_nonneg. Qed.
Lemma labelled_nonneg j rows : nonneg rows -> nonneg (labelled j rows).
Proof. intros H r I. apply filter_In in I as [I _]. auto. Qed.
Lemma having_nonneg rows : nonneg rows -> nonneg (having rows).
Proof. intros H r I. apply filter_In in I as [I _]. auto. Qed.
Lemma filter_size_le p rows : nonneg rows -> size (filter p rows) <= size rows.
Proof.
  unfold size, total. induction rows as [|r rows IH]; intros H; cbn; [lra|]. assert (H1 := H r (or_introl eq_refl)). assert (H2 := IH (fun b I => H b (or_intror I))).
  destruct (p r); cbn; lra.
Qed.
(** The labels partition the rows. *)
Lemma labels_partition rows ls : NoDup ls -> (forall r, In r rows -> In (label r) ls) -> total (fun j => size (labelled j rows)) ls = size rows.
Proof.
  intros N. induction rows as [|r rows IH]; intros H.
  - cbn. unfold size. cbn. apply total_zero.
  - specialize (IH (fun r' I => H r' (or_intror I))). assert (Hr := H r (or_introl eq_refl)).
    assert (E : forall j, In j ls -> size (labelled j (r :: rows)) = (if (label r =? j)%nat then weight r else 0) + size (labelled j rows)).
    { intros j _. unfold labelled, size, total. cbn [filter]. destruct (label r =? j)%nat; cbn [fold_right]; lra. }
    rewrite (total_ext _ _ _ E), total_plus, IH. unfold size at 2. cbn. fold (size rows). f_equal. clear -N Hr.
    induction ls as [|j ls IH]; [destruct Hr|]. inversion N as [|? ? Nj Nls]; subst. cbn. destruct (Nat.eqb_spec (label r) j) as [<-|Ne].
    + fold (total (fun j => if (label r =? j)%nat then weight r else 0) ls). rewrite (total_ext _ (fun _ => 0)), total_zero; [lra|].
      intros j I. destruct (Nat.eqb_spec (label r) j) as [<-|]; [contradiction|reflexivity].
    + destruct Hr as [Hr|Hr]; [congruence|]. fold (total (fun j => if (label r =? j)%nat then weight r else 0) ls). rewrite IH by assumption. lra.
Qed.

(** ** The loop over the labels *)
Lemma clip_moved p : moved p (clip_probability p) /\ 0 < clip_probability p.
Proof.
  unfold moved, clip_probability, Rmin, Rmax. destruct (Rle_dec p _); destruct (Rle_dec _ _); repeat split; intros; lra.
Qed.
Lemma moved_unique p q q' : moved p q -> moved p q' -> q = q'.
Proof.
  intros (A1 & A2 & A3) (B1 & B2 & B3). destruct (Rlt_dec p (1 / 1000000)) as [L|L]; [rewrite A1, B1 by assumption; reflexivity|].
  destruct (Rlt_dec (1 - 1 / 1000000) p) as [G|G]; [rewrite A2, B2 by assumption; reflexivity|]. rewrite A3, B3 by lra. reflexivity.
Qed.
Lemma partial_right q x y n : 0 < q -> 0 < x -> 0 < y -> 0 < n ->
  calculate_partial_mutual_information (q * x) x y n = Some (about_label x q (y / n)).
Proof.
  intros Q X Y N. unfold calculate_partial_mutual_information. assert (0 < q * x) by now apply Rmult_lt_0_compat.
  rewrite !is_zero_false by lra. cbn [orb]. rewrite !log2_some by assumption. cbn [bind]. f_equal. unfold about_label.
  rewrite log_2_mult, log_2_div, log_2_div by (assumption || (apply Rdiv_lt_0_compat; assumption)). lra.
Qed.

Section Labels.
Variable lgamma : R -> option R.
Variables (adjusted : bool) (min_diff n x : R) (cur : accumulator).
Variables (Y q : nat -> R) (emi : nat -> R).
Hypothesis n_pos : 0 < n.
Hypothesis x_pos : 0 < x.
Hypothesis Y_nonneg : forall j, 0 <= Y j.
Hypothesis q_right : forall j, clip_probability (nth j (acc_mean cur) 0) = q j.
Hypothesis x_right : acc_count cur * acc_weight cur = x.
Hypothesis emi_right : forall j, 0 < Y j -> adjusted = true -> calculate_partial_expected_mutual_information lgamma n x (Y j) = Some (emi j).

Definition keepb (j : nat) : bool :=
  negb (is_zero (Y j)) && (if Rlt_dec (Rabs (x * Y j / n - q j * x)) min_diff then false else true).
Lemma q_pos j : 0 < q j.
Proof. rewrite <- q_right. apply clip_moved. Qed.
Lemma label_loop_right : forall m i a b,
  label_loop lgamma adjusted min_diff n x cur i (map Y (seq i m)) a b
  = Some (a + total (fun j => about_label x (q j) (Y j / n)) (filter keepb (seq i m)),
          b + if adjusted then total emi (filter keepb (seq i m)) else 0).
Proof.
  induction m as [|m IH]; intros i a b; cbn [seq map label_loop filter].
  - cbn. f_equal. f_equal; [lra|destruct adjusted; lra].
  - assert (K : keepb i = negb (is_zero (Y i)) && (if Rlt_dec (Rabs (x * Y i / n - q i * x)) min_diff then false else true)) by reflexivity.
    destruct (Req_EM_T (Y i) 0) as [Z|Nz].
    + rewrite (is_zero_true _ Z) in *. cbn [negb andb] in K. rewrite K. apply IH.
    + rewrite (is_zero_false _ Nz) in *. cbn [negb andb] in K. rewrite q_right.
      replace (q i * acc_weight cur * acc_count cur) with (q i * x) by (rewrite <- x_right; ring).
      unfold divide. destruct (Req_EM_T n 0) as [E|_]; [lra|]. cbn [bind].
      destruct (Rlt_dec (Rabs (x * Y i / n - q i * x)) min_diff) as [L|L]; rewrite K; [apply IH|].
      assert (Yp : 0 < Y i) by (pose proof (Y_nonneg i); lra).
      rewrite partial_right by (apply q_pos || assumption). cbn [bind].
      assert (Em : exists e, (if adjusted then calculate_partial_expected_mutual_information lgamma n x (Y i) else Some 0) = Some e /\ (adjusted = true -> e = emi i) /\ (adjusted = false -> e = 0)).
      { destruct adjusted; [exists (emi i); split; [now apply emi_right|split; congruence]|exists 0; split; [reflexivity|split; congruence]]. }
      destruct Em as (e & -> & E1 & E2). cbn [bind]. rewrite IH. cbn [total fold_right]. fold (total (fun j => about_label x (q j) (Y j / n))). f_equal.
      f_equal; [unfold total; lra|]. destruct adjusted; [rewrite E1 by reflexivity; unfold total; cbn; lra|rewrite E2 by reflexivity; lra].
Qed.
End Labels.

(** ** Datasets *)
Section Dataset.
Variables (rows : list row) (ccount : R) (cmeans : list R) (cweight : R) (gcount : R) (gmeans : list R) (gweight : R) (p : nat -> R) (min_diff : R) (ls : list nat).
Hypothesis weights : nonneg rows.
Hypothesis token_pos : 0 < size (having rows).
Hypothesis token_described : describes ccount cmeans cweight (having rows).
Hypothesis global_described : describes gcount gmeans gweight rows.
Hypothesis p_moved : forall j, moved (share j (having rows)) (p j).
Hypothesis ls_counted : lists_counted min_diff p rows ls.

Lemma n_pos : 0 < size rows.
Proof. pose proof (filter_size_le has rows weights). unfold having in token_pos. lra. Qed.
Lemma cmean_share j : nth j cmeans 0 = share j (having rows).
Proof. destruct token_described as (_ & _ & H). specialize (H j). unfold share. rewrite <- H. field. lra. Qed.
Lemma p_right j : clip_probability (nth j cmeans 0) = p j.
Proof. rewrite cmean_share. eapply moved_unique; [apply clip_moved|apply p_moved]. Qed.
Lemma counts_right : map (fun m => m * gweight * gcount) gmeans = map (fun j => size (labelled j rows)) (seq 0 (length gmeans)).
Proof.
  destruct global_described as (_ & E & H).
  transitivity (map (fun j => nth j gmeans 0 * gweight * gcount) (seq 0 (length gmeans))).
  - clear. assert (G : forall l i pre, length pre = i -> map (fun m => m * gweight * gcount) l = map (fun j => nth j (pre ++ l) 0 * gweight * gcount) (seq i (length l))).
    { induction l as [|m l IH]; intros i pre L; [reflexivity|]. cbn [length seq map]. f_equal.
      - rewrite app_nth2, L, Nat.sub_diag by lia. reflexivity.
      - rewrite (IH (S i) (pre ++ [m])) by (rewrite app_length; cbn; lia). now rewrite <- app_assoc. }
    apply (G gmeans 0%nat []). reflexivity.
  - apply map_ext. intros j. rewrite <- H, <- E. ring.
Qed.
Lemma kept_perm : Permutation (filter (keepb min_diff (size rows) (size (having rows)) (fun j => size (labelled j rows)) p) (seq 0 (length gmeans))) ls.
Proof.
  apply NoDup_Permutation; [apply NoDup_filter, seq_NoDup|apply ls_counted|]. intros j. rewrite (proj2 ls_counted j), filter_In. unfold counted, keepb.
  assert (Yn : 0 <= size (labelled j rows)) by now apply size_nonneg, labelled_nonneg. split.
  - intros [_ K]. apply andb_true_iff in K as [K1 K2]. destruct (Req_EM_T (size (labelled j rows)) 0) as [Z|Nz]; [now rewrite (is_zero_true _ Z) in K1|].
    split; [lra|]. destruct (Rlt_dec _ _) as [L|L]; [discriminate|]. lra.
  - intros [K1 K2]. split.
    + apply in_seq. split; [lia|]. destruct (le_lt_dec (length gmeans) j) as [L|L]; [|lia]. exfalso. destruct global_described as (_ & _ & H). specialize (H j).
      rewrite nth_overflow in H by exact L. lra.
    + rewrite is_zero_false by lra. cbn [negb andb]. destruct (Rlt_dec _ _); [lra|reflexivity].
Qed.

Theorem information_right lgamma : py_round (size (having rows)) <> py_round (size rows) -> (py_round (size (having rows)) <= py_round (size rows))%Z ->
  calculate_mutual_information lgamma false min_diff (Accumulator ccount cmeans cweight) (Accumulator gcount gmeans gweight)
  = Information (total (fun j => about_label (size (having rows)) (p j) (share j rows)) ls) (size (having rows)).
Proof.
  intros Ne Le. unfold calculate_mutual_information. cbn [acc_count acc_mean acc_weight].
  destruct token_described as (_ & Ec & _). destruct global_described as (_ & Eg & _). rewrite Ec, Eg, counts_right. pose proof n_pos as Np.
  rewrite is_zero_false by lra. destruct (Z.eqb_spec (py_round (size (having rows))) (py_round (size rows))) as [E|_]; [contradiction|].
  destruct (Z.ltb_spec (py_round (size rows)) (py_round (size (having rows)))) as [L|_]; [lia|].
  rewrite (label_loop_right lgamma false min_diff (size rows) (size (having rows)) (Accumulator ccount cmeans cweight) (fun j => size (labelled j rows)) p (fun _ => 0) Np token_pos).
  - f_equal. rewrite Rplus_0_l. apply total_perm, kept_perm.
  - intros j. now apply size_nonneg, labelled_nonneg.
  - exact p_right.
  - exact Ec.
  - discriminate.
Qed.

(** *** With weights 1 *)
Hypothesis unit_weights : forall r, In r rows -> weight r = 1.
Lemma size_length (l : list row) : (forall r, In r l -> weight r = 1) -> size l = INR (length l).
Proof. intros H. unfold size. rewrite (total_ext _ (fun _ => 1)) by exact H. rewrite total_const. lra. Qed.
Lemma filter_unit f : forall r, In r (filter f rows) -> weight r = 1.
Proof. intros r I. apply filter_In in I as [I _]. auto. Qed.
Lemma filter2_unit f h : forall r, In r (filter f (filter h rows)) -> weight r = 1.
Proof. intros r I. apply filter_In in I as [I _]. now apply (filter_unit h). Qed.

Definition labels_of (j : nat) : list bool := map (fun r => label r =? j)%nat rows.
Lemma labels_length j : length (labels_of j) = length rows.
Proof. apply map_length. Qed.
Lemma labels_trues j : trues (labels_of j) = length (labelled j rows).
Proof. unfold trues, labels_of, labelled. rewrite filter_map, map_length. reflexivity. Qed.

Lemma rearranged_right bs j x : length bs = length rows -> trues bs = x -> (0 < x)%nat ->
  exact_about j (rearranged bs rows) = pair_information (length rows) x (length (labelled j rows)) (both bs (labels_of j)).
Proof.
  intros L T Px.
  assert (U : forall rows' bs', (forall r, In r rows' -> weight r = 1) -> length bs' = length rows' ->
    size (having (rearranged bs' rows')) = INR (trues bs') /\
    size (labelled j (having (rearranged bs' rows'))) = INR (both bs' (map (fun r => label r =? j)%nat rows')) /\
    size (rearranged bs' rows') = INR (length rows') /\ size (labelled j (rearranged bs' rows')) = INR (length (labelled j rows'))).
  { clear. induction rows' as [|r rows' IH]; intros [|b bs'] W L; try discriminate.
    - unfold having, labelled, rearranged, size, both, trues. cbn. lra.
    - injection L as L. destruct (IH bs' (fun r I => W r (or_intror I)) L) as (A & B & C & D). assert (Wr := W r (or_introl eq_refl)).
      unfold rearranged in *. cbn [combine map]. unfold having, labelled in *. cbn [filter has fst snd label weight length map].
      rewrite both_cons.
      repeat split.
      + unfold trues in *. destruct b; cbn [filter length]; [|exact A]. unfold size in *. cbn [total fold_right weight]. unfold total in *. rewrite S_INR, A, Wr. lra.
      + destruct b; cbn [andb]; [|exact B]. cbn [filter label]. destruct (label r =? j)%nat; [|exact B]. unfold size in *. cbn [total fold_right weight]. unfold total in *.
        rewrite B, Wr, plus_INR. cbn. lra.
      + unfold size in *. cbn [total fold_right weight]. unfold total in *. rewrite S_INR, C, Wr. lra.
      + destruct (label r =? j)%nat; [|exact D]. cbn [length]. unfold size in *. cbn [total fold_right weight]. unfold total in *. rewrite S_INR, D, Wr. lra. }
  destruct (U rows bs unit_weights L) as (A & B & C & D). unfold exact_about, share, pair_information, labels_of. rewrite A, B, C, D, T.
  destruct (Nat.eqb_spec (both bs (map (fun r => (label r =? j)%nat) rows)) 0) as [E|Nk].
  - rewrite E. destruct (Req_EM_T (INR 0) 0) as [_|N0]; [reflexivity|]. now cbn in N0.
  - destruct (Req_EM_T _ 0) as [E|_]; [|reflexivity]. exfalso. apply Nk. apply INR_eq. now rewrite E.
Qed.

Theorem adjusted_right lgamma arrs : is_lgamma lgamma -> all_arrangements (length rows) (length (having rows)) arrs ->
  (length (having rows) < length rows)%nat ->
  calculate_mutual_information lgamma true min_diff (Accumulator ccount cmeans cweight) (Accumulator gcount gmeans gweight)
  = Information (total (fun j => about_label (size (having rows)) (p j) (share j rows)) ls
                 - average (fun bs => total (fun j => exact_about j (rearranged bs rows)) ls) arrs) (size (having rows)).
Proof.
  intros Lg Al Lt. unfold calculate_mutual_information. cbn [acc_count acc_mean acc_weight].
  destruct token_described as (_ & Ec & _). destruct global_described as (_ & Eg & _). rewrite Ec, Eg, counts_right. pose proof n_pos as Np.
  assert (Sx : size (having rows) = INR (length (having rows))) by apply size_length, filter_unit.
  assert (Sn : size rows = INR (length rows)) by now apply size_length.
  rewrite is_zero_false by lra. rewrite Sx at 1. rewrite Sn at 1. rewrite !py_round_INR.
  destruct (Z.eqb_spec (Z.of_nat (length (having rows))) (Z.of_nat (length rows))) as [E|_]; [lia|].
  rewrite Sx at 1. rewrite Sn at 1. rewrite !py_round_INR.
  destruct (Z.ltb_spec (Z.of_nat (length rows)) (Z.of_nat (length (having rows)))) as [L|_]; [lia|].
  assert (Px : (0 < length (having rows))%nat) by (rewrite Sx in token_pos; apply INR_lt; cbn; exact token_pos).
  rewrite (label_loop_right lgamma true min_diff (size rows) (size (having rows)) (Accumulator ccount cmeans cweight) (fun j => size (labelled j rows)) p
    (fun j => average (fun bs => exact_about j (rearranged bs rows)) arrs) Np token_pos).
  - f_equal. rewrite !Rplus_0_l. rewrite (total_perm _ _ _ kept_perm). f_equal. rewrite (total_perm _ _ _ kept_perm).
    unfold average, Rdiv. rewrite (total_ext _ (fun j => / INR (length arrs) * total (fun bs => exact_about j (rearranged bs rows)) arrs)) by (intros; ring).
    rewrite total_scale, total_swap. ring.
  - intros j. now apply size_nonneg, labelled_nonneg.
  - exact p_right.
  - exact Ec.
  - intros j _ _. rewrite Sx, Sn, (size_length (labelled j rows)) by apply filter_unit.
    pose proof (expected_right lgamma Lg (length (having rows)) (labels_of j) arrs) as X. rewrite labels_length, labels_trues in X.
    rewrite X by (assumption || lia). f_equal. unfold average. f_equal. apply total_ext. intros bs I. apply Al in I as [L T]. symmetry. now apply rearranged_right.
Qed.
End Dataset.

(** ** Information is not negative *)
Lemma about_bound x p q : 0 < x -> 0 < p -> 0 < q -> x * (p - q) / ln 2 <= about_label x p q.
Proof.
  intros X P Q. unfold about_label, log_2. pose proof ln_2_pos as L2.
  assert (H : ln (q / p) <= q / p - 1).
  { assert (0 < q / p) by now apply Rdiv_lt_0_compat. pose proof (exp_ineq1_le (ln (q / p))) as E. rewrite exp_ln in E by assumption. lra. }
  assert (E : ln (p / q) = - ln (q / p)) by (rewrite <- ln_Rinv by (now apply Rdiv_lt_0_compat); f_equal; field; lra).
  replace (x * (p * (ln (p / q) / ln 2))) with (x * (p * ln (p / q)) / ln 2) by (field; lra).
  unfold Rdiv. apply Rmult_le_compat_r; [left; now apply Rinv_0_lt_compat|]. apply Rmult_le_compat_l; [lra|]. fold (p / q). rewrite E.
  apply Rmult_le_compat_l with (r := p) in H; [|lra]. replace (p * (q / p - 1)) with (q - p) in H by (field; lra). lra.
Qed.
Lemma total_le {A} (f h : A -> R) l : (forall a, In a l -> f a <= h a) -> total f l <= total h l.
Proof. unfold total. induction l as [|a l IH]; intros H; cbn; [lra|]. assert (H1 := H a (or_introl eq_refl)). assert (H2 := IH (fun b I => H b (or_intror I))). lra. Qed.
Lemma having_labelled j rows : labelled j (having rows) = having (labelled j rows).
Proof. unfold labelled, having. induction rows as [|r rows IH]; cbn; [reflexivity|]. destruct (has r) eqn:H, (label r =? j)%nat eqn:L; cbn; rewrite ?H, ?L, IH; reflexivity. Qed.
Theorem exact_nonneg rows ls : nonneg rows -> 0 < size (having rows) -> NoDup ls -> (forall r, In r rows -> In (label r) ls) ->
  0 <= total (fun j => exact_about j rows) ls.
Proof.
  intros W X N C. pose proof ln_2_pos as L2.
  assert (Np : 0 < size rows) by (pose proof (filter_size_le has rows W); unfold having in X; lra).
  apply Rle_trans with (total (fun j => / ln 2 * (size (labelled j (having rows)) + (- (size (having rows) / size rows)) * size (labelled j rows))) ls).
  - rewrite total_scale, total_plus, total_scale.
    rewrite (labels_partition rows ls N C), (labels_partition (having rows) ls N) by (intros r I; apply filter_In in I as [I _]; auto).
    right. field. split; lra.
  - apply total_le. intros j _. unfold exact_about. destruct (Req_EM_T _ 0) as [Z|Nz].
    + rewrite Z. assert (0 <= size (labelled j rows)) by now apply size_nonneg, labelled_nonneg.
      assert (0 <= / ln 2 * (size (having rows) / size rows * size (labelled j rows))).
      { apply Rmult_le_pos; [left; now apply Rinv_0_lt_compat|]. apply Rmult_le_pos; [|assumption]. left. now apply Rdiv_lt_0_compat. }
      lra.
    + assert (P1 : 0 < size (labelled j (having rows))) by (assert (0 <= size (labelled j (having rows))) by (now apply size_nonneg, labelled_nonneg, having_nonneg); lra).
      assert (P2 : 0 < size (labelled j rows)).
      { rewrite having_labelled in P1. pose proof (filter_size_le has (labelled j rows) (labelled_nonneg j rows W)). unfold having in P1. lra. }
      pose proof (about_bound (size (having rows)) (share j (having rows)) (share j rows) X) as B. unfold share in *.
      specialize (B ltac:(now apply Rdiv_lt_0_compat) ltac:(now apply Rdiv_lt_0_compat)).
      replace (/ ln 2 * (size (labelled j (having rows)) + - (size (having rows) / size rows) * size (labelled j rows)))
        with (size (having rows) * (size (labelled j (having rows)) / size (having rows) - size (labelled j rows) / size rows) / ln 2); [exact B|]. field. repeat split; lra.
Qed.
Theorem independent_zero rows ls : (forall j, share j (having rows) = share j rows) -> 0 < size (having rows) -> nonneg rows -> total (fun j => exact_about j rows) ls = 0.
Proof.
  intros H X W. rewrite (total_ext _ (fun _ => 0)); [apply total_zero|]. intros j _. unfold exact_about. destruct (Req_EM_T _ 0) as [_|Nz]; [reflexivity|].
  rewrite H. unfold about_label, log_2.
  assert (P1 : 0 < size (labelled j (having rows))) by (assert (0 <= size (labelled j (having rows))) by (now apply size_nonneg, labelled_nonneg, having_nonneg); lra).
  assert (0 < share j rows) by (rewrite <- H; unfold share; now apply Rdiv_lt_0_compat).
  unfold Rdiv at 2. rewrite Rinv_r, ln_1 by lra. unfold Rdiv. ring.
Qed.
