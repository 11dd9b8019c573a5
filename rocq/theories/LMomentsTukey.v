(** Proofs of the statements of LMomentsProps.v about parameters and transformed values. *)
From Coq Require Import List Arith ZArith QArith Qreals Reals Lra Bool Lia Permutation Sorted Morphisms Setoid.
From Verif Require Import CombineModel CombineProofs FloatModel NumericSpec MeanVarModel MeanVarSpec
  MeanVarProofs ZScoreModel TukeyModel TukeySpec TukeyProofs TukeyNumbers
  LMomentsModel LMomentsSpec LMomentsProofs LMomentsMerge.
Import ListNotations.
Local Open Scope Q_scope.

(** ** Averages *)

Lemma subsets_1 {A} (l : list A) : subsets 1 l = map (fun x => [x]) l.
Proof. induction l as [|x l IH]; [reflexivity|]. cbn. f_equal. destruct l; cbn in *; congruence. Qed.

Lemma within_1 bs : concat bs <> [] -> within 1 bs == mean_of (concat bs).
Proof.
  intros H. unfold within.
  assert (E : subsets_within 1 bs = map (fun x => [x]) (concat bs)).
  { unfold subsets_within. rewrite flat_map_concat_map, concat_map, map_ext with (g := map (fun x => [x])); [reflexivity|].
    intros l. apply subsets_1. }
  rewrite E. rewrite average_is by (destruct (concat bs); [congruence|discriminate]).
  rewrite map_map. unfold number. rewrite map_length. unfold mean_of, q_len.
  change (total (map (fun x => contribution [x]) (concat bs))) with (q_sum (map (fun x => contribution [x]) (concat bs))).
  rewrite (q_sum_map_ext _ (fun x => x)) by (intros; reflexivity). rewrite map_id. reflexivity.
Qed.

Lemma one_batch r xs : within r [xs] = l_moment r xs.
Proof. unfold within, l_moment, subsets_within. cbn. now rewrite app_nil_r. Qed.

Lemma contribution_2_nonneg s : length s = 2%nat -> 0 <= contribution s.
Proof.
  intros L. unfold contribution. pose proof (ascending_sorted s) as H.
  pose proof (Permutation_length (ascending_perm s)) as L'. rewrite L in L'.
  destruct (ascending s) as [|a [|b [|c t]]]; try discriminate L'.
  inversion H as [|? ? _ F]; subst. inversion F; subst.
  apply Qle_shift_div_l; [reflexivity|]. rewrite Qmult_0_l. now apply Qle_minus_iff in H2.
Qed.

Lemma total_nonneg l : Forall (fun x => 0 <= x) l -> 0 <= total l.
Proof. induction 1; cbn; [apply Qle_refl|]. now apply qplus_nonneg. Qed.

Lemma number_pos {A} (l : list A) : l <> [] -> 0 < number l.
Proof. destruct l; [congruence|]. intros _. apply (of_nat_pos (S (length l))). lia. Qed.

Lemma within_2_nonneg bs : 0 <= within 2 bs.
Proof.
  unfold within. destruct (subsets_within 2 bs) as [|s ss] eqn:E; [apply Qle_refl|].
  rewrite average_is by discriminate. rewrite <- E.
  apply Qle_shift_div_l; [apply number_pos; rewrite E; discriminate|]. rewrite Qmult_0_l.
  apply total_nonneg. apply Forall_forall. intros x Hx. apply in_map_iff in Hx as (t & <- & Ht).
  apply contribution_2_nonneg. unfold subsets_within in Ht. apply in_flat_map in Ht as (l & _ & Hl).
  eapply subsets_size. exact Hl.
Qed.

(** ** Affine maps *)

Section Affine.
Variables a b : Q.
Hypothesis a_pos : 0 < a.
Let f (x : Q) : Q := a * x + b.

Lemma subsets_map (g : Q -> Q) l : forall r, subsets r (map g l) = map (map g) (subsets r l).
Proof.
  induction l as [|x l IH]; intros [|r]; cbn [subsets map]; try reflexivity.
  rewrite !IH, map_app, !map_map. reflexivity.
Qed.

Lemma within_map_subsets (g : Q -> Q) r bs :
  subsets_within r (map (map g) bs) = map (map g) (subsets_within r bs).
Proof.
  unfold subsets_within. induction bs as [|l bs IH]; [reflexivity|]. cbn [map flat_map].
  rewrite map_app, IH, subsets_map. reflexivity.
Qed.

Lemma affine_sorted l : StronglySorted Qle l -> StronglySorted Qle (map f l).
Proof.
  induction 1 as [|x l Hs IH Hx]; [constructor|]. cbn [map]. constructor; [exact IH|].
  apply Forall_forall. intros z Hz. apply in_map_iff in Hz as (y & <- & Hy).
  rewrite Forall_forall in Hx. specialize (Hx y Hy). unfold f.
  apply Qplus_le_l, Qmult_le_l; assumption.
Qed.

Lemma affine_ascending s : Forall2 Qeq (ascending (map f s)) (map f (ascending s)).
Proof.
  apply sorted_unique; [apply ascending_sorted|apply affine_sorted, ascending_sorted|].
  rewrite <- ascending_perm. apply Permutation_map, ascending_perm.
Qed.

Lemma affine_contribution s :
  contribution (map f s) == match length s with 1%nat => a * contribution s + b | _ => a * contribution s end.
Proof.
  unfold contribution at 1. rewrite (contribution_equal _ _ (affine_ascending s)).
  unfold contribution. rewrite (Permutation_length (ascending_perm s)).
  destruct (ascending s) as [|x1 [|x2 [|x3 [|x4 [|x5 t]]]]]; cbn [map length]; unfold f; field.
Qed.

Lemma affine_within_1 bs : subsets_within 1 bs <> [] -> within 1 (map (map f) bs) == a * within 1 bs + b.
Proof.
  intros H. unfold within. rewrite within_map_subsets, !average_is; [|exact H|].
  - rewrite map_map. unfold number. rewrite map_length. change (total ?l) with (q_sum l).
    change (inject_Z (Z.of_nat (length (subsets_within 1 bs)))) with (number (subsets_within 1 bs)).
    rewrite (q_sum_map_ext _ (fun s => a * contribution s + b)).
    + rewrite q_sum_map_plus, q_sum_map_scale, q_sum_const.
      change (inject_Z (Z.of_nat (length (subsets_within 1 bs)))) with (number (subsets_within 1 bs)).
      field. intros E. pose proof (number_pos _ H) as P. rewrite E in P. discriminate.
    + intros s Hs. rewrite affine_contribution. unfold subsets_within in Hs.
      apply in_flat_map in Hs as (l & _ & Hl). now rewrite (subsets_size _ _ _ Hl).
  - destruct (subsets_within 1 bs); [congruence|discriminate].
Qed.

Lemma affine_within r bs : (2 <= r)%nat -> within r (map (map f) bs) == a * within r bs.
Proof.
  intros Hr. unfold within. rewrite within_map_subsets.
  destruct (subsets_within r bs) as [|s ss] eqn:E; [cbn; ring|]. rewrite <- E.
  assert (H : subsets_within r bs <> []) by (rewrite E; discriminate). clear E.
  rewrite !average_is; [|exact H|].
  - rewrite map_map. unfold number. rewrite map_length. change (total ?l) with (q_sum l).
    rewrite (q_sum_map_ext _ (fun s => a * contribution s)).
    + rewrite q_sum_map_scale. field.
      intros Z. pose proof (number_pos _ H) as P. unfold number in P. rewrite Z in P. discriminate.
    + intros t Ht. rewrite affine_contribution. unfold subsets_within in Ht.
      apply in_flat_map in Ht as (l & _ & Hl). rewrite (subsets_size _ _ _ Hl).
      destruct r as [|[|r]]; [lia|lia|reflexivity].
  - destruct (subsets_within r bs); [congruence|discriminate].
Qed.

Lemma affine_var l : l <> [] -> var_of (map f l) == a * a * var_of l.
Proof.
  intros H. unfold var_of.
  assert (M : mean_of (map f l) == a * mean_of l + b).
  { unfold mean_of, q_len. rewrite map_length. unfold f at 1.
    rewrite q_sum_map_plus, q_sum_map_scale, q_sum_const, map_id. field.
    intros E. pose proof (q_len_pos l H) as P. unfold q_len in P. rewrite E in P. discriminate. }
  rewrite map_map. unfold q_len. rewrite map_length.
  rewrite (q_sum_map_ext _ (fun x => (a * a) * ((x - mean_of l) * (x - mean_of l)))).
  - rewrite q_sum_map_scale. unfold Qdiv. ring.
  - intros x _. rewrite M. unfold f. ring.
Qed.
End Affine.

Lemma var_nonneg l : l <> [] -> (0 <= var_of l)%Q.
Proof.
  intros H. unfold var_of.
  apply Qle_shift_div_l; [now apply q_len_pos|]. rewrite Qmult_0_l.
  apply total_nonneg. apply Forall_forall. intros z Hz. apply in_map_iff in Hz as (y & <- & _).
  destruct (Qlt_le_dec (y - mean_of l) 0) as [N|N].
  - setoid_replace ((y - mean_of l) * (y - mean_of l))%Q
      with ((- (y - mean_of l)) * (- (y - mean_of l)))%Q by ring.
    apply Qlt_le_weak, Qopp_le_compat in N.
    apply Qmult_le_0_compat; exact N.
  - apply Qmult_le_0_compat; exact N.
Qed.

(** ** Parameters *)

Local Open Scope R_scope.

Lemma Q2R_eq x y : (x == y)%Q -> Q2R x = Q2R y.
Proof. apply Qeq_eqR. Qed.

Lemma hh_l_mean_same h : hh_l_mean h h = 0.
Proof.
  unfold hh_l_mean. replace (1 / (h - 1) + 1 / (1 - h)) with 0; [ring|].
  replace (1 - h) with (- (h - 1)) by ring. unfold Rdiv. rewrite Rinv_opp. ring.
Qed.

Lemma hh_l_scale_pos hl hr : hl < 1 -> hr < 1 -> 0 < hh_l_scale hl hr.
Proof.
  intros Hl Hr. unfold hh_l_scale.
  assert (S0 : 0 < sqrt (2 * PI)) by (apply sqrt_lt_R0; pose proof PI_RGT_0; lra).
  assert (S1 : 0 < sqrt (2 - hl)) by (apply sqrt_lt_R0; lra).
  assert (S2 : 0 < sqrt (2 - hr)) by (apply sqrt_lt_R0; lra).
  assert (S3 : 0 < sqrt ((hl - 2) * (hr - 2))).
  { apply sqrt_lt_R0. replace ((hl - 2) * (hr - 2)) with ((2 - hl) * (2 - hr)) by ring.
    apply Rmult_lt_0_compat; lra. }
  apply Rmult_lt_0_compat.
  - apply Rdiv_lt_0_compat; lra.
  - apply Rdiv_lt_0_compat.
    + replace (sqrt (2 - hl) + sqrt (2 - hr) - hl * sqrt (2 - hl) - hr * sqrt (2 - hr))
        with ((1 - hl) * sqrt (2 - hl) + (1 - hr) * sqrt (2 - hr)) by ring.
      apply Rplus_lt_0_compat; apply Rmult_lt_0_compat; lra.
    + apply Rmult_lt_0_compat; [|exact S3].
      replace ((hl - 1) * (hr - 1)) with ((1 - hl) * (1 - hr)) by ring.
      apply Rmult_lt_0_compat; lra.
Qed.

Section WithErrors.
Variables skewness_error kurtosis_error : R -> R -> R -> R -> R.

Local Notation params := (hh_params skewness_error kurtosis_error).

Lemma params_light s k : k < 1226017 / 10000000 -> params s k = Some (0, 0).
Proof.
  intros H. unfold hh_params, compute_params. destruct (Rlt_dec k _) as [_|N]; [reflexivity|lra].
Qed.

(** What `extract_output` computes from moments that describe batches. *)
Instance Qle_bool_comp' : Proper (Qeq ==> Qeq ==> eq) Qle_bool := Qleb_comp.

Lemma kurtosis_used bs m : describes bs m ->
  (if negb (Qle_bool (l2 m) 0) && negb (Qle_bool (count_l4 m) 0) then l4 m / l2 m else 0)%Q
  == l_kurtosis_within bs.
Proof.
  intros (_ & (C2 & E2) & _ & (C4 & E4)). unfold l_kurtosis_within. fold (within 2 bs) in E2. fold (within 4 bs) in E4.
  rewrite E2, C4.
  destruct (Qle_bool (within 2 bs) 0) eqn:P.
  - cbn. apply Qle_bool_iff in P.
    assert (Z : within 2 bs == 0) by (apply Qle_antisym; [exact P|apply within_2_nonneg]).
    rewrite Z. unfold Qdiv. change (/ 0)%Q with 0%Q. ring.
  - destruct (Qle_bool (number (subsets_within 4 bs)) 0) eqn:N.
    + cbn. apply Qle_bool_iff in N. unfold within at 1.
      destruct (subsets_within 4 bs) as [|s ss]; [cbn; unfold Qdiv; ring|].
      exfalso. pose proof (number_pos (s :: ss) ltac:(discriminate)) as H.
      apply (Qlt_not_le _ _ H N).
    + cbn. rewrite E4, E2. reflexivity.
Qed.

Lemma tukey_parameters_of s :
  exists m, describes (batches_of s) m
  /\ tukey_parameters skewness_error kurtosis_error s = extract_parameters skewness_error kurtosis_error m.
Proof.
  destruct (moments_reduced_right s) as (m & E & D). exists m. split; [exact D|].
  unfold tukey_parameters. rewrite E. reflexivity.
Qed.

Lemma moment_mean bs m : describes bs m -> concat bs <> [] -> (l1 m == mean_of (concat bs))%Q.
Proof. intros ((_ & E) & _) H. rewrite E. now apply within_1. Qed.

(** The fitted parameters. *)
Lemma parameters_right s : let bs := batches_of s in
  concat bs <> [] -> settled (Q2R (l_kurtosis_within bs)) ->
  exists p, tukey_parameters skewness_error kurtosis_error s = Some p
  /\ 0 <= left_h p < 1 /\ 0 <= right_h p < 1 /\ 0 < scale p
  /\ loc p + scale p * hh_l_mean (left_h p) (right_h p) = Q2R (mean_of (concat bs))
  /\ ((0 < within 2 bs)%Q -> scale p * hh_l_scale (left_h p) (right_h p) = Q2R (within 2 bs))
  /\ ((within 2 bs == 0)%Q -> scale p = 1)
  /\ (Q2R (l_kurtosis_within bs) < 1226017 / 10000000 -> left_h p = 0 /\ right_h p = 0)
  /\ (gaussian_l_kurtosis <= Q2R (l_kurtosis_within bs) -> (0 < within 2 bs)%Q).
Proof.
  intros bs Hne Hs. destruct (tukey_parameters_of s) as (m & D & E). fold bs in D. rewrite E.
  unfold extract_parameters.
  pose proof (kurtosis_used bs m D) as K.
  set (vs := negb (Qle_bool (l2 m) 0)) in *.
  set (vk := vs && negb (Qle_bool (count_l4 m) 0)) in *.
  set (sk := (if vk then l3 m / l2 m else 0)%Q).
  set (ku := (if vk then l4 m / l2 m else 0)%Q) in *.
  rewrite <- (Q2R_eq _ _ K) in Hs.
  destruct (params_admissible 11 (skewness_error (Rabs (Q2R sk)) (Rmin (Q2R ku) (1 - 1 / 100000)))
     (kurtosis_error (Rabs (Q2R sk)) (Rmin (Q2R ku) (1 - 1 / 100000))) (Q2R sk) (Q2R ku) ltac:(lia) Hs)
    as (hl & hr & P & Bl & Br & _).
  fold (params (Q2R sk) (Q2R ku)) in P. rewrite P.
  eexists. split; [reflexivity|]. cbn [loc scale left_h right_h].
  assert (HS : 0 < hh_l_scale hl hr) by (apply hh_l_scale_pos; lra).
  assert (L2 : (l2 m == within 2 bs)%Q) by (destruct D as (_ & (_ & X) & _); exact X).
  assert (L1 : Q2R (l1 m) = Q2R (mean_of (concat bs))) by (apply Q2R_eq, moment_mean; assumption).
  assert (VS : vs = true -> 0 < Q2R (l2 m)).
  { intros V. unfold vs in V. destruct (Qle_bool (l2 m) 0) eqn:B; [discriminate V|].
    rewrite <- RMicromega.Q2R_0. apply Qlt_Rlt. apply Qnot_le_lt. intros Z. apply Qle_bool_iff in Z. congruence. }
  split; [exact Bl|]. split; [exact Br|]. split; [|split; [|split; [|split; [|split]]]].
  - destruct vs; [|lra]. apply Rdiv_lt_0_compat; [apply VS; reflexivity|exact HS].
  - rewrite L1. ring.
  - intros W. replace vs with true.
    + rewrite (Q2R_eq _ _ L2). field. lra.
    + unfold vs. rewrite L2. destruct (Qle_bool (within 2 bs) 0) eqn:B; [|reflexivity].
      apply Qle_bool_iff in B. exfalso. apply (Qlt_not_le _ _ W B).
  - intros W. replace vs with false; [reflexivity|]. unfold vs. rewrite L2.
    destruct (Qle_bool (within 2 bs) 0) eqn:B; [reflexivity|].
    assert (Z : (within 2 bs <= 0)%Q) by (rewrite W; apply Qle_refl).
    apply Qle_bool_iff in Z. congruence.
  - intros W. rewrite <- (Q2R_eq _ _ K) in W. rewrite (params_light _ _ W) in P. injection P as <- <-.
    split; reflexivity.
  - intros W. rewrite <- (Q2R_eq _ _ K) in W. pose proof threshold_below_gaussian as T.
    destruct (Qlt_le_dec 0 (within 2 bs)) as [G|G]; [exact G|]. exfalso.
    assert (V : vs = false).
    { unfold vs. rewrite L2. destruct (Qle_bool (within 2 bs) 0) eqn:B; [reflexivity|].
      apply Qle_bool_iff in G. congruence. }
    unfold ku, vk in W. rewrite V in W. cbn in W. rewrite RMicromega.Q2R_0 in W. lra.
Qed.

(** ** Light tails *)

Lemma finites_Fin l : finites (map Fin l) = l.
Proof. induction l; cbn; congruence. Qed.

Lemma mean_and_var_finite (t : sched (sched (list Q))) : concat (batches_of t) <> [] ->
  exists mu v, mean_and_var (map_sched (map_sched (map Fin)) t) = [(Fin mu, Fin v)]
  /\ (mu == mean_of (concat (batches_of t)))%Q /\ (v == var_of (concat (batches_of t)))%Q.
Proof.
  intros H.
  assert (E : finites (rows_of (map_sched (map_sched (map Fin)) t)) = concat (batches_of t)).
  { unfold rows_of. rewrite batches_of_map, <- concat_map. apply finites_Fin. }
  destruct (mean_and_var_exact (map_sched (map_sched (map Fin)) t)) as (mu & v & A & B & C).
  - rewrite E. exact H.
  - rewrite E in B, C. eauto.
Qed.

Lemma inverse_zero x : inverse_tukey_hh x 0 0 = x.
Proof.
  unfold inverse_tukey_hh, one_side, real_lt. rewrite !Rmult_0_l.
  destruct (Rlt_dec 0 (1 / 10000000)) as [_|N]; [|lra]. destruct (Rlt_dec x 0); ring.
Qed.

Lemma mean_perm l l' : Permutation l l' -> (mean_of l == mean_of l')%Q.
Proof.
  intros H. unfold mean_of, q_len. rewrite (Permutation_length H), (q_sum_perm _ _ H). reflexivity.
Qed.

Lemma light_tails s t x :
  Permutation (concat (batches_of s)) (concat (batches_of t)) -> concat (batches_of s) <> [] ->
  Q2R (l_kurtosis_within (batches_of s)) < 1226017 / 10000000 ->
  scale_to_gaussian skewness_error kurtosis_error s t x
  = scale_to_z_score (map_sched (map_sched (map Fin)) t) x.
Proof.
  intros HP Hne K.
  destruct (parameters_right s Hne (or_introl K)) as (p & Ep & _ & _ & _ & L & _ & _ & Z & _).
  destruct (Z K) as [Zl Zr].
  assert (Hne' : concat (batches_of t) <> []).
  { intros E. rewrite E in HP. apply Permutation_sym, Permutation_nil in HP. contradiction. }
  destruct (mean_and_var_finite t Hne') as (mu & v & Em & Hmu & Hv).
  unfold scale_to_gaussian, scale_to_z_score. rewrite Ep, Em. f_equal.
  unfold gaussian_value, z_value. rewrite Zl, Zr, inverse_zero. rewrite Zl, Zr in L.
  rewrite hh_l_mean_same in L.
  assert (Lm : loc p = Q2R mu).
  { rewrite (Q2R_eq _ _ Hmu), <- (Q2R_eq _ _ (mean_perm _ _ HP)), <- L. ring. }
  rewrite Lm. unfold real_lt. destruct (Rlt_dec 0 0) as [N|_]; [lra|]. cbn [orb]. reflexivity.
Qed.

(** No batch has four values. *)
Lemma small_batches_kurtosis bs : Forall (fun b => (length b < 4)%nat) bs -> (l_kurtosis_within bs == 0)%Q.
Proof.
  intros H. unfold l_kurtosis_within, within at 1.
  assert (E : subsets_within 4 bs = []).
  { unfold subsets_within. induction H as [|b bs Hb _ IH]; [reflexivity|]. cbn [flat_map]. rewrite IH, app_nil_r.
    destruct (subsets 4 b) eqn:E; [reflexivity|].
    pose proof (subsets_length b 4) as L. rewrite E, choose_large in L by exact Hb. discriminate. }
  rewrite E. cbn. unfold Qdiv. ring.
Qed.

(** ** Units *)

Lemma hh_params_ext s k s' k' : s = s' -> k = k' -> params s k = params s' k'.
Proof. congruence. Qed.

Lemma Qinv_scale x y a : (0 < a)%Q -> ((a * x) / (a * y) == x / y)%Q.
Proof.
  intros H. destruct (Qeq_dec y 0) as [Z|Z].
  - rewrite Z. unfold Qdiv. rewrite Qmult_0_r. change (/ 0)%Q with 0%Q. ring.
  - field. split; [exact Z|]. intros E. rewrite E in H. discriminate.
Qed.

Lemma affine_moments a b (s : sched (sched (list Q))) m m' :
  (0 < a)%Q -> concat (batches_of s) <> [] ->
  describes (batches_of s) m ->
  describes (batches_of (map_sched (map_sched (map (fun x => a * x + b)%Q)) s)) m' ->
  (count_l4 m' == count_l4 m /\ l1 m' == a * l1 m + b
   /\ l2 m' == a * l2 m /\ l3 m' == a * l3 m /\ l4 m' == a * l4 m)%Q.
Proof.
  intros Ha Hne ((_ & D1) & (_ & D2) & (_ & D3) & (C4 & D4)) ((_ & D1') & (_ & D2') & (_ & D3') & (C4' & D4')).
  rewrite batches_of_map in *.
  assert (H1 : subsets_within 1 (batches_of s) <> []).
  { unfold subsets_within. rewrite flat_map_concat_map, map_ext with (g := map (fun x => [x])) by apply subsets_1.
    rewrite <- concat_map. destruct (concat (batches_of s)); [congruence|discriminate]. }
  fold (within 1 (batches_of s)) in D1. fold (within 2 (batches_of s)) in D2.
  fold (within 3 (batches_of s)) in D3. fold (within 4 (batches_of s)) in D4.
  split; [|split; [|split; [|split]]].
  - rewrite C4, C4', within_map_subsets. unfold number. rewrite map_length. reflexivity.
  - rewrite D1', D1. apply affine_within_1; assumption.
  - rewrite D2', D2. apply affine_within; [exact Ha|lia].
  - rewrite D3', D3. apply affine_within; [exact Ha|lia].
  - rewrite D4', D4. apply affine_within; [exact Ha|lia].
Qed.

Lemma qle_scale a x : (0 < a)%Q -> Qle_bool (a * x) 0 = Qle_bool x 0.
Proof.
  intros H. destruct (Qle_bool x 0) eqn:E.
  - apply Qle_bool_iff in E. apply Qle_bool_iff. rewrite <- (Qmult_0_r a). now apply Qmult_le_l.
  - destruct (Qle_bool (a * x) 0) eqn:F; [|reflexivity]. apply Qle_bool_iff in F.
    rewrite <- (Qmult_0_r a) in F. apply Qmult_le_l in F; [|exact H].
    apply Qle_bool_iff in F. congruence.
Qed.

(** The parameters of a column in another unit. *)
Lemma affine_parameters a b (s : sched (sched (list Q))) p :
  (0 < a)%Q -> concat (batches_of s) <> [] ->
  tukey_parameters skewness_error kurtosis_error s = Some p ->
  exists p', tukey_parameters skewness_error kurtosis_error
               (map_sched (map_sched (map (fun x => a * x + b)%Q)) s) = Some p'
  /\ left_h p' = left_h p /\ right_h p' = right_h p
  /\ (((0 < within 2 (batches_of s))%Q /\ scale p' = Q2R a * scale p /\ loc p' = Q2R a * loc p + Q2R b)
      \/ ((within 2 (batches_of s) == 0)%Q /\ scale p' = 1 /\ scale p = 1
          /\ left_h p = 0 /\ right_h p = 0 /\ loc p' = Q2R a * loc p + Q2R b)).
Proof.
  intros Ha Hne Hp. destruct (tukey_parameters_of s) as (m & D & E).
  destruct (tukey_parameters_of (map_sched (map_sched (map (fun x => a * x + b)%Q)) s)) as (m' & D' & E').
  rewrite E'. rewrite E in Hp. clear E E'.
  destruct (affine_moments a b s m m' Ha Hne D D') as (C4 & L1 & L2 & L3 & L4).
  assert (W2 : (l2 m == within 2 (batches_of s))%Q) by (destruct D as (_ & (_ & X) & _); exact X).
  unfold extract_parameters in *.
  assert (B2 : Qle_bool (l2 m') 0 = Qle_bool (l2 m) 0) by (rewrite L2; now apply qle_scale).
  assert (B4 : Qle_bool (count_l4 m') 0 = Qle_bool (count_l4 m) 0) by (rewrite C4; reflexivity).
  rewrite B2, B4.
  set (vs := negb (Qle_bool (l2 m) 0)) in *.
  set (vk := vs && negb (Qle_bool (count_l4 m) 0)) in *.
  rewrite (hh_params_ext (Q2R (if vk then l3 m' / l2 m' else 0)%Q) (Q2R (if vk then l4 m' / l2 m' else 0)%Q)
             (Q2R (if vk then l3 m / l2 m else 0)%Q) (Q2R (if vk then l4 m / l2 m else 0)%Q)).
  2,3: destruct vk; [|reflexivity]; apply Q2R_eq; rewrite L2, ?L3, ?L4; apply Qinv_scale, Ha.
  destruct (params _ _) as [(hl, hr)|] eqn:P; [|discriminate Hp]. injection Hp as <-.
  eexists. split; [reflexivity|]. cbn [left_h right_h scale loc].
  split; [reflexivity|]. split; [reflexivity|].
  rewrite (Q2R_eq _ _ L1), (Q2R_eq _ _ L2), Q2R_plus, !Q2R_mult.
  destruct vs eqn:V.
  - left. split.
    + rewrite <- W2. unfold vs in V. destruct (Qle_bool (l2 m) 0) eqn:B; [discriminate V|].
      apply Qnot_le_lt. intros Z. apply Qle_bool_iff in Z. congruence.
    + split; unfold Rdiv; ring.
  - right. split; [|split; [reflexivity|split; [reflexivity|]]].
    + apply Qle_antisym; [|apply within_2_nonneg]. rewrite <- W2.
      unfold vs in V. destruct (Qle_bool (l2 m) 0) eqn:B; [|discriminate V]. now apply Qle_bool_iff.
    + unfold vk in P. cbn [andb] in P. rewrite RMicromega.Q2R_0, params_light in P by lra.
      injection P as <- <-. split; [reflexivity|]. split; [reflexivity|]. rewrite hh_l_mean_same. ring.
Qed.

Lemma affine_value a b (s t : sched (sched (list Q))) x :
  (0 < a)%Q ->
  Permutation (concat (batches_of s)) (concat (batches_of t)) ->
  ~ (var_of (concat (batches_of t)) == 0)%Q ->
  settled (Q2R (l_kurtosis_within (batches_of s))) ->
  scale_to_gaussian skewness_error kurtosis_error
    (map_sched (map_sched (map (fun x => a * x + b)%Q)) s)
    (map_sched (map_sched (map (fun x => a * x + b)%Q)) t) (a * x + b)%Q
  = scale_to_gaussian skewness_error kurtosis_error s t x
  /\ scale_to_gaussian skewness_error kurtosis_error s t x <> None.
Proof.
  intros Ha HP Hv Hs.
  assert (Hne' : concat (batches_of t) <> []).
  { intros E. rewrite E in Hv. apply Hv. reflexivity. }
  assert (Hne : concat (batches_of s) <> []).
  { intros E. rewrite E in HP. apply Permutation_nil in HP. contradiction. }
  destruct (parameters_right s Hne Hs) as (p & Ep & Bl & Br & Sp & _).
  destruct (affine_parameters a b s p Ha Hne Ep) as (p' & Ep' & El & Er & Cases).
  destruct (mean_and_var_finite t Hne') as (mu & v & Em & Hmu & Ev).
  destruct (mean_and_var_finite (map_sched (map_sched (map (fun x => a * x + b)%Q)) t)) as (mu' & v' & Em' & Hmu' & Ev').
  { rewrite batches_of_map, <- concat_map. destruct (concat (batches_of t)); [congruence|discriminate]. }
  unfold scale_to_gaussian. rewrite Ep, Ep', Em, Em'. split; [|discriminate]. f_equal.
  unfold gaussian_value. rewrite El, Er. f_equal.
  assert (RA : 0 < Q2R a) by (rewrite <- RMicromega.Q2R_0; now apply Qlt_Rlt).
  assert (V0 : 0 <= Q2R v).
  { rewrite <- RMicromega.Q2R_0. apply Qle_Rle. rewrite Ev. apply var_nonneg, Hne'. }
  assert (EV : sqrt (Q2R v') = Q2R a * sqrt (Q2R v)).
  { assert (X : (v' == a * a * v)%Q).
    { rewrite Ev', Ev, batches_of_map, <- concat_map. apply affine_var, Hne'. }
    rewrite (Q2R_eq _ _ X), !Q2R_mult.
    rewrite sqrt_mult; [|apply Rmult_le_pos; lra|exact V0]. rewrite sqrt_square by lra. reflexivity. }
  assert (VP : sqrt (Q2R v) <> 0).
  { intros Z. apply Hv. rewrite <- Ev. apply eqR_Qeq.
    rewrite RMicromega.Q2R_0. now apply sqrt_eq_0. }
  assert (NUM : loc p' = Q2R a * loc p + Q2R b -> Q2R (a * x + b) - loc p' = Q2R a * (Q2R x - loc p)).
  { intros ->. rewrite Q2R_plus, Q2R_mult. ring. }
  assert (DIV : forall d n, d <> 0 ->
    (if Req_EM_T (Q2R a * d) 0 then Q2R a * n else Q2R a * n / (Q2R a * d))
    = if Req_EM_T d 0 then n else n / d).
  { intros d n Hd. destruct (Req_EM_T d 0) as [Z|_]; [contradiction|].
    destruct (Req_EM_T (Q2R a * d) 0) as [Z|_].
    - apply Rmult_integral in Z as [Z|Z]; [lra|contradiction].
    - field. split; [exact Hd|lra]. }
  destruct Cases as [(_ & SC & LC)|(_ & _ & _ & Zl & Zr & LC)].
  - rewrite (NUM LC), SC, EV. destruct (real_lt 0 (left_h p) || real_lt 0 (right_h p)).
    + apply DIV. lra.
    + apply DIV, VP.
  - rewrite (NUM LC), EV, Zl, Zr. unfold real_lt. destruct (Rlt_dec 0 0) as [N|_]; [lra|]. cbn [orb].
    apply DIV, VP.
Qed.
End WithErrors.
