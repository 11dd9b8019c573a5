(** * From the tokens of a dataset to their information *)
From Coq Require Import String List ZArith QArith Qreals Reals Bool Arith Lia Lra Permutation.
From Verif Require Import CombineModel FloatModel WeightedModel WeightedSpec WeightedProofs InfoModel InfoSpec InfoProofs InfoToken.
Import ListNotations.
Local Open Scope R_scope.
Local Notation length := List.length.

(** ** The accumulators describe the rows *)
Definition token_row (r : WeightedModel.labelled) : row := Row true (lab_label r) (Q2R (lab_weight r)).

Lemma total_weight_size rows : Q2R (total_weight rows) = size (map token_row rows).
Proof.
  unfold total_weight, size. rewrite total_map. induction rows as [|r rows IH]; cbn; [unfold Q2R; cbn; lra|].
  rewrite Q2R_plus. f_equal. exact IH.
Qed.
Lemma label_weight_size j rows : Q2R (label_weight j rows) = size (labelled j (map token_row rows)).
Proof.
  unfold label_weight, labelled. rewrite filter_map. cbn [label token_row].
  change (map lab_weight (filter (fun r => Nat.eqb (lab_label r) j) rows)) with (map lab_weight (filter (fun r => (lab_label r =? j)%nat) rows)).
  exact (total_weight_size (filter (fun r => (lab_label r =? j)%nat) rows)).
Qed.
Lemma real_nth means j : nth j (map real means) 0 = real (nth j means (Fin 0)).
Proof. replace 0 with (real (Fin 0)) by (cbn; unfold Q2R; cbn; lra). apply map_nth. Qed.

Theorem accumulator_describes s : Forall wf_batch (batches_of s) ->
  0 < size (map token_row (all_rows (batches_of s))) ->
  let a := real_accumulator (token_statistics s) in
  describes (acc_count a) (acc_mean a) (acc_weight a) (map token_row (all_rows (batches_of s))).
Proof.
  intros W P a. assert (Ne : all_rows (batches_of s) <> []) by (intros E; rewrite E in P; unfold size in P; cbn in P; lra).
  assert (Pq : (0 < total_weight (all_rows (batches_of s)))%Q).
  { apply Rlt_Qlt. rewrite total_weight_size. replace (Q2R 0) with 0 by (unfold Q2R; cbn; lra). exact P. }
  destruct (token_statistics_exact s W Ne) as (Hc & (w & Ew & Hw) & Hm). specialize (Hm Pq). unfold a, real_accumulator, describes. cbn [acc_count acc_mean acc_weight].
  set (rows := all_rows (batches_of s)) in *. assert (Pl : (0 < length rows)%nat) by (destruct rows; [congruence|cbn; lia]).
  assert (Nz : ~ inject_Z (Z.of_nat (length rows)) == 0) by (unfold inject_Z, Qeq; cbn; lia).
  repeat split.
  - rewrite Hc, map_length, INR_IZR_INZ. reflexivity.
  - rewrite Hc, Ew. cbn [real]. rewrite (Qeq_eqR _ _ Hw), Q2R_div by exact Nz. rewrite total_weight_size.
    replace (Q2R (inject_Z (Z.of_nat (length rows)))) with (IZR (Z.of_nat (length rows))) by (unfold Q2R; cbn; rewrite Rinv_1; ring).
    field. apply IZR_neq. lia.
  - intros j. rewrite real_nth. destruct (Hm j) as (m & Em & Eq). rewrite Em. cbn [real]. rewrite (Qeq_eqR _ _ Eq).
    rewrite Q2R_div by (intros E; rewrite E in Pq; discriminate). rewrite total_weight_size, label_weight_size. field. lra.
Qed.

(** ** Rows in another order, and rows of other tokens *)
Lemma filter_perm {A} (f : A -> bool) l m : Permutation l m -> Permutation (filter f l) (filter f m).
Proof. induction 1; cbn; try (destruct (f x)); try (destruct (f y)); eauto using Permutation. Qed.
Lemma describes_perm c ms w rows rows' : Permutation rows rows' -> describes c ms w rows -> describes c ms w rows'.
Proof.
  intros P (A & B & C). unfold describes, size in *. rewrite <- (total_perm _ _ _ P), <- (Permutation_length P). repeat split; try assumption.
  intros j. rewrite (C j). apply total_perm. now apply filter_perm.
Qed.
(** Only labels and weights matter. *)
Lemma describes_same c ms w rows rows' : map (fun r => (label r, weight r)) rows = map (fun r => (label r, weight r)) rows' -> describes c ms w rows -> describes c ms w rows'.
Proof.
  intros E (A & B & C).
  assert (S : forall l l', map (fun r => (label r, weight r)) l = map (fun r => (label r, weight r)) l' -> size l = size l' /\ forall j, size (labelled j l) = size (labelled j l')).
  { clear. induction l as [|r l IH]; intros [|r' l'] E; try discriminate; [now split|]. injection E as E1 E2 E3. destruct (IH l' E3) as [I1 I2]. split.
    - unfold size, total in *. cbn. now rewrite I1, E2.
    - intros j. unfold labelled in *. cbn. rewrite E1. specialize (I2 j). destruct (label r' =? j)%nat; [|exact I2]. unfold size, total in *. cbn. now rewrite E2, I2. }
  destruct (S _ _ E) as [S1 S2]. unfold describes. rewrite <- S1. repeat split.
  - rewrite A. f_equal. apply (f_equal (@length _)) in E. now rewrite !map_length in E.
  - exact B.
  - intros j. rewrite <- S2. apply C.
Qed.

(** ** The tokens of the rows *)
Lemma rows_of_app {A} k (l m : list (string * A)) : rows_of k (l ++ m) = rows_of k l ++ rows_of k m.
Proof. unfold rows_of. now rewrite filter_app, map_app. Qed.
Lemma rows_of_sentinels {A} (rows : list (list string * A)) : rows_of sentinel (map (fun r => (sentinel, snd r)) rows) = map snd rows.
Proof. unfold rows_of. induction rows as [|r rows IH]; cbn [map filter fst]; [reflexivity|]. rewrite String.eqb_refl. cbn [map snd]. now rewrite IH. Qed.
Lemma rows_of_tokens {A} t (a : A) : forall ts, NoDup ts -> rows_of t (map (fun t' => (t', a)) ts) = if existsb (String.eqb t) ts then [a] else [].
Proof.
  induction ts as [|u ts IH]; intros N; [reflexivity|]. inversion N as [|? ? Nu Nts]; subst. specialize (IH Nts). unfold rows_of in *. cbn [map filter fst existsb].
  rewrite String.eqb_sym. destruct (String.eqb_spec u t) as [->|Ne].
  - rewrite String.eqb_refl. cbn [map snd orb]. rewrite IH. replace (existsb (String.eqb t) ts) with false; [reflexivity|].
    symmetry. apply not_true_is_false. intros E. apply existsb_exists in E as (v & I & E). apply String.eqb_eq in E as <-. contradiction.
  - replace (String.eqb t u) with false by (symmetry; apply String.eqb_neq; congruence). cbn [orb]. exact IH.
Qed.
Section Tokens.
Variable rows : list (list string * WeightedModel.labelled).
Hypothesis distinct : forall r, In r rows -> NoDup (fst r).
Hypothesis no_sentinel : forall r, In r rows -> ~ In sentinel (fst r).

Lemma rows_of_flat t : (forall r, In r rows -> NoDup (fst r)) -> rows_of t (flat_map (fun r => map (fun t' => (t', snd r)) (fst r)) rows) = map snd (filter (fun r => existsb (String.eqb t) (fst r)) rows).
Proof.
  clear. induction rows as [|r rs IH]; intros D; [reflexivity|]. cbn [flat_map filter]. rewrite rows_of_app, rows_of_tokens, IH by (try (intros r' I); apply D; cbn; auto).
  destruct (existsb (String.eqb t) (fst r)); reflexivity.
Qed.
Theorem global_rows_right : global_rows rows = map snd rows.
Proof.
  unfold global_rows, keyed. rewrite rows_of_app, rows_of_sentinels, rows_of_flat by assumption.
  replace (filter _ rows) with (@nil (list string * WeightedModel.labelled)); [reflexivity|]. symmetry. clear distinct.
  induction rows as [|r rs IH]; [reflexivity|]. cbn [filter]. rewrite IH by (intros r' I; apply no_sentinel; cbn; auto).
  replace (existsb _ _) with false; [reflexivity|]. symmetry. apply not_true_is_false. intros E. apply existsb_exists in E as (v & I & E).
  apply String.eqb_eq in E as <-. apply (no_sentinel r); cbn; auto.
Qed.
Theorem token_rows_right t : t <> sentinel -> token_rows t rows = Some (map snd (filter (fun r => existsb (String.eqb t) (fst r)) rows)).
Proof.
  intros Ne. unfold token_rows. apply String.eqb_neq in Ne as E. rewrite E. f_equal. unfold keyed. rewrite rows_of_app, rows_of_flat by assumption.
  replace (rows_of t (map _ rows)) with (@nil WeightedModel.labelled); [apply app_nil_r|]. symmetry. unfold rows_of. clear -Ne.
  induction rows as [|r rs IH]; [reflexivity|]. cbn [map filter fst]. replace (String.eqb sentinel t) with false; [exact IH|]. symmetry. apply String.eqb_neq. congruence.
Qed.

(** The accumulators of a token and of the sentinel, over any batches of their rows in any order. *)
Theorem accumulators_right t s sg mine : t <> sentinel ->
  token_rows t rows = Some mine ->
  Permutation (all_rows (batches_of s)) mine -> Permutation (all_rows (batches_of sg)) (global_rows rows) ->
  Forall wf_batch (batches_of s) -> Forall wf_batch (batches_of sg) ->
  0 < size (having (map (tagged t) rows)) -> 0 < size (map (tagged t) rows) ->
  let a := real_accumulator (token_statistics s) in let g := real_accumulator (token_statistics sg) in
  describes (acc_count a) (acc_mean a) (acc_weight a) (having (map (tagged t) rows)) /\
  describes (acc_count g) (acc_mean g) (acc_weight g) (map (tagged t) rows).
Proof.
  intros Ne T P Pg W Wg X N a g. rewrite (token_rows_right t Ne) in T. injection T as <-. rewrite global_rows_right in Pg.
  apply (Permutation_map token_row) in P, Pg. rewrite map_map in P, Pg.
  assert (E1 : map (fun r => (label r, weight r)) (map (fun r => token_row (snd r)) (filter (fun r => existsb (String.eqb t) (fst r)) rows)) = map (fun r => (label r, weight r)) (having (map (tagged t) rows))).
  { unfold having. rewrite filter_map, !map_map. reflexivity. }
  assert (E2 : map (fun r => (label r, weight r)) (map (fun r => token_row (snd r)) rows) = map (fun r => (label r, weight r)) (map (tagged t) rows)) by now rewrite !map_map.
  assert (S : forall l l' : list row, map (fun r => (label r, weight r)) l = map (fun r => (label r, weight r)) l' -> size l = size l').
  { clear. induction l as [|r l IH]; intros [|r' l'] E; try discriminate; [reflexivity|]. injection E as _ E2 E3. unfold size, total in *. cbn. now rewrite E2, (IH l' E3). }
  split.
  - eapply describes_same; [exact E1|]. eapply describes_perm; [exact P|]. apply accumulator_describes; [exact W|]. unfold size. rewrite (total_perm _ _ _ P). fold (size (map (fun r => token_row (snd r)) (filter (fun r => existsb (String.eqb t) (fst r)) rows))). now rewrite (S _ _ E1).
  - eapply describes_same; [exact E2|]. eapply describes_perm; [exact Pg|]. apply accumulator_describes; [exact Wg|]. unfold size. rewrite (total_perm _ _ _ Pg). fold (size (map (fun r => token_row (snd r)) rows)). now rewrite (S _ _ E2).
Qed.
End Tokens.

(** ** Rounding *)
Lemma py_round_bounds x : x - / 2 <= IZR (py_round x) <= x + / 2.
Proof.
  unfold py_round. destruct (base_Int_part x) as [A B]. destruct (Rlt_dec _ _) as [L|L]; [lra|]. destruct (Rlt_dec _ _) as [G|G]; [rewrite plus_IZR; lra|].
  destruct (Z.even _); [|rewrite plus_IZR]; lra.
Qed.
Lemma rounds_apart rows : not_everywhere rows -> (py_round (size (having rows)) < py_round (size rows))%Z.
Proof.
  intros [H|[U (r & I & F)]].
  - apply lt_IZR. pose proof (py_round_bounds (size (having rows))). pose proof (py_round_bounds (size rows)). lra.
  - rewrite (size_length rows U), (size_length (having rows)) by (intros r' I'; apply filter_In in I' as [I' _]; auto). rewrite !py_round_INR. apply inj_lt.
    clear -I F. unfold having. revert I. induction rows as [|r' rows IH]; intros I; [destruct I|]. cbn [filter length]. destruct I as [->|I].
    + rewrite F. assert (length (filter has rows) <= length rows)%nat by (clear; induction rows as [|a l IH]; cbn; [lia|destruct (has a); cbn; lia]). lia.
    + specialize (IH I). destruct (has r'); cbn [length]; lia.
Qed.

(** ** The theorems *)
Section Theorems.
Variables (rows : list (list string * WeightedModel.labelled)) (t : string).
Variables (s sg : sched (sched (nat * list WeightedModel.labelled))) (mine : list WeightedModel.labelled).
Let data := map (tagged t) rows.
Hypothesis distinct : forall r, In r rows -> NoDup (fst r).
Hypothesis no_sentinel : forall r, In r rows -> ~ In sentinel (fst r).
Hypothesis weights : forall r, In r rows -> (0 <= lab_weight (snd r))%Q.
Hypothesis not_sentinel : t <> sentinel.
Hypothesis mine_right : token_rows t rows = Some mine.
Hypothesis token_batches : Permutation (all_rows (batches_of s)) mine.
Hypothesis global_batches : Permutation (all_rows (batches_of sg)) (global_rows rows).
Hypothesis token_wf : Forall wf_batch (batches_of s).
Hypothesis global_wf : Forall wf_batch (batches_of sg).
Hypothesis occurs : 0 < size (having data).

Lemma data_nonneg : nonneg data.
Proof.
  intros r I. apply in_map_iff in I as (r0 & <- & I). cbn. replace 0 with (Q2R 0) by (unfold Q2R; cbn; lra). now apply Qle_Rle, weights.
Qed.
Lemma data_pos : 0 < size data.
Proof. pose proof (filter_size_le has data data_nonneg). unfold having in occurs. lra. Qed.

Theorem information_of_token lgamma min_diff p ls : not_everywhere data ->
  (forall j, moved (share j (having data)) (p j)) -> lists_counted min_diff p data ls ->
  calculate_mutual_information lgamma false min_diff (real_accumulator (token_statistics s)) (real_accumulator (token_statistics sg))
  = Information (total (fun j => about_label (size (having data)) (p j) (share j data)) ls) (size (having data)).
Proof.
  intros NE PM LC. destruct (accumulators_right rows distinct no_sentinel t s sg mine not_sentinel mine_right token_batches global_batches token_wf global_wf occurs data_pos) as [D G].
  pose proof (rounds_apart data NE) as R. unfold real_accumulator in *. cbn [acc_count acc_mean acc_weight] in D, G.
  eapply information_right; try eassumption; [exact data_nonneg|lia|lia].
Qed.
Theorem adjusted_of_token lgamma min_diff p ls arrs : is_lgamma lgamma -> (forall r, In r data -> weight r = 1) -> (exists r, In r data /\ has r = false) ->
  (forall j, moved (share j (having data)) (p j)) -> lists_counted min_diff p data ls ->
  all_arrangements (length data) (length (having data)) arrs ->
  calculate_mutual_information lgamma true min_diff (real_accumulator (token_statistics s)) (real_accumulator (token_statistics sg))
  = Information (total (fun j => about_label (size (having data)) (p j) (share j data)) ls
                 - average (fun bs => total (fun j => exact_about j (rearranged bs data)) ls) arrs) (size (having data)).
Proof.
  intros LG U NE PM LC AL. destruct (accumulators_right rows distinct no_sentinel t s sg mine not_sentinel mine_right token_batches global_batches token_wf global_wf occurs data_pos) as [D G].
  pose proof (rounds_apart data (or_intror (conj U NE))) as R.
  rewrite (size_length data U), (size_length (having data)), !py_round_INR in R by (intros r' I'; apply filter_In in I' as [I' _]; auto).
  unfold real_accumulator in *. cbn [acc_count acc_mean acc_weight] in D, G. eapply adjusted_right; try eassumption; [exact data_nonneg|lia].
Qed.
(** A token in every row tells nothing. *)
Theorem constant_token lgamma adjusted min_diff : (forall r, In r rows -> In t (fst r)) ->
  calculate_mutual_information lgamma adjusted min_diff (real_accumulator (token_statistics s)) (real_accumulator (token_statistics sg))
  = Information 0 (size data).
Proof.
  intros All. destruct (accumulators_right rows distinct no_sentinel t s sg mine not_sentinel mine_right token_batches global_batches token_wf global_wf occurs data_pos) as [(_ & D & _) (_ & G & _)].
  assert (E : having data = data).
  { unfold having, data. clear -All. induction rows as [|r rs IH]; [reflexivity|]. cbn [map filter]. rewrite IH by (intros r' I; apply All; cbn; auto).
    replace (has (tagged t r)) with true; [reflexivity|]. symmetry. apply existsb_exists. exists t. split; [apply All; cbn; auto|apply String.eqb_refl]. }
  unfold data in *. unfold real_accumulator in *. cbn [acc_count acc_mean acc_weight] in D, G.
  unfold calculate_mutual_information. cbn [acc_count acc_mean acc_weight]. rewrite D, G, E. pose proof data_pos as DP. unfold data in DP. rewrite is_zero_false by lra. now rewrite Z.eqb_refl.
Qed.
(** Without clipping. *)
Theorem exact_information lgamma min_diff ls : not_everywhere data -> min_diff <= 0 ->
  NoDup ls -> (forall r, In r data -> In (label r) ls) ->
  (forall r, In r data -> 1 / 1000000 <= share (label r) (having data) <= 1 - 1 / 1000000) ->
  calculate_mutual_information lgamma false min_diff (real_accumulator (token_statistics s)) (real_accumulator (token_statistics sg))
  = Information (total (fun j => exact_about j data) ls) (size (having data)) /\
  0 <= total (fun j => exact_about j data) ls /\
  ((forall j, share j (having data) = share j data) -> total (fun j => exact_about j data) ls = 0).
Proof.
  intros NE MD N C B. split; [|split; [apply exact_nonneg; auto using data_nonneg|intros H; apply independent_zero; auto using data_nonneg]].
  pose (f := fun j => if Req_EM_T (size (labelled j data)) 0 then false else true).
  rewrite (information_of_token lgamma min_diff (fun j => clip_probability (share j (having data))) (filter f ls) NE).
  - f_equal. transitivity (total (fun j => exact_about j data) (filter f ls)).
    + apply total_ext. intros j I. apply filter_In in I as [I F]. unfold f in F. destruct (Req_EM_T (size (labelled j data)) 0) as [|Nz]; [discriminate|].
      assert (J : exists r, In r data /\ label r = j).
      { assert (Ne : labelled j data <> []) by (intros E; rewrite E in Nz; now cbn in Nz). destruct (labelled j data) as [|r l] eqn:E; [congruence|].
        assert (I' : In r (labelled j data)) by (rewrite E; now left). apply filter_In in I' as [I1 I2]. apply Nat.eqb_eq in I2. eauto. }
      destruct J as (r & Ir & <-). specialize (B r Ir). unfold exact_about. destruct (Req_EM_T _ 0) as [Z|_].
      * unfold share in B. rewrite Z in B. unfold Rdiv in B. rewrite Rmult_0_l in B. lra.
      * f_equal. destruct (clip_moved (share (label r) (having data))) as [(_ & _ & M) _]. exact (M B).
    + clear -weights. unfold total. induction ls as [|j l IH]; [reflexivity|]. cbn [filter fold_right]. unfold f at 1. destruct (Req_EM_T (size (labelled j data)) 0) as [Z|_]; [|cbn [fold_right]; now rewrite IH].
      rewrite IH. unfold exact_about. destruct (Req_EM_T _ 0) as [_|Nz]; [ring|]. exfalso. rewrite having_labelled in Nz.
      pose proof (filter_size_le has (labelled j data) (labelled_nonneg j data data_nonneg)) as Le. pose proof (size_nonneg _ (having_nonneg _ (labelled_nonneg j data data_nonneg))) as Ge. unfold having in *. lra.
  - intros j. apply clip_moved.
  - split; [now apply NoDup_filter|]. intros j. rewrite filter_In. unfold f, counted. assert (Ge := size_nonneg _ (labelled_nonneg j data data_nonneg)). split.
    + intros [I F]. destruct (Req_EM_T (size (labelled j data)) 0); [discriminate|]. split; [lra|]. eapply Rle_trans; [exact MD|apply Rabs_pos].
    + intros [P _]. destruct (Req_EM_T (size (labelled j data)) 0); [lra|]. split; [|reflexivity].
      destruct (labelled j data) as [|r l] eqn:E; [cbn in P; lra|]. assert (I' : In r (labelled j data)) by (rewrite E; now left). apply filter_In in I' as [I1 I2]. apply Nat.eqb_eq in I2 as <-. now apply C.
Qed.
End Theorems.
