(** Numerical bounds: the threshold of the search lies below the L-kurtosis of the
    Gaussian distribution, and the start of the search is negative there. *)
From Coq Require Import Reals Lra Lia Machin Ratan.
From Verif Require Import TukeyModel TukeySpec TukeyProofs.
Open Scope R_scope.

(** *** pi *)
Lemma pi_low : 31415926535 / 10000000000 <= PI.
Proof.
  destruct (PI_2_3_7_ineq 5) as [L _].
  unfold sum_f_R0, tg_alt, PI_2_3_7_tg, Ratan_seq in L.
  cbn [Nat.mul Nat.add pow] in L.
  repeat rewrite S_INR in L. cbn [INR] in L. lra.
Qed.

(** *** The cosine *)
Lemma cos_term_0 : forall a, cos_term a 0 = 1.
Proof. intro a. unfold cos_term. cbn. field. Qed.

Lemma cos_term_S : forall a i,
  cos_term a (S i) = cos_term a i * (- (a * a) / (INR (2 * i + 1) * INR (2 * i + 2))).
Proof.
  intros a i. unfold cos_term.
  replace (2 * S i)%nat with (S (S (2 * i))) by lia.
  rewrite !fact_simpl, !mult_INR. cbn [pow].
  replace (INR (S (2 * i))) with (INR (2 * i + 1)) by (f_equal; lia).
  replace (INR (S (S (2 * i)))) with (INR (2 * i + 2)) by (f_equal; lia).
  pose proof (INR_fact_neq_0 (2 * i)) as F.
  assert (A : INR (2 * i + 1) <> 0) by (apply not_0_INR; lia).
  assert (B : INR (2 * i + 2) <> 0) by (apply not_0_INR; lia).
  field. auto.
Qed.

Lemma cos_bound_here : cos (123095942 / 100000000) < 1 / 3.
Proof.
  pose proof PI2_3_2 as P. unfold PI2 in P.
  destruct (cos_bound (123095942 / 100000000) 3) as [_ U]; [lra|lra|].
  apply Rle_lt_trans with (1 := U). clear U P.
  unfold cos_approx. cbn [Nat.mul Nat.add sum_f_R0].
  repeat rewrite cos_term_S. rewrite cos_term_0.
  cbn [Nat.mul Nat.add INR]. lra.
Qed.

Lemma initial_negative : initial_h (1226017 / 10000000) < 0.
Proof.
  unfold initial_h. rewrite angle, cos_neg.
  pose proof pi_low as PL. pose proof PI_4 as P4.
  set (a := PI * (6 - 1226017 / 10000000) / 15).
  assert (A : 123095942 / 100000000 <= a) by (unfold a; lra).
  assert (A' : a < PI / 2) by (unfold a; lra).
  assert (C : cos a < 1 / 3).
  { apply Rle_lt_trans with (2 := cos_bound_here). apply cos_decr_1; lra. }
  assert (P : 0 < cos a) by (apply cos_gt_0; lra).
  assert (I : 3 < / cos a).
  { replace 3 with (/ (1 / 3)) by field. apply Rinv_lt_contravar; [|exact C].
    apply Rmult_lt_0_compat; lra. }
  unfold Rdiv at 1. rewrite Rmult_1_l. lra.
Qed.

Lemma threshold_below_gaussian : 1226017 / 10000000 < gaussian_l_kurtosis.
Proof.
  destruct (Rlt_le_dec (1226017 / 10000000) gaussian_l_kurtosis) as [L|L]; [exact L|].
  pose proof initial_negative as N.
  destruct (initial_bounds (1226017 / 10000000)) as [B _]; [exact L|lra|]. lra.
Qed.

(** *** A start below zero *)
Lemma bsearch_never_negative : forall T E (mid : T -> T -> T) narrow (negative small : E -> bool)
    (error : T -> E) fuel iter low high r,
  (forall x, negative (error x) = false) ->
  binary_search mid narrow negative small fuel iter error low high = Some r -> fst r = low.
Proof.
  intros T E mid narrow negative small error fuel.
  induction fuel as [|fuel IH]; intros iter low high r N H; [discriminate|].
  cbn [binary_search] in H. rewrite N in H.
  destruct (_ || _)%bool; [injection H as <-; reflexivity|]. apply (IH _ _ _ _ N H).
Qed.

Lemma bsearch_total : forall T E (mid : T -> T -> T) narrow (negative small : E -> bool)
    (error : T -> E) fuel iter low high, (11 <= fuel + iter)%nat -> (iter <= 10)%nat ->
  exists r, binary_search mid narrow negative small fuel iter error low high = Some r.
Proof.
  intros T E mid narrow negative small error fuel.
  induction fuel as [|fuel IH]; intros iter low high F I; [lia|].
  cbn [binary_search].
  match goal with |- context [(if ?b then Some ?x else _)] => destruct b eqn:Stop end; [eauto|].
  apply Bool.orb_false_iff in Stop. destruct Stop as [Stop _].
  apply Bool.orb_false_iff in Stop. destruct Stop as [Stop _].
  apply PeanoNat.Nat.ltb_ge in Stop. apply IH; lia.
Qed.

Section Stuck.
Variables (T E : Type) (mid : T -> T -> T) (narrow : T -> T -> bool).
Variables negative positive small : E -> bool.
Variables skewness_error kurtosis_error : T -> T -> E.
Variable converged : T * T -> T * T -> bool.
Hypothesis NoSkew : forall x y, positive (skewness_error x y) = false.
Hypothesis NoKurt : forall x y, negative (kurtosis_error x y) = false.

Lemma turn_stuck : forall fuel p start, (11 <= fuel)%nat ->
  min_h T p = start -> max_delta T p = start ->
  exists p', turn mid narrow negative positive small skewness_error kurtosis_error fuel p = Some p'
    /\ h T p' = start /\ delta T p' = start /\ min_h T p' = start /\ max_delta T p' = start.
Proof.
  intros fuel p start F M X. unfold turn. rewrite NoSkew.
  cbn [min_delta delta max_delta min_h TukeyModel.h max_h].
  destruct (bsearch_total T E mid narrow negative small
              (fun x => kurtosis_error x (max_delta T p)) fuel 0 (min_h T p) (max_h T p))
    as [[l u] R]; [lia|lia|].
  rewrite R. apply bsearch_never_negative in R; [|intros; apply NoKurt]. cbn in R. subst l.
  eexists. split; [reflexivity|]. cbn [min_delta delta max_delta min_h TukeyModel.h max_h]. auto.
Qed.

Lemma search_stuck : forall fuel turns previous p start, (11 <= fuel)%nat ->
  min_h T p = start -> max_delta T p = start ->
  exists p', search mid narrow negative positive small skewness_error kurtosis_error converged
               fuel (S turns) previous p = Some p' /\ h T p' = start /\ delta T p' = start.
Proof.
  intros fuel turns. induction turns as [|turns IH]; intros previous p start F M X;
    cbn [search]; destruct (turn_stuck fuel p start F M X) as [p' [-> [A [B [C D]]]]].
  - exists p'. split; [destruct (_ || _)%bool; reflexivity|auto].
  - destruct (_ || _)%bool; [exists p'; auto|]. apply (IH _ _ start F C D).
Qed.
End Stuck.

Lemma negative_result :
  exists skewness_error kurtosis_error left right,
    (forall x y, skewness_error x y <= 0) /\ (forall x y, 0 <= kurtosis_error x y) /\
    compute_params 11 skewness_error kurtosis_error 0 (1226017 / 10000000) = Some (left, right)
    /\ right < 0.
Proof.
  exists (fun _ _ => 0), (fun _ _ => 1), 0, (initial_h (1226017 / 10000000)).
  split; [intros; lra|]. split; [intros; lra|]. split; [|exact initial_negative].
  unfold compute_params.
  destruct (Rlt_dec (1226017 / 10000000) (1226017 / 10000000)) as [L|_]; [lra|].
  rewrite Rmin_left by lra.
  assert (Z : real_lt 0 0 = false) by (apply real_lt_false; lra). rewrite Z.
  set (i := initial_h (1226017 / 10000000)). unfold tukey_search.
  match goal with |- context [search ?m ?n ?ng ?po ?sm ?se ?ke ?c ?f 20 ?pr ?q] =>
    destruct (search_stuck R R m n ng po sm se ke c
      (fun _ _ => proj2 (real_lt_false 0 0) (Rle_refl 0))
      (fun _ _ => proj2 (real_lt_false 1 0) Rle_0_1) f 19 pr q i)
      as [p' [Found [A B]]]
  end; [lia|reflexivity|reflexivity|].
  rewrite Found, A, B. f_equal. f_equal. lra.
Qed.

(** *** The theorems for real numbers *)
Lemma real_binary_search : forall step width fuel (error : R -> R) low high,
  low <= high -> (11 <= fuel)%nat ->
  exists l h,
    binary_search (fun low high => (low + high) / 2)
      (fun high low => real_lt (high - low) width) (fun e => real_lt e 0)
      (fun e => real_lt (Rabs e) step) fuel 0 error low high = Some (l, h)
    /\ low <= l <= h /\ h <= high
    /\ (Rabs (error l) < step \/ Rabs (error h) < step \/ h - l < width
        \/ h - l = (high - low) / 2048)
    /\ (continuity error -> error low < 0 -> 0 <= error high ->
        exists x, l <= x <= h /\ error x = 0).
Proof.
  intros step width fuel error low high L F.
  destruct (bsearch_brackets R R Rle half Rminus 0 (fun high low => real_lt (high - low) width)
              (fun e => real_lt e 0) (fun e => real_lt (Rabs e) step) real_ordered
              fuel 0 error low high L) as [l [h [E [B1 [B2 [B3 [B4 B5]]]]]]]; [lia|lia|].
  exists l, h. split; [exact E|]. split; [lra|]. split; [lra|]. split.
  - pose proof (real_accuracy step width fuel 0 error low high l h E ltac:(lia)) as A.
    cbn [Nat.sub] in A. replace (2 ^ 11) with 2048 in A by (cbn; lra). exact A.
  - intros C N P. apply root_between; auto.
    + destruct B4 as [->|B4]; [exact N|]. apply real_lt_iff in B4. exact B4.
    + destruct B5 as [->|B5]; [exact P|]. apply real_lt_false in B5. exact B5.
Qed.

Lemma params_admissible : forall fuel skewness_error kurtosis_error l_skewness l_kurtosis,
  (11 <= fuel)%nat ->
  l_kurtosis < 1226017 / 10000000 \/ gaussian_l_kurtosis <= l_kurtosis ->
  exists left right,
    compute_params fuel skewness_error kurtosis_error l_skewness l_kurtosis = Some (left, right)
    /\ 0 <= left < 1 /\ 0 <= right < 1
    /\ (0 <= l_skewness -> left <= right) /\ (l_skewness < 0 -> right <= left).
Proof.
  intros fuel se ke s k F [K|K].
  - exists 0, 0. unfold compute_params. destruct (Rlt_dec k _) as [_|N]; [|lra].
    split; [reflexivity|]. repeat split; lra.
  - pose proof threshold_below_gaussian as T.
    destruct (params_real fuel se ke s k F K) as [l [h [E [A [B [C _]]]]]]; [lra|].
    destruct (real_lt s 0) eqn:Sg; rewrite E.
    + apply real_lt_iff in Sg. exists h, l. split; [reflexivity|]. repeat split; lra.
    + apply real_lt_false in Sg. exists l, h. split; [reflexivity|]. repeat split; lra.
Qed.

Lemma params_example : gaussian_l_kurtosis <= 9 / 10 /\
  exists left right, compute_params 11 (fun h d => d - h) (fun h d => h - d) (-1) (9 / 10)
                     = Some (left, right) /\ right <= left /\ 0 < left.
Proof.
  pose proof kurtosis_small as G. split; [lra|].
  pose proof threshold_below_gaussian as T.
  destruct (params_real 11 (fun h d => d - h) (fun h d => h - d) (-1) (9 / 10))
    as [l [h [E [A [B [C D]]]]]]; [lia|lra|lra|].
  assert (Sg : real_lt (-1) 0 = true) by (apply real_lt_iff; lra). rewrite Sg in E.
  exists h, l. split; [exact E|]. split; [exact B|].
  apply Rlt_le_trans with (2 := D). rewrite Rmin_left by lra.
  apply initial_positive; lra.
Qed.
