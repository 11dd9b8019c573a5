(** Proofs of the statements of PcaProps.v: variances, and the analysis. *)
From Coq Require Import List ZArith QArith Qreals Reals Lra Lia Arith Permutation Sorted.
From Verif Require Import CombineModel CombineProofs MeanVarModel MeanVarSpec MeanVarProofs PcaModel PcaSpec PcaProofs.
Import ListNotations.
Local Open Scope R_scope.

Section Rows.
Variable n : nat.
Variable rows : list (list R).
Local Notation I := (seq 0 n).

Lemma average_map f : average (map f rows) = sum rows f / INR (length rows).
Proof. unfold average. now rewrite map_length. Qed.

Lemma average_dot u : average (map (dot n u) rows)
  = sum I (fun i => nth i u 0 * average (map (fun r => nth i r 0) rows)).
Proof.
  rewrite average_map. unfold dot, sum_to.
  rewrite sum_swap. unfold Rdiv. rewrite <- sum_scale_r. apply sum_ext. intros i _.
  rewrite sum_scale, average_map. unfold Rdiv. ring.
Qed.

Lemma matrix_nth i l : (i < n)%nat -> (l < n)%nat ->
  nth l (nth i (covariance_matrix n rows) []) 0
  = covariance_of rows (fun r => nth i r 0) (fun r => nth l r 0).
Proof.
  intros Hi Hl. unfold covariance_matrix.
  set (f := fun i => map _ (seq 0 n)).
  rewrite (nth_indep _ [] (f 0%nat)) by (rewrite map_length, seq_length; lia).
  rewrite (map_nth f), seq_nth by lia. unfold f. cbn [plus].
  set (g := fun j => covariance_of _ _ _).
  rewrite (nth_indep _ 0 (g 0%nat)) by (rewrite map_length, seq_length; lia).
  rewrite (map_nth g), seq_nth by lia. reflexivity.
Qed.

Lemma covariance_along u w : covariance_of rows (dot n u) (dot n w)
  = sum I (fun i => sum I (fun l => nth i u 0 * nth l w 0 * nth l (nth i (covariance_matrix n rows) []) 0)).
Proof.
  set (mu := fun i => average (map (fun r => nth i r 0) rows)).
  assert (C : forall (v r : list R), dot n v r - average (map (dot n v) rows)
    = sum I (fun i => nth i v 0 * (nth i r 0 - mu i))).
  { intros v r. rewrite average_dot. unfold dot, sum_to. rewrite <- sum_minus. apply sum_ext. intros. fold (mu a). ring. }
  unfold covariance_of at 1. rewrite average_map.
  rewrite (sum_ext rows _ (fun r => sum I (fun i => sum I (fun l =>
     (nth i u 0 * nth l w 0) * ((nth i r 0 - mu i) * (nth l r 0 - mu l)))))).
  2:{ intros r _. rewrite !C, sum_mult. apply sum_ext. intros. apply sum_ext. intros. ring. }
  rewrite sum_swap. unfold Rdiv. rewrite <- sum_scale_r. apply sum_ext. intros i Hi. apply in_seq0 in Hi.
  rewrite sum_swap, <- sum_scale_r. apply sum_ext. intros l Hl. apply in_seq0 in Hl.
  rewrite matrix_nth by assumption. unfold covariance_of. rewrite average_map.
  rewrite sum_scale. unfold Rdiv, mu. ring.
Qed.

(** ** The directions of the largest eigenvalues *)

Section Best.
Variables (vals : list R) (vecs : list (list R)) (idx : list nat) (k : nat).
Hypothesis D : decomposition n (covariance_matrix n rows) vals vecs.
Hypothesis Hs : sorts vals idx.
Hypothesis Hk : (k <= n)%nat.

Definition order : list nat := rev idx.
Definition best : list (list R) := map (fun q => column q vecs) (firstn k order).

Lemma len_vals : length vals = n. Proof. apply D. Qed.

Lemma order_perm : Permutation order I.
Proof.
  destruct Hs as [P _]. rewrite len_vals in P. unfold order.
  eapply Permutation_trans; [apply Permutation_sym, Permutation_rev|exact P].
Qed.

Lemma order_length : length order = n.
Proof. rewrite (Permutation_length order_perm). apply seq_length. Qed.

Lemma order_nodup : NoDup order.
Proof. eapply Permutation_NoDup; [apply Permutation_sym, order_perm|apply seq_NoDup]. Qed.

Lemma order_in q : In q order -> (q < n)%nat.
Proof. intros H. apply in_seq0. eapply Permutation_in; [apply order_perm|exact H]. Qed.

Lemma strongly_sorted_app {A} (rel : A -> A -> Prop) l m :
  StronglySorted rel (l ++ m) -> forall a b, In a l -> In b m -> rel a b.
Proof.
  induction l as [|x l IH]; intros H a b Ha Hb; [destruct Ha|].
  cbn in H. inversion H as [|? ? S F]; subst. destruct Ha as [->|Ha]; [|now apply IH].
  rewrite Forall_forall in F. apply F, in_or_app. now right.
Qed.

Lemma order_descends l m : order = l ++ m -> forall a b, In a l -> In b m ->
  nth b vals 0 <= nth a vals 0.
Proof.
  intros E a b Ha Hb. destruct Hs as [_ S].
  assert (E' : idx = rev m ++ rev l).
  { rewrite <- rev_app_distr, <- E. unfold order. now rewrite rev_involutive. }
  rewrite E' in S. apply (strongly_sorted_app _ _ _ S b a); now apply -> in_rev.
Qed.

Lemma along u : variance_along n rows u
  = sum I (fun j => nth j vals 0 * (coordinate n vecs u j * coordinate n vecs u j)).
Proof. unfold variance_along. rewrite covariance_along. apply (form n _ vals vecs D). Qed.

Lemma between q r : (q < n)%nat -> (r < n)%nat ->
  covariance_of rows (dot n (column q vecs)) (dot n (column r vecs)) = if (q =? r)%nat then nth q vals 0 else 0.
Proof.
  intros Hq Hr. rewrite covariance_along, (form n _ vals vecs D). apply (form_columns n _ vals vecs D); assumption.
Qed.

Lemma best_length : length best = k.
Proof. unfold best. rewrite map_length, firstn_length, order_length. lia. Qed.

Lemma best_nth a : (a < k)%nat -> nth a best [] = column (nth a order 0%nat) vecs /\ (nth a order 0 < n)%nat.
Proof.
  intros Ha. unfold best.
  assert (L : (a < length (firstn k order))%nat) by (rewrite firstn_length, order_length; lia).
  split.
  - rewrite (nth_indep _ [] (column 0 vecs)) by (rewrite map_length; exact L).
    rewrite (map_nth (fun q => column q vecs)). f_equal.
    rewrite <- (firstn_skipn k order) at 2. rewrite app_nth1 by exact L. reflexivity.
  - apply order_in, nth_In. rewrite order_length. lia.
Qed.

Lemma order_nth_eq a b : (a < n)%nat -> (b < n)%nat -> (nth a order 0 =? nth b order 0)%nat = (a =? b)%nat.
Proof.
  intros Ha Hb. destruct (Nat.eqb_spec a b) as [->|N]; [apply Nat.eqb_refl|].
  apply Nat.eqb_neq. intros E. apply N.
  apply (proj1 (NoDup_nth order 0%nat) order_nodup); rewrite ?order_length; assumption.
Qed.

Lemma best_orthonormal : orthonormal n best.
Proof.
  intros a b Ha Hb. rewrite best_length in Ha, Hb.
  destruct (best_nth a Ha) as [-> Qa]. destruct (best_nth b Hb) as [-> Qb].
  rewrite (coordinate_dot n _ vals vecs D), (coordinate_column n _ vals vecs D) by assumption.
  rewrite order_nth_eq by lia. now rewrite Nat.eqb_sym.
Qed.

Lemma best_covariance a b : (a < k)%nat -> (b < k)%nat ->
  covariance_of rows (dot n (nth a best [])) (dot n (nth b best []))
  = if (a =? b)%nat then nth (nth a order 0%nat) vals 0 else 0.
Proof.
  intros Ha Hb. destruct (best_nth a Ha) as [-> Qa]. destruct (best_nth b Hb) as [-> Qb].
  rewrite between by assumption. now rewrite order_nth_eq by lia.
Qed.

Lemma order_nth_descends a b : (a <= b < n)%nat -> nth (nth b order 0%nat) vals 0 <= nth (nth a order 0%nat) vals 0.
Proof.
  intros [Hab Hb]. destruct (Nat.eq_dec a b) as [->|N]; [lra|].
  apply (order_descends (firstn b order) (skipn b order)).
  - symmetry. apply firstn_skipn.
  - rewrite <- (firstn_skipn b order) at 1.
    assert (L : (a < length (firstn b order))%nat) by (rewrite firstn_length, order_length; lia).
    rewrite app_nth1 by exact L. now apply nth_In.
  - rewrite <- (firstn_skipn b order) at 1.
    assert (L : length (firstn b order) = b) by (rewrite firstn_length, order_length; lia).
    rewrite app_nth2 by lia. rewrite L, Nat.sub_diag. apply nth_In. rewrite skipn_length, order_length. lia.
Qed.

Lemma best_retained : variance_retained n rows best = sum (firstn k order) (fun q => nth q vals 0).
Proof.
  unfold variance_retained, best. rewrite map_map. apply sum_ext. intros q Hq.
  assert (L : (q < n)%nat).
  { apply order_in. rewrite <- (firstn_skipn k order). apply in_or_app. now left. }
  unfold variance_along. rewrite between by exact L. now rewrite Nat.eqb_refl.
Qed.

Lemma best_maximal us : length us = k -> orthonormal n us ->
  variance_retained n rows us <= variance_retained n rows best.
Proof.
  intros HL HO. rewrite best_retained.
  set (weight := fun j => sum us (fun u => coordinate n vecs u j * coordinate n vecs u j)).
  assert (W1 : forall j, (j < n)%nat -> 0 <= weight j <= 1).
  { intros j Hj. split.
    - apply sum_nonneg. intros. apply Rle_0_sqr.
    - unfold weight. rewrite (sum_ext us _ (fun u => dot n (column j vecs) u * dot n (column j vecs) u)).
      2:{ intros u _. rewrite <- (coordinate_dot n _ vals vecs D u j), (dot_sym n u). reflexivity. }
      eapply Rle_trans; [apply bessel; exact HO|].
      rewrite (coordinate_dot n _ vals vecs D), (coordinate_column n _ vals vecs D) by assumption.
      rewrite Nat.eqb_refl. lra. }
  assert (W2 : sum order weight = INR k).
  { rewrite (sum_perm _ _ _ order_perm). unfold weight. rewrite sum_swap.
    rewrite (sum_ext us _ (fun _ => 1)).
    - rewrite sum_const, HL. ring.
    - intros u Hu. rewrite (parseval n _ vals vecs D).
      destruct (In_nth us u [] Hu) as (a & Ha & <-). rewrite HO by assumption. now rewrite Nat.eqb_refl. }
  assert (E : variance_retained n rows us = sum order (fun j => nth j vals 0 * weight j)).
  { unfold variance_retained. rewrite (sum_ext us _ _ (fun u _ => along u)).
    rewrite sum_swap, (sum_perm _ _ _ order_perm). apply sum_ext. intros j _. now rewrite sum_scale. }
  rewrite E.
  pose proof (firstn_skipn k order) as FS. symmetry in FS.
  set (top := firstn k order) in *. set (rest := skipn k order) in *.
  assert (It : forall q, In q top -> (q < n)%nat) by (intros q Hq; apply order_in; rewrite FS; apply in_or_app; now left).
  assert (Ir : forall q, In q rest -> (q < n)%nat) by (intros q Hq; apply order_in; rewrite FS; apply in_or_app; now right).
  assert (Lt : length top = k) by (unfold top; rewrite firstn_length, order_length; lia).
  assert (T : exists t, (forall q, In q top -> t <= nth q vals 0) /\ (forall q, In q rest -> nth q vals 0 <= t)).
  { destruct rest as [|r rest'] eqn:ER.
    - (* the least of the values *)
      clear - top. assert (X : forall l : list nat, exists t, forall q, In q l -> t <= nth q vals 0).
      { induction l as [|q l [t IH]]; [exists 0; intros q []|].
        exists (Rmin t (nth q vals 0)). intros p [<-|Hp]; [apply Rmin_r|].
        eapply Rle_trans; [apply Rmin_l|now apply IH]. }
      destruct (X top) as [t Ht]. exists t. split; [exact Ht|intros q []].
    - exists (nth r vals 0). split.
      + intros q Hq. apply (order_descends top (r :: rest') FS); [exact Hq|now left].
      + intros q [<-|Hq]; [lra|].
        apply (order_descends (top ++ [r]) rest'); [rewrite <- app_assoc; exact FS| |exact Hq].
        apply in_or_app. right. now left. }
  destruct T as (t & T1 & T2).
  rewrite FS, sum_app. rewrite FS, sum_app in W2.
  assert (A : sum top (fun j => nth j vals 0 * weight j) + t * (INR k - sum top weight) <= sum top (fun q => nth q vals 0)).
  { rewrite <- Lt. rewrite <- (Rmult_1_r (INR (length top))), <- (sum_const top 1), <- sum_minus, <- sum_scale, <- sum_plus.
    apply sum_le. intros q Hq. specialize (T1 q Hq). specialize (W1 q (It q Hq)). nra. }
  assert (B : sum rest (fun j => nth j vals 0 * weight j) <= t * sum rest weight).
  { rewrite <- sum_scale. apply sum_le. intros q Hq. specialize (T2 q Hq). specialize (W1 q (Ir q Hq)). nra. }
  assert (C : INR k - sum top weight = sum rest weight) by lra.
  rewrite C in A. lra.
Qed.
End Best.
End Rows.
