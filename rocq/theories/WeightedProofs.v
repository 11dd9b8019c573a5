From Coq Require Import List ZArith QArith Bool Lia Permutation.
From Verif Require Import CombineModel CombineProofs FloatModel MeanVarModel MeanVarSpec WeightedModel WeightedSpec MeanVarProofs.
Import ListNotations.
Open Scope Q_scope.

Definition mean_at (j : nat) (a : wm) : fl := nth j (wm_mean a) (Fin 0).

(** [a] represents [n] rows of total weight [W] and weight [Y j] of label [j]. *)
Definition repw (n : Z) (W : Q) (Y : nat -> Q) (a : wm) : Prop :=
  wm_count a = n /\ (0 <= n)%Z /\ 0 <= W /\
  (n = 0%Z -> W == 0 /\ zeroish (wm_weight a)) /\
  ((0 < n)%Z -> exists w, wm_weight a = Fin w /\ w * inject_Z n == W) /\
  (W == 0 -> forall j, Y j == 0 /\ zeroish (mean_at j a)) /\
  (~ W == 0 -> forall j, exists m, mean_at j a = Fin m /\ m * W == Y j).

Definition repwf (n : Z) (W : Q) (Y : nat -> Q) (a : wm) : Prop :=
  wm_count a = n /\ (0 <= n)%Z /\ 0 <= W /\
  (exists w, wm_weight a = Fin w /\ w * inject_Z n == W /\ (n = 0%Z -> w == 0)) /\
  (forall j, exists m, mean_at j a = Fin m /\ m * W == Y j /\ (W == 0 -> m == 0)).

Lemma mean_at_nan_to_num j a : mean_at j (wm_nan_to_num a) = nan_to_num (mean_at j a).
Proof. unfold mean_at, wm_nan_to_num. cbn [wm_mean]. change (Fin 0) with (nan_to_num (Fin 0)) at 1. apply map_nth. Qed.

Lemma zeroish_nan_to_num x : zeroish x -> exists q, nan_to_num x = Fin q /\ q == 0.
Proof. intros [->|(q & -> & Hq)]; [exists 0; split; reflexivity|exists q; split; [reflexivity|exact Hq]]. Qed.

Lemma repw_nan_to_num n W Y a : repw n W Y a -> repwf n W Y (wm_nan_to_num a).
Proof.
  intros (Hc & Hn & HW & H0 & Hp & HW0 & HWp).
  split; [exact Hc|]. split; [exact Hn|]. split; [exact HW|]. split.
  - destruct (Z.eq_dec n 0) as [E|E].
    + destruct (H0 E) as [EW Zw]. destruct (zeroish_nan_to_num _ Zw) as (w & Ew & Hw).
      exists w. split; [exact Ew|]. split; [rewrite Hw, EW; ring|intros _; exact Hw].
    + destruct (Hp ltac:(lia)) as (w & Ew & Hw). exists w. cbn [wm_nan_to_num wm_weight]. rewrite Ew.
      split; [reflexivity|]. split; [exact Hw|intros; contradiction].
  - intros j. rewrite mean_at_nan_to_num. destruct (Qeq_dec W 0) as [E|E].
    + destruct (HW0 E j) as [EY Zm]. destruct (zeroish_nan_to_num _ Zm) as (m & Em & Hm).
      exists m. split; [exact Em|]. split; [rewrite Hm, EY; ring|intros _; exact Hm].
    + destruct (HWp E j) as (m & Em & Hm). exists m. rewrite Em.
      split; [reflexivity|]. split; [exact Hm|intros; contradiction].
Qed.

Lemma repwf_repw n W Y a : repwf n W Y a -> repw n W Y a.
Proof.
  intros (Hc & Hn & HW & (w & Ew & Hw & Hw0) & Hm).
  split; [exact Hc|]. split; [exact Hn|]. split; [exact HW|]. split; [|split; [|split]].
  - intros E. split; [rewrite <- Hw, E; ring|]. right. exists w. auto.
  - intros _. exists w. auto.
  - intros E j. destruct (Hm j) as (m & Em & EY & Hz). split; [rewrite <- EY, E; ring|]. right. exists m. auto.
  - intros E j. destruct (Hm j) as (m & Em & EY & Hz). exists m. auto.
Qed.

Lemma repw_ext n n' W W' Y Y' a : n = n' -> W == W' -> (forall j, Y j == Y' j) -> repw n W Y a -> repw n' W' Y' a.
Proof.
  intros -> EW EY (Hc & Hn & HW & H0 & Hp & HW0 & HWp).
  split; [exact Hc|]. split; [exact Hn|]. split; [rewrite <- EW; exact HW|]. split; [|split; [|split]].
  - intros E. rewrite <- EW. apply H0, E.
  - intros E. destruct (Hp E) as (w & Ew & Hw). exists w. rewrite <- EW. auto.
  - intros E j. rewrite <- EY. apply HW0. rewrite EW. exact E.
  - intros E j. destruct (HWp (fun E' => E (Qeq_trans _ _ _ (Qeq_sym _ _ EW) E')) j) as (m & Em & Hm).
    exists m. rewrite <- EW, <- EY. auto.
Qed.

Lemma nth_pad_zeros n j l : nth j (pad_zeros n l) (Fin 0) = nth j l (Fin 0).
Proof.
  unfold pad_zeros. destruct (Nat.lt_ge_cases j (length l)) as [H|H].
  - apply app_nth1, H.
  - rewrite app_nth2 by exact H. rewrite (nth_overflow l) by exact H.
    destruct (Nat.lt_ge_cases (j - length l) (n - length l)) as [H'|H'].
    + apply nth_repeat.
    + apply nth_overflow. rewrite repeat_length. exact H'.
Qed.

Lemma combine_means_nth (f : fl -> fl -> fl) j l1 l2 :
  let n := Nat.max (length l1) (length l2) in
  nth j (map (fun p => f (fst p) (snd p)) (combine (pad_zeros n l1) (pad_zeros n l2))) (Fin 0)
  = if (j <? n)%nat then f (nth j l1 (Fin 0)) (nth j l2 (Fin 0)) else Fin 0.
Proof.
  intros n. assert (La : length (pad_zeros n l1) = n) by (unfold pad_zeros; rewrite app_length, repeat_length; unfold n; lia).
  assert (Lb : length (pad_zeros n l2) = n) by (unfold pad_zeros; rewrite app_length, repeat_length; unfold n; lia).
  destruct (Nat.ltb_spec j n) as [H|H].
  - rewrite (nth_indep _ (Fin 0) (f (fst (Fin 0, Fin 0)) (snd (Fin 0, Fin 0)))) by (rewrite map_length, combine_length; lia).
    rewrite (map_nth (fun p => f (fst p) (snd p))), combine_nth by lia. cbn [fst snd].
    rewrite !nth_pad_zeros. reflexivity.
  - apply nth_overflow. rewrite map_length, combine_length. lia.
Qed.

(** The body of the combination. *)
Lemma combine_body_rep n1 W1 Y1 a n2 W2 Y2 b :
  repwf n1 W1 Y1 a -> repwf n2 W2 Y2 b -> (n2 <= n1)%Z ->
  repw (n1 + n2) (W1 + W2) (fun j => Y1 j + Y2 j)
    (if (wm_count a =? 0)%Z then b
     else
       let n := Nat.max (length (wm_mean a)) (length (wm_mean b)) in
       let bc := Fin (inject_Z (wm_count b)) in
       let total := Fin (inject_Z (wm_count a + wm_count b)) in
       let weight := fadd (wm_weight a) (fmul (fdiv bc total) (fsub (wm_weight b) (wm_weight a))) in
       let factor := fdiv (fmul bc (wm_weight b)) (fmul total weight) in
       WM (wm_count a + wm_count b)
          (map (fun p => fadd (fst p) (fmul factor (fsub (snd p) (fst p))))
               (combine (pad_zeros n (wm_mean a)) (pad_zeros n (wm_mean b))))
          weight).
Proof.
  intros H1 H2 Hle.
  pose proof H1 as (Hc1 & Hn1 & HW1 & (w1 & Ew1 & Hw1 & Hz1) & Hm1).
  pose proof H2 as (Hc2 & Hn2 & HW2 & (w2 & Ew2 & Hw2 & Hz2) & Hm2).
  rewrite Hc1. destruct (Z.eqb_spec n1 0) as [E|E].
  - assert (n2 = 0%Z) by lia.
    assert (EW1 : W1 == 0) by (rewrite <- Hw1, E; ring).
    eapply repw_ext; [| | |apply repwf_repw, H2]; [lia|rewrite EW1; ring|].
    intros j. destruct (Hm1 j) as (m & _ & EY & _). rewrite <- EY, EW1. ring.
  - assert (Hp : (0 < n1 + n2)%Z) by lia. pose proof (inject_Z_nonzero _ Hp) as Hnz.
    assert (EQ : Qeq_bool (inject_Z (n1 + n2)) 0 = false).
    { destruct (Qeq_bool _ 0) eqn:EQ; [apply Qeq_bool_eq in EQ; contradiction|reflexivity]. }
    assert (ED : fdiv (Fin (inject_Z n2)) (Fin (inject_Z (n1 + n2))) = Fin (inject_Z n2 / inject_Z (n1 + n2)))
      by (unfold fdiv; rewrite EQ; reflexivity).
    cbv zeta. rewrite Hc2, Ew1, Ew2. rewrite ED. cbn [fsub fneg fadd fmul].
    set (w := w1 + inject_Z n2 / inject_Z (n1 + n2) * (w2 + - w1)).
    assert (Hw : w * inject_Z (n1 + n2) == W1 + W2).
    { unfold w. rewrite <- Hw1, <- Hw2. rewrite inject_Z_plus in *. field. exact Hnz. }
    split; [reflexivity|]. split; [lia|]. split.
    { rewrite <- (Qplus_0_l 0). apply Qplus_le_compat; assumption. }
    split; [lia|]. split.
    { intros _. exists w. split; [reflexivity|exact Hw]. }
    unfold mean_at at 1 2. cbn [wm_mean].
    set (factor := fdiv (Fin (inject_Z n2 * w2)) (Fin (inject_Z (n1 + n2) * w))).
    split.
    + intros EW j.
      assert (W1 == 0 /\ W2 == 0) as [EW1 EW2].
      { split; apply Qle_antisym; try assumption.
        - rewrite <- EW. rewrite <- (Qplus_0_r W1) at 1. apply Qplus_le_compat; [apply Qle_refl|exact HW2].
        - rewrite <- EW. rewrite <- (Qplus_0_l W2) at 1. apply Qplus_le_compat; [exact HW1|apply Qle_refl]. }
      destruct (Hm1 j) as (m1 & Em1 & EY1 & _). destruct (Hm2 j) as (m2 & Em2 & EY2 & _).
      split; [rewrite <- EY1, <- EY2, EW1, EW2; ring|].
      assert (EF : factor = NaN).
      { unfold factor, fdiv.
        destruct (Qeq_bool (inject_Z (n1 + n2) * w) 0) eqn:E1.
        - destruct (Qeq_bool (inject_Z n2 * w2) 0) eqn:E2; [reflexivity|].
          apply Qeq_bool_neq in E2. exfalso. apply E2. rewrite Qmult_comm, Hw2. exact EW2.
        - apply Qeq_bool_neq in E1. exfalso. apply E1. rewrite Qmult_comm, Hw. exact EW. }
      rewrite (combine_means_nth (fun x y => fadd x (fmul factor (fsub y x)))). rewrite EF.
      destruct (Nat.ltb j _); [|right; exists 0; split; reflexivity].
      left. unfold mean_at in Em1, Em2. rewrite Em1, Em2. reflexivity.
    + intros EW j.
      destruct (Hm1 j) as (m1 & Em1 & EY1 & _). destruct (Hm2 j) as (m2 & Em2 & EY2 & _).
      assert (EF : factor = Fin (inject_Z n2 * w2 / (inject_Z (n1 + n2) * w))).
      { unfold factor, fdiv. destruct (Qeq_bool (inject_Z (n1 + n2) * w) 0) eqn:E1; [|reflexivity].
        apply Qeq_bool_eq in E1. exfalso. apply EW. rewrite <- Hw, Qmult_comm. exact E1. }
      rewrite (combine_means_nth (fun x y => fadd x (fmul factor (fsub y x)))). rewrite EF.
      unfold mean_at in Em1, Em2. rewrite Em1, Em2.
      destruct (Nat.ltb_spec j (Nat.max (length (wm_mean a)) (length (wm_mean b)))) as [Hj|Hj].
      * cbn [fsub fneg fadd fmul]. eexists. split; [reflexivity|].
        assert (Ed : inject_Z (n1 + n2) * w == W1 + W2) by (rewrite Qmult_comm; exact Hw).
        assert (En : inject_Z n2 * w2 == W2) by (rewrite Qmult_comm; exact Hw2).
        rewrite Ed, En, <- EY1, <- EY2. field. exact EW.
      * rewrite nth_overflow in Em1 by lia. rewrite nth_overflow in Em2 by lia.
        inversion Em1; inversion Em2; subst m1 m2. exists 0. split; [reflexivity|].
        rewrite <- EY1, <- EY2. ring.
Qed.

Lemma wm_combine_rep n1 W1 Y1 a n2 W2 Y2 b :
  repw n1 W1 Y1 a -> repw n2 W2 Y2 b ->
  repw (n1 + n2) (W1 + W2) (fun j => Y1 j + Y2 j) (wm_combine a b).
Proof.
  intros H1 H2. apply repw_nan_to_num in H1, H2. unfold wm_combine.
  set (a' := wm_nan_to_num a) in *. set (b' := wm_nan_to_num b) in *.
  assert (E1 : wm_count a' = n1) by apply H1. assert (E2 : wm_count b' = n2) by apply H2.
  destruct (Z.ltb_spec (wm_count a') (wm_count b')) as [Hlt|Hge].
  - eapply repw_ext; [| | |apply (combine_body_rep n2 W2 Y2 b' n1 W1 Y1 a' H2 H1); lia]; [lia|ring|intros j; cbv beta; ring].
  - apply (combine_body_rep n1 W1 Y1 a' n2 W2 Y2 b' H1 H2). lia.
Qed.

Lemma repw_create : repw 0 0 (fun _ => 0) wm_create.
Proof.
  split; [reflexivity|]. split; [lia|]. split; [apply Qle_refl|]. split.
  - intros _. split; [reflexivity|]. right. exists 0. split; reflexivity.
  - split; [lia|]. split.
    + intros _ j. split; [reflexivity|]. right. exists 0. split; [destruct j; reflexivity|reflexivity].
    + intros H. exfalso. apply H. reflexivity.
Qed.

Lemma sumq_q_sum l : sumq l = q_sum l.
Proof. reflexivity. Qed.

Lemma label_weight_bounds rows j :
  Forall (fun r => 0 <= lab_weight r) rows -> 0 <= label_weight j rows /\ label_weight j rows <= total_weight rows.
Proof.
  unfold label_weight, total_weight.
  induction 1 as [|r rows Hr _ [IH1 IH2]]; cbn [map filter]; [split; apply Qle_refl|].
  destruct (Nat.eqb (lab_label r) j); cbn [map]; rewrite ?q_sum_cons.
  - split.
    + rewrite <- (Qplus_0_l 0). apply Qplus_le_compat; assumption.
    + apply Qplus_le_compat; [apply Qle_refl|exact IH2].
  - split; [exact IH1|]. rewrite <- (Qplus_0_l (q_sum (map lab_weight (filter _ rows)))).
    apply Qplus_le_compat; assumption.
Qed.

Lemma total_nonneg rows : Forall (fun r => 0 <= lab_weight r) rows -> 0 <= total_weight rows.
Proof.
  unfold total_weight. induction 1 as [|r rows Hr _ IH]; cbn [map]; [apply Qle_refl|].
  rewrite q_sum_cons, <- (Qplus_0_l 0). apply Qplus_le_compat; assumption.
Qed.

Lemma label_weight_absent rows j n :
  Forall (fun r => (lab_label r < n)%nat) rows -> (n <= j)%nat -> label_weight j rows = 0.
Proof.
  intros H Hj. unfold label_weight. induction H as [|r rows Hr _ IH]; [reflexivity|].
  cbn [filter]. destruct (Nat.eqb_spec (lab_label r) j); [lia|]. exact IH.
Qed.

Lemma batch_token_rep labels rows :
  wf_batch (labels, rows) ->
  repw (Z.of_nat (length rows)) (total_weight rows) (fun j => label_weight j rows) (batch_token labels rows).
Proof.
  intros [Hne HF]. cbn [fst snd] in *.
  assert (HFw : Forall (fun r => 0 <= lab_weight r) rows) by (eapply Forall_impl; [|exact HF]; cbn; tauto).
  assert (HFl : Forall (fun r => (lab_label r < labels)%nat) rows) by (eapply Forall_impl; [|exact HF]; cbn; tauto).
  assert (Hp : (0 < Z.of_nat (length rows))%Z) by (destruct rows; [congruence|cbn; lia]).
  assert (Hnz := inject_Z_nonzero _ Hp).
  pose proof (total_nonneg rows HFw) as HW.
  assert (HM : forall j, mean_at j (batch_token labels rows)
                         = if (j <? labels)%nat then fdiv (Fin (label_weight j rows)) (Fin (total_weight rows)) else Fin 0).
  { intros j. unfold mean_at, batch_token, wm_make. cbn [wm_mean]. rewrite map_map.
    destruct (Nat.ltb_spec j labels) as [L|L].
    - set (f := fun x => fdiv _ _). rewrite (nth_indep _ (Fin 0) (f 0%nat)) by (rewrite map_length, seq_length; exact L).
      rewrite (map_nth f), seq_nth by exact L. reflexivity.
    - apply nth_overflow. rewrite map_length, seq_length. exact L. }
  split; [reflexivity|]. split; [lia|]. split; [exact HW|]. split; [lia|]. split.
  { intros _. exists (total_weight rows / inject_Z (Z.of_nat (length rows))). split.
    - cbn [batch_token wm_make wm_weight]. unfold fdiv.
      destruct (Qeq_bool (inject_Z (Z.of_nat (length rows))) 0) eqn:E; [apply Qeq_bool_eq in E; contradiction|].
      reflexivity.
    - field. exact Hnz. }
  split.
  - intros E j. destruct (label_weight_bounds rows j HFw) as [B1 B2].
    assert (EY : label_weight j rows == 0) by (apply Qle_antisym; [rewrite <- E; exact B2|exact B1]).
    split; [exact EY|]. rewrite HM. destruct (Nat.ltb j labels); [|right; exists 0; split; reflexivity].
    left. unfold fdiv. apply Qeq_eq_bool in E, EY. rewrite E, EY. reflexivity.
  - intros E j. rewrite HM. destruct (Nat.ltb_spec j labels) as [L|L].
    + unfold fdiv. destruct (Qeq_bool (total_weight rows) 0) eqn:EB; [apply Qeq_bool_eq in EB; contradiction|].
      eexists. split; [reflexivity|]. field. exact E.
    + exists 0. split; [reflexivity|]. rewrite (label_weight_absent rows j labels HFl L). ring.
Qed.


Definition Rwm (l : list (nat * list labelled)) (a : wm) : Prop :=
  repw (Z.of_nat (length (all_rows l))) (total_weight (all_rows l)) (fun j => label_weight j (all_rows l)) a.

Lemma all_rows_app l1 l2 : all_rows (l1 ++ l2) = all_rows l1 ++ all_rows l2.
Proof. unfold all_rows. rewrite map_app. apply concat_app. Qed.
Lemma total_weight_app r1 r2 : total_weight (r1 ++ r2) == total_weight r1 + total_weight r2.
Proof. unfold total_weight. rewrite map_app. apply q_sum_app. Qed.
Lemma filter_app' {A} (f : A -> bool) l1 l2 : filter f (l1 ++ l2) = filter f l1 ++ filter f l2.
Proof. induction l1 as [|x l1 IH]; [reflexivity|]. cbn. destruct (f x); cbn; rewrite IH; reflexivity. Qed.
Lemma label_weight_app j r1 r2 : label_weight j (r1 ++ r2) == label_weight j r1 + label_weight j r2.
Proof. unfold label_weight. rewrite filter_app', map_app. apply q_sum_app. Qed.

Lemma token_statistics_rep (s : sched (sched (nat * list labelled))) :
  Forall wf_batch (batches_of s) -> Rwm (batches_of s) (token_statistics s).
Proof.
  intros HF.
  assert (G : forall l1 a l2 b, Rwm l1 a -> Rwm l2 b -> Rwm (l1 ++ l2) (wm_combine a b)).
  { intros l1 a l2 b H1 H2. unfold Rwm. rewrite all_rows_app.
    eapply repw_ext; [| | |apply (wm_combine_rep _ _ _ a _ _ _ b H1 H2)].
    - rewrite app_length. lia.
    - rewrite total_weight_app. reflexivity.
    - intros j. rewrite label_weight_app. reflexivity. }
  unfold token_statistics.
  set (f := fun b : nat * list labelled => batch_token (fst b) (snd b)).
  assert (Hgen : forall (s' : sched (sched wm)) bs, batches_of s' = map f bs -> Forall wf_batch bs -> Rwm bs (analyze wm_combiner s')).
  { intros s' bs Es Hbs.
    destruct (analyze_rep wm_combiner (fun l a => forall bs', l = map f bs' -> Forall wf_batch bs' -> Rwm bs' a) (fun _ => True))
      with (s := s') as (a & Ha & ->).
    - intros bs' E _. destruct bs'; [|discriminate]. exact repw_create.
    - intros l a x _ Ha bs' E Hb. symmetry in E. apply map_eq_app in E as (b1 & b2 & -> & E1 & E2).
      destruct b2 as [|b [|? ?]]; try discriminate. cbn in E2. injection E2 as <-.
      apply Forall_app in Hb as [Hb1 Hb2]. apply G; [apply Ha; auto|].
      inversion Hb2 as [|? ? Hb _]; subst. destruct b as [L rows].
      unfold Rwm, all_rows. cbn [map concat snd]. rewrite app_nil_r. apply batch_token_rep, Hb.
    - intros ls ags Hn H. destruct H as [|l a ls ags Ha H]; [congruence|].
      cbn [concat merge_accumulators wm_combiner wm_merge]. clear Hn.
      revert l a Ha. induction H as [|l' a' ls ags Ha' _ IH]; cbn [concat fold_left]; intros l a Ha.
      + rewrite app_nil_r. exact Ha.
      + rewrite app_assoc. apply IH. intros bs' E Hb. symmetry in E. apply map_eq_app in E as (b1 & b2 & -> & E1 & E2).
        apply Forall_app in Hb as [Hb1 Hb2]. apply G; auto.
    - apply Forall_forall. intros; exact I.
    - apply Ha; assumption. }
  apply Hgen; [apply batches_map|exact HF].
Qed.

Lemma token_statistics_exact (s : sched (sched (nat * list labelled))) :
  let rows := all_rows (batches_of s) in
  Forall wf_batch (batches_of s) -> rows <> [] ->
  wm_count (token_statistics s) = Z.of_nat (length rows) /\
  (exists w, wm_weight (token_statistics s) = Fin w /\ w == total_weight rows / inject_Z (Z.of_nat (length rows))) /\
  (0 < total_weight rows ->
   forall j, exists m, nth j (wm_mean (token_statistics s)) (Fin 0) = Fin m /\ m == label_weight j rows / total_weight rows).
Proof.
  intros rows HF Hn. destruct (token_statistics_rep s HF) as (Hc & _ & HW & _ & Hp & _ & Hm). fold rows in Hc, HW, Hp, Hm.
  assert (HL : (0 < Z.of_nat (length rows))%Z) by (destruct rows; [congruence|cbn; lia]).
  pose proof (inject_Z_nonzero _ HL) as Hnz.
  split; [exact Hc|]. split.
  - destruct (Hp HL) as (w & Ew & Hw). exists w. split; [exact Ew|]. rewrite <- Hw. field. exact Hnz.
  - intros Hpos j. assert (Hne : ~ total_weight rows == 0) by (intros E; rewrite E in Hpos; discriminate).
    destruct (Hm Hne j) as (m & Em & Hmm). exists m. split; [exact Em|]. rewrite <- Hmm. field. exact Hne.
Qed.
