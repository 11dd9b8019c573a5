(** Proofs about what a batch contributes to a vocabulary ranked by mutual information (C64): without weights, and the weights that are accepted. *)
From Coq Require Import List ZArith QArith Bool Arith Lia Setoid Permutation.
From Verif Require Import CombineModel CombineProofs FloatModel MeanVarSpec MeanVarProofs WeightedModel WeightedSpec WeightedProofs.
From Verif Require Import CooccurModel CooccurSpec CooccurProofs CooccurRows CooccurBatch.
Import ListNotations.
Local Open Scope Q_scope.

Definition repu (n : Z) (Y : nat -> Q) (a : wm) : Prop :=
  wm_count a = n /\ (0 <= n)%Z /\ forall j, exists m, mean_at j a = Fin m /\ m * inject_Z n == Y j /\ (n = 0%Z -> m == 0).

Lemma repu_ext n n' Y Y' a : n = n' -> (forall j, Y j == Y' j) -> repu n Y a -> repu n' Y' a.
Proof. intros -> E (A & B & C). repeat split; [exact A|exact B|]. intros j. destruct (C j) as (m & Em & Hm & Hz). exists m. rewrite <- E. auto. Qed.

Lemma combine_body_unweighted n1 Y1 a n2 Y2 b : repu n1 Y1 a -> repu n2 Y2 b -> (n2 <= n1)%Z -> (0 < n1)%Z ->
  repu (n1 + n2) (fun j => Y1 j + Y2 j)
    (let n := Nat.max (length (wm_mean a)) (length (wm_mean b)) in
     let bc := Fin (inject_Z (wm_count b)) in
     let total := Fin (inject_Z (wm_count a + wm_count b)) in
     WM (wm_count a + wm_count b)
        (map (fun p => fadd (fst p) (fmul (fdiv bc total) (fsub (snd p) (fst p)))) (combine (pad_zeros n (wm_mean a)) (pad_zeros n (wm_mean b))))
        (Fin 1)).
Proof.
  intros (Hc1 & Hn1 & Hm1) (Hc2 & Hn2 & Hm2) Hle Hp1. assert (Hp : (0 < n1 + n2)%Z) by lia. pose proof (inject_Z_nonzero _ Hp) as Hnz.
  assert (ED : fdiv (Fin (inject_Z n2)) (Fin (inject_Z (n1 + n2))) = Fin (inject_Z n2 / inject_Z (n1 + n2))).
  { unfold fdiv. destruct (Qeq_bool _ 0) eqn:EQ; [apply Qeq_bool_eq in EQ; contradiction|reflexivity]. }
  cbv zeta. rewrite Hc1, Hc2, ED. split; [reflexivity|]. split; [lia|]. intros j. unfold mean_at at 1. cbn [wm_mean].
  rewrite (combine_means_nth (fun x y => fadd x (fmul (Fin (inject_Z n2 / inject_Z (n1 + n2))) (fsub y x)))).
  destruct (Hm1 j) as (m1 & Em1 & EY1 & _). destruct (Hm2 j) as (m2 & Em2 & EY2 & _). unfold mean_at in Em1, Em2.
  destruct (Nat.ltb_spec j (Nat.max (length (wm_mean a)) (length (wm_mean b)))) as [Hj|Hj].
  - rewrite Em1, Em2. cbn [fsub fneg fadd fmul]. eexists. split; [reflexivity|]. split; [|lia]. rewrite <- EY1, <- EY2. rewrite inject_Z_plus in *. field. exact Hnz.
  - rewrite nth_overflow in Em1 by lia. rewrite nth_overflow in Em2 by lia. injection Em1 as <-. injection Em2 as <-. exists 0. split; [reflexivity|]. split; [|lia]. rewrite <- EY1, <- EY2. ring.
Qed.

Lemma repu_nan_to_num n Y a : repu n Y a -> repu n Y (WM (wm_count a) (map nan_to_num (wm_mean a)) (wm_weight a)).
Proof.
  intros (A & B & C). repeat split; [exact A|exact B|]. intros j. destruct (C j) as (m & Em & H). exists m. split; [|exact H]. unfold mean_at in *. cbn [wm_mean].
  change (Fin 0) with (nan_to_num (Fin 0)). rewrite map_nth, Em. reflexivity.
Qed.
Lemma combine_unweighted_rep n1 Y1 a n2 Y2 b : repu n1 Y1 a -> repu n2 Y2 b ->
  repu (n1 + n2) (fun j => Y1 j + Y2 j) (wm_combine_unweighted a b) /\ ((0 < n1 + n2)%Z -> wm_weight (wm_combine_unweighted a b) = Fin 1).
Proof.
  intros H1 H2. apply repu_nan_to_num in H1, H2. unfold wm_combine_unweighted.
  set (a' := WM (wm_count a) _ _) in *. set (b' := WM (wm_count b) _ _) in *. assert (E1 : wm_count a' = n1) by apply H1. assert (E2 : wm_count b' = n2) by apply H2.
  assert (N1 : (0 <= n1)%Z) by apply H1. assert (N2 : (0 <= n2)%Z) by apply H2.
  destruct (Z.ltb_spec (wm_count a') (wm_count b')) as [Hlt|Hge].
  - destruct (Z.eqb_spec (wm_count b') 0); [lia|]. split; [|reflexivity].
    eapply repu_ext; [| |apply (combine_body_unweighted n2 Y2 b' n1 Y1 a' H2 H1); lia]; [lia|intros j; cbv beta; ring].
  - destruct (Z.eqb_spec (wm_count a') 0) as [Ez|]; [|split; [apply (combine_body_unweighted n1 Y1 a' n2 Y2 b' H1 H2); lia|reflexivity]].
    rewrite E1 in Ez. split; [|lia]. destruct H1 as (_ & _ & M1). eapply repu_ext; [| |exact H2]; [lia|]. intros j. destruct (M1 j) as (m & _ & EY & _). rewrite <- EY, Ez. ring.
Qed.

Definition batch_counts (bs : list (list Q * Z)) : Z := fold_right Z.add 0%Z (map snd bs).
Definition batch_labels (j : nat) (bs : list (list Q * Z)) : Q := qsum (map (fun b => nth j (fst b) 0) bs).
Lemma batch_counts_app a b : batch_counts (a ++ b) = (batch_counts a + batch_counts b)%Z.
Proof. unfold batch_counts. rewrite map_app. induction (map snd a) as [|z l IH]; [reflexivity|]. cbn [app fold_right]. rewrite IH. ring. Qed.
Lemma batch_labels_app j a b : batch_labels j (a ++ b) == batch_labels j a + batch_labels j b.
Proof. unfold batch_labels. rewrite map_app. apply qsum_app. Qed.
Lemma batch_counts_pos bs : Forall (fun b : list Q * Z => (0 < snd b)%Z) bs -> bs <> [] -> (0 < batch_counts bs)%Z.
Proof.
  intros F Ne. assert (P : forall l, Forall (fun b : list Q * Z => (0 < snd b)%Z) l -> (0 <= batch_counts l)%Z).
  { unfold batch_counts. induction 1; cbn [map fold_right]; lia. }
  destruct bs as [|b bs]; [congruence|]. inversion F as [|? ? Hb Hbs]; subst. specialize (P bs Hbs). unfold batch_counts in *. cbn [map fold_right]. lia.
Qed.

Lemma make_unweighted_rep b : (0 < snd b)%Z -> repu (snd b) (fun j => nth j (fst b) 0) (wm_make_unweighted (fst b) (snd b)).
Proof.
  intros P. pose proof (inject_Z_nonzero _ P) as Hnz. split; [reflexivity|]. split; [lia|]. intros j. unfold mean_at, wm_make_unweighted. cbn [wm_mean].
  assert (ED : forall q, fdiv (Fin q) (Fin (inject_Z (snd b))) = Fin (q / inject_Z (snd b))).
  { intros q. unfold fdiv. destruct (Qeq_bool _ 0) eqn:EQ; [apply Qeq_bool_eq in EQ; contradiction|reflexivity]. }
  destruct (le_lt_dec (length (fst b)) j) as [L|L].
  - rewrite !nth_overflow by (rewrite ?map_length; exact L). exists 0. split; [reflexivity|]. split; [ring|lia].
  - match goal with |- context [map ?g (fst b)] => rewrite (nth_indep _ (Fin 0) (g 0)) by (rewrite map_length; exact L); rewrite (map_nth g) end.
    rewrite ED. eexists. split; [reflexivity|]. split; [field; exact Hnz|lia].
Qed.

Definition Ru (bs : list (list Q * Z)) (a : wm) : Prop :=
  repu (batch_counts bs) (fun j => batch_labels j bs) a /\ ((0 < batch_counts bs)%Z -> wm_weight a = Fin 1).

Theorem unweighted_rep (s : sched (sched (list Q * Z))) : Forall (fun b => (0 < snd b)%Z) (batches_of s) -> Ru (batches_of s) (unweighted_statistics s).
Proof.
  intros HF. unfold unweighted_statistics. set (f := fun b : list Q * Z => wm_make_unweighted (fst b) (snd b)). set (P := fun b : list Q * Z => (0 < snd b)%Z) in *.
  assert (G : forall l1 a l2 b, repu (batch_counts l1) (fun j => batch_labels j l1) a -> repu (batch_counts l2) (fun j => batch_labels j l2) b -> Ru (l1 ++ l2) (wm_combine_unweighted a b)).
  { intros l1 a l2 b H1 H2. destruct (combine_unweighted_rep _ _ a _ _ b H1 H2) as [R W]. split; [|rewrite batch_counts_app; exact W].
    eapply repu_ext; [| |exact R]; [now rewrite batch_counts_app|]. intros j. cbv beta. now rewrite batch_labels_app. }
  assert (Hgen : forall (s' : sched (sched wm)) bs, batches_of s' = map f bs -> Forall P bs -> Ru bs (analyze unweighted_combiner s')).
  { intros s' bs Es Hbs.
    destruct (analyze_rep unweighted_combiner (fun l a => forall bs', l = map f bs' -> Forall P bs' -> Ru bs' a) (fun _ => True)) with (s := s') as (a & Ha & ->).
    - intros bs' E _. destruct bs'; [|discriminate]. split; [|cbn; lia]. split; [reflexivity|]. split; [cbn; lia|]. intros j. exists 0. unfold mean_at. cbn. destruct j; repeat split; reflexivity.
    - intros l a x _ Ha bs' E Hb. symmetry in E. apply map_eq_app in E as (b1 & b2 & -> & E1 & E2). destruct b2 as [|b [|? ?]]; try discriminate. cbn in E2. injection E2 as <-.
      apply Forall_app in Hb as [Hb1 Hb2]. apply G; [apply Ha; auto|]. inversion Hb2 as [|? ? Hb _]; subst. eapply repu_ext; [| |apply (make_unweighted_rep b Hb)].
      + unfold batch_counts. cbn. lia.
      + intros j. unfold batch_labels, qsum. cbn [map fold_right]. ring.
    - intros ls ags Hn H. destruct H as [|l a ls ags Ha H]; [congruence|]. cbn [concat merge_accumulators unweighted_combiner]. clear Hn.
      revert l a Ha. induction H as [|l' a' ls ags Ha' _ IH]; cbn [concat fold_left]; intros l a Ha.
      + rewrite app_nil_r. exact Ha.
      + rewrite app_assoc. apply IH. intros bs' E Hb. symmetry in E. apply map_eq_app in E as (b1 & b2 & -> & E1 & E2).
        apply Forall_app in Hb as [Hb1 Hb2]. apply G; [apply Ha|apply Ha']; auto.
    - apply Forall_forall. intros; exact Logic.I.
    - apply Ha; assumption. }
  apply Hgen; [apply batches_map|exact HF].
Qed.
Theorem unweighted_exact (s : sched (sched (list Q * Z))) : Forall (fun b => (0 < snd b)%Z) (batches_of s) -> batches_of s <> [] ->
  let a := unweighted_statistics s in
  wm_count a = batch_counts (batches_of s) /\ wm_weight a = Fin 1 /\
  forall j, exists m, nth j (wm_mean a) (Fin 0) = Fin m /\ m == batch_labels j (batches_of s) / inject_Z (batch_counts (batches_of s)).
Proof.
  intros F Ne a. destruct (unweighted_rep s F) as [(C & _ & M) W]. pose proof (batch_counts_pos _ F Ne) as P. repeat split; [exact C|exact (W P)|].
  intros j. destruct (M j) as (m & Em & Hm & _). exists m. split; [exact Em|]. rewrite <- Hm. field. now apply inject_Z_nonzero.
Qed.

(** ** The weights that are accepted *)
Section Accepted.
Variable token : Type.
Variable token_eqb : token -> token -> bool.
Variable sentinel_token : token.

Lemma counts_accepted x y shape ws f m r : compute_weighted_counts token token_eqb x y (Some (shape, ws)) f m = Some r -> shape = shape_of x.
Proof.
  unfold compute_weighted_counts, preprocess. assert (S : forall a b, shapes_equal a b = true -> b = a) by (intros a b; unfold shapes_equal; destruct (list_eq_dec Nat.eq_dec a b); congruence).
  destruct x as [b inner flat|b rs vs|n o l flat]; cbn [shape_of].
  - destruct (shapes_equal (b :: inner) shape) eqn:E; [intros _; now apply S|discriminate].
  - destruct (length y =? b)%nat; [|discriminate]. destruct (gather y rs); [|discriminate]. destruct (shapes_equal [length vs] shape) eqn:E; [intros _; now apply S|discriminate].
  - destruct (n <=? length y)%nat; [|discriminate]. destruct (ragged_batch_value_rowids o l); [|discriminate]. destruct (gather y l0); [|discriminate].
    destruct (shapes_equal [length flat] shape) eqn:E; [intros _; now apply S|discriminate].
Qed.
Lemma reduced_accepted x y shape ws f r : reduce_without_sentinel token token_eqb x y (Some (shape, ws)) f = Some r -> shape = shape_of x.
Proof.
  unfold reduce_without_sentinel. destruct y as [s flat|[|w] rows]; [apply counts_accepted|discriminate|]. cbn [seq map sequence].
  destruct (compute_weighted_counts _ _ _ _ _ _ _) eqn:E; [|discriminate]. intros _. now apply counts_accepted in E.
Qed.
Theorem weights_accepted x y shape ws f r : vocabulary_inputs token token_eqb sentinel_token x y (Some (shape, ws)) f = Some r ->
  shape = shape_of x /\ shape = [label_rows y].
Proof.
  unfold vocabulary_inputs, reduce_batch_weighted_cooccurrences. set (y' := match y with Dense_labels _ _ => _ | Sparse_labels _ _ => _ end).
  assert (Ey : match y' with Sparse_labels _ rows => length rows | Dense_labels _ flat => length flat end = label_rows y) by (unfold y'; destruct y; reflexivity).
  destruct (reduce_without_sentinel token token_eqb x y' (Some (shape, ws)) f) eqn:E; [|discriminate]. apply reduced_accepted in E. unfold extend_with_y_counts. rewrite Ey.
  destruct (reduce_without_sentinel token token_eqb (Dense token (label_rows y) [] _) y' (Some (shape, ws)) None) eqn:E2; [|discriminate]. apply reduced_accepted in E2. intros _. split; assumption.
Qed.
End Accepted.
