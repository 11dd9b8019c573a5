(** Proofs of the statements of LMomentsProps.v about merging. *)
From Coq Require Import List Arith ZArith QArith Bool Lia Permutation Morphisms Setoid.
From Verif Require Import CombineModel CombineProofs MeanVarSpec MeanVarProofs
  LMomentsModel LMomentsSpec LMomentsProofs.
Import ListNotations.
Local Open Scope Q_scope.

Definition cnt (r : nat) (m : lm) : Q :=
  match r with 1%nat => count_l1 m | 2%nat => count_l2 m | 3%nat => count_l3 m | 4%nat => count_l4 m | _ => 0 end.
Definition val (r : nat) (m : lm) : Q :=
  match r with 1%nat => l1 m | 2%nat => l2 m | 3%nat => l3 m | 4%nat => l4 m | _ => 0 end.

Definition at_ (j : nat) (a : list lm) : lm := nth j a lm_zero.

(** [m] carries the counts [T] and the sums [U]. *)
Definition carries (T U : nat -> Q) (m : lm) : Prop := forall r,
  cnt r m == T r /\ val r m * T r == U r /\ (T r == 0 -> val r m == 0) /\ 0 <= T r
  /\ (T 1%nat == 0 -> T r == 0).

Lemma carries_ext T U T' U' m : (forall r, T r == T' r) -> (forall r, U r == U' r) ->
  carries T U m -> carries T' U' m.
Proof.
  intros E1 E2 H r. destruct (H r) as (A & B & C & D & E). rewrite <- E1, <- E2, <- E1. auto.
Qed.

Lemma carries_zero : carries (fun _ => 0) (fun _ => 0) lm_zero.
Proof.
  intros r. repeat split; try reflexivity; intros;
    destruct r as [|[|[|[|[|r]]]]]; try reflexivity; apply Qle_refl.
Qed.

Lemma divide_positive x y : ~ y == 0 -> 0 <= y -> divide_where_positive x y = x / y.
Proof.
  intros Hn Hp. unfold divide_where_positive. destruct (Qle_bool y 0) eqn:E; [|reflexivity].
  apply Qle_bool_iff in E. exfalso. apply Hn. now apply Qle_antisym.
Qed.

Lemma divide_zero x y : y == 0 -> divide_where_positive x y = 0.
Proof.
  intros H. unfold divide_where_positive. destruct (Qle_bool y 0) eqn:E; [reflexivity|].
  assert (y <= 0) by (rewrite H; apply Qle_refl). apply Qle_bool_iff in H0. congruence.
Qed.

Lemma combine_val r a b : cnt r (combine_coordinate a b) == cnt r a + cnt r b
  /\ val r (combine_coordinate a b)
     == val r a + divide_where_positive (cnt r b) (cnt r a + cnt r b) * (val r b - val r a).
Proof.
  destruct r as [|[|[|[|[|r]]]]]; cbn [cnt val combine_coordinate
    count_l1 count_l2 count_l3 count_l4 l1 l2 l3 l4]; split; try reflexivity.
Qed.

Instance divide_where_positive_comp : Proper (Qeq ==> Qeq ==> Qeq) divide_where_positive.
Proof.
  intros x x' Hx y y' Hy. unfold divide_where_positive. rewrite Hy.
  destruct (Qle_bool y' 0); [reflexivity|]. rewrite Hx, Hy. reflexivity.
Qed.

Lemma qsum_zero x y : 0 <= x -> 0 <= y -> x + y == 0 -> x == 0 /\ y == 0.
Proof.
  intros Hx Hy E. split; apply Qle_antisym; auto.
  - rewrite <- E. rewrite <- (Qplus_0_r x) at 1. apply Qplus_le_r, Hy.
  - rewrite <- E. rewrite <- (Qplus_0_l y) at 1. apply Qplus_le_l, Hx.
Qed.

Lemma qplus_nonneg x y : 0 <= x -> 0 <= y -> 0 <= x + y.
Proof. intros. rewrite <- (Qplus_0_l 0). now apply Qplus_le_compat. Qed.

Lemma combine_carries T U a T' U' b : carries T U a -> carries T' U' b ->
  carries (fun r => T r + T' r) (fun r => U r + U' r) (combine_coordinate a b).
Proof.
  intros Ha Hb r. destruct (Ha r) as (A1 & A2 & A3 & A4 & A5).
  destruct (Hb r) as (B1 & B2 & B3 & B4 & B5). destruct (combine_val r a b) as [E1 E2].
  split; [rewrite E1, A1, B1; reflexivity|].
  split; [|split; [|split]].
  - rewrite E2, A1, B1. destruct (Qeq_dec (T r + T' r) 0) as [Z|Z].
    + destruct (qsum_zero _ _ A4 B4 Z) as [Z1 Z2].
      rewrite Z, <- A2, <- B2, Z1, Z2. ring.
    + rewrite divide_positive; [|exact Z|now apply qplus_nonneg].
      rewrite <- A2, <- B2. field. exact Z.
  - intros Z. destruct (qsum_zero _ _ A4 B4 Z) as [Z1 Z2].
    rewrite E2, A1, B1, divide_zero by exact Z. rewrite (A3 Z1). ring.
  - now apply qplus_nonneg.
  - intros Z. destruct (Ha 1%nat) as (_ & _ & _ & P1 & _). destruct (Hb 1%nat) as (_ & _ & _ & P2 & _).
    destruct (qsum_zero _ _ P1 P2 Z) as [Z1 Z2]. rewrite (A5 Z1), (B5 Z2). reflexivity.
Qed.

(** ** Accumulators *)

Definition totalT (l : list (list lm)) (j r : nat) : Q := q_sum (map (fun a => cnt r (at_ j a)) l).
Definition totalU (l : list (list lm)) (j r : nat) : Q :=
  q_sum (map (fun a => val r (at_ j a) * cnt r (at_ j a)) l).

Definition Rlm (l : list (list lm)) (a : list lm) : Prop :=
  forall j, carries (totalT l j) (totalU l j) (at_ j a).

Definition wf_lm (a : list lm) : Prop := forall j, exists T U, carries T U (at_ j a).

Lemma Rlm_single a : wf_lm a -> Rlm [a] a.
Proof.
  intros H j. destruct (H j) as (T & U & C). eapply carries_ext; [| |exact C]; intros r.
  - destruct (C r) as (A & _). unfold totalT. cbn [map]. rewrite q_sum_cons, q_sum_nil, A. ring.
  - destruct (C r) as (A & B & _). unfold totalU. cbn [map]. rewrite q_sum_cons, q_sum_nil, A, B. ring.
Qed.

Lemma at_pad n j a : at_ j (pad_to n a) = at_ j a.
Proof.
  unfold at_, pad_to. destruct (Nat.lt_ge_cases j (length a)) as [H|H].
  - rewrite app_nth1 by exact H. reflexivity.
  - rewrite app_nth2 by exact H. rewrite (nth_overflow a) by exact H.
    destruct (Nat.lt_ge_cases (j - length a) (n - length a)) as [H'|H'].
    + apply nth_repeat.
    + apply nth_overflow. rewrite repeat_length. exact H'.
Qed.

Lemma pad_to_length n a : (length a <= n)%nat -> length (pad_to n a) = n.
Proof. intros H. unfold pad_to. rewrite app_length, repeat_length. lia. Qed.

Lemma at_combine j a b :
  let n := Nat.max (length a) (length b) in
  at_ j (map (fun p => combine_coordinate (fst p) (snd p)) (combine (pad_to n a) (pad_to n b)))
  = if (j <? n)%nat then combine_coordinate (at_ j a) (at_ j b) else lm_zero.
Proof.
  intros n. assert (La : length (pad_to n a) = n) by (apply pad_to_length; unfold n; lia).
  assert (Lb : length (pad_to n b) = n) by (apply pad_to_length; unfold n; lia).
  unfold at_ at 1. destruct (Nat.ltb_spec j n) as [H|H].
  - rewrite (nth_indep _ lm_zero (combine_coordinate (fst (lm_zero, lm_zero)) (snd (lm_zero, lm_zero))))
      by (rewrite map_length, combine_length; lia).
    rewrite (map_nth (fun p => combine_coordinate (fst p) (snd p))).
    rewrite combine_nth by lia. cbn [fst snd].
    change (nth j (pad_to n a) lm_zero) with (at_ j (pad_to n a)).
    change (nth j (pad_to n b) lm_zero) with (at_ j (pad_to n b)).
    rewrite !at_pad. reflexivity.
  - apply nth_overflow. rewrite map_length, combine_length. lia.
Qed.

Lemma sum_samples_nonneg a : (forall m, In m a -> 0 <= count_l1 m) -> 0 <= sum_samples a.
Proof.
  unfold sum_samples, reduce_sum. induction a as [|m a IH]; cbn [map fold_right]; intros H; [apply Qle_refl|].
  apply qplus_nonneg; [apply H; now left|]. apply IH. intros; apply H; now right.
Qed.

Lemma sum_samples_zero a : (forall m, In m a -> 0 <= count_l1 m) -> sum_samples a == 0 ->
  forall m, In m a -> count_l1 m == 0.
Proof.
  unfold sum_samples, reduce_sum. induction a as [|m a IH]; cbn [map fold_right]; intros H E x Hx; [destruct Hx|].
  apply qsum_zero in E as [E1 E2].
  - destruct Hx as [<-|Hx]; [exact E1|]. apply IH; auto. intros; apply H; now right.
  - apply H. now left.
  - apply (sum_samples_nonneg a). intros; apply H; now right.
Qed.

Lemma counts_at l a : Rlm l a -> forall m, In m a -> 0 <= count_l1 m.
Proof.
  intros H m Hm. apply (In_nth _ _ lm_zero) in Hm as (j & _ & <-).
  destruct (H j 1%nat) as (A & _ & _ & D & _). cbn [cnt] in A. unfold at_ in A. rewrite A. exact D.
Qed.

Lemma total_app l1 l2 j r : totalT (l1 ++ l2) j r == totalT l1 j r + totalT l2 j r
  /\ totalU (l1 ++ l2) j r == totalU l1 j r + totalU l2 j r.
Proof. unfold totalT, totalU. rewrite !map_app, !q_sum_app. split; reflexivity. Qed.

(** Accumulator [b] is not the larger one. *)
Lemma combine_ordered l1 a l2 b : Rlm l1 a -> Rlm l2 b ->
  forall j, carries (fun r => totalT l1 j r + totalT l2 j r) (fun r => totalU l1 j r + totalU l2 j r)
    (at_ j (if Qeq_bool (sum_samples b) 0 then a
            else map (fun p => combine_coordinate (fst p) (snd p))
                     (combine (pad_to (Nat.max (length a) (length b)) a)
                              (pad_to (Nat.max (length a) (length b)) b)))).
Proof.
  intros Ha Hb j. destruct (Qeq_bool (sum_samples b) 0) eqn:E.
  - apply Qeq_bool_iff in E.
    assert (Z : totalT l2 j 1%nat == 0).
    { destruct (Hb j 1%nat) as (A & _). rewrite <- A. cbn [cnt].
      destruct (Nat.lt_ge_cases j (length b)) as [L|L].
      - apply (sum_samples_zero b); [exact (counts_at l2 b Hb)|exact E|]. now apply nth_In.
      - unfold at_. rewrite nth_overflow by exact L. reflexivity. }
    eapply carries_ext; [| |exact (Ha j)]; intros r; destruct (Hb j r) as (A & B & C & D & F).
    + rewrite (F Z). ring.
    + rewrite <- B, (F Z). ring.
  - rewrite at_combine. destruct (Nat.ltb_spec j (Nat.max (length a) (length b))) as [L|L].
    + now apply combine_carries.
    + specialize (Ha j). specialize (Hb j). unfold at_ in Ha, Hb.
      rewrite nth_overflow in Ha by lia. rewrite nth_overflow in Hb by lia.
      eapply carries_ext; [| |exact carries_zero]; intros r;
        destruct (Ha r) as (A1 & A2 & _); destruct (Hb r) as (B1 & B2 & _).
      * rewrite <- A1, <- B1. destruct r as [|[|[|[|[|r]]]]]; reflexivity.
      * rewrite <- A2, <- B2. assert (Z : val r lm_zero == 0) by (destruct r as [|[|[|[|[|r]]]]]; reflexivity).
        rewrite Z. ring.
Qed.

Lemma combine_Rlm l1 a l2 b : Rlm l1 a -> Rlm l2 b -> Rlm (l1 ++ l2) (combine_accumulators a b).
Proof.
  intros Ha Hb j. unfold combine_accumulators.
  destruct (Qle_bool (sum_samples b) (sum_samples a)).
  - eapply carries_ext; [| |exact (combine_ordered l1 a l2 b Ha Hb j)]; intros r;
      destruct (total_app l1 l2 j r) as [E1 E2]; cbn beta; [rewrite E1|rewrite E2]; reflexivity.
  - eapply carries_ext; [| |exact (combine_ordered l2 b l1 a Hb Ha j)]; intros r;
      destruct (total_app l1 l2 j r) as [E1 E2]; cbn beta; [rewrite E1|rewrite E2]; apply Qplus_comm.
Qed.

Lemma create_Rlm n : Rlm [] (repeat lm_zero n).
Proof.
  intros j.
  assert (E : at_ j (repeat lm_zero n) = lm_zero).
  { unfold at_. destruct (Nat.lt_ge_cases j n) as [H|H];
      [apply nth_repeat|apply nth_overflow; rewrite repeat_length; exact H]. }
  rewrite E. exact carries_zero.
Qed.

Lemma merge_Rlm ls ags : ls <> [] -> Forall2 Rlm ls ags -> Rlm (concat ls) (merge_accumulators_of ags).
Proof.
  intros Hn H. destruct H as [|l a ls ags Ha H]; [congruence|]. cbn [concat merge_accumulators_of].
  clear Hn. revert l a Ha. induction H as [|l' a' ls ags Ha' _ IH]; cbn [concat fold_left]; intros l a Ha.
  - rewrite app_nil_r. exact Ha.
  - rewrite app_assoc. apply IH, combine_Rlm; assumption.
Qed.

Lemma analyze_moments n (s : sched (sched (list lm))) :
  Forall wf_lm (batches_of s) -> Rlm (batches_of s) (analyze (moments_combiner n) s).
Proof.
  intros H.
  destruct (analyze_rep (moments_combiner n) Rlm wf_lm) with (s := s) as (a & Ra & E); auto.
  - apply create_Rlm.
  - intros l a x Hx Ha. apply combine_Rlm; [exact Ha|apply Rlm_single, Hx].
  - apply merge_Rlm.
  - rewrite E. exact Ra.
Qed.

(** One coordinate stays one coordinate. *)
Lemma combine_length_1 a b : length a = 1%nat -> length b = 1%nat -> length (combine_accumulators a b) = 1%nat.
Proof.
  intros Ha Hb. unfold combine_accumulators.
  destruct (Qle_bool _ _); destruct (Qeq_bool _ _); auto;
    rewrite map_length, combine_length, !pad_to_length by lia; lia.
Qed.

Lemma analyze_length (s : sched (sched (list lm))) :
  Forall (fun a => length a = 1%nat) (batches_of s) ->
  length (analyze (moments_combiner 1) s) = 1%nat.
Proof.
  intros H.
  destruct (analyze_rep (moments_combiner 1) (fun _ a => length a = 1%nat) (fun a => length a = 1%nat))
    with (s := s) as (a & Ra & E); auto.
  - intros l a x Hx Ha. now apply combine_length_1.
  - intros ls ags Hn HF. destruct HF as [|l a ls ags Ha H']; [congruence|]. cbn.
    clear Hn. revert a Ha. induction H' as [|l' a' ls ags Ha' _ IH]; cbn; intros a Ha; [exact Ha|].
    apply IH. now apply combine_length_1.
  - rewrite E. exact Ra.
Qed.

(** ** Batches *)

Lemma column_carries xs :
  carries (fun r => match r with 1%nat | 2%nat | 3%nat | 4%nat => of_nat (choose (length xs) r) | _ => 0 end)
          (fun r => match r with 1%nat | 2%nat | 3%nat | 4%nat => sum_contributions r xs | _ => 0 end)
          (column_moments (num_terms_and_factors (length xs)) xs).
Proof.
  destruct (column_keeps xs) as (K1 & K2 & K3 & K4).
  assert (Z : of_nat (choose (length xs) 1) == 0 -> forall r, (0 < r)%nat -> of_nat (choose (length xs) r) == 0).
  { rewrite choose_1. intros E r Hr. apply of_nat_zero in E. rewrite E.
    rewrite choose_large by lia. reflexivity. }
  assert (G : forall r c v, keeps r xs c v -> (0 < r)%nat ->
     c == of_nat (choose (length xs) r) /\ v * of_nat (choose (length xs) r) == sum_contributions r xs
     /\ (of_nat (choose (length xs) r) == 0 -> v == 0) /\ 0 <= of_nat (choose (length xs) r)
     /\ (of_nat (choose (length xs) 1) == 0 -> of_nat (choose (length xs) r) == 0)).
  { intros r c v (A & B & C) Hr. repeat split; auto.
    - rewrite <- A. exact B.
    - rewrite <- A. exact C.
    - apply of_nat_nonneg. }
  intros r. destruct r as [|[|[|[|[|r]]]]]; cbn [cnt val].
  - repeat split; try reflexivity; apply Qle_refl.
  - apply G; auto.
  - apply G; auto.
  - apply G; auto.
  - apply G; auto.
  - repeat split; try reflexivity; apply Qle_refl.
Qed.

(** What is carried, as averages. *)
Lemma average_is ss : ss <> [] -> average_contribution ss = total (map contribution ss) / number ss.
Proof. destruct ss; [congruence|reflexivity]. Qed.

Lemma carries_average (bs : list (list Q)) (T U : nat -> Q) m r :
  carries T U m ->
  T r == number (subsets_within r bs) -> U r == total (map contribution (subsets_within r bs)) ->
  cnt r m == number (subsets_within r bs) /\ val r m == average_contribution (subsets_within r bs).
Proof.
  intros H HT HU. destruct (H r) as (A & B & C & D & _).
  split; [rewrite A; exact HT|].
  destruct (subsets_within r bs) as [|s ss] eqn:E.
  - cbn [average_contribution]. apply C. rewrite HT. reflexivity.
  - assert (P : ~ number (s :: ss) == 0).
    { unfold number. change (inject_Z (Z.of_nat (length (s :: ss)))) with (of_nat (length (s :: ss))).
      intros Z. apply of_nat_zero in Z. discriminate. }
    rewrite average_is by discriminate. rewrite <- HU, <- B, <- HT. field. rewrite HT. exact P.
Qed.

Lemma number_app {A} (l1 l2 : list A) : number (l1 ++ l2) == number l1 + number l2.
Proof. unfold number. rewrite app_length, Nat2Z.inj_add, inject_Z_plus. reflexivity. Qed.

Lemma totals_within r bs : (1 <= r <= 4)%nat ->
  q_sum (map (fun xs => cnt r (column_moments (num_terms_and_factors (length xs)) xs)) bs)
    == number (subsets_within r bs)
  /\ q_sum (map (fun xs => val r (column_moments (num_terms_and_factors (length xs)) xs)
                         * cnt r (column_moments (num_terms_and_factors (length xs)) xs)) bs)
    == total (map contribution (subsets_within r bs)).
Proof.
  intros Hr. unfold subsets_within. induction bs as [|xs bs [IH1 IH2]]; [split; reflexivity|].
  cbn [map flat_map]. rewrite !q_sum_cons, IH1, IH2, number_app, map_app.
  change (total (map contribution (subsets r xs) ++ map contribution (flat_map (subsets r) bs)))
    with (q_sum (map contribution (subsets r xs) ++ map contribution (flat_map (subsets r) bs))).
  rewrite q_sum_app. rewrite number_of_subsets.
  destruct (column_carries xs r) as (A & B & _).
  destruct r as [|[|[|[|[|r]]]]]; try lia; cbn [cnt val] in *; rewrite A, B; split; reflexivity.
Qed.

Lemma describes_of bs T U m : carries T U m ->
  (forall r, (1 <= r <= 4)%nat ->
    T r == q_sum (map (fun xs => cnt r (column_moments (num_terms_and_factors (length xs)) xs)) bs)
    /\ U r == q_sum (map (fun xs => val r (column_moments (num_terms_and_factors (length xs)) xs)
                         * cnt r (column_moments (num_terms_and_factors (length xs)) xs)) bs)) ->
  describes bs m.
Proof.
  intros H E.
  assert (G : forall r, (1 <= r <= 4)%nat ->
    cnt r m == number (subsets_within r bs) /\ val r m == average_contribution (subsets_within r bs)).
  { intros r Hr. destruct (E r Hr) as [E1 E2]. destruct (totals_within r bs Hr) as [F1 F2].
    apply (carries_average bs T U m r H); [rewrite E1|rewrite E2]; assumption. }
  repeat split;
    try apply (G 1%nat ltac:(lia)); try apply (G 2%nat ltac:(lia));
    try apply (G 3%nat ltac:(lia)); apply (G 4%nat ltac:(lia)).
Qed.

Lemma batches_of_map {X Y} (f : X -> Y) (s : sched (sched X)) :
  batches_of (map_sched (map_sched f) s) = map f (batches_of s).
Proof.
  unfold batches_of. rewrite elements_map. rewrite flat_map_concat_map, map_map.
  rewrite (map_ext _ (fun x => map f (elements x))) by (intros; apply elements_map).
  rewrite <- map_map, <- concat_map, <- flat_map_concat_map. reflexivity.
Qed.

Lemma moments_reduced_right s : exists m, moments_reduced s = [m] /\ describes (batches_of s) m.
Proof.
  unfold moments_reduced.
  assert (L : length (analyze (moments_combiner 1) (map_sched (map_sched batch_reduced) s)) = 1%nat).
  { apply analyze_length. rewrite batches_of_map. apply Forall_forall. intros a Ha.
    apply in_map_iff in Ha as (xs & <- & _). reflexivity. }
  assert (W : Forall wf_lm (batches_of (map_sched (map_sched batch_reduced) s))).
  { rewrite batches_of_map. apply Forall_forall. intros a Ha. apply in_map_iff in Ha as (xs & <- & _).
    intros j. destruct j as [|j].
    - eexists _, _. apply column_carries.
    - eexists _, _. unfold at_. cbn. destruct j; apply carries_zero. }
  pose proof (analyze_moments 1 _ W 0%nat) as H.
  destruct (analyze _ _) as [|m [|m' r]]; try discriminate L.
  exists m. split; [reflexivity|]. unfold at_ in H. cbn [nth] in H.
  apply (describes_of _ _ _ _ H). intros r _. unfold totalT, totalU.
  rewrite batches_of_map, !map_map. split; reflexivity.
Qed.

Lemma column_zero : carries (fun _ => 0) (fun _ => 0) (column_moments (num_terms_and_factors 0) []).
Proof.
  eapply carries_ext; [| |apply (column_carries [])]; intros r;
    destruct r as [|[|[|[|[|r]]]]]; reflexivity.
Qed.

Lemma nth_column (f : list Q -> lm) columns j :
  nth j (map f columns) lm_zero = if (j <? length columns)%nat then f (nth j columns []) else lm_zero.
Proof.
  destruct (Nat.ltb_spec j (length columns)) as [H|H].
  - rewrite (nth_indep _ lm_zero (f [])) by (rewrite map_length; exact H). apply map_nth.
  - apply nth_overflow. rewrite map_length. exact H.
Qed.

Lemma elementwise_right (X : Type) n (s : sched (sched X)) (g : X -> list lm) (cols : X -> list (list Q)) :
  (forall b, In b (batches_of s) ->
     g b = map (fun xs => column_moments (num_terms_and_factors (length xs)) xs) (cols b)) ->
  forall j, let bs := map (fun b => nth j (cols b) []) (batches_of s) in
  describes bs (at_ j (analyze (moments_combiner n) (map_sched (map_sched g) s))).
Proof.
  intros Hg j bs.
  assert (W : Forall wf_lm (batches_of (map_sched (map_sched g) s))).
  { rewrite batches_of_map. apply Forall_forall. intros a Ha. apply in_map_iff in Ha as (b & <- & Hb).
    rewrite (Hg b Hb). intros k. unfold at_. rewrite nth_column.
    destruct (k <? length (cols b))%nat; eexists _, _; [apply column_carries|apply carries_zero]. }
  pose proof (analyze_moments n _ W j) as H.
  apply (describes_of _ _ _ _ H). intros r Hr. unfold totalT, totalU, bs.
  rewrite batches_of_map, !map_map.
  assert (E : forall b, In b (batches_of s) ->
    cnt r (at_ j (g b)) == cnt r (column_moments (num_terms_and_factors (length (nth j (cols b) []))) (nth j (cols b) []))
    /\ val r (at_ j (g b)) == val r (column_moments (num_terms_and_factors (length (nth j (cols b) []))) (nth j (cols b) []))).
  { intros b Hb. rewrite (Hg b Hb). unfold at_. rewrite nth_column.
    destruct (Nat.ltb_spec j (length (cols b))) as [L|L]; [split; reflexivity|].
    rewrite nth_overflow by exact L.
    destruct (column_zero r) as (A & _ & C & _). destruct (carries_zero r) as (A' & _ & C' & _).
    cbn [length]. rewrite A, A', (C ltac:(reflexivity)), (C' ltac:(reflexivity)). split; reflexivity. }
  split; apply q_sum_map_ext; intros b Hb; destruct (E b Hb) as [E1 E2]; rewrite ?E1, ?E2; reflexivity.
Qed.

Lemma column_there bs j a : concat bs <> [] -> describes bs (at_ j a) ->
  exists m, nth_error a j = Some m /\ describes bs m.
Proof.
  intros Hne D. destruct (nth_error a j) as [m|] eqn:E.
  - exists m. split; [reflexivity|]. unfold at_ in D. now rewrite (nth_error_nth _ _ _ E) in D.
  - exfalso. apply nth_error_None in E. unfold at_ in D. rewrite nth_overflow in D by exact E.
    destruct D as ((C & _) & _). cbn in C.
    destruct (subsets_within 1 bs) as [|s ss] eqn:F.
    + apply Hne. clear -F. induction bs as [|b bs IH]; [reflexivity|].
      unfold subsets_within in *. cbn [flat_map concat] in *. apply app_eq_nil in F as [F1 F2].
      rewrite (IH F2), app_nil_r. destruct b as [|x [|y b]]; [reflexivity|discriminate F1|discriminate F1].
    + unfold number in C. change (inject_Z (Z.of_nat (length (s :: ss)))) with (of_nat (length (s :: ss))) in C.
      symmetry in C. apply of_nat_zero in C. discriminate.
Qed.

Lemma moments_dense_right n (s : sched (sched (nat * list (list Q)))) :
  Forall (fun b => Forall (fun c => length c = fst b) (snd b)) (batches_of s) ->
  forall j, let bs := map (fun b => nth j (snd b) []) (batches_of s) in concat bs <> [] ->
  exists m, nth_error (moments_dense n s) j = Some m /\ describes bs m.
Proof.
  intros H j bs Hne. apply column_there; [exact Hne|].
  apply (elementwise_right _ n s (fun b => batch_dense (fst b) (snd b)) snd).
  intros b Hb. rewrite Forall_forall in H. specialize (H b Hb). unfold batch_dense.
  apply map_ext_in. intros c Hc. rewrite Forall_forall in H. now rewrite (H c Hc).
Qed.

Lemma moments_sparse_right n (s : sched (sched (list (list Q)))) :
  forall j, let bs := map (fun b => nth j b []) (batches_of s) in concat bs <> [] ->
  exists m, nth_error (moments_sparse n s) j = Some m /\ describes bs m.
Proof.
  intros j bs Hne. apply column_there; [exact Hne|].
  apply (elementwise_right _ n s batch_sparse (fun b => b)). reflexivity.
Qed.
