From Coq Require Import String List ZArith QArith Bool Lia Permutation Morphisms.
From Verif Require Import CombineModel CombineProofs FloatModel MeanVarModel MeanVarSpec NumericSpec.
Import ListNotations.
Open Scope Q_scope.

(** ** Sums of rationals *)

Lemma qsum_is_q_sum l : qsum l = q_sum l.
Proof. reflexivity. Qed.

Lemma q_sum_cons x l : q_sum (x :: l) = x + q_sum l.
Proof. reflexivity. Qed.

Lemma q_sum_nil : q_sum [] = 0.
Proof. reflexivity. Qed.

Lemma q_sum_app l1 l2 : q_sum (l1 ++ l2) == q_sum l1 + q_sum l2.
Proof.
  induction l1 as [|x l1 IH]; cbn [app]; rewrite ?q_sum_nil, ?q_sum_cons; [ring|].
  rewrite IH. ring.
Qed.

Lemma q_sum_concat ls : q_sum (concat ls) == q_sum (map q_sum ls).
Proof.
  induction ls as [|l ls IH]; cbn [concat map]; [reflexivity|].
  rewrite q_sum_app, IH. reflexivity.
Qed.

Lemma q_sum_perm l1 l2 : Permutation l1 l2 -> q_sum l1 == q_sum l2.
Proof.
  induction 1 as [|x l1 l2 _ IH|x y l|l1 l2 l3 _ IH1 _ IH2]; unfold q_sum in *; cbn [fold_right].
  - reflexivity.
  - rewrite IH. reflexivity.
  - ring.
  - rewrite IH1. exact IH2.
Qed.

Lemma q_sum_map_ext {X} (f g : X -> Q) l :
  (forall x, In x l -> f x == g x) -> q_sum (map f l) == q_sum (map g l).
Proof.
  induction l as [|x l IH]; intros H; [reflexivity|].
  cbn [map]. unfold q_sum in *. cbn [fold_right].
  rewrite (H x (or_introl eq_refl)), IH; [reflexivity|]. intros y Hy. apply H. right. exact Hy.
Qed.

Lemma q_sum_map_plus {X} (f g : X -> Q) l :
  q_sum (map (fun x => f x + g x) l) == q_sum (map f l) + q_sum (map g l).
Proof.
  induction l as [|x l IH]; cbn [map]; rewrite ?q_sum_nil, ?q_sum_cons; [ring|]. rewrite IH. ring.
Qed.

Lemma q_sum_map_scale {X} (f : X -> Q) c l : q_sum (map (fun x => c * f x) l) == c * q_sum (map f l).
Proof.
  induction l as [|x l IH]; cbn [map]; rewrite ?q_sum_nil, ?q_sum_cons; [ring|]. rewrite IH. ring.
Qed.

Lemma q_sum_const {X} c (l : list X) : q_sum (map (fun _ => c) l) == inject_Z (Z.of_nat (length l)) * c.
Proof.
  induction l as [|x l IH]; cbn [map length]; rewrite ?q_sum_nil, ?q_sum_cons; [reflexivity|].
  rewrite IH, Nat2Z.inj_succ, <- Z.add_1_l, inject_Z_plus. ring.
Qed.

Lemma q_len_pos l : l <> [] -> 0 < q_len l.
Proof.
  destruct l as [|x l]; [congruence|intros _]. unfold q_len. cbn [length].
  change 0 with (inject_Z 0). rewrite <- Zlt_Qlt. lia.
Qed.

(** Variance by moments. *)
Lemma var_moments l : l <> [] -> var_of l == q_sum (map (fun x => x * x) l) / q_len l - mean_of l * mean_of l.
Proof.
  intros Hn. pose proof (q_len_pos l Hn) as Hp. unfold var_of.
  set (m := mean_of l).
  rewrite (q_sum_map_ext _ (fun x => x * x + ((-2 * m) * x + m * m))) by (intros; ring).
  rewrite q_sum_map_plus, q_sum_map_plus, q_sum_map_scale, q_sum_const, map_id.
  change (inject_Z (Z.of_nat (length l))) with (q_len l).
  assert (E : q_sum l == m * q_len l).
  { unfold m, mean_of. field. intros E. rewrite E in Hp. discriminate. }
  rewrite E. field. intros E'. rewrite E' in Hp. discriminate.
Qed.

(** ** Accumulators represent (n, sum, sum of squares) *)

Definition zeroish (x : fl) : Prop := x = NaN \/ exists q, x = Fin q /\ q == 0.

Definition repn (n : Z) (s1 s2 : Q) (a : mv) : Prop :=
  mv_count a = n /\ (0 <= n)%Z /\
  (n = 0%Z -> s1 == 0 /\ s2 == 0 /\ zeroish (mv_mean a) /\ zeroish (mv_var a)) /\
  ((0 < n)%Z -> exists m v, mv_mean a = Fin m /\ mv_var a = Fin v /\
     m * inject_Z n == s1 /\ (v + m * m) * inject_Z n == s2).

(** The finite form after nan_to_num. *)
Definition repf (n : Z) (s1 s2 : Q) (a : mv) : Prop :=
  mv_count a = n /\ (0 <= n)%Z /\
  exists m v, mv_mean a = Fin m /\ mv_var a = Fin v /\
    m * inject_Z n == s1 /\ (v + m * m) * inject_Z n == s2 /\ (n = 0%Z -> m == 0 /\ v == 0).

Lemma repn_nan_to_num n s1 s2 a : repn n s1 s2 a -> repf n s1 s2 (mv_nan_to_num a).
Proof.
  intros (Hc & Hn & H0 & Hp). split; [exact Hc|]. split; [exact Hn|].
  destruct (Z.eq_dec n 0) as [E|E].
  - destruct (H0 E) as (E1 & E2 & Hm & Hv).
    assert (G : forall x, zeroish x -> exists q, nan_to_num x = Fin q /\ q == 0).
    { intros x [->|(q & -> & Hq)]; [exists 0; split; reflexivity|exists q; split; [reflexivity|exact Hq]]. }
    destruct (G _ Hm) as (m & Em & Zm). destruct (G _ Hv) as (v & Ev & Zv).
    exists m, v. cbn [mv_nan_to_num mv_mean mv_var]. split; [exact Em|]. split; [exact Ev|].
    split; [|split]; [| |intros _; split; assumption].
    + rewrite E1, Zm. ring.
    + rewrite E2, Zm, Zv. ring.
  - destruct (Hp ltac:(lia)) as (m & v & Em & Ev & E1 & E2).
    exists m, v. cbn [mv_nan_to_num mv_mean mv_var]. rewrite Em, Ev. cbn [nan_to_num].
    repeat split; try assumption; intros; contradiction.
Qed.

Lemma repf_repn n s1 s2 a : repf n s1 s2 a -> repn n s1 s2 a.
Proof.
  intros (Hc & Hn & m & v & Em & Ev & E1 & E2 & H0).
  split; [exact Hc|]. split; [exact Hn|]. split.
  - intros E. destruct (H0 E) as [Hm Hv]. subst n.
    split; [rewrite <- E1; rewrite E; ring|]. split; [rewrite <- E2, E; ring|].
    split; right; eexists; eauto.
  - intros _. exists m, v. auto.
Qed.

Lemma repn_ext n n' s1 s2 t1 t2 a : n = n' -> s1 == t1 -> s2 == t2 -> repn n s1 s2 a -> repn n' t1 t2 a.
Proof.
  intros -> E1 E2 (Hc & Hn & H0 & Hp). split; [exact Hc|]. split; [exact Hn|]. split.
  - intros E. rewrite <- E1, <- E2. apply H0, E.
  - intros H. destruct (Hp H) as (m & v & ? & ? & ? & ?). exists m, v. rewrite <- E1, <- E2. auto.
Qed.

Lemma inject_Z_nonzero n : (0 < n)%Z -> ~ inject_Z n == 0.
Proof. intros H E. change 0 with (inject_Z 0) in E. rewrite inject_Z_injective in E. lia. Qed.

Lemma combine_col_rep n1 s1 t1 a n2 s2 t2 b :
  repf n1 s1 t1 a -> repf n2 s2 t2 b ->
  repn (n1 + n2) (s1 + s2) (t1 + t2) (mv_combine_col a b).
Proof.
  intros (Hc1 & Hn1 & m1 & v1 & Em1 & Ev1 & E11 & E12 & H01) (Hc2 & Hn2 & m2 & v2 & Em2 & Ev2 & E21 & E22 & H02).
  unfold mv_combine_col. rewrite Hc1, Hc2, Em1, Ev1, Em2, Ev2.
  split; [reflexivity|]. split; [lia|]. split.
  - intros E. assert (n1 = 0%Z) by lia. assert (n2 = 0%Z) by lia. subst n1 n2.
    cbn [mv_mean mv_var count_fl fdiv Z.add inject_Z].
    rewrite <- E11, <- E12, <- E21, <- E22, H, H0.
    split; [ring|]. split; [ring|]. split; left; reflexivity.
  - intros Hp. pose proof (inject_Z_nonzero _ Hp) as Hnz.
    cbn [mv_mean mv_var]. unfold count_fl, fdiv.
    destruct (Qeq_bool (inject_Z (n1 + n2)) 0) eqn:EQ; [apply Qeq_bool_eq in EQ; contradiction|].
    cbn [fsub fneg fadd fmul]. eexists _, _. split; [reflexivity|]. split; [reflexivity|].
    rewrite inject_Z_plus in *. rewrite <- E11, <- E12, <- E21, <- E22.
    split; field; exact Hnz.
Qed.

Lemma repn_zero : repn 0 0 0 mv_zero.
Proof.
  split; [reflexivity|]. split; [lia|]. split; [|lia]. intros _.
  repeat split; right; exists 0; split; reflexivity.
Qed.

(** ** Statistics carried by an accumulator *)

Definition val (x : fl) : Q := match nan_to_num x with Fin q => q | _ => 0 end.
Definition stat1 (a : mv) : Q := inject_Z (mv_count a) * val (mv_mean a).
Definition stat2 (a : mv) : Q := inject_Z (mv_count a) * (val (mv_var a) + val (mv_mean a) * val (mv_mean a)).

Lemma repn_stats n s1 s2 a : repn n s1 s2 a -> mv_count a = n /\ stat1 a == s1 /\ stat2 a == s2.
Proof.
  intros H. pose proof (repn_nan_to_num _ _ _ _ H) as (Hc & Hn & m & v & Em & Ev & E1 & E2 & _).
  cbn [mv_nan_to_num mv_count mv_mean mv_var] in *. unfold stat1, stat2, val. rewrite Em, Ev, Hc.
  split; [reflexivity|]. rewrite <- E1, <- E2. split; ring.
Qed.

Definition col_at (j : nat) (a : list mv) : mv := nth j a mv_zero.
Definition z_sum (l : list Z) : Z := fold_right Z.add 0%Z l.

Definition tot_n (j : nat) (l : list (list mv)) : Z := z_sum (map (fun a => mv_count (col_at j a)) l).
Definition tot1 (j : nat) (l : list (list mv)) : Q := q_sum (map (fun a => stat1 (col_at j a)) l).
Definition tot2 (j : nat) (l : list (list mv)) : Q := q_sum (map (fun a => stat2 (col_at j a)) l).

Definition Rmv (l : list (list mv)) (a : list mv) : Prop :=
  forall j, repn (tot_n j l) (tot1 j l) (tot2 j l) (col_at j a).

Definition wf_acc (a : list mv) : Prop := forall j, exists n s1 s2, repn n s1 s2 (col_at j a).

Lemma Rmv_single a : wf_acc a -> Rmv [a] a.
Proof.
  intros H j. destruct (H j) as (n & s1 & s2 & Hr). destruct (repn_stats _ _ _ _ Hr) as (En & E1 & E2).
  eapply repn_ext; [| | |exact Hr].
  - unfold tot_n. cbn. lia.
  - unfold tot1. cbn. rewrite E1. ring.
  - unfold tot2. cbn. rewrite E2. ring.
Qed.

Lemma z_sum_app l1 l2 : z_sum (l1 ++ l2) = (z_sum l1 + z_sum l2)%Z.
Proof. induction l1 as [|x l1 IH]; cbn [app z_sum fold_right]; [reflexivity|]. unfold z_sum in *. rewrite IH. lia. Qed.

Lemma col_at_map f j a : f mv_zero = mv_zero -> col_at j (map f a) = f (col_at j a).
Proof. intros H. unfold col_at. rewrite <- H at 1. apply map_nth. Qed.

Lemma nan_to_num_zero : mv_nan_to_num mv_zero = mv_zero.
Proof. reflexivity. Qed.

Lemma col_at_pad n j a : col_at j (mv_pad n a) = col_at j a.
Proof.
  unfold col_at, mv_pad. destruct (Nat.lt_ge_cases j (length a)) as [H|H].
  - rewrite app_nth1 by exact H. reflexivity.
  - rewrite app_nth2 by exact H. rewrite (nth_overflow a) by exact H.
    destruct (Nat.lt_ge_cases (j - length a) (n - length a)) as [H'|H'].
    + apply nth_repeat.
    + apply nth_overflow. rewrite repeat_length. exact H'.
Qed.

Lemma pad_length n a : (length a <= n)%nat -> length (mv_pad n a) = n.
Proof. intros H. unfold mv_pad. rewrite app_length, repeat_length. lia. Qed.

Lemma col_at_combine j a b :
  let n := Nat.max (length a) (length b) in
  col_at j (map (fun p => mv_combine_col (fst p) (snd p)) (combine (mv_pad n a) (mv_pad n b)))
  = if (j <? n)%nat then mv_combine_col (col_at j a) (col_at j b) else mv_zero.
Proof.
  intros n. assert (La : length (mv_pad n a) = n) by (apply pad_length; unfold n; lia).
  assert (Lb : length (mv_pad n b) = n) by (apply pad_length; unfold n; lia).
  unfold col_at at 1. destruct (Nat.ltb_spec j n) as [H|H].
  - rewrite (nth_indep _ mv_zero (mv_combine_col (fst (mv_zero, mv_zero)) (snd (mv_zero, mv_zero))))
      by (rewrite map_length, combine_length; lia).
    rewrite (map_nth (fun p => mv_combine_col (fst p) (snd p))).
    rewrite combine_nth by lia. cbn [fst snd].
    change (nth j (mv_pad n a) mv_zero) with (col_at j (mv_pad n a)).
    change (nth j (mv_pad n b) mv_zero) with (col_at j (mv_pad n b)).
    rewrite !col_at_pad. reflexivity.
  - apply nth_overflow. rewrite map_length, combine_length. lia.
Qed.

Lemma counts_nonneg l a : Rmv l a -> Forall (fun c => (0 <= mv_count c)%Z) a.
Proof.
  intros H. apply Forall_forall. intros c Hc. apply (In_nth _ _ mv_zero) in Hc as (j & _ & <-).
  destruct (H j) as (E & Hn & _). unfold col_at in E. lia.
Qed.

Lemma sum_counts_zero a :
  Forall (fun c => (0 <= mv_count c)%Z) a -> sum_counts a = 0%Z -> forall j, mv_count (col_at j a) = 0%Z.
Proof.
  intros HF. unfold sum_counts. induction HF as [|c a Hc HF IH]; cbn [map fold_right]; intros E j.
  - destruct j; reflexivity.
  - assert (0 <= fold_right Z.add 0%Z (map mv_count a))%Z.
    { clear -HF. induction HF; cbn [map fold_right]; lia. }
    destruct j as [|j]; cbn; [lia|]. apply IH. lia.
Qed.

Lemma sum_counts_nonneg a : Forall (fun c => (0 <= mv_count c)%Z) a -> (0 <= sum_counts a)%Z.
Proof. intros H. unfold sum_counts. induction H; cbn [map fold_right]; lia. Qed.

(** The combination of two accumulators represents both. *)
Lemma combine_rep l1 a l2 b : Rmv l1 a -> Rmv l2 b -> Rmv (l1 ++ l2) (mv_combine a b).
Proof.
  intros H1 H2.
  assert (Hf : forall l x, Rmv l x -> forall j, repf (tot_n j l) (tot1 j l) (tot2 j l) (col_at j (map mv_nan_to_num x))).
  { intros l x H j. rewrite col_at_map by reflexivity. apply repn_nan_to_num, H. }
  assert (HR : forall l x, Rmv l x -> Rmv l (map mv_nan_to_num x)).
  { intros l x H j. apply repf_repn, Hf, H. }
  assert (G : forall l1 a l2 b,
    (forall j, repf (tot_n j l1) (tot1 j l1) (tot2 j l1) (col_at j a)) ->
    (forall j, repf (tot_n j l2) (tot1 j l2) (tot2 j l2) (col_at j b)) ->
    (sum_counts b <= sum_counts a)%Z ->
    forall j, repn (tot_n j l1 + tot_n j l2) (tot1 j l1 + tot1 j l2) (tot2 j l1 + tot2 j l2)
      (col_at j (if (sum_counts a =? 0)%Z then b
                 else map (fun p => mv_combine_col (fst p) (snd p))
                        (combine (mv_pad (Nat.max (length a) (length b)) a) (mv_pad (Nat.max (length a) (length b)) b))))).
  { clear. intros l1 a l2 b H1 H2 Hle j.
    assert (N1 : Forall (fun c => (0 <= mv_count c)%Z) a).
    { apply (counts_nonneg l1). intros k. apply repf_repn, H1. }
    assert (N2 : Forall (fun c => (0 <= mv_count c)%Z) b).
    { apply (counts_nonneg l2). intros k. apply repf_repn, H2. }
    destruct (Z.eqb_spec (sum_counts a) 0) as [E|E].
    - (* everything is empty *)
      pose proof (sum_counts_nonneg b N2).
      pose proof (sum_counts_zero a N1 E j) as Z1.
      destruct (H1 j) as (C1 & _ & m & v & _ & _ & E1 & E2 & _).
      rewrite Z1 in C1. rewrite <- C1 in *.
      eapply repn_ext; [| | |apply repf_repn, (H2 j)]; [lia| |].
      + rewrite <- E1. ring.
      + rewrite <- E2. ring.
    - rewrite col_at_combine. destruct (Nat.ltb_spec j (Nat.max (length a) (length b))) as [Hj|Hj].
      + apply combine_col_rep; [apply H1|apply H2].
      + specialize (H1 j). specialize (H2 j). unfold col_at in H1, H2.
        rewrite nth_overflow in H1 by lia. rewrite nth_overflow in H2 by lia.
        destruct H1 as (C1 & _ & m1 & v1 & _ & _ & E11 & E12 & _).
        destruct H2 as (C2 & _ & m2 & v2 & _ & _ & E21 & E22 & _).
        cbn in C1, C2. rewrite <- C1, <- C2 in *.
        eapply repn_ext; [| | |apply repn_zero]; [reflexivity| |].
        * rewrite <- E11, <- E21. ring.
        * rewrite <- E12, <- E22. ring. }
  intros j. unfold mv_combine.
  set (a' := map mv_nan_to_num a). set (b' := map mv_nan_to_num b).
  assert (ET : forall f : list mv -> Q, q_sum (map f (l1 ++ l2)) == q_sum (map f l1) + q_sum (map f l2)).
  { intros f. rewrite map_app. apply q_sum_app. }
  assert (EN : tot_n j (l1 ++ l2) = (tot_n j l1 + tot_n j l2)%Z).
  { unfold tot_n. rewrite map_app. apply z_sum_app. }
  destruct (Z.ltb_spec (sum_counts a') (sum_counts b')) as [Hlt|Hge].
  - eapply repn_ext; [| | |apply (G l2 b' l1 a' (Hf l2 b H2) (Hf l1 a H1))].
    + rewrite EN. lia.
    + unfold tot1. rewrite ET. ring.
    + unfold tot2. rewrite ET. ring.
    + lia.
  - eapply repn_ext; [| | |apply (G l1 a' l2 b' (Hf l1 a H1) (Hf l2 b H2))].
    + rewrite EN. lia.
    + unfold tot1. rewrite ET. ring.
    + unfold tot2. rewrite ET. ring.
    + lia.
Qed.

Lemma create_rep n : Rmv [] (mv_create n).
Proof.
  intros j. unfold col_at, mv_create. 
  assert (E : nth j (repeat mv_zero n) mv_zero = mv_zero).
  { destruct (Nat.lt_ge_cases j n) as [H|H]; [apply nth_repeat|apply nth_overflow; rewrite repeat_length; exact H]. }
  rewrite E. exact repn_zero.
Qed.

Lemma merge_rep ls ags : ls <> [] -> Forall2 Rmv ls ags -> Rmv (concat ls) (mv_merge ags).
Proof.
  intros Hn H. destruct H as [|l a ls ags Ha H]; [congruence|]. cbn [concat mv_merge].
  clear Hn. revert l a Ha. induction H as [|l' a' ls ags Ha' _ IH]; cbn [concat fold_left]; intros l a Ha.
  - rewrite app_nil_r. exact Ha.
  - rewrite app_assoc. apply IH, combine_rep; assumption.
Qed.

(** Every analysis returns the statistics of all the accumulators fed to it. *)
Lemma mv_analyze n (s : sched (sched (list mv))) :
  Forall wf_acc (batches_of s) ->
  exists a, Rmv (batches_of s) a /\ analyze (mv_combiner n) s = mv_extract a.
Proof.
  apply (analyze_rep (mv_combiner n) Rmv wf_acc).
  - apply create_rep.
  - intros l a x Hx Ha. apply combine_rep; [exact Ha|apply Rmv_single, Hx].
  - apply merge_rep.
Qed.

(** ** Batch reductions *)

Lemma filter_finites xs : length (filter is_finite xs) = length (finites xs).
Proof. induction xs as [|[q| |s] xs IH]; cbn; rewrite ?IH; reflexivity. Qed.

Lemma fsum_zero_nonfinite xs : exists q, fsum (map zero_nonfinite xs) = Fin q /\ q == q_sum (finites xs).
Proof.
  induction xs as [|x xs (q & E & Hq)]; cbn; [exists 0; split; reflexivity|].
  unfold fsum in E. rewrite E.
  destruct x as [r| |t]; cbn; eexists; (split; [reflexivity|]); rewrite Hq; unfold q_sum; cbn [fold_right]; ring.
Qed.

Lemma fsum_map_nonfinite (f : fl -> fl) (g : Q -> Q) xs :
  (forall q, f (Fin q) = Fin (g q)) -> (forall x, is_finite x = false -> f x = Fin 0) ->
  exists q, fsum (map f xs) = Fin q /\ q == q_sum (map g (finites xs)).
Proof.
  intros H1 H2. induction xs as [|x xs (q & E & Hq)]; cbn; [exists 0; split; reflexivity|].
  unfold fsum in E. rewrite E.
  destruct x as [r| |t]; [rewrite H1|rewrite H2 by reflexivity|rewrite H2 by reflexivity];
    cbn; eexists; (split; [reflexivity|]); rewrite Hq; unfold q_sum; cbn [fold_right map]; ring.
Qed.

Lemma div_count_pos q n : (0 < n)%Z -> divide_no_nan (Fin q) (count_fl n) = Fin (q / inject_Z n).
Proof.
  intros H. unfold divide_no_nan, count_fl, fdiv.
  destruct (Qeq_bool (inject_Z n) 0) eqn:E; [|reflexivity].
  apply Qeq_bool_eq in E. exfalso. apply (inject_Z_nonzero _ H E).
Qed.

Definition sq (x : Q) : Q := x * x.

Lemma nonneg_count xs : (0 <= batch_count xs)%Z.
Proof. unfold batch_count. lia. Qed.

Lemma finites_nil_count xs : batch_count xs = 0%Z -> finites xs = [].
Proof.
  unfold batch_count. rewrite filter_finites. intros H.
  destruct (finites xs); [reflexivity|]. cbn in H. lia.
Qed.

Lemma moments_from_dev l m n :
  n = inject_Z (Z.of_nat (length l)) -> ~ n == 0 -> m == q_sum l / n ->
  (q_sum (map (fun x => (x - m) * (x - m)) l) / n + m * m) * n == q_sum (map sq l).
Proof.
  intros En Hn Em.
  rewrite (q_sum_map_ext _ (fun x => sq x + ((-2 * m) * x + m * m))) by (intros; unfold sq; ring).
  rewrite q_sum_map_plus, q_sum_map_plus, q_sum_map_scale, q_sum_const, map_id, <- En.
  assert (E : q_sum l == m * n) by (rewrite Em; field; exact Hn).
  rewrite E. field. exact Hn.
Qed.

Lemma batch_dense_rep xs :
  repn (Z.of_nat (length (finites xs))) (q_sum (finites xs)) (q_sum (map sq (finites xs))) (batch_dense_col xs).
Proof.
  unfold batch_dense_col. set (n := batch_count xs).
  assert (En : n = Z.of_nat (length (finites xs))) by (unfold n, batch_count; rewrite filter_finites; reflexivity).
  destruct (fsum_zero_nonfinite xs) as (q & Eq & Hq). rewrite Eq.
  split; [exact En|]. split; [lia|]. split.
  - intros E. assert (Ef : finites xs = []) by (apply finites_nil_count; fold n; lia).
    rewrite <- En in E. rewrite Ef, E. cbn [mv_mean mv_var].
    split; [reflexivity|]. split; [reflexivity|].
    split; right; exists 0; split; reflexivity.
  - intros Hp. cbn [mv_mean mv_var]. rewrite <- En in *. rewrite !div_count_pos by exact Hp.
    rewrite map_map.
    destruct (fsum_map_nonfinite
      (fun x => fmul (if is_finite x then fsub x (Fin (q / inject_Z n)) else Fin 0)
                     (if is_finite x then fsub x (Fin (q / inject_Z n)) else Fin 0))
      (fun x => (x - q / inject_Z n) * (x - q / inject_Z n)) xs) as (v & Ev & Hv).
    { intros r. reflexivity. }
    { intros x Hx. rewrite Hx. reflexivity. }
    rewrite Ev, div_count_pos by exact Hp.
    eexists _, _. split; [reflexivity|]. split; [reflexivity|].
    pose proof (inject_Z_nonzero _ Hp) as Hnz. split.
    + rewrite Hq. field. exact Hnz.
    + rewrite Hv. apply moments_from_dev; [rewrite En; reflexivity|exact Hnz|rewrite Hq; reflexivity].
Qed.

Lemma batch_key_rep xs :
  repn (Z.of_nat (length (finites xs))) (q_sum (finites xs)) (q_sum (map sq (finites xs))) (batch_key_col xs).
Proof.
  unfold batch_key_col. set (n := batch_count xs).
  assert (En : n = Z.of_nat (length (finites xs))) by (unfold n, batch_count; rewrite filter_finites; reflexivity).
  destruct (fsum_zero_nonfinite xs) as (q & Eq & Hq). rewrite Eq, map_map.
  destruct (fsum_map_nonfinite (fun x => fmul (zero_nonfinite x) (zero_nonfinite x)) sq xs) as (v & Ev & Hv).
  { intros r. reflexivity. }
  { intros x Hx. unfold zero_nonfinite. rewrite Hx. reflexivity. }
  rewrite Ev. split; [exact En|]. split; [lia|]. split.
  - intros E. assert (Ef : finites xs = []) by (apply finites_nil_count; fold n; lia).
    rewrite <- En in E. rewrite Ef, E. cbn [mv_mean mv_var].
    split; [reflexivity|]. split; [reflexivity|].
    split; right; eexists; (split; [reflexivity|reflexivity]).
  - intros Hp. cbn [mv_mean mv_var]. rewrite <- En in *. rewrite !div_count_pos by exact Hp.
    cbn [fmul fsub fneg fadd]. eexists _, _. split; [reflexivity|]. split; [reflexivity|].
    pose proof (inject_Z_nonzero _ Hp) as Hnz. split.
    + rewrite Hq. field. exact Hnz.
    + rewrite <- Hv. field. exact Hnz.
Qed.

(** ** Final statements *)

(** From representation to mean and variance. *)
Lemma repn_mean_var l a :
  l <> [] -> repn (Z.of_nat (length l)) (q_sum l) (q_sum (map sq l)) a ->
  exists m v, mv_mean a = Fin m /\ mv_var a = Fin v /\ m == mean_of l /\ v == var_of l.
Proof.
  intros Hn (_ & _ & _ & Hp).
  assert (HL : (0 < Z.of_nat (length l))%Z) by (destruct l; [congruence|cbn; lia]).
  destruct (Hp HL) as (m & v & Em & Ev & E1 & E2).
  pose proof (inject_Z_nonzero _ HL) as Hnz. change (inject_Z (Z.of_nat (length l))) with (q_len l) in *.
  exists m, v. split; [exact Em|]. split; [exact Ev|].
  assert (Hm : m == mean_of l) by (unfold mean_of; rewrite <- E1; field; exact Hnz).
  split; [exact Hm|].
  rewrite var_moments by exact Hn. change (map (fun x => x * x) l) with (map sq l).
  rewrite <- E2, <- Hm. field. exact Hnz.
Qed.

Lemma finites_app l1 l2 : finites (l1 ++ l2) = finites l1 ++ finites l2.
Proof. induction l1 as [|[q| |s] l1 IH]; cbn; rewrite ?IH; reflexivity. Qed.

Lemma finites_concat ls : finites (concat ls) = concat (map finites ls).
Proof. induction ls as [|l ls IH]; cbn; [reflexivity|]. rewrite finites_app, IH. reflexivity. Qed.

(** If the accumulators of a list represent the value lists [g x], the totals are those of the
    concatenation. *)
Lemma totals {X} (f : X -> list mv) (g : X -> list Q) j (l : list X) :
  (forall x, In x l -> repn (Z.of_nat (length (g x))) (q_sum (g x)) (q_sum (map sq (g x))) (col_at j (f x))) ->
  tot_n j (map f l) = Z.of_nat (length (concat (map g l))) /\
  tot1 j (map f l) == q_sum (concat (map g l)) /\
  tot2 j (map f l) == q_sum (map sq (concat (map g l))).
Proof.
  induction l as [|x l IH]; intros H; [repeat split; reflexivity|].
  destruct (IH (fun y Hy => H y (or_intror Hy))) as (I1 & I2 & I3).
  destruct (repn_stats _ _ _ _ (H x (or_introl eq_refl))) as (S1 & S2 & S3).
  cbn [map concat]. rewrite app_length, map_app, !q_sum_app, Nat2Z.inj_add, <- I1, <- I2, <- I3, <- S2, <- S3, <- S1.
  repeat split; reflexivity.
Qed.

Lemma batches_map {X Y} (f : X -> Y) (s : sched (sched X)) :
  batches_of (map_sched (map_sched f) s) = map f (batches_of s).
Proof.
  unfold batches_of. rewrite elements_map. rewrite !flat_map_concat_map, map_map.
  rewrite (map_ext _ (fun x => map f (elements x))) by (intros x; apply elements_map).
  rewrite <- (map_map elements (map f)), <- concat_map. reflexivity.
Qed.

Lemma extract_nth j a : (j < length a)%nat -> nth_error (mv_extract a) j = Some (mv_mean (col_at j a), mv_var (col_at j a)).
Proof.
  intros H. unfold mv_extract, col_at. rewrite nth_error_map.
  rewrite (nth_error_nth' a mv_zero H). reflexivity.
Qed.

Lemma col_pos_lt j a : (0 < mv_count (col_at j a))%Z -> (j < length a)%nat.
Proof.
  intros H. destruct (Nat.lt_ge_cases j (length a)) as [L|L]; [exact L|].
  unfold col_at in H. rewrite nth_overflow in H by exact L. cbn in H. lia.
Qed.

(** Generic: any batch reduction whose coordinates represent the values [g j x]. *)
Lemma mv_generic {X} (f : X -> list mv) (g : nat -> X -> list Q) n (s : sched (sched X)) :
  (forall j x, In x (batches_of s) ->
     repn (Z.of_nat (length (g j x))) (q_sum (g j x)) (q_sum (map sq (g j x))) (col_at j (f x))) ->
  forall j, let vs := concat (map (g j) (batches_of s)) in vs <> [] ->
  exists m v, nth_error (analyze (mv_combiner n) (map_sched (map_sched f) s)) j = Some (Fin m, Fin v) /\
    m == mean_of vs /\ v == var_of vs.
Proof.
  intros H j vs Hvs.
  destruct (mv_analyze n (map_sched (map_sched f) s)) as (a & Ha & ->).
  { rewrite batches_map. apply Forall_map, Forall_forall. intros x Hx k. eexists _, _, _. apply H, Hx. }
  rewrite batches_map in Ha. specialize (Ha j).
  destruct (totals f (g j) j (batches_of s) (fun x Hx => H j x Hx)) as (T1 & T2 & T3). fold vs in T1, T2, T3.
  pose proof (repn_ext _ _ _ _ _ _ _ T1 T2 T3 Ha) as Hr.
  destruct (repn_mean_var vs _ Hvs Hr) as (m & v & Em & Ev & Hm & Hv).
  exists m, v. split; [|split; assumption].
  rewrite extract_nth, Em, Ev; [reflexivity|].
  apply col_pos_lt. destruct Hr as (Hc & _). rewrite Hc. destruct vs; [congruence|cbn; lia].
Qed.

Lemma mean_and_var_exact (s : sched (sched (list fl))) :
  let vs := finites (rows_of s) in vs <> [] ->
  exists m v, mean_and_var s = [(Fin m, Fin v)] /\ m == mean_of vs /\ v == var_of vs.
Proof.
  intros vs Hvs.
  assert (Hlen : length (mean_and_var s) = 1%nat).
  { unfold mean_and_var.
    destruct (analyze_rep (mv_combiner 1) (fun _ a => length a = 1%nat) (fun x => length x = 1%nat)) with (s := map_sched (map_sched (fun xs => [batch_dense_col xs])) s) as (a & Ha & E).
    - reflexivity.
    - assert (G : forall a b, length a = 1%nat -> length b = 1%nat -> length (mv_combine a b) = 1%nat).
      { intros a b La Lb. unfold mv_combine.
        destruct (_ <? _)%Z; destruct (_ =? _)%Z; rewrite ?map_length, ?combine_length, ?pad_length, ?map_length; rewrite ?map_length; lia. }
      intros l a x Hx Ha. apply G; assumption.
    - assert (G : forall a b, length a = 1%nat -> length b = 1%nat -> length (mv_combine a b) = 1%nat).
      { intros a b La Lb. unfold mv_combine.
        destruct (_ <? _)%Z; destruct (_ =? _)%Z; rewrite ?map_length, ?combine_length, ?pad_length, ?map_length; rewrite ?map_length; lia. }
      intros ls ags Hn H. destruct H as [|l a ls ags Ha H]; [congruence|]. cbn [merge_accumulators mv_combiner mv_merge].
      clear Hn. revert a Ha. induction H as [|l' a' ls ags Ha' _ IH]; cbn [fold_left]; intros a Ha; [exact Ha|].
      apply IH, G; assumption.
    - rewrite batches_map. apply Forall_map, Forall_forall. reflexivity.
    - rewrite E. cbn. unfold mv_extract. rewrite map_length. exact Ha. }
  assert (Eg : concat (map (fun x => match 0%nat with O => finites x | _ => [] end) (batches_of s)) = vs).
  { unfold vs, rows_of. rewrite finites_concat. reflexivity. }
  destruct (mv_generic (fun xs => [batch_dense_col xs]) (fun j x => match j with O => finites x | _ => [] end) 1 s) with (j := 0%nat)
    as (m & v & E & Hm & Hv).
  - intros [|j] x _; [apply batch_dense_rep|]. cbn [col_at nth]. destruct j; exact repn_zero.
  - rewrite Eg. exact Hvs.
  - rewrite Eg in Hm, Hv. exists m, v. split; [|split; assumption].
    unfold mean_and_var in *. destruct (analyze _ _) as [|p [|p' l]]; cbn in *; try lia. congruence.
Qed.

Lemma col_at_map_cols f j (b : list (list fl)) :
  (f [] = mv_zero) -> col_at j (map f b) = f (nth j b []).
Proof. intros H. unfold col_at. rewrite <- H. apply map_nth. Qed.

Lemma mean_and_var_elementwise_exact n (s : sched (sched (list (list fl)))) :
  forall j, let vs := finites (concat (map (fun b => nth j b []) (batches_of s))) in vs <> [] ->
  exists m v, nth_error (mean_and_var_elementwise n s) j = Some (Fin m, Fin v) /\
    m == mean_of vs /\ v == var_of vs.
Proof.
  intros j vs Hvs.
  assert (Eg : concat (map (fun b => finites (nth j b [])) (batches_of s)) = vs).
  { unfold vs. rewrite finites_concat, map_map. reflexivity. }
  rewrite <- Eg in *. unfold mean_and_var_elementwise.
  apply (mv_generic (map batch_dense_col) (fun j b => finites (nth j b [])) n s); [|exact Hvs].
  intros k b _. rewrite col_at_map_cols by reflexivity. apply batch_dense_rep.
Qed.

Lemma sparse_dense_col xs : Forall (fun x => is_finite x = true) xs -> batch_sparse_col xs = batch_dense_col xs.
Proof.
  intros H. unfold batch_sparse_col, batch_dense_col.
  assert (E : map zero_nonfinite xs = xs).
  { rewrite <- (map_id xs) at 2. apply map_ext_in. intros x Hx. unfold zero_nonfinite.
    rewrite Forall_forall in H. rewrite (H x Hx). reflexivity. }
  rewrite E. f_equal. f_equal. f_equal. f_equal. apply map_ext_in. intros x Hx.
  rewrite Forall_forall in H. rewrite (H x Hx). reflexivity.
Qed.

Lemma mean_and_var_sparse_exact n (s : sched (sched (list (list fl)))) :
  Forall (Forall (Forall (fun x => is_finite x = true))) (batches_of s) ->
  forall j, let vs := finites (concat (map (fun b => nth j b []) (batches_of s))) in vs <> [] ->
  exists m v, nth_error (mean_and_var_elementwise_sparse n s) j = Some (Fin m, Fin v) /\
    m == mean_of vs /\ v == var_of vs.
Proof.
  intros HF j vs Hvs.
  assert (Eg : concat (map (fun b => finites (nth j b [])) (batches_of s)) = vs).
  { unfold vs. rewrite finites_concat, map_map. reflexivity. }
  rewrite <- Eg in *. unfold mean_and_var_elementwise_sparse.
  apply (mv_generic (map batch_sparse_col) (fun j b => finites (nth j b [])) n s); [|exact Hvs].
  intros k b Hb. rewrite col_at_map_cols by reflexivity. rewrite sparse_dense_col.
  - apply batch_dense_rep.
  - rewrite Forall_forall in HF. specialize (HF b Hb).
    destruct (Nat.lt_ge_cases k (length b)) as [L|L]; [|rewrite nth_overflow by exact L; constructor].
    rewrite Forall_forall in HF. apply HF, nth_In, L.
Qed.

(** ** Per key *)

Lemma existsb_eqb k l : existsb (String.eqb k) l = true <-> In k l.
Proof.
  rewrite existsb_exists. split.
  - intros (x & Hx & E). apply String.eqb_eq in E. subst. exact Hx.
  - intros H. exists k. split; [exact H|apply String.eqb_refl].
Qed.

Lemma tf_unique_spec ks : forall seen,
  NoDup (tf_unique seen ks) /\ forall k, In k (tf_unique seen ks) <-> In k ks /\ ~ In k seen.
Proof.
  induction ks as [|k ks IH]; intros seen; cbn [tf_unique].
  - split; [constructor|]. intros k; cbn; tauto.
  - destruct (existsb (String.eqb k) seen) eqn:E.
    + apply existsb_eqb in E. destruct (IH seen) as [I1 I2]. split; [exact I1|].
      intros k'. rewrite I2. cbn. split; [tauto|]. intros [[->|H] Hn]; [contradiction|tauto].
    + assert (~ In k seen) by (rewrite <- existsb_eqb; congruence).
      destruct (IH (k :: seen)) as [I1 I2]. split.
      * constructor; [|exact I1]. rewrite I2. cbn. tauto.
      * intros k'. cbn [In]. rewrite I2. cbn [In]. split.
        -- intros [->|[? ?]]; [tauto|]. tauto.
        -- intros [[->|H'] Hn]; [tauto|]. destruct (String.string_dec k k') as [->|Hne]; [tauto|]. right. tauto.
Qed.

Lemma filter_unique_key {A} k (f : string -> A) ks :
  NoDup ks ->
  map snd (filter (fun p => String.eqb k (fst p)) (map (fun k => (k, f k)) ks))
  = if existsb (String.eqb k) ks then [f k] else [].
Proof.
  induction 1 as [|k' ks Hn _ IH]; cbn [map filter existsb]; [reflexivity|]. cbn [fst].
  destruct (String.eqb_spec k k') as [->|Hne]; cbn [map orb].
  - cbn [snd]. rewrite IH. destruct (existsb (String.eqb k') ks) eqn:E; [|reflexivity].
    apply existsb_eqb in E. contradiction.
  - exact IH.
Qed.

Lemma inputs_of_key_gen {V A} (g : list V -> A) k bs :
  inputs_of_key k (map (reduce_per_key g) bs)
  = map (fun b => g (values_of k b)) (filter (fun b => existsb (String.eqb k) (map fst b)) bs).
Proof.
  unfold inputs_of_key. induction bs as [|b bs IH]; cbn [map concat filter]; [reflexivity|].
  rewrite filter_app, map_app, IH. unfold reduce_per_key at 1.
  destruct (tf_unique_spec (map fst b) []) as [HN HI].
  rewrite filter_unique_key by exact HN.
  assert (E : existsb (String.eqb k) (tf_unique [] (map fst b)) = existsb (String.eqb k) (map fst b)).
  { apply Bool.eq_true_iff_eq. rewrite !existsb_eqb, HI. cbn. tauto. }
  rewrite E. destruct (existsb (String.eqb k) (map fst b)); reflexivity.
Qed.

Lemma inputs_of_key_eq k bs :
  inputs_of_key k (map batch_per_key bs)
  = map (fun b => [batch_key_col (values_of k b)]) (filter (fun b => existsb (String.eqb k) (map fst b)) bs).
Proof. apply (inputs_of_key_gen (fun xs => [batch_key_col xs])). Qed.

Lemma values_of_no_key {V} k (b : list (string * V)) : existsb (String.eqb k) (map fst b) = false -> values_of k b = [].
Proof.
  unfold values_of. induction b as [|[k' x] b IH]; cbn [map existsb filter fst]; [reflexivity|].
  destruct (String.eqb k k'); cbn; [discriminate|exact IH].
Qed.

Lemma tot_perm l1 l2 j : Permutation l1 l2 ->
  tot_n j l1 = tot_n j l2 /\ tot1 j l1 == tot1 j l2 /\ tot2 j l1 == tot2 j l2.
Proof.
  intros H. split; [|split].
  - unfold tot_n. assert (P : Permutation (map (fun a => mv_count (col_at j a)) l1) (map (fun a => mv_count (col_at j a)) l2))
      by (apply Permutation_map, H). induction P; cbn [z_sum fold_right]; unfold z_sum in *; cbn [fold_right]; lia.
  - apply q_sum_perm, Permutation_map, H.
  - apply q_sum_perm, Permutation_map, H.
Qed.

Lemma mean_and_var_per_key_exact (bs : list (list (string * fl))) k (s : sched (sched (list mv))) :
  Permutation (batches_of s) (inputs_of_key k (map batch_per_key bs)) ->
  let vs := finites (values_of k (concat bs)) in vs <> [] ->
  exists m v, nth_error (analyze (mv_combiner 1) s) 0 = Some (Fin m, Fin v) /\ m == mean_of vs /\ v == var_of vs.
Proof.
  intros HP vs Hvs. rewrite inputs_of_key_eq in HP.
  set (kb := filter (fun b => existsb (String.eqb k) (map fst b)) bs) in *.
  set (f := fun b : list (string * fl) => [batch_key_col (values_of k b)]) in *.
  destruct (mv_analyze 1 s) as (a & Ha & ->).
  { eapply Permutation_Forall; [symmetry; exact HP|]. apply Forall_map, Forall_forall. intros b _ [|j].
    - eexists _, _, _. apply batch_key_rep.
    - eexists _, _, _. cbn [col_at nth f]. destruct j; exact repn_zero. }
  specialize (Ha 0%nat). destruct (tot_perm _ _ 0%nat HP) as (P1 & P2 & P3).
  destruct (totals f (fun b => finites (values_of k b)) 0 kb) as (T1 & T2 & T3).
  { intros b _. apply batch_key_rep. }
  assert (Ev : concat (map (fun b => finites (values_of k b)) kb) = vs).
  { unfold vs, kb. clear. induction bs as [|b bs IH]; cbn [filter concat map]; [reflexivity|].
    unfold values_of at 2. rewrite filter_app, map_app, finites_app.
    fold (values_of k b). fold (values_of k (concat bs)). rewrite <- IH.
    destruct (existsb (String.eqb k) (map fst b)) eqn:E; [reflexivity|].
    rewrite (values_of_no_key k b E). reflexivity. }
  rewrite Ev in *.
  assert (Hr : repn (Z.of_nat (length vs)) (q_sum vs) (q_sum (map sq vs)) (col_at 0 a)).
  { eapply repn_ext; [| | |exact Ha]; [congruence| |].
    - rewrite P2. exact T2.
    - rewrite P3. exact T3. }
  destruct (repn_mean_var vs _ Hvs Hr) as (m & v & Em & Ev' & Hm & Hv).
  exists m, v. split; [|split; assumption].
  rewrite extract_nth, Em, Ev'; [reflexivity|].
  apply col_pos_lt. destruct Hr as (Hc & _). rewrite Hc. destruct vs; [congruence|cbn; lia].
Qed.

(** ** Covariance *)

Lemma mat_of_nth n f i j : (i < n)%nat -> (j < n)%nat -> mat_nth (mat_of n f) i j = f i j.
Proof.
  intros Hi Hj. unfold mat_nth, mat_of.
  rewrite (nth_indep _ [] (map (fun j => f 0%nat j) (seq 0 n))) by (rewrite map_length, seq_length; exact Hi).
  rewrite (map_nth (fun i => map (fun j => f i j) (seq 0 n)) (seq 0 n) 0%nat i), seq_nth by exact Hi.
  rewrite (nth_indep _ 0 (f (0 + i)%nat 0%nat)) by (rewrite map_length, seq_length; exact Hj).
  rewrite (map_nth (fun j => f (0 + i)%nat j) (seq 0 n) 0%nat j), seq_nth by exact Hj. reflexivity.
Qed.

Lemma vec_of_nth n f i : (i < n)%nat -> nth i (vec_of n f) 0 = f i.
Proof.
  intros Hi. unfold vec_of. rewrite (nth_indep _ 0 (f 0%nat)) by (rewrite map_length, seq_length; exact Hi).
  rewrite map_nth, seq_nth by exact Hi. reflexivity.
Qed.

Section cov.
  Variable n : nat.
  Let comb := cov_combiner n (fun q => q).

  Definition Rcov (l : list (list (list Q))) (a : cov) : Prop :=
    (forall i j, (i < n)%nat -> (j < n)%nat ->
       mat_nth (cov_prod a) i j == q_sum (map (fun r => nth i r 0 * nth j r 0) (concat l))) /\
    (forall i, (i < n)%nat -> nth i (cov_sum a) 0 == q_sum (map (fun r => nth i r 0) (concat l))) /\
    cov_count a == inject_Z (Z.of_nat (length (concat l))).

  Lemma Rcov_create : Rcov [] (create_accumulator comb).
  Proof.
    split; [|split].
    - intros i j Hi Hj. cbn [create_accumulator comb cov_combiner cov_create cov_prod]. unfold mat_nth.
      rewrite (nth_indep _ [] (repeat 0 n)) by (rewrite repeat_length; exact Hi).
      rewrite nth_repeat, nth_repeat. reflexivity.
    - intros i Hi. cbn. rewrite nth_repeat. reflexivity.
    - reflexivity.
  Qed.

  Lemma Rcov_add l a x : True -> Rcov l a -> Rcov (l ++ [x]) (add_input comb a x).
  Proof.
    intros _ (H1 & H2 & H3).
    assert (E : concat (l ++ [x]) = concat l ++ x) by (rewrite concat_app; cbn; rewrite app_nil_r; reflexivity).
    unfold Rcov. rewrite E. cbn [add_input comb cov_combiner cov_add cov_prod cov_sum cov_count].
    split; [|split].
    - intros i j Hi Hj. rewrite mat_of_nth by assumption. rewrite map_app, q_sum_app, H1 by assumption. reflexivity.
    - intros i Hi. rewrite vec_of_nth by assumption. rewrite map_app, q_sum_app, H2 by assumption. reflexivity.
    - rewrite H3, app_length, Nat2Z.inj_add, inject_Z_plus. reflexivity.
  Qed.

  Lemma q_sum_Forall2 {X Y} (R : X -> Y -> Prop) (f : X -> Q) (g : Y -> Q) xs ys :
    Forall2 R xs ys -> (forall x y, R x y -> g y == f x) -> q_sum (map g ys) == q_sum (map f xs).
  Proof.
    intros H HR. induction H as [|x y xs ys Hxy _ IH]; [reflexivity|].
    cbn [map]. rewrite !q_sum_cons, IH, (HR x y Hxy). reflexivity.
  Qed.

  Lemma Rcov_merge ls ags : ls <> [] -> Forall2 Rcov ls ags -> Rcov (concat ls) (merge_accumulators comb ags).
  Proof.
    intros _ H. change (merge_accumulators comb ags) with (cov_merge n ags). unfold Rcov, cov_merge. cbn [cov_prod cov_sum cov_count].
    assert (EC : forall f : list Q -> Q, q_sum (map f (concat (concat ls))) == q_sum (map (fun l => q_sum (map f (concat l))) ls)).
    { intros f. clear. induction ls as [|l ls IH]; [reflexivity|]. cbn [concat map].
      rewrite concat_app, map_app, q_sum_app, q_sum_cons, IH. reflexivity. }
    split; [|split].
    - intros i j Hi Hj. rewrite mat_of_nth by assumption. rewrite EC.
      apply (q_sum_Forall2 Rcov (fun l => q_sum (map (fun r => nth i r 0 * nth j r 0) (concat l))) _ ls ags H).
      intros x y (Hxy & _). apply Hxy; assumption.
    - intros i Hi. rewrite vec_of_nth by assumption. rewrite EC.
      apply (q_sum_Forall2 Rcov (fun l => q_sum (map (fun r => nth i r 0) (concat l))) _ ls ags H).
      intros x y (_ & Hxy & _). apply Hxy; assumption.
    - rewrite qsum_is_q_sum.
      rewrite (q_sum_Forall2 Rcov (fun l => inject_Z (Z.of_nat (length (concat l)))) _ ls ags H).
      + clear. induction ls as [|l ls IH]; [reflexivity|]. cbn [map concat].
        rewrite q_sum_cons, IH, concat_app, app_length, Nat2Z.inj_add, inject_Z_plus. reflexivity.
      + intros x y (_ & _ & Hxy). exact Hxy.
  Qed.

  Lemma cov_moments (l : list (Q * Q)) : l <> [] ->
    cov_of l == q_sum (map (fun p => fst p * snd p) l) / inject_Z (Z.of_nat (length l))
                - mean_of (map fst l) * mean_of (map snd l).
  Proof.
    intros Hn. unfold cov_of.
    assert (HL : (0 < Z.of_nat (length l))%Z) by (destruct l; [congruence|cbn; lia]).
    pose proof (inject_Z_nonzero _ HL) as Hnz.
    set (mx := mean_of (map fst l)). set (my := mean_of (map snd l)).
    assert (Ex : q_sum (map fst l) == mx * inject_Z (Z.of_nat (length l))).
    { unfold mx, mean_of, q_len. rewrite map_length. field. exact Hnz. }
    assert (Ey : q_sum (map snd l) == my * inject_Z (Z.of_nat (length l))).
    { unfold my, mean_of, q_len. rewrite map_length. field. exact Hnz. }
    rewrite (q_sum_map_ext _ (fun p => fst p * snd p + ((- my) * fst p + ((- mx) * snd p + mx * my)))) by (intros; ring).
    rewrite !q_sum_map_plus, !q_sum_map_scale, q_sum_const, Ex, Ey. field. exact Hnz.
  Qed.

  Lemma covariance_exact (s : sched (sched (list (list Q)))) :
    rows_of s <> [] -> forall i j, (i < n)%nat -> (j < n)%nat ->
    mat_nth (covariance n s) i j == cov_of (map (fun r => (nth i r 0, nth j r 0)) (rows_of s)).
  Proof.
    intros Hn i j Hi Hj. unfold covariance, covariance_with. fold comb.
    destruct (analyze_rep comb Rcov (fun _ => True) Rcov_create Rcov_add Rcov_merge s) as (a & (H1 & H2 & H3) & ->).
    { apply Forall_forall. intros; exact I. }
    fold (rows_of s) in *.
    assert (HL : (0 < Z.of_nat (length (rows_of s)))%Z) by (destruct (rows_of s); [congruence|cbn; lia]).
    pose proof (inject_Z_nonzero _ HL) as Hnz.
    cbn [extract_output comb cov_combiner]. unfold cov_extract.
    destruct (Qeq_bool (cov_count a) 0) eqn:E.
    { apply Qeq_bool_eq in E. rewrite H3 in E. contradiction. }
    rewrite mat_of_nth by assumption.
    rewrite cov_moments by (destruct (rows_of s); [congruence|discriminate]).
    rewrite H1, !H2, H3 by assumption. unfold mean_of, q_len.
    rewrite !map_map, !map_length. cbn [fst snd]. reflexivity.
  Qed.

  Lemma covariance_empty (s : sched (sched (list (list Q)))) :
    rows_of s = [] -> forall i j, (i < n)%nat -> (j < n)%nat -> mat_nth (covariance n s) i j = 0.
  Proof.
    intros Hn i j Hi Hj. unfold covariance, covariance_with. fold comb.
    destruct (analyze_rep comb Rcov (fun _ => True) Rcov_create Rcov_add Rcov_merge s) as (a & (H1 & H2 & H3) & ->).
    { apply Forall_forall. intros; exact I. }
    fold (rows_of s) in *. rewrite Hn in H3. cbn in H3.
    cbn [extract_output comb cov_combiner]. unfold cov_extract.
    destruct (Qeq_bool (cov_count a) 0) eqn:E.
    - apply mat_of_nth; assumption.
    - apply Qeq_bool_neq in E. contradiction.
  Qed.
End cov.
