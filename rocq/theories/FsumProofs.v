(** Proofs about tft.sum of floats. *)
From Coq Require Import List ZArith Reals Permutation Bool Lra Lia.
From Flocq Require Import Core BinarySingleNaN Plus_error Relative.
From Verif Require Import CombineModel CombineProofs IeeeModel IeeeSpec IeeeProofs IeeeScaleProofs FsumModel FsumSpec.
Import ListNotations.
Local Open Scope R_scope.

Local Existing Instance prec32.
Local Existing Instance emax32.
Local Notation bp := (bpow radix2).
Local Notation rnd := single.

(** Sums in which accumulators equal to the default may have been left out. *)
Inductive sum_of : list f32 -> f32 -> Prop :=
| so_nil : sum_of [] zero32
| so_one x : sum_of [x] x
| so_app a b s t : sum_of a s -> sum_of b t -> sum_of (a ++ b) (add32 s t)
| so_perm a b s : Permutation a b -> sum_of a s -> sum_of b s
| so_drop a b s t : sum_of a s -> is_default32 s = true -> sum_of b t -> sum_of (a ++ b) t.

Lemma adds_sum_of l s : adds l s -> sum_of l s.
Proof. induction 1; econstructor; eassumption. Qed.

Lemma map_eq_app' {A B} (f : A -> B) l a b : map f l = a ++ b ->
  exists l1 l2, l = l1 ++ l2 /\ map f l1 = a /\ map f l2 = b.
Proof.
  revert l. induction a as [|x a IH]; intros l E.
  - exists [], l. auto.
  - destruct l as [|y l]; cbn in E; [discriminate|]. injection E as E1 E2.
    destruct (IH _ E2) as (l1 & l2 & Q1 & Q2 & Q3). exists (y :: l1), l2. cbn. subst. auto.
Qed.

Lemma concat_perm {A} (l l' : list (list A)) : Permutation l l' -> Permutation (concat l) (concat l').
Proof.
  induction 1; cbn.
  - constructor.
  - apply Permutation_app_head. assumption.
  - rewrite !app_assoc. apply Permutation_app_tail, Permutation_app_comm.
  - eapply perm_trans; eassumption.
Qed.

(** Adding up accumulators. *)
Lemma adds_combine l s : adds l s -> forall ps, map snd ps = l ->
  Forall (fun p : list f32 * f32 => sum_of (fst p) (snd p)) ps -> sum_of (concat (map fst ps)) s.
Proof.
  induction 1 as [|x|a b s t Ha IHa Hb IHb|a b s P Ha IHa]; intros ps E F.
  - destruct ps; [|discriminate]. constructor.
  - destruct ps as [|p [|? ?]]; try discriminate. cbn in *. injection E as E. inversion F; subst.
    rewrite app_nil_r. assumption.
  - apply map_eq_app' in E as (l1 & l2 & -> & E1 & E2). apply Forall_app in F as [F1 F2].
    rewrite map_app, concat_app. constructor; auto.
  - subst. apply Permutation_map_inv in P as (l & E & P).
    eapply so_perm; [|apply (IHa l)].
    + apply concat_perm, Permutation_map. apply Permutation_sym. exact P.
    + symmetry. exact E.
    + rewrite Forall_forall in *. intros p Hp. apply F. eapply Permutation_in; [apply Permutation_sym, P|exact Hp].
Qed.

Section fsum.
  Variable reduce_sum np_sum : list f32 -> f32.
  Hypothesis Hred : forall l, adds l (reduce_sum l).
  Hypothesis Hnp : forall l, adds l (np_sum l).

  Lemma np_two a b s t : sum_of a s -> sum_of b t -> sum_of (a ++ b) (np_sum [s; t]).
  Proof.
    intros Ha Hb. pose proof (adds_combine _ _ (Hnp [s; t]) [(a, s); (b, t)] eq_refl) as H. cbn in H.
    rewrite app_nil_r in H. apply H. constructor; [exact Ha|]. constructor; [exact Hb|constructor].
  Qed.

  Lemma filter_sum ps : Forall (fun p : list f32 * f32 => sum_of (fst p) (snd p)) ps ->
    exists d ks, Permutation (concat (map fst ps)) (concat (map fst d) ++ concat (map fst ks))
      /\ Forall (fun p => sum_of (fst p) (snd p) /\ is_default32 (snd p) = true) d
      /\ Forall (fun p => sum_of (fst p) (snd p)) ks
      /\ map snd ks = filter (fun a => negb (is_default32 a)) (map snd ps).
  Proof.
    induction 1 as [|p ps Hp _ (d & ks & P & D & K & E)]; cbn.
    - exists [], []. cbn. auto.
    - destruct (is_default32 (snd p)) eqn:Q; cbn.
      + exists (p :: d), ks. cbn. rewrite <- app_assoc. auto 6 using Permutation_app_head.
      + exists d, (p :: ks). cbn. rewrite E. split; [|auto].
        eapply perm_trans; [apply Permutation_app_head, P|].
        rewrite !app_assoc. apply Permutation_app_tail, Permutation_app_comm.
  Qed.

  Lemma drop_all d b t : Forall (fun p => sum_of (fst p) (snd p) /\ is_default32 (snd p) = true) d ->
    sum_of b t -> sum_of (concat (map fst d) ++ b) t.
  Proof.
    induction 1 as [|p d [H1 H2] _ IH]; cbn; intro Hb; [exact Hb|].
    rewrite <- app_assoc. eapply so_drop; eauto.
  Qed.

  Lemma merge_ok ps : Forall (fun p : list f32 * f32 => sum_of (fst p) (snd p)) ps ->
    sum_of (concat (map fst ps)) (sum_merge np_sum (map snd ps)).
  Proof.
    intro H. destruct (filter_sum ps H) as (d & ks & P & D & K & E). unfold sum_merge. rewrite <- E.
    eapply so_perm; [apply Permutation_sym, P|]. apply drop_all; [exact D|].
    destruct ks as [|k ks]; cbn [map]; [constructor|].
    change (snd k :: map snd ks) with (map snd (k :: ks)). apply (adds_combine _ _ (Hnp (map snd (k :: ks))) (k :: ks)); auto.
  Qed.

  (** An accumulator of [ls], the batch sums, stands for values grouped into batches. *)
  Definition Rep (ls : list f32) (a : f32) : Prop :=
    forall vs, Forall2 (fun v s => sum_of v s) vs ls -> sum_of (concat vs) a.

  Lemma Forall2_app_r {A B} (R : A -> B -> Prop) l a b : Forall2 R l (a ++ b) ->
    exists l1 l2, l = l1 ++ l2 /\ Forall2 R l1 a /\ Forall2 R l2 b.
  Proof. intro H. apply Forall2_app_inv_r in H as (l1 & l2 & H1 & H2 & ->). eauto. Qed.

  Lemma sum32_rep (s : sched (sched (list f32))) : sum_of (concat (batches_of s)) (sum32 reduce_sum np_sum s).
  Proof.
    unfold sum32.
    destruct (analyze_rep (sum_combiner np_sum) Rep (fun _ => True)) with (s := map_sched (map_sched reduce_sum) s)
      as (a & H & E).
    - intros vs H. inversion H. constructor.
    - intros l a x _ H vs Hv. apply Forall2_app_r in Hv as (v1 & v2 & -> & H1 & H2).
      rewrite concat_app. inversion H2 as [|w ? ws ? Hw Hws]; subst. inversion Hws; subst. cbn.
      rewrite app_nil_r. unfold sum_add. destruct (is_default32 a) eqn:Q.
      + eapply so_drop; eauto.
      + apply np_two; auto.
    - intros ls ags _ H vs Hv. cbn.
      assert (G : exists ps, map snd ps = ags /\ concat vs = concat (map fst ps)
                /\ Forall (fun p : list f32 * f32 => sum_of (fst p) (snd p)) ps).
      { revert vs Hv. induction H as [|l a ls ags Hl _ IH]; cbn; intros vs Hv.
        - inversion Hv. exists []. auto.
        - apply Forall2_app_r in Hv as (v1 & v2 & -> & H1 & H2). destruct (IH _ H2) as (ps & E1 & E2 & F).
          exists ((concat v1, a) :: ps). cbn. rewrite E1, concat_app, E2. split; [reflexivity|]. split; [reflexivity|].
          constructor; [exact (Hl _ H1)|exact F]. }
      destruct G as (ps & <- & -> & F). apply merge_ok. exact F.
    - apply Forall_forall. auto.
    - rewrite E. cbn. apply H.
      assert (G : batches_of (map_sched (map_sched reduce_sum) s) = map reduce_sum (batches_of s)).
      { unfold batches_of. rewrite elements_map. generalize (elements s). intro l.
        induction l as [|x l IH]; cbn; [reflexivity|]. rewrite IH, elements_map, map_app. reflexivity. }
      rewrite G. clear - Hred. generalize (batches_of s). intro l. induction l as [|x l IH]; cbn; constructor; auto.
      apply adds_sum_of, Hred.
  Qed.
End fsum.

(** * Rounding errors *)

Lemma default_zero a : is_default32 a = true -> is_finite a = true /\ B2R a = 0.
Proof.
  unfold is_default32. destruct a as [s|s| |s m e H]; cbn; try discriminate; auto.
  - destruct s; discriminate.
  - destruct s; discriminate.
Qed.

Lemma total_app a b : total (a ++ b) = total a + total b.
Proof. unfold total. induction a as [|x a IH]; cbn; [lra|]. rewrite IH. lra. Qed.

Lemma magnitude_app a b : magnitude (a ++ b) = magnitude a + magnitude b.
Proof. unfold magnitude. induction a as [|x a IH]; cbn; [lra|]. rewrite IH. lra. Qed.

Lemma total_perm a b : Permutation a b -> total a = total b.
Proof. unfold total. induction 1; cbn; lra. Qed.

Lemma magnitude_perm a b : Permutation a b -> magnitude a = magnitude b.
Proof. unfold magnitude. induction 1; cbn; lra. Qed.

Lemma magnitude_pos l : 0 <= magnitude l.
Proof. unfold magnitude. induction l as [|x l IH]; cbn; [lra|]. pose proof (Rabs_pos (B2R x)). lra. Qed.

Lemma total_le l : Rabs (total l) <= magnitude l.
Proof.
  unfold magnitude, total. induction l as [|x l IH]; cbn; [rewrite Rabs_R0; lra|].
  eapply Rle_trans; [apply Rabs_triang|]. lra.
Qed.

Lemma finite_app a b : all_finite32 (a ++ b) <-> all_finite32 a /\ all_finite32 b.
Proof.
  unfold all_finite32. split.
  - intro H. split; intros x Hx; apply H, in_or_app; auto.
  - intros [H1 H2] x Hx. apply in_app_or in Hx as [Hx|Hx]; auto.
Qed.

Lemma finite_perm a b : Permutation a b -> all_finite32 b -> all_finite32 a.
Proof. intros P H x Hx. apply H. eapply Permutation_in; eassumption. Qed.

Definition u : R := / 16777216.

Lemma upow_ge n : 1 <= (1 + u) ^ n.
Proof. apply pow_R1_Rle. unfold u. lra. Qed.

Lemma upow_mono n m : (n <= m)%nat -> (1 + u) ^ n <= (1 + u) ^ m.
Proof. intro H. apply Rle_pow; [unfold u; lra|exact H]. Qed.

(** (1+u)^n <= 1 + 2nu while nu <= 1/2. *)
Lemma upow_lin n : INR n * u <= / 2 -> (1 + u) ^ n <= 1 + 2 * INR n * u.
Proof.
  induction n as [|n IH]; intro H; [cbn; lra|].
  rewrite S_INR in *. assert (G : INR n * u <= / 2) by (unfold u in *; lra). specialize (IH G).
  cbn [pow]. pose proof (pos_INR n).
  assert (0 < u) by (unfold u; lra).
  apply Rle_trans with ((1 + u) * (1 + 2 * INR n * u)); [apply Rmult_le_compat_l; lra|].
  assert (2 * INR n * u * u <= u) by nra. nra.
Qed.

Lemma add_rel (x y : f32) : exists eps, Rabs eps <= u /\ rnd (B2R x + B2R y) = (B2R x + B2R y) * (1 + eps).
Proof.
  destruct (FLT_plus_error_N_ex radix2 (-149) 24 (fun z => negb (Z.even z)) (B2R x) (B2R y))
    as (eps & E & Q).
  - apply (generic_format_B2R 24 128).
  - apply (generic_format_B2R 24 128).
  - exists eps. split; [|exact Q].
    eapply Rle_trans; [exact E|]. unfold u_ro, u. simpl. lra.
Qed.

Lemma bounded_127 a : Rabs a <= bp 127 -> Rabs (rnd a) < bp 128.
Proof.
  intro H. eapply Rle_lt_trans; [apply (rnd_abs_bpow a 127); [lia | exact H]|]. apply bpow_lt. lia.
Qed.

Lemma close_abs s t m k : Rabs t <= m -> Rabs (s - t) <= (k - 1) * m -> Rabs s <= k * m.
Proof.
  intros H1 H2. replace s with (t + (s - t)) by ring. eapply Rle_trans; [apply Rabs_triang|].
  replace (k * m) with (m + (k - 1) * m) by ring. lra.
Qed.

Lemma sum_of_error l s : sum_of l s -> all_finite32 l -> (length l <= 2 ^ 23)%nat -> magnitude l <= bp 126 ->
  is_finite s = true /\ Rabs (B2R s - total l) <= ((1 + u) ^ length l - 1) * magnitude l.
Proof.
  assert (P23 : INR (2 ^ 23) * u <= / 2).
  { rewrite <- (Nat2Z.id (2 ^ 23)), INR_IZR_INZ, Z2Nat.id by lia. rewrite Nat2Z.inj_pow. unfold u. simpl. lra. }
  induction 1 as [|x|a b s t Ha IHa Hb IHb|a b s P Ha IHa|a b s t Ha IHa D Hb IHb]; intros F L M.
  - split; [reflexivity|]. change (B2R zero32) with 0. cbn. rewrite Rminus_0_r, Rabs_R0. lra.
  - split; [apply F; left; reflexivity|]. cbn. rewrite Rplus_0_r, Rminus_diag_eq, Rabs_R0 by reflexivity.
    pose proof (Rabs_pos (B2R x)). assert (0 <= (1 + u) * 1 - 1) by (unfold u; lra). nra.
  - apply finite_app in F as [Fa Fb]. rewrite app_length in L |- *. rewrite magnitude_app in M |- *.
    rewrite total_app. pose proof (magnitude_pos a) as Pa. pose proof (magnitude_pos b) as Pb.
    destruct IHa as [F1 E1]; [exact Fa|lia|lra|]. destruct IHb as [F2 E2]; [exact Fb|lia|lra|].
    set (n := length a) in *. set (m := length b) in *.
    assert (K : (1 + u) ^ (n + m) <= 2).
    { eapply Rle_trans; [apply (upow_mono _ (2 ^ 23)); lia|].
      eapply Rle_trans; [apply upow_lin, P23|]. lra. }
    assert (B1 : Rabs (B2R s) <= (1 + u) ^ n * magnitude a) by (eapply close_abs; [apply total_le|exact E1]).
    assert (B2 : Rabs (B2R t) <= (1 + u) ^ m * magnitude b) by (eapply close_abs; [apply total_le|exact E2]).
    pose proof (upow_mono n (n + m) ltac:(lia)) as Un. pose proof (upow_mono m (n + m) ltac:(lia)) as Um.
    assert (SB : Rabs (B2R s + B2R t) <= (1 + u) ^ (n + m) * (magnitude a + magnitude b)).
    { eapply Rle_trans; [apply Rabs_triang|]. nra. }
    destruct (add_ok s t F1 F2) as [Q1 Q2].
    { apply bounded_127. eapply Rle_trans; [exact SB|].
      change (bp 127) with (2 * bp 126). pose proof (bpow_ge_0 radix2 126). nra. }
    split; [exact Q1|]. rewrite Q2.
    destruct (Nat.eq_dec n 0) as [Z1|N1].
    { (* nothing on the left *)
      assert (Ea : a = []) by (destruct a; [reflexivity|discriminate]). subst a. cbn in E1, B1 |- *.
      assert (Zs : B2R s = 0).
      { destruct (Req_dec (B2R s) 0) as [|N]; [assumption|]. apply Rabs_pos_lt in N. lra. }
      rewrite Zs, Rplus_0_l, rnd_B2R. rewrite !Rplus_0_l. exact E2. }
    destruct (Nat.eq_dec m 0) as [Z2|N2].
    { assert (Eb : b = []) by (destruct b; [reflexivity|discriminate]). subst b. cbn in E2, B2 |- *.
      assert (Zs : B2R t = 0).
      { destruct (Req_dec (B2R t) 0) as [|N]; [assumption|]. apply Rabs_pos_lt in N. lra. }
      rewrite Zs, Rplus_0_r, rnd_B2R. rewrite !Rplus_0_r. rewrite Nat.add_0_r. exact E1. }
    destruct (add_rel s t) as (eps & He & Heq). rewrite Heq.
    replace ((B2R s + B2R t) * (1 + eps) - (total a + total b))
      with ((B2R s - total a) * (1 + eps) + eps * total a + ((B2R t - total b) * (1 + eps) + eps * total b)) by ring.
    assert (O : Rabs (1 + eps) <= 1 + u).
    { eapply Rle_trans; [apply Rabs_triang|]. rewrite Rabs_R1. lra. }
    assert (Up : 0 < u) by (unfold u; lra).
    assert (S1 : forall (v w mm : R) k, (k + 1 <= n + m)%nat -> 0 <= mm -> Rabs w <= mm ->
              Rabs (v - w) <= ((1 + u) ^ k - 1) * mm ->
              Rabs ((v - w) * (1 + eps) + eps * w) <= ((1 + u) ^ (n + m) - 1) * mm).
    { intros v w mm k Hk Hm Hw Hv. eapply Rle_trans; [apply Rabs_triang|]. rewrite !Rabs_mult.
      pose proof (upow_mono (k + 1) (n + m) Hk) as U. rewrite Nat.add_1_r in U. cbn [pow] in U.
      pose proof (upow_ge k). pose proof (Rabs_pos (v - w)). pose proof (Rabs_pos w).
      pose proof (Rabs_pos eps). pose proof (Rabs_pos (1 + eps)).
      assert (Rabs (v - w) * Rabs (1 + eps) <= ((1 + u) ^ k - 1) * mm * (1 + u)) by (apply Rmult_le_compat; assumption).
      assert (Rabs eps * Rabs w <= u * mm) by (apply Rmult_le_compat; assumption).
      apply Rle_trans with (((1 + u) * (1 + u) ^ k - 1) * mm); [nra|]. apply Rmult_le_compat_r; lra. }
    eapply Rle_trans; [apply Rabs_triang|].
    pose proof (S1 (B2R s) (total a) (magnitude a) n ltac:(lia) Pa (total_le a) E1).
    pose proof (S1 (B2R t) (total b) (magnitude b) m ltac:(lia) Pb (total_le b) E2). lra.
  - rewrite <- (Permutation_length P) in *. rewrite <- (magnitude_perm _ _ P) in *. rewrite <- (total_perm _ _ P).
    apply IHa; auto. eapply finite_perm; eassumption.
  - apply finite_app in F as [Fa Fb]. rewrite app_length in L |- *. rewrite magnitude_app in M |- *.
    rewrite total_app. pose proof (magnitude_pos a) as Pa. pose proof (magnitude_pos b) as Pb.
    destruct IHa as [F1 E1]; [exact Fa|lia|lra|]. destruct IHb as [F2 E2]; [exact Fb|lia|lra|].
    split; [exact F2|]. apply default_zero in D as [_ D]. rewrite D in E1.
    pose proof (upow_mono (length a) (length a + length b) ltac:(lia)).
    pose proof (upow_mono (length b) (length a + length b) ltac:(lia)).
    replace (B2R t - (total a + total b)) with ((0 - total a) + (B2R t - total b)) by ring.
    eapply Rle_trans; [apply Rabs_triang|]. nra.
Qed.

Lemma error_lin n : (n <= 2 ^ 23)%nat -> (1 + u) ^ n - 1 <= INR n * bp (-23).
Proof.
  intro L. assert (P23 : INR (2 ^ 23) * u <= / 2).
  { rewrite <- (Nat2Z.id (2 ^ 23)), INR_IZR_INZ, Z2Nat.id by lia. rewrite Nat2Z.inj_pow. unfold u. simpl. lra. }
  apply le_INR in L. assert (Up : 0 < u) by (unfold u; lra).
  pose proof (upow_lin n ltac:(nra)). change (bp (-23)) with (/ 8388608). unfold u in *. lra.
Qed.

(** * Sums without rounding *)
Definition on_grid (e : Z) (r : R) : Prop := exists z, r = IZR z * bp e.

Lemma grid_format e r : (-149 <= e <= 103)%Z -> on_grid e r -> Rabs r <= IZR (2 ^ 24) * bp e -> rnd r = r /\ Rabs r < bp 128.
Proof.
  intros He [z ->] H. split.
  - rewrite Rabs_mult, (Rabs_pos_eq (bp e)) in H by apply bpow_ge_0.
    apply Rmult_le_reg_r in H; [|apply bpow_gt_0]. rewrite <- abs_IZR in H. apply le_IZR in H.
    destruct (Z.eq_dec (Z.abs z) (2 ^ 24)) as [E|N].
    + assert (Q : z = (2 ^ 24)%Z \/ z = (- 2 ^ 24)%Z) by lia.
      replace (IZR (2 ^ 24)) with (bp 24) in * by reflexivity. destruct Q as [-> | ->].
      * change (IZR (2 ^ 24)) with (bp 24). rewrite <- bpow_plus. apply rnd_bpow. lia.
      * rewrite opp_IZR. change (IZR (2 ^ 24)) with (bp 24).
        rewrite Ropp_mult_distr_l_reverse, <- bpow_plus, rnd_opp. rewrite rnd_bpow by lia. reflexivity.
    + unfold single. apply round_generic; auto with typeclass_instances.
      apply generic_format_FLT. exists (Float radix2 z e); cbn; [reflexivity|lia|lia].
  - eapply Rle_lt_trans; [exact H|]. change (IZR (2 ^ 24)) with (bp 24). rewrite <- bpow_plus. apply bpow_lt. lia.
Qed.

Lemma sum_of_exact e l s : (-149 <= e <= 103)%Z -> sum_of l s -> all_finite32 l ->
  (forall x, In x l -> on_grid e (B2R x)) -> magnitude l <= IZR (2 ^ 24) * bp e ->
  is_finite s = true /\ B2R s = total l /\ on_grid e (B2R s).
Proof.
  intro He. induction 1 as [|x|a b s t Ha IHa Hb IHb|a b s P Ha IHa|a b s t Ha IHa D Hb IHb]; intros F G M.
  - change (B2R zero32) with 0. repeat split; auto. exists 0%Z. rewrite Rmult_0_l. reflexivity.
  - repeat split; [apply F; left; reflexivity|cbn; rewrite Rplus_0_r; reflexivity|apply G; left; reflexivity].
  - apply finite_app in F as [Fa Fb]. rewrite magnitude_app in M. rewrite total_app.
    pose proof (magnitude_pos a) as Pa. pose proof (magnitude_pos b) as Pb.
    destruct IHa as (F1 & E1 & G1); [exact Fa|intros; apply G, in_or_app; auto|lra|].
    destruct IHb as (F2 & E2 & G2); [exact Fb|intros; apply G, in_or_app; auto|lra|].
    assert (GS : on_grid e (B2R s + B2R t)).
    { destruct G1 as [z1 ->], G2 as [z2 ->]. exists (z1 + z2)%Z. rewrite plus_IZR. ring. }
    destruct (grid_format e (B2R s + B2R t)) as [R1 R2]; [exact He|exact GS| |].
    { eapply Rle_trans; [apply Rabs_triang|]. rewrite E1, E2. pose proof (total_le a). pose proof (total_le b). lra. }
    destruct (add_ok s t F1 F2) as [Q1 Q2]; [rewrite R1; exact R2|].
    rewrite Q2, R1. repeat split; [exact Q1|lra|exact GS].
  - rewrite <- (magnitude_perm _ _ P) in *. rewrite <- (total_perm _ _ P). apply IHa; auto.
    + eapply finite_perm; eassumption.
    + intros x Hx. apply G. eapply Permutation_in; eassumption.
  - apply finite_app in F as [Fa Fb]. rewrite magnitude_app in M. rewrite total_app.
    pose proof (magnitude_pos a) as Pa. pose proof (magnitude_pos b) as Pb.
    destruct IHa as (F1 & E1 & G1); [exact Fa|intros; apply G, in_or_app; auto|lra|].
    destruct IHb as (F2 & E2 & G2); [exact Fb|intros; apply G, in_or_app; auto|lra|].
    apply default_zero in D as [_ D]. repeat split; [exact F2|lra|exact G2].
Qed.

(** * NaN *)
Lemma add_nan_l t : add32 nan32 t = nan32.
Proof. destruct t; reflexivity. Qed.
Lemma add_nan_r t : add32 t nan32 = nan32.
Proof. destruct t; reflexivity. Qed.

Lemma sum_of_nan l s : sum_of l s -> In nan32 l -> s = nan32.
Proof.
  induction 1 as [|x|a b s t Ha IHa Hb IHb|a b s P Ha IHa|a b s t Ha IHa D Hb IHb]; intro H.
  - destruct H.
  - destruct H as [H|[]]. exact H.
  - apply in_app_or in H as [H|H]; [rewrite (IHa H); apply add_nan_l|rewrite (IHb H); apply add_nan_r].
  - apply IHa. eapply Permutation_in; [apply Permutation_sym|]; eassumption.
  - apply in_app_or in H as [H|H]; [|auto]. rewrite (IHa H) in D. discriminate.
Qed.
