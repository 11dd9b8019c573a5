(** Accumulators of one key: batches without a value among them. *)
From Coq Require Import List ZArith Reals Bool Permutation Lra Lia.
From Flocq Require Import Core BinarySingleNaN.
From Verif Require Import CombineModel CombineProofs IeeeModel IeeeSpec IeeeProofs FsumSpec FsumProofs
  FmvModel FmvSpec FmvFloat FmvFormulas FmvProofs FmvBatch FmvAccuracy FzkModel FzkBatch.
Import ListNotations.
Local Open Scope R_scope.
Local Notation bp := (bpow radix2).
Local Existing Instance prec64.
Local Existing Instance emax64.
Local Existing Instance prec32.
Local Existing Instance emax32.

Lemma null_zero (x : f32) : null x -> exists b, x = B754_zero b.
Proof.
  intros [F E]. destruct x as [b|b| |b m e H]; try discriminate F; [eauto|]. exfalso. cbn in E. apply eq_0_F2R in E. cbn in E. destruct b; discriminate.
Qed.

Lemma sub_null (m0 x : f32) : null m0 -> is_finite x = true -> widen (sub32 m0 x) = sub64 (widen m0) (widen x).
Proof.
  intros N Fx. destruct (null_zero m0 N) as [b ->]. destruct x as [s|s| |s m e H]; try discriminate Fx.
  - destruct b, s; reflexivity.
  - destruct (widen_ok (B754_finite s m e H) eq_refl) as [F1 E1].
    destruct (widen_ok (B754_finite (negb s) m e H) eq_refl) as [F2 E2].
    change (sub32 (B754_zero b) (B754_finite s m e H)) with (B754_finite (negb s) m e H).
    set (y := widen (B754_finite s m e H)) in *. set (z := widen (B754_finite (negb s) m e H)) in *. cbn [widen].
    assert (NZ : B2R (B754_finite s m e H) <> 0) by (cbn; intro Q; apply eq_0_F2R in Q; cbn in Q; destruct s; discriminate).
    assert (OP : B2R z = - B2R y) by (rewrite E1, E2; cbn [B2R]; rewrite <- F2R_Zopp; destruct s; reflexivity).
    clearbody y z. rewrite <- E1 in NZ. destruct y as [s'|s'| |s' m' e' H']; try discriminate F1; [cbn in NZ; lra|].
    change (sub64 (B754_zero b) (B754_finite s' m' e' H')) with (Bopp (B754_finite s' m' e' H')).
    apply B2R_inj; [| |rewrite B2R_Bopp; exact OP].
    + destruct z; try discriminate F2; [exfalso; apply NZ; change (0 = - B2R (B754_finite s' m' e' H')) in OP; lra|reflexivity].
    + reflexivity.
Qed.

(** An accumulator or batch without a value, before anything is combined. *)
Definition blank (a : fmv) : Prop := exists c m v, a = FMV (D64 c) (S32 m) (S32 v) /\ null m /\ null v.
(** What a batch gives for a key. *)
Definition keyed_batch (a : fmv) : Prop := exists c m v, a = FMV (D64 c) (S32 m) (S32 v).

Definition widen_blank (a : fmv) : fmv := FMV (f_count a) (D64 (as_f64 (f_mean a))) (D64 (as_f64 (f_var a))).

Lemma null_clean m : null m -> clean prec32 emax32 m = m /\ clean prec64 emax64 (widen m) = widen m.
Proof. intros [F E]. split; [apply clean_id32, F|apply clean_id64, widen_ok, F]. Qed.

Lemma blank_formulas a b : blank a -> keyed_batch b ->
  fmv_formulas (make_nan_to_num b) (make_nan_to_num a) = fmv_formulas (make_nan_to_num b) (make_nan_to_num (widen_blank a)).
Proof.
  intros (c & m & v & -> & Nm & Nv) (c' & m' & v' & ->). unfold widen_blank, make_nan_to_num.
  cbn [f_count f_mean f_var np_nan_to_num as_f64].
  destruct (null_clean m Nm) as [-> ->]. destruct (null_clean v Nv) as [-> ->].
  unfold fmv_formulas. cbn [f_count f_mean f_var np_add np_sub np_mul np_div np_op as_f64].
  unfold np_add, np_sub, np_mul, np_div. cbn [np_op as_f64].
  rewrite !(sub_null m) by (exact Nm || apply clean_fin32). rewrite !(sub_null v) by (exact Nv || apply clean_fin32). reflexivity.
Qed.

Lemma blank_rep K n a : blank a -> Rep K n a -> Rep K n (widen_blank a) /\ mean_of (widen_blank a) = mean_of a /\ var_of (widen_blank a) = var_of a.
Proof.
  intros (c & m & v & -> & Nm & Nv) [A B C D E F]. unfold widen_blank, mean_of, var_of in *.
  cbn [f_count f_mean f_var np_nan_to_num as_f64] in *.
  destruct (null_clean m Nm) as [Em Em']. destruct (null_clean v Nv) as [Ev Ev']. rewrite ?Em', ?Ev', ?Em, ?Ev in *.
  split; [|split; reflexivity]. constructor; unfold mean_of, var_of; cbn [f_count f_mean f_var np_nan_to_num as_f64]; rewrite ?Em', ?Ev'; auto.
Qed.

Section schedules.
  Variable f : list f32 -> fmv.
  Variable K : R.
  Hypothesis K_ok : 0 <= K <= bp 128.
  Notation cnt := FmvProofs.cnt.

  (** What is asked of a batch. *)
  Definition okk (xs : list f32) : Prop := okb f K xs /\ keyed_batch (f xs) /\ (values_in xs = 0%Z -> blank (f xs)).

  Lemma pre_zero la lb a b c : pre f K la a -> pre f K lb b -> cnt la = 0%Z -> cnt lb = 0%Z -> Rep K 0 c -> pre f K (la ++ lb) c.
  Proof.
    intros [RA EA GA CA MA] [RB EB GB CB MB] Za Zb RC. assert (C0 : cnt (la ++ lb) = 0%Z) by (rewrite cnt_app, Za, Zb; reflexivity).
    constructor; rewrite ?C0.
    - exact RC.
    - rewrite wsum_app. rewrite Za in EA. rewrite Zb in EB. rewrite !Rmult_0_r, Rminus_0_l, Rabs_Ropp in EA, EB |- *.
      eapply Rle_trans; [apply Rabs_triang|]. lra.
    - lia.
    - intros c0 _. apply (r_empty _ _ _ RC eq_refl).
    - intros V Q MV Q0 F B. apply Forall_app in F as [FA FB]. rewrite app_length, plus_INR in B. destruct (moderate_pos K V MV) as [_ S2].
      assert (PLa := pos_INR (length la)). assert (PLb := pos_INR (length lb)).
      assert (BA : Q + INR (length la) * step_error2 K V <= V) by nra.
      assert (BB : Q + INR (length lb) * step_error2 K V <= V) by nra.
      specialize (MA V Q MV Q0 FA BA). specialize (MB V Q MV Q0 FB BB). rewrite Za in MA. rewrite Zb in MB.
      rewrite msum_app. rewrite !Rmult_0_r, Rminus_0_l, Rabs_Ropp in MA, MB |- *. eapply Rle_trans; [apply Rabs_triang|]. lra.
  Qed.

  Lemma pre_same l a b : pre f K l a -> Rep K (cnt l) b -> mean_of b = mean_of a -> var_of b = var_of a -> pre f K l b.
  Proof.
    intros [RA EA GA CA MA] RB Em Ev. constructor.
    - exact RB.
    - rewrite Em. exact EA.
    - intros. rewrite Em. auto.
    - intros. rewrite Ev. eauto.
    - intros. unfold moment. rewrite Em, Ev. apply (MA V Q); auto.
  Qed.

  Definition done (l : list (list f32)) (a : fmv) : Prop := (wide a /\ raw a) \/ (cnt l = 0%Z /\ blank a).

  Lemma combine_zero na nb a b : Rep K na a -> Rep K nb b -> na = 0%Z -> nb = 0%Z -> fmv_combine a b = make_nan_to_num b.
  Proof.
    intros RA RB -> ->. unfold fmv_combine. cbv zeta. rewrite (Bltb_counts K 0 0) by (apply rep_clean; assumption). cbn [Z.ltb Z.compare].
    rewrite (Beqb_count K 0) by (apply rep_clean; assumption). reflexivity.
  Qed.

  Lemma blank_clean a : blank a -> blank (make_nan_to_num a).
  Proof.
    intros (c & m & v & -> & Nm & Nv). exists c, m, v. unfold make_nan_to_num. cbn [np_nan_to_num f_count f_mean f_var].
    destruct (null_clean m Nm) as [-> _]. destruct (null_clean v Nv) as [-> _]. auto.
  Qed.

  Lemma combine_blank a b n : blank a -> keyed_batch b -> Rep K 0 a -> Rep K n b -> (0 < n)%Z -> fmv_combine a b = fmv_combine (widen_blank a) b.
  Proof.
    intros BA KB RA RB N. destruct (blank_rep K 0 a BA RA) as (RA' & _ & _). unfold fmv_combine. cbv zeta.
    rewrite !(Bltb_counts K 0 n) by (apply rep_clean; assumption). replace (0 <? n)%Z with true by (symmetry; apply Z.ltb_lt; exact N).
    rewrite (Beqb_count K n) by (apply rep_clean; assumption). destruct (Z.eqb_spec n 0) as [E|E]; [lia|]. apply blank_formulas; assumption.
  Qed.

  (** Combining two accumulators, or an accumulator and a batch. *)
  Lemma pre_combine_any la lb a b : pre f K la a -> pre f K lb b -> done la a -> done lb b \/ (keyed_batch b /\ (cnt lb = 0%Z -> blank b)) ->
    (cnt (la ++ lb) <= 2 ^ 53)%Z -> pre f K (la ++ lb) (fmv_combine a b) /\ done (la ++ lb) (fmv_combine a b).
  Proof.
    intros PA PB DA DB T. pose proof (cnt_pos la) as CA. pose proof (cnt_pos lb) as CB. pose proof (cnt_app la lb) as CE.
    pose proof (p_rep _ _ _ _ PA) as RA. pose proof (p_rep _ _ _ _ PB) as RB.
    destruct (Z.eq_dec (cnt la + cnt lb) 0) as [Z0|Z0].
    - assert (Za : cnt la = 0%Z) by lia. assert (Zb : cnt lb = 0%Z) by lia.
      rewrite (combine_zero (cnt la) (cnt lb) a b RA RB Za Zb). rewrite Zb in RB. split.
      + apply (pre_zero la lb a b); auto. apply rep_clean, RB.
      + destruct DB as [[[W _]|[_ Bb]]|[_ H]].
        * left. split; [apply wide_clean, W|eapply raw_clean, RB].
        * right. split; [lia|apply blank_clean, Bb].
        * right. split; [lia|apply blank_clean, H, Zb].
    - assert (P0 : (0 < cnt (la ++ lb))%Z) by lia.
      assert (GO : wide a \/ wide b -> pre f K (la ++ lb) (fmv_combine a b) /\ done (la ++ lb) (fmv_combine a b)).
      { intro W. destruct (pre_combine f K K_ok la lb a b PA PB W T (or_introl P0)) as (P & W' & R'). split; [exact P|left; auto]. }
      destruct DA as [[W _]|[Za Ba]]; [apply GO; left; exact W|].
      destruct DB as [[[W _]|[Zb _]]|[KB _]]; [apply GO; right; exact W|lia|].
      rewrite Za in RA. rewrite (combine_blank a b (cnt lb) Ba KB RA RB ltac:(lia)).
      destruct (blank_rep K 0 a Ba RA) as (RA' & Em & Ev).
      assert (PA' : pre f K la (widen_blank a)) by (apply (pre_same la a); auto; rewrite Za; exact RA').
      assert (W : wide (widen_blank a)) by (destruct Ba as (c & m & v & -> & _); exact Logic.I).
      destruct (pre_combine f K K_ok la lb (widen_blank a) b PA' PB (or_introl W) T (or_introl P0)) as (P & W' & R').
      split; [exact P|left; auto].
  Qed.

  Definition Inv (l : list (list f32)) (a : fmv) : Prop :=
    Forall okk l -> (cnt l <= 2 ^ 53)%Z -> pre f K l a /\ done l a.

  Lemma inv_create : Inv [] fmv_create.
  Proof.
    intros _ _. split; [apply pre_create, K_ok|]. left. split; [exact Logic.I|]. split; [reflexivity|]. left. split; [reflexivity|cbn; lra].
  Qed.

  Lemma inv_combine la lb a b : Inv la a -> Inv lb b -> Inv (la ++ lb) (fmv_combine a b).
  Proof.
    intros A B O T. apply Forall_app in O as [OA OB]. pose proof (cnt_app la lb). pose proof (cnt_pos la). pose proof (cnt_pos lb).
    destruct (A OA ltac:(lia)) as (PA & DA). destruct (B OB ltac:(lia)) as (PB & DB). apply pre_combine_any; auto.
  Qed.

  Lemma inv_batch l a xs : Inv l a -> Inv (l ++ [xs]) (fmv_combine a (f xs)).
  Proof.
    intros A O T. apply Forall_app in O as [OA OB]. pose proof (cnt_app l [xs]). pose proof (cnt_pos l). pose proof (cnt_pos [xs]).
    destruct (A OA ltac:(lia)) as (PA & DA). inversion OB as [|? ? [Ox [Kx Bx]] _]; subst.
    apply pre_combine_any; auto; [apply pre_batch; assumption|]. right. split; [exact Kx|]. intro C. apply Bx. cbn in C. lia.
  Qed.

  Lemma inv_merge ls accs : ls <> [] -> Forall2 Inv ls accs -> Inv (concat ls) (fmv_merge accs).
  Proof.
    intros N F. inversion F as [|l a ls' accs' H F' E1 E2]; subst; [contradiction|]. cbn [concat fmv_merge]. clear N F.
    revert l a H. induction F' as [|l' a' ls' accs' H' _ IH]; intros l a H; cbn [concat fold_left].
    - rewrite app_nil_r. exact H.
    - rewrite app_assoc. apply IH. apply inv_combine; assumption.
  Qed.

  Lemma inner_inv (s : sched (list f32)) : Inv (elements s) (run fmv_create (fun a xs => fmv_combine a (f xs)) fmv_merge s).
  Proof.
    apply (run_rep fmv_create (fun a xs => fmv_combine a (f xs)) fmv_merge Inv inv_create (fun _ => True)).
    - intros l a x _ Hl. apply inv_batch, Hl.
    - apply inv_merge.
    - apply Forall_forall. auto.
  Qed.

  Lemma whole_any (s : sched (sched (list f32))) : Inv (batches_of s) (whole f s).
  Proof.
    unfold batches_of, whole.
    apply (run_rep fmv_create (fun a x => fmv_combine a (run fmv_create (fun a xs => fmv_combine a (f xs)) fmv_merge x)) fmv_merge
             (fun ls a => Inv (flat_map elements ls) a) inv_create (fun _ => True)).
    - intros l a x _ Hl. rewrite flat_map_app. cbn [flat_map]. rewrite app_nil_r. apply inv_combine; [exact Hl|apply inner_inv].
    - intros ls accs N F.
      replace (flat_map elements (concat ls)) with (concat (map (flat_map elements) ls)).
      + apply inv_merge; [destruct ls; [contradiction|discriminate]|]. clear N. induction F; cbn; constructor; auto.
      + clear. induction ls as [|x ls IH]; cbn; [reflexivity|]. rewrite flat_map_app, IH. reflexivity.
    - apply Forall_forall. auto.
  Qed.
End schedules.

(** The batches of a key. *)
Section KeyBatch.
  Variable segment_sum : list f32 -> f32.
  Hypothesis segment_sum_adds : forall l, adds l (segment_sum l).

  Lemma key_keyed xs : keyed_batch (batch_fmv_key segment_sum xs).
  Proof. unfold batch_fmv_key. cbv zeta. unfold keyed_batch. eauto. Qed.

  Lemma key_blank xs : (Z.of_nat (length xs) <= 2 ^ 23)%Z -> values_in xs = 0%Z -> blank (batch_fmv_key segment_sum xs).
  Proof.
    intros L Z0. rewrite (key_eq segment_sum segment_sum_adds) by exact L. unfold var32, mean32. rewrite !divide_zero by exact Z0.
    eexists. eexists. eexists. split; [reflexivity|]. split; split; reflexivity.
  Qed.
End KeyBatch.
