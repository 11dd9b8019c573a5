From Coq Require Import String List ZArith Reals Bool Permutation Lra Lia.
From Flocq Require Import Core BinarySingleNaN.
From Verif Require Import CombineModel CombineProofs MeanVarModel MeanVarProofs PerKeyModel PerKeyProofs IeeeModel IeeeSpec IeeeProofs
  IeeeScaleProofs IeeeZProofs IeeeProps FsumSpec FsumProofs
  FmvModel FmvSpec FmvFloat FmvFormulas FmvProofs FmvBatch FmvAccuracy FzSpec FzProofs FzkModel FzkSpec FzkBatch FzkInv FzkGen.
Import ListNotations.
Local Open Scope R_scope.
Local Notation rnd := single.

(** * The entry of a key *)
Lemma entries {B O} (entry : sched (sched B) -> O) sch keys k (zeros : O -> O) : NoDup keys ->
  let (vocab, results) := per_key_analysis entry sch keys in
  (In k keys -> map_per_key zeros results vocab k = Some (entry (sch k))) /\
  (keys <> [] -> ~ In k keys -> exists o, map_per_key zeros results vocab k = Some (zeros o)).
Proof.
  intros ND. unfold per_key_analysis. pose proof (merge_outputs_spec (map (fun k0 => (k0, entry (sch k0))) keys)) as M.
  destruct (merge_outputs_by_key _) as [vocab results]. destruct M as (MP & ML & _).
  assert (PV : Permutation vocab keys).
  { apply (Permutation_map fst) in MP. rewrite map_map in MP. cbn in MP. rewrite map_id in MP.
    replace (map fst (combine vocab results)) with vocab in MP; [exact MP|].
    clear - ML. revert results ML. induction vocab as [|v vs IH]; intros [|r rs] E; try discriminate; [reflexivity|].
    cbn. f_equal. apply IH. cbn in E. lia. }
  assert (NDv : NoDup vocab) by (apply (Permutation_NoDup (l := keys)); [symmetry; exact PV|exact ND]).
  split.
  - intro Kin.
    assert (C : In (k, entry (sch k)) (combine vocab results)).
    { eapply Permutation_in; [symmetry; exact MP|]. apply in_map_iff. exists k. auto. }
    apply In_nth_error in C as (j & Cj).
    assert (Cj2 : nth_error vocab j = Some k /\ nth_error results j = Some (entry (sch k))).
    { clear - Cj. revert vocab results Cj. induction j as [|j IH]; intros [|v vs] [|r rs] E; try discriminate; cbn in *.
      - inversion E. auto.
      - apply IH. exact E. }
    destruct Cj2 as [Cv Cr].
    destruct (map_per_key_spec zeros results vocab k) as [H _]; [lia|exact NDv| |].
    { intros ->. destruct j; discriminate. }
    rewrite (H j Cv). exact Cr.
  - intros NE NI. destruct (map_per_key_spec zeros results vocab k) as [_ H]; [lia|exact NDv| |].
    { intros ->. apply Permutation_nil in PV. contradiction. }
    destruct H as (t0 & ->); [|eauto]. intro I. apply NI. eapply Permutation_in; eassumption.
Qed.

(** * The batches of a key *)
Lemma of_key_values k rows : of_key k rows = values_of k rows.
Proof.
  unfold of_key, values_of. f_equal. induction rows as [|r rows IH]; cbn; [reflexivity|]. rewrite IH, (String.eqb_sym (fst r) k). reflexivity.
Qed.

Lemma key_batches_filter k bs : key_batches k bs = map (values_of k) (filter (fun b => existsb (String.eqb k) (map fst b)) bs).
Proof.
  unfold key_batches. induction bs as [|b bs IH]; cbn [map filter]; [reflexivity|]. rewrite of_key_values at 1.
  assert (E : negb (Nat.eqb (length (values_of k b)) 0) = existsb (String.eqb k) (map fst b)).
  { unfold values_of. rewrite map_length. clear. induction b as [|r b IH]; cbn; [reflexivity|].
    destruct (String.eqb k (fst r)); cbn; [reflexivity|exact IH]. }
  rewrite E. destruct (existsb _ _); cbn [map]; rewrite IH; [rewrite of_key_values|]; reflexivity.
Qed.

Lemma concat_key_batches k bs : concat (key_batches k bs) = of_key k (concat bs).
Proof.
  unfold key_batches. induction bs as [|b bs IH]; cbn [map filter concat]; [reflexivity|].
  assert (E : of_key k (b ++ concat bs) = of_key k b ++ of_key k (concat bs)) by (unfold of_key; rewrite filter_app, map_app; reflexivity).
  rewrite E, <- IH.
  destruct (of_key k b); reflexivity.
Qed.

Lemma key_schedule {O} (g : list f32 -> O) k bs (s : sched (sched O)) :
  Permutation (batches_of s) (inputs_of_key k (map (reduce_per_key g) bs)) ->
  exists s', s = map_sched (map_sched g) s' /\ Permutation (batches_of s') (key_batches k bs).
Proof.
  intro HP. rewrite inputs_of_key_gen in HP. rewrite <- (map_map (values_of k) g) in HP.
  destruct (Permutation_map_inv g _ HP) as (ls & E & HL). destruct (batches_unmap g s ls E) as (s' & -> & Eb).
  exists s'. split; [reflexivity|]. rewrite Eb, key_batches_filter. symmetry. exact HL.
Qed.

(** * Sums and means do not depend on the order *)
Lemma sum_R_perm l l' : Permutation l l' -> sum_R l = sum_R l'.
Proof. unfold sum_R. induction 1; cbn [fold_right]; lra. Qed.
Lemma mean_R_perm l l' : Permutation l l' -> mean_R l = mean_R l'.
Proof. intro P. unfold mean_R. rewrite (sum_R_perm _ _ P), (Permutation_length P). reflexivity. Qed.
Lemma var_R_perm l l' : Permutation l l' -> var_R l = var_R l'.
Proof. intro P. unfold var_R. rewrite (mean_R_perm _ _ P). apply mean_R_perm. apply Permutation_map, P. Qed.
Lemma finite_values_perm l l' : Permutation l l' -> Permutation (finite_values l) (finite_values l').
Proof.
  intro P. unfold finite_values. apply Permutation_map. induction P; cbn; try (destruct (is_finite x)); try (destruct (is_finite y)); auto.
  - constructor.
  - eapply perm_trans; eassumption.
Qed.
Lemma concat_perm {X} (l l' : list (list X)) : Permutation l l' -> Permutation (concat l) (concat l').
Proof.
  induction 1 as [|x l1 l2 _ IH|x y l|l1 l2 l3 _ IH1 _ IH2]; cbn [concat]; [constructor|apply Permutation_app_head, IH| |etransitivity; eassumption].
  rewrite !app_assoc. apply Permutation_app_tail, Permutation_app_comm.
Qed.

(** * One key *)
Section OneKey.
  Variable segment_sum : list f32 -> f32.
  Hypothesis segment_sum_adds : forall l, adds l (segment_sum l).
  Notation kf := (batch_fmv_key segment_sum).
  Notation bp := (bpow radix2).
  Variable bs : list (list (string * f32)).
  Variable k : string.
  Variable s : sched (sched fmv).
  Hypothesis HP : Permutation (batches_of s) (inputs_of_key k (map (batch_fmv_per_key segment_sum) bs)).
  Hypothesis T : (Z.of_nat (length (of_key k (concat bs))) <= 2 ^ 53)%Z.

  Section Range.
    Variables (M : R) (B : Z).
    Hypothesis HB0 : (0 <= B <= 2 ^ 23)%Z.
    Hypothesis L : forall b, In b (key_batches k bs) -> (Z.of_nat (length b) <= B)%Z.
    Hypothesis HN : (Z.of_nat (length (key_batches k bs)) <= 2 ^ 40)%Z.
    Hypothesis HM : bp (-50) <= M <= bp 48.
    Hypothesis HX : forall x, In x (of_key k (concat bs)) -> is_finite x = true -> Rabs (B2R x) <= M.
    Hypothesis CV : forall b, In b (key_batches k bs) -> clear_variance B M b.

    Lemma key_output : let mv := key_mean_and_var32 s in let l := finite_values (of_key k (concat bs)) in
      is_finite (fst mv) = true /\
      Rabs (B2R (fst mv) - mean_R l) <= ((IZR B + 3) * / IZR (2 ^ 23) + INR (length (key_batches k bs)) * / IZR (2 ^ 48)) * M /\
      is_finite (snd mv) = true /\ 0 <= B2R (snd mv) /\
      Rabs (B2R (snd mv) - var_R l) <= ((28 * IZR B + 84) * / IZR (2 ^ 23) + INR (length (key_batches k bs)) * / IZR (2 ^ 40)) * (M * M).
    Proof.
      cbv zeta. destruct (key_schedule kf k bs s HP) as (s' & -> & PB). unfold key_mean_and_var32. rewrite analyze_whole. cbv zeta. cbn [fst snd].
      assert (PC : Permutation (concat (batches_of s')) (of_key k (concat bs))) by (rewrite <- concat_key_batches; apply concat_perm, PB).
      assert (IB : forall b, In b (batches_of s') -> In b (key_batches k bs)) by (intros b Hb; eapply Permutation_in; eassumption).
      assert (HBn : (Z.to_nat B <= 2 ^ 23)%nat) by (apply Nat2Z.inj_le; rewrite Nat2Z.inj_pow, Z2Nat.id by lia; apply HB0).
      assert (EB : INR (Z.to_nat B) = IZR B) by (rewrite INR_IZR_INZ, Z2Nat.id by lia; reflexivity).
      assert (HM1 : bp (-100) <= M <= bp 100).
      { pose proof (bpow_le radix2 (-100) (-50) ltac:(lia)). pose proof (bpow_le radix2 48 100 ltac:(lia)). lra. }
      assert (HL : forall b, In b (batches_of s') -> (length b <= Z.to_nat B)%nat).
      { intros b Hb. apply Nat2Z.inj_le. rewrite Z2Nat.id by lia. apply L, IB, Hb. }
      assert (L23 : forall b, In b (batches_of s') -> (Z.of_nat (length b) <= 2 ^ 23)%Z).
      { intros b Hb. specialize (L b (IB b Hb)). lia. }
      assert (HXb : forall b, In b (batches_of s') -> forall x, In x b -> is_finite x = true -> Rabs (B2R x) <= M).
      { intros b Hb x Hx. apply HX. eapply Permutation_in; [exact PC|]. apply in_concat. exists b. auto. }
      assert (BK : forall b, In b (batches_of s') -> keyed_batch (kf b) /\ (values_in b = 0%Z -> blank (kf b))).
      { intros b Hb. split; [apply key_keyed|apply key_blank; [exact segment_sum_adds|apply L23, Hb]]. }
      assert (BM : forall b, In b (batches_of s') ->
        Rabs (IZR (values_in b) * mean_of (kf b) - sum_R (finite_values b)) <= IZR (values_in b) * ((IZR B + 1) * bp (-23) * M + bp (-150)) /\
        Rabs (mean_of (kf b)) <= 3 * M).
      { intros b Hb. rewrite key_mean by (auto || exact segment_sum_adds). rewrite <- EB. apply batch_mean; auto. apply HXb, Hb. }
      assert (BR : forall b, In b (batches_of s') -> Rep (3 * M) (values_in b) (kf b)).
      { intros b Hb. apply key_rep; [exact segment_sum_adds|apply L23, Hb|apply BM, Hb|].
        destruct (Z.eq_dec (values_in b) 0) as [V0|V0]; [rewrite key_none by (exact segment_sum_adds || apply L23, Hb || exact V0); lra|].
        assert (VP : (0 < values_in b)%Z) by (unfold values_in in *; lia).
        destruct (CV b (IB b Hb)) as [C|C].
        - assert (V1 : values_in b = 1%Z).
          { unfold finite_values in C. rewrite map_length in C. unfold values_in in *. apply Nat2Z.inj_le in C. change (Z.of_nat 1) with 1%Z in C. apply Z.le_antisymm; [exact C|]. clear - VP. lia. }
          destruct (key_one segment_sum segment_sum_adds M b HM (L23 b Hb) (HXb b Hb) V1) as [_ ->]. lra.
        - pose proof (key_var_close segment_sum segment_sum_adds M (Z.to_nat B) b HM HBn (HL b Hb) (HXb b Hb) VP) as KC.
          rewrite EB in KC. change (/ IZR (2 ^ 23)) with (bp (-23)) in C. apply Rabs_le_inv in KC. lra. }
      assert (HN' : INR (length (batches_of s')) <= bp 40).
      { rewrite (Permutation_length PB), INR_IZR_INZ. change (bp 40) with (IZR (2 ^ 40)). apply IZR_le, HN. }
      assert (BMo : forall b, In b (batches_of s') -> (0 < values_in b)%Z ->
        Rabs (IZR (values_in b) * moment (kf b) - sum_R (map square (finite_values b))) <= IZR (values_in b) * ((24 * IZR B + 52) * (bp (-23) * (M * M))) /\
        moment (kf b) <= 46 * (M * M)).
      { intros b Hb V. destruct (key_moment segment_sum segment_sum_adds M (Z.to_nat B) b HM HBn (HL b Hb) (HXb b Hb) V) as [K1 K2].
        split; [|exact K2]. eapply Rle_trans; [exact K1|]. rewrite EB. apply Rmult_le_compat_l; [apply IZR_le; lia|].
        apply Rmult_le_compat_r.
        - apply Rmult_le_pos; [apply bpow_ge_0|]. pose proof (bpow_gt_0 radix2 (-50)). apply Rmult_le_pos; lra.
        - pose proof (IZR_le 0 B ltac:(lia)). lra. }
      assert (T' : (Z.of_nat (length (concat (batches_of s'))) <= 2 ^ 53)%Z) by (rewrite (Permutation_length PC); exact T).
      assert (HX' : forall x, In x (concat (batches_of s')) -> is_finite x = true -> Rabs (B2R x) <= M).
      { intros x Hx. apply HX. eapply Permutation_in; eassumption. }
      rewrite <- (mean_R_perm _ _ (finite_values_perm _ _ PC)), <- (var_R_perm _ _ (finite_values_perm _ _ PC)), <- (Permutation_length PB).
      destruct (out_mean kf s' M B HB0 T' HM1 BR BK BM) as [Fm Em].
      destruct (out_var kf s' M B HB0 T' HM1 HX' BR BK BM HM HN' BMo) as (Fv & Pv & Ev). auto.
    Qed.
  End Range.

  (** One value, repeated. *)
  Lemma key_output_const e c : (-74 <= e <= 51)%Z ->
    (forall b, In b (key_batches k bs) -> (Z.of_nat (length b) <= 2 ^ 23)%Z) -> on_grid e c ->
    (forall b, In b (key_batches k bs) -> IZR (Z.of_nat (length b)) * Rabs c <= IZR (2 ^ 24) * bp e /\
      IZR (Z.of_nat (length b)) * (c * c) <= IZR (2 ^ 24) * bp (2 * e)) ->
    (forall x, In x (of_key k (concat bs)) -> is_finite x = true -> B2R x = c) ->
    has_value (of_key k (concat bs)) ->
    let mv := key_mean_and_var32 s in
    is_finite (fst mv) = true /\ B2R (fst mv) = c /\ is_finite (snd mv) = true /\ B2R (snd mv) = 0.
  Proof.
    intros He L G HS HX HV0. cbv zeta. destruct (key_schedule kf k bs s HP) as (s' & -> & PB). unfold key_mean_and_var32. rewrite analyze_whole. cbv zeta. cbn [fst snd].
    assert (PC : Permutation (concat (batches_of s')) (of_key k (concat bs))) by (rewrite <- concat_key_batches; apply concat_perm, PB).
    assert (IB : forall b, In b (batches_of s') -> In b (key_batches k bs)) by (intros b Hb; eapply Permutation_in; eassumption).
    assert (HXb : forall b, In b (batches_of s') -> forall x, In x b -> is_finite x = true -> B2R x = c).
    { intros b Hb x Hx. apply HX. eapply Permutation_in; [exact PC|]. apply in_concat. exists b. auto. }
    assert (BC : forall b, In b (batches_of s') -> (0 < values_in b)%Z -> mean_of (kf b) = c /\ var_of (kf b) = 0).
    { intros b Hb V. destruct (HS b (IB b Hb)) as [H1 H2]. pose proof (IZR_le _ _ (values_le b)) as VL.
      apply (key_const segment_sum segment_sum_adds e); auto.
      - eapply Rle_trans; [|exact H1]. apply Rmult_le_compat_r; [apply Rabs_pos|exact VL].
      - eapply Rle_trans; [|exact H2]. apply Rmult_le_compat_r; [nra|exact VL].
      - apply HXb, Hb. }
    destruct HV0 as (x0 & Hx0 & Fx0).
    assert (K0 : 0 <= max_single <= bp 128).
    { unfold max_single. pose proof (bpow_ge_0 radix2 104). pose proof (bpow_le radix2 104 128 ltac:(lia)). lra. }
    assert (CM : Rabs c <= max_single).
    { rewrite <- (HX x0 Hx0 Fx0). apply (abs_B2R_le_emax_minus_prec 24 128 prec32). }
    assert (CP0 : (0 < FmvProofs.cnt (batches_of s'))%Z).
    { rewrite cnt_concat. apply has_value_pos. exists x0. split; [eapply Permutation_in; [symmetry; exact PC|exact Hx0]|exact Fx0]. }
    destruct (whole_any kf max_single K0 s') as (P & D).
    - apply Forall_forall. intros b Hb. pose proof (L b (IB b Hb)) as Lb. split; [|split; [apply key_keyed|apply key_blank; assumption]].
      destruct (Z.eq_dec (values_in b) 0) as [V0|V0].
      + destruct (key_blank segment_sum segment_sum_adds b Lb V0) as (c' & m' & v' & Eb & [Fm' Zm'] & _).
        apply key_rep; [exact segment_sum_adds|exact Lb| |rewrite key_none by assumption; lra].
        rewrite Eb. unfold mean_of. cbn [f_mean np_nan_to_num as_f64]. rewrite clean_id32 by exact Fm'.
        rewrite (proj2 (widen_ok m' Fm')), Zm', Rabs_R0. apply K0.
      + destruct (BC b Hb ltac:(unfold values_in in *; lia)) as [E1 E2].
        apply key_rep; [exact segment_sum_adds|exact Lb|rewrite E1; exact CM|rewrite E2; lra].
    - rewrite cnt_concat. pose proof (values_le (concat (batches_of s'))) as VL. rewrite (Permutation_length PC) in VL.
      eapply Z.le_trans; [exact VL|exact T].
    - destruct D as [[W Rw]|[C0 _]]; [|rewrite C0 in CP0; discriminate CP0].
      destruct (wide_mean _ W Rw) as (m & Em & Fm & Mm). destruct (wide_var _ W Rw) as (v & Ev & Nv & Zv).
      rewrite Em, Ev. cbn [as_f32]. destruct P as [RP _ GP CP _].
      assert (E : B2R m = c).
      { rewrite <- Mm. assert (Q : c <= mean_of (whole kf s') <= c); [|lra]. apply GP.
        - apply Forall_forall. intros b Hb V. destruct (BC b Hb V) as [-> _]. lra.
        - exact CP0. }
      destruct Zv as [Fv Ev0].
      { apply (CP c). apply Forall_forall. intros b Hb V. apply BC; assumption. }
      destruct (cast_mean m Fm) as [FC EC]; [rewrite <- Mm; apply (r_mean _ _ _ RP)|].
      split; [exact FC|]. split; [rewrite EC, E, <- (HX x0 Hx0 Fx0); apply rnd_B2R|].
      destruct (cast_mean v Fv) as [FV EV]; [rewrite Ev0, Rabs_R0; apply K0|].
      split; [exact FV|]. rewrite EV, Ev0. apply rnd_0.
  Qed.

  (** No finite value. *)
  Lemma key_output_none : (forall b, In b (key_batches k bs) -> (Z.of_nat (length b) <= 2 ^ 23)%Z) ->
    (forall x, In x (of_key k (concat bs)) -> is_finite x = false) ->
    let mv := key_mean_and_var32 s in
    is_finite (fst mv) = true /\ B2R (fst mv) = 0 /\ is_finite (snd mv) = true /\ B2R (snd mv) = 0.
  Proof.
    intros L HX. cbv zeta. destruct (key_schedule kf k bs s HP) as (s' & -> & PB). unfold key_mean_and_var32. rewrite analyze_whole. cbv zeta. cbn [fst snd].
    assert (PC : Permutation (concat (batches_of s')) (of_key k (concat bs))) by (rewrite <- concat_key_batches; apply concat_perm, PB).
    assert (IB : forall b, In b (batches_of s') -> In b (key_batches k bs)) by (intros b Hb; eapply Permutation_in; eassumption).
    assert (K0 : 0 <= max_single <= bp 128).
    { unfold max_single. pose proof (bpow_ge_0 radix2 104). pose proof (bpow_le radix2 104 128 ltac:(lia)). lra. }
    assert (NV : forall xs, (forall x, In x xs -> is_finite x = false) -> values_in xs = 0%Z).
    { intros xs. unfold values_in. induction xs as [|x xs IH]; intro H; cbn [filter]; [reflexivity|].
      rewrite (H x (or_introl eq_refl)). apply IH. intros y Hy. apply H. right. exact Hy. }
    assert (C0 : FmvProofs.cnt (batches_of s') = 0%Z).
    { rewrite cnt_concat. apply NV. intros x Hx. apply HX. eapply Permutation_in; eassumption. }
    destruct (whole_any kf max_single K0 s') as (P & D).
    - apply Forall_forall. intros b Hb. pose proof (L b (IB b Hb)) as Lb. split; [|split; [apply key_keyed|apply key_blank; assumption]].
      assert (V0 : values_in b = 0%Z).
      { apply NV. intros x Hx. apply HX. eapply Permutation_in; [exact PC|]. apply in_concat. exists b. auto. }
      destruct (key_blank segment_sum segment_sum_adds b Lb V0) as (c' & m' & v' & Eb & [Fm' Zm'] & _).
      apply key_rep; [exact segment_sum_adds|exact Lb| |rewrite key_none by assumption; lra].
      rewrite Eb. unfold mean_of. cbn [f_mean np_nan_to_num as_f64]. rewrite clean_id32 by exact Fm'.
      rewrite (proj2 (widen_ok m' Fm')), Zm', Rabs_R0. apply K0.
    - rewrite C0. lia.
    - destruct (r_empty _ _ _ (p_rep _ _ _ _ P) C0) as [M0 V0]. destruct D as [[W Rw]|[_ (c & m & v & Ea & [Fm Zm] & [Fv Zv])]].
      + destruct (wide_mean _ W Rw) as (m & Em & Fm & Mm). destruct (wide_var _ W Rw) as (v & Ev & Nv & Zv). destruct (Zv V0) as [Fv Ev0].
        rewrite Em, Ev. cbn [as_f32].
        destruct (cast_mean m Fm) as [FC EC]; [rewrite <- Mm, M0, Rabs_R0; apply K0|].
        destruct (cast_mean v Fv) as [FV EV]; [rewrite Ev0, Rabs_R0; apply K0|].
        split; [exact FC|]. split; [rewrite EC, <- Mm, M0; apply rnd_0|]. split; [exact FV|]. rewrite EV, Ev0. apply rnd_0.
      + rewrite Ea. cbn [f_mean f_var as_f32]. auto.
  Qed.
End OneKey.

(** The sum of two numbers, when it is not zero, is the rounded sum in whatever order they are added. *)
Lemma two_exact (segment_sum : list f32 -> f32) : (forall l, adds l (segment_sum l)) ->
  forall x y, is_finite x = true -> is_finite y = true ->
  Bleb (Babs x) (binary_normalize 24 128 prec32 emax32 mode_NE 1 126 false) = true ->
  Bleb (Babs y) (binary_normalize 24 128 prec32 emax32 mode_NE 1 126 false) = true ->
  Beqb (add32 x y) zero32 = false -> segment_sum [x; y] = add32 x y.
Proof.
  intros A x y Fx Fy Bx By N.
  assert (E126 : is_finite (binary_normalize 24 128 prec32 emax32 mode_NE 1 126 false) = true /\
                 B2R (binary_normalize 24 128 prec32 emax32 mode_NE 1 126 false) = bpow radix2 126).
  { assert (E : B2SF (binary_normalize 24 128 prec32 emax32 mode_NE 1 126 false) = SpecFloat.S754_finite false 8388608 103) by (vm_compute; reflexivity).
    split; [rewrite <- is_finite_SF_B2SF, E; reflexivity|]. rewrite <- SF2R_B2SF, E. cbn [SF2R cond_Zopp]. unfold F2R. cbn [Fnum Fexp].
    change (IZR 8388608) with (bpow radix2 23). rewrite <- bpow_plus. reflexivity. }
  set (big := binary_normalize 24 128 prec32 emax32 mode_NE 1 126 false) in *. destruct E126 as [Fb Eb].
  assert (ABS : forall z, is_finite z = true -> Bleb (Babs z) big = true -> Rabs (B2R z) <= bpow radix2 126).
  { intros z Fz H. rewrite Bleb_correct in H; [|rewrite is_finite_Babs; exact Fz|exact Fb]. rewrite B2R_Babs, Eb in H.
    destruct (Rle_bool_spec (Rabs (B2R z)) (bpow radix2 126)); [assumption|discriminate]. }
  assert (O : Rabs (rnd (B2R x + B2R y)) < bpow radix2 128).
  { apply bounded_127. eapply Rle_trans; [apply Rabs_triang|]. specialize (ABS x Fx Bx) as A1. specialize (ABS y Fy By) as A2.
    change 127%Z with (1 + 126)%Z. rewrite bpow_plus. change (bpow radix2 1) with 2. lra. }
  destruct (adds_two _ _ (A [x; y]) x y (Permutation_refl _) Fx Fy O) as [A1 A2]. destruct (add_ok x y Fx Fy O) as [C1 C2].
  assert (N' : B2R (add32 x y) <> 0).
  { intro H. rewrite Beqb_correct in N by (exact C1 || reflexivity). cbn [B2R zero32] in N. rewrite H in N. rewrite Req_bool_true in N by reflexivity. discriminate. }
  apply B2R_inj; [| |rewrite A2, C2; reflexivity].
  - destruct (segment_sum [x; y]); try discriminate A1; [exfalso; apply N'; rewrite C2, <- A2; reflexivity|reflexivity].
  - destruct (add32 x y); try discriminate C1; [exfalso; apply N'; reflexivity|reflexivity].
Qed.
