(** The accumulators of tft.mean and tft.var of single precision numbers, for every schedule. *)
From Coq Require Import List ZArith Reals Bool Lra Lia.
From Flocq Require Import Core BinarySingleNaN.
From Verif Require Import CombineModel CombineProofs IeeeModel IeeeSpec IeeeProofs FmvModel FmvSpec FmvFloat FmvFormulas.
Import ListNotations.
Local Open Scope R_scope.

Local Notation bp := (bpow radix2).
Local Existing Instance prec64.
Local Existing Instance emax64.
Local Existing Instance prec32.
Local Existing Instance emax32.

(** * nan_to_num *)
Lemma clean_fin32 x : is_finite (clean prec32 emax32 x) = true.
Proof. destruct x as [s|[]| |s m e B]; reflexivity. Qed.
Lemma clean_fin64 x : is_finite (clean prec64 emax64 x) = true.
Proof. destruct x as [s|[]| |s m e B]; reflexivity. Qed.

Lemma np_clean_fin x : is_finite (as_f64 (np_nan_to_num x)) = true.
Proof. destruct x; cbn [np_nan_to_num as_f64]; [apply widen_ok, clean_fin32|apply clean_fin64]. Qed.

Lemma clean_id32 x : is_finite x = true -> clean prec32 emax32 x = x.
Proof. destruct x; try discriminate; reflexivity. Qed.
Lemma clean_id64 x : is_finite x = true -> clean prec64 emax64 x = x.
Proof. destruct x; try discriminate; reflexivity. Qed.
Lemma np_clean_idem x : np_nan_to_num (np_nan_to_num x) = np_nan_to_num x.
Proof. destruct x; cbn [np_nan_to_num]; [rewrite clean_id32 by apply clean_fin32|rewrite clean_id64 by apply clean_fin64]; reflexivity. Qed.

Definition mean_of (a : fmv) : R := B2R (as_f64 (np_nan_to_num (f_mean a))).
Definition var_of (a : fmv) : R := B2R (as_f64 (np_nan_to_num (f_var a))).
(** The second moment. *)
Definition moment (a : fmv) : R := var_of a + mean_of a * mean_of a.

Record Rep (K : R) (n : Z) (a : fmv) : Prop := {
  r_finite : is_finite (as_f64 (f_count a)) = true;
  r_count : B2R (as_f64 (f_count a)) = IZR n;
  r_pos : (0 <= n)%Z;
  r_mean : Rabs (mean_of a) <= K;
  r_var : 0 <= var_of a;
  r_empty : n = 0%Z -> mean_of a = 0 /\ var_of a = 0
}.

(** All three numbers are float64. *)
Definition wide (a : fmv) : Prop :=
  match f_count a, f_mean a, f_var a with D64 _, D64 _, D64 _ => True | _, _, _ => False end.

(** What the output needs. *)
Definition raw (a : fmv) : Prop := is_finite (as_f64 (f_mean a)) = true /\ nn64 (as_f64 (f_var a)).

Definition widened (a : fmv) : fmv :=
  let a := make_nan_to_num a in FMV (D64 (as_f64 (f_count a))) (D64 (as_f64 (f_mean a))) (D64 (as_f64 (f_var a))).

Lemma formulas_widened a b : wide a \/ wide b -> fmv_formulas (make_nan_to_num a) (make_nan_to_num b) = fmv_formulas (widened a) (widened b).
Proof.
  destruct a as [[ca|ca] [ma|ma] [va|va]], b as [[cb|cb] [mb|mb] [vb|vb]]; cbn [wide f_count f_mean f_var]; intros [H|H]; try contradiction;
    reflexivity.
Qed.

Lemma rep_clean K n a : Rep K n a -> Rep K n (make_nan_to_num a).
Proof.
  intros [A B C D E F]. constructor; unfold mean_of, var_of in *; cbn [make_nan_to_num f_count f_mean f_var]; rewrite ?np_clean_idem; auto.
Qed.
Lemma mean_clean a : mean_of (make_nan_to_num a) = mean_of a.
Proof. unfold mean_of. cbn [make_nan_to_num f_mean]. rewrite np_clean_idem. reflexivity. Qed.
Lemma var_clean a : var_of (make_nan_to_num a) = var_of a.
Proof. unfold var_of. cbn [make_nan_to_num f_var]. rewrite np_clean_idem. reflexivity. Qed.
Lemma wide_clean a : wide a -> wide (make_nan_to_num a).
Proof. destruct a as [[ca|ca] [ma|ma] [va|va]]; auto. Qed.
Lemma raw_clean K n a : Rep K n a -> raw (make_nan_to_num a).
Proof.
  intro H. split; cbn [make_nan_to_num f_mean f_var]; [apply np_clean_fin|]. left. split; [apply np_clean_fin|apply (r_var _ _ _ H)].
Qed.

(** Not so small that underflow matters, nor so great that doubles overflow. *)
Definition moderate (K V : R) : Prop := eta <= e53 * K / 1024 /\ eta <= e53 * V / 1024 /\ V + 8 * (K * K) <= bp 1000.

(** The outcome of combining [a] and [b]. *)
Definition combined (K : R) (na nb : Z) (a b c : fmv) : Prop :=
  wide c /\ raw c /\ Rep K (na + nb) c /\
  Rmin (mean_of a) (mean_of b) <= mean_of c <= Rmax (mean_of a) (mean_of b) /\
  (na = 0%Z -> mean_of c = mean_of b) /\ (nb = 0%Z -> mean_of c = mean_of a) /\
  Rabs (mean_of c * IZR (na + nb) - (IZR na * mean_of a + IZR nb * mean_of b)) <= step_error K * IZR (na + nb) /\
  (var_of a = 0 -> var_of b = 0 -> na = 0%Z \/ nb = 0%Z \/ mean_of a = mean_of b -> var_of c = 0) /\
  (na = 0%Z -> var_of c = var_of b) /\ (nb = 0%Z -> var_of c = var_of a) /\
  (forall V, var_of a <= V -> var_of b <= V -> moderate K V ->
    Rabs (moment c * IZR (na + nb) - (IZR na * moment a + IZR nb * moment b)) <= step_error2 K V * IZR (na + nb)).

Lemma step_error_pos K : 0 <= K -> 0 <= step_error K.
Proof. intro H. unfold step_error. pose proof e53_pos. pose proof eta_pos. nra. Qed.

Lemma clean_nn64 v : nn64 v -> 0 <= B2R (clean prec64 emax64 v).
Proof.
  intros [[F H]|E]; [rewrite clean_id64 by exact F; exact H|]. subst v. apply F2R_ge_0. cbn. lia.
Qed.

(** The branch with the formulas, the greater count first. *)
Lemma formulas_combined K na nb a b : K <= bp 128 -> Rep K na a -> Rep K nb b -> wide a \/ wide b ->
  (0 < na)%Z -> (nb <= na)%Z -> (na + nb <= 2 ^ 53)%Z ->
  combined K na nb a b (fmv_formulas (make_nan_to_num a) (make_nan_to_num b)).
Proof.
  intros KB RA RB W Na Nb Tot. rewrite formulas_widened by exact W. unfold widened. cbn [make_nan_to_num f_count f_mean f_var].
  destruct (formulas64 (as_f64 (f_count a)) (as_f64 (np_nan_to_num (f_mean a))) (as_f64 (np_nan_to_num (f_var a)))
    (as_f64 (f_count b)) (as_f64 (np_nan_to_num (f_mean b))) (as_f64 (np_nan_to_num (f_var b))) na nb K)
    as (c & m & v & E & Fc & Ec & Fm & Bt & Ex & Er & NN & Zr & Ve & Se);
    try (apply np_clean_fin); try (apply RA); try (apply RB); try assumption.
  - split; [apply RB|exact Nb].
  - rewrite E. fold (mean_of a) (mean_of b) (var_of a) (var_of b) in *.
    assert (Mc : mean_of (FMV (D64 c) (D64 m) (D64 v)) = B2R m).
    { unfold mean_of. cbn [f_mean np_nan_to_num as_f64]. rewrite clean_id64 by exact Fm. reflexivity. }
    assert (NT : 0 < IZR (na + nb)) by (apply IZR_lt; destruct RB; lia).
    split; [exact Logic.I|]. split; [split; [exact Fm|exact NN]|]. split.
    { constructor; try assumption.
      - destruct RB; lia.
      - rewrite Mc. destruct RA as [_ _ _ A _ _], RB as [_ _ _ B _ _]. apply Rabs_le_inv in A. apply Rabs_le_inv in B.
        apply Rabs_le. unfold Rmin, Rmax in Bt. destruct (Rle_dec (mean_of a) (mean_of b)); lra.
      - apply clean_nn64, NN.
      - destruct RB; lia. }
    rewrite Mc. split; [exact Bt|]. split; [lia|]. split; [exact Ex|]. split.
    { replace (B2R m * IZR (na + nb) - (IZR na * mean_of a + IZR nb * mean_of b))
        with ((B2R m - (mean_of a + IZR nb / IZR (na + nb) * (mean_of b - mean_of a))) * IZR (na + nb)).
      - rewrite Rabs_mult, (Rabs_pos_eq (IZR (na + nb))) by lra. apply Rmult_le_compat_r; [lra|exact Er].
      - rewrite plus_IZR in *. field. lra. }
    assert (Vc : is_finite v = true -> var_of (FMV (D64 c) (D64 m) (D64 v)) = B2R v).
    { intro Fv. unfold var_of. cbn [f_var np_nan_to_num as_f64]. rewrite clean_id64 by exact Fv. reflexivity. }
    split.
    { intros Z1 Z2 Z3. destruct Zr as [Fv Ev]; [exact Z1|exact Z2| |rewrite Vc by exact Fv; exact Ev].
      destruct Z3 as [Z3|[Z3|Z3]]; [lia|left; exact Z3|right; symmetry; exact Z3]. }
    split; [lia|]. split.
    { intro Z3. destruct (Ve Z3) as [Fv Ev]. rewrite Vc by exact Fv. exact Ev. }
    intros V VA VB (D1 & D2 & D3). destruct (Se V VA VB D1 D2 D3) as [Fv Ev]. unfold moment. rewrite Vc by exact Fv. rewrite Mc.
    replace ((B2R v + B2R m * B2R m) * IZR (na + nb) - _)
      with ((B2R v + B2R m * B2R m - ((1 - IZR nb / IZR (na + nb)) * (var_of a + mean_of a * mean_of a)
              + IZR nb / IZR (na + nb) * (var_of b + mean_of b * mean_of b))) * IZR (na + nb)).
    + rewrite Rabs_mult, (Rabs_pos_eq (IZR (na + nb))) by lra. apply Rmult_le_compat_r; [lra|exact Ev].
    + rewrite plus_IZR in *. field. lra.
Qed.

Lemma combined_swap K na nb a b c : combined K nb na b a c -> combined K na nb a b c.
Proof.
  unfold combined. rewrite (Z.add_comm nb na), (Rmin_comm (mean_of b)), (Rmax_comm (mean_of b)), (Rplus_comm (IZR nb * _)).
  intros (A & B & C & D & E & F & G & H & J & L & N). repeat (split; [assumption|]). split.
  { intros Z1 Z2 Z3. apply H; [exact Z2|exact Z1|]. destruct Z3 as [Z3|[Z3|Z3]]; auto. }
  split; [exact L|]. split; [exact J|]. intros V VA VB HV. rewrite (Rplus_comm (IZR na * _)). apply N; assumption.
Qed.

Lemma Bltb_counts K na nb a b : Rep K na a -> Rep K nb b ->
  Bltb (as_f64 (f_count a)) (as_f64 (f_count b)) = (na <? nb)%Z.
Proof.
  intros [A1 A2 _ _ _ _] [B1 B2 _ _ _ _]. rewrite (Bltb_correct 53 1024) by assumption. rewrite A2, B2.
  destruct (Z.ltb_spec na nb) as [L|L]; [apply Rlt_bool_true; apply IZR_lt, L|apply Rlt_bool_false; apply IZR_le, L].
Qed.

Lemma Beqb_count K n a : Rep K n a -> Beqb (as_f64 (f_count a)) (B754_zero false) = (n =? 0)%Z.
Proof.
  intros [A1 A2 _ _ _ _]. rewrite (Beqb_correct 53 1024) by (assumption || reflexivity). rewrite A2. cbn [B2R].
  destruct (Z.eqb_spec n 0) as [E|E]; [subst; apply Req_bool_true; reflexivity|apply Req_bool_false; apply IZR_neq, E].
Qed.

Lemma combine_ok K na nb a b : 0 <= K <= bp 128 -> Rep K na a -> Rep K nb b -> wide a \/ wide b ->
  (na + nb <= 2 ^ 53)%Z -> (0 < na + nb)%Z \/ (wide a /\ wide b) -> combined K na nb a b (fmv_combine a b).
Proof.
  intros [K0 KB] RA RB W Tot Z0. unfold fmv_combine. cbv zeta.
  rewrite (Bltb_counts K na nb) by (apply rep_clean; assumption).
  pose proof (r_pos _ _ _ RA) as PA. pose proof (r_pos _ _ _ RB) as PB.
  destruct (Z.ltb_spec na nb) as [L|L].
  - rewrite (Beqb_count K nb) by (apply rep_clean; assumption). destruct (Z.eqb_spec nb 0) as [E|E]; [lia|].
    apply combined_swap. apply formulas_combined; try assumption; try lia. tauto.
  - rewrite (Beqb_count K na) by (apply rep_clean; assumption). destruct (Z.eqb_spec na 0) as [E|E].
    + assert (E' : nb = 0%Z) by lia. subst. destruct Z0 as [Z0|[WA WB]]; [lia|].
      destruct (r_empty _ _ _ RA eq_refl) as [MA VA]. destruct (r_empty _ _ _ RB eq_refl) as [MB VB].
      split; [apply wide_clean, WB|]. split; [eapply raw_clean, RB|]. split; [apply rep_clean, RB|].
      rewrite mean_clean, var_clean, MA, MB, VB. rewrite Rmin_left, Rmax_left by lra. cbn [Z.add].
      split; [lra|]. split; [auto|]. split; [auto|]. split; [rewrite !Rmult_0_r, Rplus_0_r, Rminus_0_r, Rabs_R0; lra|].
      split; [auto|]. split; [auto|]. split; [auto|]. intros V _ _ _. rewrite !Rmult_0_r, !Rmult_0_l, Rplus_0_r, Rminus_0_r, Rabs_R0. lra.
    + apply formulas_combined; try assumption; lia.
Qed.

(** * Every schedule *)
Lemma run_map {X Y A} (f : X -> Y) (mk : A) add mrg (s : sched X) :
  run mk add mrg (map_sched f s) = run mk (fun a x => add a (f x)) mrg s.
Proof.
  induction s as [xs|s0 rest IH0 IHr] using sched_ind'; cbn [run map_sched].
  - revert mk. induction xs as [|x xs IH]; intro mk; cbn; [reflexivity|]. apply IH.
  - rewrite IH0, map_map. do 2 f_equal. induction IHr as [|x l Hx _ IH]; cbn; [reflexivity|]. rewrite Hx, IH. reflexivity.
Qed.

Definition values_in (xs : list f32) : Z := Z.of_nat (length (filter is_finite xs)).

Section schedules.
  Variable f : list f32 -> fmv.
  Variable K : R.
  Hypothesis K_ok : 0 <= K <= bp 128.

  Definition cnt (l : list (list f32)) : Z := fold_right (fun xs z => values_in xs + z)%Z 0%Z l.
  Definition wsum (l : list (list f32)) : R := fold_right (fun xs r => IZR (values_in xs) * mean_of (f xs) + r) 0 l.

  Definition msum (l : list (list f32)) : R := fold_right (fun xs r => IZR (values_in xs) * moment (f xs) + r) 0 l.

  Lemma msum_app l l' : msum (l ++ l') = msum l + msum l'.
  Proof. unfold msum in *. induction l as [|x l IH]; cbn [app fold_right]; [ring|]. rewrite IH. ring. Qed.
  Lemma cnt_app l l' : cnt (l ++ l') = (cnt l + cnt l')%Z.
  Proof. unfold cnt in *. induction l as [|x l IH]; cbn [app fold_right]; [reflexivity|]. rewrite IH. ring. Qed.
  Lemma wsum_app l l' : wsum (l ++ l') = wsum l + wsum l'.
  Proof. unfold wsum in *. induction l as [|x l IH]; cbn [app fold_right]; [ring|]. rewrite IH. ring. Qed.
  Lemma cnt_pos l : (0 <= cnt l)%Z.
  Proof. unfold cnt in *. induction l as [|x l IH]; cbn [fold_right]; [lia|].
    assert (0 <= values_in x)%Z by (unfold values_in; lia). lia. Qed.

  Definition okb (xs : list f32) : Prop := Rep K (values_in xs) (f xs).

  Record pre (l : list (list f32)) (a : fmv) : Prop := {
    p_rep : Rep K (cnt l) a;
    p_err : Rabs (mean_of a * IZR (cnt l) - wsum l) <= step_error K * INR (length l) * IZR (cnt l);
    p_range : forall lo hi, Forall (fun xs => (0 < values_in xs)%Z -> lo <= mean_of (f xs) <= hi) l -> (0 < cnt l)%Z ->
      lo <= mean_of a <= hi;
    p_const : forall c, Forall (fun xs => (0 < values_in xs)%Z -> mean_of (f xs) = c /\ var_of (f xs) = 0) l -> var_of a = 0;
    p_moment : forall V Q, moderate K V -> 0 <= Q -> Forall (fun xs => (0 < values_in xs)%Z -> moment (f xs) <= Q) l ->
      Q + INR (length l) * step_error2 K V <= V ->
      Rabs (moment a * IZR (cnt l) - msum l) <= step_error2 K V * INR (length l) * IZR (cnt l)
  }.

  Lemma moderate_pos V : moderate K V -> 0 <= V /\ 0 <= step_error2 K V.
  Proof.
    intros (_ & B & _). pose proof eta_pos. pose proof e53_pos. assert (0 <= V).
    { destruct (Rle_or_lt 0 V) as [HV|HV]; [exact HV|]. exfalso. nra. }
    split; [assumption|]. unfold step_error2. assert (0 <= K * K) by nra. nra.
  Qed.

  (** The variance of an accumulator is bounded by the greatest second moment of a batch. *)
  Lemma var_bound l a V Q : Rep K (cnt l) a -> moderate K V -> 0 <= Q -> Forall (fun xs => (0 < values_in xs)%Z -> moment (f xs) <= Q) l ->
    Q + INR (length l) * step_error2 K V <= V ->
    Rabs (moment a * IZR (cnt l) - msum l) <= step_error2 K V * INR (length l) * IZR (cnt l) -> var_of a <= V.
  Proof.
    intros R MV Q0 F B E. destruct (moderate_pos V MV) as [V0 S0].
    destruct (Z.eq_dec (cnt l) 0) as [C|C]; [destruct (r_empty _ _ _ R C) as [_ ->]; exact V0|].
    assert (CP : 0 < IZR (cnt l)) by (apply IZR_lt; pose proof (cnt_pos l); lia).
    assert (MS : msum l <= Q * IZR (cnt l)).
    { clear - F Q0. unfold msum, cnt. induction F as [|xs l H _ IH]; cbn [fold_right]; [lra|]. rewrite plus_IZR, Rmult_plus_distr_l.
      apply Rplus_le_compat; [|exact IH]. destruct (Z.eq_dec (values_in xs) 0) as [E|E]; [rewrite E; lra|].
      assert (0 < values_in xs)%Z by (unfold values_in in *; lia). rewrite Rmult_comm. apply Rmult_le_compat_r; [apply IZR_le; lia|auto]. }
    assert (MB : moment a <= V).
    { apply (Rmult_le_reg_r (IZR (cnt l))); [exact CP|]. apply Rle_trans with ((Q + INR (length l) * step_error2 K V) * IZR (cnt l)).
      - pose proof (Rle_abs (moment a * IZR (cnt l) - msum l)). lra.
      - apply Rmult_le_compat_r; lra. }
    unfold moment in MB. assert (0 <= mean_of a * mean_of a) by nra. lra.
  Qed.

  Lemma pre_batch xs : okb xs -> pre [xs] (f xs).
  Proof.
    intro H. assert (C : cnt [xs] = values_in xs) by (cbn; lia). constructor; rewrite ?C.
    - exact H.
    - cbn [wsum fold_right length INR]. rewrite Rplus_0_r, (Rmult_comm (mean_of _)), Rminus_diag_eq by reflexivity.
      rewrite Rabs_R0, Rmult_1_r. apply Rmult_le_pos; [apply step_error_pos; lra|]. apply IZR_le, H.
    - intros lo hi F P. inversion F; subst; auto.
    - intros c F. destruct (Z.eq_dec (values_in xs) 0) as [E|E]; [apply (r_empty _ _ _ H E)|].
      inversion F as [|? ? G _]; subst. apply G. unfold values_in in *. lia.
    - intros V Q MV _ _ _. cbn [msum fold_right length INR]. rewrite Rplus_0_r, (Rmult_comm (moment _)), Rminus_diag_eq by reflexivity.
      rewrite Rabs_R0, Rmult_1_r. apply Rmult_le_pos; [apply (moderate_pos V MV)|]. apply IZR_le, H.
  Qed.

  Lemma zero_rep : Rep K 0 fmv_create.
  Proof.
    constructor; cbn; try reflexivity; try lia.
    - unfold mean_of. cbn. rewrite Rabs_R0. lra.
    - unfold var_of. cbn. lra.
    - intros _. split; reflexivity.
  Qed.

  Lemma pre_create : pre [] fmv_create.
  Proof.
    constructor.
    - apply zero_rep.
    - cbn [cnt wsum fold_right length INR]. rewrite !Rmult_0_r, Rminus_0_r, Rabs_R0. lra.
    - cbn. lia.
    - intros c _. reflexivity.
    - intros V Q _ _ _ _. cbn [cnt msum fold_right length INR]. rewrite !Rmult_0_r, Rminus_0_r, Rabs_R0. lra.
  Qed.

  Lemma pre_combine la lb a b : pre la a -> pre lb b -> wide a \/ wide b -> (cnt (la ++ lb) <= 2 ^ 53)%Z ->
    (0 < cnt (la ++ lb))%Z \/ (wide a /\ wide b) ->
    pre (la ++ lb) (fmv_combine a b) /\ wide (fmv_combine a b) /\ raw (fmv_combine a b).
  Proof.
    intros [RA EA GA CA MA] [RB EB GB CB MB] W Tot Z0. rewrite cnt_app in *.
    destruct (combine_ok K (cnt la) (cnt lb) a b K_ok RA RB W Tot Z0) as (Wc & Rc & Rep_c & Bt & E0a & E0b & Er & V & V0a & V0b & Ms).
    pose proof (step_error_pos K (proj1 K_ok)) as SE.
    pose proof (r_pos _ _ _ RA) as PA. pose proof (r_pos _ _ _ RB) as PB.
    split; [|split; assumption]. constructor; rewrite ?cnt_app.
    - exact Rep_c.
    - rewrite wsum_app, app_length, plus_INR.
      destruct (Z.eq_dec (cnt la) 0) as [Za|Za].
      { rewrite (E0a Za), Za, Z.add_0_l.
        assert (wsum la = 0) as ->.
        { rewrite Za in EA. rewrite !Rmult_0_r, Rminus_0_l, Rabs_Ropp in EA. pose proof (Rabs_pos (wsum la)).
          destruct (Req_dec (wsum la) 0) as [Q|Q]; [exact Q|]. apply Rabs_no_R0 in Q. lra. }
        rewrite Rplus_0_l. eapply Rle_trans; [exact EB|]. apply Rmult_le_compat_r; [apply IZR_le; lia|].
        apply Rmult_le_compat_l; [exact SE|]. pose proof (pos_INR (length la)). lra. }
      destruct (Z.eq_dec (cnt lb) 0) as [Zb|Zb].
      { rewrite (E0b Zb), Zb, Z.add_0_r.
        assert (wsum lb = 0) as ->.
        { rewrite Zb in EB. rewrite !Rmult_0_r, Rminus_0_l, Rabs_Ropp in EB. pose proof (Rabs_pos (wsum lb)).
          destruct (Req_dec (wsum lb) 0) as [Q|Q]; [exact Q|]. apply Rabs_no_R0 in Q. lra. }
        rewrite Rplus_0_r. eapply Rle_trans; [exact EA|]. apply Rmult_le_compat_r; [apply IZR_le; lia|].
        apply Rmult_le_compat_l; [exact SE|]. pose proof (pos_INR (length lb)). lra. }
      assert (La : 1 <= INR (length la)) by (change 1 with (INR 1); apply le_INR; destruct la; [cbn in Za; lia|cbn; lia]).
      assert (Lb : 1 <= INR (length lb)) by (change 1 with (INR 1); apply le_INR; destruct lb; [cbn in Zb; lia|cbn; lia]).
      replace (mean_of (fmv_combine a b) * IZR (cnt la + cnt lb) - (wsum la + wsum lb)) with
        ((mean_of (fmv_combine a b) * IZR (cnt la + cnt lb) - (IZR (cnt la) * mean_of a + IZR (cnt lb) * mean_of b))
         + (mean_of a * IZR (cnt la) - wsum la) + (mean_of b * IZR (cnt lb) - wsum lb)) by ring.
      eapply Rle_trans; [apply Rabs_triang|]. eapply Rle_trans; [apply Rplus_le_compat_r, Rabs_triang|].
      eapply Rle_trans; [apply Rplus_le_compat; [apply Rplus_le_compat; [exact Er|exact EA]|exact EB]|].
      rewrite plus_IZR. apply IZR_le in PA. apply IZR_le in PB.
      set (s := step_error K) in *. set (p := INR (length la)) in *. set (q := INR (length lb)) in *.
      set (x := IZR (cnt la)) in *. set (y := IZR (cnt lb)) in *.
      replace (s * (x + y) + s * p * x + s * q * y) with (s * ((x + y) + p * x + q * y)) by ring.
      replace (s * (p + q) * (x + y)) with (s * ((p + q) * (x + y))) by ring.
      apply Rmult_le_compat_l; [exact SE|]. nra.
    - intros lo hi F P. apply Forall_app in F as [FA FB].
      destruct (Z.eq_dec (cnt la) 0) as [Za|Za]; [rewrite (E0a Za); apply GB; [exact FB|lia]|].
      destruct (Z.eq_dec (cnt lb) 0) as [Zb|Zb]; [rewrite (E0b Zb); apply GA; [exact FA|lia]|].
      specialize (GA lo hi FA). specialize (GB lo hi FB). assert (A : (0 < cnt la)%Z) by lia. assert (B : (0 < cnt lb)%Z) by lia.
      specialize (GA A). specialize (GB B). unfold Rmin, Rmax in Bt. destruct (Rle_dec (mean_of a) (mean_of b)); lra.
    - intros c F. apply Forall_app in F as [FA FB]. apply V; [apply (CA c FA)|apply (CB c FB)|].
      destruct (Z.eq_dec (cnt la) 0) as [Za|Za]; [auto|]. destruct (Z.eq_dec (cnt lb) 0) as [Zb|Zb]; [auto|]. right. right.
      assert (c <= mean_of a <= c).
      { apply GA; [|lia]. eapply Forall_impl; [|exact FA]. cbv beta. intros xs HH P. destruct (HH P) as [-> _]. lra. }
      assert (c <= mean_of b <= c).
      { apply GB; [|lia]. eapply Forall_impl; [|exact FB]. cbv beta. intros xs HH P. destruct (HH P) as [-> _]. lra. }
      lra.
    - intros U Q MV Q0 F B. apply Forall_app in F as [FA FB]. rewrite app_length, plus_INR in B.
      destruct (moderate_pos U MV) as [_ S2].
      assert (PLa := pos_INR (length la)). assert (PLb := pos_INR (length lb)).
      assert (BA : Q + INR (length la) * step_error2 K U <= U) by nra.
      assert (BB : Q + INR (length lb) * step_error2 K U <= U) by nra.
      specialize (MA U Q MV Q0 FA BA). specialize (MB U Q MV Q0 FB BB).
      specialize (Ms U (var_bound la a U Q RA MV Q0 FA BA MA) (var_bound lb b U Q RB MV Q0 FB BB MB) MV).
      rewrite msum_app, app_length, plus_INR.
      destruct (Z.eq_dec (cnt la) 0) as [Za|Za].
      { assert (moment (fmv_combine a b) = moment b) as -> by (unfold moment; rewrite (E0a Za), (V0a Za); reflexivity).
        rewrite Za, Z.add_0_l. assert (msum la = 0) as ->.
        { rewrite Za in MA. rewrite !Rmult_0_r, Rminus_0_l, Rabs_Ropp in MA. pose proof (Rabs_pos (msum la)).
          destruct (Req_dec (msum la) 0) as [J|J]; [exact J|]. apply Rabs_no_R0 in J. lra. }
        rewrite Rplus_0_l. eapply Rle_trans; [exact MB|]. apply Rmult_le_compat_r; [apply IZR_le; lia|].
        apply Rmult_le_compat_l; [exact S2|]. lra. }
      destruct (Z.eq_dec (cnt lb) 0) as [Zb|Zb].
      { assert (moment (fmv_combine a b) = moment a) as -> by (unfold moment; rewrite (E0b Zb), (V0b Zb); reflexivity).
        rewrite Zb, Z.add_0_r. assert (msum lb = 0) as ->.
        { rewrite Zb in MB. rewrite !Rmult_0_r, Rminus_0_l, Rabs_Ropp in MB. pose proof (Rabs_pos (msum lb)).
          destruct (Req_dec (msum lb) 0) as [J|J]; [exact J|]. apply Rabs_no_R0 in J. lra. }
        rewrite Rplus_0_r. eapply Rle_trans; [exact MA|]. apply Rmult_le_compat_r; [apply IZR_le; lia|].
        apply Rmult_le_compat_l; [exact S2|]. lra. }
      assert (La : 1 <= INR (length la)) by (change 1 with (INR 1); apply le_INR; destruct la; [cbn in Za; lia|cbn; lia]).
      assert (Lb : 1 <= INR (length lb)) by (change 1 with (INR 1); apply le_INR; destruct lb; [cbn in Zb; lia|cbn; lia]).
      replace (moment (fmv_combine a b) * IZR (cnt la + cnt lb) - (msum la + msum lb)) with
        ((moment (fmv_combine a b) * IZR (cnt la + cnt lb) - (IZR (cnt la) * moment a + IZR (cnt lb) * moment b))
         + (moment a * IZR (cnt la) - msum la) + (moment b * IZR (cnt lb) - msum lb)) by ring.
      eapply Rle_trans; [apply Rabs_triang|]. eapply Rle_trans; [apply Rplus_le_compat_r, Rabs_triang|].
      eapply Rle_trans; [apply Rplus_le_compat; [apply Rplus_le_compat; [exact Ms|exact MA]|exact MB]|].
      rewrite plus_IZR. apply IZR_le in PA. apply IZR_le in PB.
      set (s := step_error2 K U) in *. set (p := INR (length la)) in *. set (q := INR (length lb)) in *.
      set (x := IZR (cnt la)) in *. set (y := IZR (cnt lb)) in *.
      replace (s * (x + y) + s * p * x + s * q * y) with (s * ((x + y) + p * x + q * y)) by ring.
      replace (s * (p + q) * (x + y)) with (s * ((p + q) * (x + y))) by ring.
      apply Rmult_le_compat_l; [exact S2|]. nra.
  Qed.

  (** The invariant. *)
  Definition Inv (l : list (list f32)) (a : fmv) : Prop :=
    Forall okb l -> (cnt l <= 2 ^ 53)%Z -> pre l a /\ wide a /\ raw a.

  Lemma inv_create : Inv [] fmv_create.
  Proof. intros _ _. split; [apply pre_create|]. split; [exact Logic.I|]. split; [reflexivity|]. left. split; [reflexivity|cbn; lra]. Qed.

  Lemma inv_combine la lb a b : Inv la a -> Inv lb b -> Inv (la ++ lb) (fmv_combine a b).
  Proof.
    intros A B O T. apply Forall_app in O as [OA OB]. rewrite cnt_app in T.
    pose proof (cnt_pos la). pose proof (cnt_pos lb).
    destruct (A OA ltac:(lia)) as (PA & WA & _). destruct (B OB ltac:(lia)) as (PB & WB & _).
    apply pre_combine; auto. rewrite cnt_app. exact T.
  Qed.

  Lemma inv_merge ls accs : ls <> [] -> Forall2 Inv ls accs -> Inv (concat ls) (fmv_merge accs).
  Proof.
    intros N F. inversion F as [|l a ls' accs' H F' E1 E2]; subst; [contradiction|]. cbn [concat fmv_merge]. clear N F.
    revert l a H. induction F' as [|l' a' ls' accs' H' _ IH]; intros l a H; cbn [concat fold_left].
    - rewrite app_nil_r. exact H.
    - rewrite app_assoc. apply IH. apply inv_combine; assumption.
  Qed.

  (** A bundle, once a value has been seen. *)
  Lemma bundle_inv xss : forall l a, Inv l a -> (Forall okb l -> (0 < cnt l)%Z) ->
    Inv (l ++ xss) (fold_left (fun a xs => fmv_combine a (f xs)) xss a).
  Proof.
    induction xss as [|xs xss IH]; intros l a H P; cbn [fold_left].
    - rewrite app_nil_r. exact H.
    - replace (l ++ xs :: xss) with ((l ++ [xs]) ++ xss) by (rewrite <- app_assoc; reflexivity). apply IH.
      + intros O T. apply Forall_app in O as [O1 O2]. rewrite cnt_app in T. pose proof (cnt_pos [xs]).
        destruct (H O1 ltac:(lia)) as (PA & WA & _). apply pre_combine; auto.
        * apply pre_batch. inversion O2; assumption.
        * rewrite cnt_app. exact T.
        * left. rewrite cnt_app. specialize (P O1). lia.
      + intro O. rewrite cnt_app. apply Forall_app in O as [O1 _]. specialize (P O1). pose proof (cnt_pos [xs]). lia.
  Qed.

  Lemma has_value_pos xs : has_value xs -> (0 < values_in xs)%Z.
  Proof.
    intros (x & Hx & Fx). unfold values_in. assert (In x (filter is_finite xs)) by (apply filter_In; auto).
    destruct (filter is_finite xs); [contradiction|cbn; lia].
  Qed.

  Lemma inner_inv (s : sched (list f32)) : starts_with_value s ->
    Inv (elements s) (run fmv_create (fun a xs => fmv_combine a (f xs)) fmv_merge s).
  Proof.
    induction s as [xss|s0 rest IH0 IHr] using sched_ind'; cbn [starts_with_value elements run]; intro H.
    - destruct xss as [|xs xss]; [apply inv_create|]. cbn [fold_left].
      change (xs :: xss) with ([xs] ++ xss). apply bundle_inv.
      + intros O T. change [xs] with ([] ++ [xs]). apply pre_combine.
        * apply pre_create.
        * apply pre_batch. inversion O; assumption.
        * left. exact Logic.I.
        * exact T.
        * left. cbn [app cnt fold_right]. pose proof (has_value_pos xs H). lia.
      + intros _. cbn. pose proof (has_value_pos xs H). lia.
    - destruct H as [H0 H].
      replace (elements s0 ++ flat_map elements rest)
        with (concat (elements s0 :: map elements rest)) by (cbn; rewrite flat_map_concat_map; reflexivity).
      apply inv_merge; [discriminate|]. constructor; [apply IH0, H0|]. clear IH0 H0.
      induction IHr as [|x l Hx _ IH]; cbn in *; constructor; [apply Hx; tauto|apply IH; tauto].
  Qed.

  Definition whole (s : sched (sched (list f32))) : fmv :=
    run fmv_create (fun a x => fmv_combine a (run fmv_create (fun a xs => fmv_combine a (f xs)) fmv_merge x)) fmv_merge s.

  Lemma whole_inv (s : sched (sched (list f32))) : Forall starts_with_value (elements s) -> Inv (batches_of s) (whole s).
  Proof.
    intro H. unfold batches_of, whole.
    apply (run_rep fmv_create (fun a x => fmv_combine a (run fmv_create (fun a xs => fmv_combine a (f xs)) fmv_merge x)) fmv_merge
             (fun ls a => Inv (flat_map elements ls) a) inv_create starts_with_value).
    - intros l a x Hx Hl. rewrite flat_map_app. cbn [flat_map]. rewrite app_nil_r. apply inv_combine; [exact Hl|apply inner_inv, Hx].
    - intros ls accs N F. 
      replace (flat_map elements (concat ls)) with (concat (map (flat_map elements) ls)).
      + apply inv_merge; [destruct ls; [contradiction|discriminate]|]. clear N. induction F; cbn; constructor; auto.
      + clear. induction ls as [|x ls IH]; cbn; [reflexivity|]. rewrite flat_map_app, IH. reflexivity.
    - exact H.
  Qed.
End schedules.

Lemma mean_and_var_whole reduce_sum s :
  mean_and_var32 reduce_sum s = let a := whole (batch_fmv reduce_sum) s in (as_f32 (f_mean a), as_f32 (f_var a)).
Proof.
  unfold mean_and_var32, analyze, run_merge. cbv zeta.
  assert (E : forall X Y (g : X -> Y) (h : sched Y -> fmv) (s : sched (sched X)),
    map_sched h (map_sched (map_sched g) s) = map_sched (fun x => h (map_sched g x)) s).
  { intros. induction s0 as [xs|s0 rest IH0 IHr] using sched_ind'; cbn; [rewrite map_map; reflexivity|].
    rewrite IH0. f_equal. rewrite map_map. induction IHr as [|x l Hx _ IH]; cbn; [reflexivity|]. rewrite Hx, IH. reflexivity. }
  rewrite E, run_map. cbn [fmv_combiner extract_output create_accumulator merge_accumulators fmv_merge fold_left].
  assert (Q : forall x, run_accumulate fmv_combiner (map_sched (batch_fmv reduce_sum) x)
                        = run fmv_create (fun a xs => fmv_combine a (batch_fmv reduce_sum xs)) fmv_merge x).
  { intro x. unfold run_accumulate. rewrite run_map. reflexivity. }
  assert (G : forall (g h : sched (list f32) -> fmv), (forall x, g x = h x) -> forall s,
    run fmv_create (fun a x => fmv_combine a (g x)) fmv_merge s = run fmv_create (fun a x => fmv_combine a (h x)) fmv_merge s).
  { intros g h H t. induction t as [xs|s0 rest IH0 IHr] using sched_ind'; cbn [run].
    - generalize fmv_create. induction xs as [|x xs IH]; intro a; cbn; [reflexivity|]. rewrite H. apply IH.
    - rewrite IH0. do 2 f_equal. induction IHr as [|x l Hx _ IH]; cbn; [reflexivity|]. rewrite Hx, IH. reflexivity. }
  rewrite (G _ _ Q). reflexivity.
Qed.
