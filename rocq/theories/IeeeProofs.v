From Coq Require Import List ZArith Reals Bool Lra Lia.
From Flocq Require Import Core BinarySingleNaN Plus_error Relative.
From Verif Require Import IeeeModel IeeeSpec.
Import ListNotations.
Local Open Scope R_scope.

Local Notation fexp32 := (SpecFloat.fexp 24 128).
Local Notation fexp64 := (SpecFloat.fexp 53 1024).
Local Existing Instance prec32.
Local Existing Instance emax32.
Local Existing Instance prec64.
Local Existing Instance emax64.

Lemma fexp32_eq : forall e, fexp32 e = FLT_exp (-149) 24 e.
Proof. reflexivity. Qed.

Local Notation rnd := single.
Lemma rnd_eq r : round radix2 fexp32 (round_mode mode_NE) r = rnd r.
Proof. reflexivity. Qed.

Definition rnd64 (r : R) : R := round radix2 fexp64 ZnearestE r.

Local Instance ve32 : Valid_exp fexp32 := fexp_correct 24 128 prec32.
Local Instance ve32' : Valid_exp (FLT_exp (-149) 24) := FLT_exp_valid (-149) 24.
Local Instance ve64 : Valid_exp fexp64 := fexp_correct 53 1024 prec64.

Lemma rnd_le a b : a <= b -> rnd a <= rnd b.
Proof. intro H. unfold single. apply round_le; auto with typeclass_instances. Qed.

Lemma rnd_B2R (x : f32) : rnd (B2R x) = B2R x.
Proof. unfold single. apply round_generic; auto with typeclass_instances. apply (generic_format_B2R 24 128). Qed.

Lemma rnd_0 : rnd 0 = 0.
Proof. unfold single. apply round_0; auto with typeclass_instances. Qed.

Lemma rnd_rnd a : rnd (rnd a) = rnd a.
Proof. unfold single. apply round_generic; auto with typeclass_instances. apply generic_format_round; auto with typeclass_instances. Qed.

Lemma format_rnd a : generic_format radix2 (FLT_exp (-149) 24) (rnd a).
Proof. apply generic_format_round; auto with typeclass_instances. Qed.

Lemma format_bpow e : (-149 <= e)%Z -> generic_format radix2 (FLT_exp (-149) 24) (bpow radix2 e).
Proof. intro H. apply generic_format_FLT_bpow; auto with typeclass_instances. Qed.

Lemma rnd_bpow e : (-149 <= e)%Z -> rnd (bpow radix2 e) = bpow radix2 e.
Proof. intro H. unfold single. apply round_generic; auto with typeclass_instances. apply format_bpow; exact H. Qed.

Lemma rnd_1 : rnd 1 = 1.
Proof. change 1 with (bpow radix2 0). apply rnd_bpow. lia. Qed.

Lemma rnd_opp a : rnd (- a) = - rnd a.
Proof. unfold single. apply round_NE_opp. Qed.

Lemma rnd_abs_bpow a e : (-149 <= e)%Z -> Rabs a <= bpow radix2 e -> Rabs (rnd a) <= bpow radix2 e.
Proof.
  intros H A. unfold single. apply abs_round_le_generic; auto with typeclass_instances.
  apply format_bpow; exact H.
Qed.

(** The error of rounding. *)
Lemma rnd_err a : Rabs (rnd a - a) <= bpow radix2 (-24) * Rabs a + bpow radix2 (-150).
Proof.
  destruct (error_N_FLT radix2 (-149) 24 (eq_refl : (0 < 24)%Z) (fun z => negb (Z.even z)) a)
    as (eps & eta & E & T & _ & Q).
  unfold single. change ZnearestE with (Znearest (fun z => negb (Z.even z))). rewrite Q.
  replace (a * (1 + eps) + eta - a) with (a * eps + eta) by ring.
  eapply Rle_trans; [apply Rabs_triang|]. rewrite Rabs_mult.
  apply Rplus_le_compat.
  - rewrite Rmult_comm. apply Rmult_le_compat_r; [apply Rabs_pos|].
    eapply Rle_trans; [exact E|]. right. simpl. lra.
  - eapply Rle_trans; [exact T|]. right. simpl. lra.
Qed.

Lemma small_lt (a : R) e : (-149 <= e < 128)%Z -> Rabs a <= bpow radix2 e ->
  Rlt_bool (Rabs (rnd a)) (bpow radix2 128) = true.
Proof.
  intros H A. apply Rlt_bool_true. eapply Rle_lt_trans; [apply (rnd_abs_bpow a e); [lia | exact A]|].
  apply bpow_lt. lia.
Qed.

Lemma add_ok (x y : f32) : is_finite x = true -> is_finite y = true ->
  Rabs (rnd (B2R x + B2R y)) < bpow radix2 128 ->
  is_finite (add32 x y) = true /\ B2R (add32 x y) = rnd (B2R x + B2R y).
Proof.
  intros Fx Fy H. pose proof (Bplus_correct 24 128 prec32 emax32 mode_NE x y Fx Fy) as C.
  cbv beta in C. rewrite rnd_eq in C. rewrite Rlt_bool_true in C by exact H.
  destruct C as (A & B & _). split; [exact B | exact A].
Qed.

Lemma sub_ok (x y : f32) : is_finite x = true -> is_finite y = true ->
  Rabs (rnd (B2R x - B2R y)) < bpow radix2 128 ->
  is_finite (sub32 x y) = true /\ B2R (sub32 x y) = rnd (B2R x - B2R y).
Proof.
  intros Fx Fy H. pose proof (Bminus_correct 24 128 prec32 emax32 mode_NE x y Fx Fy) as C.
  cbv beta in C. rewrite rnd_eq in C. rewrite Rlt_bool_true in C by exact H.
  destruct C as (A & B & _). split; [exact B | exact A].
Qed.

Lemma mul_ok (x y : f32) : is_finite x = true -> is_finite y = true ->
  Rabs (rnd (B2R x * B2R y)) < bpow radix2 128 ->
  is_finite (mul32 x y) = true /\ B2R (mul32 x y) = rnd (B2R x * B2R y).
Proof.
  intros Fx Fy H. pose proof (Bmult_correct 24 128 prec32 emax32 mode_NE x y) as C.
  cbv beta in C. rewrite rnd_eq in C. rewrite Rlt_bool_true in C by exact H.
  destruct C as (A & B & _). split; [unfold mul32; rewrite B, Fx, Fy; reflexivity | exact A].
Qed.

Lemma div_ok (x y : f32) : is_finite x = true -> B2R y <> 0 ->
  Rabs (rnd (B2R x / B2R y)) < bpow radix2 128 ->
  is_finite (div32 x y) = true /\ B2R (div32 x y) = rnd (B2R x / B2R y).
Proof.
  intros Fx Y H. pose proof (Bdiv_correct 24 128 prec32 emax32 mode_NE x y Y) as C.
  cbv beta in C. rewrite rnd_eq in C. rewrite Rlt_bool_true in C by exact H.
  destruct C as (A & B & _). split; [unfold div32; rewrite B; exact Fx | exact A].
Qed.

Lemma rnd_sub_pos (x y : f32) : B2R y < B2R x -> 0 < rnd (B2R x - B2R y).
Proof.
  intro H. assert (0 <= rnd (B2R x - B2R y)) as P by (rewrite <- rnd_0; apply rnd_le; lra).
  destruct P as [P | P]; [exact P | exfalso]. symmetry in P. revert P.
  unfold Rminus. rewrite <- B2R_Bopp.
  apply round_plus_neq_0; auto with typeclass_instances.
  - apply (generic_format_B2R 24 128).
  - apply (generic_format_B2R 24 128).
  - rewrite B2R_Bopp. lra.
Qed.

(** Casts. *)
Lemma cast_int_ok z : Rabs (IZR z) <= bpow radix2 126 ->
  is_finite (cast_int z) = true /\ B2R (cast_int z) = rnd (IZR z).
Proof.
  intro H. pose proof (binary_normalize_correct 24 128 prec32 emax32 mode_NE z 0 false) as C.
  cbv zeta in C. rewrite rnd_eq in C.
  assert (F2R (Float radix2 z 0) = IZR z) as E by (unfold F2R; simpl; ring).
  rewrite E in C. rewrite (small_lt (IZR z) 126) in C by (lia || exact H).
  destruct C as (A & B & _). split; [exact B | exact A].
Qed.

Lemma cast_f64_ok (d : f64) e : is_finite d = true -> (-149 <= e < 128)%Z -> Rabs (B2R d) <= bpow radix2 e ->
  is_finite (cast_f64 d) = true /\ B2R (cast_f64 d) = rnd (B2R d).
Proof.
  intros F He H. destruct d as [s|s| |s m ex B]; try discriminate F.
  - simpl. split; [reflexivity | symmetry; apply rnd_0].
  - cbn [cast_f64].
    pose proof (binary_normalize_correct 24 128 prec32 emax32 mode_NE (cond_Zopp s (Zpos m)) ex s) as C.
    cbv zeta in C. rewrite rnd_eq in C. cbn [B2R] in H |- *.
    rewrite (small_lt _ e) in C by (lia || exact H).
    destruct C as (A & B' & _). split; [exact B' | exact A].
Qed.

Lemma pow126 : IZR (2 ^ 126) = bpow radix2 126.
Proof. symmetry. apply (IZR_Zpower radix2 126). lia. Qed.

Lemma pow100 : IZR (2 ^ 100) = bpow radix2 100.
Proof. symmetry. apply (IZR_Zpower radix2 100). lia. Qed.

Lemma to_f32_ok x : ordinary x ->
  is_finite (to_f32 x) = true /\ B2R (to_f32 x) = rnd (val x) /\ Rabs (B2R (to_f32 x)) <= bpow radix2 126.
Proof.
  intros [H A]. rewrite pow126 in A.
  assert (is_finite (to_f32 x) = true /\ B2R (to_f32 x) = rnd (val x)) as [F E].
  { destruct x as [z|f|d]; cbn [to_f32 val] in *.
    - apply cast_int_ok; exact A.
    - split; [exact H | symmetry; apply rnd_B2R].
    - apply (cast_f64_ok d 126); [exact H | lia | exact A]. }
  split; [exact F | split; [exact E|]]. rewrite E. apply rnd_abs_bpow; [lia | exact A].
Qed.

(** Minimum and maximum. *)
Lemma is_finite_nan (x : f32) : is_finite x = true -> is_nan x = false.
Proof. destruct x; simpl; congruence. Qed.

Lemma max_fin (x y : f32) : is_finite x = true -> is_finite y = true ->
  is_finite (max32 x y) = true /\ B2R (max32 x y) = Rmax (B2R x) (B2R y).
Proof.
  intros Fx Fy. unfold max32. rewrite (is_finite_nan x Fx), (is_finite_nan y Fy). cbn [orb].
  rewrite (Bleb_correct 24 128 x y Fx Fy).
  destruct (Rle_bool_spec (B2R x) (B2R y)) as [H|H].
  - split; [exact Fy | symmetry; apply Rmax_right; exact H].
  - split; [exact Fx | symmetry; apply Rmax_left; lra].
Qed.

Lemma max_neg_inf (y : f32) : is_finite y = true -> max32 neg_inf32 y = y.
Proof. destruct y; simpl; try discriminate; reflexivity. Qed.

Lemma max_neg_inf_r (y : f32) : is_finite y = true -> max32 y neg_inf32 = y.
Proof. destruct y as [s|s| |[] m e H]; simpl; try discriminate; reflexivity. Qed.

Definition is_max (r : f32) (l : list f32) : Prop :=
  is_finite r = true /\ (exists x, In x l /\ B2R r = B2R x) /\ (forall x, In x l -> B2R x <= B2R r).

Lemma fold_max (l : list f32) : forall a, is_finite a = true -> Forall (fun x => is_finite x = true) l ->
  is_max (fold_left max32 l a) (a :: l).
Proof.
  induction l as [|b l IH]; intros a Fa Fl.
  - split; [exact Fa|]. split; [exists a; split; [left; reflexivity | reflexivity]|].
    intros x [<- | []]. apply Rle_refl.
  - inversion Fl as [|? ? Fb Fl']; subst. cbn [fold_left].
    destruct (max_fin a b Fa Fb) as [F E].
    destruct (IH _ F Fl') as (G & (x & X1 & X2) & M). split; [exact G|]. split.
    + destruct X1 as [<- | X1].
      * rewrite X2, E. unfold Rmax. destruct (Rle_dec (B2R a) (B2R b)).
        -- exists b. split; [right; left; reflexivity | reflexivity].
        -- exists a. split; [left; reflexivity | reflexivity].
      * exists x. split; [right; right; exact X1 | exact X2].
    + assert (B2R (max32 a b) <= B2R (fold_left max32 l (max32 a b))) as K by (apply M; left; reflexivity).
      rewrite E in K.
      intros y [<- | [<- | Y]].
      * eapply Rle_trans; [apply Rmax_l | exact K].
      * eapply Rle_trans; [apply Rmax_r | exact K].
      * apply M. right. exact Y.
Qed.

Lemma reduce_max_ok l : l <> [] -> Forall (fun x => is_finite x = true) l -> is_max (reduce_max32 l) l.
Proof.
  intros N F. destruct l as [|a l]; [contradiction|]. inversion F; subst.
  unfold reduce_max32. cbn [fold_left]. rewrite max_neg_inf by assumption. apply fold_max; assumption.
Qed.

(** Folding over batches, some of which may be empty. *)
Definition fin_or_neg (x : f32) : Prop := is_finite x = true \/ x = neg_inf32.

Lemma reduce_max_or l : Forall (fun x => is_finite x = true) l ->
  (l = [] /\ reduce_max32 l = neg_inf32) \/ (l <> [] /\ is_max (reduce_max32 l) l).
Proof.
  intro F. destruct l as [|a l]; [left; split; reflexivity | right].
  split; [discriminate | apply reduce_max_ok; [discriminate | exact F]].
Qed.

Lemma max_neg_both : max32 neg_inf32 neg_inf32 = neg_inf32.
Proof. reflexivity. Qed.

Lemma fold_skip l : forall a, fin_or_neg a -> Forall fin_or_neg l ->
  fold_left max32 l a = fold_left max32 (filter is_finite l) a.
Proof.
  induction l as [|b l IH]; intros a A L; [reflexivity|].
  inversion L as [|? ? B L']; subst. cbn [fold_left filter].
  destruct B as [B | ->].
  - rewrite B. cbn [fold_left]. apply IH; [|exact L'].
    destruct A as [A | ->]; [left; apply (max_fin a b A B) | left; rewrite max_neg_inf; assumption].
  - cbn [is_finite neg_inf32]. rewrite <- IH; [|exact A | exact L'].
    f_equal. destruct A as [A | ->]; [apply max_neg_inf_r; exact A | reflexivity].
Qed.

Lemma reduce_batches (batches : list (list f32)) :
  Forall (Forall (fun x => is_finite x = true)) batches -> concat batches <> [] ->
  is_max (reduce_max32 (map reduce_max32 batches)) (concat batches).
Proof.
  intros F N.
  assert (Forall fin_or_neg (map reduce_max32 batches)) as G.
  { rewrite Forall_map. eapply Forall_impl; [|exact F]. cbv beta. intros b Fb.
    destruct (reduce_max_or b Fb) as [[_ E] | [_ [E _]]]; [right; exact E | left; exact E]. }
  unfold reduce_max32 at 1. rewrite fold_skip; [|right; reflexivity | exact G].
  set (k := filter is_finite (map reduce_max32 batches)).
  assert (forall r, In r k <-> exists b, In b batches /\ b <> [] /\ r = reduce_max32 b) as K.
  { intro r. unfold k. rewrite filter_In, in_map_iff. split.
    - intros [(b & <- & B) Fr]. exists b. split; [exact B|]. split; [|reflexivity].
      intros ->. discriminate Fr.
    - intros (b & B & Nb & ->). split; [exists b; split; [reflexivity | exact B]|].
      rewrite Forall_forall in F. apply (reduce_max_ok b Nb (F b B)). }
  assert (Forall (fun x => is_finite x = true) k) as Fk.
  { rewrite Forall_forall. intros r R. unfold k in R. apply filter_In in R. apply R. }
  assert (k <> []) as Nk.
  { intro E. assert (exists x, In x (concat batches)) as [x X].
    { destruct (concat batches) as [|x ?]; [contradiction | exists x; left; reflexivity]. }
    apply in_concat in X. destruct X as (b & B & X).
    assert (In (reduce_max32 b) k) as I.
    { apply K. exists b. split; [exact B | split; [|reflexivity]]. intros ->. destruct X. }
    rewrite E in I. destruct I. }
  destruct (reduce_max_ok k Nk Fk) as (R1 & (r & R2 & R3) & R4).
  unfold reduce_max32 in R1, R3, R4. rewrite Forall_forall in F.
  split; [exact R1|]. split.
  - apply K in R2. destruct R2 as (b & B & Nb & ->).
    destruct (reduce_max_ok b Nb (F b B)) as (_ & (x & X1 & X2) & _).
    exists x. split; [apply in_concat; exists b; split; assumption | rewrite R3; exact X2].
  - intros x X. apply in_concat in X. destruct X as (b & B & X).
    assert (b <> []) as Nb by (intros ->; destruct X).
    eapply Rle_trans; [|apply (R4 (reduce_max32 b)); apply K; exists b; repeat split; assumption].
    apply (reduce_max_ok b Nb (F b B)). exact X.
Qed.

Lemma neg_ok (x : f32) : is_finite x = true ->
  is_finite (sub32 zero32 x) = true /\ B2R (sub32 zero32 x) = - B2R x.
Proof.
  intro F. assert (rnd (B2R zero32 - B2R x) = - B2R x) as E.
  { replace (B2R zero32 - B2R x) with (- B2R x) by (simpl; ring). rewrite rnd_opp, rnd_B2R. reflexivity. }
  destruct (sub_ok zero32 x eq_refl F) as [A B].
  - rewrite E, Rabs_Ropp. apply (abs_B2R_lt_emax 24 128).
  - split; [exact A | rewrite B; exact E].
Qed.

Lemma min_and_max_ok (batches : list (list f32)) :
  Forall (Forall (fun x => is_finite x = true)) batches -> concat batches <> [] ->
  exists mn mx, min_and_max32 batches = (mn, mx)
    /\ is_max mx (concat batches)
    /\ is_finite mn = true /\ (exists x, In x (concat batches) /\ B2R mn = B2R x)
    /\ (forall x, In x (concat batches) -> B2R mn <= B2R x).
Proof.
  intros F N. unfold min_and_max32, batch32. rewrite !map_map. cbn [fst snd].
  eexists. eexists. split; [reflexivity|].
  split. { apply (reduce_batches batches F N). }
  set (nb := map (map (fun x => sub32 zero32 x)) batches).
  assert (map (fun b => reduce_max32 (map (fun x => sub32 zero32 x) b)) batches = map reduce_max32 nb) as E.
  { unfold nb. rewrite map_map. reflexivity. }
  rewrite E.
  assert (concat nb = map (fun x => sub32 zero32 x) (concat batches)) as C by (unfold nb; rewrite concat_map; reflexivity).
  assert (forall x, In x (concat batches) -> is_finite x = true) as Fx.
  { intros x X. apply in_concat in X. destruct X as (b & B & X). rewrite Forall_forall in F.
    specialize (F b B). rewrite Forall_forall in F. exact (F x X). }
  destruct (reduce_batches nb) as (A & (x & X1 & X2) & M).
  { unfold nb. rewrite Forall_map. eapply Forall_impl; [|exact F]. cbv beta. intros b Fb.
    rewrite Forall_map. eapply Forall_impl; [|exact Fb]. cbv beta. intros y Fy. apply (neg_ok y Fy). }
  { rewrite C. destruct (concat batches); [contradiction | discriminate]. }
  destruct (neg_ok _ A) as [B1 B2]. split; [exact B1|]. rewrite B2. split.
  - rewrite C in X1. apply in_map_iff in X1. destruct X1 as (y & <- & Y). exists y. split; [exact Y|].
    rewrite X2. destruct (neg_ok y (Fx y Y)) as [_ ->]. ring.
  - intros y Y. assert (B2R (sub32 zero32 y) <= B2R (reduce_max32 (map reduce_max32 nb))) as L.
    { apply M. rewrite C. apply (in_map (fun x => sub32 zero32 x)) in Y. exact Y. }
    destruct (neg_ok y (Fx y Y)) as [_ L']. rewrite L' in L. lra.
Qed.
