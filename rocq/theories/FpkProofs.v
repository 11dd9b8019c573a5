(** Lemmas for C79: the boundaries of all keys, and the bucket of a value. *)
From Coq Require Import String List ZArith Reals Bool Sorted Lra Lia.
From Flocq Require Import Core BinarySingleNaN.
From Verif Require Import PerKeyModel PerKeyProofs BucketProofs IeeeModel IeeeSpec IeeeProofs FpkModel FpkSpec FpkSearch FpkRow.
Import ListNotations.
Local Open Scope R_scope.

Local Existing Instance prec32.
Local Existing Instance emax32.
Local Notation bp := (bpow radix2).

Lemma all_rows_some : forall M, (forall row, In row M -> row <> []) ->
  exists m, all_rows (map strict_row32 M) = Some m /\ Forall2 (fun row row' => strict_row32 row = Some row') M m.
Proof.
  induction M as [|row M IH]; intro H; [exists []; split; [reflexivity|constructor]|].
  destruct IH as (m & E & F); [intros r Hr; apply H; right; exact Hr|].
  destruct row as [|a t]; [exfalso; apply (H [] (or_introl eq_refl)); reflexivity|].
  cbn [map all_rows]. destruct (strict_row32 (a :: t)) as [row'|] eqn:E'; [|discriminate]. rewrite E. exists (row' :: m). split; [reflexivity|]. constructor; assumption.
Qed.

Lemma Forall2_nth {A B} (P : A -> B -> Prop) : forall l l', Forall2 P l l' -> forall i a, nth_error l i = Some a -> exists b, nth_error l' i = Some b /\ P a b.
Proof.
  intros l l' H. induction H as [|a b l l' Hab H IH]; intros [|i] x E; try discriminate.
  - injection E as <-. exists b. split; [reflexivity|exact Hab].
  - apply IH. exact E.
Qed.

Lemma Forall2_len {A B} (P : A -> B -> Prop) l l' : Forall2 P l l' -> length l = length l'.
Proof. intro H. induction H; cbn [length]; congruence. Qed.

Lemma Forall2_sym_nth {A B} (P : A -> B -> Prop) : forall l l', Forall2 P l l' -> forall i b, nth_error l' i = Some b -> exists a, nth_error l i = Some a /\ P a b.
Proof.
  intros l l' H. induction H as [|a b l l' Hab H IH]; intros [|i] x E; try discriminate.
  - injection E as <-. exists a. split; [reflexivity|exact Hab].
  - apply IH. exact E.
Qed.

Lemma shifts_nth : forall m j i row, nth_error m i = Some row -> nth_error (shifts32 j m) i = Some (row_shift32 (j + i) row).
Proof.
  induction m as [|r m IH]; intros j [|i] row E; try discriminate; cbn [shifts32 nth_error] in *.
  - injection E as <-. rewrite Nat.add_0_r. reflexivity.
  - rewrite (IH (S j) i row E). do 2 f_equal. lia.
Qed.

Lemma scaled_app : forall m1 m2 j, scaled_rows32 j (m1 ++ m2) = scaled_rows32 j m1 ++ scaled_rows32 (j + length m1) m2.
Proof.
  induction m1 as [|r m1 IH]; intros m2 j; cbn [app scaled_rows32 length].
  - rewrite Nat.add_0_r. reflexivity.
  - rewrite IH, app_assoc. do 2 f_equal. lia.
Qed.

Lemma scaled_in : forall m j z, In z (scaled_rows32 j m) -> exists i row b, nth_error m i = Some row /\ In b (tl row) /\
  z = place32 (row_scale32 row) (row_shift32 (j + i) row) b.
Proof.
  induction m as [|r m IH]; intros j z H; [destruct H|]. cbn [scaled_rows32] in H. apply in_app_or in H. destruct H as [H|H].
  - apply in_map_iff in H. destruct H as (b & <- & Hb). exists 0%nat, r, b. rewrite Nat.add_0_r. auto.
  - destruct (IH (S j) z H) as (i & row & b & E & Hb & ->). exists (S i), row, b. split; [exact E|]. split; [exact Hb|].
    replace (j + S i)%nat with (S j + i)%nat by lia. reflexivity.
Qed.

Lemma scaled_length : forall m j w, (forall row, In row m -> length row = w) -> length (scaled_rows32 j m) = ((w - 1) * length m)%nat.
Proof.
  induction m as [|r m IH]; intros j w H; cbn [scaled_rows32 length]; [lia|].
  rewrite app_length, map_length, (IH (S j) w) by (intros row Hr; apply H; right; exact Hr).
  assert (length (tl r) = w - 1)%nat by (rewrite <- (H r (or_introl eq_refl)); destruct r; cbn; lia). lia.
Qed.

(** The bucket of a known key, with the boundaries of all keys in view. *)
Lemma bucketize_known num_buckets vocab matrix i k m row' x :
  (2 <= num_buckets)%nat -> NoDup vocab -> nth_error vocab i = Some k ->
  all_rows (map strict_row32 matrix) = Some m -> nth_error m i = Some row' ->
  bucketize_per_key32 num_buckets vocab matrix k x =
  Some (Z.max 0 (Z.min (Z.of_nat (upper_bound32 (zero32 :: scaled_rows32 0 m) (place32 (row_scale32 row') (row_shift32 i row') (to_f32 x)))
    - (Z.of_nat num_buckets - 2) * Z.of_nat i) (Z.of_nat num_buckets - 1)))%Z.
Proof.
  intros NB ND Ek Em Er. unfold bucketize_per_key32. destruct (Nat.ltb_spec num_buckets 1); [lia|]. unfold join_boundary_rows32. rewrite Em.
  destruct (num_buckets - 1)%nat as [|w] eqn:EW; [lia|]. unfold apply_buckets_with_keys32. cbv zeta. cbn [j_scale32 j_shift32 j_boundaries32 j_num_buckets32].
  rewrite (lookup_key_nth vocab i k ND Ek). destruct (Z.ltb_spec (Z.of_nat i) 0); [lia|]. rewrite Nat2Z.id.
  rewrite (map_nth_error row_scale32 i m Er), (shifts_nth m 0 i row' Er). cbn [plus].
  f_equal. set (ub := upper_bound32 _ _). replace num_buckets with (S w + 1)%nat by lia. f_equal. f_equal; lia.
Qed.

(** Comparisons of finite numbers, and of finite numbers with anything. *)
Lemma not_below (v z : f32) : is_finite v = true -> is_finite z = true -> B2R z <= B2R v -> Bltb v z = false.
Proof. intros Fv Fz H. rewrite (Bltb_correct 24 128 v z Fv Fz). apply Rlt_bool_false. exact H. Qed.

Lemma below (v z : f32) : is_finite v = true -> is_finite z = true -> B2R v < B2R z -> Bltb v z = true.
Proof. intros Fv Fz H. rewrite (Bltb_correct 24 128 v z Fv Fz). apply Rlt_bool_true. exact H. Qed.

Lemma below_le (v v' z : f32) : is_finite v = true -> is_finite v' = true -> B2R v <= B2R v' -> Bltb v' z = true -> Bltb v z = true.
Proof.
  intros F F' H L. destruct (is_finite z) eqn:Fz.
  - rewrite (Bltb_correct 24 128 v' z F' Fz) in L. apply below; auto. destruct (Rlt_bool_spec (B2R v') (B2R z)); [lra|discriminate].
  - clear H. destruct z as [|s| |]; try discriminate Fz.
    + destruct s; [exfalso; destruct v' as [b|b| |b mm e HH]; try discriminate F'; try destruct b; discriminate L|].
      destruct v as [b|b| |b mm e HH]; try discriminate F; try destruct b; reflexivity.
    + exfalso. destruct v'; discriminate L.
Qed.

(** The boundaries of a key in two parts: those at or below [x] and those above. *)
Lemma split_sorted (x : R) : forall l : list f32, Sorted (fun a b : f32 => B2R a <= B2R b) l ->
  exists l1 l2, l = l1 ++ l2 /\ (forall b, In b l1 -> B2R b <= x) /\ (forall b, In b l2 -> x < B2R b) /\ bucket_R (map B2R l) x = length l1.
Proof.
  intros l H. apply Sorted_StronglySorted in H; [|intros a b c A B; cbv beta in *; lra].
  induction H as [|a l HS IH HA]; [exists [], []; repeat split; intros b []|].
  unfold bucket_R. cbn [map filter]. destruct (Rle_dec (B2R a) x) as [L|L].
  - destruct IH as (l1 & l2 & -> & A & B & C). exists (a :: l1), l2. split; [reflexivity|]. split; [intros b [<-|Hb]; auto|]. split; [exact B|].
    cbn [length]. f_equal. exact C.
  - exists [], (a :: l). split; [reflexivity|]. split; [intros b []|]. rewrite Forall_forall in HA. split.
    + intros b [<-|Hb]; [lra|]. pose proof (HA b Hb). cbv beta in *. lra.
    + clear - HA L. induction l as [|b l IH]; [reflexivity|]. cbn [map filter]. destruct (Rle_dec (B2R b) x) as [L'|L'].
      * pose proof (HA b (or_introl eq_refl)). cbv beta in *. lra.
      * apply IH. intros y Hy. apply HA. right. exact Hy.
Qed.

Lemma Forall2_last {A B} (P : A -> B -> Prop) : forall l l', Forall2 P l l' -> l <> [] ->
  exists p a p' b, l = p ++ [a] /\ l' = p' ++ [b] /\ P a b.
Proof.
  intros l l' H. induction H as [|a b l l' Hab H IH]; intro NE; [congruence|]. destruct H as [|a2 b2 l l' Hab2 H].
  - exists [], a, [], b. auto.
  - destruct IH as (p & y & p' & z & -> & -> & Q); [discriminate|]. exists (a :: p), y, (b :: p'), z. auto.
Qed.

Lemma clip_top (w i t c ub : nat) : (S t + c = w -> 1 + (w - 1) * i + t <= ub -> c = 0 \/ ub <= 1 + (w - 1) * i + t)%nat ->
  (S t + c = w)%nat -> (1 + (w - 1) * i + t <= ub)%nat ->
  Z.max 0 (Z.min (Z.of_nat ub - (Z.of_nat w - 1) * Z.of_nat i) (Z.of_nat w)) = Z.of_nat (S t).
Proof.
  intros H E G. assert (M : ((Z.of_nat w - 1) * Z.of_nat i = Z.of_nat ((w - 1) * i))%Z) by nia. rewrite M. destruct (H E G) as [C|C]; lia.
Qed.

Lemma clip_low (w i ub : nat) : (1 <= w)%nat -> (ub <= (w - 1) * i)%nat ->
  Z.max 0 (Z.min (Z.of_nat ub - (Z.of_nat w - 1) * Z.of_nat i) (Z.of_nat w)) = Z.of_nat 0.
Proof.
  intros W H. assert (M : ((Z.of_nat w - 1) * Z.of_nat i = Z.of_nat ((w - 1) * i))%Z) by nia. rewrite M. lia.
Qed.

Section Own.
  Variables (rho N : R) (matrix m : list (list f32)) (w i : nat) (row row' : list f32) (xv : f32).
  Notation x := (B2R xv).
  Notation D := (spread row).
  Notation Z := (/ 1048576 * N).
  Notation s := (B2R (row_scale32 row')).
  Notation r0 := (B2R (hd nan32 row)).
  Notation v := (place32 (row_scale32 row') (row_shift32 i row') xv).
  Hypothesis HN : 0 < N <= bp 16.
  Hypothesis Hw : (2 <= w)%nat.
  Hypothesis HF : forall j r, nth_error matrix j = Some r -> exists r', nth_error m j = Some r' /\ facts rho N j r r'.
  Hypothesis HF' : forall j r', nth_error m j = Some r' -> exists r, nth_error matrix j = Some r /\ facts rho N j r r'.
  Hypothesis HW : forall r, In r matrix -> length r = w.
  Hypothesis HD : forall r, In r matrix -> 0 < spread r.
  Hypothesis Hrow : nth_error matrix i = Some row.
  Hypothesis Hrow' : nth_error m i = Some row'.
  Hypothesis Hf : facts rho N i row row'.
  Hypothesis HS : Sorted (fun a b : f32 => B2R a <= B2R b) row.
  Hypothesis HB : forall b, In b row -> Rabs (B2R b) <= rho * spread row.
  Hypothesis Fx : is_finite xv = true.
  Hypothesis Bx : Rabs x <= bp 60.
  Hypothesis Ax : away (N * / 65536 * D) row x.

  Lemma own_D0 : 0 < D.
  Proof. apply HD. apply nth_error_In with i. exact Hrow. Qed.
  Lemma own_Z : 0 < Z.
  Proof. lra. Qed.
  Lemma own_theta : N * / 65536 * D = 16 * Z * D.
  Proof. field. Qed.
  Lemma own_s0 : 0 < s.
  Proof. pose proof own_D0. destruct (f_scale _ _ _ _ _ Hf). apply Rmult_lt_reg_r with D; lra. Qed.
  Lemma theta_s : 12 * Z <= N * / 65536 * D * s.
  Proof.
    rewrite own_theta. replace (16 * Z * D * s) with (16 * Z * (s * D)) by ring. pose proof own_Z.
    destruct (f_scale _ _ _ _ _ Hf). apply Rle_trans with (16 * Z * (3 / 4)); [lra|]. apply Rmult_le_compat_l; lra.
  Qed.
  Lemma own_v : is_finite v = true /\ B2R v = place_R i row' x.
  Proof. apply (f_place _ _ _ _ _ Hf); auto. Qed.

  (** Every boundary of every key is where it should be, up to a little. *)
  Lemma other z j r r' b : nth_error m j = Some r' -> In b (tl r') -> z = place32 (row_scale32 r') (row_shift32 j r') b ->
    nth_error matrix j = Some r -> facts rho N j r r' -> is_finite z = true /\ INR j - Z <= B2R z <= INR j + 1 + 2 * Z.
  Proof.
    intros Er' Hb -> Er F. assert (G := f_bs _ _ _ _ _ F). pose proof own_Z.
    assert (G' : exists b0 : f32, is_finite b = true /\ Rabs (B2R b) <= (rho + 2) * spread r /\ B2R (hd nan32 r) <= B2R b /\
      Rabs (B2R b - B2R b0) * 8 <= N * / 65536 * spread r /\ Rabs (B2R b - B2R b0) * B2R (row_scale32 r') <= 3 * Z /\
      (B2R b - B2R (hd nan32 r)) * B2R (row_scale32 r') <= 1 + Z).
    { destruct (In_nth_error _ _ Hb) as [n En]. destruct (Forall2_nth _ _ _ G n b En) as (b0 & _ & P). exists b0. exact P. }
    destruct G' as (b0 & Fb & Bb & Gb & _ & _ & Lb). destruct (f_place _ _ _ _ _ F b Fb (or_intror Bb)) as [Fz Ez]. split; [exact Fz|]. rewrite Ez.
    assert (TT := f_T _ _ _ _ _ F (B2R b) Bb). apply Rabs_le_inv in TT.
    assert (D0 : 0 < spread r) by (apply HD, (nth_error_In _ _ Er)). destruct (f_scale _ _ _ _ _ F) as [S1 S2].
    assert (0 <= (B2R b - B2R (hd nan32 r)) * B2R (row_scale32 r')) by (apply Rmult_le_pos; [lra|]; apply Rlt_le, Rmult_lt_reg_r with (spread r); lra).
    lra.
  Qed.

  Definition before := scaled_rows32 0 (firstn i m).
  Definition own := map (place32 (row_scale32 row') (row_shift32 i row')) (tl row').
  Definition after := scaled_rows32 (S i) (skipn (S i) m).

  Lemma scaled_split : scaled_rows32 0 m = before ++ own ++ after.
  Proof.
    assert (E : m = firstn i m ++ row' :: skipn (S i) m).
    { destruct (nth_error_split m i Hrow') as (l1 & l2 & E & L). rewrite E, firstn_app, <- L, Nat.sub_diag, firstn_all, firstn_O, app_nil_r, skipn_app.
      rewrite skipn_all2 by lia. replace (S (length l1) - length l1)%nat with 1%nat by lia. reflexivity. }
    rewrite E at 1. rewrite scaled_app. cbn [scaled_rows32]. rewrite firstn_length_le; [reflexivity|].
    apply Nat.lt_le_incl, nth_error_Some. congruence.
  Qed.

  Lemma m_width r' : In r' m -> length r' = w.
  Proof.
    intro H. destruct (In_nth_error _ _ H) as [n En]. destruct (HF' n r' En) as (r & Er & F).
    rewrite (f_len _ _ _ _ _ F). apply HW. exact (nth_error_In _ _ Er).
  Qed.

  Lemma before_length : length before = ((w - 1) * i)%nat.
  Proof.
    unfold before. rewrite (scaled_length _ _ w).
    - rewrite firstn_length_le; [reflexivity|]. apply Nat.lt_le_incl, nth_error_Some. congruence.
    - intros r' H. apply m_width. clear - H. rewrite <- (firstn_skipn i m). apply in_or_app. left. exact H.
  Qed.

  Lemma before_in z : In z before -> is_finite z = true /\ B2R z <= INR i + 2 * Z.
  Proof.
    intro H. destruct (scaled_in _ _ _ H) as (j & r' & b & Ej & Hb & Ez). cbn [plus] in Ez.
    assert (L : (j < i)%nat).
    { assert (j < length (firstn i m))%nat by (apply nth_error_Some; congruence). rewrite firstn_length in H0. lia. }
    assert (Ej' : nth_error m j = Some r').
    { rewrite <- Ej. rewrite <- (firstn_skipn i m) at 1. apply nth_error_app1. apply nth_error_Some. congruence. }
    destruct (HF' j r' Ej') as (r & Er & F). destruct (other z j r r' b Ej' Hb Ez Er F) as [Fz Bz]. split; [exact Fz|].
    assert (INR (S j) <= INR i) by (apply le_INR; lia). rewrite S_INR in H0. lra.
  Qed.

  Lemma after_in z : In z after -> is_finite z = true /\ INR i + 1 - Z <= B2R z.
  Proof.
    intro H. destruct (scaled_in _ _ _ H) as (j & r' & b & Ej & Hb & Ez).
    assert (Ej' : nth_error m (S i + j) = Some r').
    { rewrite <- Ej. assert (L : (S i <= length m)%nat) by (apply nth_error_Some; congruence).
      rewrite <- (firstn_skipn (S i) m) at 1. rewrite nth_error_app2; rewrite firstn_length_le by exact L; [f_equal; lia|lia]. }
    destruct (HF' _ r' Ej') as (r & Er & F). destruct (other z _ r r' b Ej' Hb Ez Er F) as [Fz Bz]. split; [exact Fz|].
    assert (INR (S i) <= INR (S i + j)) by (apply le_INR; lia). rewrite S_INR in H0. lra.
  Qed.

  Lemma own_in z : In z own -> is_finite z = true /\ INR i - Z <= B2R z.
  Proof.
    unfold own. intro H. apply in_map_iff in H. destruct H as (b & <- & Hb).
    destruct (other _ i row row' b Hrow' Hb eq_refl Hrow Hf) as [Fz Bz]. split; [exact Fz|lra].
  Qed.

  (** A boundary of the key itself, against the value. *)
  Lemma own_cmp (b' b : f32) : In b row -> is_finite b' = true -> Rabs (B2R b') <= (rho + 2) * D ->
    Rabs (B2R b' - B2R b) * 8 <= N * / 65536 * D -> Rabs (B2R b' - B2R b) * s <= 3 * Z ->
    let z := place32 (row_scale32 row') (row_shift32 i row') b' in
    (B2R b <= x -> Bltb v z = false) /\ (x < B2R b -> Bltb v z = true).
  Proof.
    intros Hb Fb Bb E8 Es z. destruct own_v as [Fv Ev]. destruct (f_place _ _ _ _ _ Hf b' Fb (or_intror Bb)) as [Fz Ez]. fold z in Fz, Ez.
    pose proof own_Z as Z0. pose proof own_D0 as D0. pose proof own_s0 as S0. pose proof theta_s as TS. assert (A := Ax b Hb). split; intro H.
    - apply not_below; auto. rewrite Ez, Ev. apply (f_mono _ _ _ _ _ Hf).
      rewrite Rabs_pos_eq in A by lra. assert (K : Rabs (B2R b' - B2R b) <= N * / 65536 * D) by (pose proof (Rabs_pos (B2R b' - B2R b)); lra).
      apply Rabs_le_inv in K. lra.
    - apply below; auto. rewrite Ez, Ev. rewrite Rabs_left in A by lra.
      set (y := B2R b - N * / 65536 * D). apply Rle_lt_trans with (place_R i row' y); [apply (f_mono _ _ _ _ _ Hf); unfold y; lra|].
      assert (TH : 0 <= N * / 65536 * D <= D).
      { change (bp 16) with 65536 in HN. split; [apply Rmult_le_pos; lra|]. rewrite <- (Rmult_1_l D) at 2. apply Rmult_le_compat_r; lra. }
      assert (By : Rabs y <= (rho + 2) * D) by (assert (BB := Rabs_le_inv _ _ (HB b Hb)); apply Rabs_le; unfold y; lra).
      assert (T1 := Rabs_le_inv _ _ (f_T _ _ _ _ _ Hf y By)). assert (T2 := Rabs_le_inv _ _ (f_T _ _ _ _ _ Hf _ Bb)).
      assert (K := Rabs_le_inv _ _ (Rle_refl (Rabs (B2R b' - B2R b)))).
      assert (KS := Rmult_le_compat_r s _ _ (Rlt_le _ _ S0) (proj1 K)).
      unfold y in T1 |- *. lra.
  Qed.
  Lemma theta_le : 0 <= N * / 65536 * D <= D.
  Proof.
    pose proof own_D0. change (bp 16) with 65536 in HN. split; [apply Rmult_le_pos; lra|]. rewrite <- (Rmult_1_l D) at 2. apply Rmult_le_compat_r; lra.
  Qed.

  Lemma v_at y : Rabs y <= rho * D + D -> Rabs (place_R i row' y - (INR i + (y - r0) * s)) <= Z.
  Proof. intro H. apply (f_T _ _ _ _ _ Hf). pose proof own_D0. lra. Qed.

  Lemma v_below b : In b row -> x < B2R b -> B2R v <= INR i + (B2R b - r0) * s - 11 * Z.
  Proof.
    intros Hb H. destruct own_v as [_ ->]. pose proof theta_le. pose proof theta_s. assert (A := Ax b Hb). rewrite Rabs_left in A by lra.
    set (y := B2R b - N * / 65536 * D). apply Rle_trans with (place_R i row' y); [apply (f_mono _ _ _ _ _ Hf); unfold y; lra|].
    assert (By : Rabs y <= rho * D + D) by (assert (BB := Rabs_le_inv _ _ (HB b Hb)); apply Rabs_le; unfold y; lra).
    assert (T1 := Rabs_le_inv _ _ (v_at y By)). unfold y in T1 |- *. lra.
  Qed.

  Lemma v_above b : In b row -> B2R b <= x -> INR i + (B2R b - r0) * s + 11 * Z <= B2R v.
  Proof.
    intros Hb H. destruct own_v as [_ ->]. pose proof theta_le. pose proof theta_s. assert (A := Ax b Hb). rewrite Rabs_pos_eq in A by lra.
    set (y := B2R b + N * / 65536 * D). apply Rle_trans with (place_R i row' y); [|apply (f_mono _ _ _ _ _ Hf); unfold y; lra].
    assert (By : Rabs y <= rho * D + D) by (assert (BB := Rabs_le_inv _ _ (HB b Hb)); apply Rabs_le; unfold y; lra).
    assert (T1 := Rabs_le_inv _ _ (v_at y By)). unfold y in T1 |- *. lra.
  Qed.

  Lemma before_last j : i = S j -> exists p z, before = p ++ [z] /\ is_finite z = true /\ INR i - 8 * Z <= B2R z.
  Proof.
    intro Ei. assert (Lm : (i < length m)%nat) by (apply nth_error_Some; congruence).
    destruct (nth_error m j) as [r'|] eqn:Er'; [|apply nth_error_None in Er'; lia].
    destruct (HF' j r' Er') as (r & Er & F). assert (D0 : 0 < spread r) by (apply HD, (nth_error_In _ _ Er)).
    assert (Wr : length r = w) by (apply HW, (nth_error_In _ _ Er)).
    assert (E : firstn i m = firstn j m ++ [r']).
    { destruct (nth_error_split m j Er') as (l1 & l2 & E & L). rewrite E, Ei, !firstn_app, <- L, Nat.sub_diag, firstn_all, firstn_O, app_nil_r.
      rewrite firstn_all2 by lia. replace (S (length l1) - length l1)%nat with 1%nat by lia. reflexivity. }
    assert (G := f_bs _ _ _ _ _ F).
    assert (NE : tl r' <> []).
    { pose proof (f_len _ _ _ _ _ F) as FL. destruct r' as [|a [|b t]]; cbn [length tl] in *; [lia|lia|discriminate]. }
    destruct (Forall2_last _ _ _ G NE) as (p & b' & p0 & b & Ep & Eb & Fb & Bb & Gb & _ & Es & _).
    exists (scaled_rows32 0 (firstn j m) ++ map (place32 (row_scale32 r') (row_shift32 j r')) p), (place32 (row_scale32 r') (row_shift32 j r') b').
    split.
    - unfold before. rewrite E, scaled_app. cbn [scaled_rows32 plus]. rewrite firstn_length_le by lia. rewrite Ep, app_nil_r, map_app, app_assoc. reflexivity.
    - destruct (f_place _ _ _ _ _ F b' Fb (or_intror Bb)) as [Fz Ez]. split; [exact Fz|]. rewrite Ez.
      assert (T1 := Rabs_le_inv _ _ (f_T _ _ _ _ _ F _ Bb)).
      assert (Elast : B2R b - B2R (hd nan32 r) = spread r).
      { unfold spread. f_equal. f_equal. destruct r as [|a t]; [destruct p0; discriminate|]. cbn [tl] in Eb. subst t.
        symmetry. rewrite app_comm_cons. apply last_last. }
      destruct (f_scale _ _ _ _ _ F) as [S1 S2]. assert (S0 : 0 < B2R (row_scale32 r')) by (apply Rmult_lt_reg_r with (spread r); lra).
      assert (O1 := Rabs_le_inv _ _ (f_one _ _ _ _ _ F)).
      assert (K := Rabs_le_inv _ _ (Rle_refl (Rabs (B2R b' - B2R b)))).
      assert (KS := Rmult_le_compat_r (B2R (row_scale32 r')) _ _ (Rlt_le _ _ S0) (proj1 K)).
      rewrite Ei, S_INR. set (s' := B2R (row_scale32 r')) in *.
      assert (EE : (B2R b' - B2R (hd nan32 r)) * s' = (B2R b' - B2R b) * s' + s' * spread r) by (rewrite <- Elast; ring).
      lra.
  Qed.

  Lemma offset_value : let offset := Z.of_nat (upper_bound32 (zero32 :: scaled_rows32 0 m) v) in
    Z.max 0 (Z.min (offset - (Z.of_nat w - 1) * Z.of_nat i) (Z.of_nat w)) = Z.of_nat (bucket_R (map B2R row) x).
  Proof.
    intro offset. pose proof own_Z as Z0. destruct own_v as [Fv Ev]. pose proof own_s0 as S0. pose proof own_D0 as D0.
    assert (Wrow : length row = w) by (apply HW, (nth_error_In _ _ Hrow)).
    assert (RH : exists a b t, row = a :: b :: t).
    { clear - Wrow Hw. destruct row as [|a [|b t]]; cbn [length] in Wrow; [lia|lia|]. exists a, b, t. reflexivity. }
    destruct RH as (a & b1 & t & Erow).
    assert (Ha : In a row) by (rewrite Erow; left; reflexivity).
    assert (E0 : r0 = B2R a) by (rewrite Erow; reflexivity).
    destruct (split_sorted x row HS) as (l1 & l2 & El & H1 & H2 & ->).
    assert (Bl := before_length).
    assert (EO : zero32 :: scaled_rows32 0 m = zero32 :: before ++ own ++ after) by (f_equal; apply scaled_split).
    assert (BF : (B2R a <= x) -> Forall (fun b => Bltb v b = false) (zero32 :: before)).
    { intro L. assert (VA := v_above a Ha L). rewrite E0 in VA. replace ((B2R a - B2R a) * s) with 0 in VA by ring.
      constructor.
      - apply not_below; auto. cbn [B2R zero32]. pose proof (pos_INR i). lra.
      - apply Forall_forall. intros z Hz. destruct (before_in z Hz) as [Fz Bz]. apply not_below; auto. lra. }
    destruct (Rle_lt_dec (B2R a) x) as [L|L].
    - destruct l1 as [|a' t1].
      { exfalso. cbn [app] in El. subst l2. pose proof (H2 a Ha). lra. }
      assert (Ea : a' = a) by (rewrite Erow in El; cbn [app] in El; congruence). subst a'.
      assert (Et : tl row = t1 ++ l2) by (rewrite El; reflexivity).
      assert (G := f_bs _ _ _ _ _ Hf). rewrite Et in G. apply Forall2_app_inv_r in G. destruct G as (o1 & o2 & G1 & G2 & Eo).
      set (pl := place32 (row_scale32 row') (row_shift32 i row')) in *.
      assert (Eown : own = map pl o1 ++ map pl o2) by (unfold own; rewrite Eo; apply map_app).
      assert (Q1 : Forall (fun b => Bltb v b = false) (map pl o1)).
      { apply Forall_forall. intros z Hz. apply in_map_iff in Hz. destruct Hz as (b' & <- & Hb'). destruct (In_nth_error _ _ Hb') as [n En].
        destruct (Forall2_nth _ _ _ G1 n b' En) as (b & Eb & P1 & P2 & P3 & P4 & P5 & P6).
        assert (Ib : In b row) by (rewrite El; apply in_or_app; left; right; exact (nth_error_In _ _ Eb)).
        apply (own_cmp b' b Ib P1 P2 P4 P5). apply H1. right. exact (nth_error_In _ _ Eb). }
      assert (L1 : length o1 = length t1) by (apply (Forall2_len _ _ _ G1)).
      assert (Lw : (S (length t1) + length l2 = w)%nat) by (rewrite <- Wrow, El, app_length; reflexivity).
      assert (GE : (1 + (w - 1) * i + length t1 <= upper_bound32 (zero32 :: scaled_rows32 0 m) v)%nat).
      { rewrite EO, Eown. replace (zero32 :: before ++ (map pl o1 ++ map pl o2) ++ after) with ((zero32 :: before ++ map pl o1) ++ (map pl o2 ++ after))
          by (cbn [app]; rewrite <- !app_assoc; reflexivity).
        eapply Nat.le_trans; [|apply upper_bound_ge].
        - cbn [length]. rewrite app_length, map_length, Bl, L1. lia.
        - rewrite app_comm_cons. apply Forall_app. split; [apply BF, L|exact Q1]. }
      destruct l2 as [|c l2].
      + unfold offset. apply (clip_top w i (length t1) 0); auto.
      + assert (Q2 : Forall (fun b => Bltb v b = true) (map pl o2 ++ after)).
        { apply Forall_app. split.
          - apply Forall_forall. intros z Hz. apply in_map_iff in Hz. destruct Hz as (b' & <- & Hb'). destruct (In_nth_error _ _ Hb') as [n En].
            destruct (Forall2_nth _ _ _ G2 n b' En) as (b & Eb & P1 & P2 & P3 & P4 & P5 & P6).
            assert (Ib : In b row) by (rewrite El; apply in_or_app; right; exact (nth_error_In _ _ Eb)).
            apply (own_cmp b' b Ib P1 P2 P4 P5). apply H2. exact (nth_error_In _ _ Eb).
          - assert (Il : In (last row nan32) (c :: l2)).
            { rewrite El. clear. destruct (@exists_last f32 (c :: l2) ltac:(discriminate)) as (q & z & ->). rewrite app_assoc, last_last. apply in_or_app. right. left. reflexivity. }
            assert (Il' : In (last row nan32) row) by (rewrite El at 2; apply in_or_app; right; exact Il).
            assert (VB := v_below _ Il' (H2 _ Il)). change (B2R (last row nan32) - r0) with D in VB.
            assert (O1 := Rabs_le_inv _ _ (f_one _ _ _ _ _ Hf)).
            apply Forall_forall. intros z Hz. destruct (after_in z Hz) as [Fz Bz]. apply below; auto. lra. }
        assert (LE2 : (upper_bound32 (zero32 :: scaled_rows32 0 m) v <= 1 + (w - 1) * i + length t1)%nat).
        { rewrite EO, Eown. replace (zero32 :: before ++ (map pl o1 ++ map pl o2) ++ after) with ((zero32 :: before ++ map pl o1) ++ (map pl o2 ++ after))
            by (cbn [app]; rewrite <- !app_assoc; reflexivity).
          eapply Nat.le_trans; [apply upper_bound_le; exact Q2|]. cbn [length]. rewrite app_length, map_length, Bl, L1. lia. }
        unfold offset. apply (clip_top w i (length t1) (length (c :: l2))); auto.
    - assert (l1 = []) as ->.
      { destruct l1 as [|a' t1]; [reflexivity|]. assert (a' = a) by (rewrite Erow in El; cbn [app] in El; congruence). subst a'.
        pose proof (H1 a (or_introl eq_refl)). lra. }
      cbn [length]. assert (VB := v_below a Ha L). rewrite E0 in VB. replace ((B2R a - B2R a) * s) with 0 in VB by ring.
      assert (Q : Forall (fun b => Bltb v b = true) (own ++ after)).
      { apply Forall_app. split; apply Forall_forall; intros z Hz.
        - destruct (own_in z Hz) as [Fz Bz]. apply below; auto. lra.
        - destruct (after_in z Hz) as [Fz Bz]. apply below; auto. lra. }
      assert (LE2 : (upper_bound32 (zero32 :: scaled_rows32 0 m) v <= (w - 1) * i)%nat).
      { rewrite EO. destruct (Nat.eq_dec i 0) as [Ei|Ei].
        - destruct before as [|z0 bb] eqn:Eb; [|cbn [length] in Bl; rewrite Ei in Bl; lia]. cbn [app].
          eapply Nat.le_trans; [apply (upper_bound_le [])|cbn [length]; lia]. constructor; [|exact Q].
          apply below; auto. cbn [B2R zero32]. rewrite Ei in VB at 2. cbn [INR] in VB. lra.
        - destruct (before_last (i - 1) ltac:(lia)) as (p & z & Ep & Fz & Bz). rewrite Ep in Bl |- *. rewrite app_length in Bl. cbn [length] in Bl.
          rewrite <- app_assoc. cbn [app]. rewrite app_comm_cons. eapply Nat.le_trans; [apply (upper_bound_le (zero32 :: p))|].
          + constructor; [|exact Q]. apply below; auto. lra.
          + rewrite <- Bl. cbn [length]. rewrite Nat.add_1_r. apply Nat.le_refl. }
      unfold offset. apply clip_low; [lia|exact LE2].
  Qed.
End Own.
