From Coq Require Import List ZArith Reals Bool Lra Lia.
From Flocq Require Import Core BinarySingleNaN.
From Verif Require Import IeeeModel IeeeSpec IeeeProofs IeeeScaleProofs IeeeExample InterpModel InterpSpec.
Import ListNotations.
Local Open Scope R_scope.

Local Notation bp := (bpow radix2).
Local Notation rnd := single.

(** ** The bucket *)

Definition kind_ok (a b : number) : Prop :=
  (exists z w, a = NInt z /\ b = NInt w)
  \/ (exists f g, a = NF32 f /\ b = NF32 g /\ is_finite f = true /\ is_finite g = true).

Lemma less_ok a b : kind_ok a b -> (less a b = true <-> val a < val b).
Proof.
  intros [(z & w & -> & ->) | (f & g & -> & -> & F & G)]; cbn [less val].
  - rewrite Z.ltb_lt. split; [apply IZR_lt | apply lt_IZR].
  - cbn [to_f32]. rewrite (Bltb_correct 24 128 f g F G).
    destruct (Rlt_bool_spec (B2R f) (B2R g)); split; intro; try reflexivity; try assumption; try discriminate; lra.
Qed.

Lemma assign_split x bs : (forall b, In b bs -> kind_ok x b) -> sorted bs ->
  (assign_right x bs <= length bs)%nat
  /\ (forall j b, nth_error bs j = Some b -> (j < assign_right x bs)%nat -> val b <= val x)
  /\ (forall j b, nth_error bs j = Some b -> (assign_right x bs <= j)%nat -> val x < val b).
Proof.
  induction bs as [|b bs IH]; intros K S0.
  - split; [apply le_n|]. split; intros j b H; destruct j; discriminate H.
  - destruct S0 as [S1 S2]. destruct IH as (I1 & I2 & I3); [intros c C; apply K; right; exact C | exact S2|].
    unfold assign_right in *. cbn [filter].
    destruct (less x b) eqn:L; cbn [negb].
    + apply (less_ok x b (K b (or_introl eq_refl))) in L.
      assert (filter (fun b => negb (less x b)) bs = []) as E.
      { clear - K S1 L. induction bs as [|c bs IH]; [reflexivity|]. cbn [filter].
        assert (less x c = true) as ->.
        { apply (less_ok x c); [apply K; right; left; reflexivity|].
          specialize (S1 c (or_introl eq_refl)). lra. }
        cbn [negb]. apply IH; [|intros d D; apply S1; right; exact D].
        intros d [<- | D]; apply K; [left; reflexivity | right; right; exact D]. }
      rewrite E. cbn [length]. split; [lia|]. split; [intros; lia|].
      intros [|j] c H _; cbn [nth_error] in H.
      * injection H as <-. exact L.
      * apply nth_error_In in H. specialize (S1 c H). lra.
    + assert (val b <= val x) as LB.
      { destruct (Rle_or_lt (val b) (val x)) as [A | A]; [exact A|].
        apply (less_ok x b (K b (or_introl eq_refl))) in A. congruence. }
      cbn [length]. split; [lia|]. split.
      * intros [|j] c H J; cbn [nth_error] in H; [injection H as <-; exact LB|].
        apply (I2 j c H). lia.
      * intros [|j] c H J; [lia|]. cbn [nth_error] in H. apply (I3 j c H). lia.
Qed.

Lemma assign_mono x y bs : (forall b, In b bs -> kind_ok x b) -> (forall b, In b bs -> kind_ok y b) ->
  val x <= val y -> (assign_right x bs <= assign_right y bs)%nat.
Proof.
  intros Kx Ky XY. unfold assign_right. induction bs as [|b bs IH]; [apply le_n|]. cbn [filter].
  assert (length (filter (fun b => negb (less x b)) bs) <= length (filter (fun b => negb (less y b)) bs))%nat as J
    by (apply IH; intros c C; [apply Kx | apply Ky]; right; exact C).
  destruct (less x b) eqn:Lx; destruct (less y b) eqn:Ly; cbn [negb length]; try lia.
  exfalso. apply (less_ok y b (Ky b (or_introl eq_refl))) in Ly.
  assert (less x b = true) by (apply (less_ok x b (Kx b (or_introl eq_refl))); lra). congruence.
Qed.

(** ** The value before normalization *)

Lemma half_ok : is_finite half32 = true /\ B2R half32 = / 2.
Proof.
  destruct (small32 2) as [E _]; [lia|].
  assert (B2R one32 = 1) as O by (apply (Bone_correct 24 128)).
  assert (rnd (B2R one32 / B2R (cast_int 2)) = / 2) as R.
  { rewrite O, E. unfold Rdiv. rewrite Rmult_1_l. change (/ 2) with (bp (-1)). apply rnd_bpow. lia. }
  destruct (div_ok one32 (cast_int 2)) as [A B].
  - reflexivity.
  - rewrite E. lra.
  - rewrite R. rewrite Rabs_pos_eq by lra. eapply Rlt_trans; [|apply (bpow_lt radix2 0 128); lia]. simpl. lra.
  - split; [exact A|]. unfold half32. rewrite B, R. reflexivity.
Qed.

(** The interpolation of the model. *)
Definition fraction (bmin bmax x : f32) : f32 :=
  if Beqb (sub32 bmax bmin) zero32 then half32 else div32 (sub32 x bmin) (sub32 bmax bmin).

Lemma fraction_ok bmin bmax x :
  is_finite bmin = true -> is_finite bmax = true -> is_finite x = true ->
  Rabs (B2R bmin) <= bp 126 -> Rabs (B2R bmax) <= bp 126 ->
  B2R bmin <= B2R x -> B2R x <= B2R bmax ->
  is_finite (fraction bmin bmax x) = true /\ 0 <= B2R (fraction bmin bmax x) <= 1
  /\ (B2R bmin < B2R bmax -> fraction bmin bmax x = div32 (sub32 x bmin) (sub32 bmax bmin)).
Proof.
  intros F1 F2 F3 B1 B2 L1 L2. unfold fraction.
  assert (B2R bmin <= B2R bmax) as L by lra.
  destruct L as [L | E].
  - destruct (den_ok bmin bmax F1 F2 B1 B2 L) as [D1 D2].
    rewrite (Beqb_correct 24 128 (sub32 bmax bmin) zero32 D1 eq_refl).
    pose proof (rnd_sub_pos bmax bmin L) as P. rewrite Req_bool_false by (rewrite D2; simpl; lra).
    destruct (quotient_ok bmin bmax x F1 F2 F3 B1 B2 L1 L2 L) as (Q1 & _ & Q2).
    split; [exact Q1|]. split; [exact Q2 | reflexivity].
  - assert (is_finite (sub32 bmax bmin) = true /\ B2R (sub32 bmax bmin) = 0) as [D1 D2].
    { destruct (sub_ok bmax bmin F2 F1) as [A B].
      - rewrite E. replace (B2R bmax - B2R bmax) with 0 by ring. rewrite rnd_0, Rabs_R0. apply bpow_gt_0.
      - split; [exact A|]. rewrite B, E. replace (B2R bmax - B2R bmax) with 0 by ring. apply rnd_0. }
    rewrite (Beqb_correct 24 128 (sub32 bmax bmin) zero32 D1 eq_refl), D2.
    rewrite Req_bool_true by reflexivity. destruct half_ok as [H1 H2].
    split; [exact H1|]. rewrite H2. split; [lra | intro; lra].
Qed.

Lemma fraction_mono bmin bmax x y :
  is_finite bmin = true -> is_finite bmax = true -> is_finite x = true -> is_finite y = true ->
  Rabs (B2R bmin) <= bp 126 -> Rabs (B2R bmax) <= bp 126 ->
  B2R bmin <= B2R x -> B2R x <= B2R y -> B2R y <= B2R bmax ->
  B2R (fraction bmin bmax x) <= B2R (fraction bmin bmax y).
Proof.
  intros F1 F2 F3 F4 B1 B2 L1 L2 L3. unfold fraction.
  destruct (Beqb (sub32 bmax bmin) zero32) eqn:E; [apply Rle_refl|].
  assert (B2R bmin <= B2R bmax) as L by lra. destruct L as [L | L].
  - apply quotient_mono; assumption.
  - exfalso. assert (is_finite (sub32 bmax bmin) = true /\ B2R (sub32 bmax bmin) = 0) as [D1 D2].
    { destruct (sub_ok bmax bmin F2 F1) as [A B].
      - rewrite L. replace (B2R bmax - B2R bmax) with 0 by ring. rewrite rnd_0, Rabs_R0. apply bpow_gt_0.
      - split; [exact A|]. rewrite B, L. replace (B2R bmax - B2R bmax) with 0 by ring. apply rnd_0. }
    rewrite (Beqb_correct 24 128 (sub32 bmax bmin) zero32 D1 eq_refl), D2 in E.
    rewrite Req_bool_true in E by reflexivity. discriminate E.
Qed.

(** Adding a fraction to the number of the bucket. *)
Lemma bucket_sum (k : Z) (q : f32) : (0 <= k)%Z -> (k + 1 <= 2 ^ 24)%Z ->
  is_finite q = true -> 0 <= B2R q <= 1 ->
  is_finite (add32 (cast_int k) q) = true
  /\ B2R (add32 (cast_int k) q) = rnd (IZR k + B2R q)
  /\ IZR k <= B2R (add32 (cast_int k) q) <= IZR k + 1.
Proof.
  intros K0 K1 Fq Q. destruct (small32 k) as [E [F _]]; [lia|].
  assert (IZR k <= rnd (IZR k + B2R q) <= IZR k + 1) as R.
  { split.
    - rewrite <- (int_exact k) at 1 by lia. apply rnd_le. lra.
    - replace (IZR k + 1) with (rnd (IZR (k + 1))) by (rewrite int_exact by lia; rewrite plus_IZR; reflexivity).
      apply rnd_le. rewrite plus_IZR. lra. }
  assert (0 <= IZR k) as P by (apply IZR_le; exact K0).
  destruct (add_ok (cast_int k) q F Fq) as [A B].
  - rewrite E. rewrite Rabs_pos_eq by lra. eapply Rle_lt_trans; [apply R|].
    apply Rle_lt_trans with (IZR (2 ^ 24)); [rewrite <- plus_IZR; apply IZR_le; lia|].
    rewrite (pow2 24) by lia. apply bpow_lt. lia.
  - rewrite E in B. split; [exact A|]. split; [exact B|]. rewrite B. exact R.
Qed.

Lemma normalize_ok (s : f32) (d : Z) : (1 <= d <= 2 ^ 24)%Z -> is_finite s = true -> 0 <= B2R s <= IZR d ->
  is_finite (div32 s (cast_int d)) = true
  /\ B2R (div32 s (cast_int d)) = rnd (B2R s / IZR d)
  /\ 0 <= B2R (div32 s (cast_int d)) <= 1.
Proof.
  intros D F H. destruct (small32 d) as [E [G _]]; [lia|].
  assert (1 <= IZR d) as P by (apply IZR_le; lia).
  assert (0 <= B2R s / IZR d <= 1) as R.
  { split; [apply Rmult_le_pos; [lra | left; apply Rinv_0_lt_compat; lra]|].
    apply (Rmult_le_reg_r (IZR d)); [lra|]. unfold Rdiv. rewrite Rmult_assoc, Rinv_l by lra. lra. }
  assert (0 <= rnd (B2R s / IZR d) <= 1) as R'.
  { split; [rewrite <- rnd_0 | rewrite <- rnd_1]; apply rnd_le; lra. }
  destruct (div_ok s (cast_int d) F) as [A B].
  - rewrite E. lra.
  - rewrite E. rewrite Rabs_pos_eq by lra. eapply Rle_lt_trans; [apply R'|].
    change 1 with (bp 0). apply bpow_lt. lia.
  - rewrite E in B. split; [exact A|]. split; [exact B|]. rewrite B. exact R'.
Qed.

(** ** The whole function *)

Lemma not_nan x : ordinary x -> is_nan_number x = false.
Proof.
  intros [H _]. destruct x as [z|f|d]; [reflexivity | | ]; cbn [is_nan_number].
  - destruct f; simpl in *; congruence.
  - destruct d; simpl in *; congruence.
Qed.

Section interp.
  Variable bs : list number.
  Variables first : number.
  Variable rest : list number.
  Hypothesis Ebs : bs = first :: rest.

  Definition n : nat := length bs.
  Hypothesis N2 : (2 <= Z.of_nat n <= 2 ^ 24)%Z.
  Hypothesis Obs : forall b, In b bs -> ordinary b.
  Hypothesis Sbs : sorted bs.

  Lemma all_finite : filter finite_boundary bs = bs.
  Proof.
    clear - Obs. induction bs as [|b l IH]; [reflexivity|]. cbn [filter].
    assert (finite_boundary b = true) as ->.
    { destruct (Obs b (or_introl eq_refl)) as [H _]. destruct b; [reflexivity | exact H | exact H]. }
    f_equal. apply IH. intros c C. apply Obs. right. exact C.
  Qed.

  (** The number under which x is known before normalization. *)
  Definition rank (x : number) : f32 :=
    let i := assign_right x bs in
    add32 (cast_int (Z.max (Z.of_nat i - 1) 0))
      (if Nat.eqb i 0 || Nat.eqb i n then zero32
       else fraction (to_f32 (nth i (first :: bs) first)) (to_f32 (nth i (bs ++ [last bs first]) first)) (to_f32 x)).

  Section value.
    Variable x : number.
    Hypothesis Ox : ordinary x.
    Hypothesis Kx : forall b, In b bs -> kind_ok x b.

    Let i := assign_right x bs.

    Lemma inner : (0 < i < n)%nat ->
      exists a b, nth_error bs (i - 1) = Some a /\ nth_error bs i = Some b
        /\ nth i (first :: bs) first = a /\ nth i (bs ++ [last bs first]) first = b
        /\ val a <= val x /\ val x < val b /\ ordinary a /\ ordinary b.
    Proof.
      intros [I1 I2]. destruct (assign_split x bs Kx Sbs) as (S1 & S2 & S3). fold i in S1, S2, S3.
      destruct (nth_error bs (i - 1)) as [a|] eqn:A; [|apply nth_error_None in A; unfold n in I2; lia].
      destruct (nth_error bs i) as [b|] eqn:B; [|apply nth_error_None in B; unfold n in I2; lia].
      exists a, b. split; [reflexivity|]. split; [reflexivity|]. split.
      - destruct i as [|j]; [lia|]. cbn [nth]. replace (S j - 1)%nat with j in A by lia.
        apply nth_error_nth with (d := first) in A. exact A.
      - split; [rewrite app_nth1 by exact I2; apply nth_error_nth with (d := first) in B; exact B|].
        split; [apply (S2 (i - 1)%nat a A); lia|]. split; [apply (S3 i b B); lia|].
        split; apply Obs; eapply nth_error_In; eassumption.
    Qed.

    Lemma rank_ok : is_finite (rank x) = true
      /\ interpolate32 bs x = Some (div32 (rank x) (cast_int (Z.of_nat n - 1)))
      /\ 0 <= B2R (rank x) <= IZR (Z.of_nat n - 1)
      /\ (i = 0%nat -> B2R (rank x) = 0)
      /\ (i = n -> B2R (rank x) = IZR (Z.of_nat n - 1))
      /\ ((0 < i < n)%nat -> IZR (Z.of_nat i - 1) <= B2R (rank x) <= IZR (Z.of_nat i)).
    Proof.
      destruct (assign_split x bs Kx Sbs) as (S1 & _ & _). fold i in S1. fold n in S1.
      assert (forall q, is_finite q = true ->
        (if Nat.eqb i 0 || Nat.eqb i n then zero32
         else fraction (to_f32 (nth i (first :: bs) first)) (to_f32 (nth i (bs ++ [last bs first]) first)) (to_f32 x)) = q ->
        interpolate32 bs x = Some (div32 (rank x) (cast_int (Z.of_nat n - 1)))) as K.
      { intros q Fq Q. unfold interpolate32. rewrite all_finite. unfold rank. fold i. fold n.
        destruct bs as [|f' r'] eqn:B; [discriminate Ebs|]. injection Ebs as -> ->. fold i.
        unfold fraction in Q |- *. rewrite Q, Fq, (not_nan x Ox).
        assert (Nat.eqb n 1 = false) as -> by (apply Nat.eqb_neq; lia).
        rewrite (Z.max_l (Z.of_nat n - 1) 1) by lia. reflexivity. }
      assert (0 <= IZR (Z.of_nat n - 1)) as PN by (apply IZR_le; lia).
      destruct (Nat.eq_dec i 0) as [E0 | E0]; [|destruct (Nat.eq_dec i n) as [E1 | E1]].
      - specialize (K zero32 eq_refl). rewrite E0 in K. specialize (K eq_refl).
        destruct (bucket_sum 0 zero32) as (A & B & C); [lia | lia | reflexivity | simpl; lra|].
        assert (rank x = add32 (cast_int 0) zero32) as R by (unfold rank; fold i; rewrite E0; reflexivity).
        rewrite R in *. change (B2R zero32) with 0 in B. rewrite Rplus_0_l, rnd_0 in B.
        split; [exact A|]. split; [exact K|]. rewrite B.
        split; [lra|]. split; [intro; reflexivity|]. split; [intro; lia | intro; lia].
      - specialize (K zero32 eq_refl). rewrite E1, Nat.eqb_refl, orb_true_r in K. specialize (K eq_refl).
        destruct (bucket_sum (Z.of_nat n - 1) zero32) as (A & B & C); [lia | lia | reflexivity | simpl; lra|].
        assert (rank x = add32 (cast_int (Z.of_nat n - 1)) zero32) as R.
        { unfold rank. fold i. rewrite E1, Nat.eqb_refl, orb_true_r, Z.max_l by lia. reflexivity. }
        rewrite R in *. change (B2R zero32) with 0 in B. rewrite Rplus_0_r, int_exact in B by lia.
        split; [exact A|]. split; [exact K|]. rewrite B.
        split; [lra|]. split; [intro; lia|]. split; [intro; reflexivity | intro; lia].
      - assert (0 < i < n)%nat as I by lia.
        destruct (inner I) as (a & b & A1 & A2 & A3 & A4 & A5 & A6 & Oa & Ob).
        destruct (to_f32_ok a Oa) as (Fa & Va & Ba). destruct (to_f32_ok b Ob) as (Fb & Vb & Bb).
        destruct (to_f32_ok x Ox) as (Fx & Vx & Bx).
        destruct (fraction_ok (to_f32 a) (to_f32 b) (to_f32 x) Fa Fb Fx Ba Bb) as (Q1 & Q2 & _).
        { rewrite Va, Vx. apply rnd_le. exact A5. }
        { rewrite Vx, Vb. apply rnd_le. lra. }
        assert ((Nat.eqb i 0 || Nat.eqb i n) = false) as NE.
        { apply orb_false_iff. split; apply Nat.eqb_neq; assumption. }
        rewrite NE, A3, A4 in K. specialize (K _ Q1 eq_refl).
        destruct (bucket_sum (Z.of_nat i - 1) (fraction (to_f32 a) (to_f32 b) (to_f32 x))) as (A & B & C);
          [lia | lia | exact Q1 | exact Q2|].
        assert (rank x = add32 (cast_int (Z.of_nat i - 1)) (fraction (to_f32 a) (to_f32 b) (to_f32 x))) as R.
        { unfold rank. fold i. rewrite NE, A3, A4, Z.max_l by lia. reflexivity. }
        rewrite R in *.
        replace (IZR (Z.of_nat i - 1) + 1) with (IZR (Z.of_nat i)) in C
          by (rewrite minus_IZR; ring).
        assert (0 <= IZR (Z.of_nat i - 1)) as P0 by (apply IZR_le; lia).
        assert (IZR (Z.of_nat i) <= IZR (Z.of_nat n - 1)) as P1 by (apply IZR_le; lia).
        split; [exact A|]. split; [exact K|]. split; [lra|]. split; [intro; lia|]. split; [intro; lia|].
        intro. exact C.
    Qed.

    (** Where x is between two boundaries. *)
    Lemma rank_inner (I : (0 < i < n)%nat) :
      exists a b (q : f32), nth_error bs (i - 1) = Some a /\ nth_error bs i = Some b
        /\ val a <= val x < val b /\ is_finite q = true /\ 0 <= B2R q <= 1
        /\ B2R (rank x) = rnd (IZR (Z.of_nat i - 1) + B2R q)
        /\ (rnd (val a) < rnd (val b) ->
            Rabs (B2R q - (rnd (val x) - rnd (val a)) / (rnd (val b) - rnd (val a))) <= 5 * / 16777216
            /\ (val x = val a -> B2R q = 0)).
    Proof.
      destruct (inner I) as (a & b & A1 & A2 & A3 & A4 & A5 & A6 & Oa & Ob).
      destruct (to_f32_ok a Oa) as (Fa & Va & Ba). destruct (to_f32_ok b Ob) as (Fb & Vb & Bb).
      destruct (to_f32_ok x Ox) as (Fx & Vx & Bx).
      assert (B2R (to_f32 a) <= B2R (to_f32 x)) as L1 by (rewrite Va, Vx; apply rnd_le; exact A5).
      assert (B2R (to_f32 x) <= B2R (to_f32 b)) as L2 by (rewrite Vx, Vb; apply rnd_le; lra).
      destruct (fraction_ok (to_f32 a) (to_f32 b) (to_f32 x) Fa Fb Fx Ba Bb L1 L2) as (Q1 & Q2 & Q3).
      exists a, b, (fraction (to_f32 a) (to_f32 b) (to_f32 x)).
      split; [exact A1|]. split; [exact A2|]. split; [lra|]. split; [exact Q1|]. split; [exact Q2|].
      destruct (bucket_sum (Z.of_nat i - 1) (fraction (to_f32 a) (to_f32 b) (to_f32 x))) as (A & B & C);
        [lia | lia | exact Q1 | exact Q2|].
      assert ((Nat.eqb i 0 || Nat.eqb i n) = false) as NE.
      { apply orb_false_iff. split; apply Nat.eqb_neq; lia. }
      split. { unfold rank. fold i. rewrite NE, A3, A4, Z.max_l by lia. exact B. }
      intro D. rewrite Q3 by lra. split.
      - pose proof (quotient_error (to_f32 a) (to_f32 b) (to_f32 x) Fa Fb Fx Ba Bb L1 L2 ltac:(lra)) as QE.
        unfold ratio in QE. rewrite Va, Vb, Vx in QE. exact QE.
      - intro E. apply quotient_lo; try assumption; [lra|]. rewrite Va, Vx, E. reflexivity.
    Qed.
  End value.

  Lemma rank_mono x y : ordinary x -> ordinary y ->
    (forall b, In b bs -> kind_ok x b) -> (forall b, In b bs -> kind_ok y b) ->
    val x <= val y -> B2R (rank x) <= B2R (rank y).
  Proof.
    intros Ox Oy Kx Ky XY. pose proof (assign_mono x y bs Kx Ky XY) as M.
    destruct (rank_ok x Ox Kx) as (X1 & _ & X2 & X3 & X4 & X5).
    destruct (rank_ok y Oy Ky) as (Y1 & _ & Y2 & Y3 & Y4 & Y5).
    destruct (assign_split x bs Kx Sbs) as (Lx & _ & _). destruct (assign_split y bs Ky Sbs) as (Ly & _ & _).
    fold n in Lx, Ly.
    destruct (Nat.eq_dec (assign_right x bs) 0) as [E | E]; [rewrite (X3 E); lra|].
    destruct (Nat.eq_dec (assign_right y bs) n) as [E' | E']; [rewrite (Y4 E'); lra|].
    assert (0 < assign_right x bs < n)%nat as Ix by lia.
    assert (0 < assign_right y bs < n)%nat as Iy by lia.
    destruct (Nat.eq_dec (assign_right x bs) (assign_right y bs)) as [EQ | NEQ].
    - destruct (inner x Kx Ix) as (a & b & A1 & A2 & A3 & A4 & A5 & A6 & Oa & Ob).
      destruct (inner y Ky Iy) as (a' & b' & A1' & A2' & A3' & A4' & A5' & A6' & _ & _).
      clear A3' A4'.
      assert (a' = a) by (rewrite <- EQ in A1'; congruence). subst a'.
      assert (b' = b) by (rewrite <- EQ in A2'; congruence). subst b'.
      assert ((Nat.eqb (assign_right x bs) 0 || Nat.eqb (assign_right x bs) n) = false) as NE.
      { apply orb_false_iff. split; apply Nat.eqb_neq; lia. }
      destruct (to_f32_ok a Oa) as (Fa & Va & Ba). destruct (to_f32_ok b Ob) as (Fb & Vb & Bb).
      destruct (to_f32_ok x Ox) as (Fx & Vx & Bx). destruct (to_f32_ok y Oy) as (Fy & Vy & By).
      assert (B2R (to_f32 a) <= B2R (to_f32 x)) as L1 by (rewrite Va, Vx; apply rnd_le; lra).
      assert (B2R (to_f32 x) <= B2R (to_f32 y)) as L2 by (rewrite Vy, Vx; apply rnd_le; lra).
      assert (B2R (to_f32 y) <= B2R (to_f32 b)) as L3 by (rewrite Vy, Vb; apply rnd_le; lra).
      destruct (fraction_ok (to_f32 a) (to_f32 b) (to_f32 x) Fa Fb Fx Ba Bb) as (Q1 & Q2 & _); [lra | lra|].
      destruct (fraction_ok (to_f32 a) (to_f32 b) (to_f32 y) Fa Fb Fy Ba Bb) as (R1 & R2 & _); [lra | lra|].
      pose proof (fraction_mono (to_f32 a) (to_f32 b) (to_f32 x) (to_f32 y) Fa Fb Fx Fy Ba Bb L1 L2 L3) as FM.
      unfold rank. rewrite <- EQ. rewrite NE, A3, A4, Z.max_l by lia.
      destruct (bucket_sum (Z.of_nat (assign_right x bs) - 1) (fraction (to_f32 a) (to_f32 b) (to_f32 x)))
        as (_ & -> & _); [lia | lia | exact Q1 | exact Q2|].
      destruct (bucket_sum (Z.of_nat (assign_right x bs) - 1) (fraction (to_f32 a) (to_f32 b) (to_f32 y)))
        as (_ & -> & _); [lia | lia | exact R1 | exact R2|].
      apply rnd_le. lra.
    - specialize (X5 Ix). specialize (Y5 Iy).
      assert (IZR (Z.of_nat (assign_right x bs)) <= IZR (Z.of_nat (assign_right y bs) - 1)) by (apply IZR_le; lia).
      lra.
  Qed.
End interp.
