(** Concrete columns for the theorems of [IeeeProps]. *)
From Coq Require Import List ZArith Reals Bool Lra Lia.
From Flocq Require Import Core BinarySingleNaN.
From Verif Require Import IeeeModel IeeeSpec IeeeProofs IeeeScaleProofs IeeeColumnProofs.
Import ListNotations.
Local Open Scope R_scope.

(** Numbers m * 2^e of the two formats. *)
Definition mk32 (m e : Z) : f32 := binary_normalize 24 128 prec32 emax32 mode_NE m e false.
Definition mk64 (m e : Z) : f64 := binary_normalize 53 1024 prec64 emax64 mode_NE m e false.

Lemma pow2 n : (0 <= n)%Z -> IZR (2 ^ n) = bpow radix2 n.
Proof. intro H. rewrite <- (IZR_Zpower radix2 n H). reflexivity. Qed.

(** An integer column in three batches, one of them empty. *)
Definition ages : list (list number) := [[NInt 31; NInt 18]; []; [NInt 64; NInt 18]].

Lemma ages_ordinary : forall v, In v (concat ages) -> ordinary v.
Proof.
  intros v V. simpl in V.
  assert (exists z, v = NInt z /\ (0 <= z <= 64)%Z) as (z & -> & Z1).
  { destruct V as [<-|[<-|[<-|[<-|[]]]]]; eexists; split; try reflexivity; lia. }
  split; [exact Logic.I|]. cbn [val]. rewrite <- abs_IZR. apply IZR_le. lia.
Qed.

Lemma ages_least : least (NInt 18) (concat ages).
Proof.
  split; [simpl; tauto|]. intros y Y. simpl in Y. cbn [val].
  destruct Y as [<-|[<-|[<-|[<-|[]]]]]; cbn [val]; lra.
Qed.

Lemma ages_greatest : greatest (NInt 64) (concat ages).
Proof.
  split; [simpl; tauto|]. intros y Y. simpl in Y. cbn [val].
  destruct Y as [<-|[<-|[<-|[<-|[]]]]]; cbn [val]; lra.
Qed.

Lemma int_exact z : (Z.abs z <= 2 ^ 24)%Z -> single (IZR z) = IZR z.
Proof.
  intro H. unfold single. apply round_generic; auto with typeclass_instances.
  destruct (Z.eq_dec (Z.abs z) (2 ^ 24)) as [E|E].
  - assert (Rabs (IZR z) = bpow radix2 24) as A.
    { rewrite <- abs_IZR, E. apply (pow2 24). lia. }
    destruct (Z.abs_spec z) as [[_ S]|[_ S]]; rewrite S in E.
    + rewrite E, (pow2 24) by lia. apply format_bpow. lia.
    + replace z with (- (2 ^ 24))%Z by lia. rewrite opp_IZR, (pow2 24) by lia.
      apply generic_format_opp. apply format_bpow. lia.
  - apply generic_format_FLT. exists (Float radix2 z 0).
    + unfold F2R. simpl. ring.
    + change (Z.pow radix2 24) with (2 ^ 24)%Z. simpl Fnum. lia.
    + simpl. lia.
Qed.

Lemma ages_differ : single (val (NInt 18)) < single (val (NInt 64)).
Proof. cbn [val]. rewrite !int_exact by lia. lra. Qed.

(** The Python floats 0.1 and 0.7. *)
Definition tenth : f64 := mk64 7205759403792794 (-56).
Definition seven_tenths : f64 := mk64 6305039478318694 (-53).

Lemma tenth_bound : bound tenth /\ bound seven_tenths /\ B2R tenth < B2R seven_tenths.
Proof.
  assert (Bltb tenth seven_tenths = true) as L by (vm_compute; reflexivity).
  rewrite (Bltb_correct 53 1024) in L by reflexivity.
  assert (Bltb seven_tenths one64 = true) as U by (vm_compute; reflexivity).
  rewrite (Bltb_correct 53 1024) in U by reflexivity.
  assert (Bltb zero64 tenth = true) as P by (vm_compute; reflexivity).
  rewrite (Bltb_correct 53 1024) in P by reflexivity.
  destruct (Rlt_bool_spec (B2R tenth) (B2R seven_tenths)); [|discriminate L].
  destruct (Rlt_bool_spec (B2R seven_tenths) (B2R one64)); [|discriminate U].
  destruct (Rlt_bool_spec (B2R zero64) (B2R tenth)); [|discriminate P].
  destruct unit_bounds as (_ & [_ U2] & U3 & U4).
  assert (1 <= IZR (2 ^ 100)) by (apply IZR_le; lia).
  split; [split; [reflexivity | rewrite Rabs_pos_eq; lra]|].
  split; [split; [reflexivity | rewrite Rabs_pos_eq; lra]|]. assumption.
Qed.

Definition no_sigmoid (x : f32) : f32 := zero32.

Lemma no_sigmoid_like : sigmoid_like no_sigmoid.
Proof. intros x _. split; [reflexivity | unfold no_sigmoid; simpl; lra]. Qed.

(** The greatest value of the column lands above 0.7. *)
Definition top : f32 := mk32 11744052 (-24).

Lemma top_eq : scale_by_min_max32 no_sigmoid tenth seven_tenths ages (NInt 64) = Some top.
Proof.
  assert (option_map B2SF (scale_by_min_max32 no_sigmoid tenth seven_tenths ages (NInt 64)) = Some (B2SF top)) as E
    by (vm_compute; reflexivity).
  destruct (scale_by_min_max32 no_sigmoid tenth seven_tenths ages (NInt 64)) as [r|]; [|discriminate E].
  f_equal. apply B2SF_inj. cbn [option_map] in E. congruence.
Qed.

Lemma ages_above :
  exists r, scale_by_min_max32 no_sigmoid tenth seven_tenths ages (NInt 64) = Some r
    /\ is_finite r = true /\ single (B2R seven_tenths) < B2R r.
Proof.
  destruct tenth_bound as (_ & B2 & _). destruct B2 as [F A]. rewrite pow100 in A.
  destruct (cast_f64_ok seven_tenths 100 F) as [C D]; [lia | exact A|].
  exists top. split; [exact top_eq|]. split; [reflexivity|]. rewrite <- D.
  assert (forall a b : f32, is_finite a = true -> is_finite b = true -> Bltb a b = true -> B2R a < B2R b) as K.
  { intros a b Fa Fb L. rewrite (Bltb_correct 24 128) in L by assumption.
    destruct (Rlt_bool_spec (B2R a) (B2R b)); [assumption | discriminate L]. }
  apply K; [exact C | reflexivity | vm_compute; reflexivity].
Qed.

(** 2^24 and 2^24 + 1 are the same number in single precision. *)
Definition twins : list (list number) := [[NInt 16777216]; [NInt 16777217]].

(** 2^127 and - 2^127: finite, but their difference is not. *)
Definition extremes : list (list number) := [[NF32 (mk32 1 127); NF32 (mk32 (-1) 127)]].

Lemma mk32_127 : B2R (mk32 1 127) = IZR (2 ^ 127) /\ B2R (mk32 (-1) 127) = - IZR (2 ^ 127).
Proof.
  assert (forall (f : f32) m e s, B2SF f = SpecFloat.S754_finite s m e -> B2R f = F2R (Float radix2 (cond_Zopp s (Zpos m)) e)) as K.
  { intros [] m' e' s' Q; try discriminate Q. injection Q as -> -> ->. reflexivity. }
  assert (IZR (2 ^ 127) = IZR (2 ^ 23) * bpow radix2 104) as P.
  { rewrite (pow2 127), (pow2 23), <- bpow_plus by lia. reflexivity. }
  split.
  - rewrite (K _ 8388608%positive 104%Z false) by (vm_compute; reflexivity).
    unfold F2R. cbn [Fnum Fexp cond_Zopp]. rewrite P. reflexivity.
  - rewrite (K _ 8388608%positive 104%Z true) by (vm_compute; reflexivity). unfold F2R. cbn [Fnum Fexp cond_Zopp]. rewrite P.
    rewrite <- Ropp_mult_distr_l_reverse, <- opp_IZR. reflexivity.
Qed.

Lemma extremes_finite : forall v, In v (concat extremes) -> exists f, v = NF32 f /\ is_finite f = true.
Proof.
  intros v V. simpl in V. destruct V as [<-|[<-|[]]]; eexists; split; reflexivity.
Qed.

Lemma extremes_bounds :
  least (NF32 (mk32 (-1) 127)) (concat extremes) /\ greatest (NF32 (mk32 1 127)) (concat extremes)
  /\ IZR (2 ^ 128) <= val (NF32 (mk32 1 127)) - val (NF32 (mk32 (-1) 127)).
Proof.
  destruct mk32_127 as [A B]. assert (0 < IZR (2 ^ 127)) as P by (apply IZR_lt; lia).
  assert (IZR (2 ^ 128) = 2 * IZR (2 ^ 127)) as Q by (rewrite <- mult_IZR; reflexivity).
  split; [|split].
  - split; [unfold extremes; cbn [concat app In]; tauto|]. intros y Y. unfold extremes in Y. cbn [concat app In] in Y.
    destruct Y as [<-|[<-|[]]]; cbn [val]; rewrite ?A, ?B; lra.
  - split; [unfold extremes; cbn [concat app In]; tauto|]. intros y Y. unfold extremes in Y. cbn [concat app In] in Y.
    destruct Y as [<-|[<-|[]]]; cbn [val]; rewrite ?A, ?B; lra.
  - cbn [val]. rewrite A, B, Q. lra.
Qed.

(** A mean, a variance and a value. *)
Definition two32 : f32 := mk32 2 0.
Definition five32 : f32 := mk32 5 0.
Definition nine32 : f32 := mk32 9 0.

Lemma small32 z : (Z.abs z <= 2 ^ 24)%Z -> B2R (cast_int z) = IZR z /\ ordinary (NF32 (cast_int z)).
Proof.
  intro H. assert (Rabs (IZR z) <= bpow radix2 126) as A.
  { rewrite <- abs_IZR, <- pow126. apply IZR_le. lia. }
  destruct (cast_int_ok z A) as [F E]. rewrite (int_exact z H) in E. split; [exact E|].
  split; [exact F|]. cbn [val]. rewrite E, pow126. exact A.
Qed.

Lemma z_values : B2R two32 = 2 /\ B2R five32 = 5 /\ B2R nine32 = 9
  /\ ordinary (NF32 two32) /\ ordinary (NF32 five32) /\ ordinary (NF32 nine32).
Proof.
  change two32 with (cast_int 2). change five32 with (cast_int 5). change nine32 with (cast_int 9).
  destruct (small32 2) as [A1 A2]; [lia|]. destruct (small32 5) as [B1 B2]; [lia|].
  destruct (small32 9) as [C1 C2]; [lia|]. repeat (split; [assumption|]). assumption.
Qed.
