From Coq Require Import String List ZArith Reals Bool Permutation Lra Lia.
From Flocq Require Import Core BinarySingleNaN.
From Verif Require Import CombineModel CombineProofs MeanVarModel MeanVarProofs PerKeyModel PerKeyProofs IeeeModel IeeeSpec IeeeProofs
  IeeeScaleProofs IeeeColumnProofs FzkSpec FzkProofs FmmModel FmmSpec.
Import ListNotations.
Local Open Scope R_scope.
Local Notation bp := (bpow radix2).
Local Notation rnd := single.

(** * The accumulators *)
Notation opp32 := (fun x : f32 => Bopp x).

(** Accumulator [a] describes the finite values [l]. *)
Definition Rep (l : list f32) (a : f32 * f32) : Prop :=
  (l = [] /\ a = (neg_inf32, neg_inf32)) \/ (l <> [] /\ is_max (fst a) (map opp32 l) /\ is_max (snd a) l).

Lemma is_max_app r r' l l' : is_max r l -> is_max r' l' -> is_max (max32 r r') (l ++ l').
Proof.
  intros (F & (x & X & E) & M) (F' & (x' & X' & E') & M'). destruct (max_fin r r' F F') as [G H]. split; [exact G|]. split.
  - rewrite H. unfold Rmax. destruct (Rle_dec (B2R r) (B2R r')); [exists x'|exists x]; rewrite in_app_iff; auto.
  - intros y Y. rewrite H. apply in_app_iff in Y as [Y|Y]; [eapply Rle_trans; [apply M, Y|apply Rmax_l]|eapply Rle_trans; [apply M', Y|apply Rmax_r]].
Qed.

Lemma rep_default l a : Rep l a -> is_default32 a = match l with [] => true | _ => false end.
Proof.
  intros [[-> ->]|(N & (F & _) & _)]; [reflexivity|]. destruct l; [contradiction|]. unfold is_default32.
  destruct (fst a) as [s|s| |[] m e H]; try discriminate F; reflexivity.
Qed.

Lemma rep_add l l' a b : Rep l a -> Rep l' b -> Rep (l ++ l') (mm_add a b).
Proof.
  intros A B. unfold mm_add. rewrite (rep_default _ _ A). destruct l as [|x l]; [exact B|].
  destruct A as [[? _]|(_ & A1 & A2)]; [discriminate|]. right. split; [discriminate|]. cbn [np_max32 fold_left fst snd].
  destruct B as [[-> ->]|(_ & B1 & B2)].
  - rewrite app_nil_r. cbn [fst snd]. rewrite !max_neg_inf_r by (apply A1 || apply A2). auto.
  - rewrite map_app. split; apply is_max_app; assumption.
Qed.

Definition join32 (a b : f32 * f32) : f32 * f32 := (max32 (fst a) (fst b), max32 (snd a) (snd b)).
Lemma np_max_join l a : (np_max32 (map fst (a :: l)), np_max32 (map snd (a :: l))) = fold_left join32 l a.
Proof.
  cbn. revert a. induction l as [|b l IH]; intros a; cbn; [destruct a; reflexivity|].
  specialize (IH (join32 a b)). cbn in IH. exact IH.
Qed.

Lemma rep_merge vs accs : Forall2 Rep vs accs -> Rep (concat vs) (mm_merge accs).
Proof.
  intros H. unfold mm_merge.
  assert (G : exists ws, concat ws = concat vs /\ Forall2 Rep ws (filter (fun a => negb (is_default32 a)) accs)
              /\ Forall (fun w => w <> []) ws).
  { induction H as [|v a vs accs Ha _ (ws & E & F & N)]; cbn; [exists []; repeat split; constructor|].
    rewrite (rep_default _ _ Ha). destruct v as [|x v]; cbn.
    - exists ws; auto.
    - exists ((x :: v) :: ws). cbn. rewrite E. split; [reflexivity|]. split; constructor; auto; discriminate. }
  destruct G as (ws & <- & F & N). clear H.
  destruct F as [|w a ws l Hw F]; [left; split; reflexivity|].
  rewrite np_max_join. cbn [concat]. inversion N as [|? ? Nw N']; subst. clear N.
  revert w a Hw Nw. induction F as [|w' b ws l Hw' F IH]; intros w a Hw Nw; cbn [concat fold_left].
  - rewrite app_nil_r. exact Hw.
  - inversion N' as [|? ? Nw' N'']; subst. rewrite app_assoc. apply IH; [exact N''| |].
    + replace (join32 a b) with (mm_add a b); [apply rep_add; assumption|].
      unfold mm_add. rewrite (rep_default _ _ Hw). destruct w; [congruence|]. reflexivity.
    + destruct w; [congruence|discriminate].
Qed.

Lemma analyze_mm (s : sched (sched (f32 * f32))) vs : Forall2 Rep vs (batches_of s) ->
  exists a, Rep (concat vs) a /\ analyze mm_combiner s = (sub32 zero32 (fst a), snd a).
Proof.
  intros H.
  destruct (analyze_rep mm_combiner (fun l a => forall vs, Forall2 Rep vs l -> Rep (concat vs) a) (fun _ => True)) with (s := s)
    as (a & Ra & E).
  - intros vs' H'. inversion H'. left. split; reflexivity.
  - intros l a x _ Ra vs' H'. apply Forall2_app_inv_r in H' as (v1 & v2 & H1 & H2 & ->).
    inversion H2 as [|v ? v2' ? Hv H2']; subst. inversion H2'; subst.
    rewrite concat_app. cbn [concat]. rewrite app_nil_r. apply rep_add; [apply Ra; exact H1|exact Hv].
  - intros ls ags _ F vs' H'. cbn [merge_accumulators mm_combiner].
    assert (G : exists ws, concat (map (@concat f32) ws) = concat vs' /\ Forall2 (fun w l => Forall2 Rep w l) ws ls).
    { clear -H'. revert vs' H'. induction ls as [|l ls IH]; cbn; intros vs' H'.
      - inversion H'. exists []. split; [reflexivity|constructor].
      - apply Forall2_app_inv_r in H' as (v1 & v2 & H1 & H2 & ->).
        destruct (IH _ H2) as (ws & E & F). exists (v1 :: ws). cbn. rewrite E, concat_app. split; [reflexivity|].
        constructor; assumption. }
    destruct G as (ws & <- & G). apply rep_merge.
    clear -F G. revert ws G. induction F as [|l a ls ags Ra F IH]; intros ws G; inversion G; subst; cbn; constructor.
    + apply Ra. assumption.
    + apply IH. assumption.
  - rewrite Forall_forall. auto.
  - exists a. split; [apply Ra, H|exact E].
Qed.

(** * Batches *)
Lemma batch_rep xs : (forall x, In x xs -> is_finite x = true) -> Rep xs (batch32 xs).
Proof.
  intro F. destruct xs as [|x xs]; [left; split; reflexivity|]. right. split; [discriminate|]. unfold batch32. cbn [fst snd].
  set (l := x :: xs) in *. assert (N : l <> []) by discriminate. clearbody l.
  split; [|apply reduce_max_ok; [exact N|apply Forall_forall; exact F]].
  destruct (reduce_max_ok (map (fun x => sub32 zero32 x) l)) as (G & (y & Y & E) & M).
  - destruct l; [contradiction|discriminate].
  - apply Forall_forall. intros z Hz. apply in_map_iff in Hz as (u & <- & U). apply neg_ok, F, U.
  - split; [exact G|]. split.
    + apply in_map_iff in Y as (u & <- & U). exists (Bopp u). split; [apply in_map_iff; exists u; auto|].
      rewrite E, B2R_Bopp. apply neg_ok, F, U.
    + intros z Hz. apply in_map_iff in Hz as (u & <- & U). rewrite B2R_Bopp, <- (proj2 (neg_ok u (F u U))). apply M.
      apply in_map_iff. exists u. auto.
Qed.

Lemma key_batch_rep segment_max xs : takes_max segment_max -> xs <> [] -> (forall x, In x xs -> is_finite x = true) ->
  Rep xs (batch32_key segment_max xs).
Proof.
  intros T N F. right. split; [exact N|]. unfold batch32_key. cbn [fst snd]. split; [|apply T; assumption].
  apply T; [destruct xs; [contradiction|discriminate]|]. intros z Hz. apply in_map_iff in Hz as (u & <- & U).
  rewrite is_finite_Bopp. apply F, U.
Qed.

(** * The minimum and maximum *)
(** [mn] and [mx] are the least and greatest values in single precision. *)
Definition ends (lo hi : number) (m : f32 * f32) : Prop :=
  is_finite (fst m) = true /\ B2R (fst m) = rnd (val lo) /\ Rabs (B2R (fst m)) <= bp 126 /\
  is_finite (snd m) = true /\ B2R (snd m) = rnd (val hi) /\ Rabs (B2R (snd m)) <= bp 126.

Lemma rep_ends column l a lo hi : (forall v, In v column -> ordinary v) -> least lo column -> greatest hi column ->
  Permutation l (map to_f32 column) -> Rep l a -> ends lo hi (sub32 zero32 (fst a), snd a).
Proof.
  intros O [L1 L2] [H1 H2] P R.
  assert (I : forall v, In v column -> In (to_f32 v) l) by (intros v V; eapply Permutation_in; [symmetry; exact P|apply in_map, V]).
  assert (J : forall y, In y l -> exists v, In v column /\ y = to_f32 v).
  { intros y Y. eapply Permutation_in in Y; [|exact P]. apply in_map_iff in Y as (v & <- & V). eauto. }
  destruct R as [[-> _]|(_ & (F1 & (y1 & Y1 & E1) & M1) & (F2 & (y2 & Y2 & E2) & M2))]; [destruct (I lo L1)|].
  destruct (neg_ok _ F1) as [N1 N2]. unfold ends. cbn [fst snd].
  assert (Elo : B2R (sub32 zero32 (fst a)) = rnd (val lo)).
  { rewrite N2. apply in_map_iff in Y1 as (u & <- & U). destruct (J u U) as (v & V & ->). rewrite B2R_Bopp in E1.
    destruct (to_f32_ok v (O v V)) as (_ & Ev & _). destruct (to_f32_ok lo (O lo L1)) as (_ & El & _).
    apply Rle_antisym.
    - rewrite <- El. specialize (M1 (Bopp (to_f32 lo))). rewrite B2R_Bopp in M1.
      assert (In (Bopp (to_f32 lo)) (map opp32 l)) by (apply in_map_iff; eauto). specialize (M1 H). lra.
    - rewrite E1, Ev, Ropp_involutive. apply rnd_le, L2, V. }
  assert (Ehi : B2R (snd a) = rnd (val hi)).
  { destruct (J y2 Y2) as (v & V & ->).
    destruct (to_f32_ok v (O v V)) as (_ & Ev & _). destruct (to_f32_ok hi (O hi H1)) as (_ & El & _).
    apply Rle_antisym; [rewrite E2, Ev; apply rnd_le, H2, V|rewrite <- El; apply M2, I, H1]. }
  split; [exact N1|]. split; [exact Elo|]. split.
  { rewrite Elo. destruct (to_f32_ok lo (O lo L1)) as (_ & <- & B). exact B. }
  split; [exact F2|]. split; [exact Ehi|]. rewrite Ehi. destruct (to_f32_ok hi (O hi H1)) as (_ & <- & B). exact B.
Qed.

Lemma batches_map {X Y} (f : X -> Y) (s : sched (sched X)) : batches_of (map_sched (map_sched f) s) = map f (batches_of s).
Proof. apply MeanVarProofs.batches_map. Qed.

(** Without keys. *)
Lemma of_ends (s : sched (sched (list number))) lo hi : let column := concat (batches_of s) in
  (forall v, In v column -> ordinary v) -> least lo column -> greatest hi column ->
  ends lo hi (min_and_max_of (map_sched (map_sched (map to_f32)) s)).
Proof.
  intros column O L H. unfold min_and_max_of.
  destruct (analyze_mm (map_sched (map_sched batch32) (map_sched (map_sched (map to_f32)) s)) (map (map to_f32) (batches_of s))) as (a & R & ->).
  - rewrite !batches_map. assert (F : forall b, In b (map (map to_f32) (batches_of s)) -> Rep b (batch32 b)).
    { intros b Hb. apply batch_rep. apply in_map_iff in Hb as (b' & <- & Hb). intros x Hx. apply in_map_iff in Hx as (v & <- & V).
      apply (to_f32_ok v), O. apply in_concat. eauto. }
    revert F. generalize (map (map to_f32) (batches_of s)). induction l as [|b l IH]; intro F; cbn [map]; constructor.
    + apply F. left. reflexivity.
    + apply IH. intros c Hc. apply F. right. exact Hc.
  - rewrite concat_to_f32 in R. eapply rep_ends; eauto.
Qed.

Lemma of_none (s : sched (sched (list number))) : concat (batches_of s) = [] ->
  min_and_max_of (map_sched (map_sched (map to_f32)) s) = (B754_infinity false, neg_inf32).
Proof.
  intro E. unfold min_and_max_of.
  destruct (analyze_mm (map_sched (map_sched batch32) (map_sched (map_sched (map to_f32)) s)) (map (map to_f32) (batches_of s))) as (a & R & ->).
  - rewrite !batches_map. assert (F : forall b, In b (batches_of s) -> b = []).
    { intros b Hb. destruct b as [|v b]; [reflexivity|]. exfalso. assert (In v (concat (batches_of s))) by (apply in_concat; exists (v :: b); split; [exact Hb|left; reflexivity]).
      rewrite E in H. destruct H. }
    revert F. generalize (batches_of s). induction l as [|b l IH]; intro F; cbn [map]; constructor.
    + rewrite (F b (or_introl eq_refl)). left. split; reflexivity.
    + apply IH. intros c Hc. apply F. right. exact Hc.
  - rewrite concat_to_f32, E in R. destruct R as [[_ ->]|[N _]]; [reflexivity|contradiction].
Qed.

(** With keys. *)
Lemma rows_with_f32 k (rows : list (string * number)) :
  of_key k (map (fun r => (fst r, to_f32 (snd r))) rows) = map to_f32 (rows_with k rows).
Proof.
  unfold of_key, rows_with. induction rows as [|[k' v] rows IH]; cbn; [reflexivity|]. destruct (String.eqb k' k); cbn; [f_equal|]; exact IH.
Qed.

Lemma key_ends segment_max (bs : list (list (string * number))) k s lo hi : takes_max segment_max ->
  Permutation (batches_of s) (inputs_of_key k (map (batch32_per_key segment_max) bs)) ->
  let column := rows_with k (concat bs) in
  (forall v, In v column -> ordinary v) -> least lo column -> greatest hi column -> ends lo hi (key_min_and_max32 s).
Proof.
  intros T HP column O L H. set (bs32 := map (map (fun r : string * number => (fst r, to_f32 (snd r)))) bs).
  assert (EQ : map (batch32_per_key segment_max) bs = map (reduce_per_key (batch32_key segment_max)) bs32).
  { unfold bs32. rewrite map_map. reflexivity. }
  rewrite EQ in HP. destruct (key_schedule _ k bs32 s HP) as (s' & -> & PB). unfold key_min_and_max32.
  assert (PC : Permutation (concat (batches_of s')) (map to_f32 column)).
  { unfold column. rewrite <- rows_with_f32. replace (map (fun r : string * number => (fst r, to_f32 (snd r))) (concat bs)) with (concat bs32)
      by (unfold bs32; rewrite concat_map; reflexivity). rewrite <- concat_key_batches. apply concat_perm, PB. }
  assert (FIN : forall x, In x (concat (batches_of s')) -> is_finite x = true).
  { intros x Hx. eapply Permutation_in in Hx; [|exact PC]. apply in_map_iff in Hx as (v & <- & V). apply (to_f32_ok v), O, V. }
  destruct (analyze_mm (map_sched (map_sched (batch32_key segment_max)) s') (batches_of s')) as (a & R & ->).
  - rewrite batches_map.
    assert (F : forall b, In b (batches_of s') -> Rep b (batch32_key segment_max b)).
    { intros b Hb. apply key_batch_rep; [exact T| |].
      - assert (Hk : In b (key_batches k bs32)) by (eapply Permutation_in; eassumption). unfold key_batches in Hk.
        apply filter_In in Hk as [_ Hk]. destruct b; [discriminate Hk|discriminate].
      - intros x Hx. apply FIN, in_concat. eauto. }
    revert F. generalize (batches_of s'). induction l as [|b l IH]; intro F; cbn [map]; constructor.
    + apply F. left. reflexivity.
    + apply IH. intros c Hc. apply F. right. exact Hc.
  - eapply rep_ends; eauto.
Qed.

(** * Scaling *)
Lemma tolerance omin omax : place_tolerance omin omax = Rmax (Rabs (B2R omin)) (Rabs (B2R omax)) * / 524288 + bp (-147).
Proof. reflexivity. Qed.

Section column.
  Variable sigmoid : f32 -> f32.
  Variables omin omax : f64.
  Variable m : f32 * f32.
  Variables lo hi : number.
  Hypothesis Bmin : bound omin.
  Hypothesis Bmax : bound omax.
  Hypothesis Omm : B2R omin < B2R omax.
  Hypothesis E : ends lo hi m.
  Notation out x := (scale32 sigmoid omin omax (fst m) (snd m) (to_f32 x)).
  (** [x] lies in the column. *)
  Definition within (x : number) : Prop := ordinary x /\ val lo <= val x <= val hi.

  Lemma out_at x : within x -> rnd (val lo) < rnd (val hi) ->
    exists q, is_finite q = true /\ 0 <= B2R q <= 1 /\ out x = place omin omax q
      /\ Rabs (B2R q - position lo hi x) <= 5 * / 16777216
      /\ (rnd (val x) = rnd (val lo) -> B2R q = 0) /\ (rnd (val x) = rnd (val hi) -> B2R q = 1).
  Proof.
    intros (Ox & X1 & X2) LH. destruct E as (N1 & N2 & N3 & M1 & M2 & M3). apply rnd_le in X1, X2.
    destruct (to_f32_ok x Ox) as (F & V & B).
    assert (B2R (fst m) < B2R (snd m)) as NM by lra. assert (B2R (fst m) <= B2R (to_f32 x)) as NX by lra.
    assert (B2R (to_f32 x) <= B2R (snd m)) as XM by lra.
    exists (div32 (sub32 (to_f32 x) (fst m)) (sub32 (snd m) (fst m))).
    destruct (quotient_ok (fst m) (snd m) (to_f32 x) N1 M1 F N3 M3 NX XM NM) as (Q1 & _ & Q2).
    split; [exact Q1|]. split; [exact Q2|]. split; [apply scale32_quotient; assumption|]. split.
    { pose proof (quotient_error (fst m) (snd m) (to_f32 x) N1 M1 F N3 M3 NX XM NM) as QE.
      unfold ratio in QE. rewrite V, N2, M2 in QE. exact QE. }
    split; intro A.
    - apply (quotient_lo (fst m) (snd m) (to_f32 x)); try assumption. lra.
    - apply (quotient_hi (fst m) (snd m) (to_f32 x)); try assumption. lra.
  Qed.

  Lemma out_unit x : within x -> rnd (val lo) < rnd (val hi) -> B2R omin = 0 -> B2R omax = 1 -> unit_place lo hi x (out x).
  Proof.
    intros W LH A B. destruct (out_at x W LH) as (q & Q1 & Q2 & -> & QE & Q0 & Q3). unfold unit_place.
    rewrite (place_unit omin omax Bmin Bmax Omm q Q1 Q2 A B).
    split; [apply (place_ok omin omax Bmin Bmax Omm q Q1 Q2)|].
    split; [exact Q2|]. split; [intro C; apply Q0; rewrite C; reflexivity|].
    split; [intro C; apply Q3; rewrite C; reflexivity | exact QE].
  Qed.

  Lemma out_place x : within x -> rnd (val lo) < rnd (val hi) ->
    bound_place omin omax (position lo hi x) (out x) /\ (val x = val lo -> B2R (out x) = rnd (B2R omin)).
  Proof.
    intros W LH. destruct (out_at x W LH) as (q & Q1 & Q2 & -> & QE & Q0 & _). destruct (offset_ok omin Bmin) as (_ & O & _).
    unfold bound_place. rewrite <- O, tolerance. split.
    - split; [apply (place_ok omin omax Bmin Bmax Omm q Q1 Q2)|]. split; [apply place_lower; assumption|].
      apply place_error; try assumption. destruct W as (_ & X1 & X2). apply rnd_le in X1, X2. unfold position. split.
      + apply Rmult_le_pos; [lra | left; apply Rinv_0_lt_compat; lra].
      + apply (Rmult_le_reg_r (rnd (val hi) - rnd (val lo))); [lra|]. unfold Rdiv. rewrite Rmult_assoc, Rinv_l, Rmult_1_r, Rmult_1_l; lra.
    - intro A. apply place_0; try assumption. apply Q0. rewrite A. reflexivity.
  Qed.

  Lemma out_mono x y : within x -> within y -> rnd (val lo) < rnd (val hi) -> val x <= val y -> B2R (out x) <= B2R (out y).
  Proof.
    intros (Ox & X1 & X2) (Oy & Y1 & Y2) LH XY. destruct E as (N1 & N2 & N3 & M1 & M2 & M3). apply rnd_le in X1, X2, Y1, Y2, XY.
    destruct (to_f32_ok x Ox) as (F & V & B). destruct (to_f32_ok y Oy) as (F' & V' & B').
    assert (B2R (fst m) < B2R (snd m)) as NM by lra. rewrite !scale32_quotient by assumption.
    destruct (quotient_ok (fst m) (snd m) (to_f32 x)) as (Q1 & _ & Q2); try assumption; try lra.
    destruct (quotient_ok (fst m) (snd m) (to_f32 y)) as (Q3 & _ & Q4); try assumption; try lra.
    apply place_mono; try assumption; try lra. apply quotient_mono; try assumption; lra.
  Qed.

  Lemma sigmoid_place f : sigmoid_like sigmoid -> is_finite f = true ->
    bound_place omin omax (B2R (sigmoid f)) (place omin omax (sigmoid f)).
  Proof.
    intros S F. destruct (S f F) as [S1 S2]. destruct (offset_ok omin Bmin) as (_ & O & _). unfold bound_place. rewrite <- O, tolerance.
    split; [apply (place_ok omin omax Bmin Bmax Omm _ S1 S2)|]. split; [apply place_lower; assumption|].
    apply place_error; try assumption. rewrite Rminus_eq_0, Rabs_R0. lra.
  Qed.

  Lemma out_constant x : ordinary x -> rnd (val lo) = rnd (val hi) -> sigmoid_like sigmoid ->
    bound_place omin omax (B2R (sigmoid (to_f32 x))) (out x).
  Proof.
    intros Ox LH S. destruct E as (N1 & N2 & N3 & M1 & M2 & M3). rewrite scale32_constant by (assumption || lra).
    apply sigmoid_place; [exact S|apply (to_f32_ok x Ox)].
  Qed.
End column.
