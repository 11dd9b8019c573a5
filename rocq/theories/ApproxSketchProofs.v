From Coq Require Import String Ascii List ZArith QArith Qcanon Bool Permutation Sorting.Sorted Arith Lia Lqa.
From Verif Require Import CombineModel MeanVarModel MeanVarProofs PerKeyProofs SortModel SortProofs VocabModel VocabSpec VocabProofs ApproxModel ApproxSpec ApproxProofs ApproxSketch.
Import ListNotations.
Local Open Scope Qc_scope.
Local Notation length := List.length.

Definition freq (l : rows) (t : string) : Qc := total (values_of t l).
Definition weight (l : rows) : Qc := total (map snd l).
Definition nonneg (l : rows) : Prop := Forall (fun r => 0 <= snd r) l.

Lemma freq_app a b t : freq (a ++ b) t = freq a t + freq b t.
Proof. unfold freq. now rewrite values_of_app, total_app. Qed.
Lemma weight_app a b : weight (a ++ b) = weight a + weight b.
Proof. unfold weight. now rewrite map_app, total_app. Qed.
Lemma freq_nonneg l t : nonneg l -> 0 <= freq l t.
Proof. intros H. now apply total_nonneg, values_nonneg. Qed.

Lemma reduce_keys (C : rows) : NoDup (map fst (reduce_per_key qc_sum C)) /\ forall t, In t (map fst (reduce_per_key qc_sum C)) <-> In t (map fst C).
Proof.
  destruct (tf_unique_spec (map fst C) []) as [N I]. unfold reduce_per_key. rewrite map_map. cbn [fst]. rewrite map_id.
  split; [exact N|]. intros t. rewrite I. cbn. tauto.
Qed.
Lemma reduce_freq C t : freq (reduce_per_key qc_sum C) t = freq C t.
Proof.
  destruct (reduce_keys C) as [N I]. unfold freq. destruct (in_dec string_dec t (map fst C)) as [J|J].
  - rewrite (values_of_nodup t (qc_sum (values_of t C))); [cbn [total]; rewrite qc_sum_total; ring|exact N|].
    unfold reduce_per_key. apply in_map_iff. exists t. split; [reflexivity|]. apply tf_unique_spec. split; [exact J|intros []].
  - rewrite !values_of_none; [reflexivity|exact J|]. now rewrite I.
Qed.
Lemma reduce_weight C : weight (reduce_per_key qc_sum C) = weight C.
Proof.
  unfold weight. destruct (tf_unique_spec (map fst C) []) as [N I].
  rewrite <- (total_by_keys C (tf_unique [] (map fst C)) N).
  - unfold reduce_per_key. rewrite map_map. f_equal. apply map_ext. intros k. apply qc_sum_total.
  - intros r J. apply I. split; [now apply in_map|intros []].
Qed.
Lemma reduce_nonneg C : nonneg C -> nonneg (reduce_per_key qc_sum C).
Proof.
  intros H. unfold nonneg, reduce_per_key. apply Forall_map, Forall_forall. intros k _. cbn [snd]. rewrite qc_sum_total. now apply total_nonneg, values_nonneg.
Qed.

Lemma qc_geb_spec a b : qc_geb a b = true <-> b <= a. Proof. apply Qle_bool_iff. Qed.
Lemma qc_geb_total a b : qc_geb a b = true \/ qc_geb b a = true.
Proof. rewrite !qc_geb_spec. destruct (Qclt_le_dec a b) as [H|H]; [right; now apply Qclt_le_weak|now left]. Qed.
Lemma qc_geb_trans a b c : qc_geb a b = true -> qc_geb b c = true -> qc_geb a c = true.
Proof. rewrite !qc_geb_spec. intros H1 H2. now apply Qcle_trans with b. Qed.

Definition above (d w : Qc) : bool := negb (Qle_bool w d).
Lemma above_spec d w : above d w = true <-> d < w.
Proof.
  unfold above. rewrite negb_true_iff. split.
  - intros H. apply Qcnot_le_lt. intros L. apply Qle_bool_iff in L. congruence.
  - intros H. destruct (Qle_bool w d) eqn:E; [|reflexivity]. apply Qle_bool_iff in E. exfalso. exact (Qclt_not_le _ _ H E).
Qed.

(** The weights: at most k stay, and the sum decreases by at least (k+1) d. *)
Lemma filter_none {A} (g : A -> bool) l : (forall a, In a l -> g a = false) -> filter g l = [].
Proof. induction l as [|a l IH]; intros H; [reflexivity|]. cbn [filter]. rewrite (H a (or_introl eq_refl)). apply IH. intros; apply H; now right. Qed.
Lemma sorted_around {A} (R : A -> A -> Prop) l d l' : StronglySorted R (l ++ d :: l') -> Forall (fun a => R a d) l /\ Forall (R d) l'.
Proof.
  induction l as [|a l IH]; cbn [app]; intros S'; inversion_clear S' as [|? ? H H0].
  - split; [constructor|exact H0].
  - destruct (IH H) as [H1 H2]. split; [|exact H2]. constructor; [|exact H1]. apply Forall_app in H0 as [_ H0]. now inversion H0.
Qed.
Lemma cut_weights k ws : (k < length ws)%nat -> Forall (fun w => 0 <= w) ws ->
  let d := nth k (py_sorted qc_geb ws) (Q2Qc 0) in
  0 <= d /\ (length (filter (above d) ws) <= k)%nat /\
  total (map (fun w => w - d) (filter (above d) ws)) + Q2Qc (inject_Z (Z.of_nat (S k))) * d <= total ws.
Proof.
  intros L F d.
  assert (P := py_sorted_perm qc_geb ws). assert (S' := py_sorted_sorted qc_geb qc_geb_total qc_geb_trans ws).
  set (L' := py_sorted qc_geb ws) in *. clearbody L'.
  assert (Lk : (k < length L')%nat) by (rewrite (Permutation_length P); exact L).
  destruct (nth_split L' (Q2Qc 0) Lk) as (A & B & E & LA). fold d in E.
  assert (F' : Forall (fun w => 0 <= w) L') by (eapply Permutation_Forall; [symmetry; exact P|exact F]).
  assert (D0 : 0 <= d) by (rewrite E in F'; apply Forall_app in F' as [_ F']; now inversion F').
  rewrite <- (Permutation_length (filter_perm (above d) _ _ P)), <- (total_perm _ _ P),
    <- (total_perm _ _ (Permutation_map (fun w => w - d) (filter_perm (above d) _ _ P))).
  rewrite E. rewrite E in S', F'. clearbody d. clear E P F L Lk ws L'.
  destruct (sorted_around _ _ _ _ S') as [HA0 HB0]. rewrite Forall_forall in HA0, HB0.
  assert (HB : forall b, In b B -> b <= d) by (intros b I; apply qc_geb_spec, HB0, I).
  assert (HA : forall a, In a A -> d <= a) by (intros a I; apply qc_geb_spec, HA0, I).
  clear HA0 HB0.
  split; [exact D0|]. rewrite filter_app. cbn [filter].
  replace (above d d) with false by (unfold above; symmetry; apply negb_false_iff, Qle_bool_iff, Qcle_refl).
  rewrite (filter_none (above d) B), app_nil_r.
  2:{ intros b I. unfold above. apply negb_false_iff, Qle_bool_iff. exact (HB b I). }
  apply Forall_app in F' as [FA FB]. inversion_clear FB as [|? ? _ FB'].
  rewrite total_app. cbn [total]. assert (TB := total_nonneg _ FB'). clear HB FB' S' FA.
  split.
  - rewrite <- LA. clear. induction A as [|a A IH]; [apply Nat.le_refl|]. cbn [filter length]. destruct (above d a); cbn [length]; lia.
  - assert (T : total (map (fun w => w - d) (filter (above d) A)) + Q2Qc (inject_Z (Z.of_nat (length A))) * d <= total A).
    { clear LA TB. induction A as [|a A IH].
      - cbn [filter map total length]. change (Z.of_nat 0) with 0%Z. change (inject_Z 0) with 0%Q. qc.
      - cbn [length]. rewrite Nat2Z.inj_succ. unfold Z.succ.
        assert (I1 := IH (fun b I => HA b (or_intror I))). assert (I2 := HA a (or_introl eq_refl)).
        replace (Q2Qc (inject_Z (Z.of_nat (length A) + 1)) * d) with (Q2Qc (inject_Z (Z.of_nat (length A))) * d + d)
          by (apply Qc_is_canon; to_q; rewrite inject_Z_plus; ring).
        set (q := Q2Qc (inject_Z (Z.of_nat (length A))) * d) in *. clearbody q.
        cbn [filter]. destruct (above d a) eqn:Ea; cbn [map total].
        + qc.
        + unfold above in Ea. apply negb_false_iff, Qle_bool_iff in Ea. fold (Qcle a d) in Ea. qc. }
    rewrite LA in T. rewrite Nat2Z.inj_succ. unfold Z.succ.
    replace (Q2Qc (inject_Z (Z.of_nat k + 1)) * d) with (Q2Qc (inject_Z (Z.of_nat k)) * d + d)
      by (apply Qc_is_canon; to_q; rewrite inject_Z_plus; ring).
    set (q := Q2Qc (inject_Z (Z.of_nat k)) * d) in *. clearbody q. qc.
Qed.

Lemma compress_spec k c : NoDup (map fst c) -> nonneg c ->
  (length (compress k c) <= k)%nat /\ NoDup (map fst (compress k c)) /\ nonneg (compress k c) /\
  (forall t, In t (map fst (compress k c)) -> In t (map fst c)) /\
  exists d, 0 <= d /\ (forall t, freq (compress k c) t <= freq c t /\ freq c t <= freq (compress k c) t + d) /\
    Q2Qc (inject_Z (Z.of_nat (S k))) * d <= weight c - weight (compress k c).
Proof.
  intros N F. unfold compress. destruct (Nat.leb_spec (length c) k) as [L|L].
  - split; [exact L|]. split; [exact N|]. split; [exact F|]. split; [auto|]. exists (Q2Qc 0). split; [apply Qcle_refl|]. split.
    + intros t. qc.
    + set (q := Q2Qc (inject_Z (Z.of_nat (S k)))). clearbody q. replace (q * Q2Qc 0) with (Q2Qc 0) by ring. qc.
  - assert (Fw : Forall (fun w => 0 <= w) (map snd c)) by (apply Forall_map; exact F).
    assert (H := cut_weights k (map snd c)). rewrite map_length in H. specialize (H L Fw).
    set (d := nth k (py_sorted qc_geb (map snd c)) (Q2Qc 0)) in *. cbn zeta in H. destruct H as (D0 & Hl & Hw). clearbody d.
    assert (Em : filter (above d) (map snd c) = map snd (filter (fun r => above d (snd r)) c)).
    { clear. induction c as [|r c IH]; [reflexivity|]. cbn [map filter]. destruct (above d (snd r)); cbn [map]; now rewrite IH. }
    rewrite Em in Hl, Hw. rewrite map_length in Hl. rewrite map_map in Hw. clear Em.
    change (fun r : string * Qc => negb (Qle_bool (snd r) d)) with (fun r : string * Qc => above d (snd r)).
    split; [now rewrite map_length|]. split; [|split; [|split; [|exists d; split; [exact D0|split]]]].
    + rewrite map_map. cbn [fst]. clear - N. induction c as [|r c IH]; [constructor|]. cbn [map] in N. inversion_clear N. cbn [filter].
      destruct (above d (snd r)); [|now apply IH]. cbn [map]. constructor; [|now apply IH].
      intros I. apply H. apply in_map_iff in I as (x & E & I). apply filter_In in I as [I _]. rewrite <- E. now apply in_map.
    + apply Forall_map, Forall_forall. intros r I. apply filter_In in I as [_ I]. apply above_spec in I. cbn [snd]. qc.
    + intros t. rewrite map_map. cbn [fst]. intros I. apply in_map_iff in I as (x & <- & I). apply filter_In in I as [I _]. now apply in_map.
    + intros t.
      assert (E : freq (map (fun r => (fst r, snd r - d)) (filter (fun r => above d (snd r)) c)) t
                  = total (map (fun w => w - d) (filter (above d) (values_of t c)))).
      { unfold freq, values_of. f_equal. clear. induction c as [|[u w] c IH]; [reflexivity|]. cbn [filter fst snd].
        destruct (String.eqb t u) eqn:Et; destruct (above d w) eqn:Ew; cbn [map filter fst snd]; rewrite ?Et, ?Ew; cbn [map]; rewrite ?IH; reflexivity. }
      rewrite E. unfold freq. destruct (in_dec string_dec t (map fst c)) as [J|J].
      * apply in_map_iff in J as ([t' w] & <- & J). cbn [fst]. rewrite (values_of_nodup t' w c N J). cbn [filter].
        assert (W : 0 <= w) by (unfold nonneg in F; rewrite Forall_forall in F; exact (F _ J)).
        destruct (above d w) eqn:Ew; cbn [map total].
        -- apply above_spec in Ew. split; qc.
        -- unfold above in Ew. apply negb_false_iff, Qle_bool_iff in Ew. fold (Qcle w d) in Ew. split; qc.
      * rewrite (values_of_none t c J). cbn [filter map total]. split; qc.
    + unfold weight. rewrite map_map. cbn [snd].
      set (q := Q2Qc (inject_Z (Z.of_nat (S k))) * d) in *. clearbody q.
      set (a := total (map (fun x : string * Qc => snd x - d) (filter (fun r : string * Qc => above d (snd r)) c))) in *. clearbody a. qc.
Qed.

(** ** The invariant *)
Definition invariant (k : nat) (s : misra_gries_sketch) (l : rows) : Prop :=
  buckets s = k /\ (length (counts s) <= k)%nat /\ NoDup (map fst (counts s)) /\ nonneg (counts s) /\
  (forall t, In t (map fst (counts s)) -> In t (map fst l)) /\
  exists d, 0 <= d /\ (forall t, freq (counts s) t <= freq l t /\ freq l t <= freq (counts s) t + d) /\
    Q2Qc (inject_Z (Z.of_nat (S k))) * d <= weight l - weight (counts s).

Lemma include_spec k s l items l' d' : invariant k s l -> nonneg items -> 0 <= d' ->
  (forall t, In t (map fst items) -> In t (map fst l')) ->
  (forall t, freq items t <= freq l' t /\ freq l' t <= freq items t + d') ->
  Q2Qc (inject_Z (Z.of_nat (S k))) * d' <= weight l' - weight items ->
  invariant k (include s items) (l ++ l').
Proof.
  intros (B & _ & N & F & I & d & D & E & M) F' D' I' E' M'. unfold invariant, include. cbn [buckets counts]. rewrite B.
  set (R := reduce_per_key qc_sum (counts s ++ items)).
  assert (KR := reduce_keys (counts s ++ items)). fold R in KR. destruct KR as [NR KR].
  assert (FR : nonneg R) by (apply reduce_nonneg, Forall_app; now split).
  destruct (compress_spec k R NR FR) as (H1 & H2 & H3 & H4 & d2 & D2 & E2 & M2).
  split; [reflexivity|]. split; [exact H1|]. split; [exact H2|]. split; [exact H3|]. split.
  - intros t H. apply H4, KR in H. rewrite map_app, in_app_iff in *. destruct H; auto.
  - exists (d + d' + d2). split; [qc|]. split.
    + intros t. destruct (E2 t) as [a1 a2]. destruct (E t) as [b1 b2]. destruct (E' t) as [c1 c2].
      assert (fR : freq R t = freq (counts s) t + freq items t) by (unfold R; now rewrite reduce_freq, freq_app).
      rewrite fR in a1, a2. clear fR. rewrite freq_app.
      set (x := freq (compress k R) t) in *. clearbody x. clear - D D' D2 a1 a2 b1 b2 c1 c2. split; qc.
    + assert (wR : weight R = weight (counts s) + weight items) by (unfold R; now rewrite reduce_weight, weight_app).
      rewrite wR in M2. rewrite weight_app. set (v := weight (compress k R)) in *. clearbody v.
      clear - M M' M2.
      set (q := Q2Qc (inject_Z (Z.of_nat (S k)))) in *. clearbody q.
      replace (q * (d + d' + d2)) with (q * d + q * d' + q * d2) by ring.
      set (x := q * d) in *. set (y := q * d') in *. set (z := q * d2) in *. clearbody x y z. qc.
Qed.

Lemma invariant_built k s l : built misra_gries k s l -> nonneg l -> invariant k s l.
Proof.
  induction 1 as [|s l items B IH|s l s' l' B IH B' IH'|s l B IH]; intros F.
  - split; [reflexivity|]. split; [apply Nat.le_0_l|]. split; [constructor|]. split; [constructor|]. split; [intros t []|].
    exists (Q2Qc 0). split; [apply Qcle_refl|]. split; [intros t; cbn; split; apply Qcle_refl || (unfold freq; cbn; qc)|].
    set (q := Q2Qc (inject_Z (Z.of_nat (S k)))). clearbody q. replace (q * Q2Qc 0) with (Q2Qc 0) by ring. unfold weight. cbn. qc.
  - apply Forall_app in F as [F F']. apply (include_spec k s l items items (Q2Qc 0)); [now apply IH|exact F'|apply Qcle_refl|auto| |].
    + intros t. split; qc.
    + set (q := Q2Qc (inject_Z (Z.of_nat (S k)))). clearbody q. replace (q * Q2Qc 0) with (Q2Qc 0) by ring. qc.
  - apply Forall_app in F as [F F']. destruct (IH' F') as (B1 & _ & _ & F1 & I1 & d & D & E & M).
    apply (include_spec k s l (counts s') l' d); auto.
  - now apply IH.
Qed.

Lemma geb_strict a b : snd a <> snd b -> entry_geb a b = true -> fst b < fst a \/ (fst b = fst a /\ String.ltb (snd b) (snd a) = true).
Proof.
  intros N G.
  apply (geb_comes_before (fun t => if String.eqb t (snd a) then fst a else fst b) a b N) in G.
  - unfold comes_before in G. rewrite String.eqb_refl in G. destruct (String.eqb_spec (snd b) (snd a)) as [E|_]; [congruence|exact G].
  - now rewrite String.eqb_refl.
  - destruct (String.eqb_spec (snd b) (snd a)) as [E|_]; [congruence|reflexivity].
Qed.
Lemma sorted_entries es : NoDup (map snd es) -> StronglySorted (fun a b => entry_geb a b = true) es ->
  StronglySorted (fun a b => (fst b < fst a)%Qc \/ (fst b = fst a /\ String.ltb (snd b) (snd a) = true)) es.
Proof.
  intros N S. induction S as [|e es S IH F]; [constructor|]. cbn [map] in N. inversion_clear N. constructor; [now apply IH|].
  rewrite Forall_forall in *. intros e' I. apply geb_strict; [|now apply F]. intros E. apply H. rewrite E. now apply in_map.
Qed.

Lemma misra_gries_promise k : keeps_promise misra_gries k.
Proof.
  intros s l B F. destruct (invariant_built k s l B F) as (_ & L & N & F' & I & d & D & E & M).
  cbn [estimate misra_gries]. set (c := counts s) in *. set (sw := map (fun r : string * Qc => (snd r, fst r)) c).
  assert (P : Permutation (py_sorted entry_geb sw) sw) by apply py_sorted_perm.
  assert (S' := py_sorted_sorted entry_geb entry_geb_total entry_geb_trans sw).
  set (es := py_sorted entry_geb sw) in *. clearbody es.
  assert (Ps : Permutation (map snd es) (map fst c)).
  { rewrite (Permutation_map snd P). unfold sw. rewrite map_map. reflexivity. }
  assert (Pf : Permutation (map fst es) (map snd c)).
  { rewrite (Permutation_map fst P). unfold sw. rewrite map_map. reflexivity. }
  assert (Ne : NoDup (map snd es)) by (eapply Permutation_NoDup; [symmetry; exact Ps|exact N]).
  split; [|split; [|split; [|split; [|split]]]].
  - rewrite (Permutation_length P). unfold sw. now rewrite map_length.
  - now apply sorted_entries.
  - exact Ne.
  - eapply Permutation_Forall; [symmetry; exact P|]. unfold sw. apply Forall_map. exact F'.
  - intros t J. apply I. eapply Permutation_in; [exact Ps|exact J].
  - exists d. split.
    + assert (Ef : forall t, estimated es t = freq c t).
      { intros t. unfold estimated, freq, values_of. rewrite (total_perm _ _ (Permutation_map fst (filter_perm (fun e => String.eqb t (snd e)) _ _ P))).
        unfold sw. f_equal. clear. induction c as [|r c IH]; [reflexivity|]. cbn [map filter snd fst]. destruct (String.eqb t (fst r)); cbn [map fst]; now rewrite IH. }
      assert (Ex : forall t, indicator true l t = freq l t).
      { intros t. rewrite indicator_values. unfold freq, row_weight. do 2 f_equal. rewrite <- (map_id l) at 2. apply map_ext. intros []; reflexivity. }
      intros t. rewrite Ef, Ex. apply E.
    + rewrite (total_perm _ _ Pf). exact M.
Qed.
