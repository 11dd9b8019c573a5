From Coq Require Import String List ZArith QArith Qfield Bool Lia Lqa Permutation.
From Verif Require Import CombineModel CombineProofs NumericSpec FloatModel MeanVarModel MeanVarProofs PerKeyModel PerKeyProofs.
From Verif Require Import ScaleModel ScaleSpec.
Import ListNotations.
Open Scope Q_scope.

(** ** Min and max *)

Lemma fmax_fin a b : exists m, fmax (Fin a) (Fin b) = Fin m /\ (m = a \/ m = b) /\ a <= m /\ b <= m.
Proof.
  cbn. destruct (Qle_bool a b) eqn:E.
  - exists b. split; [reflexivity|]. apply Qle_bool_iff in E. repeat split; auto; lra.
  - exists a. split; [reflexivity|]. assert (~ a <= b) by (intros H; apply Qle_bool_iff in H; congruence).
    repeat split; auto; lra.
Qed.

(** Accumulator [a] describes the finite values [v]. *)
Definition rep (v : list Q) (a : fl * fl) : Prop :=
  (v = [] /\ a = (neg_inf, neg_inf)) \/
  (v <> [] /\ exists m M, a = (Fin m, Fin M) /\ q_is_max m (map (fun x => 0 - x) v) /\ q_is_max M v).

Lemma q_is_max_app m m' k v w : (k = m \/ k = m') -> m <= k -> m' <= k ->
  q_is_max m v -> q_is_max m' w -> q_is_max k (v ++ w).
Proof.
  intros Hk L L' [(x & Hx & Ex) H] [(x' & Hx' & Ex') H']. split.
  - destruct Hk as [->| ->]; [exists x|exists x']; rewrite in_app_iff; auto.
  - intros y Hy. apply in_app_iff in Hy as [Hy|Hy]; [apply H in Hy|apply H' in Hy]; lra.
Qed.

Lemma rep_not_default v a : rep v a -> float_is_default a = match v with [] => true | _ => false end.
Proof.
  intros [[-> ->]|(Hv & m & M & -> & _ & _)]; [reflexivity|]. destruct v; [congruence|reflexivity].
Qed.

Lemma rep_add v w a b : rep v a -> rep w b -> rep (v ++ w) (float_add a b).
Proof.
  intros Ha Hb. unfold float_add. rewrite (rep_not_default _ _ Ha).
  destruct v as [|x v]; [exact Hb|].
  destruct Ha as [[? _]|(_ & m & M & -> & Hm & HM)]; [discriminate|].
  right. split; [discriminate|].
  destruct Hb as [[-> ->]|(_ & m' & M' & -> & Hm' & HM')].
  - rewrite app_nil_r. exists m, M. auto.
  - unfold np_fmax, fst, snd, fold_left.
    destruct (fmax_fin m m') as (k & -> & K & L & L').
    destruct (fmax_fin M M') as (k' & -> & K' & L2 & L2').
    exists k, k'. split; [reflexivity|]. rewrite map_app.
    split; eapply q_is_max_app; eauto.
Qed.

Definition join (a b : fl * fl) : fl * fl := (fmax (fst a) (fst b), fmax (snd a) (snd b)).
Lemma np_fmax_join l a : (np_fmax (map fst (a :: l)), np_fmax (map snd (a :: l))) = fold_left join l a.
Proof.
  cbn. revert a. induction l as [|b l IH]; intros a; cbn; [destruct a; reflexivity|].
  specialize (IH (join a b)). cbn in IH. exact IH.
Qed.

Lemma rep_merge vs accs : Forall2 rep vs accs -> rep (concat vs) (float_merge accs).
Proof.
  intros H. unfold float_merge.
  assert (G : exists ws, concat ws = concat vs /\ Forall2 rep ws (filter (fun a => negb (float_is_default a)) accs)
              /\ Forall (fun w => w <> []) ws).
  { induction H as [|v a vs accs Ha _ (ws & E & F & N)]; cbn; [exists []; repeat split; constructor|].
    rewrite (rep_not_default _ _ Ha). destruct v as [|x v]; cbn.
    - exists ws; auto.
    - exists ((x :: v) :: ws). cbn. rewrite E. split; [reflexivity|]. split; constructor; auto; discriminate. }
  destruct G as (ws & <- & F & N). clear H.
  destruct F as [|w a ws l Hw F]; [left; split; reflexivity|].
  rewrite np_fmax_join. cbn [concat]. inversion N as [|? ? Nw N']; subst. clear N.
  revert w a Hw Nw. induction F as [|w' b ws l Hw' F IH]; intros w a Hw Nw; cbn.
  - rewrite app_nil_r. exact Hw.
  - inversion N' as [|? ? Nw' N'']; subst. rewrite app_assoc. apply IH; [exact N''| |].
    + replace (join a b) with (float_add a b); [apply rep_add; assumption|].
      unfold float_add. rewrite (rep_not_default _ _ Hw). destruct w; [congruence|]. reflexivity.
    + destruct w; [congruence|discriminate].
Qed.

Lemma analyze_minmax_rep (s : sched (sched (fl * fl))) vs :
  Forall2 rep vs (batches_of s) ->
  exists a, rep (concat vs) a /\ analyze float_minmax_combiner s = (fsub (Fin 0) (fst a), snd a).
Proof.
  intros H.
  destruct (analyze_rep float_minmax_combiner
              (fun l a => forall vs, Forall2 rep vs l -> rep (concat vs) a) (fun _ => True)) with (s := s)
    as (a & Ra & E).
  - intros vs' H'. inversion H'. left. split; reflexivity.
  - intros l a x _ Ra vs' H'. apply Forall2_app_inv_r in H' as (v1 & v2 & H1 & H2 & ->).
    inversion H2 as [|v ? v2' ? Hv H2']; subst. inversion H2'; subst.
    rewrite concat_app. cbn [concat]. rewrite app_nil_r.
    apply rep_add; [apply Ra; exact H1|exact Hv].
  - intros ls ags _ F vs' H'. cbn [merge_accumulators float_minmax_combiner].
    assert (G : exists ws, concat (map (@concat Q) ws) = concat vs' /\ Forall2 (fun w l => Forall2 rep w l) ws ls).
    { clear -H'. revert vs' H'. induction ls as [|l ls IH]; cbn; intros vs' H'.
      - inversion H'. exists []. split; [reflexivity|constructor].
      - apply Forall2_app_inv_r in H' as (v1 & v2 & H1 & H2 & ->).
        destruct (IH _ H2) as (ws & E & F). exists (v1 :: ws). cbn. rewrite E, concat_app. split; [reflexivity|].
        constructor; assumption. }
    destruct G as (ws & <- & G). apply rep_merge.
    clear -F G. revert ws G. induction F as [|l a ls ags Ra F IH]; intros ws G; inversion G; subst; cbn; constructor.
    + apply Ra. assumption.
    + apply IH. assumption.
  - rewrite Forall_forall. auto.
  - exists a. split; [apply Ra, H|exact E].
Qed.

Lemma fold_fmax_rep l : forall a, exists m, fold_left fmax (map Fin l) (Fin a) = Fin m /\ q_is_max m (a :: l).
Proof.
  induction l as [|b l IH]; intros a; cbn [map fold_left].
  - exists a. split; [reflexivity|]. split; [exists a; cbn; split; [auto|reflexivity]|].
    intros x [<-|[]]. lra.
  - destruct (fmax_fin a b) as (k & -> & K & L & L'). destruct (IH k) as (m & -> & (x & Hx & Ex) & H).
    exists m. split; [reflexivity|]. split.
    + exists x. split; [|exact Ex]. cbn in *. destruct Hx as [<-|Hx]; [destruct K; auto|auto].
    + assert (k <= m) by (apply H; left; reflexivity).
      intros y [<-|[<-|Hy]]; [lra|lra|apply H; right; exact Hy].
Qed.

Lemma freduce_max_rep l : l <> [] -> exists m, freduce_max (map Fin l) = Fin m /\ q_is_max m l.
Proof.
  destruct l as [|a l]; [congruence|]. intros _. unfold freduce_max. cbn [map fold_left].
  replace (fmax neg_inf (Fin a)) with (Fin a) by reflexivity. apply fold_fmax_rep.
Qed.

Lemma finite_map_fin xs : Forall (fun x => is_finite x = true) xs -> xs = map Fin (finites xs).
Proof. induction 1 as [|x l Hx _ IH]; [reflexivity|]. destruct x; try discriminate. cbn. congruence. Qed.

Lemma float_batch_rep xs : Forall (fun x => is_finite x = true) xs -> rep (finites xs) (float_batch xs).
Proof.
  intros H. rewrite (finite_map_fin xs H) at 2. generalize (finites xs) as v. clear. intros v.
  destruct v as [|x v]; [left; split; reflexivity|]. right. split; [discriminate|].
  unfold float_batch. rewrite map_map.
  replace (map (fun x0 => fsub (Fin 0) (Fin x0)) (x :: v)) with (map Fin (map (fun x => 0 - x) (x :: v)))
    by (rewrite map_map; reflexivity).
  destruct (freduce_max_rep (map (fun x => 0 - x) (x :: v))) as (m & -> & Hm); [discriminate|].
  destruct (freduce_max_rep (x :: v)) as (M & -> & HM); [discriminate|].
  exists m, M. auto.
Qed.

Lemma rep_output v a : rep v a -> v <> [] ->
  exists mn mx, (fsub (Fin 0) (fst a), snd a) = (Fin mn, Fin mx) /\ q_is_min mn v /\ q_is_max mx v.
Proof.
  intros [[-> _]|(_ & m & M & -> & Hm & HM)] Hv; [congruence|].
  exists (0 + - m), M. split; [reflexivity|]. split; [|exact HM].
  destruct Hm as [(x & Hx & Ex) H]. apply in_map_iff in Hx as (y & <- & Hy). split.
  - exists y. split; [exact Hy|]. lra.
  - intros z Hz. specialize (H (0 - z) (in_map (fun x => 0 - x) _ _ Hz)). cbv beta in H. lra.
Qed.

Lemma float_min_and_max_rep (s : sched (sched (list fl))) :
  Forall (fun x => is_finite x = true) (rows_of s) ->
  exists a, rep (finites (rows_of s)) a /\ float_min_and_max s = (fsub (Fin 0) (fst a), snd a).
Proof.
  intros H. unfold float_min_and_max, rows_of in *. rewrite finites_concat.
  apply analyze_minmax_rep. rewrite batches_map.
  apply Forall_concat in H. induction H as [|b bs Hb _ IH]; cbn; constructor; [apply float_batch_rep, Hb|exact IH].
Qed.

Lemma float_min_and_max_exact (s : sched (sched (list fl))) :
  Forall (fun x => is_finite x = true) (rows_of s) -> rows_of s <> [] ->
  exists mn mx, float_min_and_max s = (Fin mn, Fin mx) /\
    q_is_min mn (finites (rows_of s)) /\ q_is_max mx (finites (rows_of s)).
Proof.
  intros H N. destruct (float_min_and_max_rep s H) as (a & Ra & ->). apply rep_output; [exact Ra|].
  rewrite (finite_map_fin _ H) in N. destruct (finites (rows_of s)); [contradiction N; reflexivity|discriminate].
Qed.

Lemma float_min_and_max_empty (s : sched (sched (list fl))) :
  rows_of s = [] -> float_min_and_max s = (Inf false, Inf true).
Proof.
  intros E. destruct (float_min_and_max_rep s) as (a & Ra & ->); rewrite E in *; [constructor|].
  destruct Ra as [[_ ->]|[H _]]; [reflexivity|contradiction H; reflexivity].
Qed.

Lemma finites_in l x : In x (finites l) <-> In (Fin x) l.
Proof.
  induction l as [|[q| |b] l IH]; cbn; [tauto| | |]; rewrite IH; split; intuition congruence.
Qed.

Lemma float_key_min_and_max_exact k (bs : list (list (string * fl))) s :
  Permutation (batches_of s) (inputs_of_key k (map float_batch_per_key bs)) ->
  let vs := values_of k (concat bs) in
  vs <> [] -> Forall (fun x => is_finite x = true) vs ->
  exists mn mx, float_key_min_and_max s = (Fin mn, Fin mx) /\ q_is_min mn (finites vs) /\ q_is_max mx (finites vs).
Proof.
  intros HP vs Hn HF. destruct (per_key_schedule _ _ _ _ HP) as (s' & -> & HPr & _). fold vs in HPr.
  change (float_key_min_and_max (map_sched (map_sched float_batch) s')) with (float_min_and_max s').
  destruct (float_min_and_max_exact s') as (mn & mx & E & Hmn & Hmx).
  - eapply Permutation_Forall; [symmetry; exact HPr|exact HF].
  - intros E. rewrite E in HPr. apply Permutation_nil in HPr. contradiction.
  - exists mn, mx. split; [exact E|].
    assert (P : forall x, In x (finites vs) <-> In x (finites (rows_of s'))).
    { intros x. rewrite !finites_in. split; apply Permutation_in; [symmetry|]; exact HPr. }
    destruct Hmn as [(x & Hx & Ex) H1], Hmx as [(y & Hy & Ey) H2].
    split; split; try (intros z Hz; apply P in Hz; auto).
    + exists x. rewrite P. auto.
    + exists y. rewrite P. auto.
Qed.

(** ** Scaling *)

Section scale_proofs.
  Variables (sigmoid : Q -> Q).
  Hypothesis HS : is_sigmoid sigmoid.
  Variables (lo hi : Q).
  Hypothesis Hlh : lo < hi.

  (** The scaled value of a finite [x] when the range is finite. *)
  Definition scaled (mn mx x : Q) : Q :=
    (if Qle_bool mx mn then sigmoid x else (x + - mn) / (mx + - mn)) * (hi - lo) + lo.

  Lemma scale_value_fin mn mx x : scale_value sigmoid lo hi (Fin mn) (Fin mx) (Fin x) = Fin (scaled mn mx x).
  Proof.
    unfold scale_value, scaled. cbn. destruct (Qle_bool mx mn) eqn:E; cbn; [reflexivity|].
    destruct (Qeq_bool (mx + - mn) 0) eqn:E'; [|reflexivity].
    exfalso. apply Qeq_bool_iff in E'. assert (~ mx <= mn) by (intros H; apply Qle_bool_iff in H; congruence). lra.
  Qed.

  Lemma ratio_bounds a d : 0 < d -> 0 <= a -> a <= d -> 0 <= a / d <= 1.
  Proof.
    intros Hd H1 H2. split.
    - apply Qle_shift_div_l; [exact Hd|]. lra.
    - apply Qle_shift_div_r; [exact Hd|]. lra.
  Qed.

  Lemma scaled_range mn mx x : mn <= x <= mx -> lo <= scaled mn mx x <= hi.
  Proof.
    intros Hx. unfold scaled.
    assert (G : forall r, 0 <= r <= 1 -> lo <= r * (hi - lo) + lo <= hi) by (intros r [A B]; nra).
    apply G. destruct (Qle_bool mx mn) eqn:E.
    - pose proof (sigmoid_pos _ HS x). pose proof (sigmoid_lt_1 _ HS x). lra.
    - assert (~ mx <= mn) by (intros H; apply Qle_bool_iff in H; congruence).
      apply ratio_bounds; lra.
  Qed.

  Lemma scaled_degenerate mn mx x : mx <= mn -> lo < scaled mn mx x < hi.
  Proof.
    intros H. unfold scaled. apply Qle_bool_iff in H. rewrite H.
    pose proof (sigmoid_pos _ HS x). pose proof (sigmoid_lt_1 _ HS x). nra.
  Qed.

  Lemma scaled_ends mn mx : mn < mx -> forall x, (x == mn -> scaled mn mx x == lo) /\ (x == mx -> scaled mn mx x == hi).
  Proof.
    intros H x. unfold scaled. destruct (Qle_bool mx mn) eqn:E; [apply Qle_bool_iff in E; lra|].
    split; intros ->; field; lra.
  Qed.

  Lemma scaled_mono mn mx x y : x <= y -> scaled mn mx x <= scaled mn mx y.
  Proof.
    intros H. unfold scaled.
    assert (G : forall r t, r <= t -> r * (hi - lo) + lo <= t * (hi - lo) + lo) by (intros r t A; nra).
    apply G. destruct (Qle_bool mx mn) eqn:E; [apply (sigmoid_mono _ HS), H|].
    assert (~ mx <= mn) by (intros A; apply Qle_bool_iff in A; congruence).
    unfold Qdiv. apply Qmult_le_compat_r; [lra|]. apply Qlt_le_weak, Qinv_lt_0_compat. lra.
  Qed.

  Lemma scaled_strict mn mx x y : mn < mx -> x < y -> scaled mn mx x < scaled mn mx y.
  Proof.
    intros D H. unfold scaled. destruct (Qle_bool mx mn) eqn:E; [apply Qle_bool_iff in E; lra|].
    assert (G : forall r t, r < t -> r * (hi - lo) + lo < t * (hi - lo) + lo) by (intros r t A; nra).
    apply G. unfold Qdiv. apply Qmult_lt_r; [apply Qinv_lt_0_compat; lra|lra].
  Qed.
End scale_proofs.

Lemma scale_by_min_max_spec sigmoid lo hi (s : sched (sched (list fl))) :
  is_sigmoid sigmoid -> lo < hi ->
  Forall (fun x => is_finite x = true) (rows_of s) -> rows_of s <> [] ->
  exists f mn mx,
    q_is_min mn (finites (rows_of s)) /\ q_is_max mx (finites (rows_of s)) /\
    (forall x, scale_by_min_max sigmoid lo hi s (Fin x) = Some (Fin (f x))) /\
    (forall x, mn <= x <= mx -> lo <= f x <= hi) /\
    (forall x y, x <= y -> f x <= f y) /\
    (mn < mx -> (forall x, x == mn -> f x == lo) /\ (forall x, x == mx -> f x == hi) /\ (forall x y, x < y -> f x < f y)).
Proof.
  intros HS Hlh HF HN. destruct (float_min_and_max_exact s HF HN) as (mn & mx & E & Hmn & Hmx).
  exists (scaled sigmoid lo hi mn mx), mn, mx.
  split; [exact Hmn|]. split; [exact Hmx|]. split; [|split; [|split]].
  - intros x. unfold scale_by_min_max. rewrite E.
    destruct (Qle_bool hi lo) eqn:B; [apply Qle_bool_iff in B; lra|]. rewrite scale_value_fin. reflexivity.
  - intros x Hx. apply scaled_range; assumption.
  - intros x y. apply scaled_mono; assumption.
  - intros D. split; [|split].
    + intros x. apply scaled_ends; assumption.
    + intros x. apply scaled_ends; assumption.
    + intros x y. apply scaled_strict; assumption.
Qed.

Lemma scale_dataset_in_range sigmoid lo hi (s : sched (sched (list fl))) x :
  is_sigmoid sigmoid -> lo < hi ->
  Forall (fun x => is_finite x = true) (rows_of s) -> In x (rows_of s) ->
  exists y, scale_by_min_max sigmoid lo hi s x = Some (Fin y) /\ lo <= y <= hi.
Proof.
  intros HS Hlh HF Hx.
  destruct (scale_by_min_max_spec sigmoid lo hi s HS Hlh HF) as (f & mn & mx & Hmn & Hmx & Hf & R & _).
  { intros E. rewrite E in Hx. destruct Hx. }
  pose proof (proj1 (Forall_forall _ _) HF x Hx) as Fx. destruct x as [q| |]; try discriminate.
  exists (f q). split; [apply Hf|]. apply R. split; [apply Hmn|apply Hmx]; rewrite finites_in; exact Hx.
Qed.

Lemma scale_empty_dataset sigmoid lo hi (s : sched (sched (list fl))) x :
  is_sigmoid sigmoid -> lo < hi -> rows_of s = [] ->
  exists y, scale_by_min_max sigmoid lo hi s (Fin x) = Some (Fin y) /\ lo < y < hi.
Proof.
  intros HS Hlh E. unfold scale_by_min_max. rewrite (float_min_and_max_empty s E).
  destruct (Qle_bool hi lo) eqn:B; [apply Qle_bool_iff in B; lra|].
  exists (sigmoid x * (hi - lo) + lo). split; [reflexivity|].
  pose proof (sigmoid_pos _ HS x). pose proof (sigmoid_lt_1 _ HS x). nra.
Qed.

Lemma scale_rejects sigmoid lo hi s x : hi <= lo -> scale_by_min_max sigmoid lo hi s x = None.
Proof. intros H. apply Qle_bool_iff in H. unfold scale_by_min_max. rewrite H. reflexivity. Qed.

Lemma scale_per_key_unseen sigmoid lo hi vocab results k x :
  is_sigmoid sigmoid -> lo < hi ->
  List.length results = List.length vocab -> NoDup vocab -> vocab <> [] -> ~ In k vocab ->
  exists y, scale_by_min_max_per_key sigmoid lo hi vocab results k (Fin x) = Some (Fin y) /\ lo < y < hi.
Proof.
  intros HS Hlh HL ND NE NI. unfold scale_by_min_max_per_key.
  destruct (Qle_bool hi lo) eqn:B; [apply Qle_bool_iff in B; lra|].
  destruct (map_per_key_spec (fun _ => (Fin 0, Fin 0)) results vocab k HL ND NE) as [_ H].
  destruct (H NI) as (_ & ->). rewrite scale_value_fin. eexists. split; [reflexivity|].
  apply scaled_degenerate; [assumption|lra|lra].
Qed.

Lemma scale_per_key_in_range sigmoid lo hi (bs : list (list (string * fl))) (sch : string -> sched (sched (fl * fl))) keys k x :
  is_sigmoid sigmoid -> lo < hi ->
  NoDup keys ->
  (forall k, In k keys -> Permutation (batches_of (sch k)) (inputs_of_key k (map float_batch_per_key bs))) ->
  (forall k, In k keys <-> In k (map fst (concat bs))) ->
  Forall (fun p => is_finite (snd p) = true) (concat bs) ->
  In (k, x) (concat bs) ->
  let (vocab, results) := per_key_analysis float_key_min_and_max sch keys in
  exists y, scale_by_min_max_per_key sigmoid lo hi vocab results k x = Some (Fin y) /\ lo <= y <= hi.
Proof.
  intros HS Hlh ND HP HK HF Hx. unfold per_key_analysis.
  pose proof (merge_outputs_spec (map (fun k0 => (k0, float_key_min_and_max (sch k0))) keys)) as M.
  destruct (merge_outputs_by_key _) as [vocab results]. destruct M as (MP & ML & _).
  assert (Kin : In k keys) by (apply HK, in_map_iff; exists (k, x); auto).
  assert (NDv : NoDup vocab).
  { apply (Permutation_NoDup (l := keys)); [|exact ND].
    apply (Permutation_map fst) in MP. rewrite map_map in MP. cbn in MP. rewrite map_id in MP.
    replace (map fst (combine vocab results)) with vocab in MP; [symmetry; exact MP|].
    clear -ML. revert results ML. induction vocab as [|v vs IH]; intros [|r rs] E; try discriminate; [reflexivity|].
    cbn. f_equal. apply IH. cbn in E. lia. }
  assert (C : In (k, float_key_min_and_max (sch k)) (combine vocab results)).
  { eapply Permutation_in; [symmetry; exact MP|]. apply in_map_iff. exists k. auto. }
  apply In_nth_error in C as (j & Cj).
  assert (Cj2 : nth_error vocab j = Some k /\ nth_error results j = Some (float_key_min_and_max (sch k))).
  { clear -Cj. revert vocab results Cj. induction j as [|j IH]; intros [|v vs] [|r rs] E; try discriminate; cbn in *.
    - inversion E. auto.
    - apply IH. exact E. }
  destruct Cj2 as [Cv Cr].
  unfold scale_by_min_max_per_key. destruct (Qle_bool hi lo) eqn:B; [apply Qle_bool_iff in B; lra|].
  destruct (map_per_key_spec (fun _ => (Fin 0, Fin 0)) results vocab k) as [H _]; [lia|exact NDv| |].
  { intros ->. destruct j; discriminate. }
  rewrite (H j Cv), Cr.
  set (vs := values_of k (concat bs)).
  assert (Hvs : forall y, In y vs <-> In (k, y) (concat bs)).
  { intros y. unfold vs, values_of. rewrite in_map_iff. split.
    - intros ([k' y'] & <- & Hin). apply filter_In in Hin as [Hin Ek]. cbn in Ek. apply String.eqb_eq in Ek. subst. exact Hin.
    - intros Hin. exists (k, y). split; [reflexivity|]. apply filter_In. split; [exact Hin|]. apply String.eqb_refl. }
  destruct (float_key_min_and_max_exact k bs (sch k) (HP k Kin)) as (mn & mx & -> & Hmn & Hmx).
  - fold vs. intros E. apply Hvs in Hx. rewrite E in Hx. destruct Hx.
  - fold vs. apply Forall_forall. intros y Hy. apply Hvs in Hy. apply (proj1 (Forall_forall _ _) HF _ Hy).
  - fold vs in Hmn, Hmx. pose proof (proj1 (Forall_forall _ _) HF _ Hx) as Fx. cbn in Fx.
    destruct x as [q| |]; try discriminate. rewrite scale_value_fin.
    eexists. split; [reflexivity|]. apply scaled_range; [exact HS|exact Hlh|].
    apply Hvs in Hx. split; [apply Hmn|apply Hmx]; rewrite finites_in; exact Hx.
Qed.

(** A function as in [is_sigmoid] exists among the rationals. *)
Definition ex_sigmoid (x : Q) : Q := if Qle_bool x 0 then 1 / (2 - x) else (1 + x) / (2 + x).
Lemma ex_sigmoid_ok : is_sigmoid ex_sigmoid.
Proof.
  unfold ex_sigmoid.
  assert (N : forall x, Qle_bool x 0 = false -> 0 < x).
  { intros x H. destruct (Qlt_le_dec 0 x) as [|L]; [assumption|]. apply Qle_bool_iff in L. congruence. }
  assert (P : forall x, 0 < x -> (1 + x) / (2 + x) == 1 - 1 / (2 + x)) by (intros; field; lra).
  assert (D : forall c d, 0 < c -> c <= d -> 1 / d <= 1 / c).
  { intros c d Hc Hd. apply Qle_shift_div_l; [exact Hc|]. setoid_replace (1 / d * c) with (c / d) by (field; lra).
    apply Qle_shift_div_r; lra. }
  assert (B : forall d, 2 <= d -> 0 < 1 / d /\ 1 / d <= 1 # 2).
  { intros d Hd. split; [apply Qlt_shift_div_l; lra|apply Qle_shift_div_r; lra]. }
  split.
  - intros x. destruct (Qle_bool x 0) eqn:E.
    + apply Qle_bool_iff in E. apply B. lra.
    + apply N in E. rewrite P by exact E. destruct (B (2 + x)); lra.
  - intros x. destruct (Qle_bool x 0) eqn:E.
    + apply Qle_bool_iff in E. destruct (B (2 - x)); lra.
    + apply N in E. rewrite P by exact E. destruct (B (2 + x)); lra.
  - intros x y L. destruct (Qle_bool x 0) eqn:E, (Qle_bool y 0) eqn:E'.
    + apply Qle_bool_iff in E, E'. apply D; lra.
    + apply Qle_bool_iff in E. apply N in E'. rewrite P by exact E'. destruct (B (2 - x)), (B (2 + y)); lra.
    + apply Qle_bool_iff in E'. apply N in E. lra.
    + apply N in E, E'. rewrite !P by assumption. pose proof (D (2 + x) (2 + y)). lra.
Qed.
