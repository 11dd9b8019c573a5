From Coq Require Import List ZArith QArith Qabs Qround Bool Arith Lia Lqa Sorting.Sorted.
From Verif Require Import NumericModel FloatModel BucketModel BucketSpec BucketProofs QuantileModel QuantileSpec.
Import ListNotations.
Local Open Scope Q_scope.

(** ** Weights *)
Definition nonneg (l : list entry) : Prop := Forall (fun e => 0 <= snd e) l.

Lemma weight_cons k e l : weight k (e :: l) == (if k (fst e) then snd e else 0) + weight k l.
Proof. unfold weight. cbn [filter]. destruct (k (fst e)); cbn [map fold_right]; ring. Qed.
Lemma weight_nonneg k l : nonneg l -> 0 <= weight k l.
Proof.
  induction 1 as [|e l H F IH]; [unfold weight; cbn; lra|]. rewrite weight_cons.
  destruct (k (fst e)); cbv beta in *; lra.
Qed.
Lemma weight_mono k1 k2 l : nonneg l -> (forall e, In e l -> k1 (fst e) = true -> k2 (fst e) = true) ->
  weight k1 l <= weight k2 l.
Proof.
  induction 1 as [|e l H F IH]; intros I; [unfold weight; cbn; lra|]. rewrite !weight_cons.
  assert (J := I e (or_introl eq_refl)). specialize (IH (fun e' h => I e' (or_intror h))). cbv beta in *.
  destruct (k1 (fst e)); [rewrite J by reflexivity; lra|]. destruct (k2 (fst e)); lra.
Qed.
Lemma weight_ext k1 k2 l : (forall e, In e l -> k1 (fst e) = k2 (fst e)) -> weight k1 l == weight k2 l.
Proof.
  induction l as [|e l IH]; intros I; [reflexivity|]. rewrite !weight_cons.
  rewrite (I e) by (left; reflexivity). rewrite IH by (intros; apply I; right; assumption). reflexivity.
Qed.
Lemma weight_or k1 k2 l : nonneg l -> weight (fun x => k1 x || k2 x) l <= weight k1 l + weight k2 l.
Proof.
  induction 1 as [|e l H F IH]; [unfold weight; cbn; lra|]. rewrite !weight_cons.
  cbv beta in *. destruct (k1 (fst e)), (k2 (fst e)); cbn [orb]; lra.
Qed.
Lemma weight_split k k1 k2 l : (forall e, In e l -> k (fst e) = k1 (fst e) || k2 (fst e)) ->
  (forall e, In e l -> k1 (fst e) && k2 (fst e) = false) -> weight k l == weight k1 l + weight k2 l.
Proof.
  induction l as [|e l IH]; intros I D; [unfold weight; cbn; ring|]. rewrite !weight_cons.
  rewrite IH by (intros; (apply I || apply D); right; assumption).
  rewrite (I e) by (left; reflexivity). specialize (D e (or_introl eq_refl)).
  destruct (k1 (fst e)), (k2 (fst e)); cbn in *; try discriminate; ring.
Qed.
Lemma weight_none k l : (forall e, In e l -> k (fst e) = false) -> weight k l == 0.
Proof.
  induction l as [|e l IH]; intros I; [reflexivity|]. rewrite weight_cons, (I e) by (left; reflexivity).
  rewrite IH by (intros; apply I; right; assumption). ring.
Qed.

(** ** Buckets of sorted boundaries *)
Lemma qle_bool_spec x y : reflect (x <= y) (Qle_bool x y).
Proof.
  destruct (Qle_bool x y) eqn:E; constructor; [now apply Qle_bool_iff|].
  intros H. apply Qle_bool_iff in H. congruence.
Qed.

Lemma count_le_position bs X i : StronglySorted Qle bs -> (i < length bs)%nat ->
  ((count_le X bs <=? i)%nat = true <-> X < nth i bs 0).
Proof.
  intros S. revert i. induction S as [|b bs S IH F]; intros i L; cbn [length] in L; [lia|].
  unfold count_le. cbn [filter]. destruct (qle_bool_spec b X) as [H|H].
  - cbn [length]. destruct i as [|i]; cbn [nth].
    + split; [intros C; apply Nat.leb_le in C; lia|intros C; exfalso; lra].
    + rewrite <- (IH i) by lia. unfold count_le. cbn. reflexivity.
  - assert (Z : count_le X bs = 0%nat).
    { apply count_le_none. eapply Forall_impl; [|exact F]. cbv beta. intros c Hc. lra. }
    fold (count_le X bs). rewrite Z. split; [|intros _; reflexivity]. intros _.
    destruct i as [|i]; cbn [nth]; [lra|]. rewrite Forall_forall in F.
    assert (b <= nth i bs 0) by (apply F, nth_In; lia). lra.
Qed.

(** ** Boundaries from quantiles *)
Lemma sorted_map r l : (forall x y, x <= y -> r x <= r y) -> StronglySorted Qle l -> StronglySorted Qle (map r l).
Proof.
  intros M. induction 1 as [|x l S IH F]; cbn; constructor; [exact IH|].
  apply Forall_map. eapply Forall_impl; [|exact F]. auto.
Qed.
Lemma sorted_tl (l : list Q) : StronglySorted Qle l -> StronglySorted Qle (tl l).
Proof. destruct 1; [constructor|assumption]. Qed.
Lemma sorted_removelast (l : list Q) : StronglySorted Qle l -> StronglySorted Qle (removelast l).
Proof.
  induction 1 as [|x l S IH F]; [constructor|]. destruct l as [|y l]; [constructor|].
  change (removelast (x :: y :: l)) with (x :: removelast (y :: l)). constructor; [exact IH|].
  apply Forall_forall. intros z I. rewrite Forall_forall in F. apply F.
  clear - I. revert y I. induction l as [|w l IH]; intros y I; [contradiction|].
  change (removelast (y :: w :: l)) with (y :: removelast (w :: l)) in I. destruct I as [->|I]; [left; reflexivity|right; auto].
Qed.
Lemma removelast_length {A} (l : list A) : length (removelast l) = (length l - 1)%nat.
Proof.
  induction l as [|x l IH]; [reflexivity|]. destruct l as [|y l]; [reflexivity|].
  change (removelast (x :: y :: l)) with (x :: removelast (y :: l)). cbn [length] in *. lia.
Qed.
Lemma nth_removelast {A} (d : A) l i : (i < length l - 1)%nat -> nth i (removelast l) d = nth i l d.
Proof.
  revert i. induction l as [|x l IH]; intros i L; [reflexivity|]. destruct l as [|y l]; [cbn in L; lia|].
  change (removelast (x :: y :: l)) with (x :: removelast (y :: l)). destruct i as [|i]; [reflexivity|].
  cbn [nth]. apply IH. cbn [length] in *. lia.
Qed.
Definition boundaries_of (r : Q -> Q) (qs : list Q) : list Q := removelast (tl (map r qs)).
Lemma tl_length {A} (l : list A) : length (tl l) = (length l - 1)%nat.
Proof. destruct l; cbn; lia. Qed.
Lemma boundaries_length r qs : length (boundaries_of r qs) = (length qs - 2)%nat.
Proof. unfold boundaries_of. rewrite removelast_length, tl_length, map_length. lia. Qed.
Lemma boundaries_nth r qs i : (i < length qs - 2)%nat -> nth i (boundaries_of r qs) 0 = r (nth (S i) qs 0).
Proof.
  intros L. unfold boundaries_of. rewrite nth_removelast by (rewrite tl_length, map_length; lia).
  destruct qs as [|q qs]; [cbn in L; lia|]. cbn [map tl nth length] in *.
  rewrite (nth_indep _ 0 (r 0)) by (rewrite map_length; lia). apply map_nth.
Qed.
Lemma boundaries_sorted r qs : (forall x y, x <= y -> r x <= r y) -> StronglySorted Qle qs ->
  StronglySorted Qle (boundaries_of r qs).
Proof. intros M S. apply sorted_removelast, sorted_tl, sorted_map; assumption. Qed.

(** ** The weight up to a bucket *)
Section cumulative.
  Variables (r : Q -> Q) (eps : Q) (n : nat) (l : list entry) (qs : list Q) (m m' : Q) (X : Q -> Q).
  Hypothesis Rr : rounding r.
  Hypothesis n1 : (1 <= n)%nat.
  Hypothesis eps0 : 0 <= eps.
  Hypothesis G : nonneg l.
  Hypothesis Ap : approximates eps n l qs.
  (** [m] and [m'] bound what the casts may change. *)
  Hypothesis m0 : 0 <= m.
  Hypothesis m'0 : 0 <= m'.
  Hypothesis upper : forall q, weight (fun x => below (r q) (X x)) l <= weight (below q) l + m'.
  Hypothesis lower : forall q, weight (at_most q) l <= weight (fun x => below (r q) (X x)) l + m.

  Definition bucket (x : Q) : nat := count_le (X x) (boundaries_of r qs).
  Definition up_to (i : nat) : Q := weight (fun x => (bucket x <? i)%nat) l.

  Lemma length_qs : length qs = S n. Proof. apply Ap. Qed.
  Lemma bucket_bound x : (bucket x < n)%nat.
  Proof.
    unfold bucket. assert (H := count_le_length (X x) (boundaries_of r qs)).
    rewrite boundaries_length, length_qs in H. lia.
  Qed.

  Lemma total_nonneg : 0 <= total l.
  Proof. apply weight_nonneg, G. Qed.
  Lemma up_to_inner i : (1 <= i < n)%nat -> up_to i == weight (fun x => below (r (nth i qs 0)) (X x)) l.
  Proof.
    intros L. unfold up_to. apply weight_ext. intros e _. destruct i as [|i]; [lia|].
    assert (P := count_le_position (boundaries_of r qs) (X (fst e)) i (boundaries_sorted r qs (proj1 Rr) (proj1 (proj2 Ap)))).
    rewrite boundaries_length, length_qs in P. specialize (P ltac:(lia)).
    rewrite boundaries_nth in P by (rewrite length_qs; lia).
    unfold bucket, below. destruct (qle_bool_spec (r (nth (S i) qs 0)) (X (fst e))) as [H|H]; cbn [negb].
    - apply Nat.ltb_ge. destruct (Nat.leb_spec (count_le (X (fst e)) (boundaries_of r qs)) i) as [C|C]; [|lia].
      exfalso. assert (X (fst e) < r (nth (S i) qs 0)) by (now apply P). lra.
    - apply Nat.ltb_lt. assert (C : (count_le (X (fst e)) (boundaries_of r qs) <=? i)%nat = true) by (apply P; lra).
      apply Nat.leb_le in C. lia.
  Qed.
  Lemma up_to_bounds i : (i <= n)%nat ->
    up_to i <= (fraction i n + eps) * total l + m' /\ (fraction i n - eps) * total l - m <= up_to i.
  Proof.
    intros L. assert (T := total_nonneg).
    destruct (Nat.eq_dec i 0) as [->|N0]; [|destruct (Nat.eq_dec i n) as [->|Nn]].
    - assert (E : up_to 0 == 0) by (apply weight_none; reflexivity). rewrite E.
      assert (F : fraction 0 n == 0) by (unfold fraction, Qdiv; cbn; ring). rewrite F. split; nra.
    - assert (E : up_to n == total l).
      { apply weight_ext. intros e _. apply Nat.ltb_lt, bucket_bound. }
      rewrite E. assert (F : fraction n n == 1).
      { unfold fraction. apply Qmult_inv_r. intros C. unfold Qeq in C. cbn in C. lia. }
      rewrite F. split; nra.
    - rewrite up_to_inner by lia. destruct Ap as (_ & _ & A). destruct (A i L) as (_ & A1 & A2).
      specialize (upper (nth i qs 0)). specialize (lower (nth i qs 0)). split; lra.
  Qed.
  Lemma bucket_weight_difference i :
    weight (fun x => (bucket x =? i)%nat) l == up_to (S i) - up_to i.
  Proof.
    assert (E : up_to (S i) == up_to i + weight (fun x => (bucket x =? i)%nat) l).
    { apply weight_split; intros e _.
      - destruct (Nat.ltb_spec (bucket (fst e)) (S i)), (Nat.ltb_spec (bucket (fst e)) i), (Nat.eqb_spec (bucket (fst e)) i); cbn; lia.
      - destruct (Nat.ltb_spec (bucket (fst e)) i), (Nat.eqb_spec (bucket (fst e)) i); cbn; lia. }
    rewrite E. ring.
  Qed.
  Lemma fraction_S i : fraction (S i) n == fraction i n + 1 / inject_Z (Z.of_nat n).
  Proof.
    unfold fraction. rewrite Nat2Z.inj_succ. unfold Z.succ. rewrite inject_Z_plus. field.
    intros C. unfold Qeq in C. cbn in C. lia.
  Qed.
  Lemma bucket_bounds i : (i < n)%nat ->
    weight (fun x => (bucket x =? i)%nat) l <= total l / inject_Z (Z.of_nat n) + (2 * eps * total l + (m + m'))
    /\ total l / inject_Z (Z.of_nat n) - (2 * eps * total l + (m + m')) <= weight (fun x => (bucket x =? i)%nat) l.
  Proof.
    intros L. rewrite bucket_weight_difference.
    destruct (up_to_bounds i ltac:(lia)) as [U1 L1]. destruct (up_to_bounds (S i) ltac:(lia)) as [U2 L2].
    rewrite fraction_S in U2, L2.
    assert (E : total l / inject_Z (Z.of_nat n) == 1 / inject_Z (Z.of_nat n) * total l) by (unfold Qdiv; ring).
    rewrite E. split; lra.
  Qed.
End cumulative.

(** ** The casts *)
Lemma below_spec v x : below v x = true <-> x < v.
Proof. unfold below. destruct (qle_bool_spec v x); cbn; split; intros; (lra || discriminate || reflexivity). Qed.
Lemma at_most_spec v x : at_most v x = true <-> x <= v.
Proof. unfold at_most. apply Qle_bool_iff. Qed.

Lemma cast_upper r X l : rounding r -> nonneg l -> (forall e, In e l -> X (fst e) == r (fst e)) ->
  forall q, weight (fun x => below (r q) (X x)) l <= weight (below q) l + 0.
Proof.
  intros [M I] G E q. rewrite Qplus_0_r. apply weight_mono; [exact G|]. intros e H B. apply below_spec in B. apply below_spec.
  rewrite (E e H) in B. destruct (Qlt_le_dec (fst e) q) as [L|L]; [exact L|]. assert (A := M _ _ L). lra.
Qed.
Lemma cast_lower r X m l : rounding r -> nonneg l -> (forall e, In e l -> X (fst e) == r (fst e)) -> ties_at_most r m l ->
  forall q, weight (at_most q) l <= weight (fun x => below (r q) (X x)) l + m.
Proof.
  intros [M I] G E T q. specialize (T q).
  assert (W : weight (at_most q) l <= weight (fun x => below (r q) (X x) || Qeq_bool (r x) (r q)) l).
  { apply weight_mono; [exact G|]. intros e H A. apply at_most_spec in A. apply M in A. apply orb_true_iff.
    destruct (Qlt_le_dec (r (fst e)) (r q)) as [L|L]; [left; apply below_spec; now rewrite (E e H)|right].
    apply Qeq_bool_iff. lra. }
  assert (O := weight_or (fun x => below (r q) (X x)) (fun x => Qeq_bool (r x) (r q)) l G). cbv beta in O. lra.
Qed.
Lemma plain_upper r m l : rounding r -> nonneg l -> ties_at_most r m l ->
  forall q, weight (fun x => below (r q) x) l <= weight (below q) l + m.
Proof.
  intros [M I] G T q. specialize (T q).
  assert (W : weight (fun x => below (r q) x) l <= weight (fun x => below q x || Qeq_bool (r x) (r q)) l).
  { apply weight_mono; [exact G|]. intros e H A. apply below_spec in A. apply orb_true_iff.
    destruct (Qlt_le_dec (fst e) q) as [L|L]; [left; now apply below_spec|right].
    apply Qeq_bool_iff. apply M in L. assert (A' : fst e <= r q) by lra. apply M in A'. rewrite I in A'. lra. }
  assert (O := weight_or (fun x => below q x) (fun x => Qeq_bool (r x) (r q)) l G).
  change (weight (fun x => below q x) l) with (weight (below q) l) in O. cbv beta in O. lra.
Qed.
Lemma plain_lower r m l : rounding r -> nonneg l -> ties_at_most r m l ->
  forall q, weight (at_most q) l <= weight (fun x => below (r q) x) l + m.
Proof.
  intros [M I] G T q. specialize (T q).
  assert (W : weight (at_most q) l <= weight (fun x => below (r q) x || Qeq_bool (r x) (r q)) l).
  { apply weight_mono; [exact G|]. intros e H A. apply at_most_spec in A. apply orb_true_iff.
    destruct (Qlt_le_dec (fst e) (r q)) as [L|L]; [left; now apply below_spec|right].
    apply Qeq_bool_iff. apply M in A. apply M in L. rewrite I in L. lra. }
  assert (O := weight_or (fun x => below (r q) x) (fun x => Qeq_bool (r x) (r q)) l G). cbv beta in O. lra.
Qed.

(** ** Plans build sketches *)
Section plan_ind.
  Variable P : plan -> Prop.
  Hypothesis HA : forall bs, P (Add bs).
  Hypothesis HM : forall p ps, P p -> Forall P ps -> P (Merge p ps).
  Hypothesis HC : forall p, P p -> P (Compact p).
  Hypothesis HN : forall ps, Forall P ps -> P (Merge_into_new ps).
  Fixpoint plan_ind' (p : plan) : P p :=
    let go := fix go ps : Forall P ps := match ps with [] => Forall_nil _ | q :: qs => Forall_cons _ (plan_ind' q) (go qs) end in
    match p with
    | Add bs => HA bs
    | Merge p0 ps => HM p0 ps (plan_ind' p0) (go ps)
    | Compact p0 => HC p0 (plan_ind' p0)
    | Merge_into_new ps => HN ps (go ps)
    end.
End plan_ind.

Section plans.
  Context {sketch : Type} (ops : sketch_ops sketch).
  Variable c : combiner.
  Notation B := (built ops (epsilon c) (num_features c)).

  Lemma add_batches bs : Forall (batch_ok (num_features c) (has_weights c)) bs -> forall s l, B s l ->
    B (fold_left (add_input ops c) bs s) (l ++ flat_map (flat_of (num_features c) (has_weights c)) bs).
  Proof.
    induction 1 as [|b bs [n [H1 H2]] F IH]; intros s l H; cbn [fold_left flat_map]; [now rewrite app_nil_r|].
    rewrite app_assoc. apply IH. unfold add_input, flat_of. destruct (has_weights c).
    - apply built_add_weighted; [now rewrite (H2 eq_refl)|exact H].
    - apply built_add; eauto.
  Qed.
  Lemma merge_all (f : plan -> sketch) (g : plan -> list (fl * fl)) ps : Forall (fun p => B (f p) (g p)) ps ->
    forall s l, B s l -> B (fold_left (merge ops) (map f ps) s) (l ++ flat_map g ps).
  Proof.
    induction 1 as [|p ps H F IH]; intros s l Hs; cbn [map fold_left flat_map]; [now rewrite app_nil_r|].
    rewrite app_assoc. apply IH. now apply built_merge.
  Qed.
  Lemma execute_built p : Forall (batch_ok (num_features c) (has_weights c)) (batches_of p) ->
    B (execute ops c p) (flat_map (flat_of (num_features c) (has_weights c)) (batches_of p)).
  Proof.
    assert (FF : forall ps, Forall (fun p => Forall (batch_ok (num_features c) (has_weights c)) (batches_of p) ->
       B (execute ops c p) (flat_map (flat_of (num_features c) (has_weights c)) (batches_of p))) ps ->
       Forall (batch_ok (num_features c) (has_weights c)) (flat_map batches_of ps) ->
       Forall (fun p => B (execute ops c p) (flat_map (flat_of (num_features c) (has_weights c)) (batches_of p))) ps).
    { induction 1 as [|q qs H1 H2 IH]; cbn [flat_map]; intros H; constructor; apply Forall_app in H as [A1 A2]; auto. }
    assert (E : forall ps, flat_map (flat_of (num_features c) (has_weights c)) (flat_map batches_of ps)
                = flat_map (fun p => flat_map (flat_of (num_features c) (has_weights c)) (batches_of p)) ps).
    { induction ps as [|q qs IH]; [reflexivity|]. cbn [flat_map]. now rewrite flat_map_app, IH. }
    induction p as [bs|p ps IHp IHps|p IHp|ps IHps] using plan_ind'; cbn [batches_of execute]; intros F.
    - apply (add_batches bs F (create_accumulator ops c) []). apply built_new.
    - apply Forall_app in F as [F1 F2]. rewrite flat_map_app, E. apply merge_all; auto.
    - apply built_compact; auto.
    - rewrite E. unfold merge_accumulators. cbn [fold_left].
      apply (merge_all (execute ops c) _ ps (FF ps IHps F) (create_accumulator ops c) []). apply built_new.
  Qed.
End plans.

(** ** Bucketize *)
Lemma widens dx : negb (Qle_bool (num_max dx) (num_max Float32)) = match dx with Float64 => true | _ => false end.
Proof. destruct dx as [| | |d]; [vm_compute; reflexivity..|destruct d; vm_compute; reflexivity]. Qed.

(** What is compared with the boundaries. *)
Definition compared (r : Q -> Q) (dx : num_dtype) (x : Q) : Q := match dx with IntT _ => r x | _ => x end.
Lemma apply_buckets_count r dx bs x : StronglySorted Qle bs ->
  apply_buckets r dx bs (Fin x) = count_le (compared r dx x) bs.
Proof.
  intros S. unfold apply_buckets. rewrite widens.
  destruct dx as [| | |d]; cbn [cast_to_float32 compared]; apply search_count, S.
Qed.

Section bucketize.
  Context {sketch : Type} (ops : sketch_ops sketch).
  Variables (r : Q -> Q) (dx : num_dtype) (width k : nat) (epsilon : option Q) (weights elementwise : bool) (p : plan) (column : nat).
  Definition eps_of : Q := match epsilon with Some e => e | None => default_epsilon k end.
  Definition f_of : nat := if elementwise then width else 1%nat.
  Definition col_of : nat := if elementwise then column else 0%nat.
  Definition data : list (fl * fl) := flat_map (flat_of f_of weights) (batches_of p).

  Hypothesis Rr : rounding r.
  Hypothesis k1 : (1 <= k)%nat.
  Hypothesis Pr : keeps_promise ops eps_of f_of.
  Hypothesis Bok : Forall (batch_ok f_of weights) (batches_of p).
  Hypothesis Good : forall j, (j < f_of)%nat -> good (column_entries f_of j data).
  Hypothesis Col : (col_of < f_of)%nat.

  Definition entries := column_entries f_of col_of data.
  Definition row_quantiles : list Q :=
    nth col_of (get_quantiles ops (execute ops (Combiner k eps_of weights false f_of) p) k) [].

  Lemma row_approximates : approximates eps_of k entries row_quantiles.
  Proof.
    assert (B := execute_built ops (Combiner k eps_of weights false f_of) p Bok).
    destruct (Pr _ _ k k1 B Good) as [_ A]. apply (A col_of Col).
  Qed.
  Lemma bucketize_eq x :
    bucketize ops r dx width k epsilon weights elementwise p column x
    = Some (apply_buckets r dx (boundaries_of r row_quantiles) x).
  Proof.
    unfold bucketize. destruct (Nat.ltb_spec k 1); [lia|]. fold eps_of. f_equal. f_equal.
    assert (B := execute_built ops (Combiner k eps_of weights false f_of) p Bok).
    destruct (Pr _ _ k k1 B Good) as [L _].
    unfold quantiles. replace (if negb elementwise then 1%nat else width) with f_of by (unfold f_of; destruct elementwise; reflexivity).
    replace (if elementwise
             then nth column (extract_output ops r (Combiner k eps_of weights false f_of) (execute ops (Combiner k eps_of weights false f_of) p)) []
             else nth 0 (extract_output ops r (Combiner k eps_of weights false f_of) (execute ops (Combiner k eps_of weights false f_of) p)) [])
      with (nth col_of (extract_output ops r (Combiner k eps_of weights false f_of) (execute ops (Combiner k eps_of weights false f_of) p)) [])
      by (unfold col_of; destruct elementwise; reflexivity).
    unfold extract_output, row_quantiles in *. cbn [num_quantiles include_max_and_min] in *.
    destruct (get_quantiles ops (execute ops (Combiner k eps_of weights false f_of) p) k) as [|row rows]; [cbn in L; lia|].
    rewrite map_map. set (rs := row :: rows) in *.
    change [] with ((fun row => boundaries_of r row) []) at 1. rewrite (map_nth (fun row => boundaries_of r row)). reflexivity.
  Qed.

  Lemma entries_nonneg : nonneg entries. Proof. apply (Good col_of Col). Qed.

  Lemma bucketize_weight i :
    bucket_weight (fun v => bucketize ops r dx width k epsilon weights elementwise p column (Fin v)) i entries
    == weight (fun x => (bucket r row_quantiles (compared r dx) x =? i)%nat) entries.
  Proof.
    unfold bucket_weight. apply weight_ext. intros e _. rewrite bucketize_eq.
    unfold bucket. rewrite apply_buckets_count; [reflexivity|]. apply boundaries_sorted; [apply Rr|apply row_approximates].
  Qed.

  Lemma balanced_exact m i :
    0 <= eps_of -> (i < k)%nat -> ties_at_most r m entries ->
    (forall e, In e entries -> compared r dx (fst e) == r (fst e)) ->
    Qabs (bucket_weight (fun v => bucketize ops r dx width k epsilon weights elementwise p column (Fin v)) i entries
               - total entries / inject_Z (Z.of_nat k)) <= 2 * eps_of * total entries + m.
  Proof.
    intros E0 Hi T C. rewrite bucketize_weight.
    assert (m0 : 0 <= m) by (eapply Qle_trans; [apply weight_nonneg, entries_nonneg|apply (T 0)]).
    destruct (bucket_bounds r eps_of k entries row_quantiles m 0 (compared r dx) Rr k1 E0 entries_nonneg row_approximates
                m0 (Qle_refl 0) (cast_upper r _ _ Rr entries_nonneg C) (cast_lower r _ m _ Rr entries_nonneg C T) i Hi) as [U L].
    apply Qabs_case; intros _; lra.
  Qed.
  Lemma balanced_float64 m i :
    0 <= eps_of -> (i < k)%nat -> ties_at_most r m entries -> (forall x, compared r dx x = x) ->
    Qabs (bucket_weight (fun v => bucketize ops r dx width k epsilon weights elementwise p column (Fin v)) i entries
               - total entries / inject_Z (Z.of_nat k)) <= 2 * eps_of * total entries + 2 * m.
  Proof.
    intros E0 Hi T C. rewrite bucketize_weight.
    assert (m0 : 0 <= m) by (eapply Qle_trans; [apply weight_nonneg, entries_nonneg|apply (T 0)]).
    assert (W : weight (fun x => (bucket r row_quantiles (compared r dx) x =? i)%nat) entries
                == weight (fun x => (bucket r row_quantiles (fun x => x) x =? i)%nat) entries)
      by (apply weight_ext; intros e _; unfold bucket; now rewrite C).
    rewrite W. clear W.
    destruct (bucket_bounds r eps_of k entries row_quantiles m m (fun x => x) Rr k1 E0 entries_nonneg row_approximates
                m0 m0 (plain_upper r m _ Rr entries_nonneg T) (plain_lower r m _ Rr entries_nonneg T) i Hi) as [U L].
    apply Qabs_case; intros _; lra.
  Qed.
  Lemma bucket_in_range x : exists b, bucketize ops r dx width k epsilon weights elementwise p column x = Some b /\ (b < k)%nat.
  Proof.
    rewrite bucketize_eq. eexists. split; [reflexivity|].
    assert (L : (length (boundaries_of r row_quantiles) < k)%nat).
    { rewrite boundaries_length. destruct row_approximates as [-> _]. lia. }
    unfold apply_buckets. rewrite <- (map_length Fin) in L. eapply Nat.le_lt_trans; [apply search_length|exact L].
  Qed.
  Lemma nan_bucket : bucketize ops r dx width k epsilon weights elementwise p column NaN = Some (k - 1)%nat.
  Proof.
    rewrite bucketize_eq. f_equal. unfold apply_buckets. rewrite widens.
    replace (match dx with Float64 => NaN | _ => cast_to_float32 r dx NaN end) with NaN by (destruct dx; reflexivity).
    replace (if match dx with Float64 => true | _ => false end then NaN else cast_to_float32 r dx NaN) with NaN by (destruct dx; reflexivity).
    rewrite search_nan, map_length, boundaries_length. destruct row_approximates as [-> _]. lia.
  Qed.
  Lemma bucket_monotone x y : x <= y ->
    forall a b, bucketize ops r dx width k epsilon weights elementwise p column (Fin x) = Some a ->
    bucketize ops r dx width k epsilon weights elementwise p column (Fin y) = Some b -> (a <= b)%nat.
  Proof.
    intros L a b. rewrite !bucketize_eq.
    assert (S : StronglySorted Qle (boundaries_of r row_quantiles)) by (apply boundaries_sorted; [apply Rr|apply row_approximates]).
    rewrite !apply_buckets_count by exact S. intros [= <-] [= <-]. apply count_le_mono.
    unfold compared. destruct dx; try exact L. now apply Rr.
  Qed.
End bucketize.

(** ** The statements *)
Lemma default_epsilon_allowed k : (1 <= k)%nat -> default_epsilon k = allowed_error k None.
Proof.
  intros k1. unfold default_epsilon, allowed_error, qmin.
  assert (P : (0 < Z.of_nat k)%Z) by lia. destruct (Z.of_nat k) as [|z|z] eqn:Z; try lia.
  assert (V : 1 / inject_Z (Z.pos z) = 1 # z) by (unfold Qdiv, Qmult, Qinv, inject_Z; cbn; reflexivity). rewrite V.
  destruct (Nat.leb_spec k 100) as [L|L].
  - destruct (Qle_bool (1 # z) (1 # 100)) eqn:E; [|reflexivity]. apply Qle_bool_iff in E. unfold Qle in E. cbn in E.
    assert (z = 100%positive) by lia. subst. reflexivity.
  - destruct (Qle_bool (1 # z) (1 # 100)) eqn:E; [reflexivity|].
    assert (H : (1 # z) <= 1 # 100) by (unfold Qle; cbn; lia). apply Qle_bool_iff in H. congruence.
Qed.
Lemma eps_allowed k epsilon : (1 <= k)%nat -> eps_of k epsilon = allowed_error k epsilon.
Proof. intros k1. destruct epsilon; [reflexivity|]. now apply default_epsilon_allowed. Qed.

Section statements.
  Context {sketch : Type} (ops : sketch_ops sketch).
  Variables (r : Q -> Q) (dx : num_dtype) (width k : nat) (epsilon : option Q) (weights elementwise : bool) (p : plan) (column : nat).
  Notation f := (features elementwise width).
  Notation eps := (allowed_error k epsilon).
  Notation l := (feature_entries f (feature elementwise column) weights (batches_of p)).
  Notation bucket_of := (bucketize ops r dx width k epsilon weights elementwise p column).
  Hypothesis Rr : rounding r.
  Hypothesis k1 : (1 <= k)%nat.
  Hypothesis Pr : keeps_promise ops eps f.
  Hypothesis D : dataset f weights (batches_of p).
  Hypothesis Col : (feature elementwise column < f)%nat.

  Lemma Pr' : keeps_promise ops (eps_of k epsilon) f. Proof. now rewrite eps_allowed. Qed.

  Lemma balanced m i : 0 <= eps -> (i < k)%nat ->
    ((exists d, dx = IntT d) \/ forall e, In e l -> r (fst e) == fst e) -> ties_at_most r m l ->
    Qabs (bucket_weight (fun v => bucket_of (Fin v)) i l - total l / inject_Z (Z.of_nat k)) <= 2 * eps * total l + m.
  Proof.
    intros E0 Hi C T.
    assert (H := balanced_exact ops r dx width k epsilon weights elementwise p column Rr k1 Pr' (proj1 D) (proj2 D) Col m i).
    rewrite !eps_allowed in H by exact k1. apply H; auto.
    intros e I. unfold compared. destruct dx; try reflexivity; (destruct C as [[d C]|C]; [discriminate|]); symmetry; apply C, I.
  Qed.
  Lemma balanced_plain m i : 0 <= eps -> (i < k)%nat -> (forall d, dx <> IntT d) -> ties_at_most r m l ->
    Qabs (bucket_weight (fun v => bucket_of (Fin v)) i l - total l / inject_Z (Z.of_nat k)) <= 2 * eps * total l + 2 * m.
  Proof.
    intros E0 Hi C T.
    assert (H := balanced_float64 ops r dx width k epsilon weights elementwise p column Rr k1 Pr' (proj1 D) (proj2 D) Col m i).
    rewrite !eps_allowed in H by exact k1. apply H; auto.
    intros x. unfold compared. destruct dx; try reflexivity. destruct (C d eq_refl).
  Qed.
  Lemma all_ties c d : dx = IntT d -> (forall e, In e l -> r (fst e) == c) ->
    forall x, r x == c -> bucket_of (Fin x) = Some (k - 1)%nat.
  Proof.
    intros Dx H x Hx.
    rewrite (bucketize_eq ops r dx width k epsilon weights elementwise p column k1 Pr' (proj1 D) (proj2 D) Col).
    assert (A := row_approximates ops width k epsilon weights elementwise p column k1 Pr' (proj1 D) (proj2 D) Col).
    set (qs := row_quantiles ops width k epsilon weights elementwise p column) in *. f_equal.
    assert (So : StronglySorted Qle (boundaries_of r qs)) by (apply boundaries_sorted; [apply Rr|apply A]).
    rewrite apply_buckets_count by exact So. rewrite Dx. cbn [compared].
    assert (L : length (boundaries_of r qs) = (k - 1)%nat) by (rewrite boundaries_length; destruct A as [-> _]; lia).
    rewrite <- L. unfold count_le. f_equal.
    assert (AllF : forall bs : list Q, (forall b, In b bs -> Qle_bool b (r x) = true) -> filter (fun b => Qle_bool b (r x)) bs = bs).
    { induction bs as [|b bs IH]; intros Q; [reflexivity|]. cbn [filter]. rewrite (Q b) by (left; reflexivity).
      f_equal. apply IH. intros b' I. apply Q. right. exact I. }
    apply AllF. intros b I.
    apply Qle_bool_iff. apply In_nth with (d := 0) in I as (i & Hi & <-).
    rewrite boundaries_nth by (rewrite boundaries_length in Hi; exact Hi).
    destruct A as (A1 & _ & A2). destruct (A2 (S i)) as ((e & Ie & E) & _); [lia|].
    rewrite <- (H e Ie) in Hx. rewrite Hx. apply Rr. rewrite E. apply Qle_refl.
  Qed.
  Lemma nan_last : bucket_of NaN = Some (k - 1)%nat.
  Proof. exact (nan_bucket ops r dx width k epsilon weights elementwise p column k1 Pr' (proj1 D) (proj2 D) Col). Qed.
  Lemma monotone x y : x <= y -> exists a b, bucket_of (Fin x) = Some a /\ bucket_of (Fin y) = Some b /\ (a <= b)%nat.
  Proof.
    intros L. 
    destruct (bucket_in_range ops r dx width k epsilon weights elementwise p column k1 Pr' (proj1 D) (proj2 D) Col (Fin x)) as (a & A & _).
    destruct (bucket_in_range ops r dx width k epsilon weights elementwise p column k1 Pr' (proj1 D) (proj2 D) Col (Fin y)) as (b & B & _).
    exists a, b. repeat split; auto.
    exact (bucket_monotone ops r dx width k epsilon weights elementwise p column Rr k1 Pr' (proj1 D) (proj2 D) Col x y L a b A B).
  Qed.
End statements.

Lemma balanced_by_default {sketch} (ops : sketch_ops sketch) r dx width k weights elementwise p column m i :
  let f := features elementwise width in
  let l := feature_entries f (feature elementwise column) weights (batches_of p) in
  let w := bucket_weight (fun v => bucketize ops r dx width k None weights elementwise p column (Fin v)) i l in
  rounding r -> (1 <= k)%nat -> keeps_promise ops (allowed_error k None) f -> dataset f weights (batches_of p) ->
  (feature elementwise column < f)%nat -> (i < k)%nat ->
  ((exists d, dx = IntT d) \/ forall e, In e l -> r (fst e) == fst e) -> ties_at_most r m l ->
  ((k <= 100)%nat -> Qabs (w - total l / inject_Z (Z.of_nat k)) <= total l / 50 + m) /\
  ((100 <= k)%nat -> w <= 3 * (total l / inject_Z (Z.of_nat k)) + m).
Proof.
  intros f l w Rr k1 Pr D Col Hi C T.
  assert (V : forall z, 1 / inject_Z (Z.pos z) = 1 # z) by (intros; unfold Qdiv, Qmult, Qinv, inject_Z; cbn; reflexivity).
  assert (P : allowed_error k None == (if (k <=? 100)%nat then 1 # 100 else 1 / inject_Z (Z.of_nat k))) by reflexivity.
  assert (K : 0 < 1 / inject_Z (Z.of_nat k)).
  { destruct (Z.of_nat k) as [|z|z] eqn:Z; try lia. rewrite V. reflexivity. }
  assert (E0 : 0 <= allowed_error k None).
  { rewrite P. destruct (k <=? 100)%nat; [discriminate|]. lra. }
  assert (B := balanced ops r dx width k None weights elementwise p column Rr k1 Pr D Col m i E0 Hi C T).
  fold f l w in B. rewrite P in B. split; intros L.
  - apply Nat.leb_le in L. rewrite L in B. setoid_replace (total l / 50) with (2 * (1 # 100) * total l) by (unfold Qdiv; change (/ 50) with (1 # 50); ring). exact B.
  - assert (B' : Qabs (w - total l / inject_Z (Z.of_nat k)) <= 2 * (1 / inject_Z (Z.of_nat k)) * total l + m).
    { destruct (Nat.leb_spec k 100) as [L'|L']; [|exact B]. assert (k = 100%nat) by lia. subst k. exact B. }
    assert (A := Qle_Qabs (w - total l / inject_Z (Z.of_nat k))).
    assert (Q : total l / inject_Z (Z.of_nat k) == 1 / inject_Z (Z.of_nat k) * total l) by (unfold Qdiv; ring).
    rewrite Q in *. lra.
Qed.

Lemma execute_any {sketch} (ops : sketch_ops sketch) r width k eps weights elementwise p :
  keeps_shape ops -> (1 <= k)%nat -> Forall (batch_ok (features elementwise width) weights) (batches_of p) ->
  length (quantiles ops r width k eps weights (negb elementwise) p) = features elementwise width /\
  Forall (fun row => length row = (k - 1)%nat) (quantiles ops r width k eps weights (negb elementwise) p).
Proof.
  intros Sh k1 F. unfold quantiles. replace (if negb elementwise then 1%nat else width) with (features elementwise width) by (destruct elementwise; reflexivity).
  set (c := Combiner k eps weights false (features elementwise width)).
  assert (B := execute_built ops c p F). unfold extract_output. cbn [c num_quantiles include_max_and_min num_features].
  destruct (Sh _ _ _ _ k B) as [->|[L R]].
  - rewrite repeat_length. split; [reflexivity|]. apply Forall_forall. intros row I. apply repeat_spec in I as ->. apply repeat_length.
  - fold c in L, R |- *. destruct (get_quantiles ops (execute ops c p) k) as [|row rows] eqn:E.
    { rewrite repeat_length. split; [reflexivity|]. apply Forall_forall. intros row I. apply repeat_spec in I as ->. apply repeat_length. }
    set (rs := row :: rows) in *. rewrite !map_length. split; [exact L|]. rewrite map_map. apply Forall_map.
    eapply Forall_impl; [|exact R]. intros a A. cbv beta in *. rewrite removelast_length, tl_length, map_length. lia.
Qed.
Lemma in_range {sketch} (ops : sketch_ops sketch) r dx width k epsilon weights elementwise p column x :
  keeps_shape ops -> (1 <= k)%nat -> Forall (batch_ok (features elementwise width) weights) (batches_of p) ->
  exists b, bucketize ops r dx width k epsilon weights elementwise p column x = Some b /\ (b < k)%nat.
Proof.
  intros Sh k1 F. unfold bucketize. destruct (Nat.ltb_spec k 1) as [K|_]; [lia|]. eexists. split; [reflexivity|].
  destruct (execute_any ops r width k (match epsilon with Some e => e | None => default_epsilon k end) weights elementwise p Sh k1 F) as [L R].
  set (bs := quantiles ops r width k _ weights (negb elementwise) p) in *.
  assert (A : forall j, (length (nth j bs []) < k)%nat).
  { intros j. destruct (Nat.lt_ge_cases j (length bs)) as [H|H].
    - rewrite Forall_forall in R. rewrite (R (nth j bs [])) by (apply nth_In, H). lia.
    - rewrite nth_overflow by exact H. cbn. lia. }
  unfold apply_buckets. eapply Nat.le_lt_trans; [apply search_length|]. rewrite map_length. destruct elementwise; apply A.
Qed.
