(** Sparse columns of tf.float32. *)
From Coq Require Import List ZArith Reals Bool Lia Lra.
From Flocq Require Import Core BinarySingleNaN.
From Verif Require Import CombineModel CombineProofs NumericModel IeeeModel IeeeProofs SelModel SelSpec SelProofs SelInt.
Import ListNotations.
Local Open Scope R_scope.

Definition fin_or_nan (x : f32) : Prop := is_finite x = true \/ x = nan32.

(** The greatest of the numbers, NaN if there is none. *)
Definition Rnan (l : list f32) (x : f32) : Prop :=
  ((forall y, In y l -> y = nan32) /\ x = nan32)
  \/ (is_finite x = true /\ (exists y, In y l /\ is_finite y = true /\ B2R y = B2R x)
      /\ forall y, In y l -> is_finite y = true -> B2R y <= B2R x).

Lemma nan_cases (x : f32) : is_nan x = true -> x = nan32.
Proof. destruct x; try discriminate. reflexivity. Qed.

Lemma nanmax_nan_l x : nanmax32 nan32 x = x.
Proof. reflexivity. Qed.

Lemma nanmax_nan_r x : fin_or_nan x -> nanmax32 x nan32 = x.
Proof. intros [F| ->]; [|reflexivity]. unfold nanmax32. rewrite (is_finite_nan x F). reflexivity. Qed.

Lemma nanmax_fin x y : is_finite x = true -> is_finite y = true ->
  is_finite (nanmax32 x y) = true /\ B2R (nanmax32 x y) = Rmax (B2R x) (B2R y).
Proof.
  intros Fx Fy. unfold nanmax32. rewrite (is_finite_nan x Fx), (is_finite_nan y Fy).
  rewrite (Bleb_correct 24 128 x y Fx Fy).
  destruct (Rle_bool_spec (B2R x) (B2R y)) as [H|H].
  - split; [exact Fy | symmetry; apply Rmax_right; exact H].
  - split; [exact Fx | symmetry; apply Rmax_left; lra].
Qed.

Lemma Rnan_snoc l a x : fin_or_nan x -> Rnan l a -> Rnan (l ++ [x]) (nanmax32 a x).
Proof.
  intros X [[A ->]|(Fa & (y & Y1 & Y2 & Y3) & M)].
  - rewrite nanmax_nan_l. destruct X as [F| ->].
    + right. split; [exact F|]. split.
      * exists x. split; [apply in_or_app; right; left; reflexivity|]. split; [exact F|reflexivity].
      * intros y Y Fy. apply in_app_or in Y as [Y|[<-|[]]]; [|lra]. rewrite (A y Y) in Fy. discriminate.
    + left. split; [|reflexivity]. intros y Y. apply in_app_or in Y as [Y|[<-|[]]]; [exact (A y Y)|reflexivity].
  - right. destruct X as [F| ->].
    + destruct (nanmax_fin a x Fa F) as [G E]. split; [exact G|]. rewrite E. split.
      * unfold Rmax. destruct (Rle_dec (B2R a) (B2R x)).
        -- exists x. split; [apply in_or_app; right; left; reflexivity|]. split; [exact F|reflexivity].
        -- exists y. split; [apply in_or_app; left; exact Y1|]. split; assumption.
      * intros z Z0 Fz. apply in_app_or in Z0 as [Z0|[<-|[]]].
        -- specialize (M z Z0 Fz). pose proof (Rmax_l (B2R a) (B2R x)). lra.
        -- apply Rmax_r.
    + rewrite nanmax_nan_r by (left; exact Fa). split; [exact Fa|]. split.
      * exists y. split; [apply in_or_app; left; exact Y1|]. split; assumption.
      * intros z Z0 Fz. apply in_app_or in Z0 as [Z0|[<-|[]]]; [exact (M z Z0 Fz)|discriminate].
Qed.

Lemma reduce_nanmax_ok l : Forall fin_or_nan l -> Rnan l (reduce_nanmax32 l).
Proof.
  induction l as [|x l IH] using rev_ind; intro F.
  - left. split; [intros y []|reflexivity].
  - apply Forall_app in F as [F FX]. inversion FX; subst. unfold reduce_nanmax32. rewrite fold_left_app.
    cbn [fold_left]. apply Rnan_snoc; [assumption|]. exact (IH F).
Qed.

Lemma Rnan_fin l x : Rnan l x -> fin_or_nan x.
Proof. intros [[_ ->]|[F _]]; [right; reflexivity|left; exact F]. Qed.

Lemma Rnan_one x : fin_or_nan x -> Rnan [x] x.
Proof.
  intros [F| ->].
  - right. split; [exact F|]. split; [exists x; split; [left; reflexivity|split; [exact F|reflexivity]]|].
    intros y [<-|[]] _. lra.
  - left. split; [intros y [<-|[]]; reflexivity|reflexivity].
Qed.

Lemma Rnan_fn ls xs : ls <> [] -> Forall2 Rnan ls xs -> Rnan (concat ls) (reduce_nanmax32 xs).
Proof.
  intros _ F.
  assert (Forall fin_or_nan xs) as FX.
  { induction F as [|l x ls xs H _ IH]; constructor; [exact (Rnan_fin l x H)|exact IH]. }
  assert (forall l, In l ls -> exists x, In x xs /\ Rnan l x) as A.
  { clear - F. induction F as [|l x ls xs H _ IH]; [contradiction|]. intros l' [<-|L].
    - exists x. split; [left; reflexivity|exact H].
    - destruct (IH l' L) as (x' & X & H'). exists x'. split; [right; exact X|exact H']. }
  assert (forall x, In x xs -> exists l, In l ls /\ Rnan l x) as B.
  { clear - F. induction F as [|l x ls xs H _ IH]; [contradiction|]. intros x' [<-|L].
    - exists l. split; [left; reflexivity|exact H].
    - destruct (IH x' L) as (l' & X & H'). exists l'. split; [right; exact X|exact H']. }
  destruct (reduce_nanmax_ok xs FX) as [[H1 H2]|(H1 & (y & Y1 & Y2 & Y3) & M)].
  - left. split; [|exact H2]. intros y Y. apply in_concat in Y as (l & L & Y).
    destruct (A l L) as (x & X & [[H _]|(Fx & _)]); [exact (H y Y)|]. rewrite (H1 x X) in Fx. discriminate.
  - right. split; [exact H1|]. split.
    + destruct (B y Y1) as (l & L & [[_ E]|(_ & (z & Z1 & Z2 & Z3) & _)]); [rewrite E in Y2; discriminate|].
      exists z. split; [apply in_concat; exists l; auto|]. split; [exact Z2|]. rewrite Z3. exact Y3.
    + intros z Z0 Fz. apply in_concat in Z0 as (l & L & Z0).
      destruct (A l L) as (x & X & [[H _]|(Fx & _ & H)]); [rewrite (H z Z0) in Fz; discriminate|].
      specialize (H z Z0 Fz). specialize (M x X Fx). lra.
Qed.

(** One coordinate. *)
Section coordinate.
  Variables (f : f32 -> f32) (sg : R).
  Hypothesis f_ok : forall x, is_finite x = true -> is_finite (f x) = true /\ B2R (f x) = sg * B2R x.

  Lemma cell_cases l : Forall (fun x => is_finite x = true) l ->
    (l = [] /\ batch_cell nan32 is_finite f reduce_max32 l = nan32)
    \/ (l <> [] /\ is_max (batch_cell nan32 is_finite f reduce_max32 l) (map f l)).
  Proof.
    intro F. destruct l as [|x l]; [left; split; reflexivity|right]. split; [discriminate|].
    unfold batch_cell. cbn [existsb]. rewrite (Forall_inv F). cbn [orb].
    apply reduce_max_ok; [discriminate|]. apply Forall_map. eapply Forall_impl; [|exact F].
    cbv beta. intros y Fy. apply f_ok. exact Fy.
  Qed.

  Lemma cells_float vss m : Forall (Forall (fun x => is_finite x = true)) vss ->
    Rnan (map (batch_cell nan32 is_finite f reduce_max32) vss) m ->
    (concat vss = [] /\ m = nan32)
    \/ (concat vss <> [] /\ is_finite m = true
        /\ (exists x, In x (concat vss) /\ sg * B2R x = B2R m)
        /\ forall x, In x (concat vss) -> sg * B2R x <= B2R m).
  Proof.
    intros F H. rewrite Forall_forall in F.
    destruct H as [[A ->]|(Fm & (y & Y1 & Y2 & Y3) & M)].
    - left. split; [|reflexivity]. destruct (concat vss) as [|x l] eqn:E; [reflexivity|exfalso].
      assert (In x (concat vss)) as X by (rewrite E; left; reflexivity).
      apply in_concat in X as (vs & V & X).
      destruct (cell_cases vs (F vs V)) as [[-> _]|[_ [H _]]]; [destruct X|].
      rewrite (A _ (in_map _ _ _ V)) in H. discriminate.
    - right. apply in_map_iff in Y1 as (vs & <- & V).
      destruct (cell_cases vs (F vs V)) as [[_ E]|[NV (_ & (z & Z1 & Z2) & _)]]; [rewrite E in Y2; discriminate|].
      apply in_map_iff in Z1 as (x & <- & X).
      assert (In x (concat vss)) as XC by (apply in_concat; exists vs; auto).
      split; [intro E; rewrite E in XC; destruct XC|]. split; [exact Fm|]. split.
      + exists x. split; [exact XC|]. specialize (F vs V). rewrite Forall_forall in F.
        destruct (f_ok x (F x X)) as [_ E]. rewrite <- E, <- Z2. exact Y3.
      + intros u U. apply in_concat in U as (us & Us & U).
        destruct (cell_cases us (F us Us)) as [[-> _]|[_ (G1 & _ & G2)]]; [destruct U|].
        specialize (G2 (f u) (in_map f _ _ U)). specialize (M _ (in_map _ _ _ Us) G1).
        specialize (F us Us). rewrite Forall_forall in F. destruct (f_ok u (F u U)) as [_ E]. rewrite E in G2. lra.
  Qed.
End coordinate.

Lemma float_columns n shape (s : sched (sched (sbatch f32))) :
  instances n shape (batches_of s) ->
  (forall j x, In x (values_of j (batches_of s)) -> is_finite x = true) ->
  exists mins maxs, sparse_min_and_max32 shape s = Some (GVec mins, GVec maxs)
    /\ length mins = n /\ length maxs = n
    /\ forall j, (j < n)%nat ->
       (values_of j (batches_of s) <> [] ->
          least_of (nth j mins nan32) (values_of j (batches_of s))
          /\ greatest_of (nth j maxs nan32) (values_of j (batches_of s)))
       /\ (values_of j (batches_of s) = [] -> nth j mins nan32 = nan32 /\ nth j maxs nan32 = nan32).
Proof.
  intros Hs HF.
  assert (forall j, Forall (Forall (fun x => is_finite x = true)) (map (values_at j) (batches_of s))) as FF.
  { intro j. apply Forall_map, Forall_forall. intros b B. apply Forall_forall. intros x X. apply (HF j).
    rewrite values_of_concat. apply in_concat. exists (values_at j b). split; [apply in_map; exact B|exact X]. }
  assert (forall x : f32, is_finite x = true -> is_finite x = true /\ B2R x = 1 * B2R x) as Hid by (intros x F; split; [exact F|ring]).
  assert (forall x : f32, is_finite x = true -> is_finite (sub32 zero32 x) = true /\ B2R (sub32 zero32 x) = -1 * B2R x) as Hneg.
  { intros x F. destruct (neg_ok x F) as [A B]. split; [exact A|rewrite B; ring]. }
  destruct (sparse_analysis zero32 nan32 nan32 is_finite is_nan (sub32 zero32) reduce_max32 reduce_nanmax32
              Rnan fin_or_nan eq_refl ltac:(left; split; [intros y []|reflexivity]) Rnan_one Rnan_fn n shape s Hs)
    as (mns & mxs & E & L1 & L2 & H).
  { intros b j f B Hf. specialize (FF j). rewrite Forall_map, Forall_forall in FF. specialize (FF b B).
    destruct Hf as [-> | ->].
    - destruct (cell_cases _ _ Hneg _ FF) as [[_ ->]|[_ [G _]]]; [right; reflexivity|left; exact G].
    - destruct (cell_cases (fun x => x) _ Hid _ FF) as [[_ ->]|[_ [G _]]]; [right; reflexivity|left; exact G]. }
  exists (map (sub32 zero32) mns), mxs. unfold sparse_min_and_max32. rewrite E. cbn [gmap].
  split; [reflexivity|]. rewrite map_length. split; [exact L1|]. split; [exact L2|]. intros j J.
  destruct (H j J) as [H1 H2]. rewrite values_of_concat.
  rewrite <- (map_map (values_at j) (batch_cell nan32 is_finite (sub32 zero32) reduce_max32)) in H1.
  rewrite <- (map_map (values_at j) (batch_cell nan32 is_finite (fun x => x) reduce_max32)) in H2.
  assert (nth j (map (sub32 zero32) mns) nan32 = sub32 zero32 (nth j mns nan32)) as -> by exact (map_nth (sub32 zero32) mns nan32 j).
  set (mn := nth j mns nan32) in *. set (mx := nth j mxs nan32) in *.
  destruct (cells_float _ _ Hneg _ _ (FF j) H1) as [[C1 E1]|(C1 & F1 & (x1 & X1 & V1) & M1)];
    destruct (cells_float (fun x => x) _ Hid _ _ (FF j) H2) as [[C2 E2]|(C2 & F2 & (x2 & X2 & V2) & M2)];
    try contradiction.
  - split; [intro K; contradiction|]. intros _. rewrite E1, E2. split; reflexivity.
  - split; [|intro K; contradiction]. intros _. split.
    + destruct (neg_ok mn F1) as [A B]. split; [exact A|]. rewrite B. split.
      * exists x1. split; [exact X1|lra].
      * intros x X. specialize (M1 x X). lra.
    + split; [exact F2|]. split.
      * exists x2. split; [exact X2|lra].
      * intros x X. specialize (M2 x X). lra.
Qed.
