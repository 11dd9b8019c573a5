(** Proofs about the validation of sparse batches. *)
From Coq Require Import ZArith List Bool Lia.
From Verif Require Import VarlenModel VarlenSpec.
Import ListNotations.
Open Scope Z_scope.

Lemma wrap64_small : forall x, - 2 ^ 63 <= x < 2 ^ 63 -> wrap64 x = x.
Proof. intros x H. unfold wrap64. rewrite Z.mod_small; lia. Qed.

(** One step from an index to the next. *)
Definition step (a b : Z * Z) : Prop :=
  (fst a = fst b /\ snd b = snd a + 1) \/ (fst a < fst b /\ snd b = 0).

Fixpoint steps (l : list (Z * Z)) : Prop :=
  match l with
  | a :: (b :: _) as l' => step a b /\ steps l'
  | _ => True
  end.

Definition starts_at_zero (l : list (Z * Z)) : Prop :=
  match l with [] => True | a :: _ => snd a = 0 end.

(** * Steps are what is accepted *)
Fixpoint starts_ok (l : list (Z * Z)) : Prop :=
  match l with
  | a :: (b :: _) as l' => (fst a <> fst b -> snd b = 0) /\ starts_ok l'
  | _ => True
  end.

Lemma columns_at_cons : forall a l ps, columns_at (a :: l) (map S ps) = columns_at l ps.
Proof.
  intros a l ps. unfold columns_at. rewrite map_map. apply map_ext. intro i. reflexivity.
Qed.

Lemma where_S : forall mask i, where_ (S i) mask = map S (where_ i mask).
Proof.
  induction mask as [|b mask IH]; intros i; [reflexivity|]. cbn. rewrite (IH (S i)).
  destruct b; reflexivity.
Qed.

Lemma existsb_false : forall A (f : A -> bool) l,
  existsb f l = false <-> forall x, In x l -> f x = false.
Proof.
  intros A f l. induction l as [|a l IH]; cbn.
  - split; [intros _ x []|reflexivity].
  - rewrite orb_false_iff, IH. split.
    + intros [H1 H2] x [E|Hx]; [now subst|auto].
    + intros H. split; [apply H; now left|]. intros x Hx. apply H. now right.
Qed.

Lemma starts_spec : forall l, proper l ->
  existsb (fun c => negb (c =? 0))
    (columns_at l (map S (where_ 0 (map (fun p => negb (fst p =? 0)) (diffs l))))) = false
  <-> starts_ok l.
Proof.
  induction l as [|a l IH]; intros P; [cbn; tauto|].
  destruct l as [|b l]; [cbn; tauto|].
  assert (P' : proper (b :: l)) by (intros r c H; apply P; now right).
  specialize (IH P').
  assert (W : wrap64 (fst b - fst a) = fst b - fst a).
  { apply wrap64_small. destruct a as [r c], b as [r' c']. cbn.
    destruct (P r c (or_introl eq_refl)) as (Q & _).
    destruct (P r' c' (or_intror (or_introl eq_refl))) as (Q' & _). lia. }
  change (diffs (a :: b :: l))
    with ((wrap64 (fst b - fst a), wrap64 (snd b - snd a)) :: diffs (b :: l)).
  cbn [map fst where_]. rewrite W, where_S.
  set (ws := where_ 0 (map (fun p => negb (fst p =? 0)) (diffs (b :: l)))).
  change (starts_ok (a :: b :: l)) with ((fst a <> fst b -> snd b = 0) /\ starts_ok (b :: l)).
  rewrite <- IH.
  destruct (fst b - fst a =? 0) eqn:E; cbn [negb].
  - apply Z.eqb_eq in E. rewrite columns_at_cons. split; [|tauto].
    intro H. split; [lia|exact H].
  - apply Z.eqb_neq in E.
    change (columns_at (a :: b :: l) (map S (0%nat :: map S ws)))
      with (snd b :: columns_at (a :: b :: l) (map S (map S ws))).
    rewrite columns_at_cons. cbn [existsb]. rewrite orb_false_iff.
    rewrite negb_false_iff, Z.eqb_eq. split.
    + intros [H1 H2]. split; [auto|exact H2].
    + intros [H1 H2]. split; [apply H1; lia|exact H2].
Qed.

Lemma validate_steps : forall indices, proper indices ->
  validate 2 indices = None <-> starts_at_zero indices /\ steps indices.
Proof.
  intros indices P. unfold validate. cbn [Nat.eqb negb].
  destruct indices as [|a l]; [cbn; tauto|].
  set (L := a :: l) in *.
  assert (D : existsb (fun p => fst p <? 0) (diffs L) = false
              /\ existsb (fun p => (fst p =? 0) && negb (snd p =? 1)) (diffs L) = false
              /\ starts_ok L <-> steps L).
  { clearbody L. clear a l. induction L as [|a l IH]; [cbn; tauto|].
    destruct l as [|b l]; [cbn; tauto|].
    assert (P' : proper (b :: l)) by (intros r c H; apply P; now right).
    specialize (IH P').
    assert (W : wrap64 (fst b - fst a) = fst b - fst a /\ wrap64 (snd b - snd a) = snd b - snd a).
    { destruct a as [r c], b as [r' c']. cbn.
      destruct (P r c (or_introl eq_refl)) as (Q & Qc).
      destruct (P r' c' (or_intror (or_introl eq_refl))) as (Q' & Qc').
      split; apply wrap64_small; lia. }
    destruct W as (W1 & W2).
    change (diffs (a :: b :: l))
      with ((wrap64 (fst b - fst a), wrap64 (snd b - snd a)) :: diffs (b :: l)).
    change (starts_ok (a :: b :: l)) with ((fst a <> fst b -> snd b = 0) /\ starts_ok (b :: l)).
    change (steps (a :: b :: l)) with (step a b /\ steps (b :: l)).
    cbn [existsb fst snd]. rewrite W1, W2, !orb_false_iff, <- IH, Z.ltb_ge.
    rewrite andb_false_iff, Z.eqb_neq, negb_false_iff, Z.eqb_eq. unfold step.
    split.
    - intros ((H1 & H2) & (H3 & H4) & H5 & H6). split; [|tauto].
      destruct (Z.eq_dec (fst a) (fst b)) as [E|E].
      + left. split; [exact E|]. destruct H3 as [H3|H3]; lia.
      + right. split; [lia|auto].
    - intros (H & H2 & H3 & H4). destruct H as [(Q1 & Q2)|(Q1 & Q2)].
      + repeat split; try tauto; try lia.
      + repeat split; try tauto; try lia. }
  assert (S0 : starts_ok L <->
    existsb (fun c => negb (c =? 0))
      (columns_at L (map S (where_ 0 (map (fun p => negb (fst p =? 0)) (diffs L))))) = false)
    by (symmetry; apply starts_spec; exact P).
  unfold columns_at in *. rewrite map_app, existsb_app. cbn [map nth existsb].
  change (snd (nth 0 L (0, 0))) with (snd a). change (starts_at_zero L) with (snd a = 0).
  rewrite <- D. rewrite S0. clear D S0.
  destruct (existsb (fun p => fst p <? 0) (diffs L)).
  { split; [discriminate|]. intros (_ & H & _). discriminate. }
  destruct (existsb (fun p => (fst p =? 0) && negb (snd p =? 1)) (diffs L)).
  { split; [discriminate|]. intros (_ & _ & H & _). discriminate. }
  destruct (existsb (fun c => negb (c =? 0)) (map (fun i => snd (nth i L (0, 0)))
     (map S (where_ 0 (map (fun p => negb (fst p =? 0)) (diffs L)))))); cbn [orb].
  { split; [discriminate|]. intros (_ & _ & _ & H). discriminate. }
  destruct (snd a =? 0) eqn:E; cbn.
  - apply Z.eqb_eq in E. tauto.
  - apply Z.eqb_neq in E. split; [discriminate|]. intros (H & _). contradiction.
Qed.

(** * Steps are left-aligned batches *)
Lemma row_S : forall r n, row r (S n) = row r n ++ [(r, Z.of_nat n)].
Proof. intros r n. unfold row. rewrite seq_S, map_app. reflexivity. Qed.

(** The rest of a row from column [c] on, and further rows. *)
Lemma row_last : forall rows : list (Z * nat), rows <> [] -> (forall r n, In (r, n) rows -> (0 < n)%nat) ->
  exists pre r n, rows = pre ++ [(r, S n)].
Proof.
  intros rows N H. destruct (exists_last N) as (pre & [r n] & E). subst rows.
  assert (K : (0 < n)%nat) by (apply (H r); apply in_or_app; right; now left).
  destruct n as [|n]; [lia|]. now exists pre, r, n.
Qed.

Lemma steps_app : forall l a, steps (l ++ [a]) ->
  steps l /\ forall b l', l = l' ++ [b] -> step b a.
Proof.
  induction l as [|x l IH]; intros a H.
  - split; [exact I|]. intros b l' E. destruct l'; discriminate.
  - destruct l as [|y l].
    + cbn in H. split; [exact I|]. intros b [|z l'] E; inversion E; subst; [tauto|].
      destruct l'; discriminate.
    + change ((x :: y :: l) ++ [a]) with (x :: (y :: l) ++ [a]) in H.
      cbn [app] in H. change (step x y /\ steps (y :: l ++ [a])) in H. destruct H as (H1 & H2).
      destruct (IH a H2) as (J1 & J2). split; [split; [exact H1|exact J1]|].
      intros b [|z l'] E; [discriminate|]. cbn in E. inversion E; subst. apply (J2 b l'). assumption.
Qed.

Lemma increasing_app : forall l a, increasing l ->
  (forall b l', l = l' ++ [b] -> b < a) -> increasing (l ++ [a]).
Proof.
  induction l as [|x l IH]; intros a H K; [exact I|].
  destruct l as [|y l].
  - cbn. split; [|exact I]. apply (K x []). reflexivity.
  - change (x < y /\ increasing ((y :: l) ++ [a])). destruct H as (H1 & H2).
    split; [exact H1|]. apply IH; [exact H2|]. intros b l' E. apply (K b (x :: l')).
    cbn. now rewrite E.
Qed.

Lemma steps_left_aligned : forall l, starts_at_zero l -> steps l -> left_aligned l.
Proof.
  induction l as [|a l IH] using rev_ind; intros Z0 ST.
  - exists []. cbn. repeat split; tauto.
  - destruct (steps_app _ _ ST) as (S1 & S2).
    destruct l as [|x l0] using rev_ind.
    + cbn in Z0. exists [(fst a, 1%nat)]. cbn. split; [exact I|]. split.
      * intros r n [E|[]]. inversion E. lia.
      * destruct a. cbn in *. now subst.
    + clear IHl0.
      assert (Z1 : starts_at_zero (l0 ++ [x])) by (destruct l0; exact Z0).
      destruct (IH Z1 S1) as (rows & R1 & R2 & R3).
      assert (Nr : rows <> []). { intro E. subst rows. cbn in R3. destruct l0; discriminate. }
      destruct (row_last rows Nr R2) as (pre & r & n & Er). subst rows.
      assert (Ex : x = (r, Z.of_nat n)).
      { rewrite flat_map_app in R3. cbn [flat_map fst snd] in R3.
        rewrite app_nil_r, row_S, app_assoc in R3. apply app_inj_tail in R3. apply R3. }
      specialize (S2 x l0 eq_refl). subst x. destruct S2 as [(Q1 & Q2)|(Q1 & Q2)]; cbn in Q1, Q2.
      * exists (pre ++ [(r, S (S n))]). split; [|split].
        -- rewrite map_app in *. exact R1.
        -- intros r' n' H. apply in_app_or in H. destruct H as [H|[H|[]]].
           ++ apply (R2 r'). apply in_or_app. now left.
           ++ inversion H. lia.
        -- rewrite R3, !flat_map_app. cbn [flat_map fst snd]. rewrite !app_nil_r.
           rewrite (row_S r (S n)), app_assoc. f_equal. f_equal. destruct a as [ra ca]. cbn in *.
           subst ra ca. f_equal. lia.
      * exists (pre ++ [(r, S n)] ++ [(fst a, 1%nat)]). split; [|split].
        -- rewrite app_assoc, map_app. apply increasing_app; [exact R1|].
           intros b l' E. rewrite map_app in E. cbn in E. apply app_inj_tail in E.
           destruct E as (_ & E). subst b. exact Q1.
        -- intros r' n' H. rewrite app_assoc in H. apply in_app_or in H. destruct H as [H|[H|[]]].
           ++ exact (R2 _ _ H).
           ++ inversion H. lia.
        -- rewrite app_assoc, flat_map_app, <- R3. cbn. destruct a as [ra ca]. cbn in *. now subst.
Qed.

Lemma steps_row : forall r n, steps (row r n).
Proof.
  intros r n. unfold row. generalize 0%nat. induction n as [|n IH]; intros s; [exact I|].
  cbn [seq map]. destruct n as [|n]; [exact I|].
  specialize (IH (S s)). cbn [seq map] in *. split; [|exact IH].
  left. cbn [fst snd]. split; [reflexivity|lia].
Qed.

Lemma steps_join : forall l l', steps l -> steps l' ->
  (forall a p b q, l = p ++ [a] -> l' = b :: q -> step a b) -> steps (l ++ l').
Proof.
  induction l as [|x l IH]; intros l' ST S' J; [exact S'|].
  destruct l as [|y l].
  - destruct l' as [|b q]; [exact I|]. cbn. split; [apply (J x [] b q); reflexivity|exact S'].
  - destruct ST as (S1 & S2). cbn [app]. split; [exact S1|]. apply (IH l' S2 S').
    intros a p b q E E'. apply (J a (x :: p) b q); [cbn; now rewrite E|exact E'].
Qed.

Lemma left_aligned_steps : forall l, left_aligned l -> starts_at_zero l /\ steps l.
Proof.
  intros l (rows & R1 & R2 & R3). subst l. split.
  - destruct rows as [|[r n] rows]; [exact I|]. cbn.
    assert (K : (0 < n)%nat) by (apply (R2 r); now left).
    destruct n; [lia|]. reflexivity.
  - induction rows as [|[r n] rows IH]; [exact I|]. cbn [flat_map fst snd].
    apply steps_join; [apply steps_row| |].
    + apply IH; [|intros r' n' H; apply (R2 r'); now right].
      cbn [map fst] in R1. destruct (map fst rows) eqn:E; [exact I|]. apply R1.
    + intros a p b q E E'. destruct rows as [|[r' n'] rows]; [discriminate|].
      assert (K' : (0 < n')%nat) by (apply (R2 r'); right; now left).
      assert (K : (0 < n)%nat) by (apply (R2 r); now left).
      destruct n' as [|n']; [lia|]. destruct n as [|n]; [lia|].
      rewrite row_S in E. apply app_inj_tail in E. destruct E as (_ & E). subst a.
      cbn in E'. inversion E'; subst b. right. cbn. split; [|reflexivity].
      cbn in R1. apply R1.
Qed.

Lemma accepts_left_aligned : forall width indices, proper indices ->
  (validate width indices = None <-> width = 2%nat /\ left_aligned indices).
Proof.
  intros width indices P. destruct (Nat.eqb width 2) eqn:E.
  - apply PeanoNat.Nat.eqb_eq in E. subst width. rewrite (validate_steps _ P). split.
    + intros (H1 & H2). split; [reflexivity|]. now apply steps_left_aligned.
    + intros (_ & H). now apply left_aligned_steps.
  - unfold validate. rewrite E. cbn. split; [discriminate|]. intros (H & _).
    subst width. discriminate.
Qed.
