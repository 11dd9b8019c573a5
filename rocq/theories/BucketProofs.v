From Coq Require Import String List ZArith QArith Qround Qfield Bool Lia Lqa Sorting.Sorted.
From Verif Require Import NumericModel FloatModel PerKeyModel PerKeyProofs BucketModel BucketSpec.
Import ListNotations.
Open Scope Q_scope.

Lemma qle_bool_false a b : Qle_bool a b = false -> b < a.
Proof. intros H. destruct (Qlt_le_dec b a) as [|L]; [assumption|]. apply Qle_bool_iff in L. congruence. Qed.

Lemma fltb_fin a b : fltb (Fin a) (Fin b) = negb (Qle_bool b a).
Proof. reflexivity. Qed.

(** ** Searching *)

Lemma count_le_app x l1 l2 : count_le x (l1 ++ l2) = (count_le x l1 + count_le x l2)%nat.
Proof. unfold count_le. rewrite filter_app, app_length. reflexivity. Qed.
Lemma count_le_length x l : (count_le x l <= length l)%nat.
Proof. unfold count_le. induction l as [|a l IH]; cbn; [lia|]. destruct (Qle_bool a x); cbn; lia. Qed.
Lemma count_le_all x l : Forall (fun a => a <= x) l -> count_le x l = length l.
Proof.
  unfold count_le. induction 1 as [|a l Ha _ IH]; cbn; [reflexivity|]. apply Qle_bool_iff in Ha. rewrite Ha. cbn. lia.
Qed.
Lemma count_le_none x l : Forall (fun a => x < a) l -> count_le x l = 0%nat.
Proof.
  unfold count_le. induction 1 as [|a l Ha _ IH]; cbn; [reflexivity|].
  destruct (Qle_bool a x) eqn:E; [apply Qle_bool_iff in E; lra|exact IH].
Qed.
Lemma count_le_lt x l v : In v l -> x < v -> (count_le x l < length l)%nat.
Proof.
  unfold count_le. induction l as [|a l IH]; intros Hin Hv; [destruct Hin|]. cbn.
  pose proof (count_le_length x l) as CL. unfold count_le in CL. destruct Hin as [->|Hin].
  - destruct (Qle_bool v x) eqn:E; [apply Qle_bool_iff in E; lra|]. lia.
  - destruct (Qle_bool a x); cbn; specialize (IH Hin Hv); lia.
Qed.
Lemma count_le_mono x y l : x <= y -> (count_le x l <= count_le y l)%nat.
Proof.
  intros L. unfold count_le. induction l as [|a l IH]; cbn; [lia|].
  destruct (Qle_bool a x) eqn:E, (Qle_bool a y) eqn:E'; cbn; try lia.
  apply Qle_bool_iff in E. apply qle_bool_false in E'. lra.
Qed.
Lemma count_le_eqv x y l l' : x == y -> Forall2 Qeq l l' -> count_le x l = count_le y l'.
Proof.
  intros E. unfold count_le. induction 1 as [|a b l l' Hab _ IH]; cbn; [reflexivity|].
  replace (Qle_bool b y) with (Qle_bool a x).
  - destruct (Qle_bool a x); cbn; lia.
  - destruct (Qle_bool a x) eqn:A, (Qle_bool b y) eqn:B; try reflexivity.
    + apply Qle_bool_iff in A. apply qle_bool_false in B. lra.
    + apply Qle_bool_iff in B. apply qle_bool_false in A. lra.
Qed.

Lemma search_count x b : StronglySorted Qle b -> searchsorted_right (map Fin b) (Fin x) = count_le x b.
Proof.
  induction 1 as [|a b _ IH Ha]; cbn [map searchsorted_right]; [reflexivity|].
  rewrite fltb_fin. unfold count_le in *. cbn. destruct (Qle_bool a x) eqn:E; cbn; [rewrite IH; reflexivity|].
  symmetry. apply (count_le_none x b). apply qle_bool_false in E. eapply Forall_impl; [|exact Ha]. cbv beta. intros c Hc. lra.
Qed.

Lemma search_nan b : searchsorted_right b NaN = length b.
Proof. induction b as [|h b IH]; cbn; [reflexivity|]. rewrite IH. destruct h; reflexivity. Qed.

Lemma search_length b x : (searchsorted_right b x <= length b)%nat.
Proof. induction b as [|h b IH]; cbn; [lia|]. destruct (fltb x h); lia. Qed.

(** ** apply_buckets *)


Lemma wrap_id d z : in_range d z -> wrap d z = z.
Proof.
  unfold in_range, wrap. intros [H1 H2]. rewrite Z.mod_small; [lia|].
  destruct d; cbn in *; lia.
Qed.

Lemma cast_holds from to q : holds_all from to -> value_of from q ->
  exists q', num_cast from to (Fin q) = Fin q' /\ q' == q.
Proof.
  intros H V. destruct to as [| | |d]; try (exists q; split; [reflexivity|reflexivity]).
  destruct from as [| | |d']; try destruct H. destruct V as (z & E & R). cbn.
  eexists. split; [reflexivity|]. rewrite (Qfloor_comp _ _ E), Qfloor_Z, wrap_id; [symmetry; exact E|].
  unfold in_range in *. lia.
Qed.

Lemma search_eqv b b' x x' : Forall2 Qeq b b' -> x == x' ->
  searchsorted_right (map Fin b) (Fin x) = searchsorted_right (map Fin b') (Fin x').
Proof.
  intros H E. induction H as [|c c' b b' Hc _ IH]; cbn [map searchsorted_right]; [reflexivity|].
  rewrite !fltb_fin, IH.
  replace (Qle_bool c' x') with (Qle_bool c x); [reflexivity|].
  destruct (Qle_bool c x) eqn:A, (Qle_bool c' x') eqn:B; try reflexivity.
  - apply Qle_bool_iff in A. apply qle_bool_false in B. lra.
  - apply Qle_bool_iff in B. apply qle_bool_false in A. lra.
Qed.

Lemma forall2_refl (l : list Q) : Forall2 Qeq l l.
Proof. induction l; constructor; [reflexivity|assumption]. Qed.

Lemma assign_compatible dx db b x :
  compatible dx db -> value_of dx x -> Forall (value_of db) b ->
  assign_buckets dx db (map Fin b) RIGHT (Fin x) = searchsorted_right (map Fin b) (Fin x).
Proof.
  intros H Vx Vb. unfold assign_buckets. destruct H as [[M H]|[M H]].
  - destruct (Qle_bool (num_max dx) (num_max db)) eqn:E; [apply Qle_bool_iff in E; lra|]. cbn [negb].
    assert (G : exists b', map (num_cast db dx) (map Fin b) = map Fin b' /\ Forall2 Qeq b' b).
    { clear -H Vb. induction Vb as [|c b Hc _ (b' & E & F)]; [exists []; split; [reflexivity|constructor]|].
      destruct (cast_holds db dx c H Hc) as (c' & Ec & Ec'). exists (c' :: b'). cbn [map]. rewrite Ec, E.
      split; [reflexivity|constructor; assumption]. }
    destruct G as (b' & -> & F). apply search_eqv; [exact F|reflexivity].
  - apply Qle_bool_iff in M. rewrite M. cbn [negb].
    destruct (cast_holds dx db x H Vx) as (x' & -> & Ex). apply search_eqv; [apply forall2_refl|exact Ex].
Qed.

Lemma apply_buckets_count dx db b x :
  compatible dx db -> value_of dx x -> Forall (value_of db) b -> StronglySorted Qle b ->
  apply_buckets dx db (map Fin b) (Fin x) = (count_le x b, (0%nat, length b)).
Proof.
  intros H Vx Vb S. unfold apply_buckets. rewrite assign_compatible, search_count, map_length by assumption. reflexivity.
Qed.

Lemma apply_buckets_nan dx db b :
  is_int dx = false -> is_int db = false -> fst (apply_buckets dx db b NaN) = length b.
Proof.
  intros H H'. unfold apply_buckets, assign_buckets. cbn [fst].
  destruct (Qle_bool (num_max dx) (num_max db)); cbn [negb].
  - destruct db; try discriminate; apply search_nan.
  - rewrite search_nan, map_length. reflexivity.
Qed.

Lemma apply_buckets_range dx db b x :
  let '(i, (lo, hi)) := apply_buckets dx db b x in (lo <= i <= hi)%nat.
Proof.
  unfold apply_buckets, assign_buckets. split; [lia|].
  etransitivity; [apply search_length|]. destruct (negb _); rewrite ?map_length; lia.
Qed.

(** ** Rows of boundaries *)

Lemma qmin_l a b : a <= b -> qmin a b = a.
Proof. intros H. unfold qmin. apply Qle_bool_iff in H. rewrite H. reflexivity. Qed.
Lemma qmax_r a b : a <= b -> qmax a b = b.
Proof. intros H. unfold qmax. apply Qle_bool_iff in H. rewrite H. reflexivity. Qed.
Lemma qmax_ge_r a b : b <= qmax a b.
Proof. unfold qmax. destruct (Qle_bool a b) eqn:E; [lra|]. apply qle_bool_false in E. lra. Qed.

Lemma row_min_sorted a t : StronglySorted Qlt (a :: t) -> row_min (a :: t) = a.
Proof.
  intros H. inversion H as [|? ? _ F]; subst. cbn. clear H. induction F as [|b t Hb _ IH]; cbn; [reflexivity|].
  rewrite qmin_l by lra. exact IH.
Qed.
Lemma row_max_sorted t : forall a, StronglySorted Qlt (a :: t) -> row_max (a :: t) = last (a :: t) 0.
Proof.
  induction t as [|b t IH]; intros a H; [reflexivity|].
  inversion H as [|? ? S F]; subst. inversion F as [|? ? Hb F']; subst.
  cbn [row_max fold_left]. rewrite qmax_r by lra. apply (IH b S).
Qed.

(** Elements of a sorted row lie between the first and the last. *)
Lemma row_last_max t : forall a, StronglySorted Qlt (a :: t) -> Forall (fun b => b <= last (a :: t) 0) (a :: t).
Proof.
  induction t as [|b t IH]; intros a H.
  - repeat constructor. cbn. lra.
  - inversion H as [|? ? S F]; subst. specialize (IH b S). change (last (a :: b :: t) 0) with (last (b :: t) 0).
    constructor; [|exact IH]. inversion F; subst. inversion IH; subst. lra.
Qed.

Section rows.
  Variable n : nat.
  Hypothesis Hn : (2 <= n)%nat.

  Definition good_row (r : list Q) : Prop := StronglySorted Qlt r /\ length r = n.

  (** The transformed position of [x] for key number [i]. *)
  Definition pos (i : nat) (r : list Q) (x : Q) : Q := x * row_scale r + row_shift i r.

  Lemma good_row_facts r : good_row r ->
    exists a t, r = a :: t /\ length t = (n - 1)%nat /\ row_min r = a /\ row_max r = last t 0 /\ In (last t 0) t /\
      a < last t 0 /\ Forall (fun b => a < b <= last t 0) t.
  Proof.
    intros [S L]. destruct r as [|a t]; [cbn in L; lia|]. exists a, t. split; [reflexivity|].
    cbn in L. split; [lia|]. split; [apply row_min_sorted, S|].
    assert (T : t <> []) by (destruct t; [cbn in L; lia|discriminate]).
    assert (E : last (a :: t) 0 = last t 0) by (destruct t; [congruence|reflexivity]).
    split; [rewrite row_max_sorted by exact S; exact E|].
    assert (I : In (last t 0) t).
    { destruct (exists_last T) as (t' & z & ->). rewrite last_last. apply in_or_app. right. left. reflexivity. }
    split; [exact I|]. inversion S as [|? ? S' F]; subst.
    split; [apply (proj1 (Forall_forall _ _) F _ I)|].
    pose proof (row_last_max t a S) as M. rewrite E in M. inversion M as [|? ? _ M']; subst.
    clear -F M'. rewrite Forall_forall in *. intros b Hb. split; [apply F, Hb|apply M', Hb].
  Qed.

  Lemma pos_form i r x : good_row r ->
    pos i r x == inject_Z (Z.of_nat i) + (x - row_min r) / (row_max r - row_min r).
  Proof.
    intros G. destruct (good_row_facts r G) as (a & t & E & _ & Em & EM & _ & L & _).
    unfold pos, row_shift, row_scale. cbv zeta. rewrite Em, EM in *.
    destruct (Qeq_bool (last t 0 - a) 0) eqn:B; [apply Qeq_bool_iff in B; lra|].
    field. lra.
  Qed.

  Lemma pos_mono i r x y : good_row r -> (x <= y <-> pos i r x <= pos i r y).
  Proof.
    intros G. rewrite !pos_form by exact G.
    destruct (good_row_facts r G) as (a & t & E & _ & Em & EM & _ & L & _). rewrite Em, EM.
    assert (D : 0 < last t 0 - a) by lra. split; intros H.
    - apply Qplus_le_r. unfold Qdiv. apply Qmult_le_compat_r; [lra|]. apply Qlt_le_weak, Qinv_lt_0_compat, D.
    - apply Qplus_le_r in H. unfold Qdiv in H. apply Qmult_le_r in H; [lra|]. apply Qinv_lt_0_compat, D.
  Qed.

  Lemma pos_min i r : good_row r -> pos i r (row_min r) == inject_Z (Z.of_nat i).
  Proof.
    intros G. rewrite pos_form by exact G.
    destruct (good_row_facts r G) as (a & t & E & _ & Em & EM & _ & L & _). rewrite Em, EM. field. lra.
  Qed.
  Lemma pos_max i r : good_row r -> pos i r (row_max r) == inject_Z (Z.of_nat (S i)).
  Proof.
    intros G. rewrite pos_form by exact G.
    destruct (good_row_facts r G) as (a & t & E & _ & Em & EM & _ & L & _). rewrite Em, EM.
    rewrite Nat2Z.inj_succ, <- Z.add_1_r, inject_Z_plus. field. lra.
  Qed.

  Definition block (i : nat) (r : list Q) : list Q := map (pos i r) (tl r).

  Lemma block_bounds i r : good_row r ->
    Forall (fun v => inject_Z (Z.of_nat i) < v <= inject_Z (Z.of_nat (S i))) (block i r) /\
    (exists v, In v (block i r) /\ v == inject_Z (Z.of_nat (S i))) /\ length (block i r) = (n - 1)%nat.
  Proof.
    intros G. pose proof (pos_min i r G) as P0. pose proof (pos_max i r G) as P1.
    pose proof (fun x y => pos_mono i r x y G) as PM.
    destruct (good_row_facts r G) as (a & t & -> & L & Em & EM & I & _ & F). rewrite Em in P0. rewrite EM in P1.
    unfold block. cbn [tl]. split; [|split].
    - rewrite Forall_forall in *. intros v Hv. apply in_map_iff in Hv as (b & <- & Hb). destruct (F b Hb) as [A B].
      split.
      + rewrite <- P0. apply Qnot_le_lt. rewrite <- PM. lra.
      + rewrite <- P1. apply (proj1 (PM _ _)). exact B.
    - exists (pos i (a :: t) (last t 0)). split; [apply in_map, I|exact P1].
    - rewrite map_length. exact L.
  Qed.

  Lemma block_count i r x : good_row r -> count_le (pos i r x) (block i r) = count_le x (tl r).
  Proof.
    intros G. unfold count_le, block. induction (tl r) as [|b t IH]; cbn [map filter]; [reflexivity|].
    replace (Qle_bool (pos i r b) (pos i r x)) with (Qle_bool b x).
    - destruct (Qle_bool b x); cbn [length]; rewrite IH; reflexivity.
    - destruct (Qle_bool b x) eqn:A, (Qle_bool (pos i r b) (pos i r x)) eqn:B; try reflexivity.
      + apply Qle_bool_iff in A. apply (pos_mono i r _ _ G) in A. apply Qle_bool_iff in A. congruence.
      + apply Qle_bool_iff in B. apply (pos_mono i r _ _ G) in B. apply Qle_bool_iff in B. congruence.
  Qed.

  Lemma block_sorted i r : good_row r -> StronglySorted Qle (block i r).
  Proof.
    intros G. pose proof (fun x y => proj1 (pos_mono i r x y G)) as PM. destruct G as [S _].
    unfold block. assert (S' : StronglySorted Qlt (tl r)) by (destruct S; [constructor|assumption]).
    clear S. revert PM. generalize (pos i r) as f. intros f PM. induction S' as [|b t _ IH F]; cbn; constructor.
    - exact IH.
    - rewrite Forall_map. eapply Forall_impl; [|exact F]. cbv beta. intros c Hc. apply PM. lra.
  Qed.

  Lemma scaled_rows_blocks m : forall i, scaled_rows i m = concat (map (fun p => block (fst p) (snd p)) (combine (seq i (length m)) m)).
  Proof. induction m as [|r m IH]; intros i; cbn; [reflexivity|]. rewrite IH. reflexivity. Qed.

  Lemma scaled_rows_app m1 m2 : forall i, scaled_rows i (m1 ++ m2) = scaled_rows i m1 ++ scaled_rows (i + length m1) m2.
  Proof.
    induction m1 as [|r m1 IH]; intros i; cbn; [rewrite Nat.add_0_r; reflexivity|].
    rewrite IH, <- app_assoc. do 2 f_equal. f_equal. lia.
  Qed.

  Lemma inj_le (a b : nat) : (a <= b)%nat -> inject_Z (Z.of_nat a) <= inject_Z (Z.of_nat b).
  Proof. intros H. rewrite <- Zle_Qle. lia. Qed.

  Lemma rows_bounds m : forall i, Forall good_row m ->
    Forall (fun v => inject_Z (Z.of_nat i) < v <= inject_Z (Z.of_nat (i + length m))) (scaled_rows i m) /\
    length (scaled_rows i m) = (length m * (n - 1))%nat.
  Proof.
    induction m as [|r m IH]; intros i G; cbn [scaled_rows length]; [split; [constructor|reflexivity]|].
    inversion G as [|? ? Gr Gm]; subst. destruct (IH (S i) Gm) as [B L].
    destruct (block_bounds i r Gr) as (B' & _ & L'). unfold block in *.
    fold (pos i r). split.
    - apply Forall_app. split; (eapply Forall_impl; [|eassumption]); cbv beta; intros v [H1 H2]; split.
      + exact H1.
      + pose proof (inj_le (S i) (i + S (length m)) ltac:(lia)). lra.
      + pose proof (inj_le i (S i) ltac:(lia)). lra.
      + replace (i + S (length m))%nat with (S i + length m)%nat by lia. exact H2.
    - rewrite app_length, L. fold (pos i r) in L'. replace (length (map _ (tl r))) with (n - 1)%nat by (symmetry; exact L'). lia.
  Qed.

  Lemma sorted_app l1 l2 (c : Q) : StronglySorted Qle l1 -> StronglySorted Qle l2 ->
    Forall (fun v => v <= c) l1 -> Forall (fun v => c < v) l2 -> StronglySorted Qle (l1 ++ l2).
  Proof.
    induction 1 as [|a l1 _ IH F]; cbn; intros S2 F1 F2; [exact S2|].
    inversion F1 as [|? ? Ha F1']; subst. constructor; [apply IH; assumption|].
    apply Forall_app. split; [exact F|]. eapply Forall_impl; [|exact F2]. cbv beta. intros; lra.
  Qed.

  Lemma rows_sorted m : forall i, Forall good_row m -> StronglySorted Qle (scaled_rows i m).
  Proof.
    induction m as [|r m IH]; intros i G; cbn [scaled_rows]; [constructor|].
    inversion G as [|? ? Gr Gm]; subst. destruct (block_bounds i r Gr) as (B & _ & _).
    destruct (rows_bounds m (S i) Gm) as [B' _].
    apply (sorted_app _ _ (inject_Z (Z.of_nat (S i)))).
    - apply block_sorted, Gr.
    - apply IH, Gm.
    - eapply Forall_impl; [|exact B]. cbv beta. tauto.
    - eapply Forall_impl; [|exact B']. cbv beta. tauto.
  Qed.

  Lemma joined_sorted m : Forall good_row m -> StronglySorted Qle (0 :: scaled_rows 0 m).
  Proof.
    intros G. constructor; [apply rows_sorted, G|]. destruct (rows_bounds m 0 G) as [B _].
    eapply Forall_impl; [|exact B]. cbv beta. intros v [H _]. change (inject_Z (Z.of_nat 0)) with 0 in H. lra.
  Qed.

  (** The bucket computed from the shared boundaries, before and after clipping. *)
  Lemma corrected_bucket m1 r m2 x : Forall good_row (m1 ++ r :: m2) ->
    let i := length m1 in
    let offset := Z.of_nat (count_le (pos i r x) (0 :: scaled_rows 0 (m1 ++ r :: m2))) in
    Z.max 0 (Z.min (offset - (Z.of_nat n - 1) * Z.of_nat i) (Z.of_nat n)) = Z.of_nat (count_le x r).
  Proof.
    intros G i offset. apply Forall_app in G as [G1 G2]. inversion G2 as [|? ? Gr Gm]; subst.
    pose proof (fun a b => pos_mono i r a b Gr) as PM.
    pose proof (pos_min i r Gr) as P0. pose proof (pos_max i r Gr) as P1.
    destruct (rows_bounds m1 0 G1) as [B1 L1]. destruct (rows_bounds m2 (S i) Gm) as [B2 L2].
    destruct (block_bounds i r Gr) as (Bb & _ & Lb).
    assert (E : count_le (pos i r x) (0 :: scaled_rows 0 (m1 ++ r :: m2))
                = (count_le (pos i r x) [0%Q] + count_le (pos i r x) (scaled_rows 0 m1) + count_le x (tl r)
                   + count_le (pos i r x) (scaled_rows (S i) m2))%nat).
    { change (0 :: scaled_rows 0 (m1 ++ r :: m2)) with ([0%Q] ++ scaled_rows 0 (m1 ++ r :: m2)).
      rewrite scaled_rows_app, !count_le_app. cbn [scaled_rows Nat.add]. rewrite count_le_app.
      fold i. fold (pos i r). change (map (pos i r) (tl r)) with (block i r). rewrite block_count by exact Gr. lia. }
    unfold offset. clear offset. rewrite E. clear E.
    destruct (good_row_facts r Gr) as (a & t & Er & Lt & Em & EM & I & La & F). rewrite Em in P0. rewrite EM in P1.
    assert (Ct : count_le x r = (count_le x [a] + count_le x (tl r))%nat).
    { rewrite Er. cbn [tl]. change (a :: t) with ([a] ++ t). apply count_le_app. }
    assert (Ltl : length (tl r) = (n - 1)%nat) by (rewrite Er; exact Lt).
    destruct (Qlt_le_dec x a) as [Lo|Hi].
    - (* below the key's first boundary *)
      assert (T : pos i r x < inject_Z (Z.of_nat i)) by (rewrite <- P0; apply Qnot_le_lt; rewrite <- PM; lra).
      assert (C1 : count_le x r = 0%nat).
      { apply count_le_none. rewrite Er. constructor; [exact Lo|]. eapply Forall_impl; [|exact F]. cbv beta. intros; lra. }
      assert (C2 : count_le (pos i r x) (scaled_rows (S i) m2) = 0%nat).
      { apply count_le_none. eapply Forall_impl; [|exact B2]. cbv beta. intros v [Hv _].
        pose proof (inj_le i (S i) ltac:(lia)). lra. }
      assert (C3 : (count_le (pos i r x) [0%Q] + count_le (pos i r x) (scaled_rows 0 m1) <= i * (n - 1))%nat).
      { destruct (Nat.eq_dec i 0) as [E0|E0].
        - assert (m1 = []) by (destruct m1; [reflexivity|discriminate E0]). subst m1. cbn [scaled_rows].
          rewrite (count_le_none _ [0%Q]); [cbn; lia|]. constructor; [|constructor]. rewrite E0 in T at 2. exact T.
        - assert (m1 <> []) by (intros ->; apply E0; reflexivity).
          destruct (exists_last H) as (m1' & r' & E1).
          assert (Lt' : (count_le (pos i r x) (scaled_rows 0 m1) < length (scaled_rows 0 m1))%nat).
          { rewrite E1, scaled_rows_app. cbn [scaled_rows Nat.add]. rewrite app_nil_r.
            rewrite E1 in G1. apply Forall_app in G1 as [_ G1]. inversion G1; subst.
            destruct (block_bounds (length m1') r') as (_ & (v & Hv & Ev) & _); [assumption|].
            apply (count_le_lt _ _ v).
            - apply in_or_app. right. exact Hv.
            - rewrite Ev. assert (Ei : i = S (length m1')) by (unfold i; rewrite app_length; cbn; lia).
              rewrite Ei in T at 2. exact T. }
          rewrite L1 in Lt'. fold i in Lt'. pose proof (count_le_length (pos i r x) [0%Q]) as X. change (length [0%Q]) with 1%nat in X. lia. }
      rewrite C1 in *. rewrite C2. assert (count_le x (tl r) = 0%nat) by lia. nia.
    - assert (T : inject_Z (Z.of_nat i) <= pos i r x) by (rewrite <- P0; apply (proj1 (PM _ _)), Hi).
      assert (Z0 : count_le (pos i r x) [0%Q] = 1%nat).
      { rewrite count_le_all; [reflexivity|]. constructor; [|constructor].
        pose proof (inj_le 0 i ltac:(lia)) as X. change (inject_Z (Z.of_nat 0)) with 0 in X. lra. }
      assert (C1 : count_le (pos i r x) (scaled_rows 0 m1) = (i * (n - 1))%nat).
      { unfold i at 2. rewrite <- L1. apply count_le_all. eapply Forall_impl; [|exact B1]. cbv beta. intros v [_ Hv].
        cbn [Nat.add] in Hv. fold i in Hv. lra. }
      assert (Ca : count_le x [a] = 1%nat).
      { rewrite count_le_all; [reflexivity|]. constructor; [exact Hi|constructor]. }
      rewrite Z0, C1, Ct, Ca.
      pose proof (count_le_length x (tl r)) as CL. rewrite Ltl in CL.
      destruct (Qlt_le_dec x (last t 0)) as [Mid|Top].
      + assert (C2 : count_le (pos i r x) (scaled_rows (S i) m2) = 0%nat).
        { apply count_le_none. eapply Forall_impl; [|exact B2]. cbv beta. intros v [Hv _].
          assert (pos i r x < inject_Z (Z.of_nat (S i))) by (rewrite <- P1; apply Qnot_le_lt; rewrite <- PM; lra). lra. }
        rewrite C2. nia.
      + assert (C2 : count_le x (tl r) = (n - 1)%nat).
        { rewrite <- Ltl. apply count_le_all. rewrite Er. cbn [tl]. eapply Forall_impl; [|exact F]. cbv beta. intros; lra. }
        rewrite C2. nia.
  Qed.
End rows.

(** ** The strictly increasing rows *)

Lemma np_diff_length l : length (np_diff l) = (length l - 1)%nat.
Proof. induction l as [|a [|b l] IH]; [reflexivity..|]. cbn [np_diff length] in *. lia. Qed.
Lemma cumsum_length l : forall acc, length (np_cumsum acc l) = length l.
Proof. induction l as [|d l IH]; intros acc; cbn; [reflexivity|]. rewrite IH. reflexivity. Qed.
Lemma cumsum_sorted l : forall acc, Forall (fun d => 0 < d) l -> StronglySorted Qlt (acc :: np_cumsum acc l).
Proof.
  induction l as [|d l IH]; intros acc F; cbn; [repeat constructor|].
  inversion F as [|? ? Hd F']; subst. specialize (IH (acc + d) F').
  constructor; [exact IH|]. inversion IH as [|? ? _ G]; subst.
  constructor; [lra|]. eapply Forall_impl; [|exact G]. cbv beta. intros; lra.
Qed.

Lemma strict_row_spec row : row <> [] ->
  exists row', strict_row row = Some row' /\ StronglySorted Qlt row' /\ length row' = length row /\ hd 0 row' = hd 0 row.
Proof.
  destruct row as [|a t]; [congruence|]. intros _. unfold strict_row.
  set (e := micro * _). set (eps := if Qle_bool e 0 then micro else e).
  assert (P : 0 < eps).
  { unfold eps. destruct (Qle_bool e 0) eqn:E; [reflexivity|]. apply qle_bool_false in E. exact E. }
  eexists. split; [reflexivity|]. split; [|split; [|reflexivity]].
  - apply cumsum_sorted. rewrite Forall_map, Forall_forall. intros d _. pose proof (qmax_ge_r d eps). lra.
  - cbn [length]. rewrite cumsum_length, map_length, np_diff_length. cbn. lia.
Qed.

Lemma cumsum_diff eps t : forall a a', a == a' -> gaps_at_least eps (a :: t) ->
  Forall2 Qeq (np_cumsum a' (map (fun d => qmax d eps) (np_diff (a :: t)))) t.
Proof.
  induction t as [|b t IH]; intros a a' E G; [constructor|].
  destruct G as [G1 G2]. change (np_diff (a :: b :: t)) with ((b - a) :: np_diff (b :: t)).
  cbn [map np_cumsum].
  assert (Q : qmax (b - a) eps == b - a).
  { unfold qmax. destruct (Qle_bool (b - a) eps) eqn:X; [apply Qle_bool_iff in X; lra|reflexivity]. }
  constructor; [rewrite Q; lra|]. apply IH; [rewrite Q; lra|exact G2].
Qed.

(** Well separated rows are left as they are. *)
Lemma strict_row_id row : well_separated row -> exists row', strict_row row = Some row' /\ Forall2 Qeq row' row.
Proof.
  destruct row as [|a t]; intros [H G]; [cbn in H; lra|]. unfold strict_row.
  set (e := micro * _). destruct (Qle_bool e 0) eqn:E.
  - exfalso. apply Qle_bool_iff in E. unfold e, micro in E. cbn [hd] in H. lra.
  - eexists. split; [reflexivity|]. constructor; [reflexivity|]. apply cumsum_diff; [reflexivity|]. exact G.
Qed.

(** A row that is not well separated keeps its first boundary and moves up the others. *)
Lemma cumsum_ge eps t : forall a a', a <= a' ->
  Forall2 Qle (a :: t) (a' :: np_cumsum a' (map (fun d => qmax d eps) (np_diff (a :: t)))).
Proof.
  induction t as [|b t IH]; intros a a' E; [repeat constructor; exact E|].
  constructor; [exact E|]. change (np_diff (a :: b :: t)) with ((b - a) :: np_diff (b :: t)). cbn [map np_cumsum].
  apply (IH b (a' + qmax (b - a) eps)).
  assert (b - a <= qmax (b - a) eps).
  { unfold qmax. destruct (Qle_bool (b - a) eps) eqn:X; [apply Qle_bool_iff in X; lra|lra]. }
  lra.
Qed.
Lemma strict_row_ge row row' : strict_row row = Some row' -> Forall2 Qle row row'.
Proof.
  destruct row as [|a t]; [discriminate|]. unfold strict_row. intros [= <-]. apply cumsum_ge. lra.
Qed.

(** ** bucketize_per_key *)

Lemma seq_opt_some {X} (l : list (option X)) m : seq_opt l = Some m -> l = map Some m.
Proof.
  revert m. induction l as [|[x|] l IH]; cbn; intros m E; try discriminate; [inversion E; reflexivity|].
  destruct (seq_opt l) as [xs|]; [|discriminate]. inversion E; subst. cbn. f_equal. apply IH. reflexivity.
Qed.
Lemma seq_opt_all {X Y} (f : X -> option Y) l : Forall (fun x => f x <> None) l -> exists m, seq_opt (map f l) = Some m.
Proof.
  induction 1 as [|x l Hx _ (m & E)]; cbn; [eauto|]. destruct (f x); [|congruence]. rewrite E. eauto.
Qed.

Lemma nth_shifts m : forall i j r, nth_error m j = Some r -> nth_error (shifts i m) j = Some (row_shift (i + j) r).
Proof.
  induction m as [|r0 m IH]; intros i [|j] r E; try discriminate; cbn in *.
  - inversion E. rewrite Nat.add_0_r. reflexivity.
  - rewrite (IH (S i) j r E). do 2 f_equal. lia.
Qed.

Lemma lookup_key_nth vocab i k : NoDup vocab -> nth_error vocab i = Some k -> lookup_key k vocab = Z.of_nat i.
Proof.
  intros ND E. destruct (lookup_key_spec k vocab) as [L _]. destruct (L (nth_error_In _ _ E)) as [P N].
  assert (Z.to_nat (lookup_key k vocab) = i); [|lia].
  apply (proj1 (NoDup_nth_error vocab) ND); [apply nth_error_Some; congruence|congruence].
Qed.

Lemma join_matrix num_buckets matrix :
  (2 <= num_buckets)%nat -> Forall (fun r => length r = (num_buckets - 1)%nat) matrix ->
  exists m, map strict_row matrix = map Some m /\ Forall (good_row (num_buckets - 1)) m /\
    join_boundary_rows (num_buckets - 1) matrix
    = Some (Joined (0 :: scaled_rows 0 m) (map row_scale m) (shifts 0 m) (num_buckets - 1 + 1)).
Proof.
  intros Hn W. unfold join_boundary_rows.
  destruct (seq_opt_all strict_row matrix) as (m & E).
  { eapply Forall_impl; [|exact W]. cbv beta. intros r Lr. destruct r; [cbn in Lr; lia|discriminate]. }
  rewrite E. apply seq_opt_some in E. exists m. split; [exact E|]. split.
  - revert m E. induction W as [|r matrix Lr _ IH]; intros [|r' m] E; try discriminate; constructor.
    + injection E as E1 E2. destruct (strict_row_spec r) as (r'' & E' & S & L & _); [destruct r; [cbn in Lr; lia|discriminate]|].
      rewrite E1 in E'. injection E' as <-. split; [exact S|lia].
    + apply IH. injection E as _ E2. exact E2.
  - destruct (num_buckets - 1)%nat eqn:E0; [lia|reflexivity].
Qed.

Lemma bucketize_per_key_own_row num_buckets vocab matrix k x i row :
  (3 <= num_buckets)%nat -> NoDup vocab -> length matrix = length vocab ->
  Forall (fun r => length r = (num_buckets - 1)%nat) matrix ->
  nth_error vocab i = Some k -> nth_error matrix i = Some row ->
  exists row', strict_row row = Some row' /\
    bucketize_per_key num_buckets vocab matrix k x
    = Some (Z.of_nat (count_le x row'), (0%Z, (Z.of_nat num_buckets - 1)%Z)).
Proof.
  intros Hn ND HL W Ek Er. destruct (join_matrix num_buckets matrix) as (m & Em & G & EJ); [lia|exact W|].
  assert (Hr : exists row', nth_error m i = Some row' /\ strict_row row = Some row').
  { pose proof (map_nth_error strict_row i matrix Er) as A. rewrite Em in A.
    destruct (nth_error m i) as [row'|] eqn:B.
    - exists row'. split; [reflexivity|]. rewrite (map_nth_error Some i m B) in A. congruence.
    - exfalso. apply nth_error_None in B. assert (C : nth_error (map Some m) i = None) by (apply nth_error_None; rewrite map_length; exact B).
      congruence. }
  destruct Hr as (row' & Em' & Es). exists row'. split; [exact Es|].
  unfold bucketize_per_key. destruct (Nat.ltb_spec num_buckets 1); [lia|]. rewrite EJ.
  unfold apply_buckets_with_keys. rewrite (lookup_key_nth vocab i k ND Ek).
  destruct (Z.ltb_spec (Z.of_nat i) 0); [lia|]. cbn [j_scale j_shift j_boundaries j_num_buckets].
  rewrite Nat2Z.id. rewrite (map_nth_error row_scale i m Em'), (nth_shifts m 0 i row' Em'). cbn [Nat.add].
  destruct (nth_error_split m i Em') as (m1 & m2 & E & Li). subst m.
  change (assign_buckets Float32 Float32 ?b RIGHT ?y) with (searchsorted_right b y).
  assert (Hn' : (2 <= num_buckets - 1)%nat) by lia.
  rewrite (search_count _ _ (joined_sorted _ Hn' _ G)).
  fold (pos i row' x). pose proof (corrected_bucket _ Hn' m1 row' m2 x G) as C. cbv zeta in C. rewrite Li in C.
  f_equal. f_equal; [|f_equal; lia]. rewrite <- C. f_equal. f_equal; [|lia]. f_equal. f_equal. lia.
Qed.

Lemma bucketize_per_key_count num_buckets vocab matrix k x i row :
  (3 <= num_buckets)%nat -> NoDup vocab -> length matrix = length vocab ->
  Forall (fun r => length r = (num_buckets - 1)%nat) matrix ->
  nth_error vocab i = Some k -> nth_error matrix i = Some row -> well_separated row ->
  bucketize_per_key num_buckets vocab matrix k x
  = Some (Z.of_nat (count_le x row), (0%Z, (Z.of_nat num_buckets - 1)%Z)).
Proof.
  intros Hn ND HL W Ek Er Sep.
  destruct (bucketize_per_key_own_row num_buckets vocab matrix k x i row Hn ND HL W Ek Er) as (row' & Es & ->).
  destruct (strict_row_id row Sep) as (row'' & Es' & F). rewrite Es in Es'. injection Es' as <-.
  rewrite (count_le_eqv x x row' row); [reflexivity|reflexivity|exact F].
Qed.

Lemma bucketize_per_key_two_buckets vocab matrix k x b :
  NoDup vocab -> length matrix = length vocab -> Forall (fun r => length r = 1%nat) matrix ->
  nth_error vocab 0 = Some k -> nth_error matrix 0 = Some [b] ->
  bucketize_per_key 2 vocab matrix k x = Some (Z.of_nat (count_le x [b]), (0%Z, 1%Z)).
Proof.
  intros ND HL W Ek Er. destruct (join_matrix 2 matrix) as (m & Em & G & EJ); [lia|exact W|].
  unfold bucketize_per_key. cbn [Nat.ltb Nat.leb]. rewrite EJ.
  destruct matrix as [|r matrix]; [discriminate|]. injection Er as ->. destruct m as [|r' m]; [discriminate|].
  injection Em as E' _. subst r'. unfold apply_buckets_with_keys. rewrite (lookup_key_nth vocab 0 k ND Ek).
  cbn [Z.of_nat Z.ltb Z.compare Z.to_nat j_scale j_shift map nth_error shifts].
  change (assign_buckets Float32 Float32 ?b RIGHT ?y) with (searchsorted_right b y). cbn [j_boundaries j_num_buckets].
  assert (S0 : scaled_rows 0 ([b] :: m) = []).
  { cbn [scaled_rows tl map app]. inversion G as [|? ? _ Gm]; subst. clear -Gm. cut (forall i, scaled_rows i m = []); [intros H; apply H|].
    induction Gm as [|r m [_ L] _ IH]; intros i; cbn [scaled_rows]; [reflexivity|].
    destruct r as [|? [|? ?]]; [discriminate L| |discriminate L]. cbn [tl map app]. apply IH. }
  rewrite S0. rewrite search_count by (repeat constructor).
  assert (S1 : row_scale [b] = 1).
  { unfold row_scale. cbn. destruct (Qeq_bool (b - b) 0) eqn:X; [reflexivity|]. apply Qeq_bool_neq in X. exfalso. apply X. lra. }
  f_equal. f_equal.
  assert (E : count_le (x * row_scale [b] + row_shift 0 [b]) [0] = count_le x [b]).
  { unfold row_shift. rewrite S1. change (row_min [b]) with b. unfold count_le. cbn [filter].
    change (inject_Z (Z.of_nat 0)) with 0.
    destruct (Qle_bool 0 (x * 1 + (0 - b * 1))) eqn:A, (Qle_bool b x) eqn:B; try reflexivity.
    - apply Qle_bool_iff in A. apply qle_bool_false in B. lra.
    - apply Qle_bool_iff in B. apply qle_bool_false in A. lra. }
  rewrite E. pose proof (count_le_length x [b]) as L. change (length [b]) with 1%nat in L. cbn [Nat.sub Nat.add]. lia.
Qed.

Lemma bucketize_per_key_range num_buckets vocab matrix k x z lo hi :
  bucketize_per_key num_buckets vocab matrix k x = Some (z, (lo, hi)) ->
  lo = 0%Z /\ hi = (Z.of_nat num_buckets - 1)%Z /\ (In k vocab -> NoDup vocab -> (lo <= z <= hi)%Z) /\ (~ In k vocab -> z = (-1)%Z).
Proof.
  unfold bucketize_per_key. destruct (Nat.ltb_spec num_buckets 1); [discriminate|].
  unfold join_boundary_rows. destruct (num_buckets - 1)%nat eqn:E0; [discriminate|].
  destruct (seq_opt _) as [m|]; [|discriminate]. unfold apply_buckets_with_keys. cbn [j_num_buckets].
  destruct (nth_error _ _); [|discriminate]. destruct (nth_error _ _); [|discriminate].
  assert (Emb : (Z.of_nat (S n + 1) - 1 = Z.of_nat num_buckets - 1)%Z) by lia. rewrite Emb. clear Emb.
  set (off := Z.of_nat (assign_buckets _ _ _ _ _)). clearbody off. set (mb := (Z.of_nat num_buckets - 1)%Z).
  assert (0 <= mb)%Z by lia. clearbody mb. intros [= <- <- <-].
  split; [reflexivity|]. split; [reflexivity|]. destruct (lookup_key_spec k vocab) as [L1 L2]. split.
  - intros Hk _. destruct (L1 Hk) as [P _]. destruct (Z.ltb_spec (lookup_key k vocab) 0); lia.
  - intros N. rewrite (L2 N). reflexivity.
Qed.

(** ** Interpolation *)

Lemma search_prefix qs x : let i := searchsorted_right (map Fin qs) (Fin x) in
  (i <= length qs)%nat /\ (forall j, (j < i)%nat -> nth j qs 0 <= x) /\ ((i < length qs)%nat -> x < nth i qs 0).
Proof.
  induction qs as [|q qs IH]; cbn [map searchsorted_right length nth]; [repeat split; intros; lia|].
  rewrite fltb_fin. destruct (Qle_bool q x) eqn:E; cbn [negb].
  - destruct IH as (A & B & C). split; [lia|]. split.
    + intros [|j] Hj; cbn; [apply Qle_bool_iff; exact E|apply B; lia].
    + intros H. apply C. lia.
  - apply qle_bool_false in E. split; [lia|]. split; [intros; lia|]. intros _. exact E.
Qed.

(** The position of [x] on the scale 0 .. n-1 when it has [i] boundaries at or below. *)
Definition ipos (qs : list Q) (i : nat) (x : Q) : Q :=
  if (i =? 0)%nat then 0
  else if (i =? length qs)%nat then inject_Z (Z.of_nat (length qs) - 1)
  else inject_Z (Z.of_nat i - 1) + (x - nth (i - 1) qs 0) / (nth i qs 0 - nth (i - 1) qs 0).

Lemma filter_finites b : filter is_finite b = map Fin (finites b).
Proof. induction b as [|[q| |s] b IH]; cbn; rewrite ?IH; reflexivity. Qed.

Lemma last_map_fin qs : qs <> [] -> last (map Fin qs) NaN = Fin (last qs 0).
Proof.
  intros H. destruct (exists_last H) as (l & z & ->). rewrite map_app. cbn. rewrite !last_last. reflexivity.
Qed.

Lemma inj_zero z : inject_Z z == 0 -> z = 0%Z.
Proof. unfold Qeq. cbn. lia. Qed.

Lemma interpolate_form b x : let qs := finites b in (2 <= length qs)%nat ->
  exists y, interpolate b (Fin x) = Some (Fin y) /\
    y == ipos qs (searchsorted_right (map Fin qs) (Fin x)) x / inject_Z (Z.of_nat (length qs) - 1).
Proof.
  intros qs Hn. unfold interpolate. rewrite filter_finites. fold qs.
  destruct (search_prefix qs x) as (A & B & C). set (i := searchsorted_right (map Fin qs) (Fin x)) in *.
  destruct qs as [|q0 t] eqn:Eqs; [cbn in Hn; lia|]. cbn [map].
  change (Fin q0 :: map Fin t) with (map Fin (q0 :: t)). fold i. rewrite map_length.
  assert (Dn : ~ inject_Z (Z.of_nat (length (q0 :: t)) - 1) == 0).
  { intros E. apply inj_zero in E. lia. }
  replace (Z.max (Z.of_nat (length (q0 :: t)) - 1) 1) with (Z.of_nat (length (q0 :: t)) - 1)%Z by lia.
  replace (length (q0 :: t) =? 1)%nat with false by (symmetry; apply Nat.eqb_neq; lia).
  unfold ipos. destruct (Nat.eqb_spec i 0) as [Ei|Ei]; cbn [orb].
  - (* below *)
    cbn [is_finite negb]. rewrite Ei. cbn [Z.of_nat Z.sub Z.max fadd fdiv].
    destruct (Qeq_bool _ 0) eqn:X; [apply Qeq_bool_iff in X; contradiction|].
    eexists. split; [reflexivity|]. change (inject_Z (Z.max (0 - 1) 0)) with 0. field. exact Dn.
  - destruct (Nat.eqb_spec i (length (q0 :: t))) as [En|En].
    + cbn [is_finite negb]. rewrite En. cbn [fadd fdiv].
      destruct (Qeq_bool _ 0) eqn:X; [apply Qeq_bool_iff in X; contradiction|].
      eexists. split; [reflexivity|]. rewrite Z.max_l by lia. field. exact Dn.
    + assert (Hi : (i < length (q0 :: t))%nat) by lia.
      pose proof (C Hi) as C1. pose proof (B (i - 1)%nat ltac:(lia)) as B1.
      assert (N1 : nth i (map Fin (q0 :: t) ++ [last (map Fin (q0 :: t)) NaN]) NaN = Fin (nth i (q0 :: t) 0)).
      { rewrite app_nth1 by (rewrite map_length; exact Hi). rewrite (nth_indep _ NaN (Fin 0)) by (rewrite map_length; exact Hi).
        apply (map_nth Fin). }
      assert (N2 : nth i (Fin q0 :: map Fin (q0 :: t)) NaN = Fin (nth (i - 1) (q0 :: t) 0)).
      { destruct i as [|j]; [lia|]. change (nth (S j) (Fin q0 :: map Fin (q0 :: t)) NaN) with (nth j (map Fin (q0 :: t)) NaN).
        rewrite (nth_indep _ NaN (Fin 0)) by (rewrite map_length; lia).
        replace (S j - 1)%nat with j by lia. apply (map_nth Fin). }
      rewrite N1, N2. cbn [fsub fadd fneg feqb].
      set (hi := nth i (q0 :: t) 0) in *. set (lo := nth (i - 1) (q0 :: t) 0) in *.
      destruct (Qeq_bool (hi + - lo) 0) eqn:W; [apply Qeq_bool_iff in W; lra|].
      cbn [fdiv]. rewrite W. cbn [is_finite negb fadd fdiv].
      destruct (Qeq_bool (inject_Z (Z.of_nat (length (q0 :: t)) - 1)) 0) eqn:X; [apply Qeq_bool_iff in X; contradiction|].
      eexists. split; [reflexivity|]. rewrite Z.max_l by lia. field. split; [lra|exact Dn].
Qed.

Lemma ipos_bounds qs x : let i := searchsorted_right (map Fin qs) (Fin x) in
  (1 <= length qs)%nat ->
  inject_Z (Z.max (Z.of_nat i - 1) 0) <= ipos qs i x <= inject_Z (Z.min (Z.of_nat i) (Z.of_nat (length qs) - 1)).
Proof.
  intros i Hn. destruct (search_prefix qs x) as (A & B & C). fold i in A, B, C. unfold ipos.
  destruct (Nat.eqb_spec i 0) as [->|Ei].
  - rewrite Z.max_r, Z.min_l by lia. split; apply Qle_refl.
  - destruct (Nat.eqb_spec i (length qs)) as [->|En].
    + rewrite Z.max_l, Z.min_r by lia. split; apply Qle_refl.
    + rewrite Z.max_l, Z.min_l by lia. pose proof (C ltac:(lia)) as C1. pose proof (B (i - 1)%nat ltac:(lia)) as B1.
      set (hi := nth i qs 0) in *. set (lo := nth (i - 1) qs 0) in *.
      assert (R : 0 <= (x - lo) / (hi - lo) <= 1).
      { split; [apply Qle_shift_div_l; lra|apply Qle_shift_div_r; lra]. }
      replace (inject_Z (Z.of_nat i)) with (inject_Z ((Z.of_nat i - 1) + 1)) by (f_equal; lia).
      rewrite inject_Z_plus. change (inject_Z 1) with 1. lra.
Qed.

Lemma ipos_mono qs x y : (1 <= length qs)%nat -> StronglySorted Qle qs -> x <= y ->
  ipos qs (searchsorted_right (map Fin qs) (Fin x)) x <= ipos qs (searchsorted_right (map Fin qs) (Fin y)) y.
Proof.
  intros Hn S L. pose proof (ipos_bounds qs x Hn) as Bx. pose proof (ipos_bounds qs y Hn) as By. cbv zeta in Bx, By.
  assert (M : (searchsorted_right (map Fin qs) (Fin x) <= searchsorted_right (map Fin qs) (Fin y))%nat).
  { rewrite !search_count by exact S. apply count_le_mono, L. }
  destruct (search_prefix qs x) as (A & B & C). destruct (search_prefix qs y) as (A' & B' & C').
  set (i := searchsorted_right (map Fin qs) (Fin x)) in *. set (j := searchsorted_right (map Fin qs) (Fin y)) in *.
  destruct (Nat.eq_dec i j) as [E|E].
  - rewrite <- E. unfold ipos. destruct (Nat.eqb_spec i 0); [lra|]. destruct (Nat.eqb_spec i (length qs)); [lra|].
    apply Qplus_le_r. unfold Qdiv. apply Qmult_le_compat_r; [lra|].
    pose proof (C ltac:(lia)). pose proof (B (i - 1)%nat ltac:(lia)). apply Qlt_le_weak, Qinv_lt_0_compat. lra.
  - destruct Bx as [_ Bx], By as [By _]. eapply Qle_trans; [exact Bx|]. eapply Qle_trans; [|exact By].
    rewrite <- Zle_Qle. lia.
Qed.

(** One boundary. *)
Lemma interpolate_single b q x : finites b = [q] ->
  interpolate b (Fin x) = Some (if Qle_bool q x then Fin 1 else Fin 0).
Proof.
  intros E. unfold interpolate. rewrite filter_finites, E. cbn [map].
  cbn [searchsorted_right]. rewrite fltb_fin. destruct (Qle_bool q x); reflexivity.
Qed.

Lemma inj_pos z : (0 < z)%Z -> 0 < inject_Z z.
Proof. intros H. change 0 with (inject_Z 0). rewrite <- Zlt_Qlt. exact H. Qed.

Lemma interpolate_spec b : let qs := finites b in
  qs <> [] -> StronglySorted Qle qs ->
  exists f, (forall x, interpolate b (Fin x) = Some (Fin (f x))) /\
    (forall x, 0 <= f x <= 1) /\
    (forall x y, x <= y -> f x <= f y) /\
    (forall x, x < hd 0 qs -> f x == 0) /\
    (forall x, last qs 0 <= x -> f x == 1).
Proof.
  intros qs Hq S.
  assert (Hl : (1 <= length qs)%nat) by (destruct qs; [congruence|cbn; lia]).
  destruct (Nat.eq_dec (length qs) 1) as [E1|E1].
  - destruct qs as [|q [|? ?]] eqn:Eqs; try discriminate. unfold qs in Eqs.
    exists (fun x => if Qle_bool q x then 1 else 0). split; [|split; [|split; [|split]]].
    + intros x. rewrite (interpolate_single b q x Eqs). destruct (Qle_bool q x); reflexivity.
    + intros x. destruct (Qle_bool q x); lra.
    + intros x y L. destruct (Qle_bool q x) eqn:A, (Qle_bool q y) eqn:B; try lra.
      apply Qle_bool_iff in A. apply qle_bool_false in B. lra.
    + intros x L. cbn in L. destruct (Qle_bool q x) eqn:A; [apply Qle_bool_iff in A; lra|reflexivity].
    + intros x L. cbn in L. apply Qle_bool_iff in L. rewrite L. reflexivity.
  - assert (Hn : (2 <= length qs)%nat) by lia.
    exists (fun x => match interpolate b (Fin x) with Some (Fin y) => y | _ => 0 end).
    assert (D : 0 < inject_Z (Z.of_nat (length qs) - 1)) by (apply inj_pos; lia).
    assert (P : 0 < / inject_Z (Z.of_nat (length qs) - 1)) by (apply Qinv_lt_0_compat, D).
    split; [|split; [|split; [|split]]].
    + intros x. destruct (interpolate_form b x Hn) as (y & -> & _). reflexivity.
    + intros x. destruct (interpolate_form b x Hn) as (y & -> & ->). fold qs.
      destruct (ipos_bounds qs x Hl) as [L U].
      assert (L' : 0 <= ipos qs (searchsorted_right (map Fin qs) (Fin x)) x).
      { eapply Qle_trans; [|exact L]. change 0 with (inject_Z 0). rewrite <- Zle_Qle. lia. }
      assert (U' : ipos qs (searchsorted_right (map Fin qs) (Fin x)) x <= inject_Z (Z.of_nat (length qs) - 1)).
      { eapply Qle_trans; [exact U|]. rewrite <- Zle_Qle. lia. }
      split; [apply Qle_shift_div_l; lra|apply Qle_shift_div_r; lra].
    + intros x y L. destruct (interpolate_form b x Hn) as (u & -> & ->). destruct (interpolate_form b y Hn) as (v & -> & ->).
      fold qs. unfold Qdiv. apply Qmult_le_compat_r; [|lra]. apply ipos_mono; assumption.
    + intros x L. destruct (interpolate_form b x Hn) as (u & -> & ->). fold qs.
      assert (E : searchsorted_right (map Fin qs) (Fin x) = 0%nat).
      { destruct qs as [|q t]; [congruence|]. cbn in L |- *. destruct (Qle_bool q x) eqn:A; [apply Qle_bool_iff in A; lra|reflexivity]. }
      rewrite E. unfold ipos. cbn [Nat.eqb]. field. lra.
    + intros x L. destruct (interpolate_form b x Hn) as (u & -> & ->). fold qs.
      assert (E : searchsorted_right (map Fin qs) (Fin x) = length qs).
      { rewrite search_count by exact S. apply count_le_all.
        assert (G : Forall (fun q => q <= last qs 0) qs).
        { clear -S Hq. induction S as [|q t S' IH F]; [constructor|].
          destruct t as [|q' t]; [repeat constructor; cbn; lra|].
          specialize (IH ltac:(discriminate)). change (last (q :: q' :: t) 0) with (last (q' :: t) 0).
          constructor; [|exact IH]. inversion F; subst. inversion IH; subst. lra. }
        eapply Forall_impl; [|exact G]. cbv beta. intros; lra. }
      rewrite E. unfold ipos. rewrite Nat.eqb_refl.
      destruct (Nat.eqb_spec (length qs) 0) as [E0|_]; [lia|]. field. lra.
Qed.

(** The boundaries themselves are equally spaced. *)
Lemma interpolate_boundary b k : let qs := finites b in
  StronglySorted Qlt qs -> (2 <= length qs)%nat -> (k < length qs)%nat ->
  exists y, interpolate b (Fin (nth k qs 0)) = Some (Fin y) /\
    y == inject_Z (Z.of_nat k) / inject_Z (Z.of_nat (length qs) - 1).
Proof.
  intros qs S Hn Hk. destruct (interpolate_form b (nth k qs 0) Hn) as (y & -> & Ey). fold qs in Ey.
  exists y. split; [reflexivity|]. rewrite Ey. clear y Ey.
  assert (D : 0 < inject_Z (Z.of_nat (length qs) - 1)) by (apply inj_pos; lia).
  assert (E : searchsorted_right (map Fin qs) (Fin (nth k qs 0)) = (k + 1)%nat).
  { clear -S Hk. revert k Hk. induction S as [|q t S' IH F]; intros k Hk; [cbn in Hk; lia|].
    cbn [map searchsorted_right]. rewrite fltb_fin. destruct k as [|k]; cbn [nth].
    - replace (Qle_bool q q) with true by (symmetry; apply Qle_bool_iff; lra). cbn [negb Nat.add]. f_equal.
      destruct F as [|q' t Hq _]; [reflexivity|]. cbn [map searchsorted_right]. rewrite fltb_fin.
      destruct (Qle_bool q' q) eqn:A; [apply Qle_bool_iff in A; lra|reflexivity].
    - cbn in Hk. assert (q < nth k t 0) by (apply (proj1 (Forall_forall _ _) F); apply nth_In; lia).
      replace (Qle_bool q (nth k t 0)) with true by (symmetry; apply Qle_bool_iff; lra). cbn [negb Nat.add]. f_equal.
      apply IH. lia. }
  rewrite E. unfold ipos. destruct (Nat.eqb_spec (k + 1) 0); [lia|].
  destruct (Nat.eqb_spec (k + 1) (length qs)) as [En|En].
  - replace (Z.of_nat k) with (Z.of_nat (length qs) - 1)%Z by lia. reflexivity.
  - replace (k + 1 - 1)%nat with k by lia. replace (Z.of_nat (k + 1) - 1)%Z with (Z.of_nat k) by lia.
    destruct (search_prefix qs (nth k qs 0)) as (_ & _ & C). rewrite E in C. specialize (C ltac:(lia)).
    field. split; lra.
Qed.

Lemma interpolate_neg_inf b : let qs := finites b in qs <> [] ->
  exists y, interpolate b (Inf true) = Some (Fin y) /\ y == 0.
Proof.
  intros qs Hq. unfold interpolate. rewrite filter_finites. fold qs.
  destruct qs as [|q t] eqn:E; [congruence|]. cbn [map searchsorted_right fltb].
  cbn [Nat.eqb orb is_finite negb]. cbn [length]. destruct (map Fin t) as [|? ?] eqn:Et; cbn [length Nat.eqb].
  - exists 0. split; reflexivity.
  - cbn [fadd fdiv]. destruct (Qeq_bool _ 0) eqn:X.
    + exfalso. apply Qeq_bool_iff in X. apply inj_zero in X. lia.
    + eexists. split; [reflexivity|]. change (inject_Z (Z.max (Z.of_nat 0 - 1) 0) + 0) with 0. field.
      intros A. apply Qeq_bool_neq in X. contradiction.
Qed.

Lemma interpolate_nan b : (2 <= length (finites b))%nat -> interpolate b NaN = Some (Fin (1 # 2)).
Proof.
  intros H. unfold interpolate. rewrite filter_finites. destruct (finites b) as [|q [|q' t]]; [cbn in H; lia|cbn in H; lia|].
  cbn [map]. rewrite search_nan. rewrite Nat.eqb_refl, orb_true_r. cbn [is_finite negb length Nat.eqb]. reflexivity.
Qed.

Lemma interpolate_pos_inf b : let qs := finites b in qs <> [] ->
  exists y, interpolate b (Inf false) = Some (Fin y) /\ y == 1.
Proof.
  intros qs Hq. unfold interpolate. rewrite filter_finites. fold qs.
  assert (E : searchsorted_right (map Fin qs) (Inf false) = length (map Fin qs)).
  { clear. induction qs as [|q t IH]; cbn; [reflexivity|]. rewrite IH. reflexivity. }
  rewrite E. destruct qs as [|q t]; [congruence|]. cbn [map]. rewrite Nat.eqb_refl, orb_true_r. cbn [is_finite negb].
  destruct t as [|q' t].
  - exists 1. split; reflexivity.
  - cbn [map length Nat.eqb fadd fdiv]. rewrite map_length.
    assert (D : 0 < inject_Z (Z.of_nat (S (S (length t))) - 1)) by (apply inj_pos; lia).
    rewrite !Z.max_l by lia. destruct (Qeq_bool _ 0) eqn:X; [apply Qeq_bool_iff in X; lra|].
    eexists. split; [reflexivity|]. field. lra.
Qed.
