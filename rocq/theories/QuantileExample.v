(** A sketch that keeps all the values, and examples. *)
From Coq Require Import List ZArith QArith Qround Bool Arith Lia Lqa Sorting.Sorted.
From Verif Require Import NumericModel FloatModel BucketModel QuantileModel QuantileSpec QuantileProofs.
Import ListNotations.
Local Open Scope Q_scope.

(** The least value of a kind. *)
Fixpoint least (kind : Q -> bool) (l : list entry) : option Q :=
  match l with
  | [] => None
  | e :: l =>
      match least kind l with
      | Some v => Some (if kind (fst e) && Qle_bool (fst e) v then fst e else v)
      | None => if kind (fst e) then Some (fst e) else None
      end
  end.
Definition exact_quantile (l : list entry) (i n : nat) : Q :=
  match least (fun v => Qle_bool (fraction i n * total l) (weight (at_most v) l)) l with Some v => v | None => 0 end.
Definition exact_quantiles (l : list entry) (n : nat) : list Q := map (fun i => exact_quantile l i n) (seq 0 (S n)).

Definition keep_all : sketch_ops (nat * list (fl * fl)) :=
  Sketch_ops _
    (fun _ f => (f, []))
    (fun s vs => (fst s, snd s ++ map (fun v => (v, Fin 1)) vs))
    (fun s vs ws => (fst s, snd s ++ with_row_weights (fst s) vs ws))
    (fun s s' => (fst s, snd s ++ snd s'))
    (fun s => s)
    (fun s n => if forallb (fun j => Qle_bool (total (column_entries (fst s) j (snd s))) 0) (seq 0 (fst s)) then []
                else map (fun j => exact_quantiles (column_entries (fst s) j (snd s)) n) (seq 0 (fst s))).

Lemma least_spec kind l : (exists e, In e l /\ kind (fst e) = true) ->
  exists e, In e l /\ kind (fst e) = true /\ least kind l = Some (fst e) /\
    forall e', In e' l -> kind (fst e') = true -> fst e <= fst e'.
Proof.
  assert (N : forall l, least kind l = None -> forall e, In e l -> kind (fst e) = false).
  { clear. induction l as [|e l IH]; [contradiction|]. cbn [least]. destruct (least kind l); [discriminate|].
    destruct (kind (fst e)) eqn:K; [discriminate|]. intros _ e' [<-|I]; auto. }
  assert (S : forall l v, least kind l = Some v -> exists e, In e l /\ kind (fst e) = true /\ v = fst e /\
    forall e', In e' l -> kind (fst e') = true -> fst e <= fst e').
  { clear - N. induction l as [|e l IH]; [discriminate|]. cbn [least]. intros v. destruct (least kind l) as [u|] eqn:U.
    - destruct (IH u eq_refl) as (e1 & I1 & K1 & -> & M1). intros [= <-].
      destruct (kind (fst e)) eqn:K; cbn [andb]; [destruct (qle_bool_spec (fst e) (fst e1)) as [L|L]|].
      + exists e. repeat split; [left; reflexivity|exact K|]. intros e' [<-|I'] K'; [lra|]. specialize (M1 _ I' K'). lra.
      + exists e1. repeat split; [right; exact I1|exact K1|]. intros e' [<-|I'] K'; [lra|]. auto.
      + exists e1. repeat split; [right; exact I1|exact K1|]. intros e' [<-|I'] K'; [congruence|]. auto.
    - destruct (kind (fst e)) eqn:K; [|discriminate]. intros [= <-]. exists e.
      repeat split; [left; reflexivity|exact K|]. intros e' [<-|I'] K'; [lra|]. rewrite (N l U e' I') in K'. discriminate. }
  intros (e & I & K). destruct (least kind l) as [v|] eqn:L.
  - destruct (S l v L) as (e1 & I1 & K1 & -> & M1). exists e1. auto.
  - rewrite (N l L e I) in K. discriminate.
Qed.
Lemma greatest (P : entry -> Prop) (dec : forall e, {P e} + {~ P e}) l : (exists e, In e l /\ P e) ->
  exists e, In e l /\ P e /\ forall e', In e' l -> P e' -> fst e' <= fst e.
Proof.
  induction l as [|a l IH]; intros (e & I & H); [contradiction|].
  destruct (Exists_dec P l dec) as [X|X].
  - apply Exists_exists in X. destruct (IH X) as (g & Ig & Pg & Mg).
    destruct (dec a) as [Pa|Pa]; [destruct (Qlt_le_dec (fst g) (fst a)) as [L|L]|].
    + exists a. repeat split; [left; reflexivity|exact Pa|]. intros e' [<-|I'] H'; [lra|]. specialize (Mg _ I' H'). lra.
    + exists g. repeat split; [right; exact Ig|exact Pg|]. intros e' [<-|I'] H'; [lra|]. auto.
    + exists g. repeat split; [right; exact Ig|exact Pg|]. intros e' [<-|I'] H'; [contradiction|]. auto.
  - assert (N : forall e', In e' l -> ~ P e') by (intros e' I' H'; apply X, Exists_exists; eauto).
    destruct I as [->|I]; [|destruct (N e I H)].
    exists e. repeat split; [left; reflexivity|exact H|]. intros e' [<-|I'] H'; [lra|]. destruct (N e' I' H').
Qed.

Lemma good_nonempty l : good l -> exists e, In e l.
Proof. intros [_ H]. destruct l as [|e l]; [unfold total, weight in H; cbn in H; lra|exists e; left; reflexivity]. Qed.

Section exact.
  Variables (l : list entry) (n : nat).
  Hypothesis G : good l.
  Hypothesis n1 : (1 <= n)%nat.

  Definition enough (i : nat) (v : Q) : bool := Qle_bool (fraction i n * total l) (weight (at_most v) l).

  Lemma fraction_le i j : (i <= j)%nat -> fraction i n <= fraction j n.
  Proof.
    intros L. unfold fraction, Qdiv. apply Qmult_le_compat_r; [rewrite <- Zle_Qle; lia|].
    apply Qinv_le_0_compat. change 0 with (inject_Z 0). rewrite <- Zle_Qle. lia.
  Qed.
  Lemma fraction_n : fraction n n == 1.
  Proof. unfold fraction. apply Qmult_inv_r. intros C. unfold Qeq in C. cbn in C. lia. Qed.
  Lemma fraction_0 : 0 <= fraction 0 n.
  Proof. unfold fraction, Qdiv. change (inject_Z (Z.of_nat 0)) with 0. rewrite Qmult_0_l. apply Qle_refl. Qed.

  Lemma exact_spec i : (i <= n)%nat -> exists e, In e l /\ enough i (fst e) = true /\ exact_quantile l i n = fst e /\
    forall e', In e' l -> enough i (fst e') = true -> fst e <= fst e'.
  Proof.
    intros L. destruct (least_spec (enough i) l) as (e & I & K & E & M).
    - destruct (greatest (fun _ => True) (fun _ => left Logic.I) l) as (e & I & _ & M).
      { destruct (good_nonempty l G) as [e I]. exists e. auto. }
      exists e. split; [exact I|]. unfold enough. apply Qle_bool_iff.
      assert (W : weight (at_most (fst e)) l == total l).
      { apply weight_ext. intros e' I'. apply at_most_spec. auto. }
      rewrite W. assert (F := fraction_le i n L). rewrite fraction_n in F. destruct G as [_ T]. nra.
    - exists e. repeat split; auto. unfold exact_quantile. fold (enough i). now rewrite E.
  Qed.
  Lemma exact_monotone i j : (i <= j <= n)%nat -> exact_quantile l i n <= exact_quantile l j n.
  Proof.
    intros L. destruct (exact_spec i ltac:(lia)) as (e & I & K & -> & M).
    destruct (exact_spec j ltac:(lia)) as (e' & I' & K' & -> & M'). apply M; [exact I'|].
    unfold enough in *. apply Qle_bool_iff in K'. apply Qle_bool_iff.
    assert (F := fraction_le i j ltac:(lia)). destruct G as [_ T]. nra.
  Qed.
  Lemma exact_sorted : StronglySorted Qle (exact_quantiles l n).
  Proof.
    unfold exact_quantiles. assert (H : forall c a, (a + c <= S n)%nat -> StronglySorted Qle (map (fun i => exact_quantile l i n) (seq a c))).
    { induction c as [|c IH]; intros a L; cbn [seq map]; constructor; [apply IH; lia|].
      apply Forall_map, Forall_forall. intros j J. apply in_seq in J. apply exact_monotone. lia. }
    apply H. lia.
  Qed.
  Lemma exact_below i : (i <= n)%nat -> weight (below (exact_quantile l i n)) l <= fraction i n * total l.
  Proof.
    intros L. destruct (exact_spec i L) as (e & I & K & -> & M). destruct G as [P T].
    destruct (Exists_dec (fun e' => fst e' < fst e) l) as [X|X].
    { intros e'. destruct (Qlt_le_dec (fst e') (fst e)); [left; assumption|right; lra]. }
    - apply Exists_exists in X.
      destruct (greatest (fun e' => fst e' < fst e)) with (l := l) as (g & Ig & Lg & Mg); [|exact X|].
      { intros e'. destruct (Qlt_le_dec (fst e') (fst e)); [left; assumption|right; lra]. }
      assert (W : weight (below (fst e)) l <= weight (at_most (fst g)) l).
      { apply weight_mono; [exact P|]. intros e' I' B. apply below_spec in B. apply at_most_spec. auto. }
      destruct (enough i (fst g)) eqn:C; [specialize (M g Ig C); lra|].
      unfold enough in C. destruct (qle_bool_spec (fraction i n * total l) (weight (at_most (fst g)) l)); [discriminate|lra].
    - rewrite weight_none; [assert (F := fraction_le 0 i ltac:(lia)); assert (F0 := fraction_0); nra|].
      intros e' I'. destruct (below (fst e) (fst e')) eqn:B; [|reflexivity]. apply below_spec in B.
      destruct X. apply Exists_exists. eauto.
  Qed.
  Lemma exact_approximates eps : 0 <= eps -> approximates eps n l (exact_quantiles l n).
  Proof.
    intros E0. split; [unfold exact_quantiles; rewrite map_length, seq_length; reflexivity|]. split; [apply exact_sorted|].
    intros i L q. assert (Q : q = exact_quantile l i n).
    { unfold q, exact_quantiles. rewrite (nth_indep _ 0 (exact_quantile l 0 n)) by (rewrite map_length, seq_length; lia).
      rewrite (map_nth (fun i => exact_quantile l i n)), seq_nth by lia. reflexivity. }
    rewrite Q. clear q Q. destruct (exact_spec i L) as (e & I & K & E & M).
    split; [exists e; split; [exact I|rewrite E; reflexivity]|]. assert (B := exact_below i L). destruct G as [P T]. split; [nra|].
    rewrite E. unfold enough in K. apply Qle_bool_iff in K. nra.
  Qed.
End exact.

Lemma keep_all_state eps f s l : built keep_all eps f s l -> s = (f, l).
Proof.
  induction 1 as [|s l vs H B ->|s l vs ws H B ->|s l s' l' B -> B' ->|s l B ->]; reflexivity.
Qed.
Lemma keep_all_promise eps f : 0 <= eps -> (1 <= f)%nat -> keeps_promise keep_all eps f.
Proof.
  intros E0 f1 s l n n1 B G. apply keep_all_state in B as ->. cbn [get_quantiles keep_all fst snd].
  assert (F : forallb (fun j => Qle_bool (total (column_entries f j l)) 0) (seq 0 f) = false).
  { destruct f as [|f]; [lia|]. cbn [seq forallb].
    destruct (G 0%nat ltac:(lia)) as [_ T]. destruct (qle_bool_spec (total (column_entries (S f) 0 l)) 0); [lra|reflexivity]. }
  rewrite F, map_length, seq_length. split; [reflexivity|]. intros j Hj.
  rewrite (nth_indep _ [] (exact_quantiles (column_entries f 0 l) n)) by (rewrite map_length, seq_length; lia).
  rewrite (map_nth (fun j => exact_quantiles (column_entries f j l) n)), seq_nth by lia.
  apply exact_approximates; auto.
Qed.
Lemma keep_all_shape : keeps_shape keep_all.
Proof.
  intros eps f s l n B. apply keep_all_state in B as ->. cbn [get_quantiles keep_all fst snd].
  destruct (forallb _ _); [left; reflexivity|right]. rewrite map_length, seq_length. split; [reflexivity|].
  apply Forall_map, Forall_forall. intros j _. unfold exact_quantiles. now rewrite map_length, seq_length.
Qed.

(** Rounding to the nearest multiple of 128 (half way, up), as float32 does from 2^30 to 2^31 but for
    the ties. *)
Definition round_to_128 (x : Q) : Q := inject_Z (Qfloor (x / 128 + (1 # 2))) * 128.
Lemma round_to_128_rounding : rounding round_to_128.
Proof.
  split.
  - intros x y L. unfold round_to_128. apply Qmult_le_compat_r; [|lra]. rewrite <- Zle_Qle. apply Qfloor_resp_le.
    apply Qplus_le_compat; [|lra]. unfold Qdiv. apply Qmult_le_compat_r; [exact L|vm_compute; discriminate].
  - intros x. unfold round_to_128. set (z := Qfloor (x / 128 + (1 # 2))).
    assert (E : Qfloor (inject_Z z * 128 / 128 + (1 # 2)) = z).
    { assert (Q : inject_Z z * 128 / 128 + (1 # 2) == inject_Z z + (1 # 2)) by field.
      rewrite Q. unfold Qfloor, Qplus, inject_Z. cbn [Qnum Qden]. replace (z * Zpos 2 + 1 * 1)%Z with (1 + z * 2)%Z by lia.
      rewrite Pos.mul_1_l, Z.div_add by lia. reflexivity. }
    rewrite E. reflexivity.
Qed.
Lemma same_rounding : rounding (fun x => x).
Proof. split; [intros x y H; exact H|reflexivity]. Qed.

(** Sixty values from 2^30, in two batches, and a dataset with weights of two features. *)
Definition close_values : plan :=
  Merge (Add [(map (fun i => Fin (inject_Z (2 ^ 30 + Z.of_nat i))) (seq 0 30), [])])
        [Compact (Add [(map (fun i => Fin (inject_Z (2 ^ 30 + Z.of_nat i))) (seq 30 30), [])])].
Definition two_features : plan :=
  Merge_into_new [Add [([Fin 1; Fin 10; Fin 2; NaN; Fin 3; Fin 30], [Fin 1; Fin 2; Fin 1]); ([], [])];
                  Compact (Add [([Fin 4; Fin 40], [Fin 4])])].
