(** * Proofs about the information of a token *)
From Coq Require Import List ZArith Reals Bool Arith Lia Lra Permutation.
From Verif Require Import InfoModel InfoSpec.
Import ListNotations.

(** ** Counting arrangements *)
Fixpoint binom (n k : nat) : nat :=
  match n, k with
  | _, 0 => 1
  | 0, S _ => 0
  | S n', S k' => binom n' k' + binom n' (S k')
  end.
Lemma binom_0 n : binom n 0 = 1.
Proof. now destruct n. Qed.
Lemma binom_gt : forall n k, n < k -> binom n k = 0.
Proof. induction n as [|n IH]; intros [|k] H; try lia; cbn [binom]; [reflexivity|]. rewrite !IH by lia. reflexivity. Qed.
Lemma binom_fact : forall n k, k <= n -> binom n k * (fact k * fact (n - k)) = fact n.
Proof.
  induction n as [|n IH]; intros [|k] H; try lia.
  - reflexivity.
  - rewrite binom_0. cbn [fact Nat.sub]. lia.
  - cbn [binom]. replace (S n - S k) with (n - k) by lia. destruct (Nat.eq_dec k n) as [->|Ne].
    + rewrite (binom_gt n (S n)) by lia. specialize (IH n (le_n n)). rewrite Nat.sub_diag in *. cbn [fact] in *. nia.
    + assert (H1 := IH k ltac:(lia)). assert (H2 := IH (S k) ltac:(lia)).
      replace (n - k) with (S (n - S k)) in * by lia. set (m := n - S k) in *. change (fact (S m)) with (S m * fact m) in *. change (fact (S k)) with (S k * fact k) in *.
      change (fact (S n)) with (S n * fact n). assert (E : S n = S k + S m) by lia. rewrite E.
      transitivity (S k * (binom n k * (fact k * (S m * fact m))) + S m * (binom n (S k) * (S k * fact k * fact m))); [ring|]. rewrite H1, H2. ring.
Qed.
Lemma binom_pos n k : k <= n -> 0 < binom n k.
Proof. intros H. pose proof (binom_fact n k H). pose proof (lt_O_fact n). destruct (binom n k); lia. Qed.

Fixpoint arr (n x : nat) : list (list bool) :=
  match n with
  | 0 => match x with 0 => [[]] | S _ => [] end
  | S n' => (match x with 0 => [] | S x' => map (cons true) (arr n' x') end) ++ map (cons false) (arr n' x)
  end.
Lemma arr_in : forall n x bs, In bs (arr n x) <-> arrangement n x bs.
Proof.
  unfold arrangement. induction n as [|n IH]; intros x bs.
  - destruct x; cbn; split.
    + intros [<-|[]]. auto.
    + intros [H _]. left. now destruct bs.
    + intros [].
    + intros [H1 H2]. destruct bs; [cbn in H2; discriminate|discriminate].
  - cbn [arr]. rewrite in_app_iff. split.
    + intros [H|H].
      * destruct x as [|x]; [destruct H|]. apply in_map_iff in H as (bs' & <- & H). apply IH in H as [L T]. unfold trues in *. cbn. auto.
      * apply in_map_iff in H as (bs' & <- & H). apply IH in H as [L T]. unfold trues in *. cbn. auto.
    + intros [L T]. destruct bs as [|b bs]; [discriminate|]. injection L as L. unfold trues in *. destruct b; cbn in T.
      * left. destruct x as [|x]; [discriminate|]. injection T as T. apply in_map, IH. auto.
      * right. apply in_map, IH. auto.
Qed.
Lemma nodup_map_cons b l : NoDup l -> NoDup (map (@cons bool b) l).
Proof. intros N. induction N as [|x l H N IH]; cbn; constructor; [|exact IH]. intros I. apply in_map_iff in I as (y & E & I). injection E as ->. contradiction. Qed.
Lemma arr_nodup : forall n x, NoDup (arr n x).
Proof.
  induction n as [|n IH]; intros x; [destruct x; cbn; repeat constructor; intros []|]. cbn [arr]. destruct x as [|x]; [apply nodup_map_cons, IH|].
  assert (G : forall a b : list (list bool), NoDup a -> NoDup b -> (forall l, In l a -> ~ In l b) -> NoDup (a ++ b)).
  { induction a as [|y a IHa]; intros b Na Nb D; [exact Nb|]. inversion Na; subst. cbn. constructor.
    - intros I. apply in_app_iff in I as [I|I]; [contradiction|]. apply (D y); [now left|exact I].
    - apply IHa; auto. intros l I. apply D. now right. }
  apply G; try apply nodup_map_cons, IH. intros l I J. apply in_map_iff in I as (l1 & <- & _). apply in_map_iff in J as (l2 & E & _). discriminate.
Qed.
Lemma arr_all n x : all_arrangements n x (arr n x).
Proof. split; [apply arr_nodup|]. intros bs. apply arr_in. Qed.
Lemma arr_length : forall n x, length (arr n x) = binom n x.
Proof.
  induction n as [|n IH]; intros [|x]; cbn [arr binom]; try reflexivity.
  - cbn [app]. rewrite map_length, IH. apply binom_0.
  - rewrite app_length, !map_length, !IH. reflexivity.
Qed.

Definition falses (bs : list bool) : nat := length (filter negb bs).
Lemma trues_falses bs : trues bs + falses bs = length bs.
Proof. unfold trues, falses. induction bs as [|[] bs IH]; cbn; lia. Qed.
Lemma both_cons b l bs ls : both (b :: bs) (l :: ls) = (if b && l then 1 else 0) + both bs ls.
Proof. unfold both, trues. cbn. destruct (b && l); reflexivity. Qed.

Lemma filter_map {A B} (f : A -> B) (p : B -> bool) l : filter p (map f l) = map f (filter (fun a => p (f a)) l).
Proof. induction l as [|a l IH]; cbn; [reflexivity|]. destruct (p (f a)); cbn; now rewrite IH. Qed.
Lemma filter_none {A} (p : A -> bool) l : (forall a, p a = false) -> filter p l = [].
Proof. intros H. induction l as [|a l IH]; cbn; [reflexivity|]. now rewrite H. Qed.

(** How many arrangements have [k] rows in common with the labels. *)
Lemma count_both : forall labels x k,
  length (filter (fun bs => both bs labels =? k) (arr (length labels) x))
  = if k <=? x then binom (trues labels) k * binom (falses labels) (x - k) else 0.
Proof.
  induction labels as [|l ls IH]; intros x k.
  - cbn [length arr]. destruct x as [|x], k as [|k]; cbn; try reflexivity; try (destruct (k <=? x); reflexivity).
  - cbn [length arr].
    assert (F : length (filter (fun bs => both bs (l :: ls) =? k) (map (cons false) (arr (length ls) x)))
              = if k <=? x then binom (trues ls) k * binom (falses ls) (x - k) else 0).
    { rewrite filter_map, map_length. rewrite <- IH. reflexivity. }
    rewrite filter_app, app_length, F. clear F.
    destruct l.
    + assert (Tl : trues (true :: ls) = S (trues ls)) by reflexivity. assert (Fl : falses (true :: ls) = falses ls) by reflexivity. rewrite Tl, Fl.
      destruct x as [|x].
      * cbn [filter length Nat.add]. destruct k as [|k]; [|reflexivity]. cbn [Nat.leb Nat.sub]. rewrite !binom_0. reflexivity.
      * destruct k as [|k].
        -- rewrite filter_map, map_length, filter_none by (intros bs; rewrite both_cons; reflexivity). cbn [length Nat.add Nat.leb]. now rewrite !binom_0.
        -- rewrite filter_map, map_length. rewrite (filter_ext _ (fun bs => both bs ls =? k)) by (intros bs; rewrite both_cons; reflexivity).
           rewrite IH. cbn [Nat.leb Nat.sub binom]. destruct (k <=? x); [|reflexivity]. lia.
    + assert (Tl : trues (false :: ls) = trues ls) by reflexivity. assert (Fl : falses (false :: ls) = S (falses ls)) by reflexivity. rewrite Tl, Fl.
      destruct x as [|x].
      * cbn [filter length Nat.add]. destruct k as [|k]; [|reflexivity]. cbn [Nat.leb Nat.sub]. rewrite !binom_0. reflexivity.
      * rewrite filter_map, map_length. rewrite (filter_ext _ (fun bs => both bs ls =? k)) by (intros bs; rewrite both_cons; cbn [andb]; reflexivity). rewrite IH.
        destruct (Nat.leb_spec k x) as [L|L].
        -- destruct (Nat.leb_spec k (S x)) as [L'|L']; [|lia]. replace (S x - k) with (S (x - k)) by lia. cbn [binom]. lia.
        -- destruct (Nat.leb_spec k (S x)) as [L'|L']; [|reflexivity]. replace (S x - k) with 0 by lia. rewrite !binom_0. reflexivity.
Qed.
Lemma both_bounds : forall bs labels, length bs = length labels ->
  both bs labels <= trues bs /\ both bs labels <= trues labels /\ trues bs + trues labels <= length labels + both bs labels.
Proof.
  induction bs as [|b bs IH]; intros [|l ls] H; try discriminate; [cbn; auto|]. injection H as H. destruct (IH ls H) as (A & B & C). rewrite both_cons.
  unfold trues in *. destruct b, l; cbn in *; lia.
Qed.

(** ** Sums *)
Local Open Scope R_scope.
Lemma total_app {A} (f : A -> R) l m : total f (l ++ m) = total f l + total f m.
Proof. unfold total. induction l as [|a l IH]; cbn; [lra|]. rewrite IH. lra. Qed.
Lemma total_perm {A} (f : A -> R) l m : Permutation l m -> total f l = total f m.
Proof. unfold total. induction 1; cbn; lra. Qed.
Lemma total_ext {A} (f h : A -> R) l : (forall a, In a l -> f a = h a) -> total f l = total h l.
Proof. unfold total. induction l as [|a l IH]; intros H; cbn; [reflexivity|]. rewrite (H a) by now left. f_equal. apply IH. intros b I. apply H. now right. Qed.
Lemma total_scale {A} (f : A -> R) c l : total (fun a => c * f a) l = c * total f l.
Proof. unfold total. induction l as [|a l IH]; cbn; [lra|]. rewrite IH. lra. Qed.
Lemma total_plus {A} (f h : A -> R) l : total (fun a => f a + h a) l = total f l + total h l.
Proof. unfold total. induction l as [|a l IH]; cbn; [lra|]. rewrite IH. lra. Qed.
Lemma total_zero {A} (l : list A) : total (fun _ => 0) l = 0.
Proof. unfold total. induction l as [|a l IH]; cbn; [lra|]. rewrite IH. lra. Qed.
Lemma total_const {A} c (l : list A) : total (fun _ => c) l = c * INR (length l).
Proof. unfold total. induction l as [|a l IH]; [cbn; lra|]. cbn [fold_right length]. rewrite IH, S_INR. lra. Qed.
Lemma total_map {A B} (h : A -> B) (f : B -> R) l : total f (map h l) = total (fun a => f (h a)) l.
Proof. unfold total. induction l as [|a l IH]; cbn; [lra|]. now rewrite IH. Qed.
Lemma total_swap {A B} (f : A -> B -> R) l m : total (fun a => total (f a) m) l = total (fun b => total (fun a => f a b) l) m.
Proof.
  induction l as [|a l IH]; cbn.
  - symmetry. apply total_zero.
  - change (total (f a) m + total (fun a0 => total (f a0) m) l = total (fun b => f a b + total (fun a0 => f a0 b) l) m). rewrite IH, total_plus. reflexivity.
Qed.
(** Grouping. *)
Lemma total_group {A} (h : A -> nat) (F : nat -> R) (ks : list nat) l : NoDup ks -> (forall a, In a l -> In (h a) ks) ->
  total (fun a => F (h a)) l = total (fun k => INR (length (filter (fun a => h a =? k)%nat l)) * F k) ks.
Proof.
  intros N. induction l as [|a l IH]; intros H.
  - cbn. symmetry. erewrite total_ext; [apply total_zero|]. intros k _. cbn. lra.
  - cbn [total fold_right]. fold (total (fun a => F (h a)) l). rewrite IH by (intros b I; apply H; now right).
    assert (E : forall k, In k ks -> INR (length (filter (fun b => h b =? k)%nat (a :: l))) * F k
              = (if (h a =? k)%nat then F k else 0) + INR (length (filter (fun b => h b =? k)%nat l)) * F k).
    { intros k _. cbn [filter]. destruct (h a =? k)%nat; [|lra]. cbn [length]. rewrite S_INR. lra. }
    rewrite (total_ext _ _ _ E), total_plus. f_equal. specialize (H a (or_introl eq_refl)). clear -N H.
    induction ks as [|k ks IH]; [destruct H|]. inversion N as [|? ? Nk Nks]; subst. cbn [total fold_right]. fold (total (fun k => if (h a =? k)%nat then F k else 0) ks).
    destruct (Nat.eqb_spec (h a) k) as [<-|Ne].
    + rewrite (total_ext _ (fun _ => 0)), total_zero; [lra|]. intros k I. destruct (Nat.eqb_spec (h a) k) as [<-|]; [contradiction|reflexivity].
    + destruct H as [H|H]; [congruence|]. rewrite <- IH by assumption. lra.
Qed.

(** ** The hypergeometric distribution *)
Lemma fact_pos n : 0 < INR (fact n).
Proof. apply lt_0_INR, lt_O_fact. Qed.
Lemma lnfact_S n : ln (INR (fact (S n))) = ln (INR (fact n)) + ln (INR n + 1).
Proof.
  change (fact (S n)) with (S n * fact n)%nat. rewrite mult_INR, ln_mult; [rewrite S_INR; lra| |apply fact_pos]. rewrite S_INR. pose proof (pos_INR n). lra.
Qed.
Lemma math_log_some x : 0 < x -> math_log x = Some (ln x).
Proof. intros H. unfold math_log. destruct (Rlt_dec 0 x); [reflexivity|contradiction]. Qed.
Lemma log2_some x : 0 < x -> log2 x = Some (log_2 x).
Proof. intros H. unfold log2. destruct (Rlt_dec 0 x); [reflexivity|contradiction]. Qed.
Lemma py_round_INR n : py_round (INR n) = Z.of_nat n.
Proof.
  unfold py_round. rewrite Int_part_INR, <- INR_IZR_INZ. destruct (Rlt_dec _ _) as [_|N]; [reflexivity|]. exfalso. lra.
Qed.

Section Pmf.
Variable lgamma : R -> option R.
Hypothesis lgamma_right : is_lgamma lgamma.
Lemma logfactorial_some n : logfactorial lgamma (INR n) = Some (ln (INR (fact n))).
Proof. apply lgamma_right. Qed.

Variables n x y : nat.
Hypothesis x_le : (x <= n)%nat.
Hypothesis y_le : (y <= n)%nat.
Let start := (x + y - n)%nat.
Let last := Nat.min x y.
Lemma start_le : (start <= last)%nat.
Proof. unfold start, last. lia. Qed.

Definition denominator (k : nat) : R :=
  ln (INR (fact n)) + ln (INR (fact k)) + ln (INR (fact (x - k))) + ln (INR (fact (y - k))) + ln (INR (fact (n + k - x - y))).
Definition numerator : R := ln (INR (fact x)) + ln (INR (fact y)) + ln (INR (fact (n - x))) + ln (INR (fact (n - y))).

Lemma denominator_S k : (start <= k < last)%nat ->
  denominator (S k) = denominator k + (ln (INR k + 1) - ln (INR x - INR k) - ln (INR y - INR k) + ln (INR n - INR x - INR y + INR k + 1)).
Proof.
  intros [H1 H2]. unfold start, last in *. unfold denominator.
  assert (X : ln (INR (fact (x - k))) = ln (INR (fact (x - S k))) + ln (INR x - INR k)).
  { replace (x - k)%nat with (S (x - S k)) by lia. rewrite lnfact_S. f_equal. f_equal. rewrite minus_INR, S_INR by lia. lra. }
  assert (Y : ln (INR (fact (y - k))) = ln (INR (fact (y - S k))) + ln (INR y - INR k)).
  { replace (y - k)%nat with (S (y - S k)) by lia. rewrite lnfact_S. f_equal. f_equal. rewrite minus_INR, S_INR by lia. lra. }
  assert (Z : ln (INR (fact (n + S k - x - y))) = ln (INR (fact (n + k - x - y))) + ln (INR n - INR x - INR y + INR k + 1)).
  { replace (n + S k - x - y)%nat with (S (n + k - x - y)) by lia. rewrite lnfact_S. f_equal. f_equal. rewrite !minus_INR, plus_INR by lia. lra. }
  rewrite lnfact_S, X, Y, Z. lra.
Qed.

Lemma pmf_loop_right : forall steps k, (start <= k)%nat -> (k + steps = S last)%nat ->
  pmf_loop steps (INR n) (INR x) (INR y) (Z.of_nat last) (Z.of_nat k) numerator (denominator k)
  = Some (map (fun j => (Z.of_nat j, exp (numerator - denominator j))) (seq k steps)).
Proof.
  induction steps as [|steps IH]; intros k H1 H2; [reflexivity|]. cbn [pmf_loop seq map].
  destruct (Z.eqb_spec (Z.of_nat k) (Z.of_nat last)) as [E|E].
  - apply Nat2Z.inj in E. assert (steps = 0%nat) as -> by lia. reflexivity.
  - assert (L : (k < last)%nat) by lia. rewrite <- INR_IZR_INZ.
    assert (Lx : (k < x)%nat) by (unfold last in L; lia). assert (Ly : (k < y)%nat) by (unfold last in L; lia).
    apply lt_INR in Lx, Ly. pose proof (pos_INR k).
    rewrite (math_log_some (INR k + 1)) by lra. rewrite (math_log_some (INR x - INR k)) by lra. rewrite (math_log_some (INR y - INR k)) by lra.
    rewrite math_log_some.
    2:{ unfold start in H1. assert (INR (x + y) <= INR (n + k)) by (apply le_INR; lia). rewrite !plus_INR in *. lra. }
    cbn [bind]. rewrite <- denominator_S by lia. replace (Z.of_nat k + 1)%Z with (Z.of_nat (S k)) by lia. rewrite IH by lia. reflexivity.
Qed.

Theorem pmf_right : hypergeometric_pmf lgamma (INR n) (INR x) (INR y)
  = Some (map (fun j => (Z.of_nat j, exp (numerator - denominator j))) (seq start (S last - start))).
Proof.
  unfold hypergeometric_pmf.
  assert (St : Rmax 0 (INR x + INR y - INR n) = INR start).
  { unfold start. destruct (le_lt_dec n (x + y)) as [L|L].
    - rewrite minus_INR, plus_INR by lia. apply Rmax_right. apply le_INR in L. rewrite plus_INR in L. lra.
    - replace (x + y - n)%nat with 0%nat by lia. cbn. apply Rmax_left. apply lt_INR in L. rewrite plus_INR in L. lra. }
  assert (La : Rmin (INR x) (INR y) = INR last).
  { unfold last. destruct (le_lt_dec x y) as [L|L].
    - rewrite Nat.min_l by lia. apply Rmin_left. now apply le_INR.
    - rewrite Nat.min_r by lia. apply Rmin_right. apply le_INR. lia. }
  rewrite St, La, !py_round_INR, <- INR_IZR_INZ, <- !minus_INR by (unfold start; lia).
  replace (INR n - INR x - INR y + INR start) with (INR (n + start - x - y)) by (rewrite !minus_INR, plus_INR by (unfold start; lia); lra).
  replace (INR (n - x) - INR y + INR start) with (INR (n + start - x - y)) by (rewrite !minus_INR, plus_INR by (unfold start; lia); lra).
  rewrite !logfactorial_some. cbn [bind].
  pose proof start_le.
  replace (Z.to_nat (Z.of_nat last + 1 - Z.of_nat start)) with (S last - start)%nat by lia.
  apply pmf_loop_right; lia.
Qed.

Lemma probability k : (start <= k <= last)%nat ->
  exp (numerator - denominator k) = INR (binom y k * binom (n - y) (x - k)) / INR (binom n x).
Proof.
  intros [H1 H2]. unfold start, last in *.
  assert (B1 := binom_fact y k ltac:(lia)). assert (B2 := binom_fact (n - y) (x - k) ltac:(lia)). assert (B3 := binom_fact n x x_le).
  replace (n - y - (x - k))%nat with (n + k - x - y)%nat in B2 by lia.
  assert (P : 0 < INR (binom n x)) by (apply lt_0_INR, binom_pos, x_le).
  apply (f_equal INR) in B1, B2, B3. rewrite !mult_INR in *.
  unfold numerator, denominator, Rminus. rewrite exp_plus, exp_Ropp, !exp_plus, !exp_ln by apply fact_pos. rewrite <- B1, <- B2.
  pose proof (fact_pos x). pose proof (fact_pos (n - x)). pose proof (fact_pos n). pose proof (fact_pos k). pose proof (fact_pos (x - k)). pose proof (fact_pos (y - k)). pose proof (fact_pos (n + k - x - y)).
  rewrite <- B3. field. repeat split; lra.
Qed.
End Pmf.
