(** Proofs of the statements of LMomentsProps.v about batches. *)
From Coq Require Import List Arith ZArith QArith Qround Bool Lia Permutation Sorted Morphisms Setoid.
From Verif Require Import CombineModel CombineProofs SortModel MeanVarSpec MeanVarProofs
  LMomentsModel LMomentsSpec.
Import ListNotations.
Local Open Scope Q_scope.

Lemma of_nat_S n : of_nat (S n) == of_nat n + 1.
Proof. unfold of_nat. rewrite Nat2Z.inj_succ, <- Z.add_1_r, inject_Z_plus. reflexivity. Qed.

Lemma of_nat_plus n m : of_nat (n + m) == of_nat n + of_nat m.
Proof. unfold of_nat. rewrite Nat2Z.inj_add, inject_Z_plus. reflexivity. Qed.

Lemma of_nat_sub n m : (m <= n)%nat -> of_nat (n - m) == of_nat n - of_nat m.
Proof.
  intros H. replace (of_nat n) with (of_nat (n - m + m)) by (f_equal; lia).
  rewrite of_nat_plus. ring.
Qed.

Lemma of_nat_nonneg n : 0 <= of_nat n.
Proof. unfold of_nat. change 0 with (inject_Z 0). rewrite <- Zle_Qle. lia. Qed.

Lemma of_nat_pos n : (0 < n)%nat -> 0 < of_nat n.
Proof. intros H. unfold of_nat. change 0 with (inject_Z 0). rewrite <- Zlt_Qlt. lia. Qed.

Lemma of_nat_zero n : of_nat n == 0 -> n = 0%nat.
Proof.
  unfold of_nat. change 0 with (inject_Z 0). rewrite inject_Z_injective. lia.
Qed.

(** ** Binomial numbers *)

Fixpoint choose (n k : nat) : nat :=
  match n, k with
  | _, O => 1
  | O, S _ => 0
  | S n', S k' => choose n' k' + choose n' k
  end.

Lemma subsets_length {A} (l : list A) : forall r, length (subsets r l) = choose (length l) r.
Proof.
  induction l as [|x l IH]; intros [|r]; cbn [subsets]; try reflexivity.
  cbn [length choose]. rewrite app_length, map_length, !IH. reflexivity.
Qed.

Lemma choose_0 n : choose n 0 = 1%nat.
Proof. destruct n; reflexivity. Qed.

Lemma choose_1 n : of_nat (choose n 1) == of_nat n.
Proof.
  induction n as [|n IH]; [reflexivity|]. cbn [choose]. rewrite choose_0, of_nat_plus, IH, (of_nat_S n).
  change (of_nat 1) with 1. ring.
Qed.

Lemma choose_2 n : of_nat (choose n 2) == of_nat n * (of_nat n - 1) / 2.
Proof.
  induction n as [|n IH]; [reflexivity|]. cbn [choose]. rewrite of_nat_plus, IH, choose_1, (of_nat_S n).
  field.
Qed.

Lemma choose_3 n : of_nat (choose n 3) == of_nat n * (of_nat n - 1) * (of_nat n - 2) / 6.
Proof.
  induction n as [|n IH]; [reflexivity|]. cbn [choose]. rewrite of_nat_plus, IH, choose_2, (of_nat_S n).
  field.
Qed.

Lemma choose_4 n :
  of_nat (choose n 4) == of_nat n * (of_nat n - 1) * (of_nat n - 2) * (of_nat n - 3) / 24.
Proof.
  induction n as [|n IH]; [reflexivity|]. cbn [choose]. rewrite of_nat_plus, IH, choose_3, (of_nat_S n).
  field.
Qed.

(** ** Sums over positions *)

Fixpoint weigh (f : nat -> Q) (i : nat) (l : list Q) : Q :=
  match l with
  | [] => 0
  | x :: l' => x * f i + weigh f (S i) l'
  end.

Lemma weigh_ext f g l : forall i,
  (forall k, (i <= k < i + length l)%nat -> f k == g k) -> weigh f i l == weigh g i l.
Proof.
  induction l as [|x l IH]; intros i H; [reflexivity|]. cbn [weigh].
  cbn [length] in H.
  rewrite (H i) by lia. rewrite (IH (S i)); [reflexivity|]. intros k Hk. apply H. lia.
Qed.

Lemma weigh_plus f g l : forall i,
  weigh (fun k => f k + g k) i l == weigh f i l + weigh g i l.
Proof. induction l as [|x l IH]; intros i; cbn [weigh]; [ring|]. rewrite IH. ring. Qed.

Lemma weigh_scale c f l : forall i, weigh (fun k => c * f k) i l == c * weigh f i l.
Proof. induction l as [|x l IH]; intros i; cbn [weigh]; [ring|]. rewrite IH. ring. Qed.

Lemma weigh_seq f l : forall i,
  weigh f i l == q_sum (map (fun p => fst p * snd p) (combine l (map f (seq i (length l))))).
Proof.
  induction l as [|x l IH]; intros i; [reflexivity|].
  cbn [weigh length seq map combine]. rewrite q_sum_cons. cbn [fst snd]. rewrite IH. reflexivity.
Qed.

(** The sum of the values in place [k] of the subsets of [k + 1 + m] values. *)
Definition weight (n k m i : nat) : Q := of_nat (choose i k) * of_nat (choose (n - 1 - i) m).

Fixpoint picks (k m i : nat) (l : list Q) : Q :=
  match l with
  | [] => 0
  | x :: l' => x * (of_nat (choose i k) * of_nat (choose (length l') m)) + picks k m (S i) l'
  end.

Lemma picks_weigh n k m l : forall i, (i + length l = n)%nat -> picks k m i l == weigh (weight n k m) i l.
Proof.
  induction l as [|x l IH]; intros i H; [reflexivity|]. cbn [picks weigh length] in *.
  rewrite IH by lia. unfold weight. replace (n - 1 - i)%nat with (length l) by lia. reflexivity.
Qed.

Lemma picks_0 m l : forall i j, picks 0 m i l == picks 0 m j l.
Proof.
  induction l as [|x l IH]; intros i j; [reflexivity|]. cbn [picks]. rewrite !choose_0.
  rewrite (IH (S i) (S j)). reflexivity.
Qed.

Lemma picks_S k m l : forall i, picks (S k) m (S i) l == picks k m i l + picks (S k) m i l.
Proof.
  induction l as [|x l IH]; intros i; [reflexivity|]. cbn [picks]. rewrite (IH (S i)).
  cbn [choose]. rewrite of_nat_plus. ring.
Qed.

Lemma subsets_pick l : forall k m,
  q_sum (map (fun s => nth k s 0) (subsets (S (k + m)) l)) == picks k m 0 l.
Proof.
  induction l as [|x l IH]; intros k m; [reflexivity|].
  cbn [subsets picks]. rewrite map_app, q_sum_app, map_map. destruct k as [|k].
  - cbn [nth Nat.add] in *. rewrite q_sum_const, subsets_length, (IH 0%nat m).
    rewrite (picks_0 m l 1 0). rewrite choose_0. change (of_nat 1) with 1. unfold of_nat. ring.
  - cbn [nth Nat.add]. rewrite (IH k m), (picks_S k m l 0).
    pose proof (IH (S k) m) as E. cbn [Nat.add] in E. rewrite E. cbn [choose].
    change (of_nat 0) with 0. ring.
Qed.

Lemma subsets_weigh l k m :
  q_sum (map (fun s => nth k s 0) (subsets (S (k + m)) l)) == weigh (weight (length l) k m) 0 l.
Proof. rewrite subsets_pick. apply picks_weigh. reflexivity. Qed.

Lemma subsets_size {A} (l : list A) : forall r s, In s (subsets r l) -> length s = r.
Proof.
  induction l as [|x l IH]; intros [|r] s H; cbn [subsets] in H.
  - destruct H as [<-|[]]. reflexivity.
  - destruct H.
  - destruct H as [<-|[]]. reflexivity.
  - apply in_app_iff in H as [H|H].
    + apply in_map_iff in H as (t & <- & Ht). cbn. f_equal. eauto.
    + eauto.
Qed.

(** ** Ascending order *)

Lemma place_perm x l : Permutation (x :: l) (place x l).
Proof.
  induction l as [|y l IH]; cbn [place]; [reflexivity|]. destruct (Qlt_le_dec y x); [|reflexivity].
  rewrite <- IH. apply perm_swap.
Qed.

Lemma ascending_perm l : Permutation l (ascending l).
Proof.
  induction l as [|x l IH]; [constructor|]. cbn [ascending fold_right].
  rewrite <- place_perm. constructor. exact IH.
Qed.

Lemma place_sorted x l : StronglySorted Qle l -> StronglySorted Qle (place x l).
Proof.
  induction 1 as [|y l Hs IH Hy]; cbn [place]; [constructor; constructor|].
  destruct (Qlt_le_dec y x) as [H|H].
  - constructor; [exact IH|]. apply Forall_forall. intros z Hz.
    apply (Permutation_in _ (Permutation_sym (place_perm x l))) in Hz as [<-|Hz].
    + apply Qlt_le_weak, H.
    + rewrite Forall_forall in Hy. apply Hy, Hz.
  - constructor; [constructor; assumption|]. constructor; [exact H|].
    apply Forall_forall. intros z Hz. rewrite Forall_forall in Hy.
    apply Qle_trans with y; [exact H|apply Hy, Hz].
Qed.

Lemma ascending_sorted l : StronglySorted Qle (ascending l).
Proof. induction l; [constructor|]. now apply place_sorted. Qed.

Lemma insert_perm x l : Permutation (x :: l) (insert_sorted Qle_bool x l).
Proof.
  induction l as [|y l IH]; cbn [insert_sorted]; [reflexivity|]. destruct (Qle_bool x y); [reflexivity|].
  rewrite <- IH. apply perm_swap.
Qed.

Lemma insert_is_sorted x l : StronglySorted Qle l -> StronglySorted Qle (insert_sorted Qle_bool x l).
Proof.
  induction 1 as [|y l Hs IH Hy]; cbn [insert_sorted]; [constructor; constructor|].
  destruct (Qle_bool x y) eqn:E.
  - apply Qle_bool_iff in E. constructor; [constructor; assumption|]. constructor; [exact E|].
    apply Forall_forall. intros z Hz. rewrite Forall_forall in Hy.
    apply Qle_trans with y; [exact E|apply Hy, Hz].
  - assert (L : y <= x).
    { apply Qlt_le_weak, Qnot_le_lt. intros H. apply Qle_bool_iff in H. congruence. }
    constructor; [exact IH|]. apply Forall_forall. intros z Hz.
    apply (Permutation_in _ (Permutation_sym (insert_perm x l))) in Hz as [<-|Hz]; [exact L|].
    rewrite Forall_forall in Hy. apply Hy, Hz.
Qed.

Lemma tf_sort_perm l : Permutation l (tf_sort l).
Proof.
  unfold tf_sort, py_sorted. induction l as [|x l IH]; [constructor|]. cbn [fold_right].
  rewrite <- insert_perm. constructor. exact IH.
Qed.

Lemma tf_sort_sorted l : StronglySorted Qle (tf_sort l).
Proof. unfold tf_sort, py_sorted. induction l; [constructor|]. now apply insert_is_sorted. Qed.

Lemma sorted_red l : StronglySorted Qle l -> StronglySorted Qle (map Qred l).
Proof.
  induction 1 as [|x l Hs IH Hx]; [constructor|]. cbn [map]. constructor; [exact IH|].
  apply Forall_forall. intros z Hz. apply in_map_iff in Hz as (y & <- & Hy).
  rewrite !Qred_correct. rewrite Forall_forall in Hx. apply Hx, Hy.
Qed.

Lemma sorted_unique_red (l1 : list Q) : forall l2,
  Forall (fun x => Qred x = x) l1 -> Forall (fun x => Qred x = x) l2 ->
  StronglySorted Qle l1 -> StronglySorted Qle l2 -> Permutation l1 l2 -> l1 = l2.
Proof.
  induction l1 as [|x l1 IH]; intros [|y l2] R1 R2 S1 S2 HP.
  - reflexivity.
  - apply Permutation_nil in HP. discriminate.
  - apply Permutation_sym, Permutation_nil in HP. discriminate.
  - inversion S1 as [|? ? S1' F1]; inversion S2 as [|? ? S2' F2]; subst.
    inversion R1; inversion R2; subst.
    assert (E : x == y).
    { apply Qle_antisym.
      - assert (I : In y (x :: l1)) by (apply (Permutation_in _ (Permutation_sym HP)); left; reflexivity).
        destruct I as [->|I]; [apply Qle_refl|]. rewrite Forall_forall in F1. apply F1, I.
      - assert (I : In x (y :: l2)) by (apply (Permutation_in _ HP); left; reflexivity).
        destruct I as [->|I]; [apply Qle_refl|]. rewrite Forall_forall in F2. apply F2, I. }
    assert (EE : x = y) by (apply Qred_complete in E; congruence). subst y.
    f_equal. apply IH; auto. now apply Permutation_cons_inv in HP.
Qed.

Lemma sorted_unique (l1 l2 : list Q) :
  StronglySorted Qle l1 -> StronglySorted Qle l2 -> Permutation l1 l2 -> Forall2 Qeq l1 l2.
Proof.
  intros S1 S2 HP.
  assert (E : map Qred l1 = map Qred l2).
  { assert (R : forall l, Forall (fun x => Qred x = x) (map Qred l)).
    { intros l. apply Forall_forall. intros x Hx. apply in_map_iff in Hx as (y & <- & _).
      apply Qred_complete, Qred_correct. }
    apply sorted_unique_red; auto using sorted_red. now apply Permutation_map. }
  clear -E. revert l2 E. induction l1 as [|x l1 IH]; intros [|y l2] E; try discriminate; constructor.
  - cbn in E. injection E as E _. rewrite <- (Qred_correct x), <- (Qred_correct y), E. reflexivity.
  - apply IH. cbn in E. now injection E.
Qed.

(** The contribution, as a sum of order statistics. *)
Lemma contribution_equal (l1 l2 : list Q) : Forall2 Qeq l1 l2 ->
  match l1 with
  | [a] => a
  | [a; b] => (b - a) / 2
  | [a; b; c] => (c - 2 * b + a) / 3
  | [a; b; c; d] => (d - 3 * c + 3 * b - a) / 4
  | _ => 0
  end ==
  match l2 with
  | [a] => a
  | [a; b] => (b - a) / 2
  | [a; b; c] => (c - 2 * b + a) / 3
  | [a; b; c; d] => (d - 3 * c + 3 * b - a) / 4
  | _ => 0
  end.
Proof.
  intros H. inversion H as [|a a' l1' l2' Ha H1]; subst; [reflexivity|].
  inversion H1 as [|b b' ? ? Hb H2]; subst; [exact Ha|].
  inversion H2 as [|c c' ? ? Hc H3]; subst; [rewrite Ha, Hb; reflexivity|].
  inversion H3 as [|d d' ? ? Hd H4]; subst; [rewrite Ha, Hb, Hc; reflexivity|].
  inversion H4; subst; [rewrite Ha, Hb, Hc, Hd; reflexivity|reflexivity].
Qed.

Lemma contribution_perm s t : Permutation s t -> contribution s == contribution t.
Proof.
  intros H. unfold contribution. apply contribution_equal, sorted_unique; auto using ascending_sorted.
  rewrite <- !ascending_perm. exact H.
Qed.

Lemma contribution_sorted s : StronglySorted Qle s ->
  contribution s ==
  match s with
  | [a] => a
  | [a; b] => (b - a) / 2
  | [a; b; c] => (c - 2 * b + a) / 3
  | [a; b; c; d] => (d - 3 * c + 3 * b - a) / 4
  | _ => 0
  end.
Proof.
  intros H. unfold contribution. apply contribution_equal, sorted_unique; auto using ascending_sorted.
  rewrite <- ascending_perm. reflexivity.
Qed.

(** ** Sums over subsets do not depend on the order *)

Lemma subsets_perm (l1 l2 : list Q) : Permutation l1 l2 -> forall r (f : list Q -> Q),
  (forall s t, Permutation s t -> f s == f t) ->
  q_sum (map f (subsets r l1)) == q_sum (map f (subsets r l2)).
Proof.
  induction 1 as [|x l1 l2 HP IH|x y l|l1 l2 l3 _ IH1 _ IH2]; intros r f Hf.
  - reflexivity.
  - destruct r as [|r]; [reflexivity|]. cbn [subsets]. rewrite !map_app, !q_sum_app, !map_map.
    rewrite (IH (S r) f Hf). rewrite (IH r (fun s => f (x :: s))); [reflexivity|].
    intros s t H. apply Hf. now constructor.
  - destruct r as [|[|r]]; [reflexivity| |].
    + cbn [subsets map app]. rewrite !q_sum_cons, !map_app, !q_sum_app. destruct l; cbn [subsets map]; rewrite !q_sum_cons; ring.
    + cbn [subsets]. rewrite !map_app, !q_sum_app, !map_map.
      rewrite (q_sum_map_ext (fun z => f (x :: y :: z)) (fun z => f (y :: x :: z))).
      * ring.
      * intros s _. apply Hf, perm_swap.
  - rewrite (IH1 r f Hf). exact (IH2 r f Hf).
Qed.

Lemma subsets_sorted l : StronglySorted Qle l -> forall r s, In s (subsets r l) ->
  StronglySorted Qle s /\ (forall x, In x s -> In x l).
Proof.
  induction 1 as [|x l Hs IH Hx]; intros [|r] s H; cbn [subsets] in H.
  - destruct H as [<-|[]]. split; [constructor|]. intros y [].
  - destruct H.
  - destruct H as [<-|[]]. split; [constructor|]. intros y [].
  - apply in_app_iff in H as [H|H].
    + apply in_map_iff in H as (t & <- & Ht). destruct (IH r t Ht) as [St It]. split.
      * constructor; [exact St|]. apply Forall_forall. intros y Hy.
        rewrite Forall_forall in Hx. apply Hx, It, Hy.
      * intros y [<-|Hy]; [left; reflexivity|right; apply It, Hy].
    + destruct (IH _ s H) as [St It]. split; [exact St|]. intros y Hy. right. apply It, Hy.
Qed.

(** The sums of the contributions of a sorted sample. *)
Definition sum_contributions (r : nat) (l : list Q) : Q := q_sum (map contribution (subsets r l)).

Lemma sorted_1 l : StronglySorted Qle l -> sum_contributions 1 l == weigh (fun _ => 1) 0 l.
Proof.
  intros H. unfold sum_contributions.
  rewrite (q_sum_map_ext _ (fun s => nth 0 s 0)).
  - rewrite (subsets_weigh l 0 0). apply weigh_ext. intros k _. unfold weight. rewrite !choose_0. reflexivity.
  - intros s Hs. destruct (subsets_sorted l H _ s Hs) as [St _].
    pose proof (subsets_size l _ s Hs) as L. rewrite (contribution_sorted s St).
    destruct s as [|a [|b s]]; try discriminate L. reflexivity.
Qed.

Lemma sorted_2 l : StronglySorted Qle l -> sum_contributions 2 l
  == weigh (fun i => (weight (length l) 1 0 i - weight (length l) 0 1 i) / 2) 0 l.
Proof.
  intros H. unfold sum_contributions.
  rewrite (q_sum_map_ext _ (fun s => (1 / 2) * nth 1 s 0 + (-1 / 2) * nth 0 s 0)).
  - rewrite q_sum_map_plus, !q_sum_map_scale, (subsets_weigh l 1 0), (subsets_weigh l 0 1).
    rewrite <- !weigh_scale, <- weigh_plus. apply weigh_ext. intros. field.
  - intros s Hs. destruct (subsets_sorted l H _ s Hs) as [St _].
    pose proof (subsets_size l _ s Hs) as L. rewrite (contribution_sorted s St).
    destruct s as [|a [|b [|c s]]]; try discriminate L. cbn [nth]. field.
Qed.

Lemma sorted_3 l : StronglySorted Qle l -> sum_contributions 3 l
  == weigh (fun i => (weight (length l) 2 0 i - 2 * weight (length l) 1 1 i
                      + weight (length l) 0 2 i) / 3) 0 l.
Proof.
  intros H. unfold sum_contributions.
  rewrite (q_sum_map_ext _
    (fun s => (1 / 3) * nth 2 s 0 + ((-2 / 3) * nth 1 s 0 + (1 / 3) * nth 0 s 0))).
  - rewrite !q_sum_map_plus, !q_sum_map_scale,
      (subsets_weigh l 2 0), (subsets_weigh l 1 1), (subsets_weigh l 0 2).
    rewrite <- !weigh_scale, <- !weigh_plus. apply weigh_ext. intros. field.
  - intros s Hs. destruct (subsets_sorted l H _ s Hs) as [St _].
    pose proof (subsets_size l _ s Hs) as L. rewrite (contribution_sorted s St).
    destruct s as [|a [|b [|c [|d s]]]]; try discriminate L. cbn [nth]. field.
Qed.

Lemma sorted_4 l : StronglySorted Qle l -> sum_contributions 4 l
  == weigh (fun i => (weight (length l) 3 0 i - 3 * weight (length l) 2 1 i
                      + 3 * weight (length l) 1 2 i - weight (length l) 0 3 i) / 4) 0 l.
Proof.
  intros H. unfold sum_contributions.
  rewrite (q_sum_map_ext _
    (fun s => (1 / 4) * nth 3 s 0 + ((-3 / 4) * nth 2 s 0
              + ((3 / 4) * nth 1 s 0 + (-1 / 4) * nth 0 s 0)))).
  - rewrite !q_sum_map_plus, !q_sum_map_scale,
      (subsets_weigh l 3 0), (subsets_weigh l 2 1), (subsets_weigh l 1 2), (subsets_weigh l 0 3).
    rewrite <- !weigh_scale, <- !weigh_plus. apply weigh_ext. intros. field.
  - intros s Hs. destruct (subsets_sorted l H _ s Hs) as [St _].
    pose proof (subsets_size l _ s Hs) as L. rewrite (contribution_sorted s St).
    destruct s as [|a [|b [|c [|d [|e s]]]]]; try discriminate L. cbn [nth]. field.
Qed.

(** ** The factors *)

Lemma range_up n a : tf_range a (of_nat n + a) 1 = map (fun i => a + of_nat i * 1) (seq 0 n).
Proof.
  unfold tf_range. f_equal. f_equal.
  rewrite (Qceiling_comp _ (of_nat n)) by field. unfold of_nat. rewrite Qceiling_Z. lia.
Qed.

Lemma tf_range_count start limit delta n : (limit - start) / delta == of_nat n ->
  tf_range start limit delta = map (fun i => start + of_nat i * delta) (seq 0 n).
Proof.
  intros H. unfold tf_range. f_equal. f_equal.
  rewrite (Qceiling_comp _ _ H). unfold of_nat. rewrite Qceiling_Z. lia.
Qed.

Lemma v_map2_map (f : Q -> Q -> Q) (g h : nat -> Q) l :
  v_map2 f (map g l) (map h l) = map (fun i => f (g i) (h i)) l.
Proof.
  unfold v_map2. induction l as [|x l IH]; [reflexivity|]. cbn [map combine fst snd]. f_equal. exact IH.
Qed.

Lemma v_scale_map c (g : nat -> Q) l : v_scale c (map g l) = map (fun i => c * g i) l.
Proof. unfold v_scale. apply map_map. Qed.

Lemma v_div_map c (g : nat -> Q) l : v_div (map g l) c = map (fun i => g i / c) l.
Proof. unfold v_div. apply map_map. Qed.

Lemma map_seq_repeat (x : Q) n : forall i, repeat x n = map (fun _ => x) (seq i n).
Proof. induction n as [|n IH]; intros i; [reflexivity|]. cbn. f_equal. apply IH. Qed.

Lemma reduce_weigh f l : reduce_sum (v_mul l (map f (seq 0 (length l)))) == weigh f 0 l.
Proof. rewrite weigh_seq. reflexivity. Qed.

Definition up (a : Q) (i : nat) : Q := a + of_nat i * 1.
Definition down (a : Q) (i : nat) : Q := a + of_nat i * (-1).

Lemma factors n : num_terms_and_factors n =
  let s := of_nat n in
  let pairs := s * (s - 1) / 2 in
  let triplets := pairs * (s - 2) / 3 in
  let quadruplets := triplets * (s - 3) / 4 in
  Terms s pairs triplets quadruplets
    (map (fun _ => 1 / (if Nat.ltb 0 n then s else 1)) (seq 0 n))
    (map (fun i => (up 0 i - down (s - 1) i) / (if Nat.ltb 1 n then pairs * 2 else 1)) (seq 0 n))
    (map (fun i => (up 0 i * up (-1) i - 4 * (up 0 i * down (s - 1) i)
                    + down (s - 1) i * down (s - 2) i)
                   / (if Nat.ltb 2 n then triplets * 6 else 1)) (seq 0 n))
    (map (fun i => (up 0 i * up (-1) i * up (-2) i - 9 * (up 0 i * up (-1) i * down (s - 1) i)
                    + 9 * (up 0 i * down (s - 1) i * down (s - 2) i)
                    - down (s - 1) i * down (s - 2) i * down (s - 3) i)
                   / (if Nat.ltb 3 n then quadruplets * 24 else 1)) (seq 0 n)).
Proof.
  unfold num_terms_and_factors.
  rewrite (tf_range_count 0 (of_nat n) 1 n) by field.
  rewrite (tf_range_count (-1) (of_nat n - 1) 1 n) by field.
  rewrite (tf_range_count (-2) (of_nat n - 2) 1 n) by field.
  rewrite (tf_range_count (of_nat n - 1) (-1) (-1) n) by field.
  rewrite (tf_range_count (of_nat n - 2) (-2) (-1) n) by field.
  rewrite (tf_range_count (of_nat n - 3) (-3) (-1) n) by field.
  unfold v_mul, v_sub, v_add.
  rewrite (map_seq_repeat 1 n 0).
  repeat (rewrite v_map2_map || rewrite v_scale_map || rewrite v_div_map).
  reflexivity.
Qed.

Lemma up_at a i : up a i == a + of_nat i.
Proof. unfold up. ring. Qed.

Lemma down_at n a i : (i < n)%nat -> down (of_nat n - a) i == of_nat (n - 1 - i) + 1 - a.
Proof.
  intros H. unfold down. rewrite of_nat_sub by lia. rewrite of_nat_sub by lia.
  change (of_nat 1) with 1. ring.
Qed.

Lemma weigh_div f c l i : weigh (fun k => f k / c) i l == weigh f i l / c.
Proof.
  unfold Qdiv. rewrite (weigh_ext _ (fun k => / c * f k)) by (intros; ring).
  rewrite weigh_scale. ring.
Qed.

Lemma number_of_subsets r (l : list Q) : number (subsets r l) = of_nat (choose (length l) r).
Proof. unfold number, of_nat. now rewrite subsets_length. Qed.

Lemma choose_large n : forall r, (n < r)%nat -> choose n r = 0%nat.
Proof.
  induction n as [|n IH]; intros [|r] H; try lia; [reflexivity|].
  cbn [choose]. rewrite !IH by lia. reflexivity.
Qed.

Lemma choose_small n : forall r, (r <= n)%nat -> (0 < choose n r)%nat.
Proof.
  induction n as [|n IH]; intros [|r] H; try lia; cbn [choose]; try lia.
  pose proof (IH r ltac:(lia)). lia.
Qed.

Lemma no_contributions r l : (length l < r)%nat -> sum_contributions r l == 0.
Proof.
  intros H. unfold sum_contributions.
  destruct (subsets r l) as [|s ss] eqn:E; [reflexivity|].
  pose proof (subsets_length l r) as L. rewrite E, choose_large in L by exact H. discriminate.
Qed.

Lemma sum_contributions_sort r l : sum_contributions r (tf_sort l) == sum_contributions r l.
Proof.
  apply subsets_perm; [apply Permutation_sym, tf_sort_perm|exact contribution_perm].
Qed.

Lemma tf_sort_length l : length (tf_sort l) = length l.
Proof. symmetry. apply Permutation_length, tf_sort_perm. Qed.

(** A moment with its count: what the code keeps of a batch. *)
Definition keeps (r : nat) (l : list Q) (count moment : Q) : Prop :=
  count == of_nat (choose (length l) r)
  /\ moment * count == sum_contributions r l
  /\ (count == 0 -> moment == 0).

Lemma keeps_by r l count total d K :
  ~ K == 0 ->
  count == of_nat (choose (length l) r) ->
  total == K * sum_contributions r l ->
  d == (if Nat.ltb (r - 1) (length l) then count * K else 1) -> (0 < r)%nat ->
  keeps r l count (total / d).
Proof.
  intros HK Hc Ht Hd Hr. split; [exact Hc|]. destruct (Nat.ltb_spec (r - 1) (length l)) as [H|H].
  - assert (P : ~ count == 0).
    { rewrite Hc. intros E. apply of_nat_zero in E.
      pose proof (choose_small (length l) r ltac:(lia)). lia. }
    split; [|intros E; contradiction]. rewrite Ht, Hd. field. split; assumption.
  - assert (Z : sum_contributions r l == 0) by (apply no_contributions; lia).
    rewrite Hd, Ht, Z. split; [|intros _]; field.
Qed.

Lemma choose_3' n : of_nat (choose n 3) == of_nat n * (of_nat n - 1) / 2 * (of_nat n - 2) / 3.
Proof. rewrite choose_3. field. Qed.

Lemma choose_4' n : of_nat (choose n 4)
  == of_nat n * (of_nat n - 1) / 2 * (of_nat n - 2) / 3 * (of_nat n - 3) / 4.
Proof. rewrite choose_4. field. Qed.

Lemma column_keeps l :
  let m := column_moments (num_terms_and_factors (length l)) l in
  keeps 1 l (count_l1 m) (l1 m) /\ keeps 2 l (count_l2 m) (l2 m)
  /\ keeps 3 l (count_l3 m) (l3 m) /\ keeps 4 l (count_l4 m) (l4 m).
Proof.
  intros m. subst m. rewrite factors.
  set (n := length l). unfold column_moments.
  cbn [count_l1 count_l2 count_l3 count_l4 l1 l2 l3 l4
       current_samples current_pairs current_triplets current_quadruplets
       l1_factors l2_factors l3_factors l4_factors].
  set (x := tf_sort l).
  assert (Hn : n = length x) by (unfold n, x; now rewrite tf_sort_length).
  assert (Hs : StronglySorted Qle x) by apply tf_sort_sorted.
  assert (Hk : forall r c v, keeps r x c v -> keeps r l c v).
  { unfold keeps, x. intros r c v. rewrite tf_sort_length. intros (A & B & C).
    rewrite sum_contributions_sort in B. auto. }
  assert (Hd : forall r c f d, keeps r x c (weigh f 0 x / d) ->
    keeps r l c (reduce_sum (v_mul x (map (fun i => f i / d) (seq 0 n))))).
  { intros r c f d (A & B & C). apply Hk.
    assert (E : reduce_sum (v_mul x (map (fun i => f i / d) (seq 0 n))) == weigh f 0 x / d).
    { rewrite Hn, reduce_weigh. apply weigh_div. }
    unfold keeps. rewrite E. auto. }
  split; [|split; [|split]]; apply Hd.
  - refine (keeps_by 1 x _ _ _ 1 _ _ _ _ _).
    + discriminate.
    + rewrite <- Hn, choose_1. reflexivity.
    + rewrite sorted_1 by exact Hs. ring.
    + rewrite <- Hn. cbn [Nat.sub]. destruct (Nat.ltb 0 n); [ring|reflexivity].
    + lia.
  - refine (keeps_by 2 x _ _ _ 2 _ _ _ _ _).
    + discriminate.
    + rewrite <- Hn, choose_2. reflexivity.
    + rewrite sorted_2 by exact Hs. rewrite <- weigh_scale. apply weigh_ext. intros i Hi.
      rewrite <- Hn in *. rewrite up_at, (down_at n 1 i) by lia. unfold weight.
      rewrite !choose_1, !choose_0. change (of_nat 1) with 1. field.
    + rewrite <- Hn. cbn [Nat.sub]. destruct (Nat.ltb 1 n); reflexivity.
    + lia.
  - refine (keeps_by 3 x _ _ _ 6 _ _ _ _ _).
    + discriminate.
    + rewrite <- Hn, choose_3'. reflexivity.
    + rewrite sorted_3 by exact Hs. rewrite <- weigh_scale. apply weigh_ext. intros i Hi.
      rewrite <- Hn in *. rewrite !up_at, (down_at n 1 i), (down_at n 2 i) by lia. unfold weight.
      rewrite !choose_2, !choose_1, !choose_0. change (of_nat 1) with 1. field.
    + rewrite <- Hn. cbn [Nat.sub]. destruct (Nat.ltb 2 n); reflexivity.
    + lia.
  - refine (keeps_by 4 x _ _ _ 24 _ _ _ _ _).
    + discriminate.
    + rewrite <- Hn, choose_4'. reflexivity.
    + rewrite sorted_4 by exact Hs. rewrite <- weigh_scale. apply weigh_ext. intros i Hi.
      rewrite <- Hn in *. rewrite !up_at, (down_at n 1 i), (down_at n 2 i), (down_at n 3 i) by lia.
      unfold weight. rewrite !choose_3, !choose_2, !choose_1, !choose_0. change (of_nat 1) with 1. field.
    + rewrite <- Hn. cbn [Nat.sub]. destruct (Nat.ltb 3 n); reflexivity.
    + lia.
Qed.
