(** Proofs about sparse batches. *)
From Coq Require Import String List ZArith QArith Bool Arith Lia Sorting.Sorted Permutation.
From Verif Require Import SortModel SortProofs MiscModel SparseModel SparseSpec.
Import ListNotations.
Open Scope Z_scope.
Open Scope list_scope.
Local Notation length := List.length.

(** ** Blocks: a sorted list of ids is a concatenation of constant blocks *)
Lemma range_S n : range (Z.of_nat (S n)) = range (Z.of_nat n) ++ [Z.of_nat n].
Proof. unfold range. rewrite !Nat2Z.id, seq_S, map_app. reflexivity. Qed.
Lemma range_nat n : range (Z.of_nat n) = map Z.of_nat (seq 0 n).
Proof. unfold range. now rewrite Nat2Z.id. Qed.
Lemma range_length n : length (range n) = Z.to_nat n.
Proof. unfold range. now rewrite map_length, seq_length. Qed.

Lemma filter_all {A} (p : A -> bool) l : (forall x, In x l -> p x = true) -> filter p l = l.
Proof. induction l as [|x l IH]; intros H; cbn; auto. rewrite (H x (or_introl eq_refl)), IH; auto. intros y Hy. apply H. now right. Qed.
Lemma filter_none {A} (p : A -> bool) l : (forall x, In x l -> p x = false) -> filter p l = [].
Proof. induction l as [|x l IH]; intros H; cbn; auto. rewrite (H x (or_introl eq_refl)). apply IH. intros y Hy. apply H. now right. Qed.

Section blocks.
  Context {E : Type} (key : E -> Z).
  Definition le_key a b := key a <= key b.
  Definition block (entries : list E) (k : Z) : list E := filter (fun e => key e =? k) entries.

  Lemma sorted_split entries k : StronglySorted le_key entries ->
    entries = filter (fun e => key e <? k) entries ++ filter (fun e => negb (key e <? k)) entries.
  Proof.
    induction 1 as [|e l Hs IH Hf]; cbn; [reflexivity|]. destruct (key e <? k) eqn:He; cbn.
    - now rewrite <- IH.
    - rewrite (filter_none (fun e => key e <? k)), (filter_all (fun e => negb (key e <? k))); auto; rewrite Forall_forall in Hf; intros x Hx;
        specialize (Hf x Hx); unfold le_key in Hf; apply Z.ltb_ge in He.
      + apply negb_true_iff, Z.ltb_ge. lia.
      + apply Z.ltb_ge. lia.
  Qed.
  Lemma filter_sorted p entries : StronglySorted le_key entries -> StronglySorted le_key (filter p entries).
  Proof.
    induction 1 as [|e l Hs IH Hf]; cbn; [constructor|]. destruct (p e); auto. constructor; auto.
    rewrite Forall_forall in *. intros x Hx. apply Hf. now apply filter_In in Hx.
  Qed.
  Lemma blocks_concat n : forall entries, StronglySorted le_key entries -> Forall (fun e => 0 <= key e < Z.of_nat n) entries ->
    concat (map (block entries) (map Z.of_nat (seq 0 n))) = entries.
  Proof.
    induction n as [|n IH]; intros entries Hs Hr.
    - destruct entries as [|e l]; [reflexivity|]. inversion Hr; subst. lia.
    - rewrite seq_S, map_app, map_app, concat_app. cbn [plus map concat app].
      rewrite (sorted_split entries (Z.of_nat n) Hs) at 3. rewrite app_nil_r. f_equal.
      + rewrite <- (IH (filter (fun e => key e <? Z.of_nat n) entries)) at 1.
        * f_equal. apply map_ext_in. intros k Hk. apply in_map_iff in Hk as [m [<- Hm]]. apply in_seq in Hm.
          unfold block. clear IH Hs Hr. induction entries as [|e l IHl]; cbn; auto.
          destruct (key e <? Z.of_nat n) eqn:H1; cbn; destruct (key e =? Z.of_nat m) eqn:H2; auto.
          -- now f_equal.
          -- apply Z.eqb_eq in H2. apply Z.ltb_ge in H1. lia.
        * now apply filter_sorted.
        * apply Forall_forall. intros x Hx. apply filter_In in Hx as [Hx Hl]. rewrite Forall_forall in Hr. specialize (Hr x Hx).
          apply Z.ltb_lt in Hl. lia.
      + unfold block. apply filter_ext_in. intros x Hx. rewrite Forall_forall in Hr. specialize (Hr x Hx).
        destruct (key x =? Z.of_nat n) eqn:H1, (key x <? Z.of_nat n) eqn:H2; cbn; auto;
          [apply Z.eqb_eq in H1; apply Z.ltb_lt in H2|apply Z.eqb_neq in H1; apply Z.ltb_ge in H2]; lia.
  Qed.
End blocks.

(** The entries of a tensor. *)
Definition entries {A} (t : sparse A) := combine (indices t) (values t).
Definition entry_row {A} (e : (Z * Z) * A) : Z := fst (fst e).

Lemma combine_fst {A B} : forall (l : list A) (l' : list B), length l = length l' -> map fst (combine l l') = l.
Proof. induction l as [|a l IH]; destruct l' as [|b l']; cbn; intros H; try discriminate; auto. f_equal. apply IH. now injection H. Qed.
Lemma combine_snd {A B} : forall (l : list A) (l' : list B), length l = length l' -> map snd (combine l l') = l'.
Proof. induction l as [|a l IH]; destruct l' as [|b l']; cbn; intros H; try discriminate; auto. f_equal. apply IH. now injection H. Qed.

Lemma entries_sorted {A} (t : sparse A) : in_shape t -> row_major t -> StronglySorted (le_key entry_row) (entries t).
Proof.
  intros [Hl _] Hm. unfold entries, row_major in *. destruct t as [ix vs sh]. cbn in *. clear sh.
  revert vs Hl. induction ix as [|i ix IH]; intros [|v vs] Hl; cbn; try constructor.
  - apply IH; [|now injection Hl]. intros a b x y Hab Ha Hb. apply (Hm (S a) (S b)); auto. lia.
  - apply Forall_forall. intros [j w] Hin. unfold le_key, entry_row. cbn. apply in_combine_l in Hin.
    apply In_nth_error in Hin as [k Hk]. apply (Hm 0%nat (S k) i j); auto. lia.
Qed.

Lemma concat_rows {A} (t : sparse A) : in_shape t -> row_major t -> concat (rows t) = values t.
Proof.
  intros Hi Hm. pose proof (entries_sorted t Hi Hm) as Hs. destruct Hi as [Hl [Hr Hn]].
  assert (Hb := blocks_concat entry_row (Z.to_nat (fst (dense_shape t))) (entries t) Hs).
  rewrite <- (combine_snd (indices t) (values t) Hl). unfold entries in Hb. rewrite <- Hb at 1.
  - rewrite concat_map. unfold rows. rewrite !map_map. reflexivity.
  - apply Forall_forall. intros [i v] Hin. apply in_combine_l in Hin. rewrite Forall_forall in Hr.
    specialize (Hr i Hin). unfold entry_row. cbn. rewrite Z2Nat.id; lia.
Qed.

(** Row ids of a list of rows. *)
Fixpoint row_ids_from {A} (k : nat) (rs : list (list A)) : list Z :=
  match rs with [] => [] | r :: rs' => repeat (Z.of_nat k) (length r) ++ row_ids_from (S k) rs' end.

Lemma row_ids {A} (t : sparse A) : in_shape t -> row_major t -> map fst (indices t) = row_ids_from 0 (rows t).
Proof.
  intros Hi Hm. pose proof (entries_sorted t Hi Hm) as Hs. destruct Hi as [Hl [Hr Hn]].
  assert (Hb := blocks_concat entry_row (Z.to_nat (fst (dense_shape t))) (entries t) Hs).
  rewrite <- (combine_fst (indices t) (values t) Hl) at 1. unfold entries in Hb. rewrite <- Hb at 1.
  - rewrite map_map, concat_map. unfold rows. rewrite !map_map.
    clear Hb. generalize 0%nat as k. generalize (Z.to_nat (fst (dense_shape t))) as n. induction n as [|n IH]; intros k; cbn [seq map concat row_ids_from]; auto.
    f_equal; [|apply IH]. unfold row, block, entry_row. rewrite map_length.
    set (l := combine (indices t) (values t)). clearbody l. clear. induction l as [|e l IH]; cbn; auto.
    destruct (fst (fst e) =? Z.of_nat k) eqn:He; cbn; auto. f_equal; auto. now apply Z.eqb_eq.
  - apply Forall_forall. intros [i v] Hin. apply in_combine_l in Hin. rewrite Forall_forall in Hr.
    specialize (Hr i Hin). unfold entry_row. cbn. rewrite Z2Nat.id; lia.
Qed.
Lemma rows_length {A} (t : sparse A) : length (rows t) = Z.to_nat (fst (dense_shape t)).
Proof. unfold rows. now rewrite map_length, seq_length. Qed.

(** ** segment_indices *)
Lemma sorted_ids_forall b ids : sorted_ids b ids = true -> Forall (fun i => b <= i) ids /\ StronglySorted Z.le ids.
Proof.
  revert b. induction ids as [|i ids IH]; cbn; intros b H; [split; constructor|].
  apply andb_true_iff in H as [H1 H2]. apply Z.leb_le in H1. destruct (IH i H2) as [Hf Hs].
  split; constructor; auto. eapply Forall_impl; [|exact Hf]. cbn. lia.
Qed.
Lemma sorted_ids_true b ids : Forall (fun i => b <= i) ids -> StronglySorted Z.le ids -> sorted_ids b ids = true.
Proof.
  revert b. induction ids as [|i ids IH]; intros b Hf Hs; cbn; auto. inversion Hf; inversion Hs; subst.
  apply andb_true_iff. split; [now apply Z.leb_le|]. now apply IH.
Qed.

Definition count (k : Z) (ids : list Z) : Z := Z.of_nat (length (filter (Z.eqb k) ids)).
Definition count_below (k : Z) (ids : list Z) : Z := Z.of_nat (length (filter (fun i => i <? k) ids)).

Lemma segment_sum_ones ids k :
  z_total (map snd (filter (fun e => fst e =? k) (combine ids (map (fun _ => 1) ids)))) = count k ids.
Proof.
  unfold count. induction ids as [|i ids IH]; [reflexivity|]. cbn [map combine filter fst]. rewrite (Z.eqb_sym k i).
  destruct (i =? k); cbn [map snd length z_total fold_right]; fold (z_total); rewrite ?Nat2Z.inj_succ, <- IH; unfold z_total; lia.
Qed.
Lemma nth_cumsum (f : Z -> Z) n : forall acc k, (k <= n)%nat ->
  forall s, nth_error (acc :: cumsum_from acc (map f (map Z.of_nat (seq s n)))) k =
  Some (acc + z_total (map f (map Z.of_nat (seq s k)))).
Proof.
  induction n as [|n IH]; intros acc k Hk s.
  - replace k with 0%nat by lia. cbn. f_equal. lia.
  - destruct k as [|k]; [cbn; f_equal; lia|]. cbn [nth_error seq map cumsum_from].
    specialize (IH (acc + f (Z.of_nat s)) k ltac:(lia) (S s)). cbn [nth_error] in IH. rewrite IH. f_equal.
    unfold z_total. cbn [fold_right]. lia.
Qed.
Lemma total_counts ids n : Forall (fun i => 0 <= i) ids ->
  z_total (map (fun k => count k ids) (map Z.of_nat (seq 0 n))) = count_below (Z.of_nat n) ids.
Proof.
  intros Hp. induction n as [|n IH].
  - cbn. unfold count_below. rewrite filter_none; auto. intros x Hx. rewrite Forall_forall in Hp. apply Z.ltb_ge. cbn. auto.
  - assert (Htot : forall l1 l2, z_total (l1 ++ l2) = z_total l1 + z_total l2)
      by (unfold z_total; induction l1 as [|x l1 IHl]; intros l2; cbn [app fold_right]; [lia|]; rewrite IHl; lia).
    rewrite seq_S, !map_app, Htot, IH. cbn [map z_total fold_right plus]. clear IH.
    unfold count_below, count. induction ids as [|i ids IH]; cbn -[Z.of_nat]; [reflexivity|]. inversion Hp; subst.
    specialize (IH H2). destruct (i <? Z.of_nat n) eqn:H3, (Z.of_nat n =? i) eqn:H4, (i <? Z.of_nat (S n)) eqn:H5;
      rewrite ?Z.ltb_lt, ?Z.ltb_ge, ?Z.eqb_eq, ?Z.eqb_neq in *; cbn [length]; lia.
Qed.
Lemma last_max ids d : StronglySorted Z.le ids -> Forall (fun i => i <= last ids d) ids.
Proof.
  induction 1 as [|i ids Hs IH Hf]; [constructor|]. destruct ids as [|j ids]; [cbn; constructor; [lia|constructor]|].
  change (last (i :: j :: ids) d) with (last (j :: ids) d). constructor; auto.
  inversion Hf; inversion IH; subst. lia.
Qed.
Lemma gather_map {A} (params : list A) (f : Z -> A) ids :
  (forall i, In i ids -> 0 <= i /\ nth_error params (Z.to_nat i) = Some (f i)) -> gather params ids = Some (map f ids).
Proof.
  induction ids as [|i ids IH]; intros H; cbn; auto. destruct (H i (or_introl eq_refl)) as [H0 Hn].
  destruct (i <? 0) eqn:Hi; [apply Z.ltb_lt in Hi; lia|]. rewrite Hn, IH; auto. intros j Hj. apply H. now right.
Qed.
Lemma segment_indices_starts ids : Forall (fun i => 0 <= i) ids -> StronglySorted Z.le ids ->
  segment_indices ids = Some (map2 Z.sub (range (Z.of_nat (length ids))) (map (fun i => count_below i ids) ids)).
Proof.
  intros Hp Hs. unfold segment_indices, segment_sum. rewrite (sorted_ids_true 0 ids Hp Hs).
  rewrite (gather_map _ (fun i => count_below i ids)); auto.
  intros i Hi. rewrite Forall_forall in Hp. pose proof (Hp i Hi) as Hi0. split; auto.
  erewrite map_ext; [|intros k; apply segment_sum_ones].
  assert (Hl := last_max ids (-1) Hs). rewrite Forall_forall in Hl. specialize (Hl i Hi).
  unfold range. rewrite (nth_cumsum (fun k => count k ids)); [|lia].
  f_equal. rewrite Z.add_0_l, total_counts; [|now apply Forall_forall]. now rewrite Z2Nat.id.
Qed.

(** Position p holds id i: p minus the number of smaller ids is the number of earlier equal ids. *)
Lemma sorted_prefix_counts ids p i : StronglySorted Z.le ids -> nth_error ids p = Some i ->
  Z.of_nat p - count_below i ids = count i (firstn p ids).
Proof.
  intros Hs. revert p. induction Hs as [|j ids Hs IH Hf]; intros [|p] Hn; try discriminate.
  - injection Hn as ->. cbn [firstn]. unfold count_below, count. cbn. rewrite Z.ltb_irrefl.
    rewrite filter_none; [cbn; lia|]. intros x Hx. rewrite Forall_forall in Hf. apply Z.ltb_ge. auto.
  - cbn in Hn. specialize (IH p Hn). unfold count_below, count in *. cbn [filter firstn].
    assert (Hji : j <= i) by (rewrite Forall_forall in Hf; apply Hf; eapply nth_error_In; eauto).
    destruct (j <? i) eqn:H1, (i =? j) eqn:H2; rewrite ?Z.ltb_lt, ?Z.ltb_ge, ?Z.eqb_eq, ?Z.eqb_neq in *; cbn [length]; try lia.
Qed.
Lemma nth_error_map2 {A B C} (f : A -> B -> C) : forall l1 l2 p x y,
  nth_error l1 p = Some x -> nth_error l2 p = Some y -> nth_error (map2 f l1 l2) p = Some (f x y).
Proof. induction l1 as [|a l1 IH]; intros [|b l2] [|p] x y; cbn; try discriminate; [congruence|]. apply IH. Qed.
Lemma map2_length {A B C} (f : A -> B -> C) : forall l1 l2, length l1 = length l2 -> length (map2 f l1 l2) = length l1.
Proof. induction l1 as [|a l1 IH]; intros [|b l2]; cbn; intros H; try discriminate; auto. Qed.
Lemma range_nth n p : (p < n)%nat -> nth_error (range (Z.of_nat n)) p = Some (Z.of_nat p).
Proof.
  intros H. rewrite range_nat. rewrite nth_error_map.
  rewrite (nth_error_nth' _ 0%nat) by now rewrite seq_length. cbn. now rewrite seq_nth.
Qed.
Lemma segment_indices_spec ids :
  (forall i j a b, (i < j)%nat -> nth_error ids i = Some a -> nth_error ids j = Some b -> a <= b) ->
  Forall (fun i => 0 <= i) ids ->
  exists out, segment_indices ids = Some out /\ length out = length ids /\
    forall p i, nth_error ids p = Some i -> nth_error out p = Some (Z.of_nat (length (filter (Z.eqb i) (firstn p ids)))).
Proof.
  intros Hm Hp.
  assert (Hs : StronglySorted Z.le ids).
  { clear Hp. induction ids as [|i ids IH]; constructor.
    - apply IH. intros a b x y Hab Ha Hb. apply (Hm (S a) (S b)); auto. lia.
    - apply Forall_forall. intros j Hj. apply In_nth_error in Hj as [k Hk]. apply (Hm 0%nat (S k)); auto. lia. }
  rewrite segment_indices_starts by auto. eexists. split; [reflexivity|].
  split.
  - rewrite map2_length; rewrite range_length, Nat2Z.id; auto. now rewrite map_length.
  - intros p i Hi. assert (Hlt : (p < length ids)%nat) by (apply nth_error_Some; congruence).
    erewrite nth_error_map2; [|now apply range_nth|rewrite nth_error_map, Hi; reflexivity].
    f_equal. now apply sorted_prefix_counts.
Qed.
Lemma segment_indices_unsorted ids out : segment_indices ids = Some out ->
  Forall (fun i => 0 <= i) ids /\ StronglySorted Z.le ids.
Proof.
  unfold segment_indices, segment_sum. destruct (sorted_ids 0 ids) eqn:H; [|discriminate]. intros _. now apply sorted_ids_forall.
Qed.

(** ** Left-aligned tensors *)
Definition columns_of {A} (rs : list (list A)) : list Z := flat_map (fun r => map Z.of_nat (seq 0 (length r))) rs.

Lemma row_ids_from_ge {A} (rs : list (list A)) k i : In i (row_ids_from k rs) -> Z.of_nat k <= i.
Proof.
  revert k. induction rs as [|r rs IH]; cbn [row_ids_from]; intros k H; [destruct H|].
  apply in_app_or in H as [H|H]; [apply repeat_spec in H; lia|]. apply IH in H. lia.
Qed.
Lemma row_ids_from_length {A} (rs : list (list A)) k : length (row_ids_from k rs) = length (concat rs).
Proof. revert k. induction rs as [|r rs IH]; cbn; intros k; auto. rewrite !app_length, repeat_length, IH. reflexivity. Qed.
Lemma row_ids_from_sorted {A} (rs : list (list A)) k : StronglySorted Z.le (row_ids_from k rs).
Proof.
  revert k. induction rs as [|r rs IH]; cbn; intros k; [constructor|].
  induction (length r) as [|n IHn]; cbn; auto. constructor; auto. apply Forall_forall. intros x Hx.
  apply in_app_or in Hx as [Hx|Hx]; [apply repeat_spec in Hx; lia|]. apply row_ids_from_ge in Hx. lia.
Qed.
Lemma row_ids_from_map {A B} (f : list A -> list B) (rs : list (list A)) : (forall r, length (f r) = length r) ->
  forall k, row_ids_from k (map f rs) = row_ids_from k rs.
Proof. intros H. induction rs as [|r rs IH]; intros k; cbn; auto. now rewrite H, IH. Qed.
Lemma columns_length {A} (rs : list (list A)) : length (columns_of rs) = length (concat rs).
Proof. induction rs as [|r rs IH]; cbn; auto. fold (columns_of rs). now rewrite !app_length, map_length, seq_length, IH. Qed.

Lemma count_repeat_ne (k i : Z) n : i <> k -> count i (repeat k n) = 0.
Proof. intros H. unfold count. rewrite filter_none; auto. intros x Hx. apply repeat_spec in Hx. subst. now apply Z.eqb_neq. Qed.
Lemma count_repeat_eq (k : Z) n : count k (repeat k n) = Z.of_nat n.
Proof. unfold count. rewrite filter_all, repeat_length; auto. intros x Hx. apply repeat_spec in Hx. subst. apply Z.eqb_refl. Qed.
Lemma count_app i l1 l2 : count i (l1 ++ l2) = count i l1 + count i l2.
Proof. unfold count. rewrite filter_app, app_length. lia. Qed.
Lemma firstn_repeat {A} (x : A) : forall n p, (p <= n)%nat -> firstn p (repeat x n) = repeat x p.
Proof. induction n as [|n IH]; intros [|p] H; cbn; auto; [lia|]. rewrite IH; auto. lia. Qed.

Lemma columns_counts {A} (rs : list (list A)) : forall k p i, nth_error (row_ids_from k rs) p = Some i ->
  nth_error (columns_of rs) p = Some (count i (firstn p (row_ids_from k rs))).
Proof.
  induction rs as [|r rs IH]; intros k p i; cbn [row_ids_from columns_of flat_map]; [destruct p; discriminate|].
  intros H. destruct (lt_dec p (length r)) as [Hp|Hp].
  - rewrite nth_error_app1 in H by now rewrite repeat_length. rewrite nth_error_app1 by now rewrite map_length, seq_length.
    apply nth_error_In in H as Hin. apply repeat_spec in Hin. subst i.
    rewrite firstn_app, repeat_length. replace (p - length r)%nat with 0%nat by lia. rewrite firstn_O, app_nil_r.
    rewrite firstn_repeat by lia. rewrite count_repeat_eq, nth_error_map, (nth_error_nth' _ 0%nat) by now rewrite seq_length.
    cbn. now rewrite seq_nth.
  - rewrite nth_error_app2 in H by (rewrite repeat_length; lia). rewrite nth_error_app2 by (rewrite map_length, seq_length; lia).
    rewrite repeat_length in H. rewrite map_length, seq_length. fold (columns_of rs). rewrite (IH (S k) _ i H).
    rewrite firstn_app, repeat_length, (firstn_all2 (repeat _ _)) by (rewrite repeat_length; lia). rewrite count_app, count_repeat_ne; [reflexivity|].
    apply nth_error_In in H. apply row_ids_from_ge in H. lia.
Qed.
Lemma nth_error_ext' {A} : forall (l1 l2 : list A), length l1 = length l2 ->
  (forall p x, (p < length l1)%nat -> nth_error l1 p = Some x -> nth_error l2 p = Some x) -> l1 = l2.
Proof.
  induction l1 as [|a l1 IH]; intros [|b l2] Hl H; cbn in Hl; try discriminate; auto.
  assert (Hb := H 0%nat a ltac:(cbn; lia) eq_refl). cbn in Hb. injection Hb as ->. f_equal.
  apply IH; [now injection Hl|]. intros p x Hp Hx. apply (H (S p) x); cbn; auto. lia.
Qed.
Lemma segment_rows {A} (rs : list (list A)) : segment_indices (row_ids_from 0 rs) = Some (columns_of rs).
Proof.
  destruct (segment_indices_spec (row_ids_from 0 rs)) as [out [Ho [Hl Hn]]].
  - intros i j a b Hij Ha Hb. pose proof (row_ids_from_sorted rs 0) as Hs. revert i j Hij Ha Hb.
    induction Hs as [|x l Hs IH Hf]; intros i j Hij Ha Hb; [destruct i; discriminate|].
    destruct i as [|i], j as [|j]; try lia; cbn in Ha, Hb.
    + injection Ha as ->. rewrite Forall_forall in Hf. apply Hf. eapply nth_error_In; eauto.
    + apply (IH i j); auto. lia.
  - apply Forall_forall. intros i Hi. apply row_ids_from_ge in Hi. lia.
  - rewrite Ho. f_equal. apply nth_error_ext'; [now rewrite Hl, row_ids_from_length, columns_length|].
    intros p x Hp Hx. rewrite Hl in Hp. destruct (nth_error (row_ids_from 0 rs) p) as [i|] eqn:Hi.
    + rewrite (columns_counts rs 0 p i Hi). rewrite (Hn p i Hi) in Hx. exact Hx.
    + apply nth_error_None in Hi. lia.
Qed.

Lemma combine_app {A B} : forall (l1 : list A) (l1' : list B) l2 l2', length l1 = length l1' ->
  combine (l1 ++ l2) (l1' ++ l2') = combine l1 l1' ++ combine l2 l2'.
Proof. induction l1 as [|a l1 IH]; intros [|b l1'] l2 l2' H; cbn in *; try discriminate; auto. f_equal. apply IH. now injection H. Qed.
Definition aligned_from {A} (k : nat) (rs : list (list A)) : list (Z * Z) :=
  concat (map (fun '(r, vs) => map (fun c => (Z.of_nat r, Z.of_nat c)) (seq 0 (@length A vs))) (combine (seq k (length rs)) rs)).
Lemma aligned_combine {A} (rs : list (list A)) : forall k, combine (row_ids_from k rs) (columns_of rs) = aligned_from k rs.
Proof.
  induction rs as [|r rs IH]; intros k; [reflexivity|]. cbn [row_ids_from columns_of flat_map]. unfold aligned_from. cbn [length seq combine map concat].
  rewrite combine_app by now rewrite repeat_length, map_length, seq_length. f_equal; [|apply IH].
  generalize 0%nat as s. induction (length r) as [|n IHn]; intros s; cbn; auto. f_equal. apply IHn.
Qed.
Lemma aligned_indices_combine {A} (rs : list (list A)) : combine (row_ids_from 0 rs) (columns_of rs) = aligned_indices rs.
Proof. apply aligned_combine. Qed.

Lemma columns_max {A} (rs : list (list A)) :
  max_or_minus_one (columns_of rs) + 1 = Z.of_nat (fold_right Nat.max 0%nat (map (@length A) rs)).
Proof.
  assert (Happ : forall l1 l2, max_or_minus_one (l1 ++ l2) = Z.max (max_or_minus_one l1) (max_or_minus_one l2)).
  { unfold max_or_minus_one. intros l1 l2. induction l1 as [|x l1 IH]; cbn [app fold_right].
    - induction l2; cbn [fold_right]; lia.
    - rewrite IH. lia. }
  assert (Hr : forall n, max_or_minus_one (map Z.of_nat (seq 0 n)) = Z.of_nat n - 1).
  { induction n as [|n IH]; [reflexivity|]. rewrite seq_S, map_app, Happ, IH. cbn [map plus].
    unfold max_or_minus_one. cbn [fold_right]. lia. }
  induction rs as [|r rs IH]; [reflexivity|]. cbn [columns_of flat_map map fold_right]. rewrite Happ, Hr.
  fold (columns_of rs). lia.
Qed.

(** ** Masks and stacks *)
Lemma stack_map {A} (f : nat -> nat -> A) ks : forall ps : list nat,
  stack (length ps) (map (fun k => map (f k) ps) ks) = map (fun p => map (fun k => f k p) ks) ps.
Proof.
  intros ps. unfold stack. induction ks as [|k ks IH]; cbn [map fold_right].
  - induction ps as [|p ps IHp]; cbn; auto. now f_equal.
  - rewrite IH. clear IH. induction ps as [|p ps IHp]; cbn; auto. now f_equal.
Qed.
Definition mask_row {A} (a : list A) (b : list bool) : list A := map fst (filter snd (combine a b)).
Lemma boolean_mask_map {A P} (f : P -> list A) (g : P -> list bool) ps :
  boolean_mask (map f ps) (map g ps) = flat_map (fun p => mask_row (f p) (g p)) ps.
Proof.
  unfold boolean_mask. induction ps as [|p ps IH]; cbn; auto. rewrite filter_app, map_app, IH. reflexivity.
Qed.
Lemma mask_row_map {A K} (a : K -> A) (b : K -> bool) ks :
  mask_row (map a ks) (map b ks) = flat_map (fun k => if b k then [a k] else []) ks.
Proof. unfold mask_row. induction ks as [|k ks IH]; cbn; auto. destruct (b k); cbn; now rewrite IH. Qed.
Lemma sliding_windows_nth {A} (vals : list A) m d :
  sliding_windows vals m d = map (fun i => map (fun p => nth (i + p) vals d) (seq 0 (length vals))) (seq 0 m).
Proof.
  unfold sliding_windows. apply map_ext_in. intros i Hi. apply in_seq in Hi.
  set (buf := vals ++ repeat d (m - 1)).
  assert (Hbuf : forall q, nth q buf d = nth q vals d).
  { intros q. unfold buf. destruct (lt_dec q (length vals)); [now apply app_nth1|].
    rewrite app_nth2 by lia. rewrite (nth_overflow vals) by lia.
    destruct (nth_in_or_default (q - length vals) (repeat d (m - 1)) d) as [H|H]; auto. now apply repeat_spec in H. }
  assert (Hlen : (length (skipn i buf) >= length vals)%nat).
  { rewrite skipn_length. unfold buf. rewrite app_length, repeat_length. lia. }
  apply (nth_ext _ _ d d).
  - rewrite firstn_length, map_length, seq_length. lia.
  - intros p Hp. rewrite firstn_length in Hp.
    rewrite (nth_indep (map _ _) d (nth (i + 0) vals d)) by (rewrite map_length, seq_length; lia).
    rewrite (map_nth (fun p => nth (i + p) vals d)), seq_nth by lia. cbn [plus].
    rewrite <- Hbuf. rewrite <- (firstn_skipn i buf) at 2.
    rewrite app_nth2; rewrite firstn_length; [|lia]. rewrite Nat.min_l.
    + replace (i + p - i)%nat with p by lia. rewrite <- (firstn_skipn (length vals) (skipn i buf)) at 2.
      rewrite app_nth1; auto. rewrite firstn_length. lia.
    + unfold buf. rewrite app_length, repeat_length. lia.
Qed.
Lemma map_seq_nth {A} (l : list A) d : map (fun p => nth p l d) (seq 0 (length l)) = l.
Proof.
  apply (nth_ext _ _ d d); [now rewrite map_length, seq_length|]. intros p Hp. rewrite map_length, seq_length in Hp.
  rewrite (nth_indep _ d (nth 0 l d)) by now rewrite map_length, seq_length.
  rewrite (map_nth (fun p => nth p l d)), seq_nth; auto.
Qed.

Lemma cumprod_ones (f : nat -> bool) : forall m s (acc : bool),
  map (fun x => x =? 1) (cumprod_from (if acc then 1 else 0) (map (fun x : bool => if x then 1 else 0) (map f (seq s m))))
  = map (fun j => acc && forallb f (seq s (S j - s))) (seq s m).
Proof.
  induction m as [|m IH]; intros s acc; [reflexivity|]. cbn [seq map cumprod_from]. f_equal.
  - replace (S s - s)%nat with 1%nat by lia. cbn. destruct acc, (f s); reflexivity.
  - assert (Hacc : (if acc then 1 else 0) * (if f s then 1 else 0) = if acc && f s then 1 else 0) by (destruct acc, (f s); reflexivity).
    rewrite Hacc, IH. apply map_ext_in. intros j Hj. apply in_seq in Hj.
    replace (S j - s)%nat with (S (S j - S s)) by lia. cbn [seq forallb]. now rewrite andb_assoc.
Qed.
Definition good (ids : list Z) (p k : nat) : bool :=
  forallb (fun i => nth (i + p) ids (-1) =? nth p ids (-1)) (seq 0 k).
Lemma valid_row_good ids p m :
  valid_row (nth p ids (-1)) (map (fun i => nth (i + p) ids (-1)) (seq 0 m)) = map (good ids p) (seq 1 m).
Proof.
  unfold valid_row. rewrite map_map.
  pose proof (cumprod_ones (fun i => nth (i + p) ids (-1) =? nth p ids (-1)) m 0 true) as H.
  rewrite map_map in H. cbn [andb] in H. rewrite H, <- seq_shift, map_map. apply map_ext. intros j. unfold good.
  now rewrite Nat.sub_0_r.
Qed.
Lemma skipn_seq : forall a s n, skipn a (seq s n) = seq (s + a) (n - a).
Proof.
  induction a as [|a IH]; intros s n; cbn [skipn]; [now rewrite Nat.add_0_r, Nat.sub_0_r|].
  destruct n as [|n]; [reflexivity|]. cbn [seq]. rewrite IH. f_equal; lia.
Qed.
Lemma firstn_seq : forall a s n, firstn a (seq s n) = seq s (Nat.min a n).
Proof. induction a as [|a IH]; intros s n; cbn; auto. destruct n; cbn; auto. now rewrite IH. Qed.
Lemma slice_map_seq {A} (f : nat -> A) n0 n1 : (1 <= n0)%nat -> (n0 <= n1)%nat ->
  slice (n0 - 1) n1 (map f (seq 1 (n1 + 1))) = map f (seq n0 (n1 + 1 - n0)).
Proof.
  intros H0 H1. unfold slice. rewrite firstn_map, skipn_map, firstn_seq, skipn_seq. f_equal. f_equal; lia.
Qed.

(** ** ngrams *)
Definition emit {X} (ks : list nat) (ids : list Z) (f : nat -> nat -> X) (p : nat) : list X :=
  flat_map (fun k => if good ids p k then [f p k] else []) ks.
Definition gram (sep : string) (vals : list string) (p k : nat) : string :=
  String.concat sep (map (fun i => nth (i + p) vals ""%string) (seq 0 k)).

Lemma map2_map {A B C P} (h : A -> B -> C) (f : P -> A) (g : P -> B) ps :
  map2 h (map f ps) (map g ps) = map (fun p => h (f p) (g p)) ps.
Proof. induction ps as [|p ps IH]; cbn; auto. now f_equal. Qed.
Lemma map_const_repeat {A} (x : A) : forall n s, map (fun _ : nat => x) (seq s n) = repeat x n.
Proof. induction n as [|n IH]; intros s; cbn; auto. f_equal. apply IH. Qed.

Lemma ngrams_positions t n0 n1 sep : (1 <= n0)%nat -> (n0 <= n1)%nat -> length (indices t) = length (values t) ->
  let ids := map fst (indices t) in
  let ks := seq n0 (n1 + 1 - n0) in
  let ps := seq 0 (length (values t)) in
  let batch := flat_map (emit ks ids (fun p _ => nth p ids (-1))) ps in
  ngrams t n0 n1 sep =
    match segment_indices batch with
    | None => None
    | Some inst => Some (Sparse (combine batch inst) (flat_map (emit ks ids (gram sep (values t))) ps)
                          (fst (dense_shape t), max_or_minus_one inst + 1))
    end.
Proof.
  intros H0 H1 Hl ids ks ps batch. unfold ngrams.
  destruct (n0 <? 1)%nat eqn:E0; [apply Nat.ltb_lt in E0; lia|]. destruct (n1 <? n0)%nat eqn:E1; [apply Nat.ltb_lt in E1; lia|].
  cbn [orb]. fold ids ks. set (vals := values t) in *.
  assert (Hids : length ids = length vals) by (unfold ids; now rewrite map_length).
  assert (Hps : length ps = length vals) by (unfold ps; now rewrite seq_length).
  assert (Hvalid : map (slice (n0 - 1) n1) (map2 valid_row ids (stack (length vals) (sliding_windows ids (n1 + 1) (-1))))
                   = map (fun p => map (good ids p) ks) ps).
  { rewrite sliding_windows_nth, Hids. fold ps. rewrite <- Hps at 1. rewrite (stack_map (fun i p => nth (i + p) ids (-1))).
    assert (Hid : ids = map (fun p => nth p ids (-1)) ps) by (unfold ps; rewrite <- Hids; symmetry; apply map_seq_nth).
    rewrite Hid at 1. rewrite map2_map, map_map. apply map_ext. intros p. rewrite valid_row_good. now apply slice_map_seq. }
  rewrite Hvalid.
  assert (Hgrams : stack (length vals) (map (fun k => string_join sep (length vals) (firstn k (sliding_windows vals (n1 + 1) ""%string))) ks)
                   = map (fun p => map (gram sep vals p) ks) ps).
  { rewrite <- Hps at 1. rewrite <- (stack_map (fun k p => gram sep vals p k)). f_equal. apply map_ext_in. intros k Hk.
    apply in_seq in Hk. unfold string_join. rewrite sliding_windows_nth, firstn_map, firstn_seq. fold ps.
    replace (Nat.min k (n1 + 1)) with k by lia. rewrite <- Hps, (stack_map (fun i p => nth (i + p) vals ""%string)), map_map.
    reflexivity. }
  rewrite Hgrams.
  assert (Hb : map (fun r => repeat r (n1 + 1 - n0)) ids = map (fun p => map (fun _ => nth p ids (-1)) ks) ps).
  { assert (Hid : ids = map (fun p => nth p ids (-1)) ps) by (unfold ps; rewrite <- Hids; symmetry; apply map_seq_nth).
    rewrite Hid at 1. rewrite map_map. apply map_ext. intros p. unfold ks. now rewrite map_const_repeat. }
  rewrite Hb, !boolean_mask_map.
  erewrite (flat_map_ext _ (emit ks ids (fun p _ => nth p ids (-1)))) by (intros p; apply mask_row_map).
  erewrite (flat_map_ext _ (emit ks ids (gram sep vals))) by (intros p; apply mask_row_map).
  reflexivity.
Qed.

(** One row at a time. *)
Lemma forallb_ext {A} (f g : A -> bool) l : (forall x, f x = g x) -> forallb f l = forallb g l.
Proof. intros H. induction l as [|x l IH]; cbn; auto. now rewrite H, IH. Qed.
Lemma nth_row_block (k : Z) L ids' q : nth q (repeat k L ++ ids') (-1) = if (q <? L)%nat then k else nth (q - L) ids' (-1).
Proof.
  destruct (q <? L)%nat eqn:H; [apply Nat.ltb_lt in H|apply Nat.ltb_ge in H].
  - rewrite app_nth1 by now rewrite repeat_length. rewrite (nth_indep _ _ k) by now rewrite repeat_length. apply nth_repeat.
  - rewrite app_nth2; rewrite repeat_length; auto.
Qed.
Lemma good_inside (k : Z) L ids' p j : (p < L)%nat -> (1 <= j)%nat -> nth 0 ids' (-1) <> k ->
  good (repeat k L ++ ids') p j = (p + j <=? L)%nat.
Proof.
  intros Hp Hj Hne. unfold good. rewrite nth_row_block. destruct (p <? L)%nat eqn:H; [|apply Nat.ltb_ge in H; lia].
  destruct (p + j <=? L)%nat eqn:Hle.
  - apply Nat.leb_le in Hle. apply forallb_forall. intros i Hi. apply in_seq in Hi. rewrite nth_row_block.
    destruct (i + p <? L)%nat eqn:H2; [apply Z.eqb_refl|apply Nat.ltb_ge in H2; lia].
  - apply Nat.leb_gt in Hle. destruct (forallb _ _) eqn:Hf; auto. exfalso. rewrite forallb_forall in Hf.
    specialize (Hf (L - p)%nat). rewrite nth_row_block in Hf. replace (L - p + p)%nat with L in Hf by lia.
    rewrite Nat.ltb_irrefl, Nat.sub_diag in Hf. assert (Hin : In (L - p)%nat (seq 0 j)) by (apply in_seq; lia).
    specialize (Hf Hin). apply Z.eqb_eq in Hf. contradiction.
Qed.
Lemma good_beyond (k : Z) L ids' p j : good (repeat k L ++ ids') (L + p) j = good ids' p j.
Proof.
  unfold good. apply forallb_ext. intros i. rewrite !nth_row_block.
  destruct (i + (L + p) <? L)%nat eqn:H; [apply Nat.ltb_lt in H; lia|].
  destruct (L + p <? L)%nat eqn:H2; [apply Nat.ltb_lt in H2; lia|].
  replace (i + (L + p) - L)%nat with (i + p)%nat by lia. now replace (L + p - L)%nat with p by lia.
Qed.
Lemma emit_rows {X} ks (h : nat -> list string -> nat -> nat -> X) (f : nat -> nat -> X) (rs : list (list string)) :
  (forall j, In j ks -> (1 <= j)%nat) -> forall k ids, ids = row_ids_from k rs ->
  (forall l1 r l2 p j, rs = l1 ++ r :: l2 -> (p < length r)%nat -> (p + j <= length r)%nat -> In j ks ->
     f (length (concat l1) + p)%nat j = h (k + length l1)%nat r p j) ->
  flat_map (emit ks ids f) (seq 0 (length (concat rs))) =
  concat (map (fun '(i, r) => flat_map (fun p => flat_map (fun j => if (p + j <=? length r)%nat then [h i r p j] else []) ks)
                                      (seq 0 (length r))) (combine (seq k (length rs)) rs)).
Proof.
  intros Hks. revert f. induction rs as [|r rs IH]; intros f k ids Hids Hf; [reflexivity|].
  cbn [concat length map seq combine row_ids_from] in *. rewrite app_length, seq_app, flat_map_app. f_equal.
  - rewrite !flat_map_concat_map. f_equal. apply map_ext_in. intros p Hp. apply in_seq in Hp. unfold emit.
    rewrite !flat_map_concat_map. f_equal. apply map_ext_in. intros j Hj. subst ids. rewrite good_inside; [|lia|now apply Hks|].
    + destruct (p + j <=? length r)%nat eqn:Hle; auto. apply Nat.leb_le in Hle. f_equal.
      specialize (Hf [] r rs p j eq_refl). cbn in Hf. rewrite Nat.add_0_r in Hf. apply Hf; auto; lia.
    + destruct (row_ids_from (S k) rs) as [|x l] eqn:Hr; cbn; [lia|]. intros ->.
      assert (Hin : In (Z.of_nat k) (row_ids_from (S k) rs)) by (rewrite Hr; now left). apply row_ids_from_ge in Hin. lia.
  - rewrite <- (IH (fun p j => f (length r + p)%nat j) (S k) _ eq_refl).
    + rewrite !flat_map_concat_map. f_equal. cbn [plus].
      assert (Hseq : seq (length r) (length (concat rs)) = map (fun p => (length r + p)%nat) (seq 0 (length (concat rs)))).
      { clear. generalize (length (concat rs)) as n, (length r) as L. intros n L.
        replace (seq L n) with (seq (L + 0) n) by (f_equal; lia). generalize 0%nat as q.
        induction n as [|n IHn]; intros q; cbn; auto. f_equal. now rewrite <- Nat.add_succ_r. }
      rewrite Hseq, map_map. apply map_ext. intros p. unfold emit. rewrite !flat_map_concat_map. f_equal. apply map_ext. intros j.
      subst ids. now rewrite good_beyond.
    + intros l1 r' l2 p j Hrs Hp Hpj Hj. specialize (Hf (r :: l1) r' l2 p j). cbn [app concat length] in Hf.
      rewrite app_length, <- Nat.add_assoc in Hf. rewrite Hf; auto; [|now rewrite Hrs]. f_equal. lia.
Qed.

Lemma nth_concat_rows {A} (l1 : list (list A)) r l2 q d : (q < length r)%nat ->
  nth (length (concat l1) + q) (concat (l1 ++ r :: l2)) d = nth q r d.
Proof.
  intros H. rewrite concat_app. cbn [concat]. rewrite app_nth2_plus. now apply app_nth1.
Qed.
Lemma firstn_skipn_nth {A} (l : list A) d : forall p k, (p + k <= length l)%nat ->
  map (fun i => nth (i + p) l d) (seq 0 k) = firstn k (skipn p l).
Proof.
  intros p k H. apply (nth_ext _ _ d d).
  - rewrite map_length, seq_length, firstn_length, skipn_length. lia.
  - intros q Hq. rewrite map_length, seq_length in Hq.
    rewrite (nth_indep _ d (nth (0 + p) l d)) by now rewrite map_length, seq_length.
    rewrite (map_nth (fun i => nth (i + p) l d)), seq_nth by lia. cbn [plus].
    rewrite <- (firstn_skipn p l) at 1. rewrite app_nth2; rewrite firstn_length; [|lia]. rewrite Nat.min_l by lia.
    replace (q + p - p)%nat with q by lia. rewrite <- (firstn_skipn k (skipn p l)) at 1. rewrite app_nth1; auto.
    rewrite firstn_length, skipn_length. lia.
Qed.

Lemma row_ids_nth {A} (rs : list (list A)) : forall k l1 r l2 p, rs = l1 ++ r :: l2 -> (p < length r)%nat ->
  nth (length (concat l1) + p) (row_ids_from k rs) (-1) = Z.of_nat (k + length l1).
Proof.
  intros k l1. revert k rs. induction l1 as [|x l1 IH]; intros k rs r l2 p -> Hp; cbn [app concat length row_ids_from plus].
  - rewrite nth_row_block. destruct (p <? length r)%nat eqn:H; [|apply Nat.ltb_ge in H; lia]. f_equal. lia.
  - rewrite app_length, nth_row_block. destruct (_ <? length x)%nat eqn:H; [apply Nat.ltb_lt in H; lia|].
    replace (length x + length (concat l1) + p - length x)%nat with (length (concat l1) + p)%nat by lia.
    rewrite (IH (S k) _ r l2 p eq_refl Hp). lia.
Qed.

Lemma row_ids_windows (n0 n1 : nat) sep (rs : list (list string)) : forall k,
  concat (map (fun '(i, r) => flat_map (fun p => flat_map (fun j => if (p + j <=? length r)%nat then [Z.of_nat i] else [])
            (seq n0 (n1 + 1 - n0))) (seq 0 (@length string r))) (combine (seq k (length rs)) rs))
  = row_ids_from k (map (windows n0 n1 sep) rs).
Proof.
  assert (Hfm : forall {P X} (x : Z) (g1 : P -> list Z) (g2 : P -> list X) ps,
            (forall p, g1 p = repeat x (length (g2 p))) -> flat_map g1 ps = repeat x (length (flat_map g2 ps))).
  { intros P X x g1 g2 ps H. induction ps as [|p ps IH]; cbn; auto. now rewrite app_length, repeat_app, H, IH. }
  induction rs as [|r rs IH]; intros k; [reflexivity|]. cbn [length seq combine map concat row_ids_from]. rewrite IH. f_equal.
  unfold windows. apply Hfm. intros p. apply Hfm. intros j. destruct (_ <=? _)%nat; reflexivity.
Qed.

Lemma map_numbered {A B} (g : A -> B) (rs : list A) : forall k, map (fun '(_, r) => g r) (combine (seq k (length rs)) rs) = map g rs.
Proof. induction rs as [|r rs IH]; intros k; cbn; auto. f_equal. apply IH. Qed.
Lemma ngrams_rows t n0 n1 sep : in_shape t -> row_major t -> (1 <= n0)%nat -> (n0 <= n1)%nat ->
  ngrams t n0 n1 sep = Some (tensor_of_rows (map (windows n0 n1 sep) (rows t))).
Proof.
  intros Hi Hm H0 H1. rewrite ngrams_positions; auto; [|apply Hi]. cbv zeta.
  rewrite (row_ids t Hi Hm), <- (concat_rows t Hi Hm). set (rs := rows t). set (ks := seq n0 (n1 + 1 - n0)).
  assert (Hks : forall j, In j ks -> (1 <= j)%nat) by (intros j Hj; apply in_seq in Hj; lia).
  rewrite (emit_rows ks (fun i _ _ _ => Z.of_nat i) _ rs Hks 0 _ eq_refl).
  2:{ intros l1 r l2 p j Hrs Hp _ _. now rewrite (row_ids_nth rs 0 l1 r l2 p Hrs Hp). }
  rewrite (emit_rows ks (fun _ r p j => String.concat sep (firstn j (skipn p r))) _ rs Hks 0 _ eq_refl).
  2:{ intros l1 r l2 p j Hrs Hp Hpj _. unfold gram. f_equal. rewrite <- (firstn_skipn_nth r ""%string p j Hpj).
      apply map_ext_in. intros i Hin. apply in_seq in Hin. rewrite Hrs.
      replace (i + (length (concat l1) + p))%nat with (length (concat l1) + (i + p))%nat by lia. apply nth_concat_rows. lia. }
  unfold ks. rewrite (row_ids_windows n0 n1 sep rs 0). set (out := map (windows n0 n1 sep) rs). rewrite segment_rows. unfold tensor_of_rows.
  f_equal. f_equal.
  - apply aligned_indices_combine.
  - unfold out. f_equal. apply (map_numbered (windows n0 n1 sep)).
  - rewrite columns_max. f_equal. unfold out, rs. rewrite map_length, rows_length. destruct Hi as [_ [_ Hn]]. now rewrite Z2Nat.id.
Qed.
Lemma ngrams_invalid t n0 n1 sep : (n0 < 1)%nat \/ (n1 < n0)%nat -> ngrams t n0 n1 sep = None.
Proof.
  intros [H|H]; unfold ngrams; apply Nat.ltb_lt in H; rewrite H; [reflexivity|now rewrite orb_true_r].
Qed.
