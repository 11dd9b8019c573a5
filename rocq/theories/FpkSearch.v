(** The binary search of tf.searchsorted, on boundaries that need not be sorted. *)
From Coq Require Import List ZArith Arith Bool Lia.
From Flocq Require Import Core BinarySingleNaN.
From Verif Require Import IeeeModel FpkModel.
Import ListNotations.

Lemma half_lt n : (n <> 0 -> n / 2 < n)%nat.
Proof. intro H. apply Nat.div_lt; lia. Qed.

Lemma loop_spec b v fuel : forall first count, (count < fuel)%nat ->
  let r := upper_bound_loop fuel b v first count in
  (first <= r <= first + count)%nat /\
  (r = (first + count)%nat \/ Bltb v (nth r b nan32) = true) /\
  (r = first \/ Bltb v (nth (r - 1) b nan32) = false).
Proof.
  induction fuel as [|fuel IH]; intros first count H; [lia|]. cbn [upper_bound_loop].
  destruct (count =? 0)%nat eqn:E; [apply Nat.eqb_eq in E; cbv zeta; repeat split; auto; lia|].
  apply Nat.eqb_neq in E. pose proof (half_lt count E) as Hh. cbv zeta.
  destruct (Bltb v (nth (first + count / 2) b nan32)) eqn:C.
  - destruct (IH first (count / 2)%nat ltac:(lia)) as (A & B & C'). set (r := upper_bound_loop _ _ _ _ _) in *.
    split; [lia|]. split; [|exact C']. right. destruct B as [->|B]; assumption.
  - destruct (IH (S (first + count / 2)) (count - S (count / 2))%nat ltac:(lia)) as (A & B & C'). set (r := upper_bound_loop _ _ _ _ _) in *.
    split; [lia|]. split; [destruct B as [B|B]; [left; lia|right; exact B]|].
    right. destruct C' as [->|C']; [|exact C']. replace (S (first + count / 2) - 1)%nat with (first + count / 2)%nat by lia. exact C.
Qed.

(** If all boundaries of the first part are at or below the value, all of them are counted. *)
Lemma upper_bound_ge pre suf v : Forall (fun b => Bltb v b = false) pre -> (length pre <= upper_bound32 (pre ++ suf) v)%nat.
Proof.
  intro F. unfold upper_bound32. destruct (loop_spec (pre ++ suf) v (S (length (pre ++ suf))) 0 (length (pre ++ suf)) ltac:(lia)) as (A & B & _).
  set (r := upper_bound_loop _ _ _ _ _) in *. destruct (le_lt_dec (length pre) r) as [L|L]; [exact L|exfalso].
  destruct B as [B|B]; [rewrite B, app_length in L; lia|]. rewrite app_nth1 in B by exact L.
  rewrite Forall_forall in F. rewrite (F _ (nth_In _ _ L)) in B. discriminate.
Qed.

(** If all boundaries of the second part are above the value, none of them is counted. *)
Lemma upper_bound_le pre suf v : Forall (fun b => Bltb v b = true) suf -> (upper_bound32 (pre ++ suf) v <= length pre)%nat.
Proof.
  intro F. unfold upper_bound32. destruct (loop_spec (pre ++ suf) v (S (length (pre ++ suf))) 0 (length (pre ++ suf)) ltac:(lia)) as (A & _ & B).
  set (r := upper_bound_loop _ _ _ _ _) in *. destruct (le_lt_dec r (length pre)) as [L|L]; [exact L|exfalso].
  destruct B as [B|B]; [lia|]. rewrite app_length in A. rewrite app_nth2 in B by lia.
  rewrite Forall_forall in F. rewrite (F (nth (r - 1 - length pre) suf nan32)) in B; [discriminate|]. apply nth_In. lia.
Qed.

(** A greater value is not put before a smaller one, whatever the boundaries are. *)
Lemma loop_mono b v v' fuel : (forall y, Bltb v' y = true -> Bltb v y = true) ->
  forall first count, (count < fuel)%nat -> (upper_bound_loop fuel b v first count <= upper_bound_loop fuel b v' first count)%nat.
Proof.
  intro M. induction fuel as [|fuel IH]; intros first count H; [lia|]. cbn [upper_bound_loop].
  destruct (count =? 0)%nat eqn:E; [lia|]. apply Nat.eqb_neq in E. pose proof (half_lt count E) as Hh. cbv zeta.
  destruct (Bltb v' (nth (first + count / 2) b nan32)) eqn:C'; [rewrite (M _ C'); apply IH; lia|].
  destruct (Bltb v (nth (first + count / 2) b nan32)) eqn:C; [|apply IH; lia].
  pose proof (proj1 (loop_spec b v fuel first (count / 2) ltac:(lia))).
  pose proof (proj1 (loop_spec b v' fuel (S (first + count / 2)) (count - S (count / 2)) ltac:(lia))). lia.
Qed.
Lemma upper_bound_mono b v v' : (forall y, Bltb v' y = true -> Bltb v y = true) -> (upper_bound32 b v <= upper_bound32 b v')%nat.
Proof. intro M. apply loop_mono; [exact M|lia]. Qed.

(** The value is found only between boundaries, never beyond the last. *)
Lemma upper_bound_length b v : (upper_bound32 b v <= length b)%nat.
Proof. unfold upper_bound32. pose proof (proj1 (loop_spec b v (S (length b)) 0 (length b) ltac:(lia))). lia. Qed.
