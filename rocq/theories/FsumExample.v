(** Columns of floats to add up. *)
From Coq Require Import List ZArith Reals Permutation Bool Lra Lia.
From Flocq Require Import Core BinarySingleNaN.
From Verif Require Import CombineModel IeeeModel IeeeSpec IeeeProofs IeeeExample FsumModel FsumSpec.
Import ListNotations.
Local Open Scope R_scope.

(** Adding from left to right. *)
Definition left_sum (l : list f32) : f32 := fold_left add32 l zero32.

Lemma left_sum_adds l : adds l (left_sum l).
Proof.
  induction l as [|x l IH] using rev_ind; [constructor|].
  unfold left_sum. rewrite fold_left_app. cbn. constructor; [exact IH|constructor].
Qed.

(** Two workers: batches 1 2 and 3; batch 4. *)
Definition int32 (z : Z) : f32 := cast_int z.
Definition small_column : sched (sched (list f32)) :=
  Merged (Bundle [Bundle [[int32 1; int32 2]; [int32 3]]]) [Bundle [Bundle [[int32 (-4)]]]].

(** 2^24 and two ones, batched in two ways. *)
Definition one_by_one : sched (sched (list f32)) :=
  Bundle [Bundle [[int32 16777216]; [int32 1]; [int32 1]]].
Definition ones_together : sched (sched (list f32)) :=
  Bundle [Bundle [[int32 16777216]; [int32 1; int32 1]]].

(** A large number, one, and the opposite of the large number. *)
Definition cancelling : sched (sched (list f32)) :=
  Bundle [Bundle [[int32 16777216; int32 1]; [int32 (-16777216)]]].

Lemma int32_ok z : (Z.abs z <= 2 ^ 24)%Z -> is_finite (int32 z) = true /\ B2R (int32 z) = IZR z.
Proof.
  intro H. unfold int32. destruct (small32 z H) as [E _]. split; [|exact E].
  apply cast_int_ok. rewrite <- abs_IZR, <- (pow2 126) by lia. apply IZR_le. lia.
Qed.
