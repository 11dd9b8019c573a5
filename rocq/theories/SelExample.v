(** Sparse columns for the theorems of [SelProps]. *)
From Coq Require Import List ZArith Reals Bool Lia.
From Flocq Require Import Core BinarySingleNaN.
From Verif Require Import CombineModel NumericModel IeeeModel IeeeExample FsumExample SelModel SelSpec.
Import ListNotations.
Local Open Scope Z_scope.

(** Instances with three coordinates; coordinate 2 never has a value. *)
Definition readings : sched (sched (sbatch Z)) :=
  Merged (Bundle [Bundle [SBatch 3 [((0, 0)%nat, 7); ((1, 1)%nat, -4); ((1, 0)%nat, 12)]]])
    [Bundle [Bundle [SBatch 3 []; SBatch 3 [((0, 1)%nat, 100)]]; Bundle []]].

Definition readings32 : sched (sched (sbatch f32)) :=
  map_sched (map_sched (map_values int32)) readings.

(** No value at coordinate 0; 3 and 5 at coordinate 1. *)
Definition absent : sched (sched (sbatch Z)) :=
  Bundle [Bundle [SBatch 2 [((0, 1)%nat, 3); ((1, 1)%nat, 5)]]].

(** Infinity and 1 in one batch, and in two batches. *)
Definition pos_inf32 : f32 := B754_infinity false.
Definition inf_together : sched (sched (sbatch f32)) :=
  Bundle [Bundle [SBatch 1 [((0, 0)%nat, pos_inf32); ((1, 0)%nat, int32 1)]]].
Definition inf_apart : sched (sched (sbatch f32)) :=
  Bundle [Bundle [SBatch 1 [((0, 0)%nat, pos_inf32)]; SBatch 1 [((0, 0)%nat, int32 1)]]].

(** Batches as wide as their longest instance. *)
Definition ragged_widths : sched (sched (sbatch Z)) :=
  Bundle [Bundle [SBatch 2 [((0, 0)%nat, 1); ((0, 1)%nat, 2)]; SBatch 3 [((0, 2)%nat, 5)]]].

Lemma one_max (o : option (garr f32 * garr f32)) (v : SpecFloat.spec_float) :
  match o with Some (_, GVec [m]) => B2SF m = v | _ => False end ->
  exists mns m, o = Some (mns, GVec [m]) /\ B2SF m = v.
Proof. destruct o as [[a [m|[|m [|? ?]]]]|]; intro H; try contradiction. exists a, m. split; [reflexivity|exact H]. Qed.
