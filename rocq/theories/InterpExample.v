(** Concrete boundaries for the theorems of [InterpProps]. *)
From Coq Require Import List ZArith Reals Bool Lra Lia.
From Flocq Require Import Core BinarySingleNaN.
From Verif Require Import IeeeModel IeeeSpec IeeeExample InterpModel InterpSpec.
Import ListNotations.
Local Open Scope R_scope.

Definition steps : list number := [NInt 0; NInt 10; NInt 10; NInt 30].

Lemma steps_usable : usable steps [NInt 4; NInt 17; NInt 10].
Proof.
  unfold usable. split; [|split; [|split]].
  - intros v V. simpl in V.
    assert (exists z, v = NInt z /\ (0 <= z <= 30)%Z) as (z & -> & Z1).
    { decompose [or] V; subst; try contradiction; eexists; split; try reflexivity; lia. }
    split; [exact Logic.I|]. cbn [val]. rewrite <- abs_IZR. apply IZR_le. lia.
  - left. intros v V. simpl in V. decompose [or] V; subst; try contradiction; eexists; reflexivity.
  - cbn [steps sorted]. repeat split; intros b B; simpl in B; decompose [or] B; subst; try contradiction; cbn [val]; lra.
  - simpl. lia.
Qed.

(** The largest single precision number, its opposite and 2^127. *)
Definition huge : f32 := mk32 16777215 104.
Definition minus_huge : f32 := mk32 (-16777215) 104.
