(** C74: apply_buckets_with_interpolation in the arithmetic of the machine. *)
From Coq Require Import List ZArith Reals Bool Lra Lia.
From Flocq Require Import Core BinarySingleNaN.
From Verif Require Import IeeeModel IeeeSpec IeeeExample InterpModel InterpSpec InterpTopProofs InterpExample.
Import ListNotations.
Local Open Scope R_scope.

(** Every value becomes a number of [0, 1]; what is below the first boundary becomes exactly 0, what is not
    below the last exactly 1. *)
Theorem c74_range :
  forall boundaries xs x, usable boundaries xs -> In x xs ->
  exists r, interpolate32 boundaries x = Some r /\ is_finite r = true /\ 0 <= B2R r <= 1
    /\ (forall a, nth_error boundaries 0 = Some a -> val x < val a -> B2R r = 0)
    /\ (forall b, nth_error boundaries (length boundaries - 1) = Some b -> val b <= val x -> B2R r = 1).
Proof. exact interp_ok. Qed.

(** Values keep their order, also across boundaries. *)
Theorem c74_order :
  forall boundaries xs x y, usable boundaries xs -> In x xs -> In y xs -> val x <= val y ->
  exists r s, interpolate32 boundaries x = Some r /\ interpolate32 boundaries y = Some s /\ B2R r <= B2R s.
Proof. exact interp_mono. Qed.

(** A value between boundaries k and k + 1, which differ in single precision, is within 2^-21 of its exact
    place, and boundary k itself becomes the single precision number nearest to k / (n - 1). *)
Theorem c74_accuracy :
  forall boundaries xs x k a b, usable boundaries xs -> In x xs -> consecutive k a b boundaries ->
  val a <= val x -> val x < val b ->
  exists r, interpolate32 boundaries x = Some r
    /\ (single (val a) < single (val b) ->
        Rabs (B2R r - (INR k + (single (val x) - single (val a)) / (single (val b) - single (val a)))
                      / (INR (length boundaries) - 1))
        <= / 2097152)
    /\ (single (val a) < single (val b) -> val x = val a ->
        B2R r = single (INR k / (INR (length boundaries) - 1))).
Proof. exact interp_inner. Qed.

Example c74_applies :
  usable steps [NInt 4; NInt 17; NInt 10] /\ consecutive 2 (NInt 10) (NInt 30) steps
  /\ val (NInt 10) <= val (NInt 17) < val (NInt 30)
  /\ single (val (NInt 10)) < single (val (NInt 30))
  /\ option_map B2SF (interpolate32 steps (NInt 17)) = Some (SpecFloat.S754_finite false 13142152 (-24)).
Proof.
  split; [exact steps_usable|]. split; [split; reflexivity|]. split; [cbn [val]; lra|].
  split; [cbn [val]; rewrite !int_exact by lia; lra | vm_compute; reflexivity].
Qed.

(** Not every finite value has a place: in a bucket wider than the largest number the quotient is NaN, which
    an assertion reports. *)
Theorem c74_finite_refuted :
  exists boundaries f, (forall b, In b boundaries -> exists g, b = NF32 g /\ is_finite g = true)
  /\ sorted boundaries /\ is_finite f = true /\ interpolate32 boundaries (NF32 f) = None.
Proof.
  exists [NF32 minus_huge; NF32 huge], (mk32 1 127). split; [|split; [|split]].
  - intros b [<- | [<- | []]]; eexists; split; reflexivity.
  - cbn [sorted]. split; [|split; [intros ? []|exact Logic.I]]. intros b [<- | []]. cbn [val].
    assert (Bleb minus_huge huge = true) as L by (vm_compute; reflexivity).
    rewrite (Bleb_correct 24 128) in L by reflexivity.
    destruct (Rle_bool_spec (B2R minus_huge) (B2R huge)); [assumption | discriminate L].
  - reflexivity.
  - vm_compute. reflexivity.
Qed.

Print Assumptions c74_range.
Print Assumptions c74_order.
Print Assumptions c74_accuracy.
Print Assumptions c74_finite_refuted.
