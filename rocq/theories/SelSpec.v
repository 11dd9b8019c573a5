(** What elementwise minima, maxima and sums of a sparse column promise. *)
From Coq Require Import List ZArith Bool Reals.
From Flocq Require Import Core BinarySingleNaN.
From Verif Require Import CombineModel NumericModel IeeeModel SelModel.
Import ListNotations.

(** All values the dataset has at coordinate [j] of its instances. *)
Definition values_of {X} (j : nat) (batches : list (sbatch X)) : list X :=
  flat_map (fun b => flat_map (fun e => if Nat.eq_dec (snd (fst e)) j then [snd e] else []) (entries b))
    batches.

(** Every batch has instances with [n] coordinates, and [shape] says so or says nothing. *)
Definition instances {X} (n : nat) (shape : oshape) (batches : list (sbatch X)) : Prop :=
  Forall (fun b => width b = n) batches
  /\ (shape = KnownShape n \/ (shape = UnknownShape /\ batches <> [])).

(** The value is the greatest (the least) number of the list. *)
Definition greatest_of (m : f32) (l : list f32) : Prop :=
  is_finite m = true
  /\ (exists x, In x l /\ B2R x = B2R m) /\ forall x, In x l -> (B2R x <= B2R m)%R.
Definition least_of (m : f32) (l : list f32) : Prop :=
  is_finite m = true
  /\ (exists x, In x l /\ B2R x = B2R m) /\ forall x, In x l -> (B2R m <= B2R x)%R.

Definition greatest_int (m : Z) (l : list Z) : Prop := In m l /\ forall x, In x l -> (x <= m)%Z.
Definition least_int (m : Z) (l : list Z) : Prop := In m l /\ forall x, In x l -> (m <= x)%Z.

(** The exact sum. *)
Definition total (l : list Z) : Z := fold_right Z.add 0%Z l.
