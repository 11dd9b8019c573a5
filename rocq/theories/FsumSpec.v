(** What tft.sum of floats promises. *)
From Coq Require Import List ZArith Reals Permutation.
From Flocq Require Import Core BinarySingleNaN.
From Verif Require Import IeeeModel.
Import ListNotations.
Local Open Scope R_scope.

(** [s] is the outcome of adding the numbers of [l] in single precision, in some order and grouping. *)
Inductive adds : list f32 -> f32 -> Prop :=
| adds_nil : adds [] zero32
| adds_one x : adds [x] x
| adds_app a b s t : adds a s -> adds b t -> adds (a ++ b) (add32 s t)
| adds_perm a b s : Permutation a b -> adds a s -> adds b s.

(** The sum of the numbers, and of their magnitudes. *)
Definition total (l : list f32) : R := fold_right (fun x r => B2R x + r) 0 l.
Definition magnitude (l : list f32) : R := fold_right (fun x r => Rabs (B2R x) + r) 0 l.

Definition all_finite32 (l : list f32) : Prop := forall x, In x l -> is_finite x = true.
