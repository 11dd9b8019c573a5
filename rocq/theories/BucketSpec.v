(** Counting boundaries. *)
From Coq Require Import List ZArith QArith Sorting.Sorted.
From Verif Require Import NumericModel BucketModel.
Import ListNotations.
Open Scope Q_scope.

(** The number of elements of [b] that are at most [x]. *)
Definition count_le (x : Q) (b : list Q) : nat := length (filter (fun c => Qle_bool c x) b).

(** [b] is increasing, and neighbours are apart by at least a millionth of the distance between the first and
    the last element. *)
Fixpoint gaps_at_least (e : Q) (b : list Q) : Prop :=
  match b with
  | x :: (y :: _) as t => e <= y - x /\ gaps_at_least e t
  | _ => True
  end.
Definition well_separated (b : list Q) : Prop :=
  hd 0 b < last b 0 /\ gaps_at_least ((1 # 1000000) * (last b 0 - hd 0 b)) b.

(** Values of a dtype. *)
Definition value_of (t : num_dtype) (q : Q) : Prop :=
  match t with IntT d => exists z, q == inject_Z z /\ in_range d z | _ => True end.

(** Every value of dtype [from] is a value of dtype [to] (rounding to floating point left aside). *)
Definition holds_all (from to : num_dtype) : Prop :=
  match from, to with
  | _, (Float16 | Float32 | Float64) => True
  | IntT d, IntT d' => (dmin d' <= dmin d /\ dmax d <= dmax d')%Z
  | _, IntT _ => False
  end.

(** The dtype with the larger maximum holds all the values of the other one. *)
Definition compatible (dx db : num_dtype) : Prop :=
  (num_max db < num_max dx /\ holds_all db dx) \/ (num_max dx <= num_max db /\ holds_all dx db).
