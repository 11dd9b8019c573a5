(** Left-aligned sparse batches. *)
From Coq Require Import ZArith List.
Import ListNotations.
Open Scope Z_scope.

(** The indices of a row with values in columns 0, 1, ..., n-1. *)
Definition row (r : Z) (n : nat) : list (Z * Z) :=
  map (fun c => (r, Z.of_nat c)) (seq 0 n).

(** The numbers increase strictly. *)
Fixpoint increasing (l : list Z) : Prop :=
  match l with
  | a :: (b :: _) as l' => a < b /\ increasing l'
  | _ => True
  end.

(** The index array of a batch whose rows hold their values from column 0 on
    without gaps, given row by row; rows without values do not appear. *)
Definition left_aligned (indices : list (Z * Z)) : Prop :=
  exists rows : list (Z * nat),
    increasing (map fst rows) /\ (forall r n, In (r, n) rows -> (0 < n)%nat)
    /\ indices = flat_map (fun rn => row (fst rn) (snd rn)) rows.

(** Indices TensorFlow can hold: int64 and not negative. *)
Definition proper (indices : list (Z * Z)) : Prop :=
  forall r c, In (r, c) indices -> 0 <= r < 2 ^ 63 /\ 0 <= c < 2 ^ 63.
