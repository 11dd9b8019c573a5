(** Validation of sparse batches that are to be variable length features.
    Models `validate_varlen_sparse_value`,
    /repo/tensorflow_transform/impl_helper.py:236-261. *)
From Coq Require Import ZArith List Bool.
Import ListNotations.
Open Scope Z_scope.

(** Arithmetic of numpy's int64. *)
Definition wrap64 (x : Z) : Z := (x + 2 ^ 63) mod 2 ^ 64 - 2 ^ 63.

(** The exceptions, by the message (impl_helper.py:242, 248, 252, 258). *)
Inductive complaint : Type :=
| NotTwoDimensional | DecreasingInstances | NonConsecutiveValues | NonZeroStart.

(** `np.diff(indices, axis=0)` (impl_helper.py:245), as pairs. *)
Fixpoint diffs (l : list (Z * Z)) : list (Z * Z) :=
  match l with
  | a :: (b :: _) as l' => (wrap64 (fst b - fst a), wrap64 (snd b - snd a)) :: diffs l'
  | _ => []
  end.

(** `np.where(mask)` of one dimension (impl_helper.py:256): positions, from [i] on. *)
Fixpoint where_ (i : nat) (mask : list bool) : list nat :=
  match mask with
  | [] => []
  | b :: mask => if b then i :: where_ (S i) mask else where_ (S i) mask
  end.

(** `indices[positions, 1]` (impl_helper.py:257); the positions are in range. *)
Definition columns_at (l : list (Z * Z)) (positions : list nat) : list Z :=
  map (fun i => snd (nth i l (0, 0))) positions.

(** `validate_varlen_sparse_value` (impl_helper.py:236-261) for an index array
    with [width] columns, of which the first two are given.  [None]: it returns. *)
Definition validate (width : nat) (indices : list (Z * Z)) : option complaint :=
  if negb (Nat.eqb width 2) then Some NotTwoDimensional
  else match indices with
  | [] => None
  | _ =>
      let d := diffs indices in
      if existsb (fun p => fst p <? 0) d then Some DecreasingInstances
      else if existsb (fun p => (fst p =? 0) && negb (snd p =? 1)) d
      then Some NonConsecutiveValues
      else
        let boundaries := where_ 0 (map (fun p => negb (fst p =? 0)) d) in
        if existsb (fun c => negb (c =? 0)) (columns_at indices (map S boundaries ++ [0%nat]))
        then Some NonZeroStart
        else None
  end.
