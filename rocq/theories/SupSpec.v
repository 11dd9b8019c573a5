(** Tensors that are well formed, have a type, and have rows. *)
From Coq Require Import String List Arith.
From Verif Require Import SupModel.
Import ListNotations.

Section spec.
  Variable V : Type.
  Local Notation array := (array V).
  Local Notation value := (value V).
  Fixpoint product (l : list nat) : nat := match l with [] => 1 | n :: l' => n * product l' end.
  Definition full (a : array) : Prop := List.length (values V a) = product (shape V a).
  (** The order of indices *)
  Inductive before : list nat -> list nat -> Prop :=
  | before_here i j a b : i < j -> before (i :: a) (j :: b)
  | before_later i a b : before a b -> before (i :: a) (i :: b).
  Inductive ordered : list (list nat) -> Prop :=
  | ordered_none : ordered []
  | ordered_one a l : ordered l -> (forall b, In b l -> before a b) -> ordered (a :: l).
  (** Row splits for [below] rows of what is partitioned *)
  Definition splits_ok (splits : list nat) (below : nat) : Prop :=
    nth_error splits 0 = Some 0 /\ nth_error splits (List.length splits - 1) = Some below /\
    forall i a b, nth_error splits i = Some a -> nth_error splits (S i) = Some b -> a <= b.
  Fixpoint partitions_ok (row_splits : list (list nat)) (flat_rows : nat) : Prop :=
    match row_splits with
    | [] => True
    | splits :: inner => splits_ok splits (match inner with [] => flat_rows | next :: _ => List.length next - 1 end) /\ partitions_ok inner flat_rows
    end.
  Definition well_formed (v : value) : Prop :=
    match v with
    | Dense _ a => full a
    | Sparse _ indices vals dense_shape =>
        full vals /\ shape V vals = [List.length indices] /\ ordered indices /\ forall i, In i indices -> Forall2 lt i dense_shape
    | Ragged _ row_splits a => full a /\ exists n s, shape V a = n :: s /\ partitions_ok row_splits n
    end.

  Definition fits (st : static) (s : list nat) : Prop :=
    match st with None => True | Some ds => Forall2 (fun d n => d = None \/ d = Some n) ds s end.
  (** All rows have length [n]. *)
  Definition uniform (n : nat) (splits : list nat) : Prop := forall i a b, nth_error splits i = Some a -> nth_error splits (S i) = Some b -> b = a + n.
  Definition of_type (t : spec) (v : value) : Prop :=
    match t, v with
    | Dense_spec s, Dense _ a | Ragged_spec [] s, Dense _ a => fits s (shape V a)
    | Sparse_spec s vs, Sparse _ _ vals dense_shape => fits s dense_shape /\ fits vs (shape V vals)
    | Ragged_spec ps flat, Ragged _ row_splits a => Forall2 (fun p splits => match p with None => True | Some n => uniform n splits end) ps row_splits /\ fits flat (shape V a)
    | _, _ => False
    end.
  (** The number of rows: the size of the batch *)
  Definition rows (v : value) (n : nat) : Prop :=
    match v with
    | Dense _ a | Ragged _ [] a => exists s, shape V a = n :: s
    | Sparse _ _ _ dense_shape => exists s, dense_shape = n :: s
    | Ragged _ (splits :: _) _ => List.length splits = S n
    end.

  (** Features as most schemas have them: batches of any size; sizes of sparse ones and lengths of rows are not known, or one. *)
  Definition any_or_one (d : option nat) : Prop := d = None \/ d = Some 1.
  Definition batched (t : spec) : Prop :=
    match t with
    | Dense_spec s => exists ds, s = Some (None :: ds)
    | Sparse_spec s vs => (exists ds, s = Some (None :: ds) /\ Forall any_or_one ds) /\ vs = Some [None]
    | Ragged_spec ps flat => Forall any_or_one ps /\ exists ds, flat = Some (None :: ds)
    | Other_spec => False
    end.
End spec.
