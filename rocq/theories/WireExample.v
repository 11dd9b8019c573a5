(** A batch of two rows and messages for it. *)
From Coq Require Import String List NArith ZArith.
From Verif Require Import WireModel.
Import ListNotations.

Definition matrix : tensor := Dense DInt64 2 [2; 1] [VInt64 1; VInt64 (-1); VInt64 300; VInt64 (- 2 ^ 63)].
Definition words : tensor :=
  Sparse DString 2 3 [((0, 0), VString [104; 105]%N); ((0, 1), VString []); ((1, 0), VString [33]%N)].
Definition floats : tensor := Sparse DFloat 2 2 [((1, 0), VFloat 1065353216)].
Definition some_features : list (string * tensor) :=
  [("words"%string, words); ("matrix"%string, matrix); ("floats"%string, floats)].

(** The only value of a row is in its third column. *)
Definition gap : list (string * tensor) := [("x"%string, Sparse DInt64 1 3 [((0, 2), VInt64 7)])].
Definition ids : list (string * tensor) := [("x"%string, Dense DOther 1 [] [VInt64 7])].
