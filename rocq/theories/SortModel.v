(** Python's sorted(). *)
From Coq Require Import String Ascii List Bool.
Import ListNotations.

(** [sorted(l)] for the order [leb]: stable (an element stays before later equal ones). *)
Section sort.
  Context {A : Type} (leb : A -> A -> bool).
  Fixpoint insert_sorted (x : A) (l : list A) : list A :=
    match l with
    | [] => [x]
    | y :: l' => if leb x y then x :: y :: l' else y :: insert_sorted x l'
    end.
  Definition py_sorted (l : list A) : list A := fold_right insert_sorted [] l.
End sort.

(** Comparison of Python bytes objects: lexicographic by byte, a proper prefix is smaller.
    [String.leb] is lexicographic by character code. *)
Definition bytes_leb (a b : string) : bool := String.leb a b.
