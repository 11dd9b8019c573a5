(** * Specification: uses of a transform output (C90) *)
From Coq Require Import List Bool Arith.
From Verif Require Import LayModel.
Import ListNotations.

Section spec.
  Variable F : Type.
  Variable outermost : nat -> nat.

  (** In graph mode only what is in the default graph, or in the one around it, can be used; in eager mode what was loaded eagerly
      (or is in the graph of the function that is being traced). *)
  Definition usable (c : context) (p : place) : Prop :=
    match p with
    | Eager => eager c = true
    | In_graph g => g = default_graph c \/ eager c = false /\ g = outermost (default_graph c)
    end.

  Definition files_are (s : saved F) (h : list (event F)) : Prop := forall e, In e h -> e_files F e = s.
  Definition mode_is (b : bool) (h : list (event F)) : Prop := forall e, In e h -> eager (e_context F e) = b.
End spec.
