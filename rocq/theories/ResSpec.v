(** * Specification: reserved tokens of vocabularies (C95) *)
From Coq Require Import String Ascii List Bool Arith.
From Verif Require Import MiscModel ByNameModel ResModel.
Import ListNotations.

(** What the tokens of a call are: the strings, or what the tensor gives *)
Inductive are (run : nat -> option (list string)) : tokens -> list string -> Prop :=
| are_strings l : are run (Strings l) l
| are_computed t l : run t = Some l -> are run (Computed t) l.
(** What a vocabulary asks for is what it is given. *)
Definition given (run : nat -> option (list string)) (d : declared) (x : option (list string)) : Prop :=
  match d_reserved d, x with
  | None, None => True
  | Some r, Some l => are run r l
  | _, _ => False
  end.
(** Vocabularies with reserved tokens that have the same name have the same tokens; so it is if names are distinct. *)
Definition own_names (fn : list declared) : Prop :=
  forall d e, In d fn -> In e fn -> d_reserved d <> None -> d_reserved e <> None -> d_filename d = d_filename e -> d_reserved d = d_reserved e.
(** The first vocabulary with reserved tokens that has this name *)
Definition first_with (fn : list declared) (n : name) (d : declared) : Prop :=
  exists before after, fn = before ++ d :: after /\ d_reserved d <> None /\ d_filename d = n /\
    forall e, In e before -> d_reserved e <> None -> d_filename e <> n.
(** The entries of the file of a vocabulary: the reserved tokens it is given, and the values that are kept *)
Definition entries (d : declared) (x : option (list string)) : nat := match x with Some l => length l | None => 0 end + d_kept d.
