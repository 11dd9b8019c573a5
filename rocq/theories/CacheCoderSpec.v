(** What the theorems about the cache coders assume of Python's float literals. *)
From Coq Require DecimalString.
From Coq Require Import Ascii String List.
From Verif Require Import CacheCoderModel.
Import ListNotations.

(** The characters of a JSON number: not a bracket, a comma or white space. *)
Definition number_char (c : ascii) : Prop := ~ In c ["["; "]"; ","; " "; "009"; "010"; "013"]%char.

(** The text of a float is a non-empty word of such characters that is not an integer literal, and it is read
    back as the same float. *)
Definition float_literals {F} (show : F -> list ascii) (read : list ascii -> option F) : Prop :=
  forall f, show f <> [] /\ Forall number_char (show f) /\
    DecimalString.NilZero.int_of_string (string_of_list_ascii (show f)) = None /\
    read (show f) = Some f.
