(** * What statistics read from a file should be *)
From Coq Require Import String Ascii List.
Import ListNotations.
Local Open Scope string_scope.
Local Open Scope list_scope.

(** The statistics of a key: those computed for it, or zeros for a key that was not
    in the data. *)
Inductive statistics_of {N : Type} (zero : N) (stats : list (string * (N * N))) (k : string) : N * N -> Prop :=
| of_known v : In (k, v) stats -> statistics_of zero stats k v
| of_unknown : ~ In k (map fst stats) -> statistics_of zero stats k (zero, zero).

(** The text of a key up to its first space. *)
Definition no_char (c : ascii) (s : string) : Prop := ~ In c (list_ascii_of_string s).
Definition first_word (k w : string) : Prop :=
  no_char " " w /\ (k = w \/ exists rest, k = (w ++ " " ++ rest)%string).

(** A key in one line. *)
Definition one_line (k : string) : Prop := no_char "010" k /\ no_char "013" k.
(** A key in one word. *)
Definition one_word (k : string) : Prop := one_line k /\ no_char " " k.

(** Text of numbers: not empty, no commas, one word; and reading gives the number
    back. *)
Definition readable {N : Type} (show : N -> string) (read : string -> N) (x : N) : Prop :=
  show x <> "" /\ no_char "," (show x) /\ one_word (show x) /\ read (show x) = x.

(** The pairs of statistics as the lists that combiners give. *)
Definition as_lists {N : Type} (stats : list (string * (N * N))) : list (string * list N) :=
  map (fun kv => (fst kv, [fst (snd kv); snd (snd kv)])) stats.
