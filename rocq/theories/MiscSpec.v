(** Specifications for MiscModel. *)
From Coq Require Import Ascii List QArith.
Import ListNotations.

Fixpoint q_total (l : list Q) : Q := match l with [] => 0 | x :: l' => x + q_total l' end.

(** The weight of label [i] in a row that lists the weights of labels 0, 1, ... (absent labels: 0). *)
Definition label_weight (i : nat) (row : Q * list Q) : Q := nth i (snd row) 0.

(** A safe path component: letters, digits, underscores and single hyphens. *)
Definition safe_char (c : ascii) : Prop :=
  In c ["-"; "_"; "0"; "1"; "2"; "3"; "4"; "5"; "6"; "7"; "8"; "9";
        "a"; "b"; "c"; "d"; "e"; "f"; "g"; "h"; "i"; "j"; "k"; "l"; "m"; "n"; "o"; "p"; "q"; "r"; "s"; "t"; "u"; "v"; "w"; "x"; "y"; "z";
        "A"; "B"; "C"; "D"; "E"; "F"; "G"; "H"; "I"; "J"; "K"; "L"; "M"; "N"; "O"; "P"; "Q"; "R"; "S"; "T"; "U"; "V"; "W"; "X"; "Y"; "Z"]%char.
