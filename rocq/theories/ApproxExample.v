(** Concrete runs of approximate vocabularies. *)
From Coq Require Import String Ascii List ZArith QArith Qcanon Bool.
From Verif Require Import ApproxModel.
Import ListNotations.
Local Open Scope string_scope.

Definition unit_rows (l : list string) : list (string * Qc) := map (fun t => (t, Q2Qc 1)) l.
Definition no_format (q : Qc) : string := "#".

(** Four rows in one batch, and each in its own batch. *)
Definition one_batch : plan := Add [unit_rows ["a"; "a"; "b"; "c"]].
Definition four_batches : plan := Add (map (fun t => unit_rows [t]) ["a"; "b"; "a"; "c"]).

(** Two workers, one of which reads its accumulator from a cache; "" and "x\ny" are filtered out. *)
Definition two_workers : plan :=
  Merge_into_new
    [Cached (Merge (Add [unit_rows ["a"; "b"; ""]; unit_rows ["a"]]) [Add [unit_rows ["a"; "c"]]]);
     Add [unit_rows ["a"; "d"; String "x"%char (String "010"%char "y")]; unit_rows ["b"; "a"; "e"]]].

Definition weighted_rows : plan :=
  Merge (Add [[("a", Q2Qc (1 # 2)); ("b", Q2Qc 3)]]) [Add [[("a", Q2Qc 1)]; [("c", Q2Qc (1 # 4)); ("b", Q2Qc 1)]]].
