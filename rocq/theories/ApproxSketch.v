(** The Misra-Gries algorithm with weights and merging: a sketch that keeps the documented bounds. *)
From Coq Require Import String List ZArith QArith Qcanon Bool.
From Verif Require Import CombineModel MeanVarModel SortModel VocabModel ApproxModel.
Import ListNotations.

(** At most k items with their remaining weights. *)
Record misra_gries_sketch := MG { buckets : nat; counts : list (string * Qc) }.

Definition qc_geb (a b : Qc) : bool := Qle_bool b a.
(** When more than k items are left, the (k+1)-th largest weight is taken from all. *)
Definition compress (k : nat) (c : list (string * Qc)) : list (string * Qc) :=
  if (List.length c <=? k)%nat then c
  else
    let d := nth k (py_sorted qc_geb (map snd c)) (Q2Qc 0) in
    map (fun r : string * Qc => (fst r, Qcminus (snd r) d)) (filter (fun r : string * Qc => negb (Qle_bool (snd r) d)) c).
Definition include (s : misra_gries_sketch) (items : list (string * Qc)) : misra_gries_sketch :=
  MG (buckets s) (compress (buckets s) (reduce_per_key qc_sum (counts s ++ items))).
Definition misra_gries : sketch_ops misra_gries_sketch :=
  Sketch_ops _ (fun k => MG k []) include (fun s s' => include s (counts s')) (fun s => s)
    (fun s => py_sorted entry_geb (map (fun r => (snd r, fst r)) (counts s))).
