(** What approximate vocabularies promise. *)
From Coq Require Import String Ascii List ZArith QArith Qcanon Bool Sorting.Sorted.
From Verif Require Import VocabSpec ApproxModel.
Import ListNotations.

(** The weight of an item among entries, 0 if it is not there. *)
Definition estimated (es : list (Qc * string)) (t : string) : Qc :=
  total (map fst (filter (fun e => String.eqb t (snd e)) es)).

(** The documented bounds of the Misra-Gries algorithm for estimates [f] of frequencies [x], where [m] is
    the total frequency and [m'] the sum of the estimates:  f t <= x t <= f t + delta  for all t, and
    delta <= (m - m') / (k + 1). *)
Definition within_bounds (k : nat) (f x : string -> Qc) (m m' : Qc) : Prop :=
  exists delta, (forall t, f t <= x t /\ x t <= f t + delta)%Qc /\
    (Q2Qc (inject_Z (Z.of_nat (S k))) * delta <= m - m')%Qc.

(** What is promised of the estimates of weighted items [l]: at most k different items of [l], in
    decreasing order of the estimates and then of the items, within the bounds. *)
Definition estimates (k : nat) (l : list (string * Qc)) (es : list (Qc * string)) : Prop :=
  (length es <= k)%nat /\
  StronglySorted (fun a b => (fst b < fst a)%Qc \/ (fst b = fst a /\ String.ltb (snd b) (snd a) = true)) es /\
  NoDup (map snd es) /\ Forall (fun e => 0 <= fst e)%Qc es /\
  (forall t, In t (map snd es) -> In t (map fst l)) /\
  within_bounds k (estimated es) (indicator true l) (total (map snd l)) (total (map fst es)).

(** Sketches made by the operations, and the weighted items they were made from. *)
Inductive built {sketch} (ops : sketch_ops sketch) (k : nat) : sketch -> list (string * Qc) -> Prop :=
| built_new : built ops k (new_sketch ops k) []
| built_add s l items : built ops k s l -> built ops k (add_values ops s items) (l ++ items)
| built_merge s l s' l' : built ops k s l -> built ops k s' l' -> built ops k (merge ops s s') (l ++ l')
| built_recode s l : built ops k s l -> built ops k (recode ops s) l.

Definition keeps_promise {sketch} (ops : sketch_ops sketch) (k : nat) : Prop :=
  forall s l, built ops k s l -> Forall (fun r => 0 <= snd r)%Qc l -> estimates k l (estimate ops s).

(** The values that may enter a vocabulary, and their total frequency: their number, or their weight. *)
Definition acceptable (text : bool) (t : string) : bool :=
  negb text || (negb (String.eqb t "") &&
    forallb (fun c => negb (Ascii.eqb c "010") && negb (Ascii.eqb c "013")) (list_ascii_of_string t)).
Definition accepted (text : bool) (rs : list (string * Qc)) : list (string * Qc) :=
  filter (fun r => acceptable text (fst r)) rs.
Definition mass (text weighted : bool) (rs : list (string * Qc)) : Qc :=
  total (map (fun r => if weighted then snd r else Q2Qc 1) (accepted text rs)).

(** The line that stands for an empty vocabulary. *)
Definition placeholder (is_string : bool) : string :=
  if is_string then "49d0cd50-04bb-48c0-bc6f-5b575dce351a" else "-1".

(** The lines of a vocabulary with the tokens [l] and the frequencies [f]. *)
Definition lines_of (fmt : Qc -> string) (store is_string : bool) (f : string -> Qc) (l : list string) : list string :=
  match l with
  | [] => [line_of fmt store (fun _ => Q2Qc 1) (placeholder is_string)]
  | _ => map (line_of fmt store f) l
  end.
