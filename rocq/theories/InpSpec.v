(** * Specification: analysis in place (C91) *)
From Coq Require Import List Bool Arith.
From Verif Require Import InpModel.
Import ListNotations.

Section spec.
  Variables P F M : Type.
  Variable trace : bool -> P -> option (F * nat).
  Variable infer : bool -> P -> option M.

  (** What AnalyzeDataset would be needed for *)
  Definition has_analyzers (compat : bool) (p : P) : Prop := exists f n, trace compat p = Some (f, S n).
  (** The directory of a finished analysis of p *)
  Definition output_of (compat : bool) (p : P) (s : files F M) : Prop :=
    exists f m, trace compat p = Some (f, 0) /\ infer compat p = Some m /\ s = Files F M (Complete F f) (Some m).
  (** What a run of the analysis, or any part of it, can leave behind: one of the states *)
  Definition left_by (r : list (files F M) * outcome) (s : files F M) : Prop := In s (fst r).
  (** What it leaves behind if nothing stops it *)
  Definition ends (r : list (files F M) * outcome) (s : files F M) : Prop := exists l, fst r = (l ++ [s])%list.
End spec.
