(** * Specification of transformed datasets (C51) *)
From Coq Require Import String.
From Coq Require Import List Arith Bool.
From Verif Require Import TransformModel.
Import ListNotations.
Local Notation length := List.length.

Section Spec.
Context {P : Type}.

(** A batch whose columns have different names and [n] cells each. *)
Definition rectangular (n : nat) (b : record_batch P) : Prop :=
  b <> [] /\ NoDup (map fst b) /\ Forall (fun nc => length (snd nc) = n) b.

(** The cells of a column in all the batches, in order. *)
Definition all_cells (name : string) (outs : list (record_batch P * list (string * list (cell P)))) : list (cell P) :=
  flat_map (fun o => match lookup name (fst o) with Some c => c | None => [] end) outs.

(** A column of [m] cells can be carried along with [n] transformed rows: there are
    as many cells, or there is one value, the same for all the rows. *)
Definition can_be_carried (m n : nat) (c : list (cell P)) : Prop :=
  m = n \/ m = 1 \/
  (0 < m /\ exists v : option P, Forall (fun x => x = option_map (fun y => [y]) v) c).

(** The cell that belongs to the transformed row [i]. *)
Definition carried (m n : nat) (c : list (cell P)) (i : nat) : cell P :=
  nth (if Nat.eqb m n then i else 0) c None.

(** The transform graph, with the conversions around it, works row by row: it computes
    [row_fn], and has no output with the name of a passthrough key. *)
Definition works_by_rows {T} (adapt : record_batch P -> option (list (string * T)))
    (graph : list (string * T) -> option (list (string * T)))
    (convert : list (string * T) -> option (record_batch P)) (validate : list (string * T) -> bool)
    (keys : list string) (row_fn : list (string * cell P) -> list (string * cell P)) : Prop :=
  forall n b, 0 < n -> rectangular n b ->
  exists feed outputs columns,
    adapt b = Some feed /\ graph feed = Some outputs /\ convert outputs = Some columns /\ validate outputs = true /\
    rectangular n columns /\ (forall k, In k keys -> ~ In k (map fst outputs) /\ ~ In k (map fst columns)) /\
    Forall2 (fun out row => forall name, lookup name out = lookup name (row_fn row))
      (instance_dicts columns) (instance_dicts b).
End Spec.
