(** Specification of the analyzer cache on a file system. *)
From Coq Require Import String List.
From Verif Require Import CacheFSModel.
Import ListNotations.
Open Scope list_scope.

Section spec.
  Context {A : Type}.
  (** A request: for each dataset its entries, each with its records in one or more shards. *)
  Notation request := (list (string * list (string * list (list A)))) (only parsing).
  Notation fs := (string -> dir A) (only parsing).

  (** Requests are dicts of dicts, and Beam writes at least one shard per entry. *)
  Definition valid_request (r : request) : Prop :=
    NoDup (map fst r) /\
    Forall (fun p => NoDup (map fst (snd p)) /\ Forall (fun e => snd e <> []) (snd p)) r.

  Fixpoint find {B} (k : string) (l : list (string * B)) : option B :=
    match l with [] => None | (k', x) :: l' => if String.eqb k k' then Some x else find k l' end.
  Definition find2 {B} (l : list (string * list (string * B))) (d k : string) : option B :=
    match find d l with Some es => find k es | None => None end.

  (** The records that a request writes for an entry. *)
  Definition written (r : request) (d k : string) : option (list A) :=
    match find2 r d k with Some shards => Some (List.concat shards) | None => None end.
  (** The records of the last request that contains the entry. *)
  Definition last_written (rs : list request) (d k : string) : option (list A) :=
    fold_left (fun old r => match written r d k with Some new => Some new | None => old end) rs None.

  (** What a user gets for one entry. *)
  Inductive outcome := Raised | Absent | Got (data : list A).
  Definition entry (f : fs) (d k : string) : outcome :=
    match read_cache f [d] (String.eqb k) with
    | None => Raised
    | Some result => match find2 result d k with None => Absent | Some data => Got data end
    end.

  (** The states after completed writes only. *)
  Inductive completed : list request -> fs -> Prop :=
  | completed_nil : completed [] empty_fs
  | completed_snoc rs f r steps : completed rs f -> valid_request r -> write_run f r steps ->
      completed (rs ++ [r]) (exec f steps).

  Definition prefix {B} (p l : list B) : Prop := exists q, l = p ++ q.
  (** The states after writes that may each be interrupted anywhere except while a manifest is replaced. *)
  Inductive reachable : fs -> Prop :=
  | reachable_nil : reachable empty_fs
  | reachable_snoc f r steps p : reachable f -> valid_request r -> write_run f r steps -> prefix p steps ->
      (forall d, manifest (exec f p d) <> Some None /\ (manifest (exec f p d) = None -> manifest (f d) = None)) ->
      reachable (exec f p).
End spec.
Arguments outcome : clear implicits.
