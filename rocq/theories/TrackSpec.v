(** Specifications for tracked objects. *)
From Coq Require Import String List.
From Verif Require Import TrackModel.
Import ListNotations.

Definition call_at (calls : list call) (i : nat) (f : factory) (name : option string) : Prop :=
  nth_error calls i = Some (Call f name).

(** The [i]-th call is the first one with this name whose factory does not raise. *)
Definition first_of_name (calls : list call) (name : string) (i : nat) (f : factory) : Prop :=
  call_at calls i f (Some name) /\ f <> Fails /\
  forall k g, k < i -> call_at calls k g (Some name) -> g = Fails.

(** What the factory of the [i]-th call gives, if it does not raise. *)
Definition given (f : factory) (i : nat) : value := match f with Gives _ => Some (Made i) | _ => None end.

(** What the [j]-th call returns or raises.  [has]: the attributes of a module from the start. *)
Definition outcome (has : string -> option value) (calls : list call) (j : nat) (r : result) : Prop :=
  exists f name, call_at calls j f name /\
  match name with
  | None =>
      r = match f with Fails => Raises Factory | Gives true => Raises KerasWithoutName | _ => Returns (given f j) end
  | Some n =>
      match has n with
      | Some (Some o) => r = Returns (Some o)
      | Some None => r = match f with Fails => Raises Factory | _ => Raises AlreadyTracked end
      | None =>
          (exists i g, i < j /\ first_of_name calls n i g /\
             match g with
             | Gives _ => r = Returns (Some (Made i))
             | _ => r = match f with Fails => Raises Factory | _ => Raises AlreadyTracked end
             end) \/
          ((forall i g, i < j -> ~ first_of_name calls n i g) /\
           r = match f with Fails => Raises Factory | _ => Returns (given f j) end)
      end
  end.

(** Whether the [j]-th call invokes its factory: not if the name has an object already. *)
Definition invokes (has : string -> option value) (calls : list call) (j : nat) : Prop :=
  exists f name, call_at calls j f name /\
  match name with
  | None => True
  | Some n => match has n with
              | Some (Some _) => False
              | Some None => True
              | None => forall i g, i < j -> first_of_name calls n i g -> g = GivesNone
              end
  end.

(** The names that the saved module uses itself. *)
Definition taken (fn : string) : list string :=
  [fn; "assets"; "created_variables"; "initializers"; "pruned_variables"; "resources"; "trackable_objects"]%string.

(** A program that enters no scope within a scope. *)
Fixpoint no_scope (p : program) : Prop :=
  match p with Body _ => True | Scope _ _ => False | Seq p q => no_scope p /\ no_scope q end.
Fixpoint not_nested (p : program) : Prop :=
  match p with Body _ => True | Scope _ p => no_scope p | Seq p q => not_nested p /\ not_nested q end.
(** Whether all the bodies that are reached finish. *)
Fixpoint finishes (p : program) : bool :=
  match p with Body ok => ok | Scope _ p => finishes p | Seq p q => andb (finishes p) (finishes q) end.
