(** * Schedules of a worker, from what Beam promises *)
From Coq Require Import String List Bool Arith.
From Verif Require Import SharedModel.
Import ListNotations.

Section spec.
  Context {model batch out : Type} (load : nat -> string -> option model) (run : model -> batch -> option out).
  Implicit Types (sch : list (event batch)).

  (** The ParDo of the f-th copy that is set up. *)
  Definition set_ups sch : list nat := flat_map (fun e => match e with Set_up p => [p] | _ => [] end) sch.
  Definition pardo_of sch (f p : nat) : Prop := nth_error (set_ups sch) f = Some p.
  (** Copies that are not torn down, and that are in a call. *)
  Definition torn_down sch (f : nat) : Prop := In (Tear_down f) sch.
  Inductive busy (f : nat) : list (event batch) -> Prop :=
  | Busy_call sch b dir : busy f (sch ++ [Call f b dir])
  | Busy_on sch e : busy f sch -> e <> Return f -> busy f (sch ++ [e]).
  (** A copy is called after it is set up and before it is torn down, a call at a time, and is not torn down in a call. *)
  Inductive well_formed : list (event batch) -> Prop :=
  | WF_nil : well_formed []
  | WF_set_up sch p : well_formed sch -> well_formed (sch ++ [Set_up p])
  | WF_call sch f b dir p : well_formed sch -> pardo_of sch f p -> ~ torn_down sch f -> ~ busy f sch -> well_formed (sch ++ [Call f b dir])
  | WF_return sch f : well_formed sch -> busy f sch -> well_formed (sch ++ [Return f])
  | WF_tear_down sch f p : well_formed sch -> pardo_of sch f p -> ~ torn_down sch f -> ~ busy f sch -> well_formed (sch ++ [Tear_down f])
  | WF_clear sch : well_formed sch -> well_formed (sch ++ [Clear])
  | WF_collect sch o : well_formed sch -> well_formed (sch ++ [Collect o]).

  (** What a batch should become: the outputs of the ParDo's part of the model in the directory. *)
  Definition transformed (p : nat) (b : batch) (dir : string) : outcome out :=
    match load p dir with
    | None => Load_error
    | Some m => match run m b with Some y => Yielded y | None => Graph_error end
    end.
  (** The calls of a schedule. *)
  Definition is_called sch (p : nat) (b : batch) (dir : string) : Prop := exists f, pardo_of sch f p /\ In (Call f b dir) sch.
  Definition calls sch : list (nat * batch * string) :=
    flat_map (fun e => match e with Call f b dir => [(f, b, dir)] | _ => [] end) sch.
End spec.
