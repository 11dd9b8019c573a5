(** A preprocessing function that tracks objects, traced twice. *)
From Coq Require Import String List.
From Verif Require Import TrackModel.
Import ListNotations.

(** Some attributes of a new tf.Module. *)
Definition tr_has (n : string) : option value :=
  if String.eqb n "variables" then Some (Some (Attribute "variables"))
  else if String.eqb n "name" then Some (Some (Attribute "name"))
  else None.

(** A dataset without a name, a layer with one, a factory that raises at first. *)
Definition tr_calls : list call :=
  [Call (Gives false) None; Call Fails (Some "hub"%string); Call (Gives true) (Some "layer"%string);
   Call (Gives false) None; Call (Gives false) (Some "hub"%string); Call (Gives true) (Some "layer"%string); Call (Gives true) None].
