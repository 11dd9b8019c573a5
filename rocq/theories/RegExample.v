From Coq Require Import String List Bool.
From Verif Require Import RegModel RegSpec RegProofs.
Import ListNotations.
Local Open Scope string_scope.

(** PTransforms that give their name with the label, one that fails and one that has two outputs. *)
Definition names (p : ptransform) (label : string) (inputs : list string) : outputs string :=
  if String.eqb p "_DecodeCacheImpl" then Raises
  else if String.eqb p "_EncodeCacheImpl" then Many [p; label] else One (p ++ "/" ++ label).

(** A user's analyzer with an implementation for the first environment and one in general. *)
Definition mine : list registration :=
  [Registration "Mine" (Some [TF_COMPAT_V1]) "_Old"; Registration "Mine" None "_Mine"; Registration "Theirs" (Some [TF_V2_ONLY]) "_Theirs"].
