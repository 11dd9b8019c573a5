(** Specification for the locations of caches: what directory a path names. *)
From Coq Require Import String Ascii List.
From Verif Require Import CacheKeyModel.
Import ListNotations.
Open Scope list_scope.

(** The components of a path; [current]: the component being read. *)
Fixpoint split (current s : list ascii) : list (list ascii) :=
  match s with
  | [] => [current]
  | c :: s' => if Ascii.eqb c "/"%char then current :: split [] s' else split (current ++ [c]) s'
  end.
(** The directory named by a list of components: empty components and "." stay, ".." goes up. *)
Definition walk (dir : list (list ascii)) (component : list ascii) : list (list ascii) :=
  if list_eq_dec ascii_dec component [] then dir
  else if list_eq_dec ascii_dec component (text ".") then dir
  else if list_eq_dec ascii_dec component (text "..") then removelast dir
  else dir ++ [component].
Definition directory (path : list ascii) : list (list ascii) := fold_left walk (split [] path) [].

Definition special : list ascii := list_ascii_of_string "/\*@[]:=".
