(** What a vocabulary should be. *)
From Coq Require Import String Ascii List QArith Qcanon Sorting.Sorted.
Import ListNotations.

(** A dataset is the list of its (token, weight) rows. *)
Notation rows := (list (string * Qc)) (only parsing).

(** Acceptable in a text file with one token per line. *)
Definition one_line (t : string) : Prop :=
  t <> EmptyString /\ ~ In "010"%char (list_ascii_of_string t) /\ ~ In "013"%char (list_ascii_of_string t).

(** The indicator of a token: the number of its rows, or their total weight. *)
Fixpoint total (l : list Qc) : Qc := match l with [] => Q2Qc 0 | q :: l' => Qcplus q (total l') end.
Definition indicator (weighted : bool) (rs : rows) (t : string) : Qc :=
  total (map (fun r => if weighted then snd r else Q2Qc 1) (filter (fun r => String.eqb t (fst r)) rs)).

(** [t] comes strictly before [u]: a larger indicator, or the same and a larger token (by bytes). *)
Definition comes_before (f : string -> Qc) (t u : string) : Prop :=
  (f u < f t)%Qc \/ (f u = f t /\ String.ltb u t = true).

(** [l] lists exactly the tokens satisfying [P], best first. *)
Definition is_ranking (f : string -> Qc) (P : string -> Prop) (l : list string) : Prop :=
  StronglySorted (comes_before f) l /\ forall t, In t l <-> P t.

Definition first_of (k : option nat) (l : list string) : list string :=
  match k with None => l | Some k => firstn k l end.

(** Fewer than [k] of the tokens satisfying [P] come before [t]. *)
Definition among_first (f : string -> Qc) (P : string -> Prop) (k : nat) (t : string) : Prop :=
  P t /\ exists better, NoDup better /\ (forall u, In u better <-> P u /\ comes_before f u t) /\ (length better < k)%nat.

(** The rows of datasets that are given in batches. *)
Definition all_rows (datasets : list (list (list (string * Qc)))) : rows := concat (concat datasets).

(** A token that may enter a vocabulary, before top_k: it occurs, it fits in a line of a text file, and
    it reaches the frequency threshold (0: no threshold). *)
Definition eligible (text weighted : bool) (thr : Qc) (rs : rows) (t : string) : Prop :=
  In t (map fst rs) /\ (text = true -> one_line t) /\ (thr = Q2Qc 0 \/ (thr <= indicator weighted rs t)%Qc).

(** The tokens added for coverage: the best [k] eligible tokens of each key (all of them for None). *)
Definition covered (text weighted : bool) (key_fn : string -> string) (k : option nat) (thr : Qc) (rs : rows) (t : string) : Prop :=
  match k with
  | None => eligible text weighted thr rs t
  | Some k => among_first (indicator weighted rs) (fun u => eligible text weighted thr rs u /\ key_fn u = key_fn t) k t
  end.

(** The line written for a token. *)
Definition line_of (fmt : Qc -> string) (store : bool) (ind : string -> Qc) (t : string) : string :=
  if store then (fmt (ind t) ++ String " "%char t)%string else t.

(** Fingerprints tell the tokens [ts] apart. *)
Definition fingerprints_distinct (sha1 : string -> string) (ts : list string) : Prop :=
  forall t u, In t ts -> In u ts -> sha1 t = sha1 u -> t = u.
