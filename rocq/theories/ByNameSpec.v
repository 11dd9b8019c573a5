(** Specifications for vocabularies asked for by name. *)
From Coq Require Import String Ascii List.
From Verif Require Import ByNameModel.
Import ListNotations.

Definition slash : ascii := "/"%char.

(** The name a vocabulary is asked for by: the one it was given, or that of its file. *)
Definition asked_for (v : vocab) (n : list ascii) : Prop :=
  match v_name v with Some given => n = given | None => n = v_filename v end.

(** [key] is [n], or ends in a slash and [n]; names with a slash are not hidden. *)
Definition hides (key n : list ascii) : Prop :=
  ~ In slash n /\ (key = n \/ exists directory, key = directory ++ slash :: n).

(** The last component of a path. *)
Definition last_component (path n : list ascii) : Prop :=
  ~ In slash n /\ (path = n \/ exists directory, path = directory ++ slash :: n).

(** No other call hides the name [n] of [v]. *)
Definition not_hidden (others : list call) (n : list ascii) : Prop :=
  (forall u given, In (MakeVocabulary u) others -> v_name u = Some given -> given <> n -> ~ hides given n) /\
  (forall key f, In (AnnotateAsset key f) others -> ~ hides key n).

(** All vocabularies have names of files of their own, and none is empty (see C46 for names that give the
    empty file name). *)
Definition vocabularies (calls : list call) : list vocab :=
  flat_map (fun c => match c with MakeVocabulary v => [v] | AnnotateAsset _ _ => [] end) calls.
Definition own_files (calls : list call) : Prop := NoDup (map v_filename (vocabularies calls)) /\ ~ In [] (map v_filename (vocabularies calls)).

(** Assets that are not vocabularies have names of their own, too. *)
Definition other_names {A : Type} (others : list (list ascii * A)) (v : vocab) : Prop :=
  forall o, In o others -> fst o <> v_filename v /\ fst o <> v_filename v ++ list_ascii_of_string ".tfrecord.gz".

(** A text vocabulary has one line for each entry. *)
Fixpoint has_newline (s : string) : Prop :=
  match s with EmptyString => False | String c s' => c = "010"%char \/ has_newline s' end.
Definition lines_ok (v : vocab) : Prop := v_text v = true -> Forall (fun l => ~ has_newline l) (v_lines v).
