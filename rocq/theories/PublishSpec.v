(** * Specification of written transform functions (C52) *)
From Coq Require Import String.
From Coq Require Import List Arith Bool.
From Verif Require Import PublishModel.
Import ListNotations.
Local Notation length := List.length.

(** What there is is in a directory. *)
Definition well_formed (s : fs) : Prop := forall q x, s (q ++ [x]) <> None -> s q = Some Directory.

(** The entries of a directory are different. *)
Inductive distinct : tree -> Prop :=
| distinct_leaf c : distinct (Leaf c)
| distinct_node ts : NoDup (map fst ts) -> Forall (fun nt => distinct (snd nt)) ts -> distinct (Node ts).

(** What a copy of a tree has at a path: all but the directories called .tft_metadata. *)
Definition skipped (n : string) (t : tree) : Prop := n = ".tft_metadata"%string /\ exists ts, t = Node ts.
Inductive copied : tree -> path -> entry -> Prop :=
| copied_file c : copied (Leaf c) [] (File c)
| copied_directory ts : copied (Node ts) [] Directory
| copied_inside ts n t q e : In (n, t) ts -> ~ skipped n t -> copied t q e -> copied (Node ts) (n :: q) e.

(** The metadata: the schema, and the asset map if there is one. *)
Inductive metadata (schema : string) (asset_map : option string) : path -> entry -> Prop :=
| metadata_directory : metadata schema asset_map [] Directory
| metadata_schema : metadata schema asset_map ["schema.pbtxt"%string] (File schema)
| metadata_assets text : asset_map = Some text -> metadata schema asset_map ["asset_map"%string] (File text).

(** A command that makes something in the directory [d] only. *)
Definition makes_in (d : path) (gc : guard * command) : Prop :=
  (match fst gc with Always => True | IfExists p | IfAbsent p => exists r, p = d ++ r end) /\
  match snd gc with
  | MakeDirs p => exists r, p = d ++ r
  | WriteFile p _ | CopyFile p _ => exists x r, p = d ++ x :: r
  | RemoveTree _ | Rename _ _ => False
  end.
(** The same, or [d] is the file that is copied. *)
Definition works_in (d : path) (gc : guard * command) : Prop :=
  makes_in d gc \/ exists c, gc = (Always, CopyFile d c).

(** The elements of two lists, in any interleaving, among others. *)
Inductive mixed {A} (other : A -> Prop) : list A -> list A -> list A -> Prop :=
| mixed_nil : mixed other [] [] []
| mixed_first x l1 l2 l : mixed other l1 l2 l -> mixed other (x :: l1) l2 (x :: l)
| mixed_second x l1 l2 l : mixed other l1 l2 l -> mixed other l1 (x :: l2) (x :: l)
| mixed_other x l1 l2 l : other x -> mixed other l1 l2 l -> mixed other l1 l2 (x :: l).

(** The work before the outputs are published: the metadata is written and the
    transform function copied to temporary directories, in any order and at the same
    time, among unfinished attempts to do so in other temporary directories. *)
Definition temporary (root : path) (u : string) : path := root ++ ["transform_tmp"%string; u].
Definition work (root : path) (um ut schema : string) (asset_map : option string) (name : string) (t : tree)
    (cs : list (guard * command)) : Prop :=
  mixed (fun gc => exists u, u <> um /\ u <> ut /\ works_in (temporary root u) gc)
    (write_metadata_output schema asset_map (temporary root um)) (copy_tree name t (temporary root ut)) cs.

(** A unique name: nothing has it. *)
Definition unused (s : fs) (root : path) (u : string) : Prop := forall r, s (temporary root u ++ r) = None.

(** What is in the output directory, and what is not changed. *)
Definition output_metadata (root : path) : path := root ++ ["transformed_metadata"%string].
Definition output_transform_fn (root : path) : path := root ++ ["transform_fn"%string].
Definition inside (d q : path) : Prop := exists r, q = d ++ r.
Definition elsewhere (root q : path) : Prop :=
  ~ inside (output_metadata root) q /\ ~ inside (output_transform_fn root) q /\ ~ inside (root ++ ["transform_tmp"%string]) q /\
  ~ inside q root.

Definition published (root : path) (schema : string) (asset_map : option string) (t : tree) (s : fs) : Prop :=
  (forall r e, s (output_metadata root ++ r) = Some e <-> metadata schema asset_map r e) /\
  (forall r e, s (output_transform_fn root ++ r) = Some e <-> copied t r e) /\
  (forall r, s (root ++ "transform_tmp"%string :: r) = None).

(** The history of an output directory: runs that died, while they wrote to temporary
    directories or while they published, and attempts to publish that raised. *)
Inductive history (root : path) (s0 : fs) : fs -> Prop :=
| history_start : history root s0 s0
| history_work s cs s' : history root s0 s -> Forall (fun gc => exists u, works_in (temporary root u) gc) cs ->
    dies cs s s' -> history root s0 s'
| history_publish s um ut s' : history root s0 s -> dies (publish root um ut) s s' -> history root s0 s'
| history_raised s um ut s' e : history root s0 s -> run (publish root um ut) s = (s', Some e) -> history root s0 s'.

(** What was in a directory, or a part of it; what was in another one. *)
Definition old_or_less (d : path) (s s' : fs) : Prop := forall r, s' (d ++ r) = s (d ++ r) \/ s' (d ++ r) = None.
Definition moved (d d' : path) (s s' : fs) : Prop := forall r, s' (d' ++ r) = s (d ++ r).
(** The same work without other attempts next to it. *)
Definition undisturbed_work (root : path) (um ut schema : string) (asset_map : option string) (name : string) (t : tree)
    (cs : list (guard * command)) : Prop :=
  mixed (fun _ => False) (write_metadata_output schema asset_map (temporary root um)) (copy_tree name t (temporary root ut)) cs.
