(** * Writing and reading a transform function

    Models /repo/tensorflow_transform/beam/tft_beam_io/transform_fn_io.py,
    beam_metadata_io.py and the parts of tf_metadata/metadata_io.py they use, on a file
    system on which a rename is atomic. *)
From Coq Require Import String.
From Coq Require Import List Arith Bool.
Import ListNotations.
Local Notation length := List.length.

(** A path: its components, from the root.  Names have no slashes. *)
Definition path := list string.
Inductive entry := Directory | File (contents : string).
Definition fs := path -> option entry.
Inductive error := NotFoundError | AlreadyExistsError | FailedPreconditionError.

(** The rest of [q] behind [p], when [q] is [p] or in [p]. *)
Fixpoint strip (p q : path) : option path :=
  match p, q with
  | [], _ => Some q
  | x :: p, y :: q => if String.eqb x y then strip p q else None
  | _ :: _, [] => None
  end.
Definition within (p q : path) : bool := match strip p q with Some _ => true | None => false end.
Definition is_file (e : option entry) : bool := match e with Some (File _) => true | _ => false end.
Definition is_dir (e : option entry) : bool := match e with Some Directory => true | _ => false end.
(** [q] and the directories around it *)
Fixpoint ancestors (q : path) : list path :=
  [] :: match q with [] => [] | x :: q => map (cons x) (ancestors q) end.
Definition parent (q : path) : path := removelast q.

(** ** Operations on the file system (tf.io.gfile) *)
Inductive command :=
| MakeDirs (p : path)                    (** gfile.makedirs, file_io.recursive_create_dir *)
| WriteFile (p : path) (c : string)      (** a file that may be there already *)
| CopyFile (p : path) (c : string)       (** gfile.copy of a file with the contents [c]: not over another one *)
| RemoveTree (p : path)                  (** gfile.rmtree *)
| Rename (p q : path).                   (** gfile.rename of a directory, to where there is nothing *)
(** [if gfile.exists(p)], [if not gfile.exists(p)] *)
Inductive guard := Always | IfExists (p : path) | IfAbsent (p : path).

Definition exists_ (s : fs) (p : path) : bool := match s p with Some _ => true | None => false end.
Definition holds (g : guard) (s : fs) : bool :=
  match g with Always => true | IfExists p => exists_ s p | IfAbsent p => negb (exists_ s p) end.

Definition fail (c : command) (s : fs) : option error :=
  match c with
  | MakeDirs p => if existsb (fun q => is_file (s q)) (ancestors p) then Some FailedPreconditionError else None
  | WriteFile p _ => if is_dir (s (parent p)) then (if is_dir (s p) then Some FailedPreconditionError else None) else Some NotFoundError
  | CopyFile p _ => if is_dir (s (parent p)) then (if exists_ s p then Some AlreadyExistsError else None) else Some NotFoundError
  | RemoveTree p => if exists_ s p then None else Some NotFoundError
  | Rename p q =>
      if exists_ s p && is_dir (s (parent q)) then
        (if exists_ s q || within p q then Some FailedPreconditionError else None)
      else Some NotFoundError
  end.
Definition effect (c : command) (s : fs) : fs :=
  match c with
  | MakeDirs p => fun q => if within q p then match s q with None => Some Directory | e => e end else s q
  | WriteFile p c | CopyFile p c => fun q => match strip p q with Some [] => Some (File c) | _ => s q end
  | RemoveTree p => fun q => if within p q then None else s q
  | Rename p q => fun r => match strip q r with
      | Some rest => s (p ++ rest)
      | None => if within p r then None else s r
      end
  end.
Fixpoint run (cs : list (guard * command)) (s : fs) : fs * option error :=
  match cs with
  | [] => (s, None)
  | (g, c) :: cs =>
      if holds g s then match fail c s with Some e => (s, Some e) | None => run cs (effect c s) end
      else run cs s
  end.

(** The states in which a process can die within an operation: some of the directories
    are made; a file is there with any contents; a part of a tree is removed, each
    directory after what is in it. *)
Definition within_operation (c : command) (s s' : fs) : Prop :=
  match c with
  | MakeDirs p => exists q, within q p = true /\ s' = effect (MakeDirs q) s
  | WriteFile p _ => exists c, s' = effect (WriteFile p c) s
  | CopyFile p _ => exists c, s' = effect (CopyFile p c) s
  | RemoveTree p => forall q, (s' q = s q \/ (within p q = true /\ s' q = None)) /\
                             (forall x, s' (q ++ [x]) <> None -> s' q = s q)
  | Rename _ _ => s' = s
  end.
Inductive dies : list (guard * command) -> fs -> fs -> Prop :=
| dies_now cs s : dies cs s s
| dies_within g c cs s s' : holds g s = true -> fail c s = None -> within_operation c s s' -> dies ((g, c) :: cs) s s'
| dies_later g c cs s s' : holds g s = true -> fail c s = None -> dies cs (effect c s) s' -> dies ((g, c) :: cs) s s'
| dies_skipped g c cs s s' : holds g s = false -> dies cs s s' -> dies ((g, c) :: cs) s s'.

(** ** Writing *)

(** output_wrapper.py:64-66, transform_fn_io.py:85, impl_helper.py:52 *)
Definition metadata_dir : string := "transformed_metadata".
Definition transform_fn_dir : string := "transform_fn".
Definition temp_dir : string := "transform_tmp".
Definition asset_map_file : string := "asset_map".
Definition metadata_dir_name : string := ".tft_metadata".

(** metadata_io.py:117-129 [write_metadata]; the schema is replaced atomically, by a
    rename of a temporary file (left out). *)
Definition write_metadata (schema : string) (p : path) : list (guard * command) :=
  [(IfAbsent p, MakeDirs p); (Always, WriteFile (p ++ ["schema.pbtxt"%string]) schema)].
(** beam_metadata_io.py:93-106 [write_metadata_output]; [asset_map] is its JSON text, if
    it is not empty *)
Definition write_metadata_output (schema : string) (asset_map : option string) (p : path) : list (guard * command) :=
  write_metadata schema p ++
  match asset_map with None => [] | Some text => [(Always, WriteFile (p ++ [asset_map_file]) text)] end.

(** What is copied: a file, or a directory with the entries that are listed. *)
Inductive tree := Leaf (contents : string) | Node (children : list (string * tree)).

(** transform_fn_io.py:39-56 [_copy_tree]; [name] is the last component of the source *)
Fixpoint copy_tree (name : string) (t : tree) (destination : path) : list (guard * command) :=
  match t with
  | Leaf c => [(Always, CopyFile destination c)]
  | Node children =>
      if String.eqb name metadata_dir_name then []
      else (Always, MakeDirs destination) ::
           flat_map (fun nt => copy_tree (fst nt) (snd nt) (destination ++ [fst nt])) children
  end.

(** transform_fn_io.py:83-100: [os.path.join(self._path, "transform_tmp")], and in it the
    unique name [u] ([get_unique_temp_path]) *)
Definition base (root : path) : path := root ++ [temp_dir].
Definition temp (root : path) (u : string) : path := base root ++ [u].

(** transform_fn_io.py:105-126 [publish_outputs], of the metadata in the temporary
    directory [um] and the transform function in [ut] *)
Definition publish (root : path) (um ut : string) : list (guard * command) :=
  [(IfAbsent root, MakeDirs root);
   (IfExists (root ++ [metadata_dir]), RemoveTree (root ++ [metadata_dir]));
   (Always, Rename (temp root um) (root ++ [metadata_dir]));
   (IfExists (root ++ [transform_fn_dir]), RemoveTree (root ++ [transform_fn_dir]));
   (Always, Rename (temp root ut) (root ++ [transform_fn_dir]));
   (IfExists (base root), RemoveTree (base root))].

(** ** Reading *)

(** metadata_io.py:29-46 [read_metadata]: the text of the schema, and whether it is in
    the legacy format; [None] is OSError.  Parsing is left out. *)
Definition read_metadata (s : fs) (p : path) : option (bool * string) :=
  match s (p ++ ["schema.pbtxt"%string]) with
  | Some (File text) => Some (false, text)
  | _ => match s (p ++ ["v1-json"; "schema.json"]%string) with
         | Some (File text) => Some (true, text)
         | _ => None
         end
  end.
(** transform_fn_io.py:144-164 [ReadTransformFn]: the directory of the transform function
    and the metadata *)
Definition read_transform_fn (s : fs) (root : path) : option (path * (bool * string)) :=
  match read_metadata s (root ++ [metadata_dir]) with
  | Some m => Some (root ++ [transform_fn_dir], m)
  | None => None
  end.
