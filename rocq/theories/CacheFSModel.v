(** The analyzer cache on a file system (beam/analyzer_cache.py): steps of a write, and reads. *)
From Coq Require Import String List Arith Bool.
Import ListNotations.
Open Scope list_scope.
Local Notation length := List.length.

Section fs.
  (** One record of a cache entry: an encoded accumulator. *)
  Context {A : Type}.

  (** The file [{index}-{number}-of-{count}]; its records. *)
  Record shard := Shard { index : nat; number : nat; count : nat; records : list A }.
  (** A manifest maps entry keys to indices; a Python dict, in insertion order. *)
  Notation dict := (list (string * nat)) (only parsing).
  (** The directory of a dataset.  [manifest]: None = there is no file; Some None = the file is empty or
      truncated, so that unpickling it raises (a pickle of protocol 0 ends with its only "." opcode). *)
  Record dir := Dir { manifest : option (option dict); data : list shard }.
  (** From the location of a dataset (CacheKeyModel.v) to its directory. *)
  Notation fs := (string -> dir) (only parsing).
  Definition empty_fs : fs := fun _ => Dir None [].

  (** ** Steps of a write; the process may die between any two of them *)
  Inductive step :=
  | RemoveManifest (d : string)            (** lines 166-168, 204-209: gfile.remove; NotFoundError is ignored *)
  | CreateManifest (d : string)            (** lines 210-214: the new file is there, its contents are not *)
  | FlushManifest (d : string) (m : dict)  (** lines 161-164, 174-175: closing the file writes the contents *)
  | RemoveShards (d : string) (i n : nat)  (** Beam's file sink, pre_finalize: removes [i-*-of-n] *)
  | WriteShard (d : string) (s : shard).   (** Beam's file sink, finalize_write: renames one finished shard *)

  Definition location (s : step) : string :=
    match s with RemoveManifest d | CreateManifest d | FlushManifest d _ | RemoveShards d _ _ | WriteShard d _ => d end.
  Definition same_file (s t : shard) : bool :=
    (index s =? index t) && (number s =? number t) && (count s =? count t).
  Definition dir_step (s : step) (x : dir) : dir :=
    match s with
    | RemoveManifest _ => Dir None (data x)
    | CreateManifest _ => Dir (Some None) (data x)
    | FlushManifest _ m => Dir (Some (Some m)) (data x)
    | RemoveShards _ i n => Dir (manifest x) (filter (fun t => negb ((index t =? i) && (count t =? n))) (data x))
    | WriteShard _ s => Dir (manifest x) (filter (fun t => negb (same_file s t)) (data x) ++ [s])
    end.
  Definition do_step (f : fs) (s : step) : fs :=
    fun d => if String.eqb d (location s) then dir_step s (f d) else f d.
  Definition exec (f : fs) (steps : list step) : fs := fold_left do_step steps f.

  (** ** Manifests *)

  (** lines 177-200 ([_get_manifest_contents], [read]).  GFile opens lazily: the "wb+" of [__enter__] (line 159)
      does not truncate the manifest before it is read. *)
  Definition read_manifest (x : dir) : dict := match manifest x with Some (Some m) => m | _ => [] end.
  Fixpoint get (k : string) (m : dict) : option nat :=
    match m with [] => None | (k', i) :: m' => if String.eqb k k' then Some i else get k m' end.
  (** manifest[k] = i *)
  Fixpoint set (k : string) (i : nat) (m : dict) : dict :=
    match m with
    | [] => [(k, i)]
    | (k', j) :: m' => if String.eqb k k' then (k', i) :: m' else (k', j) :: set k i m'
    end.
  (** line 303: max(manifest.values()) + 1 if manifest else 0 *)
  Definition next_index (m : dict) : nat :=
    match m with [] => 0 | _ => S (fold_right Nat.max 0 (map snd m)) end.

  (** ** WriteAnalysisCacheToFS *)

  (** The entries of a dataset's cache, each with the shards that the runner makes of its records. *)
  Notation entries := (list (string * list (list A))) (only parsing).

  (** lines 307-317: the loop over cache.cache_dict.items() *)
  Fixpoint assign (i : nat) (m : dict) (es : entries) : dict * list (nat * list (list A)) :=
    match es with
    | [] => (m, [])
    | (k, shards) :: es' => let '(m', writes) := assign (S i) (set k i m) es' in (m', (i, shards) :: writes)
    end.
  (** The steps of Beam's sink for one entry. *)
  Definition entry_steps (d : string) (w : nat * list (list A)) : list step :=
    let '(i, shards) := w in
    RemoveShards d i (length shards) ::
    map (fun p => WriteShard d (Shard i (fst p) (length shards) (snd p))) (combine (seq 0 (length shards)) shards).
  (** lines 301-326 ([_write_cache]): the steps taken at once, and those of the pipeline, per entry.  The
      dataset's METADATA file is left out. *)
  Definition write_dataset (x : dir) (d : string) (es : entries) : list step * list (list step) :=
    let m := read_manifest x in
    let '(m', writes) := assign (next_index m) m es in
    ([RemoveManifest d; CreateManifest d; FlushManifest d m'], map (entry_steps d) writes).
  (** lines 329-357 ([expand]): the loop over dataset_cache_dict.items() *)
  Fixpoint write_cache (f : fs) (request : list (string * entries)) : list step * list (list step) :=
    match request with
    | [] => ([], [])
    | (d, es) :: request' =>
        let '(now, later) := write_dataset (f d) d es in
        let '(now', later') := write_cache (exec f now) request' in
        (now ++ now', later ++ later')
    end.
  (** The workers of the pipeline take the steps of the entries in any interleaving. *)
  Inductive interleave : list (list step) -> list step -> Prop :=
  | interleave_done gs : Forall (fun g => g = []) gs -> interleave gs []
  | interleave_step gs1 s g gs2 l : interleave (gs1 ++ g :: gs2) l -> interleave (gs1 ++ (s :: g) :: gs2) (s :: l).
  (** [steps] is a run of the whole write, started in [f]: graph construction, then the pipeline. *)
  Definition write_run (f : fs) (request : list (string * entries)) (steps : list step) : Prop :=
    exists l, interleave (snd (write_cache f request)) l /\ steps = fst (write_cache f request) ++ l.

  (** ** ReadAnalysisCacheFromFS *)

  (** beam.io.ReadFromTFRecord("{index}-*-of-*"): None = IOError, no file matches *)
  Definition read_index (x : dir) (i : nat) : option (list A) :=
    match filter (fun s => index s =? i) (data x) with
    | [] => None
    | shards => Some (List.concat (map records shards))
    end.
  Fixpoint sequence {B} (l : list (option B)) : option (list B) :=
    match l with
    | [] => Some []
    | Some x :: l' => match sequence l' with Some r => Some (x :: r) | None => None end
    | None :: _ => None
    end.
  (** lines 400-427 ([expand]); [wanted]: [_should_read_cache_entry_key]; None = raised *)
  Definition read_cache (f : fs) (datasets : list string) (wanted : string -> bool)
      : option (list (string * list (string * list A))) :=
    sequence (map (fun d =>
        option_map (pair d)
          (sequence (map (fun e => option_map (pair (fst e)) (read_index (f d) (snd e)))
                         (filter (fun e => wanted (fst e)) (read_manifest (f d))))))
      (filter (fun d => match read_manifest (f d) with [] => false | _ => true end) datasets)).
End fs.
Arguments shard : clear implicits.
Arguments dir : clear implicits.
Arguments step : clear implicits.
