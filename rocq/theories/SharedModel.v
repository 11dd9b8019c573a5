(** * The graph that the threads of a worker share

    Models /repo/tensorflow_transform/beam/impl.py:136-159 and 163-449: the life of the graph state of
    _RunMetaGraphDoFn in one worker process, and apache_beam.utils.shared, which it uses. *)
From Coq Require Import String List Bool Arith.
Import ListNotations.
Local Open Scope list_scope.

Section worker.
  (** Saved models once loaded, record batches and what a model makes of them.  [load p d] is the graph state
      that the DoFn of ParDo [p] makes of the directory [d] (impl.py:395-411; the inputs and outputs it
      uses are those of the ParDo); None is an exception. *)
  Context {model batch out : Type} (load : nat -> string -> option model) (run : model -> batch -> option out).

  (** A graph state (impl.py:178-257) on the heap, until it is collected. *)
  Record object := Object { o_handle : nat; o_dir : string; o_model : model; o_collected : bool }.
  (** A call of process() that has its graph state (None: loading it raised) but not its outputs. *)
  Record request := Request { r_batch : batch; r_dir : string; r_state : option nat; r_acquired : bool }.
  (** A copy of the DoFn of a ParDo; each is used by one thread at a time. *)
  Record dofn := DoFn { f_pardo : nat; f_state : option nat; f_request : option request; f_up : bool }.
  (** What process() did: its outputs, or an exception. *)
  Inductive outcome := Yielded (o : out) | Graph_error | Wrong_directory | Load_error.
  Record entry := Entry { e_pardo : nat; e_batch : batch; e_dir : string; e_outcome : outcome }.
  (** shared._SharedMap: a weak reference for each handle, and the object that was acquired last. *)
  Record process := Process {
    objects : list object; references : list (nat * nat); keepalive : option nat;
    dofns : list dofn; log : list entry; loads : list nat }.
  Definition new_process : process := Process [] [] None [] [] [].

  (** impl.py:873 and 1727: every ParDo has a shared.Shared() of its own, with a key of its own; copies of the DoFn,
      which are made by pickling, have the same key. *)
  Definition handle_of (pardo : nat) : nat := pardo.

  Inductive event :=
  | Set_up (pardo : nat)              (* a new copy of a DoFn *)
  | Call (f : nat) (b : batch) (saved_model_dir : string)   (* process() is called, and gets its graph state *)
  | Return (f : nat)                  (* the call goes on to its end *)
  | Tear_down (f : nat)               (* the copy is dropped *)
  | Clear                             (* impl.py:136-159: an empty Shared() is acquired *)
  | Collect (o : nat).                (* the garbage collector visits an object *)

  Fixpoint update {A} (l : list A) (n : nat) (a : A) : list A :=
    match l, n with
    | [], _ => []
    | _ :: l', 0 => a :: l'
    | x :: l', S n' => x :: update l' n' a
    end.
  Definition reference (s : process) (handle : nat) : option nat := option_map snd (find (fun r => fst r =? handle) (references s)).
  (** A weak reference called: None if its object is collected. *)
  Definition dereference (s : process) (handle : nat) : option nat :=
    match reference s handle with
    | Some o => match nth_error (objects s) o with
                | Some ob => if o_collected ob then None else Some o
                | None => None
                end
    | None => None
    end.
  (** shared._SharedControlBlock.acquire, which is under a lock; the object it returns. *)
  Definition acquire (s : process) (pardo : nat) (dir : string) : process * option nat :=
    match dereference s (handle_of pardo) with
    | Some o => (s, Some o)
    | None =>
        match load pardo dir with
        | Some m =>
            let o := length (objects s) in
            (Process (objects s ++ [Object (handle_of pardo) dir m false]) ((handle_of pardo, o) :: references s)
                     (keepalive s) (dofns s) (log s) (loads s ++ [pardo]), Some o)
        | None => (s, None)
        end
    end.
  Definition set_dofn (s : process) (f : nat) (d : dofn) : process :=
    Process (objects s) (references s) (keepalive s) (update (dofns s) f d) (log s) (loads s).

  (** impl.py:439-445, up to the object *)
  Definition call (s : process) (f : nat) (d : dofn) (b : batch) (dir : string) : process :=
    match f_state d with
    | Some o => set_dofn s f (DoFn (f_pardo d) (f_state d) (Some (Request b dir (Some o) false)) true)
    | None =>
        let (s', o) := acquire s (f_pardo d) dir in
        set_dofn s' f (DoFn (f_pardo d) None (Some (Request b dir o true)) true)
    end.
  (** impl.py:354-393, without passthrough columns: those of TransformModel *)
  Definition handle_batch (ob : object) (b : batch) : outcome :=
    match run (o_model ob) b with Some y => Yielded y | None => Graph_error end.
  (** impl.py:441-449, from the object on: the object is kept alive by the map and by the DoFn. *)
  Definition return_ (s : process) (f : nat) (d : dofn) (r : request) : process :=
    match r_state r with
    | None => Process (objects s) (references s) (keepalive s) (update (dofns s) f (DoFn (f_pardo d) None None true))
                      (log s ++ [Entry (f_pardo d) (r_batch r) (r_dir r) Load_error]) (loads s)
    | Some o =>
        let result :=
          match nth_error (objects s) o with
          | Some ob => if String.eqb (o_dir ob) (r_dir r) then handle_batch ob (r_batch r) else Wrong_directory
          | None => Load_error
          end in
        Process (objects s) (references s) (if r_acquired r then Some o else keepalive s)
                (update (dofns s) f (DoFn (f_pardo d) (Some o) None true))
                (log s ++ [Entry (f_pardo d) (r_batch r) (r_dir r) result]) (loads s)
    end.

  (** Whether anything but weak references refers to an object. *)
  Definition refers (o : nat) (x : option nat) : bool := match x with Some o' => o =? o' | None => false end.
  Definition reachable (s : process) (o : nat) : bool :=
    refers o (keepalive s)
    || existsb (fun d => f_up d && (refers o (f_state d) || match f_request d with Some r => refers o (r_state r) | None => false end)) (dofns s).
  Definition collect (s : process) (o : nat) : process :=
    if reachable s o then s
    else match nth_error (objects s) o with
         | Some ob => Process (update (objects s) o (Object (o_handle ob) (o_dir ob) (o_model ob) true)) (references s)
                              (keepalive s) (dofns s) (log s) (loads s)
         | None => s
         end.

  (** An event that cannot happen changes nothing: see [well_formed] in SharedSpec. *)
  Definition step (s : process) (e : event) : process :=
    match e with
    | Set_up p => Process (objects s) (references s) (keepalive s) (dofns s ++ [DoFn p None None true]) (log s) (loads s)
    | Call f b dir =>
        match nth_error (dofns s) f with
        | Some d => if f_up d then match f_request d with None => call s f d b dir | Some _ => s end else s
        | None => s
        end
    | Return f =>
        match nth_error (dofns s) f with
        | Some d => match f_request d with Some r => return_ s f d r | None => s end
        | None => s
        end
    | Tear_down f =>
        match nth_error (dofns s) f with
        | Some d => match f_request d with None => set_dofn s f (DoFn (f_pardo d) None None false) | Some _ => s end
        | None => s
        end
    | Clear => Process (objects s) (references s) None (dofns s) (log s) (loads s)
    | Collect o => collect s o
    end.
  Definition execute (schedule : list event) : process := fold_left step schedule new_process.
End worker.
Arguments event : clear implicits.
Arguments outcome : clear implicits.
Arguments entry : clear implicits.
Arguments object : clear implicits.
