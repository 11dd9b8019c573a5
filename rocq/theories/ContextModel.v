(** * Model of the contexts of the pipeline and of the traced graph

    beam/context.py and graph_context.py: `Context` keeps a stack of frames, and
    `TFGraphContext` one current state, in thread-local storage.  Threads run programs
    of `with` blocks, exceptions and getters, one step of some thread at a time. *)
From Coq Require Import String Ascii List Bool Arith ZArith.
From Verif Require Import CacheKeyModel.
Import ListNotations.
Open Scope string_scope.

(** beam/context.py:54-64 `Context._State`, and the arguments 83-91.  A
    `tf.saved_model.SaveOptions` is an opaque object, here a number; such an object is
    always true. *)
Record settings := Settings {
  temp_dir : option string;
  desired_batch_size : option Z;
  passthrough_keys : option (list string);
  use_deep_copy : option bool;
  force_compat_v1 : option bool;
  save_options : option nat }.

(** beam/context.py:66-69 `make_empty` *)
Definition make_empty : settings := Settings None None None None None None.

(** graph_context.py:49-64 `TFGraphContext._State`; modules and replacements are
    opaque *)
Record graph_settings := GraphSettings {
  module_to_export : nat;
  graph_temp_dir : option string;
  evaluated_replacements : option nat }.

(** One thread's attributes of `Context._thread_local` (context.py:81) and
    `TFGraphContext._thread_local` (graph_context.py:68): [None] if the attribute is
    missing.  The top of the stack of frames comes first. *)
Record slot := Slot {
  state : option (list settings);
  current_state : option (option graph_settings) }.

Definition no_slot : slot := Slot None None.

Inductive error := AttributeError | AssertionError | ValueError | IndexError | OtherError.

(** context.py:92-97: the first construction in a thread makes its stack.  A
    `_StateStack` is always true. *)
Definition construct (s : slot) : slot :=
  match state s with
  | Some _ => s
  | None => Slot (Some [make_empty]) (current_state s)
  end.

(** context.py:133-137 `_get_topmost_state_frame` *)
Definition topmost (s : slot) : settings :=
  match state s with
  | Some (f :: _) => f
  | _ => make_empty
  end.

Definition inherit {A} (own last : option A) : option A :=
  match own with Some _ => own | None => last end.

(** context.py:106-128 `__enter__` *)
Definition enter (c : settings) (s : slot) : slot + error :=
  let last := topmost s in
  match state s with
  | None => inr AttributeError
  | Some frames =>
      inl (Slot (Some (Settings
             (inherit (temp_dir c) (temp_dir last))
             (inherit (desired_batch_size c) (desired_batch_size last))
             (inherit (passthrough_keys c) (passthrough_keys last))
             (inherit (use_deep_copy c) (use_deep_copy last))
             (inherit (force_compat_v1 c) (force_compat_v1 last))
             (inherit (save_options c) (save_options last)) :: frames))
           (current_state s))
  end.

(** context.py:130-131 `__exit__` *)
Definition leave (s : slot) : slot + error :=
  match state s with
  | None => inr AttributeError
  | Some [] => inr IndexError
  | Some (_ :: frames) => inl (Slot (Some frames) (current_state s))
  end.

(** graph_context.py:80-86 `__enter__` *)
Definition graph_enter (c : graph_settings) (s : slot) : slot + error :=
  match current_state s with
  | Some (Some _) => inr AssertionError
  | _ => inl (Slot (state s) (Some (Some c)))
  end.

(** graph_context.py:88-89 `__exit__` *)
Definition graph_leave (s : slot) : slot := Slot (state s) (Some None).

(** The class methods a program may call *)
Inductive getter :=
| BaseTempDir | BatchSize | PassthroughKeys | UseDeepCopy | UseCompatV1 | SaveOptions
| GraphTempDir | EvaluatedReplacements | ModuleToExport.

Inductive value :=
| NoneV | IntV (z : Z) | KeysV (l : list string) | BoolV (b : bool) | PathV (l : list ascii)
| ObjectV (n : nat).

Definition optional {A} (f : A -> value) (default : value) (o : option A) : value :=
  match o with Some x => f x | None => default end.

(** context.py:139-204, graph_context.py:94-141.  [tf1] stands for what
    tf2_utils.py:36-40 `use_tf_compat_v1` reads from TensorFlow.  That the directory
    is also made is left out. *)
Definition get (tf1 : bool) (q : getter) (s : slot) : value + error :=
  let f := topmost s in
  (* graph_context.py:94-99 `_get_current_state`: [None] has no attributes *)
  let graph (k : option graph_settings -> value + error) : value + error :=
    match current_state s with
    | None => k None
    | Some None => inr AttributeError
    | Some (Some g) => k (Some g)
    end in
  match q with
  | BaseTempDir =>
      match temp_dir f with
      | None | Some "" => inr ValueError
      | Some d => inl (PathV (join (text d) (text "tftransform_tmp")))
      end
  | BatchSize => inl (optional IntV NoneV (desired_batch_size f))
  | PassthroughKeys => inl (optional KeysV (KeysV []) (passthrough_keys f))
  | UseDeepCopy => inl (optional BoolV (BoolV false) (use_deep_copy f))
  | UseCompatV1 =>
      inl (BoolV (match force_compat_v1 f with Some b => b | None => false end || tf1))
  | SaveOptions => inl (optional ObjectV NoneV (save_options f))
  | GraphTempDir =>
      graph (fun g =>
        match g with
        | None => inl NoneV
        | Some g =>
            match graph_temp_dir g with
            | None => inl NoneV
            | Some "" => inr ValueError
            | Some d => inl (PathV (join (text d) (text "analyzer_temporary_assets")))
            end
        end)
  | EvaluatedReplacements =>
      graph (fun g => inl (match g with
                           | None => NoneV
                           | Some g => optional ObjectV NoneV (evaluated_replacements g)
                           end))
  | ModuleToExport =>
      graph (fun g => inl (match g with
                           | None => NoneV
                           | Some g => ObjectV (module_to_export g)
                           end))
  end.

(** A program that uses the contexts; each statement comes with what follows it.
    [WithNew] is `with Context(..):`.  [WithOld] enters an object that was constructed
    at some other place, perhaps in another thread or long ago. *)
Inductive prog :=
| Done
| New (c : settings) (rest : prog)
| Get (q : getter) (rest : prog)
| Raise
| WithNew (c : settings) (body rest : prog)
| WithOld (c : settings) (body rest : prog)
| WithGraph (c : graph_settings) (body rest : prog)
| Try (body handler rest : prog).

(** What a program sees: the value of a getter, or an exception it catches. *)
Inductive seen := Value (v : value) | Caught (e : error).

(** The control stack of a thread: what runs when the block above has ended. *)
Inductive item := Run (p : prog) | Exit | GraphExit | Catch (handler : prog).

Record thread := Thread {
  control : list item;
  raising : option error;
  local : slot;
  trace : list seen }.

Definition start (p : prog) : thread := Thread [Run p] None no_slot [].

(** One step of a thread.  An exception unwinds the control stack; each `with` block
    on it is left by its `__exit__`, as Python does.  An exception in `__enter__` leaves
    the block out. *)
Definition step (tf1 : bool) (t : thread) : thread :=
  let (k, r, s, tr) := t in
  match k, r with
  | [], _ => t
  | Run Done :: k, None => Thread k None s tr
  | Run (New c p) :: k, None => Thread (Run p :: k) None (construct s) tr
  | Run (Get q p) :: k, None =>
      match get tf1 q s with
      | inl v => Thread (Run p :: k) None s (tr ++ [Value v])%list
      | inr e => Thread k (Some e) s tr
      end
  | Run Raise :: k, None => Thread k (Some OtherError) s tr
  | Run (WithNew c b p) :: k, None =>
      match enter c (construct s) with
      | inl s' => Thread (Run b :: Exit :: Run p :: k) None s' tr
      | inr e => Thread k (Some e) (construct s) tr
      end
  | Run (WithOld c b p) :: k, None =>
      match enter c s with
      | inl s' => Thread (Run b :: Exit :: Run p :: k) None s' tr
      | inr e => Thread k (Some e) s tr
      end
  | Run (WithGraph c b p) :: k, None =>
      match graph_enter c s with
      | inl s' => Thread (Run b :: GraphExit :: Run p :: k) None s' tr
      | inr e => Thread k (Some e) s tr
      end
  | Run (Try b h p) :: k, None => Thread (Run b :: Catch h :: Run p :: k) None s tr
  | Run _ :: k, Some e => Thread k (Some e) s tr
  | Exit :: k, _ =>
      match leave s with
      | inl s' => Thread k r s' tr
      | inr e => Thread k (Some e) s tr
      end
  | GraphExit :: k, _ => Thread k r (graph_leave s) tr
  | Catch h :: k, None => Thread k None s tr
  | Catch h :: k, Some e => Thread (Run h :: k) None s (tr ++ [Caught e])%list
  end.

(** Many threads: a schedule names the thread of each step. *)
Definition threads := nat -> thread.

Definition start_all (programs : nat -> prog) : threads := fun i => start (programs i).

Definition schedule_step (tf1 : bool) (w : threads) (i : nat) : threads :=
  fun j => if Nat.eqb i j then step tf1 (w i) else w j.

Definition run_schedule (tf1 : bool) (w : threads) (schedule : list nat) : threads :=
  fold_left (schedule_step tf1) schedule w.
