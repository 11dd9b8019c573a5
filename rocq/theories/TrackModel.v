(** Objects tracked with tft.make_and_track_object while a preprocessing function is traced. *)
From Coq Require Import String List Bool Arith.
Import ListNotations.

(** What a factory does: raise, return None, or return an object, which may be a Keras layer. *)
Inductive factory := Fails | GivesNone | Gives (layer : bool).
(** A call of make_and_track_object(factory, name). *)
Record call := Call { c_factory : factory; c_name : option string }.

(** The object made by the factory of the [i]-th call, and an attribute every module has. *)
Inductive object := Made (i : nat) | Attribute (name : string).
(** A value of Python: None or an object. *)
Definition value := option object.

Inductive exception := NotInFunction | NoModule | NoTracker | Factory | KerasWithoutName | AlreadyTracked.
Inductive result := Returns (v : value) | Raises (e : exception).

(** What is there when a call is made: [inside_function] (tf.inside_function()), [tracker]: an
    object_tracker_scope is active (annotators.py:78-99), [module]: a TFGraphContext with a module to export
    is active (graph_context.py:131-140); [builtin]: the attributes that a new tf.Module has. *)
Record environment := Env { inside_function : bool; tracker : bool; module : bool; builtin : string -> option value }.

(** [attributes]: attributes set on the module; [objects]: the list of the tracker; [clock]: the number of
    calls made so far; [invoked]: the calls that invoked their factory. *)
Record state := State { attributes : list (string * value); objects : list value; clock : nat; invoked : list nat }.
Definition initial : state := State [] [] 0 [].

Section env.
  Variable env : environment.

  (** getattr(module, name), None if there is no such attribute; hasattr *)
  Definition attribute (st : state) (name : string) : option value :=
    match find (fun a => String.eqb name (fst a)) (attributes st) with
    | Some (_, v) => Some v
    | None => builtin env name
    end.

  (** annotators.py:102-114 ([_get_object]) *)
  Definition get_object (st : state) (name : string) : result :=
    if module env then Returns (match attribute st name with Some v => v | None => None end)
    else Raises NoModule.

  (** annotators.py:51-74 ([add_trackable_object]) *)
  Definition add_trackable_object (st : state) (o : value) (name : option string) : state * option exception :=
    match name with
    | None => (State (attributes st) (objects st ++ [o]) (clock st) (invoked st), None)
    | Some n =>
        if module env then
          match attribute st n with
          | Some _ => (st, Some AlreadyTracked)
          | None => (State (attributes st ++ [(n, o)]) (objects st) (clock st) (invoked st), None)
          end
        else (st, Some NoModule)
    end.

  (** annotators.py:117-124 ([track_object]) *)
  Definition track_object (st : state) (o : value) (name : option string) : state * option exception :=
    if tracker env then add_trackable_object st o name else (st, Some NoTracker).

  (** annotators.py:127-191 ([make_and_track_object]) *)
  Definition make_and_track_object (st : state) (c : call) : state * result :=
    if inside_function env then
      match (match c_name c with Some n => get_object st n | None => Returns None end) with
      | Raises e => (st, Raises e)
      | Returns (Some o) => (st, Returns (Some o))
      | Returns None =>
          let st := State (attributes st) (objects st) (clock st) (invoked st ++ [clock st]) in
          match c_factory c, c_name c with
          | Fails, _ => (st, Raises Factory)
          | Gives true, None => (st, Raises KerasWithoutName)
          | f, name =>
              let o := match f with Gives _ => Some (Made (clock st)) | _ => None end in
              match track_object st o name with
              | (st, None) => (st, Returns o)
              | (st, Some e) => (st, Raises e)
              end
          end
      end
    else (st, Raises NotInFunction).

  Definition tick (st : state) : state := State (attributes st) (objects st) (S (clock st)) (invoked st).

  (** The calls of all the traces made in one scope, in order.  tf.function traces a function more than once
      if it creates variables; the module and the tracker stay the same.  A preprocessing function may catch
      an exception and go on. *)
  Fixpoint run (st : state) (calls : list call) : state * list result :=
    match calls with
    | [] => (st, [])
    | c :: calls =>
        let '(st, r) := make_and_track_object st c in
        let '(st, rs) := run (tick st) calls in
        (st, r :: rs)
    end.

  (** ** saved/saved_transform_io_v2.py:536-579 ([trace_and_update_module]) *)

  (** setattr: the value of an attribute that is set is replaced *)
  Fixpoint set_attribute (l : list (string * value)) (name : string) (v : value) : list (string * value) :=
    match l with
    | [] => [(name, v)]
    | (n, w) :: l => if String.eqb name n then (n, v) :: l else (n, w) :: set_attribute l name v
    end.
  (** The attributes that are set after tracing, [fn] being the name of the traced function (553-578): what
      they hold is made here, except that trackable_objects holds the list of the tracker. *)
  Definition set_after_tracing (fn : string) : list string :=
    ["pruned_variables"; fn; "created_variables"; "resources"; "trackable_objects"; "initializers"; "assets"]%string.
  Definition module_after (fn : string) (st : state) : list (string * value) :=
    fold_left (fun l n => set_attribute l n None) (set_after_tracing fn) (attributes st).

  (** The objects that are saved with the module: those its attributes hold, and those of the list
      trackable_objects. *)
  Definition saved (fn : string) (st : state) : list value := map snd (module_after fn st) ++ objects st.
End env.

(** The scope of a trace (annotators.py:78-99, impl_helper.py:445-456, saved_transform_io_v2.py:541-545). *)
Definition scope (builtin : string -> option value) : environment := Env true true true builtin.

(** ** object_tracker_scope (annotators.py:78-99) *)

(** Programs that enter scopes; [Body ok]: code that finishes or raises. *)
Inductive program := Body (ok : bool) | Scope (tracker : nat) (p : program) | Seq (p q : program).
(** The global _OBJECT_TRACKER before and after, and whether the program finished; nested scopes are an
    AssertionError, raised before anything is changed. *)
Fixpoint exec (p : program) (current : option nat) : option nat * bool :=
  match p with
  | Body ok => (current, ok)
  | Scope t p =>
      match current with
      | Some _ => (current, false)
      | None => let '(_, ok) := exec p (Some t) in (None, ok)
      end
  | Seq p q => let '(current, ok) := exec p current in if ok then exec q current else (current, false)
  end.
