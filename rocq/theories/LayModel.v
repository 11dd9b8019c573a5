(** * Which function a TransformFeaturesLayer applies, and where it has been loaded
    /repo/tensorflow_transform/output_wrapper.py:76-110, 284-393, 470-556.
    A history of uses of one TFTransformOutput: each in a context of TensorFlow, with what is then in the files.
    Simplified: loading succeeds, except where a TF1 SavedModel is expected and a TF2 one is found. *)
From Coq Require Import List Bool Arith.
Import ListNotations.

(** executing_eagerly_outside_functions, and the default graph *)
Record context := Context { eager : bool; default_graph : nat }.
(** Where the variables and tables of a loaded function are. *)
Inductive place := Eager | In_graph (g : nat).

Section model.
  Variable F : Type.
  (** The graph around a graph: of that of a tf.function the one it is built in, of another itself.  tf.saved_model.load lifts what
      it makes out of functions (ops.init_scope). *)
  Variable outermost : nat -> nat.

  (** A SavedModel: whether it was exported by TF1, and its function *)
  Record saved := Saved { as_v1 : bool; fn : F }.
  (** SavedModelLoader, saved_transform_io_v2.py:127-171 *)
  Record loader := Loader { l_fn : F; l_place : place }.
  Definition load (c : context) (files : saved) : loader :=
    Loader (fn files) (if eager c then Eager else In_graph (outermost (default_graph c))).

  (** TransformFeaturesLayer, 478-498; [loads]: how often a SavedModel was loaded *)
  Record layer := Layer {
    y_v1 : bool; y_loader : option loader; y_graph : option nat; y_tracked : option loader; loads : nat }.

  (** _saved_model_loader, 510-537; [None]: the assertion fails *)
  Definition reload (c : context) (files : saved) (y : layer) : loader * layer :=
    let l := load c files in (l, Layer (y_v1 y) (Some l) (Some (default_graph c)) (y_tracked y) (S (loads y))).
  Definition saved_model_loader (c : context) (files : saved) (y : layer) : option (loader * layer) :=
    let '(l, y) := match y_loader y with Some l => (l, y) | None => reload c files y end in
    if eager c then Some (l, y)
    else if y_v1 y then None
    else match y_graph y with
      | Some g => if g =? default_graph c then Some (l, y) else Some (reload c files y)
      | None => Some (reload c files y)
      end.

  (** __init__, 477-508 *)
  Definition new_layer (c : context) (files : saved) (v1 : bool) : option layer :=
    let y := Layer v1 None None None 0 in
    if eager c then
      match saved_model_loader c files y with
      | Some (l, y) => Some (Layer (y_v1 y) (y_loader y) (y_graph y) (Some l) (loads y))
      | None => None
      end
    else Some y.

  (** What was applied: the function, where it is, and whether outputs of features that are not given are left out. *)
  Record applied := Applied { a_fn : F; a_place : place; a_drop : bool }.
  Inductive result := Gave (a : applied) | Assertion_error | Value_error.

  (** _transform_raw_features_compat_v1, 352-381: the files are imported into the default graph each time. *)
  Definition compat_v1 (c : context) (files : saved) (drop : bool) : result :=
    if as_v1 files then Gave (Applied (fn files) (In_graph (default_graph c)) drop) else Value_error.

  (** call, 545-556; apply_transform_model leaves out what is not determined. *)
  Definition call (c : context) (files : saved) (y : layer) : result * layer :=
    if y_v1 y && negb (eager c) then (compat_v1 c files true, y)
    else match saved_model_loader c files y with
      | Some (l, y) => (Gave (Applied (l_fn l) (l_place l) true), y)
      | None => (Assertion_error, y)
      end.

  (** TFTransformOutput: what it remembers, 76-81 *)
  Record output := Output { o_v1 : option bool; o_layer : option layer }.
  Definition fresh : output := Output None None.
  (** _exported_as_v1, 98-108 *)
  Definition exported_as_v1 (files : saved) (o : output) : bool * output :=
    match o_v1 o with Some b => (b, o) | None => (as_v1 files, Output (Some (as_v1 files)) (o_layer o)) end.
  (** transform_features_layer, 283-297 *)
  Definition transform_features_layer (c : context) (files : saved) (o : output) : option (layer * output) :=
    match o_layer o with
    | Some y => Some (y, o)
    | None =>
      let '(v1, o) := exported_as_v1 files o in
      match new_layer c files v1 with Some y => Some (y, Output (o_v1 o) (Some y)) | None => None end
    end.
  Definition call_layer (c : context) (files : saved) (o : output) : result * output :=
    match transform_features_layer c files o with
    | None => (Assertion_error, o)
    | Some (y, o) => let '(r, y) := call c files y in (r, Output (o_v1 o) (Some y))
    end.

  (** Uses: transform_features_layer()(features), transform_raw_features(features, drop), 299-350, load_transform_graph, 383-403 *)
  Inductive use := Call_layer | Transform_raw_features (drop : bool) | Load_transform_graph.
  Record event := Event { e_context : context; e_files : saved; e_use : use }.
  Definition step (o : output) (e : event) : result * output :=
    let c := e_context e in let files := e_files e in
    match e_use e with
    | Call_layer => call_layer c files o
    | Transform_raw_features drop =>
      let '(v1, o) := exported_as_v1 files o in
      if v1 then (compat_v1 c files drop, o) else call_layer c files o
    | Load_transform_graph =>
      let '(v1, o) := exported_as_v1 files o in
      if v1 then (compat_v1 c files false, o) else call_layer c files o
    end.
  Fixpoint after (h : list event) (o : output) : output :=
    match h with [] => o | e :: h => after h (snd (step o e)) end.
  (** What a use gives after a history of uses *)
  Definition gives (h : list event) (e : event) : result := fst (step (after h fresh) e).
  Definition loaded (h : list event) : nat := match o_layer (after h fresh) with Some y => loads y | None => 0 end.
  Definition tracked (h : list event) : option loader := match o_layer (after h fresh) with Some y => y_tracked y | None => None end.
End model.
