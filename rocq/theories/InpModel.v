(** * Analysis in place: a transform function that needs no data
    /repo/tensorflow_transform/impl_helper.py:677-759, with tf2_utils.py:31-40, 492-522 (_trace_and_write_transform_fn), 525-553
    (_trace_and_get_metadata), saved/saved_transform_io.py:458-481, saved/saved_transform_io_v2.py:582-598 and
    tf_metadata/metadata_io.py:116-129.
    The states of the directory are listed one by one, so that a crash can be anywhere between them. *)
From Coq Require Import List Bool Arith.
Import ListNotations.

Section model.
  Variables P F M : Type.       (* preprocessing functions, transform functions, metadata *)
  (** Tracing: an exception, or the function and how many analyzers there are in the collection TENSOR_REPLACEMENTS; the argument is
      whether TF1 is used. *)
  Variable trace : bool -> P -> option (F * nat).
  (** The initializers of variables and tables can be run, 724-726. *)
  Variable initializers : P -> bool.
  (** infer_feature_schema and infer_feature_schema_v2: an exception, or metadata *)
  Variable infer : bool -> P -> option M.

  (** A directory of a SavedModel: absent, incomplete, or complete *)
  Inductive model := Absent | Incomplete | Complete (f : F).
  (** The directories transform_fn and transformed_metadata under the output path *)
  Record files := Files { transform_fn : model; transformed_metadata : option M }.
  Inductive outcome := Done | Tracing_error | Analyzers_error | Initializer_error | Exists_error | Metadata_error.

  (** write_saved_transform_from_session: the SavedModelBuilder refuses directories that have something in them. *)
  Definition write_v1 (f : F) (s : files) : option (list files) :=
    match transform_fn s with
    | Absent => Some [Files Incomplete (transformed_metadata s); Files (Complete f) (transformed_metadata s)]
    | _ => None
    end.
  (** write_v2_saved_model: tf.saved_model.save replaces what is there. *)
  Definition write_v2 (f : F) (s : files) : list files :=
    [Files Incomplete (transformed_metadata s); Files (Complete f) (transformed_metadata s)].
  (** write_metadata: the file is written atomically. *)
  Definition write_metadata (m : M) (s : files) : list files := [Files (transform_fn s) (Some m)].
  (** _assert_no_analyzers_in_graph, 677-683 *)
  Definition no_analyzers (analyzers : nat) : bool := analyzers =? 0.

  (** The metadata is inferred and written, 732-736, 750-759. *)
  Definition finish (compat : bool) (p : P) (s : files) (states : list files) : list files * outcome :=
    match infer compat p with
    | None => (states, Metadata_error)
    | Some m => (states ++ write_metadata m (last states s), Done)
    end.
  (** analyze_in_place, 686-759, where [compat] is use_tf_compat_v1 (tf2_utils.py:31-40): the states the directory goes through from [s], and the outcome *)
  Definition analyze_in_place (compat : bool) (p : P) (s : files) : list files * outcome :=
    match trace compat p with
    | None => ([s], Tracing_error)
    | Some (f, analyzers) =>
      if compat then
        if no_analyzers analyzers then
          if initializers p then
            match write_v1 f s with
            | Some states => finish compat p s (s :: states)
            | None => ([s], Exists_error)
            end
          else ([s], Initializer_error)
        else ([s], Analyzers_error)
      else
        let states := s :: write_v2 f s in
        if no_analyzers analyzers then finish compat p s states else (states, Analyzers_error)
    end.
End model.
