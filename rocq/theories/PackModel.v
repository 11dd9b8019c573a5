(** * Packed combiners

    Models /repo/tensorflow_transform/beam/analyzer_impls.py:961-1064
    ([_CombinerWrapper], [_PackedCombinerWrapper]) and the parts of Beam's
    [TupleCombineFn] that it inherits. *)
From Coq Require Import String.
From Coq Require Import List Arith Bool.
From Verif Require Import CombineModel.
Import ListNotations.
Local Notation length := List.length.

(** Python values, as far as they are looked at: [None], strings, tuples and
    dicts; all others are objects. *)
Inductive value (Obj : Type) :=
| PyNone
| Str (s : string)
| Tuple (items : list (value Obj))
| Dict (items : list (string * value Obj))
| Object (o : Obj).
Arguments PyNone {Obj}.
Arguments Str {Obj}.
Arguments Tuple {Obj}.
Arguments Dict {Obj}.
Arguments Object {Obj}.

(** A dict lookup; [None]: KeyError.  Literals and comprehensions with a repeated
    key keep the last item, so lookups search from the end. *)
Definition dict_get {A} (items : list (string * A)) (key : string) : option A :=
  option_map snd (find (fun kv => String.eqb (fst kv) key) (rev items)).

Fixpoint sequence {A} (l : list (option A)) : option (list A) :=
  match l with
  | [] => Some []
  | Some a :: l => option_map (cons a) (sequence l)
  | None :: _ => None
  end.

Section Pack.
Context {Obj : Type}.
Notation value := (value Obj).
Notation combiner := (combiner value value value).

(** combiner_packing_util.py:45-49 ([_CombinerOpWrapper]). *)
Record combiner_op := CombinerOp { op_combiner : combiner; op_keys : list string; op_label : string }.

(** analyzer_impls.py:980-992. *)
Definition wrapper_add (combining_accumulators : bool) (c : combiner) (accumulator next_input : value) : value :=
  if combining_accumulators
  then merge_accumulators c
    ((match accumulator with PyNone => [] | _ => [accumulator] end) ++
     (match next_input with PyNone => [] | _ => [next_input] end))
  else add_input c accumulator next_input.

(** 1000-1002. *)
Definition wrapper_extract (combining_accumulators : bool) (c : combiner) (accumulator : value) : value :=
  if combining_accumulators then extract_output c accumulator else accumulator.

(** A [beam.CombineGlobally] of a [_CombinerWrapper] under a schedule. *)
Definition run_wrapper (combining_accumulators : bool) (c : combiner) (s : sched value) : value :=
  wrapper_extract combining_accumulators c
    (run (create_accumulator c) (wrapper_add combining_accumulators c) (merge_accumulators c) s).

(** ** [_PackedCombinerWrapper] *)

(** [TupleCombineFn.create_accumulator]: a list with one accumulator each. *)
Definition packed_create (ops : list combiner_op) : list value :=
  map (fun o => create_accumulator (op_combiner o)) ops.

(** [TupleCombineFn.add_input] and [merge_accumulators] zip the lists. *)
Fixpoint zip_add (ops : list combiner_op) (accumulator element : list value) : list value :=
  match ops, accumulator, element with
  | o :: ops, a :: accumulator, e :: element =>
      add_input (op_combiner o) a e :: zip_add ops accumulator element
  | _, _, _ => []
  end.

(** Position of the last operation with the key as its only one; 1034-1041.
    [None]: KeyError. *)
Definition label_to_index (ops : list combiner_op) (key : string) : option nat :=
  dict_get (combine (map (fun o => hd ""%string (op_keys o)) ops) (seq 0 (length ops))) key.

Fixpoint set_nth {A} (i : nat) (a : A) (l : list A) : list A :=
  match i, l with
  | _, [] => []
  | 0, _ :: l => a :: l
  | S i, b :: l => b :: set_nth i a l
  end.

(** 1046-1057.  [None]: it raises. *)
Definition packed_add (combining_accumulators : bool) (ops : list combiner_op)
    (accumulator : list value) (element : value) : option (list value) :=
  if combining_accumulators then
    match element with
    | Tuple [Str key; v] =>
        match label_to_index ops key with
        | None => None
        | Some i =>
            match nth_error ops i, nth_error accumulator i with
            | Some o, Some a => Some (set_nth i (wrapper_add true (op_combiner o) a v) accumulator)
            | _, _ => None
            end
        end
    | _ => None
    end
  else
    match element with
    | Dict items =>
        option_map (fun tuples => zip_add ops accumulator (map Tuple tuples))
          (sequence (map (fun o => sequence (map (dict_get items) (op_keys o))) ops))
    | _ => None
    end.

(** [zip] of the accumulators, then one merge each. *)
Definition column (accumulators : list (list value)) (i : nat) : list value :=
  map (fun a => nth i a PyNone) accumulators.
Definition zip_merge (ops : list combiner_op) (accumulators : list (list value)) : list value :=
  map (fun oi => merge_accumulators (op_combiner (fst oi)) (column accumulators (snd oi)))
    (combine ops (seq 0 (length ops))).

(** Beam merges the accumulators after the first in groups of a limited size
    ([merge_accumulators_batch_size]), and does not merge a single one.  [fuel]
    bounds the number of groups. *)
Fixpoint merge_groups (fuel size : nat) (ops : list combiner_op) (result : list value)
    (rest : list (list value)) : list value :=
  match fuel, rest with
  | S fuel, _ :: _ =>
      merge_groups fuel size ops (zip_merge ops (result :: firstn size rest)) (skipn size rest)
  | _, _ => result
  end.
Definition packed_merge (size : nat) (ops : list combiner_op) (accumulators : list (list value)) : list value :=
  match accumulators with
  | [] => []
  | a :: rest => merge_groups (length rest) size ops a rest
  end.

(** 1059-1064: a dict from labels to outputs. *)
Definition packed_extract (combining_accumulators : bool) (ops : list combiner_op) (accumulator : list value) : value :=
  Dict (combine (map op_label ops)
    (map (fun oa => wrapper_extract combining_accumulators (op_combiner (fst oa)) (snd oa)) (combine ops accumulator))).

(** A [beam.CombineGlobally] of a [_PackedCombinerWrapper] under a schedule. *)
Definition run_packed (combining_accumulators : bool) (size : nat) (ops : list combiner_op) (s : sched value) : option value :=
  option_map (packed_extract combining_accumulators ops)
    (run (Some (packed_create ops))
       (fun a e => match a with Some a => packed_add combining_accumulators ops a e | None => None end)
       (fun l => option_map (packed_merge size ops) (sequence l)) s).
End Pack.
