(** * The analysis graph with an analyzer cache

    Models /repo/tensorflow_transform/beam/analysis_graph_builder.py:116-499
    ([_OptimizationView], [_OptimizeVisitor], [_perform_cache_optimization]) and
    lines 502-573 ([_InspectVisitor], [get_analysis_dataset_keys]). *)
From Coq Require Import String.
From Coq Require Import List Arith Bool.
From Coq Require DecimalString.
Import ListNotations.

(** An operation of the translated graph.  [Input None] is
    [ExtractInputForSavedModel] of the flattened dataset (beam_nodes.py:139-154);
    [Apply] is [ApplySavedModel] (157-180); [Extract] is [ExtractFromDict]
    (183-204); [Flatten] (207-212); [Decode] and [Encode] are [DecodeCache] and
    [EncodeCache] (analyzer_nodes.py:1163-1227).  [Op b] is any other operation:
    accumulating, merging, extracting outputs, tensor bindings, saved models. *)
Inductive op (B C K : Type) :=
| Input (k : option K)
| Apply (phase : nat)
| Extract (keys : list string)
| Flatten
| Decode (k : K) (key : string) (c : C)
| Encode (c : C)
| Op (b : B).
Arguments Input {B C K}.
Arguments Apply {B C K}.
Arguments Extract {B C K}.
Arguments Flatten {B C K}.
Arguments Decode {B C K}.
Arguments Encode {B C K}.
Arguments Op {B C K}.

(** A value node (nodes.py:89-109): an output of an operation with a label and
    inputs.  Graphs are unfolded into trees; that a traversal of the graph with
    sharing computes what the recursion on the tree computes is C36. *)
Inductive node (B C K : Type) :=
| Node (label : string) (o : op B C K) (inputs : list (node B C K)) (index : nat).
Arguments Node {B C K}.

(** analysis_graph_builder.py:116-135 ([_OptimizationView]). *)
Record view (B C K : Type) := View {
  prefer : bool;
  flat : node B C K;
  fine : option (list (K * node B C K));
  hashed : option string
}.
Arguments View {B C K}.
Arguments prefer {B C K}.
Arguments flat {B C K}.
Arguments fine {B C K}.
Arguments hashed {B C K}.

(** All the values, or [None] when one of them raised. *)
Fixpoint sequence {A : Type} (l : list (option A)) : option (list A) :=
  match l with
  | [] => Some []
  | Some a :: l => match sequence l with Some r => Some (a :: r) | None => None end
  | None :: _ => None
  end.

(** The truth value of an optional dictionary. *)
Definition truthy {A : Type} (d : option (list A)) : bool :=
  match d with Some (_ :: _) => true | _ => false end.

Section Optimize.
Context {B C K : Type}.
(** [is_partitionable], [cache_coder] and [num_outputs] of the operation
    (nodes.py:44-87). *)
Variable partitionable : B -> bool.
Variable cache_coder : B -> option C.
Variable num_outputs : B -> nat.
(** Comparison of dataset keys, and [DatasetKey.is_cached]. *)
Variable key_eqb : K -> K -> bool.
Variable is_cached : K -> bool.
(** The name of the class, and the texts of the attributes and fields
    (analysis_graph_builder.py:236, 244-254). *)
Variable class_name : op B C K -> string.
Variable fields : string -> op B C K -> list string.
(** [tensor_keys_to_paths] (analysis_graph_builder.py:783-788), and SHA1. *)
Variable tensor_path : string -> option string.
Variable sha1 : string -> string.
(** [analyzer_cache._CACHE_VERSION] (analyzer_cache.py:34). *)
Variable cache_version : string.

Definition op_partitionable (o : op B C K) : bool :=
  match o with
  | Input _ => false
  | Op b => partitionable b
  | _ => true
  end.
Definition op_coder (o : op B C K) : option C := match o with Op b => cache_coder b | _ => None end.
Definition op_outputs (o : op B C K) : nat := match o with Op b => num_outputs b | _ => 1 end.

(** The outputs of an operation node (nodes.py:152-161). *)
Definition outputs (label : string) (o : op B C K) (inputs : list (node B C K)) : list (node B C K) :=
  map (Node label o inputs) (seq 0 (op_outputs o)).

(** Lookup in a fine grained view. *)
Fixpoint at_key {A : Type} (k : K) (d : list (K * A)) : option A :=
  match d with
  | [] => None
  | (k', a) :: d => if key_eqb k k' then Some a else at_key k d
  end.

(** Lines 182-196; [false]: raises. *)
Definition validate (o : op B C K) : bool :=
  match op_coder o with Some _ => op_partitionable o | None => true end &&
  (if op_partitionable o || match op_coder o with Some _ => true | None => false end
   then op_outputs o =? 1 else true).

(** Lines 233-261.  [None] is Python's [None]. *)
Definition next_hashed_path (parents : list (option string)) (label : string) (o : op B C K)
    : option string :=
  let paths := parents ++ [Some (class_name o)] ++
    match o with
    | Extract keys => map tensor_path keys
    | _ => map Some (fields label o)
    end in
  match sequence paths with
  | Some texts => Some (sha1 (String.concat "" texts))
  | None => None
  end.

(** analyzer_cache.py:442-443 and analysis_graph_builder.py:378-380. *)
Definition cache_entry_key (label path : string) : string :=
  (cache_version ++ label ++ "-" ++ path)%string.

Definition infix (i : nat) : string :=
  ("AnalysisIndex" ++ DecimalString.NilEmpty.string_of_uint (Nat.to_uint i))%string.
Definition relabel (label : string) (i : nat) : string := (label ++ "[" ++ infix i ++ "]")%string.

(** The dataset keys in sorted order, and the cache: [None] when there is no
    caching, else whether it has an entry. *)
Variable keys : list K.
Variable cache : option (K -> string -> bool).

(** What is added to [cache_output_nodes]. *)
Notation emitted := (list (K * string * node B C K)) (only parsing).

(** Lines 382-389. *)
Definition hit (k : K) (key : string) : bool :=
  match cache with Some entries => entries k key | None => false end.

(** Lines 382-420: one dataset.  [None]: the [KeyError] of line 403. *)
Definition apply_to_dataset (label : string) (o : op B C K) (key : string)
    (fines : list (list (K * node B C K))) (i : nat) (k : K)
    : option (K * node B C K * emitted) :=
  let compute :=
    match sequence (map (at_key k) fines) with
    | Some inputs => Some (Node (relabel label i) o inputs 0)
    | None => None
    end in
  match op_coder o with
  | Some c =>
      if hit k key then
        Some (k, Node ("DecodeCache[" ++ label ++ "][" ++ infix i ++ "]")%string (Decode k key c) [] 0, [])
      else
        match compute with
        | Some output =>
            Some (k, output,
              if is_cached k then
                [(k, key, Node ("EncodeCache[" ++ label ++ "][" ++ infix i ++ "]")%string (Encode c) [output] 0)]
              else [])
        | None => None
        end
  | None =>
      match compute with
      | Some output => Some (k, output, [])
      | None => None
      end
  end.

(** Lines 358-420. *)
Definition apply_fine (label : string) (o : op B C K) (fines : list (list (K * node B C K)))
    (path : option string) : option (list (K * node B C K) * emitted) :=
  match path with
  | None => None
  | Some path =>
      match sequence (map (fun ik => apply_to_dataset label o (cache_entry_key label path) fines (fst ik) (snd ik))
                          (combine (seq 0 (length keys)) keys)) with
      | Some results => Some (map fst results, concat (map snd results))
      | None => None
      end
  end.

(** [_OptimizationView.__post_init__] (lines 133-135). *)
Definition make_view (prefer : bool) (flat : node B C K) (fine : option (list (K * node B C K)))
    (hashed : option string) : option (view B C K) :=
  if prefer && negb (truthy fine) then None else Some (View prefer flat fine hashed).

(** Lines 315-356. *)
Definition visit_partitionable (label : string) (o : op B C K) (views : list (view B C K))
    : option (list (view B C K) * emitted) :=
  let all_fine := forallb (fun v => truthy (fine v)) views in
  let prefer := existsb prefer views ||
                all_fine && match op_coder o with Some _ => true | None => false end in
  let path := next_hashed_path (map hashed views) label o in
  let flats := outputs label o (map flat views) in
  if all_fine then
    let fines := map (fun v => match fine v with Some f => f | None => [] end) views in
    match apply_fine label o fines path with
    | Some (f, em) =>
        match sequence (map (fun fl => make_view prefer fl (Some f) path) flats) with
        | Some vs => Some (vs, em)
        | None => None
        end
    | None => None
    end
  else
    match sequence (map (fun fl => make_view prefer fl None path) flats) with
    | Some vs => Some (vs, [])
    | None => None
    end.

(** Lines 422-456. *)
Definition visit_apply (label : string) (o : op B C K) (views : list (view B C K))
    : option (list (view B C K) * emitted) :=
  if existsb (fun v => truthy (fine v)) views then None
  else
    match views with
    | [model; input] =>
        let f := map (fun ik =>
            (snd ik, Node (relabel label (fst ik)) o
              [flat model;
               Node ("ExtractInputForSavedModel[" ++ infix (fst ik) ++ "]")%string (Input (Some (snd ik))) [] 0] 0))
          (combine (seq 0 (length keys)) keys) in
        Some ([View false (Node label o [flat model; flat input] 0) (Some f) (Some "APPLY_SAVEDMODEL"%string)], [])
    | _ => None
    end.

(** Lines 283-313. *)
Definition visit_other (label : string) (o : op B C K) (views : list (view B C K))
    : option (list (view B C K) * emitted) :=
  let make inputs := Some (map (fun fl => View false fl None None) (outputs label o inputs), []) in
  if existsb (fun v => truthy (fine v) && prefer v) views then
    match sequence (map fine views) with
    | Some fines =>
        make [Node ("FlattenCache[" ++ label ++ "]")%string Flatten (map snd (concat fines)) 0]
    | None => None
    end
  else make (map flat views).

(** Lines 263-281. *)
Definition visit (label : string) (o : op B C K) (views : list (view B C K))
    : option (list (view B C K) * emitted) :=
  if validate o then
    match o, cache with
    | Apply 0, _ => visit_apply label o views
    | _, Some _ => if op_partitionable o then visit_partitionable label o views
                   else visit_other label o views
    | _, None => visit_other label o views
    end
  else None.

(** The traversal (lines 489-490); [None]: raises. *)
Fixpoint optimize (n : node B C K) : option (view B C K * emitted) :=
  match n with
  | Node label o inputs index =>
      match sequence (map optimize inputs) with
      | Some vs =>
          match visit label o (map fst vs) with
          | Some (views, em) =>
              match nth_error views index with
              | Some v => Some (v, concat (map snd vs) ++ em)
              | None => None
              end
          | None => None
          end
      | None => None
      end
  end.

(** Lines 502-513 and 553-573: the datasets read by a graph; a read of the
    flattened dataset counts as all. *)
Fixpoint inputs_of (n : node B C K) : list (option K) :=
  match n with
  | Node _ (Input k) inputs _ => k :: concat (map inputs_of inputs)
  | Node _ _ inputs _ => concat (map inputs_of inputs)
  end.

Definition analysis_dataset_keys (n : node B C K) : list K :=
  let result := inputs_of n in
  if existsb (fun k => match k with None => true | Some _ => false end) result then keys
  else concat (map (fun k => match k with Some k => [k] | None => [] end) result).

End Optimize.

(** ** Running a graph

    PCollections are values of a type [PC].  The implementation of the
    operations is a parameter: [sem o xs] are the outputs of the operation [o] on
    the inputs [xs] (beam/common.py, [ConstructBeamPipelineVisitor]).  Labels are
    not used. *)
Section Eval.
Context {B C K PC : Type}.
Variable flatten : list PC -> PC.
Variable sem : op B C K -> list PC -> list PC.
Variable encode decode : C -> PC -> PC.

(** beam/impl.py:816-837 for [Input]: the requested dataset or all of them;
    analyzer_impls.py:1462-1543 for [Encode] and [Decode]. *)
Fixpoint eval (data : K -> PC) (keys : list K) (cache : K -> string -> option PC) (n : node B C K) : PC :=
  match n with
  | Node _ o inputs index =>
      let xs := map (eval data keys cache) inputs in
      match o with
      | Input None => flatten (map data keys)
      | Input (Some k) => data k
      | Flatten => flatten xs
      | Decode k key c =>
          match cache k key with Some p => decode c p | None => flatten [] end
      | Encode c => encode c (nth 0 xs (flatten []))
      | _ => nth index (sem o xs) (flatten [])
      end
  end.
End Eval.
