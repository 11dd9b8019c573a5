(** * Reserved tokens of vocabularies
    /repo/tensorflow_transform/tf_utils.py:2290-2308, with analyzers.py:2278-2289 and 2328-2329,
    experimental/analyzers.py:494-501, beam/analyzer_impls.py:499-503 and 1606-1622.
    A preprocessing function is the list of its vocabularies, in order; their data is left out, but for the number
    of values that are kept.  What a file makes of reserved tokens is part of VocabModel and ApproxModel. *)
From Coq Require Import String Ascii List Bool Arith.
From Verif Require Import MiscModel ByNameModel.
Import ListNotations.

(** reserved_tokens: a list of python strings, or a tensor of the function *)
Inductive tokens := Strings (l : list string) | Computed (tensor : nat).

(** A call of tft.vocabulary or tft.experimental.approximate_vocabulary *)
Record declared := Declared {
  d_name : option name;            (* vocab_filename *)
  d_store : bool;                  (* store_frequency *)
  d_scope : name;                  (* the current name scope *)
  d_text : bool;                   (* file_format == 'text' *)
  d_approximate : bool;
  d_reserved : option tokens;      (* reserved_tokens *)
  d_kept : nat }.                  (* the values of the data that are kept *)

(** analyzers.py:2111-2112, experimental/analyzers.py:450-451 *)
Definition d_filename (d : declared) : name := v_filename (Vocab (d_name d) (d_store d) (d_scope d) (d_text d) (d_approximate d) [] 0).
(** The file that is written (analyzer_impls.py:520-528) *)
Definition d_file (d : declared) : name := written_name (d_text d) (d_filename d).

(** The collections _VOCABULARY_RESERVED_TOKENS_IDS and _VOCABULARY_RESERVED_TOKENS of a graph *)
Record collections := Collections { ids : list name; registered : list tokens }.
Definition no_collections : collections := Collections [] [].

(** tf_utils.py:2290-2298 (register_vocabulary_reserved_tokens); the size that is returned is that of the tensor. *)
Definition register (g : collections) (n : name) (r : tokens) : collections := Collections (ids g ++ [n]) (registered g ++ [r]).

(** list.index: the first one; None: ValueError *)
Fixpoint index (l : list name) (n : name) : option nat :=
  match l with [] => None | m :: l => if name_eqb m n then Some 0 else option_map S (index l n) end.

Section model.
  (** The value of a tensor in a session in which nothing is fed or initialized; None: running it fails, as for tensors
      that depend on features *)
  Variable run : nat -> option (list string).
  (** session.run *)
  Definition value (r : tokens) : option (list string) := match r with Strings l => Some l | Computed t => run t end.

  (** tf_utils.py:2301-2308 (fetch_vocabulary_reserved_tokens); None: an exception *)
  Definition fetch (g : collections) (n : name) : option (list string) :=
    if length (ids g) =? length (registered g) then
      match index (ids g) n with
      | None => None
      | Some i => match nth_error (registered g) i with Some r => value r | None => None end
      end
    else None.

  (** Tracing: analyzers.py:2280-2289, experimental/analyzers.py:495-501 *)
  Definition declare (g : collections) (d : declared) : collections :=
    match d_reserved d with Some r => register g (d_filename d) r | None => g end.
  Definition trace (fn : list declared) : collections := fold_left declare fn no_collections.

  (** The second input of VocabularyOrderAndWrite when the pipeline is made (analyzer_impls.py:499-503, 1618-1622): none
      without reserved tokens; the outer None is an exception. *)
  Definition second_input (g : collections) (d : declared) : option (option (list string)) :=
    match d_reserved d with
    | None => Some None
    | Some _ => match fetch g (d_filename d) with Some l => Some (Some l) | None => None end
    end.
  (** All vocabularies of a function, from the graph after tracing; None if one raises *)
  Fixpoint inputs (g : collections) (ds : list declared) : option (list (option (list string))) :=
    match ds with
    | [] => Some []
    | d :: ds => match second_input g d, inputs g ds with Some x, Some xs => Some (x :: xs) | _, _ => None end
    end.
  Definition make_pipeline (fn : list declared) : option (list (option (list string))) := inputs (trace fn) fn.

  (** The size that is annotated (analyzers.py:2278-2283, 2328-2329); approximate vocabularies annotate none. *)
  Definition annotated_size (d : declared) : option nat :=
    if d_approximate d then None
    else match d_reserved d with
         | None => Some (d_kept d)
         | Some r => option_map (fun l => d_kept d + length l) (value r)
         end.
End model.
