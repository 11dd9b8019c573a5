(** * Packing the combiners of an analysis graph

    Models /repo/tensorflow_transform/beam/combiner_packing_util.py. *)
From Coq Require Import String.
From Coq Require Import List Arith Bool.
From Coq Require DecimalString.
From Verif Require Import CombineModel PackModel.
Import ListNotations.
Local Notation length := List.length.

Section Graph.
Context {Obj X : Type}.
Notation value := (value Obj).
Notation combiner := (combiner value value value).
Notation combiner_op := (@combiner_op Obj).

(** Operations (beam_nodes.py, analyzer_nodes.py), without their labels.
    [ExtractKeys] and [ExtractKey] are [ExtractFromDict] with a tuple of keys and
    with a string.  [Other]: all operations that packing does not look at. *)
Inductive kind :=
| ApplySavedModel
| ExtractKeys (keys : list string)
| ExtractKey (key : string)
| CombineAccumulate (c : combiner)
| CombineMerge (c : combiner)
| ExtractOutputs (num_outputs : nat)
| ExtractPackedOutputs (num_outputs : nat)
| PackedAccumulate (combiners : list combiner_op)
| PackedMerge (combiners : list combiner_op)
| AddKey (key : string)
| Flatten
| DecodeCache (x : X)
| TensorBinding (x : X)
| SavedModel (x : X)
| Other (num_outputs : nat) (x : X).

Definition num_outputs (d : kind) : nat :=
  match d with ExtractOutputs n | ExtractPackedOutputs n | Other n _ => n | _ => 1 end.

(** A [ValueNode]: the operation node with its inputs, and an output.  Python
    compares operation nodes by identity; labels are unique
    ([_ValidationVisitor], combiner_packing_util.py:52-63), so that here an
    operation node is identified by its label. *)
Inductive node := Node (label : string) (def : kind) (inputs : list node) (index : nat).
(** An operation node. *)
Notation op := (string * kind * list node)%type.
Definition op_of (n : node) : op := match n with Node l d ins _ => (l, d, ins) end.
Definition output (o : op) (i : nat) : node := match o with (l, d, ins) => Node l d ins i end.
Definition outputs (o : op) : list node :=
  match o with (l, d, ins) => map (output o) (seq 0 (num_outputs d)) end.
Definition label_of (n : node) : string := match n with Node l _ _ _ => l end.
Definition inputs_of (n : node) : list node := match n with Node _ _ ins _ => ins end.
Definition def_of (n : node) : kind := match n with Node _ d _ _ => d end.

Definition lookup {A} (key : string) (l : list (string * A)) : option A :=
  option_map snd (find (fun kv => String.eqb (fst kv) key) l).

(** ** The traverser (nodes.py:234-320)

    Every operation is visited once, after its inputs; the results are kept by
    operation.  A visitor returns the outputs of one operation node.  That the
    graph has no cycle and that visitors return as many outputs as the operation
    has is not checked again here (C36). *)
Section Traverse.
Context {S : Type}.
Variable visit : S -> string -> kind -> list node -> option (S * op).

Fixpoint traverse (n : node) (memo : list (string * op)) (s : S) : option (node * list (string * op) * S) :=
  match n with
  | Node l d ins i =>
      match lookup l memo with
      | Some o => Some (output o i, memo, s)
      | None =>
          match (fix traverse_list (ns : list node) (memo : list (string * op)) (s : S) :=
                   match ns with
                   | [] => Some ([], memo, s)
                   | n :: ns =>
                       match traverse n memo s with
                       | None => None
                       | Some (n', memo, s) =>
                           match traverse_list ns memo s with
                           | None => None
                           | Some (ns', memo, s) => Some (n' :: ns', memo, s)
                           end
                       end
                   end) ins memo s with
          | None => None
          | Some (ins', memo, s) =>
              match visit s l d ins' with
              | None => None
              | Some (s, o) => Some (output o i, (l, o) :: memo, s)
              end
          end
      end
  end.

(** The same for several values, one after the other. *)
Fixpoint traverse_all (ns : list node) (memo : list (string * op)) (s : S) : option (list node * list (string * op) * S) :=
  match ns with
  | [] => Some ([], memo, s)
  | n :: ns =>
      match traverse n memo s with
      | None => None
      | Some (n', memo, s) =>
          match traverse_all ns memo s with
          | None => None
          | Some (ns', memo, s) => Some (n' :: ns', memo, s)
          end
      end
  end.
End Traverse.

(** ** Accumulating combiners *)

(** combiner_packing_util.py:66-117 ([_InspectAccumulateCombineVisitor]): the
    operations that can be packed, by the label of the grand parent.  [None]: an
    assertion fails, or the parent has a single string as key (never so in a
    graph that was not packed yet). *)
Definition groups : Type := list (string * list combiner_op).
Fixpoint add_to_group (g : groups) (key : string) (o : combiner_op) : groups :=
  match g with
  | [] => [(key, [o])]
  | (k, l) :: g => if String.eqb k key then (k, l ++ [o]) :: g else (k, l) :: add_to_group g key o
  end.

Definition inspect_accumulate (s : groups) (l : string) (d : kind) (ins : list node) : option (groups * op) :=
  match d with
  | CombineAccumulate c =>
      match ins with
      | [Node _ (ExtractKeys keys) [Node gp ApplySavedModel _ _] _] =>
          Some (add_to_group s gp (CombinerOp c keys l), (l, d, ins))
      | [Node _ (ExtractKeys _) _ _] | [Node _ (ExtractKey _) _ _] => None
      | [_] => Some (s, (l, d, ins))
      | _ => None
      end
  | _ => Some (s, (l, d, ins))
  end.

(** 141-147: the group of an operation. *)
Definition group_of (packable : groups) (label : string) : option string :=
  option_map fst (find (fun g => existsb (fun o => String.eqb (op_label o) label) (snd g)) packable).

(** 120-199 ([_PackAccumulateCombineVisitor]); the state is the cache of packed
    operations. *)
Definition pack_accumulate (packable : groups) (cache : list (string * node)) (l : string) (d : kind) (ins : list node) :
    option (list (string * node) * op) :=
  match group_of packable l with
  | None => Some (cache, (l, d, ins))
  | Some gp =>
      match
        (match lookup gp cache with
         | Some packed => Some (packed, cache)
         | None =>
             match ins with
             | [Node _ (ExtractKeys _) [grand_parent] _] =>
                 if String.eqb (label_of grand_parent) gp then
                   match lookup gp packable with
                   | Some group =>
                       let packed := Node ("PackedCombineAccumulate[" ++ gp ++ "]") (PackedAccumulate group) [grand_parent] 0 in
                       Some (packed, (gp, packed) :: cache)
                   | None => None
                   end
                 else None
             | _ => None
             end
         end) with
      | None => None
      | Some (packed, cache) => Some (cache, (l, ExtractKey l, [packed]))
      end
  end.

(** ** Merging combiners *)

(** 202-206. *)
Definition combine_parent (d : kind) : bool :=
  match d with ExtractKeys _ | ExtractKey _ | Flatten | DecodeCache _ => true | _ => false end.

(** 209-243 ([_InspectMergeCombineVisitor]): by the label of
    [ExtractCombineMergeOutputs], the combiner of its parent. *)
Definition inspect_merge (s : list (string * combiner_op)) (l : string) (d : kind) (ins : list node) :
    option (list (string * combiner_op) * op) :=
  match d with
  | ExtractOutputs _ =>
      match ins with
      | Node lm (CombineMerge c) [grand_parent] _ :: _ =>
          Some (if combine_parent (def_of grand_parent) then s ++ [(l, CombinerOp c [lm] lm)] else s, (l, d, ins))
      | Node _ (CombineMerge _) _ _ :: _ | [] => None
      | _ => Some (s, (l, d, ins))
      end
  | _ => Some (s, (l, d, ins))
  end.

Definition decimal (n : nat) : string := DecimalString.NilZero.string_of_uint (Nat.to_uint n).

(** 246-348 ([_PackMergeCombineVisitor]); the state is the list of inputs of the
    flatten operation, and [final_packed_merge_combine_label]. *)
Definition pack_merge (packable : list (string * combiner_op)) (s : list node * option string)
    (l : string) (d : kind) (ins : list node) : option (list node * option string * op) :=
  match lookup l packable with
  | None => Some (s, (l, d, ins))
  | Some _ =>
      match d, ins with
      | ExtractOutputs n, Node lm (CombineMerge _) values _ :: _ =>
          let flatten_inputs :=
            fst s ++ map (fun v => Node ("AddKey[" ++ lm ++ "]") (AddKey lm) [v] 0) values in
          let number := decimal (length flatten_inputs) in
          let flattened := Node ("FlattenInputForPackedCombineMerge[" ++ number ++ "]") Flatten flatten_inputs 0 in
          let label := ("PackedCombineMerge[" ++ number ++ "]")%string in
          let packed := Node label (PackedMerge (map snd packable)) [flattened] 0 in
          let extract := Node ("ExtractFromDict[" ++ lm ++ "]") (ExtractKey lm) [packed] 0 in
          Some ((flatten_inputs, Some label),
                (("ExtractPackedCombineMergeOutputs[" ++ lm ++ "]")%string, ExtractPackedOutputs n, [extract]))
      | _, _ => None
      end
  end.

(** ** Removing redundant packed merges (361-549) *)

Definition is_packed_merge (n : node) : bool := match def_of n with PackedMerge _ => true | _ => false end.

(** The dict [_packed_post_processing_nodes_cache]; value nodes are identified by
    label and output. *)
Definition post_cache : Type := list (string * nat * bool).
Definition cached_post (cache : post_cache) (n : node) : option bool :=
  match n with
  | Node l _ _ i => option_map snd (find (fun e => String.eqb (fst (fst e)) l && Nat.eqb (snd (fst e)) i) cache)
  end.

(** 421-437: at most [depth] steps along first inputs; the result and the values
    that were passed. *)
Fixpoint search (depth : nat) (n : node) (passed : list node) : bool * list node :=
  match depth, inputs_of n with
  | 0, _ | _, [] => (false, passed)
  | S depth, input :: _ =>
      if is_packed_merge input then (true, n :: passed) else search depth input (n :: passed)
  end.

(** 413-443. *)
Definition max_depth := 5.
Definition is_post (cache : post_cache) (n : node) : bool * post_cache :=
  match cached_post cache n with
  | Some b => (b, cache)
  | None =>
      let (result, passed) := search max_depth n [] in
      (result, map (fun v => (label_of v, match v with Node _ _ _ i => i end, result)) passed ++ cache)
  end.

(** 445-459: redundant and non-redundant values.  [None]: not a
    [CreateTensorBinding]. *)
Fixpoint split_redundant (cache : post_cache) (values : list node) : option (list node * list node * post_cache) :=
  match values with
  | [] => Some ([], [], cache)
  | v :: values =>
      match def_of v with
      | TensorBinding _ =>
          let (b, cache) := is_post cache v in
          match split_redundant cache values with
          | None => None
          | Some (redundant, others, cache) =>
              Some (if b then (v :: redundant, others, cache) else (redundant, v :: others, cache))
          end
      | _ => None
      end
  end.

(** 467-470: the first value upstream that is not post-processing. *)
Fixpoint skip_post (cache : post_cache) (n : node) : option (node * post_cache) :=
  let (b, cache) := is_post cache n in
  if b then
    match n with
    | Node _ _ (input :: _) _ => skip_post cache input
    | _ => None
    end
  else Some (n, cache).

Section Final.
Variable final_label : string.

(** 461-483. *)
Fixpoint find_final (cache : post_cache) (values : list node) : option (option node * list node * post_cache) :=
  match values with
  | [] => Some (None, [], cache)
  | v :: values =>
      match inputs_of v with
      | [] => None
      | input :: _ =>
          match skip_post cache input with
          | None => None
          | Some (packed, cache) =>
              match find_final cache values with
              | None => None
              | Some (final, bindings, cache) =>
                  if is_packed_merge packed && String.eqb (label_of packed) final_label
                  then Some (match final with Some f => Some f | None => Some packed end, v :: bindings, cache)
                  else Some (final, bindings, cache)
              end
          end
      end
  end.

(** 491-499: the operations from a binding (first) to the packed merge, the
    output of [ExtractPackedCombineMergeOutputs] that is used, and where the
    search ends. *)
Fixpoint trace_post (cache : post_cache) (n : node) (index : option nat) :
    option (list (string * kind) * option nat * node * post_cache) :=
  let (b, cache) := is_post cache n in
  if b then
    match n with
    | Node l d (input :: _) i =>
        match (match d, index with
               | ExtractPackedOutputs _, None => Some (Some i)
               | ExtractPackedOutputs _, Some _ => None
               | _, _ => Some index
               end) with
        | None => None
        | Some index =>
            match trace_post cache input index with
            | None => None
            | Some (defs, index, last, cache) => Some ((l, d) :: defs, index, last, cache)
            end
        end
    | _ => None
    end
  else Some ([], index, n, cache).

(** 485-517. *)
Fixpoint to_be_created (cache : post_cache) (values : list node) : option (list (list (string * kind) * option nat) * post_cache) :=
  match values with
  | [] => Some ([], cache)
  | v :: values =>
      match trace_post cache v None with
      | None => None
      | Some (defs, index, last, cache) =>
          match to_be_created cache values with
          | None => None
          | Some (infos, cache) =>
              Some (if String.eqb (label_of last) final_label then infos else (defs, index) :: infos, cache)
          end
      end
  end.
End Final.

(** 524-529 and 537-543: operations, the one nearest to the packed merge first, are
    applied one after the other; the dict [labels_to_new_nodes] keeps them by
    label. *)
Fixpoint create_chain (made : list (string * op)) (defs : list (string * kind)) (index : option nat) (inputs : list node) :
    option (list node * list (string * op)) :=
  match defs with
  | [] => Some (inputs, made)
  | (l, d) :: defs =>
      let '(o, made) :=
        match lookup l made with
        | Some o => (o, made)
        | None => ((l, d, inputs), (l, (l, d, inputs)) :: made)
        end in
      match d with
      | ExtractPackedOutputs _ =>
          match index with
          | Some i => match nth_error (outputs o) i with
                      | Some v => create_chain made defs index [v]
                      | None => None
                      end
          | None => None
          end
      | _ => create_chain made defs index (outputs o)
      end
  end.

(** 519-549. *)
Fixpoint create_bindings (made : list (string * op)) (final : node) (infos : list (list (string * kind) * option nat)) :
    option (list node) :=
  match infos with
  | [] => Some []
  | (defs, index) :: infos =>
      match create_chain made (rev defs) index [final] with
      | Some ([v], made) =>
          match def_of v with
          | TensorBinding _ => option_map (cons v) (create_bindings made final infos)
          | _ => None
          end
      | _ => None
      end
  end.

(** 383-411. *)
Definition reconstruct (final_label : string) (cache : post_cache) (values : list node) : option (list node * post_cache) :=
  match split_redundant cache values with
  | None => None
  | Some (redundant, others, cache) =>
      match find_final final_label cache redundant with
      | None => None
      | Some (final, bindings, cache) =>
          match to_be_created final_label cache redundant with
          | None => None
          | Some (infos, cache) =>
              match (match infos, final with
                     | [], _ => Some []
                     | _, None => None
                     | _, Some f => create_bindings [] f infos
                     end) with
              | None => None
              | Some created =>
                  let result := bindings ++ others ++ created in
                  if Nat.eqb (length values) (length result) then Some (result, cache) else None
              end
          end
      end
  end.

(** 374-381; the state is the cache. *)
Definition remove_redundant (final_label : string) (cache : post_cache) (l : string) (d : kind) (ins : list node) :
    option (post_cache * op) :=
  match d, ins with
  | SavedModel _, _ :: _ =>
      option_map (fun r => (snd r, (l, d, fst r))) (reconstruct final_label cache ins)
  | _, _ => Some (cache, (l, d, ins))
  end.

(** ** 562-624 ([perform_combiner_packing_optimization])

    The root and the values of the output cache ([_update_cache_value_node_references]). *)
Definition optimize (root : node) (caches : list node) (num_phases : nat) : option (node * list node) :=
  match traverse inspect_accumulate root [] [] with
  | None => None
  | Some (_, _, packable) =>
      let packable := filter (fun g => 1 <? length (snd g)) packable in
      match traverse_all (pack_accumulate packable) (root :: caches) [] [] with
      | Some (root :: caches, _, _) =>
          if 1 <? num_phases then Some (root, caches)
          else
            match traverse inspect_merge root [] [] with
            | None => None
            | Some (_, _, packable) =>
                if length packable <=? 1 then Some (root, caches)
                else
                  match traverse_all (pack_merge packable) (root :: caches) [] ([], None) with
                  | Some (root :: caches, _, (_, Some final_label)) =>
                      match traverse_all (remove_redundant final_label) (root :: caches) [] [] with
                      | Some (root :: caches, _, _) => Some (root, caches)
                      | _ => None
                      end
                  | _ => None
                  end
            end
      | _ => None
      end
  end.
End Graph.
