(** * What an analysis graph computes

    An evaluation gives each operation the list of its outputs; it is one of the
    possible results of a run if every operation computes its outputs from the
    outputs of its inputs.  The order of the elements of a collection is that of
    one run: a combine may see them in any order and any grouping. *)
From Coq Require Import String.
From Coq Require Import List Arith Bool Permutation.
From Verif Require Import CombineModel PackModel PackSpec PackGraphModel.
Import ListNotations.
Local Notation length := List.length.

Section Spec.
Context {Obj X : Type}.
Notation value := (value Obj).
Notation node := (@node Obj X).
Notation kind := (@kind Obj X).
Notation collection := (list value).

(** Beam's [merge_accumulators_batch_size]. *)
Variable size : nat.
(** What the other operations compute. *)
Variable other : string -> kind -> list collection -> list collection -> Prop.

(** The entries of the tuple of a combiner's outputs. *)
Definition output_columns (n : nat) (results : collection) (columns : list collection) : Prop :=
  exists rows : list (list value),
    results = map Tuple rows /\ Forall (fun r => length r = n) rows /\
    columns = map (fun i => map (fun r => nth i r PyNone) rows) (seq 0 n).

(** From the contents of the inputs of an operation to its outputs. *)
Inductive computes (label : string) : kind -> list collection -> list collection -> Prop :=
| computes_keys keys elements inputs :
    Forall2 (fun e i => exists items values, e = Dict items /\
               map (dict_get items) keys = map Some values /\ i = Tuple values) elements inputs ->
    computes label (ExtractKeys keys) [elements] [inputs]
| computes_key key elements results :
    Forall2 (fun e r => exists items, e = Dict items /\ dict_get items key = Some r) elements results ->
    computes label (ExtractKey key) [elements] [results]
| computes_accumulate c inputs s :
    Permutation (elements s) inputs ->
    computes label (CombineAccumulate c) [inputs] [[run_wrapper false c s]]
| computes_merge c inputs s :
    Permutation (elements s) inputs ->
    computes label (CombineMerge c) [inputs] [[run_wrapper true c s]]
| computes_outputs n results columns :
    output_columns n results columns -> computes label (ExtractOutputs n) [results] columns
| computes_packed_outputs n results columns :
    output_columns n results columns -> computes label (ExtractPackedOutputs n) [results] columns
| computes_packed_accumulate ops inputs s r :
    Permutation (elements s) inputs -> run_packed false size ops s = Some r ->
    computes label (PackedAccumulate ops) [inputs] [[r]]
| computes_packed_merge ops inputs s r :
    Permutation (elements s) inputs -> run_packed true size ops s = Some r ->
    computes label (PackedMerge ops) [inputs] [[r]]
| computes_add_key key inputs :
    computes label (AddKey key) [inputs] [map (fun v => Tuple [Str key; v]) inputs]
| computes_flatten inputs :
    computes label Flatten inputs [concat inputs]
| computes_apply ins outs : other label ApplySavedModel ins outs -> computes label ApplySavedModel ins outs
| computes_decode x ins outs : other label (DecodeCache x) ins outs -> computes label (DecodeCache x) ins outs
| computes_binding x ins outs : other label (TensorBinding x) ins outs -> computes label (TensorBinding x) ins outs
| computes_saved_model x ins outs : other label (SavedModel x) ins outs -> computes label (SavedModel x) ins outs
| computes_other n x ins outs : other label (Other n x) ins outs -> computes label (Other n x) ins outs.

(** The operation of a value, or of a value upstream of it. *)
Inductive occurs (n : node) : node -> Prop :=
| occurs_here : occurs n n
| occurs_input l d ins i m : In m ins -> occurs n m -> occurs n (Node l d ins i).

(** The contents of a value. *)
Definition content (run : string -> list collection) (n : node) : collection :=
  match n with Node l _ _ i => nth i (run l) [] end.

(** A run computes some values. *)
Definition evaluates (run : string -> list collection) (values : list node) : Prop :=
  forall v l d ins i, In v values -> occurs (Node l d ins i) v ->
    computes l d (map (content run) ins) (run l).

(** ** Graphs that packing is made for *)

(** The operation of a value of the graph. *)
Definition in_graph (values : list node) (n : node) : Prop := exists v, In v values /\ occurs n v.

(** One operation for each label. *)
Definition unique_labels (values : list node) : Prop :=
  forall l d ins i d' ins' i', in_graph values (Node l d ins i) -> in_graph values (Node l d' ins' i') ->
    d = d' /\ ins = ins'.

(** Not packed yet. *)
Definition unpacked (d : kind) : Prop :=
  match d with
  | ExtractKey _ | ExtractPackedOutputs _ | PackedAccumulate _ | PackedMerge _ | AddKey _ => False
  | _ => True
  end.

(** The inputs that the operations have. *)
Definition known_inputs (d : kind) (ins : list node) : Prop :=
  match d with
  | ExtractKeys _ => exists l ins' i, ins = [Node l ApplySavedModel ins' i]
  | CombineAccumulate _ | CombineMerge _ | ExtractOutputs _ => exists v, ins = [v]
  | _ => True
  end.

(** Labels that packing makes. *)
Inductive packing_label (values : list node) : string -> Prop :=
| packing_label_of prefix n :
    In prefix ["PackedCombineAccumulate["; "AddKey["; "ExtractFromDict["; "ExtractPackedCombineMergeOutputs["]%string ->
    in_graph values n -> packing_label values (prefix ++ label_of n ++ "]")
| packing_label_number prefix number :
    In prefix ["FlattenInputForPackedCombineMerge["; "PackedCombineMerge["]%string ->
    packing_label values (prefix ++ decimal number ++ "]").

Definition well_formed (values : list node) : Prop :=
  unique_labels values /\
  forall l d ins i, in_graph values (Node l d ins i) ->
    i < num_outputs d /\ unpacked d /\ known_inputs d ins /\ ~ packing_label values l.

(** No result of a combine is used. *)
Definition no_result (n : node) : Prop :=
  forall l num ins i, ~ occurs (Node l (ExtractOutputs num) ins i) n.

(** A value computed from the result of one combine, by a number of steps with
    one input and one output. *)
Inductive steps_after_result : nat -> node -> Prop :=
| result_itself l num m i : no_result m -> steps_after_result 0 (Node l (ExtractOutputs num) [m] i)
| one_step k l d v i :
    steps_after_result k v -> (exists x, d = TensorBinding x \/ d = Other 1 x) ->
    steps_after_result (S k) (Node l d [v] i).

(** The inputs of the final operation are tensor bindings, each of them computed
    in at most three steps from one combine, or from none; no combine is upstream
    of another one; the saved models upstream do not have inputs; one operation,
    and nothing else, uses the result of a combine, to extract its outputs. *)
Definition single_phase (root : node) (caches : list node) : Prop :=
  (exists l x bindings, root = Node l (SavedModel x) bindings 0 /\
    forall b, In b bindings -> (exists y, def_of b = TensorBinding y) /\
      (no_result b \/ exists k, k <= 3 /\ steps_after_result k b)) /\
  (forall c, In c caches -> no_result c) /\
  (forall l x ins i v, In v (inputs_of root ++ caches) -> occurs (Node l (SavedModel x) ins i) v -> ins = []) /\
  (forall l l' num num' ins i i', in_graph (root :: caches) (Node l (ExtractOutputs num) ins i) ->
    in_graph (root :: caches) (Node l' (ExtractOutputs num') ins i') -> l = l') /\
  (forall l d ins i lm c mins mi, in_graph (root :: caches) (Node l d ins i) -> In (Node lm (CombineMerge c) mins mi) ins ->
    exists num, d = ExtractOutputs num) /\
  (forall v c, In v caches -> def_of v <> CombineMerge c).

(** The final operation takes tensor bindings. *)
Definition of_bindings (root : node) : Prop :=
  exists l x bindings, root = Node l (SavedModel x) bindings 0 /\ forall b, In b bindings -> exists y, def_of b = TensorBinding y.

(** A binding with its contents. *)
Definition bound (run : string -> list collection) (b : node) := (label_of b, def_of b, content run b).
End Spec.
