(** * What a traversal should compute (independent of the algorithm) *)
From Coq Require Import List Arith.
From Verif Require Import TraverseModel.
Import ListNotations.

Section Spec.
Context {D V : Type}.
Variable visit : D -> list V -> option (list V).
Variable g : graph D.

(** Every input refers to an existing output of an existing operation
    (guaranteed by the constructor of [ValueNode], nodes.py:101-109). *)
Definition valid_value_node (vn : value_node) : Prop :=
  exists node, nth_error g (fst vn) = Some node /\ snd vn < op_nouts node.

Definition well_formed : Prop :=
  forall op node vn, nth_error g op = Some node -> In vn (op_inputs node) ->
    valid_value_node vn.

(** [depends a b]: operation [a] reads an output of operation [b]. *)
Definition depends (a b : nat) : Prop :=
  exists node i, nth_error g a = Some node /\ In (b, i) (op_inputs node).

(** [reaches a b]: [b] is [a] itself or is upstream of [a]. *)
Inductive reaches : nat -> nat -> Prop :=
| reaches_refl a : reaches a a
| reaches_step a b c : depends a b -> reaches b c -> reaches a c.

(** [b] is strictly upstream of [a]. *)
Definition upstream (a b : nat) : Prop := exists c, depends a c /\ reaches c b.

(** No operation upstream of [op] is upstream of itself. *)
Definition acyclic_from (op : nat) : Prop :=
  forall o, reaches op o -> ~ upstream o o.

(** The recursive meaning of a value node: the visitor applied to the meanings
    of the inputs. *)
Inductive means : value_node -> V -> Prop :=
| Means op node vs outs i v :
    nth_error g op = Some node ->
    Forall2 means (op_inputs node) vs ->
    visit (op_def node) vs = Some outs ->
    length outs = op_nouts node ->
    nth_error outs i = Some v ->
    means (op, i) v.

(** The visitor never raises and returns one value per output. *)
Definition total_visitor : Prop :=
  forall op node vs, nth_error g op = Some node -> length vs = length (op_inputs node) ->
    exists outs, visit (op_def node) vs = Some outs /\ length outs = op_nouts node.

(** In the list of visits, every operation comes after the operations it reads. *)
Definition inputs_first (order : list nat) : Prop :=
  forall before op after, order = before ++ op :: after ->
    forall o, depends op o -> In o before.

End Spec.

(** A list of operations each reading the next one, ending where it starts. *)
Fixpoint chain {D : Type} (g : graph D) (l : list nat) : Prop :=
  match l with
  | a :: ((b :: _) as rest) => depends g a b /\ chain g rest
  | _ => True
  end.

Definition is_cycle {D : Type} (g : graph D) (l : list nat) : Prop :=
  exists op rest, l = op :: rest ++ [op] /\ chain g l.
