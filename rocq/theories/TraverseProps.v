(** * C36: traversing the graph of operations *)
From Coq Require Import List Arith.
From Verif Require Import TraverseModel TraverseSpec TraverseProofs.
Import ListNotations.

(** A successful traversal of any sequence of value nodes returns the recursive
    meanings, visits exactly the operations upstream of the requested values,
    each exactly once, after its inputs, and with the meanings of its inputs. *)
Theorem c36_traversal :
  forall (D V : Type) (visit : D -> list V -> option (list V)) (g : graph D),
  well_formed g ->
  forall roots, (forall r, In r roots -> valid_value_node g r) ->
  forall values s, visit_value_nodes visit g new_traverser roots = Ok values s ->
    Forall2 (means visit g) roots values /\
    NoDup (map fst (visits s)) /\
    inputs_first g (map fst (visits s)) /\
    (forall o, In o (map fst (visits s)) <-> exists r, In r roots /\ reaches g (fst r) o) /\
    (forall op args, In (op, args) (visits s) ->
       exists node, nth_error g op = Some node /\ Forall2 (means visit g) (op_inputs node) args).
Proof. exact @traversal. Qed.
Print Assumptions c36_traversal.

(** The recursive meaning is unique. *)
Theorem c36_meaning_unique :
  forall (D V : Type) (visit : D -> list V -> option (list V)) (g : graph D) vn v,
  means visit g vn v -> forall v', means visit g vn v' -> v = v'.
Proof. exact @means_unique. Qed.
Print Assumptions c36_meaning_unique.

(** On an acyclic graph, with a visitor that does not fail, every traversal
    succeeds. *)
Theorem c36_acyclic_succeeds :
  forall (D V : Type) (visit : D -> list V -> option (list V)) (g : graph D),
  well_formed g ->
  forall roots, (forall r, In r roots -> valid_value_node g r) ->
  total_visitor visit g ->
  (forall r, In r roots -> acyclic_from g (fst r)) ->
  exists values s, visit_value_nodes visit g new_traverser roots = Ok values s.
Proof. exact @traversal_total. Qed.
Print Assumptions c36_acyclic_succeeds.

(** When an operation upstream of a requested value depends on itself, the
    traversal raises the cycle error, and the operations it names are a cycle of
    the graph upstream of a requested value. *)
Theorem c36_cycle_reported :
  forall (D V : Type) (visit : D -> list V -> option (list V)) (g : graph D),
  well_formed g ->
  forall roots r o, (forall r, In r roots -> valid_value_node g r) ->
  total_visitor visit g ->
  In r roots -> reaches g (fst r) o -> upstream g o o ->
  exists c s, visit_value_nodes visit g new_traverser roots = Raised (CycleDetected c) s /\
    is_cycle g c /\ exists r, In r roots /\ forall x, In x c -> reaches g (fst r) x.
Proof. exact @traversal_cycle. Qed.
Print Assumptions c36_cycle_reported.

(** No traversal recurses deeper than the number of operations, whatever the
    graph and the visitor. *)
Theorem c36_terminates :
  forall (D V : Type) (visit : D -> list V -> option (list V)) (g : graph D),
  well_formed g ->
  forall roots, (forall r, In r roots -> valid_value_node g r) ->
  visit_value_nodes visit g new_traverser roots <> TooDeep.
Proof. exact @traversal_ends. Qed.
Print Assumptions c36_terminates.

(** A diamond: operation 3 reads 1 and 2, which both read 0; operation 0 has two
    outputs.  The visitor adds its inputs. *)
Definition example_visit (d : nat * nat) (vs : list nat) : option (list nat) :=
  Some (repeat (fst d + list_sum vs) (snd d)).
Definition diamond : graph (nat * nat) :=
  [OpNode (5, 2) [] 2; OpNode (10, 1) [(0, 0)] 1; OpNode (20, 1) [(0, 1)] 1;
   OpNode (1, 1) [(1, 0); (2, 0); (1, 0)] 1].

Lemma diamond_well_formed : well_formed diamond.
Proof.
  intros op node vn N I.
  destruct op as [|[|[|[|op]]]]; cbn in N; try (destruct op; discriminate);
    injection N as <-; cbn in I;
    repeat (destruct I as [<-|I]; [eexists; split; [reflexivity | cbn; auto]|]); destruct I.
Qed.

Lemma diamond_total : total_visitor example_visit diamond.
Proof.
  intros op node vs N _. eexists. split; [reflexivity|]. rewrite repeat_length.
  destruct op as [|[|[|[|op]]]]; cbn in N; try (destruct op; discriminate);
    injection N as <-; reflexivity.
Qed.

Example c36_applies :
  well_formed diamond /\ total_visitor example_visit diamond /\
  (forall r, In r [(3, 0); (1, 0)] -> valid_value_node diamond r) /\
  visit_value_nodes example_visit diamond new_traverser [(3, 0); (1, 0)]
    = Ok [56; 15]
        (Traverser [((3, 0), 56); ((2, 0), 25); ((1, 0), 15); ((0, 0), 5); ((0, 1), 5)] []
           [(0, []); (1, [5]); (2, [5]); (3, [15; 25; 15])]).
Proof.
  split; [exact diamond_well_formed|]. split; [exact diamond_total|]. split; [|reflexivity].
  intros r [<-|[<-|[]]]; eexists; split; try reflexivity; cbn; auto.
Qed.

(** The diamond is acyclic: dependencies go to smaller positions. *)
Example c36_acyclic_applies : acyclic_from diamond 3.
Proof.
  assert (Dlt : forall a b, depends diamond a b -> b < a).
  { intros a b (node & i & N & I).
    destruct a as [|[|[|[|a]]]]; cbn in N; try (destruct a; discriminate);
      injection N as <-; cbn in I;
      repeat (destruct I as [[= <- <-]|I]; [auto with arith|]); destruct I. }
  assert (Rle : forall a b, reaches diamond a b -> b <= a).
  { intros a b R. induction R as [|a b c Dp R IH]; [auto|].
    apply Nat.lt_le_incl. eapply Nat.le_lt_trans; [exact IH | auto]. }
  intros o _ (c & Dp & R).
  apply (Nat.lt_irrefl o). eapply Nat.le_lt_trans; [apply (Rle _ _ R) | auto].
Qed.

(** A graph with a cycle between operations 1 and 2, below operation 0. *)
Definition cyclic : graph (nat * nat) :=
  [OpNode (5, 1) [(1, 0)] 1; OpNode (10, 1) [(2, 0)] 1; OpNode (20, 1) [(1, 0)] 1].

Example c36_cycle_applies :
  upstream cyclic 1 1 /\ reaches cyclic 0 1 /\
  visit_value_nodes example_visit cyclic new_traverser [(0, 0)]
    = Raised (CycleDetected [1; 2; 1]) (Traverser [] [2; 1; 0] []).
Proof.
  assert (D12 : depends cyclic 1 2) by (exists (OpNode (10, 1) [(2, 0)] 1), 0; cbn; auto).
  assert (D21 : depends cyclic 2 1) by (exists (OpNode (20, 1) [(1, 0)] 1), 0; cbn; auto).
  assert (D01 : depends cyclic 0 1) by (exists (OpNode (5, 1) [(1, 0)] 1), 0; cbn; auto).
  split; [exists 2; split; [exact D12 | eapply reaches_step; [exact D21 | apply reaches_refl]]|].
  split; [eapply reaches_step; [exact D01 | apply reaches_refl] | reflexivity].
Qed.
