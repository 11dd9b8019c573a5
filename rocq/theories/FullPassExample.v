(** * An example for C61 *)
From Coq Require Import List Arith Lia Permutation.
From Verif Require Import ReadyModel ReadySpec PhaseModel PhaseSpec PhaseProps FullPassModel FullPassSpec.
Import ListNotations.

(** The graph of [c38_graph]: node 2 is replaced by the sum of node 1; node 4 by
    the maximum of node 3, which reads 1 and 2; table 5 is initialised from 4;
    node 6 looks 3 up in it; node 7 is replaced by the maximum of node 6; node 8
    by the maximum of node 1. *)
Definition c61_node_value (x : nat) (vs : list nat) : nat :=
  match x, vs with
  | 1, [v] => v + 1
  | 3, [v; total] => 2 * v + total
  | 6, [v; contents] => v + contents
  | _, _ => 0
  end.
Definition c61_table_contents (x : nat) (vs : list nat) : nat := 100 * list_sum vs.
Definition c61_analyzer (x : nat) (rows : list (list nat)) : nat :=
  match x with 2 => list_sum (map list_sum rows) | _ => list_max (map list_sum rows) end.
Definition c61_dataset : list (list (nat * nat)) := [[(0, 5)]; [(0, 3)]; [(0, 9)]].
Definition c61_order (p : nat) := match p with 1 => rev c61_dataset | _ => c61_dataset end.
Definition c61_outputs := [6; 7; 8].

Lemma c61_order_free : order_free c61_analyzer.
Proof.
  intros x rows rows' PM. unfold c61_analyzer. apply (Permutation_map list_sum) in PM.
  assert (list_max (map list_sum rows) = list_max (map list_sum rows')) by (now apply Permutation_list_max).
  assert (list_sum (map list_sum rows) = list_sum (map list_sum rows')) by (now apply Permutation_list_sum).
  destruct x as [|[|[|x]]]; assumption.
Qed.

Lemma c61_fed b : In b c61_dataset -> feeds_inputs c38_inputs b.
Proof.
  intros I. cbn in I. repeat destruct I as [<-|I]; try destruct I;
    (split; [repeat constructor; intros [] | intros x; reflexivity]).
Qed.

Lemma c61_permuted p : Permutation (c61_order p) c61_dataset.
Proof.
  destruct p as [|[|p]]; cbn; try apply Permutation_refl.
  symmetry. apply (Permutation_rev c61_dataset).
Qed.

Lemma c61_outputs_provided x : In x c61_outputs -> x < length c38_graph /\
  forall y, feeds c38_graph c38_inputs (replaced_tensors c38_sinks) c38_tables x y ->
    ~ not_provided c38_graph c38_inputs (replaced_tensors c38_sinks) c38_tables y.
Proof.
  intros I. split.
  - cbn in I. repeat destruct I as [<-|I]; try destruct I; cbn; lia.
  - intros y _ (U & NI & NR & NT). unfold is_input, is_replaced, is_table, c38_graph in *.
    do 9 (destruct y as [|y]; [cbn in *; first [discriminate | apply NI; discriminate
      | apply NR; discriminate | apply NT; eexists; split; [left|]; reflexivity ]|]).
    destruct y; discriminate.
Qed.
