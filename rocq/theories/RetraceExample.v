(** * Example programs for the properties of tracing again *)
From Coq Require Import String List ZArith Lia.
From Verif Require Import RetraceModel RetraceSpec RetraceRun.
Import ListNotations.
Local Open Scope string_scope.
Local Open Scope list_scope.

(** Operations: double.  Analyzers: a sum over the dataset. *)
Definition ex_op (op : nat) (args : list Z) : Z := (2 * fold_right Z.add 0 args)%Z.
Definition ex_analyze (a : nat) (rows : list (list Z)) : Z := fold_right Z.add 0%Z (concat rows).
Definition ex_dataset : list (string -> Z) := [fun _ => 1%Z; fun k => if String.eqb k "x" then 2%Z else 7%Z].
Definition ex_batch : string -> Z := fun _ => 5%Z.

(** Two sums, of a column and of its double. *)
Definition ex_two (n0 n1 : string) (k0 k1 : string) : program :=
  Program [Call n0 0 [Input k0]; Call n1 0 [Apply 0 [Input k1]]]
          [("a", Result 0); ("b", Apply 0 [Result 1; Input "x"])].
Definition ex_two_again (n0 n1 : string) (k0 k1 : string) : program :=
  Program [Call n1 0 [Apply 0 [Input k1]]; Call n0 0 [Input k0]]
          [("a", Result 1); ("b", Apply 0 [Result 0; Input "x"])].
Definition ex_swap (j : nat) : nat := match j with 0 => 1 | _ => 0 end.

(** A chain: the second sum reads the first. *)
Definition ex_chain : program :=
  Program [Call "sum" 0 [Input "x"]; Call "sum" 0 [Apply 0 [Result 0; Input "x"]]]
          [("a", Result 1); ("b", Apply 0 [Result 0])].

Lemma ex_reordered n0 n1 k0 k1 : reordered (ex_two n0 n1 k0 k1) (ex_two_again n0 n1 k0 k1) ex_swap.
Proof.
  constructor.
  - cbn. intros [|[|i]] [|[|j]] I J E; cbn in E; try reflexivity; try discriminate; lia.
  - intros [|[|j]] c E; cbn in E.
    + injection E as <-. eexists. split; [reflexivity|]. repeat constructor.
    + injection E as <-. eexists. split; [reflexivity|]. repeat constructor.
    + destruct j; discriminate.
  - cbn. constructor; [|constructor; [|constructor]]; (split; [reflexivity|]); cbn.
    + exact (same_result ex_swap 1).
    + repeat constructor. exact (same_result ex_swap 0).
Qed.
Lemma ex_in_order n0 n1 k0 k1 : in_order (ex_two n0 n1 k0 k1).
Proof. intros [|[|i]] c E; cbn in E; [injection E as <- | injection E as <- | destruct i; discriminate]; repeat constructor. Qed.
Lemma ex_refer n0 n1 k0 k1 : outputs_refer (ex_two_again n0 n1 k0 k1).
Proof. repeat constructor. Qed.
Lemma ex_chain_in_order : in_order ex_chain.
Proof. intros [|[|i]] c E; cbn in E; [injection E as <- | injection E as <- | destruct i; discriminate]; repeat constructor. Qed.
Lemma ex_named_apart : named_apart (ex_two "sum_of_x" "sum_of_y" "x" "x").
Proof. unfold named_apart. vm_compute. constructor; [intros [E|[]]; discriminate|]. constructor; [intros []|constructor]. Qed.
Lemma ex_read_apart : read_apart (ex_two "sum" "sum" "x" "y").
Proof.
  intros [|[|i]] [|[|j]] c c' E E' H; cbn in E, E'; try reflexivity;
    try (destruct i; discriminate); try (destruct j; discriminate); exfalso;
    injection E as <-; injection E' as <-; destruct (H "x") as [A B].
  - destruct A as (t & [<-|[]] & R); [exists (Input "x"); split; [now left | constructor]|].
    inversion R as [|? ? u IU RU]; subst. destruct IU as [<-|[]]. inversion RU.
  - destruct B as (t & [<-|[]] & R); [exists (Input "x"); split; [now left | constructor]|].
    inversion R as [|? ? u IU RU]; subst. destruct IU as [<-|[]]. inversion RU.
Qed.
(** The values of the swapped trace are not those of the function. *)
Lemma ex_wrong : ~ right ex_op ex_analyze ex_dataset (ex_two "sum" "sum" "x" "x") ex_batch [("a", 6%Z); ("b", 16%Z)].
Proof.
  intros R. inversion R as [|o kv ? ? [_ M] _]; subst. cbn in M.
  assert (E : means ex_op ex_analyze ex_dataset (ex_two "sum" "sum" "x" "x") ex_batch (Result 0) 3%Z).
  { change 3%Z with (ex_analyze 0 [[1%Z]; [2%Z]]). eapply means_result with (c := Call "sum" 0 [Input "x"]); [reflexivity|].
    constructor; [|constructor; [|constructor]]; (constructor; [|constructor]).
    - exact (means_input _ _ _ _ (fun _ => 1%Z) "x").
    - exact (means_input _ _ _ _ (fun k => if String.eqb k "x" then 2%Z else 7%Z) "x"). }
  assert (6%Z = 3%Z); [|discriminate].
  apply (means_unique ex_op ex_analyze ex_dataset _ (ex_in_order "sum" "sum" "x" "x") 2 (Result 0) (below_result 2 0 (Nat.lt_0_2)) ex_batch); assumption.
Qed.
