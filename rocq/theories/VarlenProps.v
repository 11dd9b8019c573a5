(** C43: which sparse batches `validate_varlen_sparse_value` accepts. *)
From Coq Require Import ZArith List Lia.
From Verif Require Import VarlenModel VarlenSpec VarlenProofs.
Import ListNotations.
Open Scope Z_scope.

(** For every index array TensorFlow can hold, the validation returns exactly when
    the array has two columns and enumerates, row by row in increasing order,
    columns 0, 1, 2, ... of each row that has values; otherwise it raises. *)
Theorem c43_accepts_exactly_left_aligned : forall width indices, proper indices ->
  (validate width indices = None <-> width = 2%nat /\ left_aligned indices).
Proof. exact accepts_left_aligned. Qed.

Example c43_accepts_applies :
  proper [(0, 0); (0, 1); (3, 0)] /\ validate 2 [(0, 0); (0, 1); (3, 0)] = None
  /\ proper [(0, 0); (0, 2); (3, 0)] /\ ~ left_aligned [(0, 0); (0, 2); (3, 0)]
  /\ ~ left_aligned [(1, 0); (1, 1); (2, 2)].
Proof.
  assert (P : forall l, (forall p, In p l -> 0 <= fst p < 4 /\ 0 <= snd p < 4) -> proper l).
  { intros l H r c K. specialize (H _ K). cbn in H. lia. }
  split; [apply P; intros p H; repeat (destruct H as [H|H]; [subst p; cbn; lia|]); now destruct H|].
  split; [reflexivity|].
  split; [apply P; intros p H; repeat (destruct H as [H|H]; [subst p; cbn; lia|]); now destruct H|].
  split; intro H.
  - assert (K : validate 2 [(0, 0); (0, 2); (3, 0)] = None).
    { apply c43_accepts_exactly_left_aligned; [|auto].
      apply P; intros p Hp; repeat (destruct Hp as [Hp|Hp]; [subst p; cbn; lia|]); now destruct Hp. }
    vm_compute in K. discriminate.
  - assert (K : validate 2 [(1, 0); (1, 1); (2, 2)] = None).
    { apply c43_accepts_exactly_left_aligned; [|auto].
      apply P; intros p Hp; repeat (destruct Hp as [Hp|Hp]; [subst p; cbn; lia|]); now destruct Hp. }
    vm_compute in K. discriminate.
Qed.

Print Assumptions c43_accepts_exactly_left_aligned.
