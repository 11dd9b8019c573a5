From Coq Require Import String Ascii List Bool Permutation Sorting.Sorted Lia.
From Verif Require Import SortModel.
Import ListNotations.

Section sort.
  Context {A : Type} (leb : A -> A -> bool).

  Lemma insert_sorted_perm x l : Permutation (insert_sorted leb x l) (x :: l).
  Proof.
    induction l as [|y l IH]; cbn; [reflexivity|]. destruct (leb x y); [reflexivity|].
    rewrite IH. apply perm_swap.
  Qed.
  Lemma py_sorted_perm l : Permutation (py_sorted leb l) l.
  Proof. induction l as [|x l IH]; cbn; [constructor|]. rewrite insert_sorted_perm, IH. reflexivity. Qed.

  Hypothesis total : forall x y, leb x y = true \/ leb y x = true.
  Hypothesis trans : forall x y z, leb x y = true -> leb y z = true -> leb x z = true.

  Definition le (x y : A) : Prop := leb x y = true.

  Lemma insert_sorted_sorted x l : StronglySorted le l -> StronglySorted le (insert_sorted leb x l).
  Proof.
    induction 1 as [|y l HS IH HF]; cbn; [repeat constructor|].
    destruct (leb x y) eqn:E.
    - constructor; [constructor; assumption|]. constructor; [exact E|].
      eapply Forall_impl; [|exact HF]. intros z Hz. exact (trans _ _ _ E Hz).
    - constructor; [exact IH|]. eapply Permutation_Forall; [symmetry; apply insert_sorted_perm|].
      constructor; [|exact HF]. destruct (total x y); unfold le; congruence.
  Qed.
  Lemma py_sorted_sorted l : StronglySorted le (py_sorted leb l).
  Proof. induction l as [|x l IH]; cbn; [constructor|]. apply insert_sorted_sorted, IH. Qed.

  (** Sorted permutations are equal as soon as the order is antisymmetric on the elements. *)
  Lemma sorted_unique l1 l2 :
    StronglySorted le l1 -> StronglySorted le l2 -> Permutation l1 l2 ->
    (forall x y, In x l1 -> In y l1 -> leb x y = true -> leb y x = true -> x = y) -> l1 = l2.
  Proof.
    intros H1. revert l2. induction H1 as [|x l1 HS IH HF]; intros l2 H2 HP Hanti.
    - apply Permutation_nil in HP. congruence.
    - destruct H2 as [|y l2 HS2 HF2]; [apply Permutation_sym, Permutation_nil in HP; discriminate|].
      assert (x = y) as <-.
      { assert (Hx : In x (y :: l2)) by (eapply Permutation_in; [exact HP|left; reflexivity]).
        assert (Hy : In y (x :: l1)) by (eapply Permutation_in; [symmetry; exact HP|left; reflexivity]).
        destruct Hx as [->|Hx]; [reflexivity|]. destruct Hy as [->|Hy]; [reflexivity|].
        rewrite Forall_forall in HF, HF2. apply Hanti; [left; reflexivity|right; exact Hy|apply HF, Hy|apply HF2, Hx]. }
      f_equal. apply IH; [exact HS2|eapply Permutation_cons_inv; exact HP|].
      intros a b Ha Hb. apply Hanti; right; assumption.
  Qed.

  Lemma py_sorted_perm_eq l1 l2 :
    Permutation l1 l2 ->
    (forall x y, In x l1 -> In y l1 -> leb x y = true -> leb y x = true -> x = y) ->
    py_sorted leb l1 = py_sorted leb l2.
  Proof.
    intros HP Hanti. apply sorted_unique; try apply py_sorted_sorted.
    - rewrite !py_sorted_perm. exact HP.
    - intros x y Hx Hy. apply Hanti; (eapply Permutation_in; [apply py_sorted_perm|assumption]).
  Qed.
End sort.

(** The order of bytes. *)
Lemma bytes_leb_total a b : bytes_leb a b = true \/ bytes_leb b a = true.
Proof. unfold bytes_leb. destruct (String.leb_total a b); auto. Qed.
Lemma bytes_leb_antisym a b : bytes_leb a b = true -> bytes_leb b a = true -> a = b.
Proof. apply String.leb_antisym. Qed.
Lemma ascii_compare_N a b : Ascii.compare a b = BinNat.N.compare (N_of_ascii a) (N_of_ascii b).
Proof. reflexivity. Qed.
Lemma bytes_leb_trans a b c : bytes_leb a b = true -> bytes_leb b c = true -> bytes_leb a c = true.
Proof.
  unfold bytes_leb, String.leb.
  revert b c. induction a as [|x a IH]; intros b c; [destruct c; reflexivity|].
  destruct b as [|y b]; [discriminate|]. destruct c as [|z c]; [discriminate|].
  cbn [String.compare]. rewrite !ascii_compare_N.
  destruct (BinNat.N.compare_spec (N_of_ascii x) (N_of_ascii y)) as [E1|E1|E1]; try discriminate;
  destruct (BinNat.N.compare_spec (N_of_ascii y) (N_of_ascii z)) as [E2|E2|E2]; try discriminate;
  destruct (BinNat.N.compare_spec (N_of_ascii x) (N_of_ascii z)) as [E3|E3|E3]; try reflexivity;
  try (exfalso; lia).
  apply IH.
Qed.
