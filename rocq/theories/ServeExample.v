(** * A transform graph for the examples of C54 *)
From Coq Require Import String List Arith Bool Lia.
From Verif Require Import SortModel ServeModel ServeSpec.
Import ListNotations.
Local Open Scope string_scope.
Local Open Scope list_scope.

(** "x" is dense, "s" is sparse (its indices, values and dense shape), 4 is the captured table; 5 adds
    one to x, 6 looks the values of s up, 7 has two results, 8 raises on the value supplied for a
    missing input, and 9 waits for 6. *)
Definition x_operations : list operation :=
  [Operation true [] [] 1; Operation true [] [] 1; Operation true [] [] 1; Operation true [] [] 1; Operation true [] [] 1;
   Operation false [(0, 0)] [] 1; Operation false [(2, 0); (4, 0)] [] 1; Operation false [(5, 0); (6, 0)] [] 2;
   Operation false [(2, 0)] [] 1; Operation false [(5, 0)] [6] 1].
Definition x_graph (outputs : list (string * list tensor)) : func_graph :=
  FuncGraph x_operations [("x", [(0, 0)]); ("s", [(1, 0); (2, 0); (3, 0)])] [(4, 0)] outputs.
Definition x_run (i : nat) (vs : list nat) : option (list nat) :=
  match i, vs with
  | 5, [v] => Some [v + 1]
  | 6, [v; t] => Some [v + t]
  | 7, [u; v] => Some [u; u + v]
  | 8, [0] => None
  | 8, [v] => Some [v]
  | 9, [v] => Some [v]
  | _, _ => None
  end.
Definition x_supply (n : nat) (k : string) : list nat := if String.eqb k "x" then [0] else if String.eqb k "s" then [0; 0; 0] else [].
Definition x_captured : list nat := [100].
Definition x_choose (l : list nat) : nat := length l - 1.
Definition x_batch_size (vs : list nat) : nat := hd 0 vs.

Definition x_outputs : list (string * list tensor) := [("a", [(5, 0)]); ("b", [(1, 0); (6, 0); (3, 0)]); ("c", [(7, 1)])].
Definition x_raising : list (string * list tensor) := [("a", [(5, 0)]); ("d", [(8, 0)])].
Definition x_waiting : list (string * list tensor) := [("e", [(9, 0)])].
Definition x_inputs : list (string * list nat) := [("s", [7; 8; 9]); ("x", [3])].

Lemma x_well_formed outputs : NoDup (map fst outputs) -> (forall name c t, In (name, c) outputs -> In t c -> fst t < 10) ->
  well_formed (x_graph outputs).
Proof.
  intros N B. split; [|split; [|split; [|split; [|split]]]].
  - intros i o H. cbn in H. do 10 (destruct i as [|i]; [injection H as <-; cbn; split; [|split]; intros; intuition (subst; cbn; try lia; try discriminate)|cbn in H]).
    destruct i; discriminate.
  - cbn. repeat constructor; cbn; intuition discriminate.
  - exact N.
  - cbn. repeat constructor; cbn; intuition discriminate.
  - intros t I. cbn in I. destruct I as [<-|[<-|[<-|[<-|[<-|[]]]]]]; (split; [eexists; split; [reflexivity|reflexivity]|reflexivity]).
  - intros name c t I J. apply (B name c t I J).
Qed.
Lemma x_outputs_formed : well_formed (x_graph x_outputs).
Proof. apply x_well_formed; [repeat constructor; cbn; intuition discriminate|]. intros name c t I J. cbn in I. intuition (subst; match goal with H : (_, _) = (_, _) |- _ => injection H as <- <- end; cbn in J; intuition (subst; cbn; lia)). Qed.
Lemma x_raising_formed : well_formed (x_graph x_raising).
Proof. apply x_well_formed; [repeat constructor; cbn; intuition discriminate|]. intros name c t I J. cbn in I. intuition (subst; match goal with H : (_, _) = (_, _) |- _ => injection H as <- <- end; cbn in J; intuition (subst; cbn; lia)). Qed.
Lemma x_waiting_formed : well_formed (x_graph x_waiting).
Proof. apply x_well_formed; [repeat constructor; cbn; intuition discriminate|]. intros name c t I J. cbn in I. intuition (subst; match goal with H : (_, _) = (_, _) |- _ => injection H as <- <- end; cbn in J; intuition (subst; cbn; lia)). Qed.

Lemma x_expected outputs inputs : inputs = x_inputs \/ inputs = [("x", [3])] -> expected (x_graph outputs) inputs.
Proof.
  intros [-> | ->]; (split; [cbn; repeat constructor; cbn; intuition discriminate|]).
  - intros k vs [E|[E|[]]]; injection E as <- <-; eexists; (split; [|]); [right; left; reflexivity|reflexivity|left; reflexivity|reflexivity].
  - intros k vs [E|[]]; injection E as <- <-; eexists; (split; [left; reflexivity|reflexivity]).
Qed.
Lemma x_well_supplied outputs : well_supplied (x_graph outputs) x_supply.
Proof. intros n k c [E|[E|[]]]; injection E as <- <-; reflexivity. Qed.

(** What is computed from what *)
Lemma x_from i j outputs : computed_from (x_graph outputs) i j -> i < 5 -> j = i.
Proof.
  intros C. induction C as [|i o t j H It C IH]; [reflexivity|]. intros L. exfalso. cbn in H.
  do 5 (destruct i as [|i]; [injection H as <-; destruct It|cbn in H]). lia.
Qed.
Lemma x_from_five j outputs : computed_from (x_graph outputs) 5 j -> j = 5 \/ j = 0.
Proof. intros C. inversion C as [|i o t j' H It C']; subst; [now left|]. cbn in H. injection H as <-. destruct It as [<-|[]]. right. apply x_from in C'; [exact C'|cbn; lia]. Qed.
Lemma x_placeholder i outputs : placeholder (x_graph outputs) i -> i < 5.
Proof.
  intros (o & H & P). cbn in H. do 5 (destruct i as [|i]; [lia|cbn in H]). do 5 (destruct i as [|i]; [injection H as <-; discriminate|cbn in H]). destruct i; discriminate.
Qed.
Lemma x_five_computable outputs : computable (x_graph outputs) ["x"] [(5, 0)].
Proof.
  intros t p [<-|[]] C P. apply x_from_five in C. apply x_placeholder in P. destruct C as [-> | ->]; [lia|]. left. exists "x", [(0, 0)]. cbn. auto.
Qed.
Lemma x_nine_computable outputs : computable (x_graph outputs) ["x"] [(9, 0)].
Proof.
  intros t p [<-|[]] C P. inversion C as [|i o t j' H It C']; subst; [apply x_placeholder in P; cbn in P; lia|]. cbn in H. injection H as <-. destruct It as [<-|[]].
  eapply (x_five_computable outputs (5, 0)); [now left|exact C'|exact P].
Qed.
Lemma x_eight_not outputs : ~ computable (x_graph outputs) ["x"] [(8, 0)].
Proof.
  intros C. assert (A : available (x_graph outputs) ["x"] (2, 0)).
  { apply (C (8, 0)); [now left| |eexists; split; reflexivity]. eapply computed_through; [reflexivity|now left|]. apply computed_itself. }
  destruct A as [(k & c & Ik & Ic & It)|I]; [|cbn in I; intuition discriminate]. destruct Ik as [<-|[]]. destruct Ic as [E|[E|[]]]; [|discriminate].
  injection E as <-. cbn in It. intuition discriminate.
Qed.
Lemma x_raising_gives : all_give x_run (x_graph x_raising) x_captured [("x", [3])] ["x"] (computable (x_graph x_raising) ["x"]).
Proof.
  intros assign name c [H _] _ [E|[E|[]]] Co; injection E as <- <-; [|now apply x_eight_not in Co].
  specialize (H "x" [(0, 0)] [3] (or_introl eq_refl) (or_introl eq_refl)). inversion H as [|? ? ? ? A _]; subst.
  exists [4]. constructor; [|constructor]. exists [4]. split; [|reflexivity]. eapply ran_operation with (vs := [3]); [reflexivity|reflexivity|intros ? []| |reflexivity].
  constructor; [|constructor]. exists [3]. split; [|reflexivity]. eapply ran_placeholder; [reflexivity|reflexivity|exact A].
Qed.
Lemma x_outputs_give : forall n more, filled_in (x_graph x_outputs) x_supply n [("x", [3])] more ->
  all_give x_run (x_graph x_outputs) x_captured ([("x", [3])] ++ more) ["x"; "s"] (fun _ => True).
Proof.
  intros n more F assign name c [H Ca] _ I _.
  assert (A0 : assign (0, 0) = Some 3).
  { specialize (H "x" [(0, 0)] [3] (or_introl eq_refl) (or_introl eq_refl)). now inversion H. }
  assert (As : Forall2 (fun t v => assign t = Some v) [(1, 0); (2, 0); (3, 0)] [0; 0; 0]).
  { apply (H "s"); [right; now left|]. right. apply F. cbn. intuition discriminate. }
  inversion As as [|? ? ? ? A1 As2]; subst. inversion As2 as [|? ? ? ? A2 As3]; subst. inversion As3 as [|? ? ? ? A3 _]; subst.
  cbn in Ca. inversion Ca as [|? ? ? ? A4 _]; subst.
  assert (P : forall i v, i < 5 -> assign (i, 0) = Some v -> ran x_run (x_graph x_outputs) assign i [v]).
  { intros i v L A. do 5 (destruct i as [|i]; [eapply ran_placeholder; [reflexivity|reflexivity|exact A]|]). lia. }
  assert (R5 : ran x_run (x_graph x_outputs) assign 5 [4]).
  { eapply ran_operation with (vs := [3]); [reflexivity|reflexivity|intros ? []| |reflexivity]. constructor; [|constructor]. exists [3]. split; [apply P; [cbn; lia|exact A0]|reflexivity]. }
  assert (R6 : ran x_run (x_graph x_outputs) assign 6 [100]).
  { eapply ran_operation with (vs := [0; 100]); [reflexivity|reflexivity|intros ? []| |reflexivity]. constructor; [|constructor; [|constructor]]; eexists; (split; [apply P; [cbn; lia|eassumption]|reflexivity]). }
  destruct I as [E|[E|[E|[]]]]; injection E as <- <-.
  - exists [4]. constructor; [|constructor]. eexists. split; [exact R5|reflexivity].
  - exists [0; 100; 0]. constructor; [|constructor; [|constructor; [|constructor]]]; eexists; (split; [|]); [apply P; [cbn; lia|exact A1]|reflexivity|exact R6|reflexivity|apply P; [cbn; lia|exact A3]|reflexivity].
  - exists [104]. constructor; [|constructor]. exists [4; 104]. split; [|reflexivity]. eapply ran_operation with (vs := [4; 100]); [reflexivity|reflexivity|intros ? []| |reflexivity].
    constructor; [eexists; split; [exact R5|reflexivity]|constructor; [eexists; split; [exact R6|reflexivity]|constructor]].
Qed.
