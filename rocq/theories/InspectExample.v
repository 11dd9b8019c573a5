(** * A preprocessing function with two analyzers in a row

    Inputs [x] (0), [y] (1), [z] (2) and the sparse [w] (3, 4).  Node 5 reads [x] and
    is analysed into tensor 6; node 7 reads [y] and 6, and is analysed into tensor 8,
    which initialises table 9; node 10 looks [z] up in the table; node 11 checks [w],
    and the outputs depend on it by control. *)
From Coq Require Import String List Arith Lia.
From Verif Require Import ReadyModel ReadySpec TraverseModel TraverseSpec InspectModel InspectSpec.
Import ListNotations.
Local Notation length := List.length.
Open Scope string_scope.

Definition x_graph : tf_graph :=
  [Unexpected; Unexpected; Unexpected; Unexpected; Unexpected; Node [0]; Unexpected; Node [1; 6];
   Unexpected; Unexpected; Node [2; 9]; Node [3; 4]].
Definition x_inputs : list (nat * nat) := [(0, 0); (1, 1); (2, 2); (3, 3); (4, 4)].
Definition x_signature : list (string * list nat) :=
  [("x", [0]); ("y", [1]); ("z", [2]); ("w", [3; 4])].
Definition x_ag : graph analysis_op :=
  [OpNode (Some [5]) [] 1; OpNode None [(0, 0)] 1; OpNode (Some [7]) [] 1; OpNode None [(2, 0)] 1].
Definition x_sinks : list sink := [Sink 6 (1, 0); Sink 8 (3, 0)].
Definition x_tables : list table := [Table 9 [8]].

Lemma x_depends : forall a b, depends x_ag a b -> (a = 1 /\ b = 0) \/ (a = 3 /\ b = 2).
Proof.
  intros a b (node & i & N & I). unfold x_ag in N.
  do 4 (destruct a as [|a]; [cbn in N; injection N as <-; cbn in I;
                             repeat (destruct I as [I|I]; [injection I as <- <-; lia|]); now destruct I|]).
  destruct a; discriminate.
Qed.

Lemma x_reaches : forall a b, reaches x_ag a b ->
  a = b \/ (a = 1 /\ b = 0) \/ (a = 3 /\ b = 2).
Proof.
  induction 1 as [|a b c D R IH]; [auto|]. apply x_depends in D.
  destruct IH as [<-|IH]; lia.
Qed.

Lemma x_reads : forall s x, In s x_sinks -> analyzer_reads x_ag s x ->
  (s = Sink 6 (1, 0) /\ x = 5) \/ (s = Sink 8 (3, 0) /\ x = 7).
Proof.
  intros s x [<-|[<-|[]]] (op & node & ts & R & N & D & X); apply x_reaches in R; cbn [fst sink_future] in R;
    destruct R as [<-|[[E ->]|[E ->]]]; try discriminate E; cbn in N; injection N as <-; cbn in D; try discriminate;
    injection D as <-; destruct X as [<-|[]]; auto.
Qed.

Lemma x_traced : traced x_graph x_inputs x_ag x_sinks x_tables x_signature.
Proof.
  split.
  - intros x ps p N I. unfold x_graph in *.
    do 12 (destruct x as [|x]; [cbn in N; try discriminate; injection N as <-; cbn in *; lia|]).
    destruct x; discriminate.
  - constructor; unfold is_input, is_replaced, is_table, x_inputs, x_sinks, x_tables.
    + intros x; do 12 (destruct x as [|x]; [cbn; congruence|]); cbn; congruence.
    + intros x I (t & [<-|[]] & <-). now apply I.
    + intros x (t & [<-|[]] & <-) R. now apply R.
    + cbn. constructor; [intros []|constructor].
    + intros t x [<-|[]] [<-|[]]. cbn. lia.
    + intros x; do 12 (destruct x as [|x]; [cbn; congruence|]); cbn; congruence.
    + intros x (t & [<-|[]] & <-). reflexivity.
  - intros name comps c I C. unfold is_input, x_inputs.
    repeat (destruct I as [I|I];
            [injection I as <- <-; repeat (destruct C as [<-|C]; [cbn; discriminate|]); now destruct C|]).
    now destruct I.
  - intros c I. unfold is_input, x_inputs in I.
    destruct c as [|[|[|[|[|c]]]]]; try (now cbn in I);
      [exists "x", [0]|exists "y", [1]|exists "z", [2]|exists "w", [3; 4]|exists "w", [3; 4]]; cbn; auto 10.
  - intros op node vn N I. unfold x_ag in N.
    do 4 (destruct op as [|op]; [cbn in N; injection N as <-; cbn in I;
            repeat (destruct I as [<-|I]; [eexists; split; [reflexivity|cbn; lia]|]); now destruct I|]).
    destruct op; discriminate.
  - intros s [<-|[<-|[]]]; eexists; (split; [reflexivity|cbn; lia]).
  - intros s [<-|[<-|[]]] o R (c & D & R'); cbn [fst sink_future] in R;
      apply x_depends in D; apply x_reaches in R'; lia.
  - intros s x I R. destruct (x_reads s x I R) as [[_ ->]|[_ ->]]; cbn; lia.
  - exists (fun n => n). split; [|split].
    + intros x ps y N _ I. unfold x_graph in N.
      do 12 (destruct x as [|x]; [cbn in N; try discriminate; injection N as <-; cbn in *; lia|]).
      destruct x; discriminate.
    + intros t i [<-|[]] [<-|[]]. cbn. lia.
    + intros s x I R. destruct (x_reads s x I R) as [[-> ->]|[-> ->]]; cbn; lia.
Qed.

(** Each node adds up its parents; each analyzer adds up what it reads over all
    batches. *)
Definition x_compute (n : nat) (l : list nat) : nat := list_sum l.
Definition x_value (feed results : nat -> nat) (n : nat) : nat :=
  match n with
  | 5 => feed 0 + 0
  | 6 => results 6
  | 7 => feed 1 + (results 6 + 0)
  | 8 => results 8
  | 9 => results 8 + 0
  | 10 => feed 2 + (results 8 + 0 + 0)
  | 11 => feed 3 + (feed 4 + 0)
  | n => feed n
  end.
Definition x_analyzer (s : nat) (values : list (nat -> nat)) : nat :=
  list_sum (map (fun v => v (if Nat.eqb s 6 then 5 else 7)) values).

Lemma x_runs : forall feed results,
  runs x_graph x_inputs x_tables x_sinks x_compute feed results (x_value feed results).
Proof.
  intros feed results. split.
  - intros x I. unfold is_input, x_inputs in I.
    do 5 (destruct x as [|x]; [reflexivity|]). now cbn in I.
  - intros x [<-|[<-|[]]]; reflexivity.
  - intros t [<-|[]]. reflexivity.
  - intros x ps N NS. unfold x_graph in N.
    do 12 (destruct x as [|x]; [cbn in N; try discriminate; injection N as <-; reflexivity|]).
    destruct x; discriminate.
Qed.

Lemma x_reads_sources : reads_sources x_sinks x_ag x_analyzer.
Proof.
  intros s v1 v2 I F. unfold x_analyzer.
  assert (Rd : analyzer_reads x_ag s (if Nat.eqb (sink_tensor s) 6 then 5 else 7)).
  { destruct I as [<-|[<-|[]]]; cbn [sink_tensor Nat.eqb].
    - exists 0. do 2 eexists. split; [|cbn; split; [reflexivity|split; [reflexivity|now left]]].
      cbn. eapply reaches_step; [|apply reaches_refl]. eexists. exists 0. split; [reflexivity|now left].
    - exists 2. do 2 eexists. split; [|cbn; split; [reflexivity|split; [reflexivity|now left]]].
      cbn. eapply reaches_step; [|apply reaches_refl]. eexists. exists 0. split; [reflexivity|now left]. }
  induction F as [|a b l1 l2 H F IH]; [reflexivity|]. cbn. rewrite (H _ Rd). f_equal. exact IH.
Qed.

(** Two datasets of two batches each, which agree on [x], [y] and [w] only. *)
Definition x_feeds1 : list (nat -> nat) := [fun n => n + 1; fun n => n + 10].
Definition x_feeds2 : list (nat -> nat) :=
  [fun n => if Nat.eqb n 2 then 100 else n + 1; fun n => if Nat.eqb n 2 then 200 else n + 10].
Definition x_results (n : nat) : nat := match n with 6 => 11 | 8 => 35 | _ => 0 end.

Lemma x_analysis : forall feeds, feeds = x_feeds1 \/ feeds = x_feeds2 ->
  analysis_of x_graph x_inputs x_tables x_sinks x_compute x_analyzer feeds x_results
    (map (fun f => x_value f x_results) feeds).
Proof.
  intros feeds H. split.
  - clear H. induction feeds; cbn; constructor; [apply x_runs|assumption].
  - destruct H as [->| ->]; intros s [<-|[<-|[]]]; vm_compute; reflexivity.
Qed.

Lemma x_agree : Forall2 (agree_on x_signature ["x"; "y"; "w"]) x_feeds1 x_feeds2.
Proof.
  repeat constructor; intros name comps c N I C;
    repeat (destruct I as [I|I]; [injection I as <- <-|]); try (now destruct I);
    try (repeat (destruct C as [<-|C]; [reflexivity|]); now destruct C);
    cbn in N; repeat (destruct N as [N|N]; [discriminate N|]); now destruct N.
Qed.
