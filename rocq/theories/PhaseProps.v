(** * C38: in which phase each analyzer runs *)
From Coq Require Import List Arith Lia.
From Verif Require Import ReadyModel ReadySpec TablesProofs PhaseModel PhaseSpec PhaseProofs.
Import ListNotations.

(** When no analyzer depends on itself, scheduling terminates without an
    exception, in a bounded number of rounds, and gives every analyzer, in the
    order in which they were created, a phase: the length of the longest chain of
    analyzers it depends on. *)
Theorem c38_phases :
  forall (P : Type) (g : tf_graph) (translate : nat -> list P -> P) (no_path : P)
         inputs tables sinks,
  analyzable g inputs tables sinks ->
  exists r k st, (forall rounds fuel, r <= rounds -> k <= fuel ->
      build_phases g translate no_path inputs tables rounds fuel sinks = Some (Some st)) /\
    map fst st = sinks /\
    forall i k p, nth_error st i = Some (k, p) ->
      exists m, p = Some m /\ longest_chain g inputs tables sinks i m.
Proof. exact @phases_spec. Qed.
Print Assumptions c38_phases.

(** So every analyzer whose result is read has run in an earlier phase. *)
Theorem c38_inputs_in_earlier_phases :
  forall (P : Type) (g : tf_graph) (inputs : list (nat * P)) tables sinks i j m n,
  reads g inputs tables sinks i j ->
  longest_chain g inputs tables sinks i m -> longest_chain g inputs tables sinks j n -> n < m.
Proof. exact @longest_reads. Qed.
Print Assumptions c38_inputs_in_earlier_phases.

(** An example: an input (0); the mean of node 1 replaces node 2; node 3 reads 1
    and 2; a vocabulary of node 3 has file 4, the file of table 5; node 6 looks up;
    the maximum of node 6 replaces node 7; the minimum of node 1 replaces node 8. *)
Definition c38_graph : tf_graph :=
  [Unexpected; Node [0]; Unexpected; Node [1; 2]; Unexpected; Unexpected; Node [3; 5];
   Unexpected; Unexpected].
Definition c38_inputs : list (nat * nat) := [(0, 10)].
Definition c38_tables := [Table 5 [4]].
Definition c38_sinks := [Sink 7 [6]; Sink 4 [3]; Sink 2 [1]; Sink 8 [1]].

Example c38_analyzable : analyzable c38_graph c38_inputs c38_tables c38_sinks.
Proof.
  assert (NB : forall x ps y, nth_error c38_graph x = Some (Node ps) -> In y ps -> y < x).
  { intros x ps y N I. unfold c38_graph in *.
    do 9 (destruct x as [|x]; [cbn in N; try discriminate; injection N as <-; cbn in *; lia|]).
    destruct x; discriminate. }
  assert (PR : forall y, ~ not_provided c38_graph c38_inputs (replaced_tensors c38_sinks) c38_tables y).
  { intros y (U & NI & NR & NT). unfold is_input, is_replaced, is_table, c38_graph in *.
    do 9 (destruct y as [|y]; [cbn in *; first [discriminate | apply NI; discriminate
      | apply NR; discriminate | apply NT; eexists; split; [left|]; reflexivity ]|]).
    destruct y; discriminate. }
  constructor.
  - intros x ps p N I. specialize (NB x ps p N I).
    assert (x < length c38_graph) by (apply nth_error_Some; congruence). lia.
  - constructor; unfold is_input, is_replaced, is_table, c38_inputs, c38_sinks, c38_tables.
    + intros x; do 9 (destruct x as [|x]; [cbn; congruence|]); cbn; congruence.
    + intros x I (t & [<-|[]] & <-). now apply I.
    + intros x (t & [<-|[]] & <-) R. now apply R.
    + cbn. constructor; [intros []|constructor].
    + intros t x [<-|[]] [<-|[]]. cbn. lia.
    + intros x; do 9 (destruct x as [|x]; [cbn; congruence|]); cbn; congruence.
    + intros x (t & [<-|[]] & <-). reflexivity.
  - intros p. now apply numbered_acyclic.
  - cbn. repeat constructor; cbn; lia.
  - intros k x K X. cbn in K. repeat destruct K as [<-|K]; try destruct K; cbn in X;
      destruct X as [<-|[]]; cbn; lia.
  - intros k x y K X F. apply PR.
  - intros t x y [<-|[]] [<-|[]] Nd U. cbn in Nd.
    inversion Nd as [|? ? ? ? _ NR|? t ? ? T E]; subst.
    + unfold is_replaced. cbn. discriminate.
    + exfalso. apply NR. unfold is_replaced. cbn. discriminate.
    + destruct T as [<-|[]]. discriminate E.
  - apply numbered_rank; [exact NB | |].
    + intros t y [<-|[]] [<-|[]]. cbn. lia.
    + intros k x K X. cbn in K. repeat destruct K as [<-|K]; try destruct K; cbn in X;
        destruct X as [<-|[]]; cbn; lia.
Qed.

Example c38_applies :
  build_phases c38_graph (fun x _ => x) 0 c38_inputs c38_tables 10 100 c38_sinks
  = Some (Some [(Sink 7 [6], Some 2); (Sink 4 [3], Some 1); (Sink 2 [1], Some 0); (Sink 8 [1], Some 0)]).
Proof. vm_compute. reflexivity. Qed.
