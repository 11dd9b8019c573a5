(** * C37: a tensor is evaluated only when all it depends on is ready *)
From Coq Require Import String.
From Coq Require Import List Arith Lia.
From Verif Require Import ReadyModel ReadySpec ReadyProofs TablesProofs.
Import ListNotations.

(** On a graph without cycles, after any sequence of earlier queries, a query
    terminates, raises exactly when the tensor depends on something not
    provided, says that the tensor is ready exactly when no source it depends on
    is unready, and lists exactly the sources it depends on.  The path is the
    documented one. *)
Theorem c37_ready_and_dependencies :
  forall (P : Type) (g : tf_graph) (translate : nat -> list P -> P) (infos : list (nat * (bool * P))),
  closed_graph g -> forall history x,
  acyclic g infos -> (forall y, In y history -> y < length g) -> x < length g ->
  exists k M M' r, (forall fuel, k <= fuel ->
      analyze_tensors g translate infos fuel [] history = Some M /\
      analyze_tensor g translate infos fuel M x = Some (M', r)) /\
    right_answer g infos x r /\
    forall a, r = Some a -> has_path g translate infos x (path a).
Proof. exact @analyze_acyclic. Qed.
Print Assumptions c37_ready_and_dependencies.

(** On every graph, even with cycles, the first query of an analyzer is answered
    rightly. *)
Theorem c37_first_query :
  forall (P : Type) (g : tf_graph) (translate : nat -> list P -> P) (infos : list (nat * (bool * P))),
  closed_graph g -> forall x, x < length g ->
  exists k M' r, (forall fuel, k <= fuel -> analyze_tensor g translate infos fuel [] x = Some (M', r)) /\
    right_answer g infos x r.
Proof. exact @analyze_first. Qed.
Print Assumptions c37_first_query.

(** On every graph and after any history, queries terminate, list only sources
    the tensor depends on, and call it unready only with a cause. *)
Theorem c37_any_graph_partial :
  forall (P : Type) (g : tf_graph) (translate : nat -> list P -> P) (infos : list (nat * (bool * P))),
  closed_graph g -> forall history x,
  (forall y, In y history -> y < length g) -> x < length g ->
  exists k M M' r, (forall fuel, k <= fuel ->
      analyze_tensors g translate infos fuel [] history = Some M /\
      analyze_tensor g translate infos fuel M x = Some (M', r)) /\
    forall a, r = Some a ->
      (forall s, In s (dependent_sources a) -> reach g infos x s /\ is_source infos s) /\
      (is_ready a = false -> exists s p, reach g infos x s /\ find s infos = Some (false, p)).
Proof. exact @analyze_any. Qed.
Print Assumptions c37_any_graph_partial.

(** The analyzer with tables.  Its construction terminates and raises only when
    the initializer of a table depends on something that is not a replaced
    tensor.  Afterwards, whatever was asked before: a tensor is ready exactly
    when every replaced tensor it needs, also through tables, is ready; and the
    dependent inputs are exactly those that feed it. *)
Theorem c37_tables_and_inputs :
  forall (P N : Type) (g : tf_graph) (translate : nat -> list P -> P) (no_path : P)
         inputs replaced tables (signature : list (N * list nat)),
  closed_graph g -> well_formed_signature g inputs replaced tables ->
  acyclic g (replaced_infos no_path replaced) ->
  (forall name comps c, In (name, comps) signature -> In c comps -> is_input inputs c) ->
  exists k built, (forall fuel, k <= fuel ->
      complete_infos g translate no_path fuel inputs replaced tables = Some built) /\
  match built with
  | None => exists t i y, In t tables /\ In i (init_inputs t) /\
      needs g inputs replaced tables i y /\
      nth_error g y = Some Unexpected /\ ~ is_replaced replaced y
  | Some infos =>
      forall history x, (forall y, In y history -> y < length g) -> x < length g ->
      exists k M M' r, (forall fuel, k <= fuel ->
          analyze_tensors g translate infos fuel [] history = Some M /\
          analyze_tensor g translate infos fuel M x = Some (M', r)) /\
        match r with
        | None => exists y, feeds g inputs replaced tables x y /\
                            not_provided g inputs replaced tables y
        | Some a =>
            (forall y, feeds g inputs replaced tables x y ->
               ~ not_provided g inputs replaced tables y) /\
            (is_ready a = true <->
               forall s v, needs g inputs replaced tables x s -> find s replaced = Some v -> v = true) /\
            (is_ready a = false ->
               exists s, needs g inputs replaced tables x s /\ find s replaced = Some false) /\
            (forall name, In name (dependent_inputs signature a) <->
               exists comps c, In (name, comps) signature /\ In c comps /\
                               feeds g inputs replaced tables x c)
        end
  end.
Proof. exact @initializable_inputs. Qed.
Print Assumptions c37_tables_and_inputs.

(** With a cycle (a TensorFlow 1 loop) the answer does depend on earlier queries:
    here node 0 reads node 1 and the unready source 2, and node 1 reads node 0.
    Asked first, node 1 is unready; asked after node 0 it is said to be ready,
    although it depends on source 2. *)
Theorem c37_cycle_history_refuted :
  exists (g : tf_graph) (infos : list (nat * (bool * nat))) M,
    closed_graph g /\ reach g infos 1 2 /\ find 2 infos = Some (false, 0) /\
    ready_to_run g (fun x _ => x) infos 100 [] 1 = Some (Some false) /\
    analyze_tensors g (fun x _ => x) infos 100 [] [0] = Some M /\
    ready_to_run g (fun x _ => x) infos 100 M 1 = Some (Some true).
Proof.
  exists [Node [1; 2]; Node [0]; Unexpected], [(2, (false, 0))].
  eexists. split; [|split; [|split; [|split; [|split; [vm_compute; reflexivity|]]]]].
  - intros x ps p N I. destruct x as [|[|[|[|x]]]]; cbn in N; try discriminate;
      injection N as <-; cbn in I; cbn; lia.
  - eapply reach_step with (ps := [0]) (y := 0); cbn; auto.
    eapply reach_step with (ps := [1; 2]) (y := 2); cbn; auto using reach_refl.
  - reflexivity.
  - vm_compute. reflexivity.
  - vm_compute. reflexivity.
Qed.
Print Assumptions c37_cycle_history_refuted.

(** An example: [x] (node 0) goes through node 1; node 2 is the result of an
    analyzer that has run; node 3 reads both; node 4, the file of a vocabulary
    that has not been computed, initialises the table 5; node 6 looks node 3 up in
    the table; input [y] is node 7. *)
Definition c37_graph : tf_graph :=
  [Unexpected; Node [0]; Unexpected; Node [1; 2]; Unexpected; Unexpected; Node [3; 5]; Unexpected].
Definition c37_inputs : list (nat * nat) := [(0, 10); (7, 11)].
Definition c37_replaced := [(2, true); (4, false)].
Definition c37_tables := [Table 5 [4]].

Example c37_graph_closed : closed_graph c37_graph.
Proof.
  intros x ps p N I. unfold c37_graph in *.
  do 8 (destruct x as [|x]; [cbn in N; try discriminate; injection N as <-; cbn in *; lia|]).
  destruct x; discriminate.
Qed.

Example c37_graph_acyclic : acyclic c37_graph (replaced_infos 0 c37_replaced).
Proof.
  apply numbered_acyclic. intros x ps y N I. unfold c37_graph in *.
  do 8 (destruct x as [|x]; [cbn in N; try discriminate; injection N as <-; cbn in *; lia|]).
  destruct x; discriminate.
Qed.

Example c37_graph_signature : well_formed_signature c37_graph c37_inputs c37_replaced c37_tables.
Proof.
  constructor; unfold is_input, is_replaced, is_table, c37_inputs, c37_replaced, c37_tables.
  - intros x; do 8 (destruct x as [|x]; [cbn; congruence|]); cbn; congruence.
  - intros x I (t & [<-|[]] & <-). now apply I.
  - intros x (t & [<-|[]] & <-) R. now apply R.
  - cbn. constructor; [intros []|constructor].
  - intros t x [<-|[]] [<-|[]]. cbn. lia.
  - intros x; do 8 (destruct x as [|x]; [cbn; congruence|]); cbn; congruence.
  - intros x (t & [<-|[]] & <-). reflexivity.
Qed.

Open Scope string_scope.
Definition c37_signature : list (string * list nat) := [("x", [0]); ("y", [7])].

(** Node 3 is ready and depends on [x]; node 6 is not ready, because of the
    table. *)
Example c37_applies : exists infos a3 a6 m3 m6,
  complete_infos c37_graph (fun x _ => x) 0 100 c37_inputs c37_replaced c37_tables = Some (Some infos) /\
  analyze_tensor c37_graph (fun x _ => x) infos 100 [] 3 = Some (m3, Some a3) /\
  is_ready a3 = true /\ dependent_inputs c37_signature a3 = ["x"] /\
  analyze_tensor c37_graph (fun x _ => x) infos 100 m3 6 = Some (m6, Some a6) /\
  is_ready a6 = false /\ dependent_inputs c37_signature a6 = ["x"].
Proof. do 5 eexists. repeat split; vm_compute; reflexivity. Qed.
