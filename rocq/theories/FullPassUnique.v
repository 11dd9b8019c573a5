(** * Proofs: a tensor has at most one meaning *)
From Coq Require Import List Arith Bool Lia Permutation.
From Verif Require Import ReadyModel ReadySpec ReadyProofs TablesProofs PhaseModel PhaseSpec
  PhaseProofs FullPassModel FullPassSpec FullPassProofs FullPassRun.
Import ListNotations.

Section Unique.
Context {P V : Type}.
Variable g : tf_graph.
Variable inputs : list (nat * P).
Variable tables : list table.
Variable sinks : list sink.
Variable node_value : nat -> list V -> V.
Variable table_contents : nat -> list V -> V.
Variable analyzer : nat -> list (list V) -> V.
Variable dataset : list (list (nat * V)).
Notation means := (means g node_value table_contents analyzer tables sinks dataset).

(** Induction with the meanings of all that a meaning is made of. *)
Section Induction.
Variable Q : option (list (nat * V)) -> nat -> V -> Prop.
Hypothesis QI : forall b x v, In (x, v) b -> Q (Some b) x v.
Hypothesis QA : forall c k rows, In k sinks ->
  Forall2 (fun b row => Forall2 (Q (Some b)) (sink_sources k) row) dataset rows ->
  Q c (sink_tensor k) (analyzer (sink_tensor k) rows).
Hypothesis QT : forall c t vs, In t tables -> Forall2 (Q None) (init_inputs t) vs ->
  Q c (table_op t) (table_contents (table_op t) vs).
Hypothesis QN : forall c x ps vs, ~ In x (map sink_tensor sinks) -> nth_error g x = Some (Node ps) ->
  Forall2 (Q c) ps vs -> Q c x (node_value x vs).

Fixpoint means_rec c x v (H : means c x v) {struct H} : Q c x v :=
  let all := fun (c : option (list (nat * V))) =>
    fix all xs vs (F : Forall2 (means c) xs vs) : Forall2 (Q c) xs vs :=
      match F in Forall2 _ xs vs return Forall2 (Q c) xs vs with
      | Forall2_nil _ => Forall2_nil _
      | Forall2_cons x v H F => Forall2_cons x v (means_rec c x v H) (all _ _ F)
      end in
  match H in FullPassSpec.means _ _ _ _ _ _ _ c x v return Q c x v with
  | means_input _ _ _ _ _ _ _ b x v h => QI b x v h
  | means_analyzer _ _ _ _ _ _ _ c k rows h F =>
      QA c k rows h
        ((fix rows_all bs rs (F : Forall2 (fun b row => Forall2 (means (Some b)) (sink_sources k) row) bs rs)
            : Forall2 (fun b row => Forall2 (Q (Some b)) (sink_sources k) row) bs rs :=
            match F in Forall2 _ bs rs
              return Forall2 (fun b row => Forall2 (Q (Some b)) (sink_sources k) row) bs rs with
            | Forall2_nil _ => Forall2_nil _
            | Forall2_cons b row R F => Forall2_cons b row (all (Some b) _ _ R) (rows_all _ _ F)
            end) _ _ F)
  | means_table _ _ _ _ _ _ _ c t vs h F => QT c t vs h (all None _ _ F)
  | means_node _ _ _ _ _ _ _ c x ps vs NI N F => QN c x ps vs NI N (all c _ _ F)
  end.
End Induction.

Hypothesis WF : well_formed_signature g inputs (replaced_tensors sinks) tables.
Hypothesis ND : NoDup (map sink_tensor sinks).
Hypothesis FED : forall b, In b dataset -> feeds_inputs inputs b.

Definition context_fed (c : option (list (nat * V))) : Prop :=
  match c with Some b => feeds_inputs inputs b | None => True end.

Lemma forall2_unique {A B} (R : A -> B -> Prop) l r r' :
  Forall2 (fun a b => forall b', R a b' -> b = b') l r -> Forall2 R l r' -> r = r'.
Proof.
  intros F. revert r'. induction F as [|a b l r H F IH]; intros r' F'; inversion F'; subst; [reflexivity|].
  f_equal; auto.
Qed.

Lemma forall2_unique_in {A B} (R R' : A -> B -> Prop) l r r' :
  (forall a b b', In a l -> R a b -> R' a b' -> b = b') -> Forall2 R l r -> Forall2 R' l r' -> r = r'.
Proof.
  intros H F. revert r'. induction F as [|a b l r Hab F IH]; intros r' F'; inversion F'; subst; [reflexivity|].
  f_equal; [eapply H; eauto; now left | apply IH; auto]. intros a0 b0 b0' I. apply H. now right.
Qed.

Lemma batch_input (b : list (nat * V)) x v : feeds_inputs inputs b -> In (x, v) b -> is_input inputs x.
Proof.
  intros [_ FD] I E. apply find_none in E. apply E. apply FD. apply (in_map fst) in I. exact I.
Qed.

Lemma sink_unique k k' : In k sinks -> In k' sinks -> sink_tensor k = sink_tensor k' -> k = k'.
Proof.
  revert ND. clear. induction sinks as [|a l IH]; intros ND I I' E; [destruct I|].
  cbn in ND. inversion ND as [|? ? NI ND']; subst. destruct I as [->|I], I' as [->|I']; auto.
  - exfalso. apply NI. rewrite E. now apply in_map.
  - exfalso. apply NI. rewrite <- E. now apply in_map.
Qed.

Lemma table_unique t t' : In t tables -> In t' tables -> table_op t = table_op t' -> t = t'.
Proof.
  generalize (wf_tables _ _ _ _ WF). clear. induction tables as [|a l IH]; intros ND I I' E; [destruct I|].
  cbn in ND. inversion ND as [|? ? NI ND']; subst. destruct I as [->|I], I' as [->|I']; auto.
  - exfalso. apply NI. rewrite E. now apply in_map.
  - exfalso. apply NI. rewrite <- E. now apply in_map.
Qed.

Lemma sink_replaced k : In k sinks -> is_replaced (replaced_tensors sinks) (sink_tensor k).
Proof. intros I. apply replaced_sink. now apply in_map. Qed.

Lemma meaning_unique c x v : means c x v ->
  context_fed c -> forall v', means c x v' -> v = v'.
Proof.
  revert c x v. apply (means_rec (fun c x v => context_fed c -> forall v', means c x v' -> v = v')).
  - intros b x v I FB v' M. pose proof (batch_input b x v FB I) as IN.
    inversion M as [b' y w I' e1 e2 e3|c' k rows K F e1 e2 e3|c' t vs T F e1 e2 e3|c' y ps vs NS N F e1 e2 e3]; subst.
    + destruct FB as [NB _]. pose proof (In_find _ _ _ NB I) as A. pose proof (In_find _ _ _ NB I') as B. congruence.
    + exfalso. eapply (wf_input_replaced _ _ _ _ WF); [exact IN | now apply sink_replaced].
    + exfalso. apply (wf_input_table _ _ _ _ WF _ IN). exists t. auto.
    + exfalso. apply (wf_input_nodes _ _ _ _ WF) in IN. congruence.
  - intros c k rows K F FB v' M.
    inversion M as [b' y w I' e1 e2 e3|c' k' rows' K' F' e1 e2 e3|c' t vs T F' e1 e2 e3|c' y ps vs NS N F' e1 e2 e3]; subst.
    + exfalso. eapply (wf_input_replaced _ _ _ _ WF); [eapply batch_input; eauto | now apply sink_replaced].
    + apply sink_unique in e2; auto. subst k'. f_equal.
      eapply forall2_unique_in; [|exact F | exact F'].
      intros b row row' IB F1 F2. cbv beta in F1. eapply forall2_unique; [|exact F2].
      specialize (FED b IB). clear - F1 FED. induction F1; constructor; auto.
    + exfalso. apply (wf_table_replaced _ _ _ _ WF (table_op t)); [exists t; auto | rewrite e2; now apply sink_replaced].
    + exfalso. apply NS. now apply in_map.
  - intros c t vs T F FB v' M.
    inversion M as [b' y w I' e1 e2 e3|c' k' rows' K' F' e1 e2 e3|c' t' vs' T' F' e1 e2 e3|c' y ps vs' NS N F' e1 e2 e3]; subst.
    + exfalso. eapply (wf_input_table _ _ _ _ WF); [eapply batch_input; eauto | exists t; auto].
    + exfalso. apply (wf_table_replaced _ _ _ _ WF (table_op t)); [exists t; auto | rewrite <- e2; now apply sink_replaced].
    + apply table_unique in e2; auto. subst t'. f_equal. eapply forall2_unique; [|exact F'].
      clear - F. induction F; constructor; auto. apply H. exact I.
    + exfalso. assert (is_table tables (table_op t)) as TT by (exists t; auto).
      apply (wf_table_nodes _ _ _ _ WF) in TT. congruence.
  - intros c x ps vs NS N F FB v' M.
    inversion M as [b' y w I' e1 e2 e3|c' k' rows' K' F' e1 e2 e3|c' t' vs' T' F' e1 e2 e3|c' y ps' vs' NS' N' F' e1 e2 e3]; subst.
    + exfalso. pose proof (batch_input _ _ _ FB I') as IN. apply (wf_input_nodes _ _ _ _ WF) in IN. congruence.
    + exfalso. apply NS. now apply in_map.
    + exfalso. assert (is_table tables (table_op t')) as TT by (exists t'; auto).
      apply (wf_table_nodes _ _ _ _ WF) in TT. congruence.
    + rewrite N in N'. injection N' as <-. f_equal. eapply forall2_unique; [|exact F'].
      clear - F FB. induction F; constructor; auto.
Qed.
End Unique.

(** Whatever the version of TensorFlow and the order of the batches, the same. *)
Lemma executions_agree {P V : Type} (g : tf_graph) (translate : nat -> list P -> P) (no_path : P)
  (inputs : list (nat * P)) tables sinks
  (node_value : nat -> list V -> V) table_contents analyzer m m' dataset order order' outputs :
  analyzable g inputs tables sinks ->
  (forall x, In x outputs -> x < length g /\
     forall y, feeds g inputs (replaced_tensors sinks) tables x y ->
       ~ not_provided g inputs (replaced_tensors sinks) tables y) ->
  (forall b, In b dataset -> feeds_inputs inputs b) ->
  (forall p, Permutation (order p) dataset) -> (forall p, Permutation (order' p) dataset) ->
  order_free analyzer ->
  exists rounds0 fuel0, forall rounds fuel, rounds0 <= rounds -> fuel0 <= fuel ->
    exists plans bindings bindings',
      plan_phases g translate no_path inputs tables rounds fuel sinks = Some (Some plans) /\
      run_phases g node_value table_contents analyzer m tables sinks fuel order 0 plans [] = Some bindings /\
      run_phases g node_value table_contents analyzer m' tables sinks fuel order' 0 plans [] = Some bindings' /\
      (forall b, feeds_inputs inputs b -> exists vs,
         transform g node_value table_contents m tables sinks fuel bindings outputs b = Some vs /\
         transform g node_value table_contents m' tables sinks fuel bindings' outputs b = Some vs).
Proof.
  intros AN OUT FED O1 O2 OF.
  destruct (full_pass_semantics g translate no_path inputs tables sinks node_value table_contents analyzer
              m dataset order outputs AN OUT FED O1 OF) as (r1 & f1 & p1 & b1 & H1).
  destruct (full_pass_semantics g translate no_path inputs tables sinks node_value table_contents analyzer
              m' dataset order' outputs AN OUT FED O2 OF) as (r2 & f2 & p2 & b2 & H2).
  exists (r1 + r2), (f1 + f2). intros rounds fuel LR LF.
  destruct (H1 rounds fuel ltac:(lia) ltac:(lia)) as (A1 & A2 & _ & A3).
  destruct (H2 rounds fuel ltac:(lia) ltac:(lia)) as (B1 & B2 & _ & B3).
  rewrite A1 in B1. injection B1 as <-. exists p1, b1, b2. split; [exact A1|]. split; [exact A2|].
  split; [exact B2|]. intros b FB. destruct (A3 b FB) as (vs & T1 & F1). destruct (B3 b FB) as (vs' & T2 & F2).
  exists vs. split; [exact T1|]. rewrite T2. f_equal. symmetry. eapply forall2_unique; [|exact F2].
  clear - F1 AN FED FB. induction F1 as [|x v xs vs M F IH]; constructor; [|exact IH].
  intros v'. eapply (meaning_unique g inputs); eauto.
  - apply (an_signature _ _ _ _ AN).
  - apply (an_tensors _ _ _ _ AN).
Qed.
