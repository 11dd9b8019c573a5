(** * Proofs about the columns a preprocessing function reads *)
From Coq Require Import String List Arith Bool Lia.
From Verif Require Import ReadyModel ReadySpec ReadyProofs TablesProofs.
From Verif Require Import TraverseModel TraverseSpec TraverseProofs InspectModel InspectSpec.
Import ListNotations.
Local Notation length := List.length.

Lemma map_eq : forall A B (f h : A -> B) l, (forall x, In x l -> f x = h x) -> map f l = map h l.
Proof.
  intros A B f h l. induction l as [|a l IH]; intros H; cbn; [reflexivity|].
  rewrite H by now left. f_equal. apply IH. intros. apply H. now right.
Qed.

Lemma find_pairs : forall (l : list nat) x,
  find x (map (fun s => (s, false)) l) <> None <-> In x l.
Proof.
  intros l x. induction l as [|a l IH]; cbn; [tauto|].
  destruct (Nat.eqb_spec x a) as [->|N]; [split; [auto|discriminate]|].
  rewrite IH. split; [auto|]. intros [H|H]; [congruence|exact H].
Qed.

(** ** Sourced tensors *)
Lemma with_outputs_nth : forall ag op,
  nth_error (with_outputs ag) op
  = option_map (fun node => OpNode (op_def node, op_nouts node) (op_inputs node) (op_nouts node))
      (nth_error ag op).
Proof. intros. unfold with_outputs. apply nth_error_map. Qed.

Lemma with_outputs_valid : forall ag vn, valid_value_node ag vn -> valid_value_node (with_outputs ag) vn.
Proof.
  intros ag vn (node & N & L).
  exists (OpNode (op_def node, op_nouts node) (op_inputs node) (op_nouts node)).
  split; [rewrite with_outputs_nth, N; reflexivity|exact L].
Qed.

Lemma with_outputs_wf : forall ag, well_formed ag -> well_formed (with_outputs ag).
Proof.
  intros ag W op node vn N I. rewrite with_outputs_nth in N.
  destruct (nth_error ag op) as [n|] eqn:E; [|discriminate]. cbn in N. injection N as <-.
  cbn in I. apply with_outputs_valid. eapply W; eauto.
Qed.

Lemma with_outputs_depends : forall ag a b, depends (with_outputs ag) a b <-> depends ag a b.
Proof.
  intros ag a b. unfold depends. split.
  - intros (node & i & N & I). rewrite with_outputs_nth in N.
    destruct (nth_error ag a) as [n|] eqn:E; [|discriminate]. cbn in N. injection N as <-.
    cbn in I. exists n, i. auto.
  - intros (n & i & N & I). eexists. exists i. rewrite with_outputs_nth, N. cbn. eauto.
Qed.

Lemma with_outputs_reaches : forall ag a b, reaches (with_outputs ag) a b <-> reaches ag a b.
Proof.
  intros ag a b. split.
  - induction 1; [constructor|]. econstructor; [|eassumption]. now apply with_outputs_depends.
  - induction 1; [constructor|]. econstructor; [|eassumption]. now apply with_outputs_depends.
Qed.

Lemma with_outputs_total : forall ag, total_visitor visit_source (with_outputs ag).
Proof.
  intros ag op node vs N _. rewrite with_outputs_nth in N.
  destruct (nth_error ag op) as [n|] eqn:E; [|discriminate]. cbn in N. injection N as <-.
  cbn. eexists. split; [reflexivity|]. apply repeat_length.
Qed.

Lemma sourced_of_spec : forall ag s tensors, well_formed ag -> valid_value_node ag (sink_future s) ->
  sourced_tensors_of ag s = Some tensors ->
  forall x, In x tensors <-> analyzer_reads ag s x.
Proof.
  intros ag s tensors W Vd H x. unfold sourced_tensors_of in H.
  destruct (visit_value_node visit_source (with_outputs ag) new_traverser (sink_future s))
    as [v t| |] eqn:E; try discriminate.
  injection H as <-.
  destruct (traversal visit_source (with_outputs ag) (with_outputs_wf ag W) [sink_future s])
    with (vs := [v]) (s := t) as (_ & _ & _ & R & _).
  - intros r [<-|[]]. now apply with_outputs_valid.
  - unfold visit_value_nodes. cbn [map_state]. rewrite E. reflexivity.
  - rewrite in_concat. split.
    + intros (l & I & X). apply in_map_iff in I. destruct I as ([op args] & <- & I).
      cbn [fst] in X. unfold op_tensors in X.
      assert (O : In op (map fst (visits t))) by (apply in_map_iff; exists (op, args); auto).
      apply R in O. destruct O as (r & [<-|[]] & O). apply with_outputs_reaches in O.
      destruct (nth_error ag op) as [node|] eqn:N; [|destruct X].
      destruct (op_def node) as [ts|] eqn:Df; [|destruct X].
      exists op, node, ts. auto.
    + intros (op & node & ts & O & N & Df & X).
      assert (O' : In op (map fst (visits t))).
      { apply R. exists (sink_future s). split; [now left|]. now apply with_outputs_reaches. }
      apply in_map_iff in O'. destruct O' as ([op' args] & E' & I). cbn in E'. subst op'.
      exists (op_tensors ag op). split.
      * apply in_map_iff. exists (op, args). auto.
      * unfold op_tensors. rewrite N, Df. exact X.
Qed.

Lemma sourced_of_total : forall ag s, well_formed ag -> valid_value_node ag (sink_future s) ->
  acyclic_from ag (fst (sink_future s)) -> exists tensors, sourced_tensors_of ag s = Some tensors.
Proof.
  intros ag s W Vd AC.
  destruct (traversal_total visit_source (with_outputs ag) (with_outputs_wf ag W) [sink_future s])
    as (vs & t & H).
  - intros r [<-|[]]. now apply with_outputs_valid.
  - apply with_outputs_total.
  - intros r [<-|[]] o Ro (c & Dc & Rc). apply (AC o); [now apply with_outputs_reaches|].
    exists c. split; [now apply with_outputs_depends|now apply with_outputs_reaches].
  - unfold visit_value_nodes in H. cbn [map_state] in H. unfold sourced_tensors_of.
    destruct (visit_value_node visit_source (with_outputs ag) new_traverser (sink_future s));
      [eauto|discriminate|discriminate].
Qed.

Lemma sourced_total : forall ag sinks, well_formed ag ->
  (forall s, In s sinks -> valid_value_node ag (sink_future s)) ->
  (forall s, In s sinks -> acyclic_from ag (fst (sink_future s))) ->
  exists tensors, sourced_tensors ag sinks = Some tensors.
Proof.
  intros ag sinks W Vd AC. induction sinks as [|s sinks IH]; cbn [sourced_tensors]; [eauto|].
  destruct (sourced_of_total ag s W (Vd s (or_introl eq_refl)) (AC s (or_introl eq_refl))) as [ts ->].
  destruct IH as [more ->]; [intros; apply Vd; now right|intros; apply AC; now right|]. eauto.
Qed.

Lemma sourced_spec : forall ag sinks tensors, well_formed ag ->
  (forall s, In s sinks -> valid_value_node ag (sink_future s)) ->
  sourced_tensors ag sinks = Some tensors ->
  forall x, In x tensors <-> exists s, In s sinks /\ analyzer_reads ag s x.
Proof.
  intros ag sinks. induction sinks as [|s sinks IH]; intros tensors W Vd H x; cbn [sourced_tensors] in H.
  - injection H as <-. split; [intros []|intros (s & [] & _)].
  - destruct (sourced_tensors_of ag s) as [ts|] eqn:E; [|discriminate].
    destruct (sourced_tensors ag sinks) as [more|]; [|discriminate]. injection H as <-.
    rewrite in_app_iff, (sourced_of_spec ag s ts W (Vd s (or_introl eq_refl)) E x).
    rewrite (IH more W (fun s I => Vd s (or_intror I)) eq_refl x). split.
    + intros [H|(s' & I & H)]; [exists s; split; [now left|exact H]|exists s'; split; [now right|exact H]].
    + intros (s' & [<-|I] & H); [now left|right; eauto].
Qed.

(** ** Names *)
Lemma inputs_among_In : forall signature sources name,
  In name (inputs_among signature sources) <->
  exists comps c, In (name, comps) signature /\ In c comps /\ In c sources.
Proof.
  intros signature sources name. unfold inputs_among. rewrite in_map_iff. split.
  - intros ([n comps] & <- & F). apply filter_In in F. destruct F as [I E].
    apply existsb_exists in E. destruct E as (c & C & E). unfold mem in E.
    apply existsb_exists in E. destruct E as (c' & C' & E). apply Nat.eqb_eq in E. subst c'.
    exists comps, c. auto.
  - intros (comps & c & I & C & F). exists (name, comps). split; [reflexivity|].
    apply filter_In. split; [exact I|]. apply existsb_exists. exists c. split; [exact C|].
    unfold mem. apply existsb_exists. exists c. split; [exact F|apply Nat.eqb_refl].
Qed.

(** ** The loops over components and outputs *)
Section Loops.
Context {P : Type}.
Variable g : tf_graph.
Variable translate : nat -> list P -> P.
Variable no_path : P.
Variable inputs : list (nat * P).
Variable replaced : list (nat * bool).
Variable tables : list table.
Variable infos : list (nat * (bool * P)).
Notation feeds := (feeds g inputs replaced tables).
Notation not_provided := (not_provided g inputs replaced tables).
Hypothesis ANALYZE : forall M x, sound g infos M -> exact g translate infos M -> x < length g ->
  exists k M' r, (forall fuel, k <= fuel ->
      analyze_tensor g translate infos fuel M x = Some (M', r)) /\
    sound g infos M' /\ exact g translate infos M' /\
    match r with
    | None => exists y, feeds x y /\ not_provided y
    | Some a =>
        (forall y, feeds x y -> ~ not_provided y) /\
        (forall s, is_input inputs s -> In s (dependent_sources a) <-> feeds x s)
    end.

Lemma components_spec : forall comps M, sound g infos M -> exact g translate infos M ->
  (forall x, In x comps -> x < length g) ->
  exists k M' r, (forall fuel, k <= fuel ->
      component_sources g translate infos fuel M comps = Some (M', r)) /\
    sound g infos M' /\ exact g translate infos M' /\
    match r with
    | None => exists x y, In x comps /\ feeds x y /\ not_provided y
    | Some sources =>
        (forall x y, In x comps -> feeds x y -> ~ not_provided y) /\
        (forall s, is_input inputs s -> In s sources <-> exists x, In x comps /\ feeds x s)
    end.
Proof.
  induction comps as [|c comps IH]; intros M SM EM L.
  - exists 0, M, (Some []). split; [reflexivity|]. split; [exact SM|]. split; [exact EM|].
    split; [intros x y []|]. intros s _. split; [intros []|intros (x & [] & _)].
  - destruct (ANALYZE M c SM EM (L c (or_introl eq_refl))) as (k1 & M1 & r1 & R1 & S1 & E1 & A1).
    destruct r1 as [a|].
    + destruct (IH M1 S1 E1 (fun x I => L x (or_intror I))) as (k2 & M2 & r2 & R2 & S2 & E2 & A2).
      destruct A1 as [N1 D1].
      exists (k1 + k2), M2, (match r2 with Some s => Some (dependent_sources a ++ s) | None => None end).
      split.
      * intros fuel F. cbn [component_sources]. rewrite R1 by lia. rewrite R2 by lia.
        destruct r2; reflexivity.
      * split; [exact S2|]. split; [exact E2|]. destruct r2 as [sources|].
        -- destruct A2 as [N2 D2]. split.
           ++ intros x y [<-|I]; [apply N1|now apply N2].
           ++ intros s IS. rewrite in_app_iff, (D1 s IS), (D2 s IS). split.
              ** intros [H|(x & I & H)]; [exists c; split; [now left|exact H]|exists x; split; [now right|exact H]].
              ** intros (x & [<-|I] & H); [now left|right; eauto].
        -- destruct A2 as (x & y & I & H). exists x, y. split; [now right|exact H].
    + exists k1, M1, None. split; [intros fuel F; cbn [component_sources]; rewrite R1 by lia; reflexivity|].
      split; [exact S1|]. split; [exact E1|]. destruct A1 as (y & H). exists c, y. split; [now left|exact H].
Qed.

Lemma outputs_spec : forall signature,
  (forall name comps c, In (name, comps) signature -> In c comps -> is_input inputs c) ->
  forall outputs M acc, sound g infos M -> exact g translate infos M ->
  (forall comps x, In comps outputs -> In x comps -> x < length g) ->
  exists k r, (forall fuel, k <= fuel ->
      outputs_inputs g translate infos fuel signature M outputs acc = Some r) /\
    match r with
    | None => exists comps x y, In comps outputs /\ In x comps /\ feeds x y /\ not_provided y
    | Some names =>
        (forall comps x y, In comps outputs -> In x comps -> feeds x y -> ~ not_provided y) /\
        (forall name, In name names <-> In name acc \/
           exists comps c outs x, In (name, comps) signature /\ In c comps /\
             In outs outputs /\ In x outs /\ feeds x c)
    end.
Proof.
  intros signature SG. induction outputs as [|out outputs IH]; intros M acc SM EM L.
  - exists 0, (Some acc). split; [reflexivity|]. split; [intros comps x y []|].
    intros name. split; [auto|]. intros [H|(a & b & o & x & _ & _ & [] & _)]. exact H.
  - destruct (components_spec out M SM EM (fun x I => L out x (or_introl eq_refl) I))
      as (k1 & M1 & r1 & R1 & S1 & E1 & A1).
    destruct r1 as [sources|].
    + destruct A1 as [N1 D1].
      destruct (IH M1 (acc ++ inputs_among signature sources) S1 E1
                  (fun comps x I J => L comps x (or_intror I) J)) as (k2 & r & R2 & A2).
      exists (k1 + k2), r. split.
      * intros fuel F. cbn [outputs_inputs]. rewrite R1 by lia. apply R2. lia.
      * destruct r as [names|].
        -- destruct A2 as [N2 D2]. split.
           ++ intros comps x y [<-|I]; [apply N1|now apply (N2 comps)].
           ++ intros name. rewrite D2, in_app_iff, inputs_among_In. split.
              ** intros [[H|(comps & c & I & C & Sc)]|(comps & c & o & x & I & C & O & X & F)].
                 --- now left.
                 --- right. apply (D1 c (SG _ _ _ I C)) in Sc. destruct Sc as (x & X & F).
                     exists comps, c, out, x. split; [exact I|]. split; [exact C|].
                     split; [now left|]. auto.
                 --- right. exists comps, c, o, x. split; [exact I|]. split; [exact C|].
                     split; [now right|]. auto.
              ** intros [H|(comps & c & o & x & I & C & [<-|O] & X & F)].
                 --- left. now left.
                 --- left. right. exists comps, c. split; [exact I|]. split; [exact C|].
                     apply (D1 c (SG _ _ _ I C)). eauto.
                 --- right. exists comps, c, o, x. auto 6.
        -- destruct A2 as (comps & x & y & I & H). exists comps, x, y. split; [now right|exact H].
    + exists k1, None. split; [intros fuel F; cbn [outputs_inputs]; rewrite R1 by lia; reflexivity|].
      destruct A1 as (x & y & I & H). exists out, x, y. split; [now left|auto].
Qed.
End Loops.

(** ** The names that are returned *)
Section Dependent.
Context {P : Type}.
Variable g : tf_graph.
Variable translate : nat -> list P -> P.
Variable no_path : P.
Variable inputs : list (nat * P).
Variable ag : graph analysis_op.
Variable sinks : list sink.
Variable tables : list table.
Variable signature : list (string * list nat).
Hypothesis TR : traced g inputs ag sinks tables signature.
Notation replaced := (map (fun s => (s, false)) (map sink_tensor sinks)).
Notation infos0 := (replaced_infos no_path replaced).
Notation feeds := (feeds g inputs replaced tables).
Notation needs := (needs g inputs replaced tables).
Notation not_provided := (not_provided g inputs replaced tables).

Lemma replaced_sink : forall x, is_replaced replaced x <-> is_sink sinks x.
Proof. intro x. unfold is_replaced, is_sink. apply find_pairs. Qed.

Lemma source_sink : forall x, is_source infos0 x <-> is_sink sinks x.
Proof.
  intro x. rewrite <- replaced_sink. apply (source0 no_path replaced x).
Qed.

Lemma traced_acyclic : acyclic g infos0.
Proof.
  destruct (traced_layered _ _ _ _ _ _ TR) as (rank & RN & _ & _).
  assert (RR : forall a b, reach g infos0 a b -> rank b <= rank a).
  { induction 1 as [|a ps b c NS N I R IH]; [lia|].
    rewrite source_sink in NS. specialize (RN a ps b N NS I). lia. }
  intros x ps y NS N I R. rewrite source_sink in NS.
  specialize (RR y x R). specialize (RN x ps y N NS I). lia.
Qed.

(** No initializer of a table reads an input. *)
Definition initializers_fine : Prop := forall t, In t tables -> init_fine g no_path replaced t.

Definition right_names (outputs : list (list nat)) (r : option (list string)) : Prop :=
  match r with
  | None =>
      (exists t i y, In t tables /\ In i (init_inputs t) /\ needs i y /\
         nth_error g y = Some Unexpected /\ ~ is_sink sinks y) \/
      (exists comps x y, In comps outputs /\ In x comps /\ feeds x y /\ not_provided y)
  | Some columns =>
      initializers_fine /\
      (forall comps x y, In comps outputs -> In x comps -> feeds x y -> ~ not_provided y) /\
      (exists keep, columns = map fst (filter keep signature)) /\
      (forall name, In name columns <->
         exists comps c outs x, In (name, comps) signature /\ In c comps /\
           In outs outputs /\ In x outs /\ feeds x c)
  end.

Lemma dependent_spec : forall outputs,
  (forall comps x, In comps outputs -> In x comps -> x < length g) ->
  exists k r, (forall fuel, k <= fuel ->
      get_dependent_inputs g translate no_path fuel inputs (map sink_tensor sinks) tables signature
        outputs = Some r) /\ right_names outputs r.
Proof.
  intros outputs L.
  destruct (initializable_memo g translate no_path inputs replaced tables
              (traced_closed _ _ _ _ _ _ TR) (traced_signature _ _ _ _ _ _ TR) traced_acyclic)
    as (k1 & built & R1 & A1).
  destruct built as [infos|].
  - destruct A1 as (AC & FINE & AN).
    destruct (outputs_spec g translate inputs replaced tables infos) with (signature := signature)
      (outputs := outputs) (M := @nil (nat * analysis P)) (acc := @nil string)
      as (k2 & r & R2 & A2).
    + intros M x SM EM LX. destruct (AN M x SM EM LX) as (k & M' & r & R & S' & E' & Q).
      exists k, M', r. split; [exact R|]. split; [exact S'|]. split; [exact E'|].
      destruct r as [a|]; [|exact Q]. destruct Q as (Q1 & _ & _ & Q4). split; [exact Q1|exact Q4].
    + exact (traced_inputs _ _ _ _ _ _ TR).
    + apply sound_nil.
    + apply exact_nil.
    + exact L.
    + exists (k1 + k2),
        (match r with
         | Some names => Some (map fst (filter (fun nc => existsb (String.eqb (fst nc)) names) signature))
         | None => None end).
      split.
      * intros fuel F. unfold get_dependent_inputs. rewrite R1 by lia. rewrite R2 by lia.
        destruct r; reflexivity.
      * destruct r as [names|]; cbn [right_names].
        -- destruct A2 as [N2 D2]. split; [exact FINE|]. split; [exact N2|]. split; [eauto|].
           intros name. rewrite in_map_iff. split.
           ++ intros ([n comps] & <- & F). apply filter_In in F. destruct F as [I E].
              apply existsb_exists in E. destruct E as (n' & I' & E). apply String.eqb_eq in E.
              cbn [fst] in E |- *. subst n'. apply D2 in I'. destruct I' as [[]|I']. exact I'.
           ++ intros H. assert (I' : In name names) by (apply D2; now right).
              destruct H as (comps & c & outs & x & I & _). exists (name, comps).
              split; [reflexivity|]. apply filter_In. split; [exact I|].
              apply existsb_exists. exists name. split; [exact I'|apply String.eqb_refl].
        -- right. exact A2.
  - exists k1, None. split.
    + intros fuel F. unfold get_dependent_inputs. rewrite R1 by lia. reflexivity.
    + left. destruct A1 as (t & i & y & T & I & N & U & NR). rewrite replaced_sink in NR. eauto 10.
Qed.

(** ** Runs *)
Context {V : Type}.
Variable compute : nat -> list V -> V.
Variables feed1 feed2 results1 results2 value1 value2 : nat -> V.
Hypothesis RUN1 : runs g inputs tables sinks compute feed1 results1 value1.
Hypothesis RUN2 : runs g inputs tables sinks compute feed2 results2 value2.

Lemma below_table : forall rank : nat -> nat,
  (forall x ps y, nth_error g x = Some (Node ps) -> ~ is_sink sinks x -> In y ps -> rank y < rank x) ->
  forall n x, rank x < n -> x < length g ->
  (forall y, reach g infos0 x y -> ~ unexpected g infos0 y) ->
  (forall s, is_sink sinks s -> reach g infos0 x s -> results1 s = results2 s) ->
  value1 x = value2 x.
Proof.
  intros rank RN. induction n as [|n IH]; intros x RX LX NU SE; [lia|].
  destruct (in_dec Nat.eq_dec x (map sink_tensor sinks)) as [IS|NS].
  - rewrite (run_sink _ _ _ _ _ _ _ _ RUN1 x IS), (run_sink _ _ _ _ _ _ _ _ RUN2 x IS).
    apply SE; [exact IS|constructor].
  - assert (NS' : ~ is_source infos0 x) by (rewrite source_sink; exact NS).
    destruct (nth_error g x) as [[ps|]|] eqn:N.
    + rewrite (run_node _ _ _ _ _ _ _ _ RUN1 x ps N NS), (run_node _ _ _ _ _ _ _ _ RUN2 x ps N NS).
      f_equal. apply map_eq. intros y I. apply IH.
      * specialize (RN x ps y N NS I). lia.
      * exact (traced_closed _ _ _ _ _ _ TR x ps y N I).
      * intros z Rz. apply NU. eapply reach_step; eauto.
      * intros s Is Rs. apply SE; [exact Is|]. eapply reach_step; eauto.
    + exfalso. apply (NU x); [constructor|]. split; [exact NS'|exact N].
    + apply nth_error_None in N. lia.
Qed.

Lemma same_value : forall rank : nat -> nat,
  (forall x ps y, nth_error g x = Some (Node ps) -> ~ is_sink sinks x -> In y ps -> rank y < rank x) ->
  initializers_fine ->
  forall n x, rank x < n -> x < length g ->
  (forall y, feeds x y -> ~ not_provided y) ->
  (forall c, is_input inputs c -> feeds x c -> feed1 c = feed2 c) ->
  (forall s, is_sink sinks s -> needs x s -> results1 s = results2 s) ->
  value1 x = value2 x.
Proof.
  intros rank RN FINE. induction n as [|n IH]; intros x RX LX NP IE SE; [lia|].
  destruct (in_dec Nat.eq_dec x (map sink_tensor sinks)) as [IS|NS].
  { rewrite (run_sink _ _ _ _ _ _ _ _ RUN1 x IS), (run_sink _ _ _ _ _ _ _ _ RUN2 x IS).
    apply SE; [exact IS|constructor]. }
  assert (NR : ~ is_replaced replaced x) by (rewrite replaced_sink; exact NS).
  destruct (nth_error g x) as [[ps|]|] eqn:N.
  - assert (NI : ~ is_input inputs x).
    { intro H. apply (wf_input_nodes _ _ _ _ (traced_signature _ _ _ _ _ _ TR)) in H. congruence. }
    assert (NT : ~ is_table tables x).
    { intro H. apply (wf_table_nodes _ _ _ _ (traced_signature _ _ _ _ _ _ TR)) in H. congruence. }
    rewrite (run_node _ _ _ _ _ _ _ _ RUN1 x ps N NS), (run_node _ _ _ _ _ _ _ _ RUN2 x ps N NS).
    f_equal. apply map_eq. intros y I. apply IH.
    + specialize (RN x ps y N NS I). lia.
    + exact (traced_closed _ _ _ _ _ _ TR x ps y N I).
    + intros z Fz. apply NP. eapply feeds_parent; eauto.
    + intros c Ic Fc. apply IE; [exact Ic|]. eapply feeds_parent; eauto.
    + intros s Is Ns. apply SE; [exact Is|]. eapply needs_parent; eauto.
  - destruct (find x inputs) as [p|] eqn:FI.
    + assert (II : is_input inputs x) by (unfold is_input; congruence).
      rewrite (run_input _ _ _ _ _ _ _ _ RUN1 x II), (run_input _ _ _ _ _ _ _ _ RUN2 x II).
      apply IE; [exact II|constructor].
    + destruct (in_dec Nat.eq_dec x (map table_op tables)) as [T|T].
      * apply in_map_iff in T. destruct T as (t & <- & T).
        rewrite (run_table _ _ _ _ _ _ _ _ RUN1 t T), (run_table _ _ _ _ _ _ _ _ RUN2 t T).
        f_equal. apply map_eq. intros i I. apply (below_table rank RN (S (rank i)) i).
        -- lia.
        -- exact (wf_init_range _ _ _ _ (traced_signature _ _ _ _ _ _ TR) t i T I).
        -- intros y Ry. exact (FINE t T i y I Ry).
        -- intros s Is Rs. apply SE; [exact Is|]. eapply needs_table; eauto.
           eapply reach0_needs; [exact (traced_signature _ _ _ _ _ _ TR)|exact Rs].
      * exfalso. apply (NP x); [constructor|]. refine (conj N (conj _ (conj NR _))).
        -- intro H. apply H. exact FI.
        -- intros (t & It & <-). apply T. apply in_map_iff. eauto.
  - apply nth_error_None in N. lia.
Qed.
End Dependent.

(** ** The theorems *)
Section Final.
Context {P V : Type}.
Variable g : tf_graph.
Variable translate : nat -> list P -> P.
Variable no_path : P.
Variable inputs : list (nat * P).
Variable ag : graph analysis_op.
Variable sinks : list sink.
Variable tables : list table.
Variable signature : list (string * list nat).
Hypothesis TR : traced g inputs ag sinks tables signature.
Notation replaced := (map (fun s => (s, false)) (map sink_tensor sinks)).

Lemma right_names_columns : forall outputs columns wanted,
  (forall x, wanted x <-> exists comps, In comps outputs /\ In x comps) ->
  right_names g no_path inputs sinks tables signature outputs (Some columns) ->
  columns_of g inputs sinks tables signature wanted columns.
Proof.
  intros outputs columns wanted W (_ & _ & K & EX). split; [exact K|].
  intro name. rewrite EX. split.
  - intros (comps & c & o & x & I & C & O & X & F). exists comps, c, x.
    split; [exact I|]. split; [exact C|]. split; [apply W; eauto|exact F].
  - intros (comps & c & x & I & C & X & F). apply W in X. destruct X as (o & O & X).
    exists comps, c, o, x. auto.
Qed.

Lemma right_names_raise : forall outputs wanted,
  (forall x, wanted x <-> exists comps, In comps outputs /\ In x comps) ->
  right_names g no_path inputs sinks tables signature outputs None ->
  cannot_run g inputs sinks tables wanted.
Proof.
  intros outputs wanted W [H|(comps & x & y & I & X & F)]; [now left|].
  right. exists x, y. split; [apply W; eauto|exact F].
Qed.

Lemma transform_reads : forall outputs columns,
  (forall comps x, In comps outputs -> In x comps -> x < length g) ->
  right_names g no_path inputs sinks tables signature outputs (Some columns) ->
  forall (compute : nat -> list V -> V) feed1 feed2 results value1 value2,
  runs g inputs tables sinks compute feed1 results value1 ->
  runs g inputs tables sinks compute feed2 results value2 ->
  agree_on signature columns feed1 feed2 ->
  forall comps x, In comps outputs -> In x comps -> value1 x = value2 x.
Proof.
  intros outputs columns L (FINE & NP & _ & EX) compute feed1 feed2 results value1 value2 R1 R2 AG
    comps x I X.
  destruct (traced_layered _ _ _ _ _ _ TR) as (rank & RN & _).
  eapply (same_value g no_path inputs ag sinks tables signature TR compute feed1 feed2 results results
            value1 value2 R1 R2 rank RN FINE (S (rank x)) x).
  - lia.
  - eapply L; eauto.
  - intros y. eapply NP; eauto.
  - intros c Ic Fc. destruct (traced_named _ _ _ _ _ _ TR c Ic) as (name & cs & S' & C').
    apply (AG name cs c); auto. apply EX. exists cs, c, comps, x. auto.
  - reflexivity.
Qed.

Lemma needs_rank : forall rank : nat -> nat,
  (forall x ps y, nth_error g x = Some (Node ps) -> ~ is_sink sinks x -> In y ps -> rank y < rank x) ->
  (forall t i, In t tables -> In i (init_inputs t) -> rank i < rank (table_op t)) ->
  forall x y, needs g inputs replaced tables x y -> rank y <= rank x.
Proof.
  intros rank RN RT x y H.
  induction H as [|x ps y z NI NR NT N I H IH|x t y z T E I H IH]; [lia| |].
  - rewrite (replaced_sink sinks) in NR. specialize (RN x ps y N NR I). lia.
  - subst x. specialize (RT t y T I). lia.
Qed.

Lemma analysis_reads : forall tensors control columns,
  (forall x, In x tensors <-> exists s, In s sinks /\ analyzer_reads ag s x) ->
  right_names g no_path inputs sinks tables signature
    (map (fun t => [t]) (tensors ++ control)) (Some columns) ->
  forall (compute : nat -> list V -> V) analyzer feeds1 feeds2 results1 results2 values1 values2,
  reads_sources sinks ag analyzer ->
  analysis_of g inputs tables sinks compute analyzer feeds1 results1 values1 ->
  analysis_of g inputs tables sinks compute analyzer feeds2 results2 values2 ->
  Forall2 (agree_on signature columns) feeds1 feeds2 ->
  forall s, In s sinks -> results1 (sink_tensor s) = results2 (sink_tensor s).
Proof.
  intros tensors control columns SP (FINE & NP & _ & EX) compute analyzer feeds1 feeds2
    results1 results2 values1 values2 RS [R1 A1] [R2 A2] AG.
  destruct (traced_layered _ _ _ _ _ _ TR) as (rank & RN & RT & RK).
  assert (G : forall n s, rank (sink_tensor s) < n -> In s sinks ->
            results1 (sink_tensor s) = results2 (sink_tensor s)).
  { induction n as [|n IH]; intros s LS Is; [lia|].
    rewrite (A1 s Is), (A2 s Is). apply RS; [exact Is|].
    clear A1 A2. revert feeds2 values2 R2 AG.
    induction R1 as [|f1 v1 feeds1 values1 Run1 R1 IHR]; intros feeds2 values2 R2 AG.
    - inversion AG; subst. inversion R2; subst. constructor.
    - inversion AG as [|f f2 l feeds2' Ag AG']; subst. inversion R2 as [|f v2 l values2' Run2 R2']; subst.
      constructor; [|now apply (IHR feeds2')].
      intros x Rd.
      assert (O : In [x] (map (fun t => [t]) (tensors ++ control))).
      { apply in_map_iff. exists x. split; [reflexivity|]. apply in_app_iff. left. apply SP. eauto. }
      pose proof (RK s x Is Rd) as Rx.
      apply (same_value g no_path inputs ag sinks tables signature TR compute f1 f2 results1 results2
               v1 v2 Run1 Run2 rank RN FINE (S (rank x)) x).
      + lia.
      + exact (traced_sources _ _ _ _ _ _ TR s x Is Rd).
      + intros y. apply (NP [x] x); [exact O|now left].
      + intros c Ic Fc. destruct (traced_named _ _ _ _ _ _ TR c Ic) as (name & cs & S' & C').
        apply (Ag name cs c); auto. apply EX. exists cs, c, [x], x.
        split; [exact S'|]. split; [exact C'|]. split; [exact O|]. split; [now left|exact Fc].
      + intros y Iy Ny. apply in_map_iff in Iy. destruct Iy as (s' & <- & Is').
        apply IH; [|exact Is'].
        pose proof (needs_rank rank RN RT x (sink_tensor s') Ny). lia. }
  intros s Is. apply (G (S (rank (sink_tensor s))) s); [lia|exact Is].
Qed.

Lemma transform_final : forall outputs,
  (forall comps x, In comps outputs -> In x comps -> x < length g) ->
  let wanted := fun x => exists comps, In comps outputs /\ In x comps in
  exists k r, (forall fuel, k <= fuel ->
      get_transform_input_columns g translate no_path fuel inputs sinks tables signature outputs
      = Some r) /\
    match r with
    | None => cannot_run g inputs sinks tables wanted
    | Some columns =>
        columns_of g inputs sinks tables signature wanted columns /\
        forall (compute : nat -> list V -> V) feed1 feed2 results value1 value2,
        runs g inputs tables sinks compute feed1 results value1 ->
        runs g inputs tables sinks compute feed2 results value2 ->
        agree_on signature columns feed1 feed2 ->
        forall x, wanted x -> value1 x = value2 x
    end.
Proof.
  intros outputs L wanted.
  destruct (dependent_spec g translate no_path inputs ag sinks tables signature TR outputs L)
    as (k & r & R & A).
  exists k, r. split; [exact R|]. destruct r as [columns|].
  - split; [apply (right_names_columns outputs); [intro x; reflexivity|exact A]|].
    intros compute f1 f2 res v1 v2 R1 R2 AG x (comps & I & X).
    exact (transform_reads outputs columns L A compute f1 f2 res v1 v2 R1 R2 AG comps x I X).
  - apply (right_names_raise outputs); [intro x; reflexivity|exact A].
Qed.

Lemma analyze_final : forall control, (forall x, In x control -> x < length g) ->
  let wanted := fun x => (exists s, In s sinks /\ analyzer_reads ag s x) \/ In x control in
  exists k r, (forall fuel, k <= fuel ->
      get_analyze_input_columns g translate no_path fuel inputs ag sinks tables signature control
      = Some r) /\
    match r with
    | None => cannot_run g inputs sinks tables wanted
    | Some columns =>
        columns_of g inputs sinks tables signature wanted columns /\
        forall (compute : nat -> list V -> V) analyzer feeds1 feeds2 results1 results2 values1 values2,
        reads_sources sinks ag analyzer ->
        analysis_of g inputs tables sinks compute analyzer feeds1 results1 values1 ->
        analysis_of g inputs tables sinks compute analyzer feeds2 results2 values2 ->
        Forall2 (agree_on signature columns) feeds1 feeds2 ->
        forall s, In s sinks -> results1 (sink_tensor s) = results2 (sink_tensor s)
    end.
Proof.
  intros control L wanted. unfold get_analyze_input_columns.
  destruct (sourced_total ag sinks (traced_analysis _ _ _ _ _ _ TR)
              (traced_futures _ _ _ _ _ _ TR) (traced_no_cycle _ _ _ _ _ _ TR)) as [tensors E].
  rewrite E.
  pose proof (sourced_spec ag sinks tensors (traced_analysis _ _ _ _ _ _ TR)
                (traced_futures _ _ _ _ _ _ TR) E) as SP.
  destruct (dependent_spec g translate no_path inputs ag sinks tables signature TR
              (map (fun t => [t]) (tensors ++ control))) as (k & r & R & A).
  { intros comps x I X. apply in_map_iff in I. destruct I as (t & <- & I).
    destruct X as [<-|[]]. apply in_app_iff in I. destruct I as [I|I]; [|now apply L].
    apply SP in I. destruct I as (s & Is & Rd). exact (traced_sources _ _ _ _ _ _ TR s t Is Rd). }
  assert (W : forall x, wanted x <->
            exists comps, In comps (map (fun t => [t]) (tensors ++ control)) /\ In x comps).
  { intro x. unfold wanted. rewrite <- (SP x). rewrite <- in_app_iff. split.
    - intro I. exists [x]. split; [apply in_map_iff; eauto|now left].
    - intros (comps & I & X). apply in_map_iff in I. destruct I as (t & <- & I).
      destruct X as [<-|[]]. exact I. }
  exists k, r. split; [exact R|]. destruct r as [columns|].
  - split; [exact (right_names_columns _ columns wanted W A)|].
    intros compute analyzer f1 f2 res1 res2 v1 v2 RS A1 A2 AG.
    exact (analysis_reads tensors control columns SP A compute analyzer f1 f2 res1 res2 v1 v2
             RS A1 A2 AG).
  - exact (right_names_raise _ wanted W A).
Qed.
End Final.
