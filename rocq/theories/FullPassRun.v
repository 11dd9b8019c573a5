(** * Proofs: the passes over the dataset *)
From Coq Require Import List Arith Bool Lia Permutation.
From Verif Require Import ReadyModel ReadySpec ReadyProofs TablesProofs PhaseModel PhaseSpec
  PhaseProofs FullPassModel FullPassSpec FullPassProofs.
Import ListNotations.

(** More fuel gives the same. *)
Section Monotone.
Context {V : Type}.
Variable g : tf_graph.
Variable node_value : nat -> list V -> V.
Variable table_contents : nat -> list V -> V.
Variable analyzer : nat -> list (list V) -> V.
Variable m : mode (V := V).
Variable tables : list table.
Variable sinks : list sink.

Lemma all_some_mono {A B} (f f' : A -> option B) l bs :
  (forall a b, f a = Some b -> f' a = Some b) -> all_some f l = Some bs -> all_some f' l = Some bs.
Proof.
  intros H. revert bs. induction l as [|a l IH]; intros bs E; cbn [all_some] in *; [exact E|].
  destruct (f a) as [b|] eqn:Ef; [|discriminate]. rewrite (H a b Ef).
  destruct (all_some f l) as [cs|]; [|discriminate]. now rewrite (IH cs eq_refl).
Qed.

Lemma eval_mono fuel fuel' env x v : fuel <= fuel' ->
  eval g node_value m sinks fuel env x = Some v -> eval g node_value m sinks fuel' env x = Some v.
Proof.
  revert fuel' x v. induction fuel as [|fuel IH]; intros fuel' x v LE E; [discriminate|].
  destruct fuel' as [|fuel']; [lia|]. cbn [eval] in *.
  destruct (find x env); [exact E|]. destruct (existsb _ sinks); [exact E|].
  destruct (nth_error g x) as [[ps|]|]; try exact E.
  destruct (all_some (eval g node_value m sinks fuel env) ps) as [vs|] eqn:A; [|discriminate].
  rewrite (all_some_mono _ (eval g node_value m sinks fuel' env) _ _ (fun a b => IH fuel' a b ltac:(lia)) A).
  exact E.
Qed.

Lemma initialize_mono fuel fuel' bindings ts c : fuel <= fuel' ->
  initialize g node_value table_contents m sinks fuel bindings ts = Some c ->
  initialize g node_value table_contents m sinks fuel' bindings ts = Some c.
Proof.
  intros LE. apply all_some_mono. intros t e.
  destruct (all_some (eval g node_value m sinks fuel bindings) (init_inputs t)) as [vs|] eqn:A; [|discriminate].
  rewrite (all_some_mono _ (eval g node_value m sinks fuel' bindings) _ _
            (fun a b => eval_mono fuel fuel' _ a b LE) A). auto.
Qed.

Lemma apply_mono fuel fuel' bindings contents xs b r : fuel <= fuel' ->
  apply_model g node_value m sinks fuel bindings contents xs b = Some r ->
  apply_model g node_value m sinks fuel' bindings contents xs b = Some r.
Proof. intros LE. apply all_some_mono. intros x v. now apply eval_mono. Qed.

Lemma full_pass_mono fuel fuel' batches plan bindings r : fuel <= fuel' ->
  run_full_pass g node_value table_contents analyzer m tables sinks fuel batches plan bindings = Some r ->
  run_full_pass g node_value table_contents analyzer m tables sinks fuel' batches plan bindings = Some r.
Proof.
  intros LE. unfold run_full_pass.
  destruct (initialize g node_value table_contents m sinks fuel bindings _) as [c|] eqn:I; [|discriminate].
  rewrite (initialize_mono fuel fuel' _ _ _ LE I).
  destruct (all_some _ (extracted plan)) as [new|] eqn:A; [|discriminate].
  intros E. erewrite all_some_mono; [exact E| |exact A].
  intros k e. cbn beta.
  destruct (all_some (apply_model g node_value m sinks fuel bindings c (sink_sources k)) batches) as [rows|] eqn:B;
    [|discriminate].
  rewrite (all_some_mono _ (apply_model g node_value m sinks fuel' bindings c (sink_sources k)) _ _
            (fun b r => apply_mono fuel fuel' _ _ _ b r LE) B). auto.
Qed.

Lemma run_phases_mono fuel fuel' order plans : fuel <= fuel' -> forall phase bindings r,
  run_phases g node_value table_contents analyzer m tables sinks fuel order phase plans bindings = Some r ->
  run_phases g node_value table_contents analyzer m tables sinks fuel' order phase plans bindings = Some r.
Proof.
  intros LE. induction plans as [|plan plans IH]; intros phase bindings r; cbn [run_phases]; [auto|].
  destruct (run_full_pass g node_value table_contents analyzer m tables sinks fuel (order phase) plan bindings)
    as [b|] eqn:R; [|discriminate].
  rewrite (full_pass_mono fuel fuel' _ _ _ _ LE R). apply IH.
Qed.
End Monotone.

Section Run.
Context {P V : Type}.
Variable g : tf_graph.
Variable inputs : list (nat * P).
Variable tables : list table.
Variable sinks : list sink.
Hypothesis AN : analyzable g inputs tables sinks.

Variable node_value : nat -> list V -> V.
Variable table_contents : nat -> list V -> V.
Variable analyzer : nat -> list (list V) -> V.
Variable m : mode (V := V).
Variable dataset : list (list (nat * V)).

Notation replaced := (replaced_tensors sinks).
Notation eval := (eval g node_value m sinks).
Notation initialize := (initialize g node_value table_contents m sinks).
Notation means := (means g node_value table_contents analyzer tables sinks dataset).
Notation needs := (needs g inputs replaced tables).
Notation feeds := (feeds g inputs replaced tables).
Notation provided := (provided g inputs tables sinks).

Variable K : nat.
Hypothesis ENOUGH :
  enough g inputs tables sinks node_value table_contents analyzer m dataset K.

Let WF := an_signature _ _ _ _ AN.

Lemma feeds_needs x y : feeds x y -> needs x y.
Proof. induction 1; [apply needs_refl|]. eapply needs_parent; eauto. Qed.

(** What the bindings made so far are worth: [D] tells which tensors are bound. *)
Definition bindings_right (D : nat -> Prop) (bindings : list (nat * V)) : Prop :=
  (forall x, D x -> exists v, find x bindings = Some v) /\
  (forall x v, find x bindings = Some v -> forall c, means c x v).

Definition settled (D : nat -> Prop) (x : nat) : Prop :=
  forall s, needs x s -> is_replaced replaced s -> D s.

Definition table_settled (D : nat -> Prop) (t : table) : Prop :=
  forall i, In i (init_inputs t) -> settled D i.

Section Bound.
Variable D : nat -> Prop.
Variable bindings : list (nat * V).
Hypothesis RIGHT : bindings_right D bindings.

Lemma init_no_source t i s : In t tables -> In i (init_inputs t) -> feeds i s ->
  is_input inputs s \/ is_table tables s -> False.
Proof.
  intros T I F S.
  assert (U : nth_error g s = Some Unexpected).
  { destruct S as [S|S]; [now apply (wf_input_nodes _ _ _ _ WF) | now apply (wf_table_nodes _ _ _ _ WF)]. }
  pose proof (an_tables _ _ _ _ AN t i s T I (feeds_needs _ _ F) U) as R.
  destruct S as [S|S]; [exact (wf_input_replaced _ _ _ _ WF s S R) | exact (wf_table_replaced _ _ _ _ WF s S R)].
Qed.

Lemma init_provided t i : In t tables -> In i (init_inputs t) -> provided i.
Proof.
  intros T I y F (U & _ & NR & _). apply NR.
  exact (an_tables _ _ _ _ AN t i y T I (feeds_needs _ _ F) U).
Qed.

Lemma init_value t i fuel : In t tables -> In i (init_inputs t) -> settled D i -> K <= fuel ->
  exists v, eval fuel bindings i = Some v /\ means None i v.
Proof.
  intros T I ST LF.
  destruct (ENOUGH i (wf_init_range _ _ _ _ WF t i T I) fuel bindings LF) as [E _].
  apply E; [|eapply init_provided; eauto].
  intros s F. split.
  - intros [S|[S|S]].
    + exfalso. eapply init_no_source; eauto.
    + apply RIGHT, ST; [now apply feeds_needs | exact S].
    + exfalso. eapply init_no_source; eauto.
  - intros v Fv. now apply RIGHT.
Qed.

Lemma initialize_right ts fuel : incl ts tables -> NoDup (map table_op ts) ->
  (exists temporary, m = Tf2 temporary) \/ (forall t, In t ts -> table_settled D t) -> K <= fuel ->
  exists contents, initialize fuel bindings ts = Some contents /\
    map fst contents = map table_op ts /\
    forall t, In t ts -> table_settled D t ->
      exists v, find (table_op t) contents = Some v /\ forall c, means c (table_op t) v.
Proof.
  intros INC ND HM LF.
  destruct (all_some_ok
    (fun t => match all_some (eval fuel bindings) (init_inputs t) with
              | Some vs => Some (table_op t, table_contents (table_op t) vs)
              | None => None
              end)
    (fun t e => fst e = table_op t /\ (table_settled D t -> forall c, means c (table_op t) (snd e))) ts)
    as (contents & E & F).
  { intros t T.
    destruct (all_some_ok (eval fuel bindings) (fun i v => table_settled D t -> means None i v) (init_inputs t))
      as (vs & A & Fv).
    { intros i I. destruct HM as [T2|ST].
      - destruct (ENOUGH i (wf_init_range _ _ _ _ WF t i (INC t T) I) fuel bindings LF) as [_ E].
        destruct (E T2) as (v & Ev).
        { intros s F S _. eapply init_no_source; eauto. }
        { eapply init_provided; eauto. }
        exists v. split; [exact Ev|]. intros ST.
        destruct (init_value t i fuel (INC t T) I (ST i I) LF) as (v' & Ev' & M). congruence.
      - destruct (init_value t i fuel (INC t T) I (ST t T i I) LF) as (v & Ev & M). exists v. auto. }
    rewrite A. eexists. split; [reflexivity|]. cbn [fst snd]. split; [reflexivity|].
    intros ST c. apply means_table; [auto|]. clear - Fv ST. induction Fv; constructor; auto. }
  exists contents. split; [exact E|].
  assert (KEYS : map fst contents = map table_op ts).
  { clear - F. induction F as [|t e ts es [H _] F IH]; cbn; congruence. }
  split; [exact KEYS|]. intros t T ST.
  destruct (Forall2_In_l _ _ _ _ F T) as ([x v] & Ie & Ex & M). cbn [fst snd] in *. subst x.
  exists v. split; [|auto]. apply In_find; [now rewrite KEYS | exact Ie].
Qed.

(** A tensor in a batch. *)
Lemma batch_value contents b x fuel : x < length g -> settled D x -> provided x ->
  feeds_inputs inputs b ->
  (forall s v, find s contents = Some v -> is_table tables s) ->
  (forall t, In t tables -> table_settled D t ->
     exists v, find (table_op t) contents = Some v /\ forall c, means c (table_op t) v) ->
  K <= fuel ->
  exists v, eval fuel (b ++ contents ++ bindings) x = Some v /\ means (Some b) x v.
Proof.
  intros LX ST PX [NDB FED] CT CV LF.
  assert (INB : forall s, is_input inputs s <-> find s b <> None).
  { intros s. unfold is_input. pose proof (find_none s b) as A. pose proof (find_none s inputs) as B.
    specialize (FED s). rewrite A, B. tauto. }
  assert (TS : forall t, In t tables -> feeds x (table_op t) -> table_settled D t).
  { intros t T F i I s N R. apply ST; [|exact R].
    eapply needs_trans; [apply feeds_needs; exact F|]. eapply needs_table; eauto. }
  destruct (ENOUGH x LX fuel (b ++ contents ++ bindings) LF) as [E _].
  apply E; [|exact PX]. intros s F. rewrite !find_app. split.
  - intros [S|[S|S]].
    + apply INB in S. destruct (find s b) as [v|]; [eauto | congruence].
    + destruct (find s b) as [v|]; [eauto|]. destruct (find s contents) as [v|]; [eauto|].
      apply RIGHT, ST; [now apply feeds_needs | exact S].
    + destruct (find s b) as [v|]; [eauto|]. destruct S as (t & T & <-).
      destruct (CV t T (TS t T F)) as (v & -> & _). eauto.
  - intros v Fv. destruct (find s b) as [w|] eqn:FB.
    + injection Fv as <-. apply means_input. now apply find_In.
    + destruct (find s contents) as [w|] eqn:FC.
      * injection Fv as <-. destruct (CT s w FC) as (t & T & <-).
        destruct (CV t T (TS t T F)) as (w' & FC' & M). rewrite FC in FC'. injection FC' as <-. apply M.
      * now apply RIGHT.
Qed.

End Bound.

(** ** A phase *)
Variable translate : nat -> list P -> P.
Variable no_path : P.
Notation state := (list (sink * option nat)).

Definition bound (st : state) (s : nat) : Prop := find s (sinks_ready st) = Some true.

Lemma bound_replaced st s : of_sinks sinks st -> is_replaced replaced s ->
  bound st s <-> forall v, find s (sinks_ready st) = Some v -> v = true.
Proof.
  intros OS R. pose proof (keys g inputs tables sinks AN st OS) as KY.
  apply (same_replaced _ _ KY) in R. unfold bound, is_replaced in *.
  destruct (find s (sinks_ready st)) as [v|]; [|congruence]. split.
  - congruence.
  - intros H. now rewrite (H v eq_refl).
Qed.

Lemma ready_tables_spec st : of_sinks sinks st ->
  exists k infos, (forall fuel, k <= fuel ->
    complete_infos g translate no_path fuel inputs (sinks_ready st) tables = Some (Some infos)) /\
    forall t, In t tables -> (table_is_ready infos t = true <-> table_settled (bound st) t).
Proof.
  intros OS. pose proof (keys g inputs tables sinks AN st OS) as KY.
  assert (WF' : well_formed_signature g inputs (sinks_ready st) tables).
  { eapply same_signature; [exact KY|]. exact WF. }
  destruct (table_infos_spec g translate no_path inputs (sinks_ready st) tables) with
    (ts := tables) (M := @nil (nat * analysis P))
    (acc := map (fun ip => (fst ip, (true, snd ip))) inputs ++ replaced_infos no_path (sinks_ready st))
    as (k & r & R & A); auto.
  - apply (an_closed _ _ _ _ AN).
  - eapply (same_acyclic (P := P)); [exact KY|]. apply (an_acyclic _ _ _ _ AN).
  - apply incl_refl.
  - apply sound_nil.
  - apply exact_nil.
  - assert (FI : forall t i y, In t tables -> In i (init_inputs t) ->
      reach g (replaced_infos no_path (sinks_ready st)) i y ->
      ~ unexpected g (replaced_infos no_path (sinks_ready st)) y).
    { intros t i y T I RE [NS U]. apply NS. apply source0. apply (same_replaced _ _ KY).
      eapply (an_tables _ _ _ _ AN); [exact T | exact I | | exact U].
      eapply same_needs; [symmetry; exact KY|].
      eapply reach0_needs; [exact WF' | exact RE]. }
    destruct r as [infos|].
    2:{ exfalso. destruct A as (t & T & NF). apply NF. intros i y I RE. eapply FI; eauto. }
    destruct A as (_ & entries & -> & EN). exists k.
    eexists. split; [exact R|]. intros t T. unfold table_is_ready.
    destruct (entries_table g translate no_path inputs (sinks_ready st) tables WF' entries EN t T)
      as ([b q] & Fe & TR & _).
    rewrite find_app, Fe. cbn [fst] in TR. rewrite TR. unfold table_settled, settled. split.
    + intros H i I s N RS. apply (bound_replaced st s OS RS). intros v Fv.
      apply (H i s v I); [|exact Fv]. eapply needs_reach0; [exact WF' | |].
      * eapply same_needs; [exact KY | exact N].
      * intros y RE. eapply FI; eauto.
    + intros H i s v I RE Fv.
      assert (RS : is_replaced replaced s).
      { apply (same_replaced _ _ KY). unfold is_replaced. congruence. }
      apply (bound_replaced st s OS RS); [|exact Fv]. apply (H i I s); [|exact RS].
      eapply same_needs; [symmetry; exact KY|]. eapply reach0_needs; [exact WF' | exact RE].
Qed.

Lemma newly_In before after k : In k (newly_ready before after) ->
  exists i new p, nth_error before i = Some (k, None) /\ nth_error after i = Some (new, Some p).
Proof.
  revert after. induction before as [|[k0 q] before IH]; intros after I; [destruct I|].
  destruct after as [|[k1 r] after]; [destruct q; destruct I|].
  assert (D : (q = None /\ exists p, r = Some p /\ (k0 = k \/ In k (newly_ready before after))) \/
              In k (newly_ready before after)).
  { destruct q as [q|]; [right; exact I|]. destruct r as [r|]; [|right; exact I].
    left. split; [reflexivity|]. exists r. split; [reflexivity|]. exact I. }
  destruct D as [(-> & p & -> & [->|J])|J].
  - exists 0, k1, p. auto.
  - destruct (IH after J) as (i & new & p' & A & B). exists (S i), new, p'. auto.
  - destruct (IH after J) as (i & new & p' & A & B). exists (S i), new, p'. auto.
Qed.

Lemma newly_complete before after i k new p :
  nth_error before i = Some (k, None) -> nth_error after i = Some (new, Some p) ->
  In k (newly_ready before after).
Proof.
  revert before after. induction i as [|i IH]; intros [|[k0 q] before] [|[k1 r] after] A B;
    try discriminate; cbn in A, B.
  - injection A as -> ->. injection B as -> ->. now left.
  - specialize (IH before after A B). destruct q as [q|]; [exact IH|]. destruct r as [r|]; [now right | exact IH].
Qed.

Variable order : nat -> list (list (nat * V)).
Hypothesis FED : forall b, In b dataset -> feeds_inputs inputs b.
Hypothesis ORDER : forall p, Permutation (order p) dataset.
Hypothesis ORDER_FREE : order_free analyzer.

Notation run_full_pass := (run_full_pass g node_value table_contents analyzer m tables sinks).
Notation run_phases := (run_phases g node_value table_contents analyzer m tables sinks).

Lemma nodup_filter (f : table -> bool) l : NoDup (map table_op l) -> NoDup (map table_op (filter f l)).
Proof.
  induction l as [|t l IH]; intros ND; [constructor|]. inversion ND as [|? ? NI ND']; subst.
  cbn [filter]. destruct (f t); [|auto]. cbn [map]. constructor; [|auto].
  intros I. apply NI. apply in_map_iff in I. destruct I as (u & E & I). apply filter_In in I.
  apply in_map_iff. exists u. tauto.
Qed.

Lemma pass_right st st' (infos : list (nat * (bool * P))) phase bindings :
  of_sinks sinks st ->
  (forall t, In t tables -> (table_is_ready infos t = true <-> table_settled (bound st) t)) ->
  Forall2 (step_sink g inputs tables sinks st phase) st st' ->
  bindings_right (bound st) bindings ->
  exists bindings',
    run_full_pass K (order phase) (Phase (filter (table_is_ready infos) tables) (newly_ready st st')) bindings
      = Some bindings' /\
    bindings_right (bound st') bindings'.
Proof.
  intros OS RT ST BR. unfold FullPassModel.run_full_pass. cbn [ready_tables extracted].
  set (ts := initializers m tables (filter (table_is_ready infos) tables)).
  assert (TS : incl ts tables /\ NoDup (map table_op ts) /\
    ((exists temporary, m = Tf2 temporary) \/ (forall t, In t ts -> table_settled (bound st) t)) /\
    (forall t, In t tables -> table_settled (bound st) t -> In t ts)).
  { unfold ts, initializers. pose proof (wf_tables _ _ _ _ WF) as ND. destruct m as [|temp] eqn:Em.
    - split; [intros t T; apply filter_In in T; tauto|]. split; [now apply nodup_filter|]. split.
      + right. intros t T. apply filter_In in T. apply RT; tauto.
      + intros t T S. apply filter_In. split; [exact T|]. now apply RT.
    - split; [apply incl_refl|]. split; [exact ND|]. split; [left; eauto | auto]. }
  clearbody ts. destruct TS as (INC & ND & HM & ALL).
  destruct (initialize_right (bound st) bindings BR ts K INC ND HM (le_n K)) as (contents & -> & KEYS & CV).
  assert (CT : forall s v, find s contents = Some v -> is_table tables s).
  { intros s v F. apply find_In in F. apply (in_map fst) in F. cbn [fst] in F. rewrite KEYS in F.
    apply in_map_iff in F. destruct F as (t & E & T). exists t. auto. }
  destruct (all_some_ok
    (fun k => match all_some (apply_model g node_value m sinks K bindings contents (sink_sources k)) (order phase) with
              | Some rows => Some (sink_tensor k, analyzer (sink_tensor k) rows)
              | None => None
              end)
    (fun k e => fst e = sink_tensor k /\ forall c, means c (sink_tensor k) (snd e)) (newly_ready st st'))
    as (new & -> & FN).
  { intros k IK. destruct (newly_In st st' k IK) as (i & k' & p & N & N').
    destruct (Forall2_nth _ _ _ _ _ ST N') as ([k0 q] & N0 & E & SS).
    rewrite N in N0. injection N0 as <- <-. cbn [fst snd] in E, SS. subst k'.
    destruct SS as (b & SA & EP). destruct b; [|discriminate]. cbn [sink_answer] in SA.
    assert (KS : In k sinks).
    { eapply nth_error_In. eapply (nth_sink g inputs tables sinks AN st); eauto. }
    assert (SET : forall x, In x (sink_sources k) -> settled (bound st) x).
    { intros x X s NX RS. apply (bound_replaced st s OS RS). intros v Fv.
      destruct (ready_find sinks st s v OS Fv) as (j & k2 & p2 & NJ & <- & ->).
      specialize (SA x j k2 p2 X NJ NX). destruct p2; [reflexivity | congruence]. }
    destruct (all_some_ok (apply_model g node_value m sinks K bindings contents (sink_sources k))
                (fun b row => Forall2 (means (Some b)) (sink_sources k) row) (order phase)) as (rows & A & F).
    { intros b B. unfold apply_model. apply all_some_ok. intros x X.
      apply (batch_value (bound st) bindings BR contents b x K); auto.
      - eapply (an_range _ _ _ _ AN); eauto.
      - intros y FY. eapply (an_provided _ _ _ _ AN); eauto.
      - apply FED. eapply Permutation_in; [apply ORDER | exact B]. }
    rewrite A. eexists. split; [reflexivity|]. cbn [fst snd]. split; [reflexivity|]. intros c.
    destruct (permuted_rows _ _ _ _ (ORDER phase) F) as (rows' & F' & PM).
    rewrite (ORDER_FREE (sink_tensor k) rows rows' PM). now apply means_analyzer. }
  eexists. split; [reflexivity|].
  assert (NEWV : forall x v, find x new = Some v -> forall c, means c x v).
  { intros x v F c. apply find_In in F. destruct (Forall2_In_r _ _ _ _ FN F) as (k & _ & E & M).
    cbn [fst snd] in E, M. subst x. apply M. }
  assert (NEWK : map fst new = map sink_tensor (newly_ready st st')).
  { clear - FN. induction FN as [|k e ks es [H _] F IH]; cbn; congruence. }
  split.
  - intros x BX. rewrite find_app. destruct (find x bindings) as [v|] eqn:FB; [eauto|].
    assert (OS' : of_sinks sinks st').
    { unfold of_sinks in *. rewrite <- OS. clear - ST.
      induction ST as [|a b l l' [H _] F IH]; cbn; congruence. }
    destruct (ready_find sinks st' x true OS' BX) as (j & k & p & NJ & <- & EP).
    destruct p as [p|]; [|discriminate].
    destruct (Forall2_nth _ _ _ _ _ ST NJ) as ([k0 q] & N0 & E & SS). cbn [fst snd] in E, SS. subst k0.
    destruct q as [q|].
    + exfalso. destruct BR as [B1 _]. destruct (B1 (sink_tensor k)) as (v & Fv).
      { unfold bound. now rewrite (find_ready g inputs tables sinks AN st j k (Some q) OS N0). }
      congruence.
    + pose proof (newly_complete st st' j k k p N0 NJ) as I. apply (in_map sink_tensor) in I.
      rewrite <- NEWK in I. destruct (find (sink_tensor k) new) as [v|] eqn:FX; [eauto|].
      apply find_none in FX. contradiction.
  - intros x v F c. rewrite find_app in F. destruct (find x bindings) as [w|] eqn:FB.
    + injection F as <-. now apply BR.
    + now apply NEWV.
Qed.

Section Rank.
Variable rank : nat -> nat.
Hypothesis RANK : forall i j, reads g inputs tables sinks i j -> rank j < rank i.

Lemma done_bound st : of_sinks sinks st ->
  forallb (fun kp : sink * option nat => match snd kp with Some _ => true | None => false end) st = true ->
  forall s, is_replaced replaced s -> bound st s.
Proof.
  intros OS D s R. apply (bound_replaced st s OS R). intros v F.
  destruct (ready_find sinks st s v OS F) as (j & k & p & N & _ & ->).
  rewrite forallb_forall in D. specialize (D _ (nth_error_In _ _ N)). exact D.
Qed.

Lemma plan_loop_right : forall d n st bindings, max_rank sinks rank < n + d ->
  inv g inputs tables sinks n st -> bindings_right (bound st) bindings ->
  exists k plans bindings', (forall rounds fuel, d <= rounds -> k <= fuel ->
      plan_loop g translate no_path inputs tables rounds fuel n st = Some (Some plans)) /\
    run_phases K order n plans bindings = Some bindings' /\
    bindings_right (is_replaced replaced) bindings'.
Proof.
  assert (STOP : forall n st bindings, inv g inputs tables sinks n st -> bindings_right (bound st) bindings ->
    forallb (fun kp : sink * option nat => match snd kp with Some _ => true | None => false end) st = true ->
    bindings_right (is_replaced replaced) bindings).
  { intros n st bindings [OS _] [B1 B2] D. split; [|exact B2].
    intros x R. apply B1. now apply done_bound. }
  induction d as [|d IH]; intros n st bindings LT IV BR.
  - pose proof (inv_done g inputs tables sinks rank RANK n st ltac:(lia) IV) as D.
    exists 0, [], bindings. split; [|split; [reflexivity | eapply STOP; eauto]].
    intros rounds fuel _ _. destruct rounds; cbn [plan_loop]; now rewrite D.
  - destruct (forallb (fun kp : sink * option nat => match snd kp with Some _ => true | None => false end) st) eqn:D.
    + exists 0, [], bindings. split; [|split; [reflexivity | eapply STOP; eauto]].
      intros rounds fuel _ _. destruct rounds; cbn [plan_loop]; now rewrite D.
    + pose proof (proj1 IV) as OS.
      destruct (phase_infos g translate no_path inputs tables sinks AN st OS) as (k1 & infos & R1 & IF).
      destruct (ready_tables_spec st OS) as (k0 & infos0 & R0 & RT).
      assert (infos0 = infos) as ->.
      { specialize (R0 (k0 + k1) ltac:(lia)). rewrite (R1 (k0 + k1) ltac:(lia)) in R0. congruence. }
      destruct (run_phase_spec g translate inputs tables sinks AN st infos n OS IF st)
        with (M := @nil (nat * analysis P)) as (k2 & st1 & R2 & F2).
      { rewrite OS. apply incl_refl. } { apply sound_nil. } { apply exact_nil. }
      assert (IV1 : inv g inputs tables sinks (S n) st1) by (eapply inv_step; eauto).
      destruct (pass_right st st1 infos n bindings OS RT F2 BR) as (b1 & RP & BR1).
      destruct (IH (S n) st1 b1 ltac:(lia) IV1 BR1) as (k3 & plans & b2 & R3 & RR & BR2).
      exists (k1 + k2 + k3), (Phase (filter (table_is_ready infos) tables) (newly_ready st st1) :: plans), b2.
      split; [|split; [|exact BR2]].
      * intros rounds fuel LR LF. destruct rounds as [|rounds]; [lia|].
        cbn [plan_loop]. rewrite D, R1, R2 by lia. now rewrite R3 by lia.
      * cbn [FullPassModel.run_phases]. now rewrite RP.
Qed.
End Rank.

Notation transform := (transform g node_value table_contents m tables sinks).

Lemma transform_right bindings outputs b : bindings_right (is_replaced replaced) bindings ->
  (forall x, In x outputs -> x < length g /\ provided x) -> feeds_inputs inputs b ->
  exists vs, transform K bindings outputs b = Some vs /\ Forall2 (means (Some b)) outputs vs.
Proof.
  intros BR OUT FB. unfold FullPassModel.transform.
  assert (ST : forall x, settled (is_replaced replaced) x) by (intros x s _ R; exact R).
  destruct (initialize_right (is_replaced replaced) bindings BR tables K (incl_refl _)
              (wf_tables _ _ _ _ WF)) as (contents & -> & KEYS & CV).
  { right. intros t _ i _. apply ST. } { lia. }
  unfold apply_model. apply all_some_ok. intros x X. destruct (OUT x X) as [LX PX].
  apply (batch_value (is_replaced replaced) bindings BR contents b x K); auto.
  - intros s v F. apply find_In in F. apply (in_map fst) in F. cbn [fst] in F. rewrite KEYS in F.
    apply in_map_iff in F. destruct F as (t & E & T). exists t. auto.
Qed.

End Run.

(** The whole. *)
Lemma full_pass_semantics {P V : Type} (g : tf_graph) (translate : nat -> list P -> P) (no_path : P)
  (inputs : list (nat * P)) tables sinks
  (node_value : nat -> list V -> V) table_contents analyzer m dataset order outputs :
  analyzable g inputs tables sinks ->
  (forall x, In x outputs -> x < length g /\
     forall y, feeds g inputs (replaced_tensors sinks) tables x y ->
       ~ not_provided g inputs (replaced_tensors sinks) tables y) ->
  (forall b, In b dataset -> feeds_inputs inputs b) ->
  (forall p, Permutation (order p) dataset) ->
  order_free analyzer ->
  exists rounds0 fuel0 plans bindings,
    forall rounds fuel, rounds0 <= rounds -> fuel0 <= fuel ->
      plan_phases g translate no_path inputs tables rounds fuel sinks = Some (Some plans) /\
      run_phases g node_value table_contents analyzer m tables sinks fuel order 0 plans [] = Some bindings /\
      (forall k, In k sinks -> exists v, find (sink_tensor k) bindings = Some v /\
         means g node_value table_contents analyzer tables sinks dataset None (sink_tensor k) v) /\
      (forall b, feeds_inputs inputs b ->
         exists vs, transform g node_value table_contents m tables sinks fuel bindings outputs b = Some vs /\
           Forall2 (means g node_value table_contents analyzer tables sinks dataset (Some b)) outputs vs).
Proof.
  intros AN OUT FED ORDER OF.
  destruct (enough_fuel g inputs tables sinks no_path AN node_value table_contents analyzer m dataset) as (K & EN).
  destruct (an_rank _ _ _ _ AN) as (rank & RANK).
  destruct (plan_loop_right g inputs tables sinks AN node_value table_contents analyzer m dataset K EN
    translate no_path order FED ORDER OF rank RANK (S (max_rank sinks rank)) 0
    (map (fun k => (k, None)) sinks) [] ltac:(lia) (inv_start g inputs tables sinks)) as (k & plans & bindings & R & RR & BR).
  { split; [|discriminate]. intros x B. exfalso. unfold bound in B. apply find_In in B.
    unfold sinks_ready in B. rewrite map_map in B. apply in_map_iff in B. destruct B as (s & E & _). cbn in E. congruence. }
  exists (S (max_rank sinks rank)), (k + K), plans, bindings. intros rounds fuel LR LF.
  split; [apply R; lia|]. split.
  { eapply run_phases_mono; [|exact RR]. lia. }
  split.
  - intros s I. destruct BR as [B1 B2]. destruct (B1 (sink_tensor s)) as (v & F).
    { apply replaced_sink. now apply in_map. }
    exists v. split; [exact F | now apply B2].
  - intros b FB.
    destruct (transform_right g inputs tables sinks AN node_value table_contents analyzer m dataset K EN
                bindings outputs b BR OUT FB) as (vs & T & F).
    exists vs. split; [|exact F]. unfold transform in *.
    destruct (initialize g node_value table_contents m sinks K bindings tables) as [c|] eqn:I; [|discriminate].
    rewrite (initialize_mono _ _ _ _ _ K fuel _ _ _ ltac:(lia) I).
    eapply apply_mono; [|exact T]. lia.
Qed.
