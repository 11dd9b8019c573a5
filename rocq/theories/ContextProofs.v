(** * Proofs about the contexts *)
From Coq Require Import String List Bool Arith ZArith Lia.
From Verif Require Import CacheKeyModel ContextModel ContextSpec.
Import ListNotations.

(** ** The frames of nested blocks *)
Definition resolve (blocks : list settings) : settings :=
  Settings (innermost temp_dir blocks) (innermost desired_batch_size blocks)
    (innermost passthrough_keys blocks) (innermost use_deep_copy blocks)
    (innermost force_compat_v1 blocks) (innermost save_options blocks).

Fixpoint frames (blocks : list settings) : list settings :=
  resolve blocks :: match blocks with [] => [] | _ :: outer => frames outer end.

Definition holds (blocks : list settings) (graph : option graph_settings) (s : slot) : Prop :=
  (state s = Some (frames blocks) \/ state s = None /\ blocks = []) /\
  match graph with
  | Some g => current_state s = Some (Some g)
  | None => current_state s = None \/ current_state s = Some None
  end.

Lemma topmost_holds : forall blocks graph s, holds blocks graph s -> topmost s = resolve blocks.
Proof.
  intros blocks graph s [[E|[E ->]] _]; unfold topmost; rewrite E; [|reflexivity].
  now destruct blocks.
Qed.

Lemma get_holds : forall tf1 q blocks graph s, holds blocks graph s ->
  (graph_getter q = true -> graph <> None) -> get tf1 q s = documented tf1 q blocks graph.
Proof.
  intros tf1 q blocks graph s H G. unfold get. rewrite (topmost_holds _ _ _ H). destruct H as [_ H].
  destruct q; cbn in G |- *; try reflexivity.
  - now rewrite orb_comm.
  - destruct graph as [g|]; [now rewrite H|now destruct (G eq_refl)].
  - destruct graph as [g|]; [now rewrite H|now destruct (G eq_refl)].
  - destruct graph as [g|]; [now rewrite H|now destruct (G eq_refl)].
Qed.

Lemma construct_holds : forall blocks graph s, holds blocks graph s -> holds blocks graph (construct s).
Proof.
  intros blocks graph s [[E|[E ->]] G]; unfold construct; rewrite E.
  - split; auto.
  - split; [now left|exact G].
Qed.

Lemma construct_built : forall s, state (construct s) <> None.
Proof. intros s. unfold construct. destruct (state s) eqn:E; cbn; congruence. Qed.

Lemma enter_holds : forall c blocks graph s, holds blocks graph s -> state s <> None ->
  exists s', enter c s = inl s' /\ holds (c :: blocks) graph s' /\ state s' <> None.
Proof.
  intros c blocks graph s H B. unfold enter. rewrite (topmost_holds _ _ _ H).
  destruct H as [[E|[E _]] G]; [|congruence]. rewrite E. eexists. split; [reflexivity|].
  split; [|cbn; discriminate]. split; [|exact G]. left. cbn [state frames]. f_equal. f_equal.
  unfold resolve. destruct c as [[?|] [?|] [?|] [?|] [?|] [?|]]; reflexivity.
Qed.

Lemma leave_holds : forall c blocks graph s, holds (c :: blocks) graph s ->
  exists s', leave s = inl s' /\ holds blocks graph s' /\ state s' <> None.
Proof.
  intros c blocks graph s [[E|[_ E]] G]; [|discriminate]. unfold leave. rewrite E.
  cbn [frames]. eexists. split; [reflexivity|]. split; [|cbn; discriminate]. split; [now left|exact G].
Qed.

(** ** One thread *)
Fixpoint iter (tf1 : bool) (n : nat) (t : thread) : thread :=
  match n with O => t | S n => iter tf1 n (step tf1 t) end.

Lemma iter_add : forall tf1 a b t, iter tf1 (a + b) t = iter tf1 b (iter tf1 a t).
Proof. induction a as [|a IH]; intros; cbn; [reflexivity|apply IH]. Qed.

Lemma iter_trans : forall tf1 t1 t2 t3,
  (exists n, iter tf1 n t1 = t2) -> (exists n, iter tf1 n t2 = t3) -> exists n, iter tf1 n t1 = t3.
Proof. intros tf1 t1 t2 t3 [a A] [b B]. exists (a + b). now rewrite iter_add, A. Qed.

Lemma iter_step : forall tf1 t1 t3,
  (exists n, iter tf1 n (step tf1 t1) = t3) -> exists n, iter tf1 n t1 = t3.
Proof. intros tf1 t1 t3 [n H]. now exists (S n). Qed.

Lemma skip_step : forall tf1 p k e s tr,
  step tf1 (Thread (Run p :: k) (Some e) s tr) = Thread k (Some e) s tr.
Proof. destruct p; reflexivity. Qed.

Lemma own_first : forall p, constructs_its_own p -> constructs_first p.
Proof. destruct p; cbn; auto. Qed.

Lemma prog_runs : forall tf1 p blocks graph s k tr,
  graph_getters_inside (match graph with Some _ => true | None => false end) p ->
  (state s <> None \/ constructs_first p) -> holds blocks graph s ->
  exists s', holds blocks graph s' /\ (state s <> None -> state s' <> None) /\
    exists n, iter tf1 n (Thread (Run p :: k) None s tr)
      = Thread k (snd (meaning tf1 p blocks graph)) s' (tr ++ fst (meaning tf1 p blocks graph)).
Proof.
  intros tf1. induction p as [|c rest IH|q rest IH| |c body IHb rest IH|c body IHb rest IH
                             |c body IHb rest IH|body IHb handler IHh rest IH];
    intros blocks graph s k tr GG B H.
  - exists s. split; [exact H|]. split; [auto|]. exists 1. cbn. now rewrite app_nil_r.
  - destruct (IH blocks graph (construct s) k tr GG (or_introl (construct_built s))
                (construct_holds _ _ _ H)) as (s' & H' & P & R).
    exists s'. split; [exact H'|]. split; [intros _; apply P, construct_built|]. now apply iter_step.
  - destruct GG as [GG1 GG2]. cbn [meaning].
    rewrite <- (get_holds tf1 q blocks graph s H) by (destruct graph; [discriminate|now intros F; apply GG1 in F]).
    destruct (get tf1 q s) as [v|e] eqn:E.
    + destruct (IH blocks graph s k (tr ++ [Value v])%list GG2) as (s' & H' & P & R); [|exact H|].
      { destruct B as [B|B]; [now left|right]. now apply own_first. }
      exists s'. split; [exact H'|]. split; [exact P|]. apply iter_step. cbn [step]. rewrite E.
      cbn [fst snd]. rewrite <- app_assoc in R. exact R.
    + exists s. split; [exact H|]. split; [auto|]. exists 1. cbn [iter step]. rewrite E. cbn. now rewrite app_nil_r.
  - exists s. split; [exact H|]. split; [auto|]. exists 1. cbn. now rewrite app_nil_r.
  - destruct GG as [GG1 GG2]. cbn [meaning].
    destruct (enter_holds c _ _ _ (construct_holds _ _ _ H) (construct_built s)) as (s1 & E1 & H1 & B1).
    destruct (IHb (c :: blocks) graph s1 (Exit :: Run rest :: k) tr GG1 (or_introl B1) H1)
      as (s2 & H2 & P2 & R2).
    destruct (leave_holds _ _ _ _ H2) as (s3 & E3 & H3 & B3).
    destruct (meaning tf1 body (c :: blocks) graph) as [o [e|]]; cbn [fst snd] in *.
    + exists s3. split; [exact H3|]. split; [auto|]. apply iter_step. cbn [step]. rewrite E1.
      eapply iter_trans; [exact R2|]. exists 2. cbn [iter]. cbn [step]. rewrite E3. apply skip_step.
    + destruct (IH blocks graph s3 k (tr ++ o)%list GG2 (or_introl B3) H3) as (s4 & H4 & P4 & R4).
      exists s4. split; [exact H4|]. split; [auto|]. apply iter_step. cbn [step]. rewrite E1.
      eapply iter_trans; [exact R2|]. apply iter_step. cbn [step]. rewrite E3.
      rewrite app_assoc. exact R4.
  - destruct GG as [GG1 GG2]. cbn [meaning].
    destruct B as [B|[]].
    destruct (enter_holds c _ _ _ H B) as (s1 & E1 & H1 & B1).
    destruct (IHb (c :: blocks) graph s1 (Exit :: Run rest :: k) tr GG1 (or_introl B1) H1)
      as (s2 & H2 & P2 & R2).
    destruct (leave_holds _ _ _ _ H2) as (s3 & E3 & H3 & B3).
    destruct (meaning tf1 body (c :: blocks) graph) as [o [e|]]; cbn [fst snd] in *.
    + exists s3. split; [exact H3|]. split; [auto|]. apply iter_step. cbn [step]. rewrite E1.
      eapply iter_trans; [exact R2|]. exists 2. cbn [iter]. cbn [step]. rewrite E3. apply skip_step.
    + destruct (IH blocks graph s3 k (tr ++ o)%list GG2 (or_introl B3) H3) as (s4 & H4 & P4 & R4).
      exists s4. split; [exact H4|]. split; [auto|]. apply iter_step. cbn [step]. rewrite E1.
      eapply iter_trans; [exact R2|]. apply iter_step. cbn [step]. rewrite E3.
      rewrite app_assoc. exact R4.
  - destruct GG as [GG1 GG2]. cbn [meaning].
    destruct graph as [g|].
    + exists s. split; [exact H|]. split; [auto|]. exists 1. cbn [iter step]. unfold graph_enter.
      destruct H as [_ H]. cbn in H. rewrite H. cbn. now rewrite app_nil_r.
    + assert (E1 : graph_enter c s = inl (Slot (state s) (Some (Some c)))).
      { unfold graph_enter. destruct H as [_ [H|H]]; rewrite H; reflexivity. }
      assert (Bb : state (Slot (state s) (Some (Some c))) <> None \/ constructs_first body).
      { destruct B as [B|[B1 B2]]; [now left|right; now apply own_first]. }
      destruct (IHb blocks (Some c) (Slot (state s) (Some (Some c))) (GraphExit :: Run rest :: k) tr GG1 Bb)
        as (s2 & H2 & P2 & R2). { destruct H as [H _]. split; [exact H|reflexivity]. }
      cbn [state] in P2.
      assert (H3 : holds blocks None (graph_leave s2)).
      { destruct H2 as [H2 _]. split; [exact H2|now right]. }
      destruct (meaning tf1 body blocks (Some c)) as [o [e|]]; cbn [fst snd] in *.
      * exists (graph_leave s2). split; [exact H3|]. split; [exact P2|]. apply iter_step. cbn [step]. rewrite E1.
        eapply iter_trans; [exact R2|]. exists 2. cbn. now destruct rest.
      * destruct (IH blocks None (graph_leave s2) k (tr ++ o)%list GG2) as (s4 & H4 & P4 & R4); [|exact H3|].
        { destruct B as [B|[B1 B2]]; [left; now apply P2|right; now apply own_first]. }
        exists s4. split; [exact H4|]. split; [intros B'; now apply P4, P2|].
        apply iter_step. cbn [step]. rewrite E1.
        eapply iter_trans; [exact R2|]. apply iter_step. cbn [step]. rewrite app_assoc. exact R4.
  - destruct GG as (GG1 & GG2 & GG3). cbn [meaning].
    assert (Bb : state s <> None \/ constructs_first body).
    { destruct B as [B|(B1 & B2 & B3)]; [now left|right; now apply own_first]. }
    destruct (IHb blocks graph s (Catch handler :: Run rest :: k) tr GG1 Bb H) as (s2 & H2 & P2 & R2).
    destruct (meaning tf1 body blocks graph) as [o [e|]]; cbn [fst snd] in *.
    + destruct (IHh blocks graph s2 (Run rest :: k) ((tr ++ o) ++ [Caught e])%list GG2) as (s3 & H3 & P3 & R3);
        [|exact H2|].
      { destruct B as [B|(B1 & B2 & B3)]; [left; now apply P2|right; now apply own_first]. }
      destruct (meaning tf1 handler blocks graph) as [oh [eh|]]; cbn [fst snd] in *.
      * exists s3. split; [exact H3|]. split; [auto|]. apply iter_step. cbn [step].
        eapply iter_trans; [exact R2|]. apply iter_step. cbn [step].
        eapply iter_trans; [exact R3|]. exists 1. cbn [iter]. rewrite skip_step. now rewrite !app_assoc.
      * destruct (IH blocks graph s3 k (((tr ++ o) ++ [Caught e]) ++ oh)%list GG3) as (s4 & H4 & P4 & R4);
          [|exact H3|].
        { destruct B as [B|(B1 & B2 & B3)]; [left; now apply P3, P2|right; now apply own_first]. }
        exists s4. split; [exact H4|]. split; [auto|]. apply iter_step. cbn [step].
        eapply iter_trans; [exact R2|]. apply iter_step. cbn [step].
        eapply iter_trans; [exact R3|]. rewrite !app_assoc. exact R4.
    + destruct (IH blocks graph s2 k (tr ++ o)%list GG3) as (s4 & H4 & P4 & R4); [|exact H2|].
      { destruct B as [B|(B1 & B2 & B3)]; [left; now apply P2|right; now apply own_first]. }
      exists s4. split; [exact H4|]. split; [auto|]. apply iter_step. cbn [step].
      eapply iter_trans; [exact R2|]. apply iter_step. cbn [step]. rewrite app_assoc. exact R4.
Qed.

(** ** Many threads *)
Lemma run_schedule_iter : forall tf1 i schedule w,
  run_schedule tf1 w schedule i = iter tf1 (times i schedule) (w i).
Proof.
  intros tf1 i. unfold run_schedule, times.
  induction schedule as [|j l IH]; intros w; [reflexivity|].
  cbn [fold_left filter]. rewrite IH. unfold schedule_step.
  rewrite (Nat.eqb_sym j i). destruct (Nat.eqb_spec i j) as [->|N]; reflexivity.
Qed.

Lemma finished_stays : forall tf1 n r s tr, iter tf1 n (Thread [] r s tr) = Thread [] r s tr.
Proof. induction n as [|n IH]; intros; [reflexivity|]. cbn. apply IH. Qed.

Lemma scoping : forall tf1 (programs : nat -> prog) i,
  graph_getters_inside false (programs i) -> constructs_first (programs i) ->
  exists n, forall schedule, n <= times i schedule ->
    let t := run_schedule tf1 (start_all programs) schedule i in
    control t = [] /\ (trace t, raising t) = meaning tf1 (programs i) [] None.
Proof.
  intros tf1 programs i G C.
  destruct (prog_runs tf1 (programs i) [] None no_slot [] [] G (or_intror C)) as (s' & _ & _ & n & R).
  { split; [now right|now left]. }
  exists n. intros schedule L. cbn zeta. rewrite run_schedule_iter.
  replace (times i schedule) with (n + (times i schedule - n)) by lia.
  rewrite iter_add. unfold start_all, start. rewrite R, finished_stays. cbn.
  split; [reflexivity|]. now destruct (meaning tf1 (programs i) [] None).
Qed.

Lemma independent : forall tf1 programs programs' schedule schedule' i,
  programs i = programs' i -> times i schedule = times i schedule' ->
  run_schedule tf1 (start_all programs) schedule i = run_schedule tf1 (start_all programs') schedule' i.
Proof.
  intros. rewrite !run_schedule_iter. unfold start_all. congruence.
Qed.
