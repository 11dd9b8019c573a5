(** * Proofs about the phases of analysis *)
From Coq Require Import List Arith Bool Lia.
From Verif Require Import ReadyModel ReadySpec ReadyProofs TablesProofs PhaseModel PhaseSpec.
Import ListNotations.

Section SameKeys.
Context {P : Type}.
Variable g : tf_graph.
Variable inputs : list (nat * P).
Variable tables : list table.
Variables r r' : list (nat * bool).
Hypothesis KEYS : map fst r = map fst r'.

Lemma same_replaced x : is_replaced r x <-> is_replaced r' x.
Proof.
  unfold is_replaced. destruct (find x r) eqn:A, (find x r') eqn:B; try (split; congruence).
  - apply find_none in B. rewrite <- KEYS in B. apply find_none in B. split; congruence.
  - apply find_none in A. rewrite KEYS in A. apply find_none in A. split; congruence.
Qed.

Lemma same_needs x y : needs g inputs r tables x y -> needs g inputs r' tables x y.
Proof.
  induction 1; [apply needs_refl | eapply needs_parent | eapply needs_table]; eauto.
  now rewrite <- same_replaced.
Qed.

Lemma same_feeds x y : feeds g inputs r tables x y -> feeds g inputs r' tables x y.
Proof.
  induction 1; [apply feeds_refl | eapply feeds_parent]; eauto.
  now rewrite <- same_replaced.
Qed.

Lemma same_not_provided y : not_provided g inputs r tables y -> not_provided g inputs r' tables y.
Proof. unfold not_provided. now rewrite same_replaced. Qed.

Lemma same_signature : well_formed_signature g inputs r tables -> well_formed_signature g inputs r' tables.
Proof.
  intros W. destruct W. constructor; auto; intros x; rewrite <- same_replaced; auto.
Qed.

Lemma same_acyclic p : acyclic g (replaced_infos (P := P) p r) -> acyclic g (replaced_infos p r').
Proof.
  assert (SRC : forall x, is_source (replaced_infos (P := P) p r) x <-> is_source (replaced_infos p r') x).
  { intros x. rewrite !source0. apply same_replaced. }
  intros AC x ps y NS N I R. apply (AC x ps y); auto; [now rewrite SRC|].
  clear -R SRC. induction R; [apply reach_refl|]. eapply reach_step; eauto. now rewrite SRC.
Qed.
End SameKeys.

Section Phases.
Context {P : Type}.
Variable g : tf_graph.
Variable translate : nat -> list P -> P.
Variable no_path : P.
Variable inputs : list (nat * P).
Variable tables : list table.
Variable sinks : list sink.
Hypothesis AN : analyzable g inputs tables sinks.

Notation state := (list (sink * option nat)).
Notation chain := (chain g inputs tables sinks).
Notation reads := (reads g inputs tables sinks).
Notation longest_chain := (longest_chain g inputs tables sinks).

(** The states between phases: the sinks with their phases so far. *)
Definition of_sinks (st : state) : Prop := map fst st = sinks.

Lemma keys st : of_sinks st -> map fst (replaced_tensors sinks) = map fst (sinks_ready st).
Proof.
  intros <-. unfold replaced_tensors, sinks_ready. rewrite !map_map. cbn. apply map_ext. auto.
Qed.

Lemma keys_sinks st : of_sinks st -> map fst (sinks_ready st) = map sink_tensor sinks.
Proof. intros <-. unfold sinks_ready. rewrite !map_map. reflexivity. Qed.

Lemma find_ready st j k p : of_sinks st -> nth_error st j = Some (k, p) ->
  find (sink_tensor k) (sinks_ready st) = Some (match p with Some _ => true | None => false end).
Proof.
  intros OS N. apply In_find.
  - rewrite (keys_sinks st OS). apply (an_tensors _ _ _ _ AN).
  - unfold sinks_ready. apply nth_error_In in N. apply (in_map (fun kp => (sink_tensor (fst kp), match snd kp with Some _ => true | None => false end))) in N. exact N.
Qed.

Lemma ready_find st s v : of_sinks st -> find s (sinks_ready st) = Some v ->
  exists j k p, nth_error st j = Some (k, p) /\ sink_tensor k = s /\
    v = match p with Some _ => true | None => false end.
Proof.
  intros OS F. apply find_In in F. unfold sinks_ready in F. apply in_map_iff in F.
  destruct F as ([k p] & E & I). cbn in E. injection E as <- <-.
  apply In_nth_error in I. destruct I as (j & N). exists j, k, p. auto.
Qed.

Lemma nth_sink st j k p : of_sinks st -> nth_error st j = Some (k, p) -> nth_error sinks j = Some k.
Proof. intros <- N. rewrite nth_error_map, N. reflexivity. Qed.

(** All the sources of a sink are ready exactly when every analyzer it reads has
    a phase; otherwise some analyzer it reads has none. *)
Definition sink_answer (st : state) (xs : list nat) (b : bool) : Prop :=
  match b with
  | true => forall x j k p, In x xs -> nth_error st j = Some (k, p) ->
      needs g inputs (replaced_tensors sinks) tables x (sink_tensor k) -> p <> None
  | false => exists x j k, In x xs /\ nth_error st j = Some (k, None) /\
      needs g inputs (replaced_tensors sinks) tables x (sink_tensor k)
  end.

Definition infos_for (st : state) (infos : list (nat * (bool * P))) : Prop :=
  acyclic g infos /\
  forall M x, sound g infos M -> exact g translate infos M -> x < length g ->
  exists k M' r, (forall fuel, k <= fuel ->
      analyze_tensor g translate infos fuel M x = Some (M', r)) /\
    sound g infos M' /\ exact g translate infos M' /\
    match r with
    | None => exists y, feeds g inputs (sinks_ready st) tables x y /\
                        not_provided g inputs (sinks_ready st) tables y
    | Some a =>
        (forall y, feeds g inputs (sinks_ready st) tables x y ->
           ~ not_provided g inputs (sinks_ready st) tables y) /\
        (is_ready a = true <->
           forall s v, needs g inputs (sinks_ready st) tables x s ->
             find s (sinks_ready st) = Some v -> v = true) /\
        (is_ready a = false ->
           exists s, needs g inputs (sinks_ready st) tables x s /\
             find s (sinks_ready st) = Some false) /\
        (forall s, is_input inputs s ->
           In s (dependent_sources a) <-> feeds g inputs (sinks_ready st) tables x s)
    end.

Lemma phase_infos st : of_sinks st ->
  exists k infos, (forall fuel, k <= fuel ->
    complete_infos g translate no_path fuel inputs (sinks_ready st) tables = Some (Some infos)) /\
    infos_for st infos.
Proof.
  intros OS. pose proof (keys st OS) as K.
  destruct (initializable_memo g translate no_path inputs (sinks_ready st) tables) as (k & b & R & A).
  - apply (an_closed _ _ _ _ AN).
  - eapply same_signature; [exact K|]. apply (an_signature _ _ _ _ AN).
  - eapply (same_acyclic (P := P)); [exact K|]. apply (an_acyclic _ _ _ _ AN).
  - destruct b as [infos|].
    + destruct A as [A1 [_ A2]]. exists k, infos. split; [exact R | exact (conj A1 A2)].
    + exfalso. destruct A as (t & i & y & T & I & Ny & U & NR). apply NR.
      rewrite <- (same_replaced _ _ K). eapply (an_tables _ _ _ _ AN); eauto.
      eapply same_needs; [symmetry; exact K | exact Ny].
Qed.

Lemma all_ready_spec st infos : of_sinks st -> infos_for st infos ->
  forall k0, In k0 sinks -> forall xs, incl xs (sink_sources k0) ->
  forall M, sound g infos M -> exact g translate infos M ->
  exists k M' b, (forall fuel, k <= fuel ->
      all_ready g translate infos fuel M xs = Some (M', Some b)) /\
    sound g infos M' /\ exact g translate infos M' /\ sink_answer st xs b.
Proof.
  intros OS [AC IF] k0 K0. pose proof (keys st OS) as K.
  induction xs as [|x xs IH]; intros IX M S E.
  - exists 0, M, true. split; [reflexivity|]. split; [exact S|]. split; [exact E|]. intros x j k p [].
  - assert (XS : In x (sink_sources k0)) by (apply IX; now left).
    destruct (IF M x S E) as (k1 & M1 & r & R1 & S1 & E1 & A).
    { eapply (an_range _ _ _ _ AN); eauto. }
    destruct r as [a|].
    2:{ exfalso. destruct A as (y & Fy & NP).
        eapply (an_provided _ _ _ _ AN); [exact K0 | exact XS | |].
        - eapply same_feeds; [symmetry; exact K | exact Fy].
        - eapply same_not_provided; [symmetry; exact K | exact NP]. }
    destruct A as (_ & RD & NR & _). destruct (is_ready a) eqn:RA.
    + destruct (IH (fun y Y => IX y (or_intror Y)) M1 S1 E1) as (k2 & M2 & b & R2 & S2 & E2 & A2).
      exists (k1 + k2), M2, b. split.
      { intros fuel LE. cbn [all_ready]. rewrite R1 by lia. rewrite RA. apply R2. lia. }
      split; [exact S2|]. split; [exact E2|]. destruct b; cbn in A2 |- *.
      * intros z j k p [<-|Z] N Nd; [|eauto].
        pose proof (proj1 RD eq_refl (sink_tensor k) _ (same_needs _ _ _ _ _ K _ _ Nd)
          (find_ready st j k p OS N)) as Q. destruct p; [discriminate | congruence].
      * destruct A2 as (z & j & k & Z & N & Nd). exists z, j, k. split; [now right | auto].
    + exists k1, M1, false. split.
      { intros fuel LE. cbn [all_ready]. rewrite R1 by lia. now rewrite RA. }
      split; [exact S1|]. split; [exact E1|]. cbn.
      destruct (NR eq_refl) as (s & Nd & F).
      destruct (ready_find st s false OS F) as (j & k & p & N & <- & V).
      exists x, j, k. split; [now left|]. destruct p; [discriminate|]. split; [exact N|].
      eapply same_needs; [symmetry; exact K | exact Nd].
Qed.

Definition step_sink (st : state) (phase : nat) (old new : sink * option nat) : Prop :=
  fst new = fst old /\
  match snd old with
  | Some p => snd new = Some p
  | None => exists b, sink_answer st (sink_sources (fst old)) b /\
                      snd new = if b then Some phase else None
  end.

Lemma run_phase_spec st0 infos phase : of_sinks st0 -> infos_for st0 infos ->
  forall st, incl (map fst st) sinks ->
  forall M, sound g infos M -> exact g translate infos M ->
  exists k st', (forall fuel, k <= fuel ->
      run_phase g translate infos fuel M phase st = Some (Some st')) /\
    Forall2 (step_sink st0 phase) st st'.
Proof.
  intros OS IF. induction st as [|[k p] st IH]; intros IS M S E.
  - exists 0, []. split; [reflexivity | constructor].
  - assert (IS' : incl (map fst st) sinks) by (intros y Y; apply IS; now right).
    destruct p as [p|].
    + destruct (IH IS' M S E) as (n & st' & R & F). exists n, ((k, Some p) :: st'). split.
      * intros fuel LE. cbn [run_phase]. now rewrite R by lia.
      * constructor; [|exact F]. split; reflexivity.
    + destruct (all_ready_spec st0 infos OS IF k (IS k (or_introl eq_refl)) (sink_sources k)
                  (incl_refl _) M S E) as (n1 & M1 & b & R1 & S1 & E1 & A).
      destruct (IH IS' M1 S1 E1) as (n2 & st' & R2 & F).
      exists (n1 + n2), ((k, if b then Some phase else None) :: st'). split.
      * intros fuel LE. cbn [run_phase]. rewrite R1 by lia. now rewrite R2 by lia.
      * constructor; [|exact F]. split; [reflexivity|]. cbn. eauto.
Qed.

(** The invariant at the start of a phase. *)
Definition inv (n : nat) (st : state) : Prop :=
  of_sinks st /\
  forall i k p, nth_error st i = Some (k, p) ->
    match p with
    | Some p => longest_chain i p /\ p < n
    | None => chain i n
    end.

Lemma chain_range i n : chain i n -> i < length sinks.
Proof.
  intros C. destruct C as [i L|i j n R C]; [exact L|].
  destruct R as (k & k' & x & N & _). apply nth_error_Some. congruence.
Qed.

Lemma Forall2_nth {A B} (R : A -> B -> Prop) l l' i b :
  Forall2 R l l' -> nth_error l' i = Some b -> exists a, nth_error l i = Some a /\ R a b.
Proof.
  intros F. revert i. induction F as [|x y l l' H F IH]; intros [|i] N; cbn in *; try discriminate.
  - injection N as <-. eauto.
  - auto.
Qed.

Lemma inv_step n st st' : inv n st -> Forall2 (step_sink st n) st st' -> inv (S n) st'.
Proof.
  intros [OS IV] F. split.
  - unfold of_sinks in *. rewrite <- OS. clear - F.
    induction F as [|a b l l' [H _] F IH]; cbn; congruence.
  - intros i k p N. destruct (Forall2_nth _ _ _ _ _ F N) as ([k0 q] & N0 & E & ST).
    cbn in E, ST. subst k0. pose proof (IV i k q N0) as IVi.
    destruct q as [q|].
    + subst p. destruct IVi. split; [assumption | lia].
    + destruct ST as (b & A & ->). destruct b; cbn in A.
      * split; [|lia]. split; [exact IVi|]. intros m C.
        inversion C as [i' L|i' j m' R C']; subst; [lia|].
        destruct R as (k1 & k2 & x & N1 & N2 & X & Nd).
        rewrite (nth_sink st i k None OS N0) in N1. injection N1 as <-.
        destruct (nth_error st j) as [[k3 q]|] eqn:NJ.
        2:{ apply nth_error_None in NJ. assert (j < length sinks) by (apply nth_error_Some; congruence).
            rewrite <- OS, map_length in H. lia. }
        pose proof (nth_sink st j k3 q OS NJ) as NK. rewrite N2 in NK. injection NK as <-.
        specialize (A x j k2 q X NJ Nd). destruct q as [q|]; [|congruence].
        destruct (IV j k2 (Some q) NJ) as [[_ MX] LT]. specialize (MX m' C'). lia.
      * destruct A as (x & j & k' & X & NJ & Nd). apply chain_succ with (j := j).
        -- exists k, k', x. split; [eapply nth_sink; eauto|]. split; [eapply nth_sink; eauto|]. auto.
        -- exact (IV j k' None NJ).
Qed.

Lemma inv_start : inv 0 (map (fun k => (k, None)) sinks).
Proof.
  split.
  - unfold of_sinks. rewrite map_map. cbn. apply map_id.
  - intros i k p N. rewrite nth_error_map in N. destruct (nth_error sinks i) eqn:E; [|discriminate].
    injection N as <- <-. apply chain_zero. apply nth_error_Some. congruence.
Qed.

Section Rank.
Variable rank : nat -> nat.
Hypothesis RANK : forall i j, reads i j -> rank j < rank i.

Lemma chain_rank i n : chain i n -> n <= rank i.
Proof.
  induction 1 as [i L|i j n R C IH]; [lia|]. specialize (RANK i j R). lia.
Qed.

Definition max_rank := list_max (map rank (seq 0 (length sinks))).

Lemma max_rank_le i : i < length sinks -> rank i <= max_rank.
Proof.
  intros L. unfold max_rank.
  assert (A : Forall (fun r => r <= list_max (map rank (seq 0 (length sinks)))) (map rank (seq 0 (length sinks)))).
  { apply list_max_le. lia. }
  rewrite Forall_forall in A. apply A. apply in_map, in_seq. lia.
Qed.

Lemma inv_done n st : max_rank < n -> inv n st ->
  forallb (fun kp => match snd kp with Some _ => true | None => false end) st = true.
Proof.
  intros LT [OS IV]. apply forallb_forall. intros [k [p|]] I; [reflexivity|].
  apply In_nth_error in I. destruct I as (i & N). specialize (IV i k None N). cbn in IV.
  pose proof (chain_rank _ _ IV). pose proof (max_rank_le _ (chain_range _ _ IV)). lia.
Qed.

Lemma loop_spec : forall d n st, max_rank < n + d -> inv n st ->
  exists k st', (forall rounds fuel, d <= rounds -> k <= fuel ->
      build_loop g translate no_path inputs tables rounds fuel n st = Some (Some st')) /\
    of_sinks st' /\
    forall i k p, nth_error st' i = Some (k, p) -> exists m, p = Some m /\ longest_chain i m.
Proof.
  assert (STOP : forall n st, inv n st ->
    forallb (fun kp : sink * option nat => match snd kp with Some _ => true | None => false end) st = true ->
    forall i k p, nth_error st i = Some (k, p) -> exists m, p = Some m /\ longest_chain i m).
  { intros n st [OS IV] D i k p N. rewrite forallb_forall in D.
    pose proof (D _ (nth_error_In _ _ N)) as Q. cbn in Q. destruct p as [m|]; [|discriminate].
    exists m. split; [reflexivity|]. apply (IV i k (Some m) N). }
  induction d as [|d IH]; intros n st LT IV.
  - exists 0, st. pose proof (inv_done n st ltac:(lia) IV) as D. split.
    + intros rounds fuel _ _. destruct rounds; cbn [build_loop]; now rewrite D.
    + split; [apply IV | eapply STOP; eauto].
  - destruct (forallb (fun kp : sink * option nat => match snd kp with Some _ => true | None => false end) st) eqn:D.
    + exists 0, st. split.
      * intros rounds fuel _ _. destruct rounds; cbn [build_loop]; now rewrite D.
      * split; [apply IV | eapply STOP; eauto].
    + destruct IV as [OS IV]. destruct (phase_infos st OS) as (k1 & infos & R1 & IF).
      destruct (run_phase_spec st infos n OS IF st) with (M := @nil (nat * analysis P))
        as (k2 & st1 & R2 & F2).
      { rewrite OS. apply incl_refl. } { apply sound_nil. } { apply exact_nil. }
      assert (IV1 : inv (S n) st1) by (eapply inv_step; [split; eauto | exact F2]).
      destruct (IH (S n) st1 ltac:(lia) IV1) as (k3 & st' & R3 & Q).
      exists (k1 + k2 + k3), st'. split; [|exact Q].
      intros rounds fuel LR LF. destruct rounds as [|rounds]; [lia|].
      cbn [build_loop]. rewrite D, R1, R2 by lia. apply R3; lia.
Qed.
End Rank.

Lemma phases_spec :
  exists r k st, (forall rounds fuel, r <= rounds -> k <= fuel ->
      build_phases g translate no_path inputs tables rounds fuel sinks = Some (Some st)) /\
    map fst st = sinks /\
    forall i k p, nth_error st i = Some (k, p) -> exists m, p = Some m /\ longest_chain i m.
Proof.
  destruct (an_rank _ _ _ _ AN) as (rank & RANK).
  destruct (loop_spec rank RANK (S (max_rank rank)) 0 _ ltac:(lia) inv_start) as (k & st & R & OS & Q).
  exists (S (max_rank rank)), k, st. split; [exact R|]. split; [exact OS | exact Q].
Qed.

(** A longer phase than every analyzer read. *)
Lemma longest_reads i j m n : reads i j -> longest_chain i m -> longest_chain j n -> n < m.
Proof. intros R [_ MX] [C _]. specialize (MX (S n) (chain_succ _ _ _ _ _ _ _ R C)). lia. Qed.

End Phases.

(** Nodes numbered after everything they need, analyzers after what they read. *)
Lemma numbered_rank {P} g (inputs : list (nat * P)) tables sinks :
  (forall x ps y, nth_error g x = Some (Node ps) -> In y ps -> y < x) ->
  (forall t y, In t tables -> In y (init_inputs t) -> y < table_op t) ->
  (forall k x, In k sinks -> In x (sink_sources k) -> x < sink_tensor k) ->
  exists rank : nat -> nat, forall i j, reads g inputs tables sinks i j -> rank j < rank i.
Proof.
  intros NB NT NS.
  exists (fun i => match nth_error sinks i with Some k => sink_tensor k | None => 0 end).
  intros i j (k & k' & x & N & N' & X & Nd). rewrite N, N'.
  assert (LE : forall a b, needs g inputs (replaced_tensors sinks) tables a b -> b <= a).
  { clear - NB NT. induction 1 as [|a ps b c _ _ _ N I Nd IH|a t b c T E I Nd IH].
    - lia.
    - specialize (NB a ps b N I). lia.
    - specialize (NT t b T I). lia. }
  specialize (LE _ _ Nd). specialize (NS k x (nth_error_In _ _ N) X). lia.
Qed.
