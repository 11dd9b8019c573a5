(** * Proofs about the graph analyzer *)
From Coq Require Import List Arith Bool Lia.
From Verif Require Import ReadyModel ReadySpec.
Import ListNotations.

Lemma mem_In k l : mem k l = true <-> In k l.
Proof.
  unfold mem. rewrite existsb_exists. split.
  - intros (x & I & E). apply Nat.eqb_eq in E. now subst.
  - intros I. exists k. split; [exact I | apply Nat.eqb_refl].
Qed.

Lemma discard_absent k l : ~ In k l -> discard k l = l.
Proof.
  unfold discard. induction l as [|a l IH]; cbn; intros N; [reflexivity|].
  destruct (Nat.eqb_spec a k) as [->|NE]; [tauto|]. cbn. f_equal. apply IH. tauto.
Qed.

Lemma discard_add k l : ~ In k l -> discard k (add k l) = l.
Proof.
  intros N. unfold add. rewrite (discard_absent k l N). unfold discard. cbn.
  rewrite Nat.eqb_refl. cbn. now apply discard_absent.
Qed.

Lemma add_absent k l : ~ In k l -> add k l = k :: l.
Proof. intros N. unfold add. now rewrite discard_absent. Qed.

Lemma add_again k l : ~ In k l -> add k (k :: l) = k :: l.
Proof.
  intros N. unfold add, discard. cbn. rewrite Nat.eqb_refl. cbn. f_equal.
  now apply discard_absent.
Qed.

Section Proofs.
Context {P : Type}.
Variable g : tf_graph.
Variable translate : nat -> list P -> P.
Variable infos : list (nat * (bool * P)).
Hypothesis CG : closed_graph g.

Notation memo_t := (list (nat * analysis P)).
Notation parents := (get_parents g infos).
Notation loop := (analyze_loop g translate infos).
Notation compute := (compute_analysis_result translate infos).
Notation reach := (reach g infos).
Notation is_source := (is_source infos).

Definition known (M : memo_t) (x : nat) : Prop := find x M <> None.

Definition extends (M M' : memo_t) : Prop :=
  forall x a, find x M = Some a -> find x M' = Some a.

Lemma extends_refl M : extends M M.
Proof. intros x a E. exact E. Qed.

Lemma extends_trans M1 M2 M3 : extends M1 M2 -> extends M2 M3 -> extends M1 M3.
Proof. intros A B x a E. auto. Qed.

Lemma extends_known M M' x : extends M M' -> known M x -> known M' x.
Proof.
  unfold known. intros E K. destruct (find x M) as [a|] eqn:F; [|congruence].
  rewrite (E x a F). discriminate.
Qed.

Lemma known_dec M x : {known M x} + {~ known M x}.
Proof. unfold known. destruct (find x M); [left; discriminate | right; congruence]. Qed.

(** One step of the dependency relation, through [get_parents]. *)
Lemma parents_source x : is_source x -> parents x = Some [].
Proof. unfold is_source, ReadySpec.is_source, get_parents. destruct (find x infos); congruence. Qed.

Lemma parents_reach x ps y z : parents x = Some ps -> In y ps -> reach y z -> reach x z.
Proof.
  unfold get_parents. destruct (find x infos) as [i|] eqn:F; [intros [= <-] []|].
  destruct (nth_error g x) as [[qs|]|] eqn:N; [|discriminate|discriminate].
  intros [= ->] I R. eapply reach_step; eauto.
Qed.

Lemma parents_range x ps y : parents x = Some ps -> In y ps -> y < length g.
Proof.
  unfold get_parents. destruct (find x infos) as [i|] eqn:F; [intros [= <-] []|].
  destruct (nth_error g x) as [[qs|]|] eqn:N; [|discriminate|discriminate].
  intros [= ->] I. eapply CG; eauto.
Qed.

Lemma reach_inv x z : reach x z -> x = z \/ exists ps y, parents x = Some ps /\ In y ps /\ reach y z.
Proof.
  intros R. destruct R as [x|x ps y z NS N I R]; [now left|]. right. exists ps, y.
  split; [|auto]. unfold get_parents, ReadySpec.is_source in *.
  destruct (find x infos); [exfalso; apply NS; discriminate|]. now rewrite N.
Qed.

Lemma reach_trans x y z : reach x y -> reach y z -> reach x z.
Proof. induction 1; eauto using reach_step. Qed.

Lemma parents_none x : x < length g -> parents x = None <-> unexpected g infos x.
Proof.
  intros L. unfold get_parents, unexpected, ReadySpec.is_source.
  destruct (find x infos) as [i|]; [split; [discriminate | intros [N _]; destruct N; discriminate]|].
  destruct (nth_error g x) as [[ps|]|] eqn:N.
  - split; [discriminate | intros [_ E]; discriminate].
  - split; [intros _; split; [congruence | reflexivity] | auto].
  - apply nth_error_None in N. lia.
Qed.

(** Facts about memoized results that hold on every graph. *)
Record sound (M : memo_t) : Prop := {
  snd_reach : forall x a s, find x M = Some a -> In s (dependent_sources a) ->
      reach x s /\ is_source s;
  snd_ready : forall x a, find x M = Some a ->
      (is_ready a = true <-> forall s b p, In s (dependent_sources a) ->
         find s infos = Some (b, p) -> b = true);
  snd_source : forall x a, find x M = Some a -> is_source x -> In x (dependent_sources a)
}.

(** Further facts on graphs without cycles. *)
Record exact (M : memo_t) : Prop := {
  ex_parents : forall x, known M x -> exists ps, parents x = Some ps /\
      forall y, In y ps -> known M y;
  ex_sources : forall x a, find x M = Some a -> forall s, reach x s -> is_source s ->
      In s (dependent_sources a);
  ex_path : forall x a, find x M = Some a -> has_path g translate infos x (path a)
}.

Lemma find_all_spec ks (M : memo_t) rs : find_all ks M = Some rs ->
  Forall2 (fun k r => find k M = Some r) ks rs.
Proof.
  revert rs. induction ks as [|k ks IH]; intros rs; cbn; [intros [= <-]; constructor|].
  destruct (find k M) as [a|] eqn:F; [|discriminate].
  destruct (find_all ks M) as [vs|]; [|discriminate]. intros [= <-]. constructor; auto.
Qed.

Lemma find_all_known ks (M : memo_t) : (forall k, In k ks -> known M k) ->
  exists rs, find_all ks M = Some rs.
Proof.
  induction ks as [|k ks IH]; intros H; cbn; [eauto|].
  destruct IH as (rs & ->); [intros; apply H; now right|].
  specialize (H k (or_introl eq_refl)). unfold known in H.
  destruct (find k M); [eauto | congruence].
Qed.

Lemma Forall2_In_r {A B} (R : A -> B -> Prop) l l' b :
  Forall2 R l l' -> In b l' -> exists a, In a l /\ R a b.
Proof.
  induction 1 as [|x y l l' H F IH]; cbn; [tauto|].
  intros [<-|I]; [eauto|]. destruct (IH I) as (a & ? & ?). eauto.
Qed.

Lemma Forall2_In_l {A B} (R : A -> B -> Prop) l l' a :
  Forall2 R l l' -> In a l -> exists b, In b l' /\ R a b.
Proof.
  induction 1 as [|x y l l' H F IH]; cbn; [tauto|].
  intros [<-|I]; [eauto|]. destruct (IH I) as (b & ? & ?). eauto.
Qed.

Lemma find_cons x k (a : analysis P) M :
  find x ((k, a) :: M) = if Nat.eqb x k then Some a else find x M.
Proof. reflexivity. Qed.

(** Adding the result of a node computed from (some of) its parents. *)
Lemma sound_add M x ps qs rs :
  sound M -> parents x = Some ps -> incl qs ps -> find_all qs M = Some rs ->
  sound ((x, compute x rs) :: M).
Proof.
  intros S E I F. apply find_all_spec in F.
  assert (A : forall s, In s (dependent_sources (compute x rs)) -> reach x s /\ is_source s).
  { intros s. unfold compute_analysis_result.
    destruct (find x infos) as [[b p]|] eqn:FS; cbn.
    - intros [<-|[]]. split; [apply reach_refl | unfold ReadySpec.is_source; congruence].
    - intros IS. apply in_concat in IS. destruct IS as (l & L & IS).
      apply in_map_iff in L. destruct L as (r & <- & R).
      destruct (Forall2_In_r _ _ _ _ F R) as (q & Q & Fq).
      destruct (snd_reach M S q r s Fq IS) as [Rq Sq]. split; [|exact Sq].
      eapply parents_reach; eauto. }
  constructor.
  - intros y a s. rewrite find_cons. destruct (Nat.eqb_spec y x) as [->|NE].
    + intros [= <-]. apply A.
    + apply (snd_reach M S).
  - intros y a. rewrite find_cons. destruct (Nat.eqb_spec y x) as [->|NE]; [|apply (snd_ready M S)].
    intros [= <-]. unfold compute_analysis_result in *.
    destruct (find x infos) as [[b p]|] eqn:FS; cbn.
    + split.
      * intros -> s b' p' [<-|[]] E'. rewrite FS in E'. now injection E' as <- <-.
      * intros H. eapply H; eauto.
    + rewrite forallb_forall. split.
      * intros H s b p IS Fs. apply in_concat in IS. destruct IS as (l & L & IS).
        apply in_map_iff in L. destruct L as (r & <- & R).
        destruct (Forall2_In_r _ _ _ _ F R) as (q & Q & Fq).
        specialize (H r R). apply (snd_ready M S q r Fq) with (s := s) (p := p); auto.
      * intros H r R. destruct (Forall2_In_r _ _ _ _ F R) as (q & Q & Fq).
        apply (snd_ready M S q r Fq). intros s b p IS Fs. eapply H; [|exact Fs].
        apply in_concat. exists (dependent_sources r). split; [|exact IS]. now apply in_map.
  - intros y a. rewrite find_cons. destruct (Nat.eqb_spec y x) as [->|NE]; [|apply (snd_source M S)].
    intros [= <-] IS. unfold compute_analysis_result. unfold ReadySpec.is_source in IS.
    destruct (find x infos) as [[b p]|]; [now left | congruence].
Qed.

Lemma exact_add M x ps rs :
  exact M -> parents x = Some ps -> find_all ps M = Some rs -> ~ known M x ->
  exact ((x, compute x rs) :: M).
Proof.
  intros X E F NK. apply find_all_spec in F.
  assert (KK : forall y, known M y -> known ((x, compute x rs) :: M) y).
  { intros y. unfold known. rewrite find_cons. destruct (Nat.eqb y x); [discriminate | auto]. }
  assert (KP : forall y, In y ps -> known M y).
  { intros y I. destruct (Forall2_In_l _ _ _ _ F I) as (r & _ & Fy). unfold known. congruence. }
  constructor.
  - intros y. unfold known at 1. rewrite find_cons. destruct (Nat.eqb_spec y x) as [->|NE].
    + intros _. exists ps. split; [exact E|]. auto.
    + intros K. destruct (ex_parents M X y K) as (qs & Eq & H). exists qs. auto.
  - intros y a. rewrite find_cons. destruct (Nat.eqb_spec y x) as [->|NE].
    + intros [= <-] s R IS. unfold compute_analysis_result.
      destruct (find x infos) as [[b p]|] eqn:FS.
      * cbn. apply reach_inv in R. destruct R as [->|(qs & z & E' & I & R)]; [now left|].
        rewrite parents_source in E' by (unfold ReadySpec.is_source; congruence).
        injection E' as <-. destruct I.
      * cbn. apply reach_inv in R. destruct R as [->|(qs & z & E' & I & R)].
        -- exfalso. apply IS. exact FS.
        -- rewrite E in E'. injection E' as <-.
           destruct (Forall2_In_l _ _ _ _ F I) as (r & Ir & Fr).
           apply in_concat. exists (dependent_sources r). split; [now apply in_map|].
           eapply ex_sources; eauto.
    + intros Fy. eapply ex_sources; eauto.
  - intros y a. rewrite find_cons. destruct (Nat.eqb_spec y x) as [->|NE]; [|apply (ex_path M X)].
    intros [= <-]. unfold compute_analysis_result.
    destruct (find x infos) as [[b p]|] eqn:FS; cbn; [eapply path_source; eauto|].
    unfold get_parents in E. rewrite FS in E.
    destruct (nth_error g x) as [[qs|]|] eqn:N; [|discriminate|discriminate].
    injection E as ->. eapply path_node; eauto.
    clear - F X. induction F as [|q r qs rs Fq F IH]; cbn; constructor; auto.
    eapply ex_path; eauto.
Qed.

(** All memoized nodes that are new in [M'] are covered by [x]: their sources are
    sources of [x], and their parents are memoized or active. *)
Definition covered (x : nat) (A : list nat) (M M' : memo_t) : Prop :=
  exists a, find x M' = Some a /\
  forall z b, find z M' = Some b -> ~ known M z ->
    incl (dependent_sources b) (dependent_sources a) /\
    exists ps, parents z = Some ps /\ forall y, In y ps -> known M' y \/ In y A.

Definition covered_list (l : list nat) (A : list nat) (M M' : memo_t) : Prop :=
  (forall y, In y l -> known M' y) /\
  forall z b, find z M' = Some b -> ~ known M z ->
    (exists y a, In y l /\ find y M' = Some a /\
       incl (dependent_sources b) (dependent_sources a)) /\
    exists ps, parents z = Some ps /\ forall y, In y ps -> known M' y \/ In y A.

(** Nodes not yet active. *)
Definition inactive (A : list nat) : list nat :=
  filter (fun x => negb (mem x A)) (seq 0 (length g)).

Lemma filter_without (f : nat -> bool) x l :
  length (filter (fun y => negb (Nat.eqb y x) && f y) l) <= length (filter f l) /\
  (In x l -> f x = true ->
   length (filter (fun y => negb (Nat.eqb y x) && f y) l) < length (filter f l)).
Proof.
  induction l as [|a l [IH1 IH2]]; cbn [filter]; [split; [auto | intros []]|].
  destruct (Nat.eqb_spec a x) as [->|NE]; cbn [negb andb].
  - destruct (f x) eqn:F; cbn [length]; split; lia || (intros _ E; discriminate).
  - destruct (f a) eqn:F; cbn [length].
    + split; [lia|]. intros [->|I] E; [contradiction|]. specialize (IH2 I E). lia.
    + split; [lia|]. intros [->|I] E; [contradiction|]. auto.
Qed.

Lemma inactive_cons x A : x < length g -> ~ In x A ->
  length (inactive (x :: A)) < length (inactive A).
Proof.
  intros L N. unfold inactive.
  rewrite (filter_ext (fun y => negb (mem y (x :: A))) (fun y => negb (Nat.eqb y x) && negb (mem y A))).
  - apply filter_without.
    + apply in_seq. lia.
    + destruct (mem x A) eqn:E; [apply mem_In in E; contradiction | reflexivity].
  - intros y. unfold mem. cbn [existsb]. now rewrite negb_orb.
Qed.

(** The active nodes all depend on [x]. *)
Definition below (x : nat) (A : list nat) : Prop :=
  forall a, In a A -> exists ps y, parents a = Some ps /\ In y ps /\ reach y x.

Definition good_memo (x : nat) (A : list nat) (M M' : memo_t) : Prop :=
  extends M M' /\ sound M' /\ (forall a, In a A -> find a M' = find a M) /\
  (acyclic g infos -> exact M -> below x A -> exact M').

Definition outcome_ok (stack rest A : list nat) (M : memo_t) (reachable : nat -> Prop)
    (G : memo_t -> Prop) (C : memo_t -> Prop) : Prop :=
  exists k M', G M' /\
    ((C M' /\ forall f, loop (k + f) stack A M = loop f rest A M') \/
     (exists y, reachable y /\ parents y = None /\
        forall f, loop (k + f) stack A M = Some (RaisedBy y M'))).

Lemma process : forall n x A M rest,
  length (inactive A) <= n -> x < length g -> ~ In x A -> sound M ->
  outcome_ok (x :: rest) rest A M (reach x) (good_memo x A M) (covered x A M).
Proof.
  induction n as [|n IH]; intros x A M rest LE L NA SM.
  { exfalso. pose proof (inactive_cons x A L NA). lia. }
  destruct (known_dec M x) as [K|NK].
  { (* memoized *)
    exists 1, M. split; [split; [apply extends_refl|]; auto|]. left. split.
    - unfold known in K. destruct (find x M) as [a|] eqn:F; [|congruence].
      exists a. split; [exact F|]. intros z b Fz NZ. exfalso. apply NZ. unfold known. congruence.
    - intros f. cbn [Nat.add analyze_loop]. unfold known in K.
      destruct (find x M); [reflexivity | congruence]. }
  assert (FX : find x M = None) by (unfold known in NK; destruct (find x M); [exfalso; apply NK; discriminate | reflexivity]).
  destruct (parents x) as [ps|] eqn:EP.
  2:{ exists 1, M. split; [split; [apply extends_refl|]; auto|]. right. exists x.
      split; [apply reach_refl|]. split; [exact EP|].
      intros f. cbn [Nat.add analyze_loop]. now rewrite FX, EP. }
  set (A' := x :: A).
  set (qs := filter (fun p => negb (mem p A')) ps).
  assert (QS : forall q, In q qs -> In q ps /\ ~ In q A').
  { intros q Q. apply filter_In in Q. destruct Q as [Q1 Q2]. split; [exact Q1|].
    intros X. apply mem_In in X. rewrite X in Q2. discriminate. }
  assert (LA : length (inactive A') <= n).
  { pose proof (inactive_cons x A L NA). unfold A'. lia. }
  (* process the parents one after the other *)
  assert (LIST : forall l, incl l qs -> forall M, sound M -> forall rest,
    outcome_ok (l ++ rest) rest A' M (fun y => exists q, In q l /\ reach q y)
      (fun M' => extends M M' /\ sound M' /\ (forall a, In a A' -> find a M' = find a M) /\
         (acyclic g infos -> exact M -> below x A -> exact M'))
      (covered_list l A' M)).
  { clear M SM NK FX LE. induction l as [|q l IHl]; intros IQ M SM rest0.
    - exists 0, M. split; [split; [apply extends_refl|]; auto|]. left. split; [|auto].
      split; [intros y []|]. intros z b F N. exfalso. apply N. unfold known. congruence.
    - destruct (QS q (IQ q (or_introl eq_refl))) as [QP QA].
      destruct (IH q A' M (l ++ rest0)) as (k1 & M1 & (X1 & S1 & U1 & E1) & R1); auto.
      { eapply parents_range; eauto. }
      assert (EX1 : acyclic g infos -> exact M -> below x A -> exact M1).
      { intros AC EM BL. apply E1; auto. intros a [<-|I].
        - exists ps, q. repeat split; auto. apply reach_refl.
        - destruct (BL a I) as (ps' & y & EA & IY & RY). exists ps', y. repeat split; auto.
          eapply reach_trans; [exact RY|]. eapply parents_reach; eauto. apply reach_refl. }
      destruct R1 as [[C1 R1]|(y & RY & BY & R1)].
      2:{ exists k1, M1. split; [auto|]. right. exists y. split; [exists q; split; [now left | exact RY]|].
          split; [exact BY|]. intros f. cbn [app]. apply R1. }
      destruct (IHl (fun z Z => IQ z (or_intror Z)) M1 S1 rest0) as (k2 & M2 & (X2 & S2 & U2 & E2) & R2).
      exists (k1 + k2), M2. split.
      { split; [eapply extends_trans; eauto|]. split; [exact S2|]. split; [|auto].
        intros a Ia. now rewrite U2, U1. }
      destruct R2 as [[C2 R2]|(y & (q' & Q' & RY) & BY & R2)].
      2:{ right. exists y. split; [exists q'; split; [now right | exact RY]|]. split; [exact BY|].
          intros f. cbn [app]. rewrite <- Nat.add_assoc, R1. apply R2. }
      left. split.
      + destruct C1 as (a & Fq & C1). destruct C2 as [C2a C2b]. split.
        * intros y [<-|Y]; [|auto]. unfold known. rewrite (X2 q a Fq). discriminate.
        * intros z b Fz NZ. destruct (known_dec M1 z) as [KZ|NKZ].
          -- unfold known in KZ. destruct (find z M1) as [b'|] eqn:F1; [|congruence].
             assert (b' = b) by (rewrite (X2 z b' F1) in Fz; congruence). subst b'.
             destruct (C1 z b F1 NZ) as [IN (ps' & EPs & KP)]. split.
             ++ exists q, a. split; [now left|]. split; [now apply X2 | exact IN].
             ++ exists ps'. split; [exact EPs|]. intros y Y.
                destruct (KP y Y) as [KY|IY]; [left; eapply extends_known; eauto | now right].
          -- destruct (C2b z b Fz NKZ) as [(y & a' & Y & Fy & IN) PZ]. split; [|exact PZ].
             exists y, a'. split; [now right | auto].
      + intros f. cbn [app]. rewrite <- Nat.add_assoc, R1. apply R2. }
  (* last step: all parents that are not active are memoized *)
  assert (FINAL : forall M1, find x M1 = None -> extends M M1 -> sound M1 ->
     (forall a, In a A' -> find a M1 = find a M) ->
     (acyclic g infos -> exact M -> below x A -> exact M1) ->
     (forall q, In q qs -> known M1 q) ->
     exists M', good_memo x A M M' /\
       find x M' = Some (match find_all qs M1 with Some rs => compute x rs | None => compute x [] end) /\
       (forall z, z <> x -> find z M' = find z M1) /\
       forall f B, add x B = A' -> loop (S f) (x :: rest) B M1 = loop f rest A M').
  { intros M1 F1 X1 S1 U1 E1 K1. destruct (find_all_known qs M1 K1) as (rs & FA).
    exists ((x, compute x rs) :: M1). rewrite FA. split; [|split; [|split]].
    - split; [|split; [|split]].
      + intros z a Fz. rewrite find_cons. destruct (Nat.eqb_spec z x) as [->|NE]; [congruence|].
        now apply X1.
      + apply (sound_add M1 x ps qs rs); auto. intros q Q. apply (QS q Q).
      + intros a Ia. rewrite find_cons. destruct (Nat.eqb_spec a x) as [->|NE]; [contradiction|].
        apply U1. now right.
      + intros AC EM BL. specialize (E1 AC EM BL).
        assert (QSE : qs = ps).
        { assert (ALL : forall q, In q ps -> negb (mem q A') = true).
          { intros q Q. destruct (mem q A') eqn:MQ; [|reflexivity]. exfalso.
            assert (XI : exists qs', find x infos = None /\ nth_error g x = Some (Node qs') /\ qs' = ps).
            { unfold get_parents in EP. destruct (find x infos); [injection EP as <-; destruct Q|].
              destruct (nth_error g x) as [[qs'|]|]; [|discriminate|discriminate].
              injection EP as ->. eauto. }
            destruct XI as (qs' & NI & NX & ->).
            assert (RQ : reach q x).
            { apply mem_In in MQ. destruct MQ as [<-|MQ]; [apply reach_refl|].
              destruct (BL q MQ) as (ps' & y & EA & IY & RY). eapply parents_reach; eauto. }
            eapply (AC x ps q); eauto. }
          subst qs. clear - ALL. induction ps as [|p ps IHp]; cbn [filter]; [reflexivity|].
          rewrite (ALL p (or_introl eq_refl)). f_equal. apply IHp. intros q Q. apply ALL. now right. }
        rewrite QSE in FA. apply (exact_add M1 x ps rs); auto.
    - rewrite find_cons, Nat.eqb_refl. reflexivity.
    - intros z NE. rewrite find_cons. destruct (Nat.eqb_spec z x); [contradiction | reflexivity].
    - intros f B EB. cbn [analyze_loop]. rewrite F1, EB, EP. fold qs. rewrite FA.
      unfold A'. rewrite <- (add_absent x A NA), discard_add by exact NA. reflexivity. }
  (* the coverage of [x] from the coverage of its parents *)
  assert (COV : forall M1 M', find x M1 = None -> extends M M1 ->
     (find_all qs M1 <> None) ->
     find x M' = Some (match find_all qs M1 with Some rs => compute x rs | None => compute x [] end) ->
     (forall z, z <> x -> find z M' = find z M1) ->
     (forall q, In q qs -> known M1 q) ->
     (forall z b, find z M1 = Some b -> ~ known M z ->
       (exists y a, In y qs /\ find y M1 = Some a /\
          incl (dependent_sources b) (dependent_sources a)) /\
       exists ps, parents z = Some ps /\ forall y, In y ps -> known M1 y \/ In y A') ->
     covered x A M M').
  { intros M1 M' F1 X1 FA FX' FO KQ C. destruct (find_all qs M1) as [rs|] eqn:EA; [|congruence].
    exists (compute x rs). split; [exact FX'|].
    assert (KM : forall y, known M1 y \/ In y A' -> known M' y \/ In y A).
    { intros y [KY|[<-|IY]].
      - left. unfold known in *. destruct (Nat.eq_dec y x) as [->|NE]; [congruence|].
        now rewrite (FO y NE).
      - left. unfold known. congruence.
      - now right. }
    intros z b Fz NZ. destruct (Nat.eq_dec z x) as [->|NE].
    - rewrite FX' in Fz. injection Fz as <-. split; [apply incl_refl|].
      exists ps. split; [exact EP|]. intros y Y. apply KM.
      destruct (mem y A') eqn:MY; [right; now apply mem_In|]. left. apply KQ.
      apply filter_In. split; [exact Y | now rewrite MY].
    - rewrite (FO z NE) in Fz. destruct (C z b Fz NZ) as [(y & a & Y & Fy & IN) (ps' & EPz & KP)].
      split.
      + intros s IS. apply IN in IS.
        unfold compute_analysis_result. destruct (find x infos) as [i|] eqn:FI.
        * exfalso. unfold get_parents in EP. rewrite FI in EP. injection EP as <-.
          destruct (QS y Y) as [[] _].
        * cbn. apply in_concat. exists (dependent_sources a). split; [|exact IS].
          apply in_map. apply find_all_spec in EA.
          destruct (Forall2_In_l _ _ _ _ EA Y) as (r & R & Fr). rewrite Fy in Fr. now injection Fr as ->.
      + exists ps'. split; [exact EPz|]. intros w W. apply KM. auto. }
  destruct (find_all qs M) as [rs0|] eqn:FA0.
  - (* all parents known already *)
    assert (KQ : forall q, In q qs -> known M q).
    { intros q Q. apply find_all_spec in FA0. destruct (Forall2_In_l _ _ _ _ FA0 Q) as (r & _ & F).
      unfold known. congruence. }
    destruct (FINAL M FX (extends_refl M) SM (fun _ _ => eq_refl) (fun _ E _ => E) KQ) as (M' & G & FX' & FO & R).
    exists 1, M'. split; [exact G|]. left. split.
    + apply (COV M M'); auto.
      * apply extends_refl.
      * congruence.
      * intros z b Fz NZ. exfalso. apply NZ. unfold known. congruence.
    + intros f. apply R. apply add_absent. exact NA.
  - (* push the parents *)
    assert (IR : incl (rev qs) qs) by (intros q Q; now apply in_rev).
    destruct (LIST (rev qs) IR M SM (x :: rest)) as (k & M1 & (X1 & S1 & U1 & E1) & R1).
    assert (PUSH : forall f, loop (S f) (x :: rest) A M = loop f (rev qs ++ x :: rest) A' M).
    { intros f. cbn [analyze_loop]. rewrite FX, EP, (add_absent x A NA). fold A'. fold qs.
      now rewrite FA0. }
    destruct R1 as [[[C1 C2] R1]|(y & (q & Q & RY) & BY & R1)].
    2:{ exists (S k), M1. split; [split; [exact X1|]; split; [exact S1|]; split; [|exact E1]; intros a Ia; apply U1; now right|]. right. exists y. split.
        - apply in_rev in Q. eapply parents_reach; [exact EP | apply (QS q Q) | exact RY].
        - split; [exact BY|]. intros f. cbn [Nat.add]. rewrite PUSH. apply R1. }
    assert (KQ : forall q, In q qs -> known M1 q).
    { intros q Q. apply C1. apply -> in_rev. exact Q. }
    assert (F1 : find x M1 = None) by (rewrite (U1 x (or_introl eq_refl)); exact FX).
    destruct (FINAL M1 F1 X1 S1 U1 E1 KQ) as (M' & G & FX' & FO & R).
    exists (S (k + 1)), M'. split; [exact G|]. left. split.
    + apply (COV M1 M'); auto.
      * destruct (find_all_known qs M1 KQ) as (rs & ->). discriminate.
      * intros z b Fz NZ. destruct (C2 z b Fz NZ) as [(w & a & W & Fw & IN) PZ].
        split; [|exact PZ]. exists w, a. split; [now apply in_rev | auto].
    + intros f. cbn [Nat.add]. rewrite PUSH, <- Nat.add_assoc, R1. cbn [Nat.add].
      apply R. apply add_again. exact NA.
Qed.



Lemma loop_nil f A M : loop (S f) [] A M = Some (Finished M).
Proof. reflexivity. Qed.

Lemma sound_nil : sound [].
Proof. constructor; cbn; discriminate. Qed.

Lemma exact_nil : exact [].
Proof. constructor; cbn; try discriminate. intros x K. destruct K. reflexivity. Qed.

Lemma exact_closed M x y : exact M -> known M x -> reach x y -> known M y.
Proof.
  intros X K R. revert K. induction R as [|x ps y z NS N I R IH]; intros K; [exact K|].
  apply IH. destruct (ex_parents M X x K) as (qs & E & H).
  unfold get_parents in E. unfold ReadySpec.is_source in NS.
  destruct (find x infos); [exfalso; apply NS; discriminate|].
  rewrite N in E. injection E as <-. auto.
Qed.

Lemma sound_right M x a :
  sound M -> find x M = Some a ->
  (forall y, reach x y -> ~ unexpected g infos y) ->
  (forall s, reach x s -> is_source s -> In s (dependent_sources a)) ->
  right_answer g infos x (Some a).
Proof.
  intros S F NU C. split; [exact NU|].
  assert (D : forall s, In s (dependent_sources a) <-> reach x s /\ is_source s).
  { intros s. split; [apply (snd_reach M S x a s F) | intros [R IS]; auto]. }
  split; [|exact D].
  rewrite (snd_ready M S x a F). split.
  - intros H s b p R Fs. eapply H; [|exact Fs]. apply C; [exact R|].
    unfold ReadySpec.is_source. congruence.
  - intros H s b p I Fs. apply D in I. eapply H; [apply I | exact Fs].
Qed.

Lemma analyze_answer x M :
  x < length g -> sound M ->
  exists k M' r, (forall fuel, k <= fuel -> analyze_tensor g translate infos fuel M x = Some (M', r)) /\
    sound M' /\
    (acyclic g infos -> exact M -> exact M') /\
    (M = [] -> right_answer g infos x r) /\
    (acyclic g infos -> exact M -> right_answer g infos x r /\
       forall a, r = Some a -> has_path g translate infos x (path a)).
Proof.
  intros L SM.
  destruct (process (length (inactive [])) x [] M []) as (k & M' & (X & S' & _ & E) & R); auto.
  assert (EX : acyclic g infos -> exact M -> exact M').
  { intros AC EM. apply E; auto. intros a []. }
  destruct R as [[C R]|(y & RY & BY & R)].
  - destruct C as (a & F & C). exists (S k), M', (Some a). split.
    { intros fuel LE. unfold analyze_tensor. replace fuel with (k + S (fuel - S k)) by lia.
      rewrite R, loop_nil, F. reflexivity. }
    split; [exact S'|]. split; [exact EX|]. split.
    + intros ->.
      assert (K : forall y, reach x y -> known M' y).
      { assert (G : forall z y, reach z y -> known M' z -> known M' y).
        { intros z y Rz. induction Rz as [|z ps y w NS N I Rw IH]; intros K; [exact K|]. apply IH.
          unfold known in K. destruct (find z M') as [b|] eqn:Fz; [|congruence].
          destruct (C z b Fz) as [_ (qs & EQ & KP)]; [intros KN; apply KN; reflexivity|].
          unfold get_parents in EQ. unfold ReadySpec.is_source in NS.
          destruct (find z infos); [exfalso; apply NS; discriminate|].
          rewrite N in EQ. injection EQ as <-. destruct (KP y I) as [KY|[]]. exact KY. }
        intros y Ry. apply (G x y Ry). unfold known. congruence. }
      apply (sound_right M'); auto.
      * intros y Ry U. specialize (K y Ry). unfold known in K.
        destruct (find y M') as [b|] eqn:Fy; [|congruence].
        destruct (C y b Fy) as [_ (qs & EQ & _)]; [intros KN; apply KN; reflexivity|].
        destruct U as [NS N]. unfold get_parents in EQ. unfold ReadySpec.is_source in NS.
        destruct (find y infos); [apply NS; discriminate|]. rewrite N in EQ. discriminate.
      * intros s Rs IS. specialize (K s Rs). unfold known in K.
        destruct (find s M') as [b|] eqn:Fs; [|congruence].
        destruct (C s b Fs) as [IN _]; [intros KN; apply KN; reflexivity|].
        apply IN. eapply snd_source; eauto.
    + intros AC EM. specialize (EX AC EM). split.
      * apply (sound_right M'); auto.
        -- intros y Ry U.
           assert (K : known M' y) by (eapply exact_closed; [exact EX| |exact Ry]; unfold known; congruence).
           destruct (ex_parents M' EX y K) as (qs & EQ & _).
           destruct U as [NS N]. unfold get_parents in EQ. unfold ReadySpec.is_source in NS.
           destruct (find y infos); [apply NS; discriminate|]. rewrite N in EQ. discriminate.
        -- intros s Rs IS. eapply (ex_sources M' EX); eauto.
      * intros a' [= <-]. apply (ex_path M' EX x a F).
  - assert (LY : y < length g).
    { clear - RY L CG. induction RY as [|x ps y z NS N I R IH]; [exact L|]. apply IH.
      eapply CG; eauto. }
    assert (RA : right_answer g infos x None).
    { exists y. split; [exact RY|]. now apply parents_none. }
    exists (S k), M', None. split.
    { intros fuel LE. unfold analyze_tensor. replace fuel with (k + S (fuel - S k)) by lia.
      now rewrite R. }
    split; [exact S'|]. split; [exact EX|]. split; [auto|].
    intros _ _. split; [exact RA | discriminate].
Qed.

(** Any number of earlier queries. *)
Lemma analyze_history xs : (forall x, In x xs -> x < length g) ->
  forall M, sound M ->
  exists k M', (forall fuel, k <= fuel -> analyze_tensors g translate infos fuel M xs = Some M') /\
    sound M' /\ (acyclic g infos -> exact M -> exact M').
Proof.
  induction xs as [|x xs IH]; intros L M S.
  - exists 0, M. split; [reflexivity | auto].
  - destruct (analyze_answer x M) as (k1 & M1 & r & R1 & S1 & E1 & _); auto.
    { apply L. now left. }
    destruct (IH (fun y Y => L y (or_intror Y)) M1 S1) as (k2 & M2 & R2 & S2 & E2).
    exists (k1 + k2), M2. split; [|auto].
    intros fuel LE. cbn [analyze_tensors]. rewrite R1 by lia. apply R2. lia.
Qed.

(** On a graph without cycles every query is answered rightly after any history. *)
Lemma analyze_acyclic history x :
  acyclic g infos -> (forall y, In y history -> y < length g) -> x < length g ->
  exists k M M' r, (forall fuel, k <= fuel ->
      analyze_tensors g translate infos fuel [] history = Some M /\
      analyze_tensor g translate infos fuel M x = Some (M', r)) /\
    right_answer g infos x r /\
    forall a, r = Some a -> has_path g translate infos x (path a).
Proof.
  intros AC LH LX.
  destruct (analyze_history history LH [] sound_nil) as (k1 & M & R1 & S1 & E1).
  destruct (analyze_answer x M LX S1) as (k2 & M' & r & R2 & S2 & E2 & _ & A).
  exists (k1 + k2), M, M', r. split.
  - intros fuel LE. split; [apply R1 | apply R2]; lia.
  - apply A; auto using exact_nil.
Qed.

(** On every graph the first query is answered rightly. *)
Lemma analyze_first x : x < length g ->
  exists k M' r, (forall fuel, k <= fuel -> analyze_tensor g translate infos fuel [] x = Some (M', r)) /\
    right_answer g infos x r.
Proof.
  intros L. destruct (analyze_answer x [] L sound_nil) as (k & M' & r & R & _ & _ & A & _).
  exists k, M', r. auto.
Qed.

(** On every graph and after any history, queries terminate, report only
    sources that are reachable, and never call a tensor unready without cause. *)
Lemma analyze_any history x :
  (forall y, In y history -> y < length g) -> x < length g ->
  exists k M M' r, (forall fuel, k <= fuel ->
      analyze_tensors g translate infos fuel [] history = Some M /\
      analyze_tensor g translate infos fuel M x = Some (M', r)) /\
    forall a, r = Some a ->
      (forall s, In s (dependent_sources a) -> reach x s /\ is_source s) /\
      (is_ready a = false -> exists s p, reach x s /\ find s infos = Some (false, p)).
Proof.
  intros LH LX.
  destruct (analyze_history history LH [] sound_nil) as (k1 & M & R1 & S1 & _).
  destruct (process (length (inactive [])) x [] M []) as (k2 & M' & (X & S' & _ & _) & R); auto.
  destruct R as [[C R]|(y & RY & BY & R)].
  - destruct C as (a & F & C).
    exists (k1 + S k2), M, M', (Some a). split.
    { intros fuel LE. split; [apply R1; lia|]. unfold analyze_tensor.
      replace fuel with (k2 + S (fuel - S k2)) by lia. rewrite R, loop_nil, F. reflexivity. }
    intros a' [= <-]. split; [intros s; apply (snd_reach M' S' x a s F)|].
    intros RF.
    destruct (forallb (fun s => match find s infos with Some (b, _) => b | None => true end)
                (dependent_sources a)) eqn:FB.
    + exfalso. rewrite forallb_forall in FB.
      assert (is_ready a = true); [|congruence].
      apply (snd_ready M' S' x a F). intros s b p I Fs. specialize (FB s I). now rewrite Fs in FB.
    + assert (EX : exists s, In s (dependent_sources a) /\
          match find s infos with Some (b, _) => b | None => true end = false).
      { clear - FB. induction (dependent_sources a) as [|s l IH]; [discriminate|]. cbn in FB.
        destruct (match find s infos with Some (b, _) => b | None => true end) eqn:Q.
        - destruct (IH FB) as (t & ? & ?). exists t. split; [now right | auto].
        - exists s. split; [now left | exact Q]. }
      destruct EX as (s & I & Q). destruct (snd_reach M' S' x a s F I) as [Rs _].
      destruct (find s infos) as [[b p]|] eqn:Fs; [|discriminate]. subst b. eauto.
  - exists (k1 + S k2), M, M', None. split; [|discriminate].
    intros fuel LE. split; [apply R1; lia|]. unfold analyze_tensor.
    replace fuel with (k2 + S (fuel - S k2)) by lia. now rewrite R.
Qed.

End Proofs.
