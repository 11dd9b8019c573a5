From Coq Require Import String Ascii List Bool Arith Lia.
From Verif Require Import PreModel PreSpec PreProofs.
Import ListNotations.

Lemma get_in {A} (d : list (string * A)) k a : dict_get d k = Some a -> In (k, a) d.
Proof.
  induction d as [|[k' a'] d IH]; cbn; [discriminate|]. destruct (String.eqb_spec k' k) as [->|]; [intros [= ->]; auto|auto].
Qed.
Lemma in_get {A} (d : list (string * A)) k a : NoDup (map fst d) -> In (k, a) d -> dict_get d k = Some a.
Proof.
  induction d as [|[k' a'] d IH]; cbn; [intros _ []|]. intros ND [E|I].
  - injection E as -> ->. rewrite String.eqb_refl. reflexivity.
  - inversion ND as [|? ? NI ND']; subst. destruct (String.eqb_spec k' k) as [->|]; [|auto]. destruct NI. apply (in_map fst) in I. exact I.
Qed.

Lemma same_keys_spec {A B} (a : list (string * A)) (b : list (string * B)) :
  same_keys a b = true <-> forall k, In k (map fst a) <-> In k (map fst b).
Proof.
  unfold same_keys. rewrite andb_true_iff, !forallb_forall. split.
  - intros [H G] k. split; intro I; apply mem_string; auto.
  - intro H. split; intros k I; apply mem_string; apply H; exact I.
Qed.

Section saved.
  Variables O V : Type.
  Variable run : O -> list V -> V.
  Variable m : saved_model O V.
  Variable inputs : given.
  Hypothesis dict : match inputs with Dict d => NoDup (map fst d) | Single _ => True end.

  Lemma signature_spec sn s : NoDup (map fst (m_signatures O V m)) ->
    choose_signature O V m sn = Ok s -> asked O V m sn s \/ s = Signature [] [].
  Proof.
    intro ND. unfold choose_signature, asked.
    assert (D : forall sn', match m_signatures O V m with [] => Err StopIteration | [(_, s0)] => Ok s0 | _ => Err ValueError end = Ok s ->
      (sn' = None \/ sn' = Some EmptyString) -> (exists n, sn' = Some n /\ n <> EmptyString /\ In (n, s) (m_signatures O V m)) \/
      ((sn' = None \/ sn' = Some EmptyString) /\ exists n, m_signatures O V m = [(n, s)])).
    { intros sn' H K. right. split; [exact K|]. destruct (m_signatures O V m) as [|[n s'] [|]]; try discriminate. injection H as ->. eauto. }
    destruct sn as [[|c n]|]; intro H; [left; apply D; auto| |left; apply D; auto].
    destruct (dict_get _ _) as [s'|] eqn:E; injection H as <-; [|right; reflexivity]. left. left. exists (String c n). split; [reflexivity|].
    split; [discriminate|]. apply get_in, E.
  Qed.

  Lemma asked_chosen sn s : NoDup (map fst (m_signatures O V m)) -> asked O V m sn s -> choose_signature O V m sn = Ok s.
  Proof.
    intros ND [(n & -> & N & I)|([-> | ->] & n & E)]; unfold choose_signature.
    - destruct n as [|c n]; [contradiction|]. rewrite (in_get _ _ _ ND I). reflexivity.
    - rewrite E. reflexivity.
    - rewrite E. reflexivity.
  Qed.

  Lemma input_map_ok s im : proper s -> make_input_map s inputs = Ok im ->
    NoDup (map fst im) /\ (forall k t, In (k, t) im <-> feeds s inputs k t) /\ (forall k, In k (map snd (s_inputs s)) <-> In k (map fst im)).
  Proof.
    intros (N1 & N2 & _) H. unfold feeds. destruct inputs as [u|d]; cbn in H.
    - destruct (s_inputs s) as [|[key name] [|]] eqn:E; try discriminate. injection H as <-. cbn. split; [constructor; [intros []|constructor]|].
      split; [|intro k; tauto]. intros k t. split.
      + intros [[= <- <-]|[]]. exists key. auto.
      + intros (key' & [[= <- <-]|[]] & ->). auto.
    - unfold assert in H. destruct (same_keys (s_inputs s) d) eqn:K; [|discriminate]. cbn [bind] in H.
      destruct (all_some _) as [im'|] eqn:A; [|discriminate]. injection H as <-. apply all_some_map in A.
      assert (F : Forall2 (fun kt nt => In (fst kt, fst nt) (s_inputs s) /\ snd nt = snd kt) d im').
      { eapply f2_impl; [|exact A]. intros [key t] [n t'] _ H. cbn in *. destruct (dict_get _ _) as [n'|] eqn:G; [|discriminate]. injection H as -> ->.
        split; [apply get_in, G|reflexivity]. }
      clear A. rewrite same_keys_spec in K. split.
      + clear K. revert dict. induction F as [|[key t] [n t'] d im' [F1 F2] F IH]; cbn; [constructor|]. intro D. inversion D as [|? ? NI ND]; subst.
        constructor; [|apply IH, ND]. intro I. apply in_map_iff in I as ([n' t''] & E & I). cbn in E. subst n'.
        destruct (f2_nth _ _ _ F _ I) as ([key' t3] & I' & H1 & _). cbn in *.
        assert (key = key').
        { clear - N2 F1 H1. induction (s_inputs s) as [|[k0 n0] l IH]; [destruct F1|]. cbn in N2. inversion N2 as [|? ? NI ND]; subst.
          destruct F1 as [[= -> ->]|F1], H1 as [[= E1]|H1].
          - congruence.
          - destruct NI. apply (in_map snd) in H1. exact H1.
          - subst. destruct NI. apply (in_map snd) in F1. exact F1.
          - apply IH; assumption. }
        subst key'. destruct NI. apply (in_map fst) in I'. exact I'.
      + assert (EQ : forall k t, In (k, t) im' <-> exists key, In (key, k) (s_inputs s) /\ In (key, t) d).
        { intros k t. split.
          - intro I. destruct (f2_nth _ _ _ F _ I) as ([key t'] & I' & H1 & H2). cbn in *. subst t'. eauto.
          - intros (key & I & J). destruct (f2_fwd _ _ _ F _ J) as ([n t'] & I' & H1 & H2). cbn in *. subst t'.
            assert (n = k) as ->; [|exact I']. pose proof (in_get _ _ _ N1 I). pose proof (in_get _ _ _ N1 H1). congruence. }
        split; [exact EQ|]. intro k. split; intro I.
        * apply in_map_iff in I as ([key n] & E & I). cbn in E. subst n. assert (In key (map fst d)) as J by (apply K; apply (in_map fst) in I; exact I).
          apply in_map_iff in J as ([key' t] & E & J). cbn in E. subst key'. apply in_map_iff. exists (k, t). split; [reflexivity|]. apply EQ. eauto.
        * apply in_map_iff in I as ([k' t] & E & I). cbn in E. subst k'. apply EQ in I as (key & I & _). apply in_map_iff. exists (key, k). auto.
  Qed.

  Lemma outputs_spec s ok names single : choose_outputs s ok = Ok (names, single) -> wanted s ok names single.
  Proof.
    unfold choose_outputs, wanted.
    assert (D : forall ok', match s_outputs s with [(_, name)] => Ok ([name], true) | _ => Err ValueError end = Ok (names, single) ->
      (ok' = None \/ ok' = Some []) -> (exists keys, ok' = Some keys /\ keys <> [] /\ single = false /\ Forall2 (fun key name => In (key, name) (s_outputs s)) keys names) \/
      ((ok' = None \/ ok' = Some []) /\ single = true /\ exists key name, s_outputs s = [(key, name)] /\ names = [name])).
    { intros ok' H K. right. split; [exact K|]. destruct (s_outputs s) as [|[n t] [|]]; try discriminate. injection H as <- <-. eauto. }
    destruct ok as [[|k keys]|]; intro H; [apply D; auto| |apply D; auto]. left. exists (k :: keys). split; [reflexivity|]. split; [discriminate|].
    destruct (all_some _) as [l|] eqn:A; [|discriminate]. injection H as <- <-. split; [reflexivity|]. apply all_some_map in A.
    eapply f2_impl; [|exact A]. intros a b _ E. apply get_in, E.
  Qed.

  Lemma wanted_chosen s ok names single : proper s -> wanted s ok names single -> choose_outputs s ok = Ok (names, single).
  Proof.
    intros (_ & _ & N3) [(keys & -> & NE & -> & F)|([-> | ->] & -> & key & name & E & ->)]; unfold choose_outputs.
    - destruct keys as [|k keys]; [contradiction|]. assert (A : Forall2 (fun a b => dict_get (s_outputs s) a = Some b) (k :: keys) names).
      { eapply f2_impl; [|exact F]. intros a b _ I. apply in_get; assumption. }
      apply all_some_map in A. rewrite A. reflexivity.
    - rewrite E. reflexivity.
    - rewrite E. reflexivity.
  Qed.

  Lemma f2_app_split {A B} (R : A -> B -> Prop) l1 l2 r : Forall2 R (l1 ++ l2) r -> Forall2 R l1 (firstn (length l1) r) /\ Forall2 R l2 (skipn (length l1) r).
  Proof.
    revert r. induction l1 as [|a l1 IH]; cbn; intros r H; [split; [constructor|exact H]|]. inversion H; subst. cbn. destruct (IH _ H4). split; [constructor|]; assumption.
  Qed.

  (** What an element returned by the import means. *)
  Definition stands_for (s : signature) (e : expr O V tensor) (out : imported O V) : Prop :=
    forall outer leaf v, (forall k t, feeds s inputs k t -> leaf k = outer t) -> (forall k, (forall t, ~ feeds s inputs k t) -> leaf k = None) ->
      (has_value O V run outer out v <-> computes O V run leaf (m_variables O V m) e v).

  Lemma element_ok s im e e' out : NoDup (map fst im) -> (forall k t, In (k, t) im <-> feeds s inputs k t) ->
    freeze O V (m_variables O V m) e = Some e' -> subst O V (fun t => Some (renaming im t)) e' = Some out -> stands_for s e out.
  Proof.
    intros ND EQ F S outer leaf v L1 L2. rewrite (import_value O V run outer im _ _ v S). rewrite <- (computes_freeze O V run _ _ _ _ _ F).
    apply computes_ext; [|reflexivity]. intros k _. destruct (map_get (rev im) k) as [t|] eqn:G.
    - apply map_get_in in G. rewrite <- in_rev in G. symmetry. apply L1, EQ, G.
    - symmetry. apply L2. intros t T. apply EQ in T.
      assert (map_get (rev im) k = Some t); [|congruence]. apply map_get_unique; [rewrite map_rev; apply NoDup_rev, ND|rewrite <- in_rev; exact T].
  Qed.

  Lemma saved_ok sn ok single outs inits : apply_saved_model O V m inputs sn ok = Ok (single, outs, inits) <->
    exists s im names ots cg r, choose_signature O V m sn = Ok s /\ make_input_map s inputs = Ok im /\ choose_outputs s ok = Ok (names, single) /\
      Forall2 (fun n e => m_tensor O V m n = Some e) names ots /\ Forall2 (fun e e' => freeze O V (m_variables O V m) e = Some e') (ots ++ m_initializers O V m) cg /\
      import_graph_def O V cg im = Ok r /\ outs = firstn (length names) r /\ inits = skipn (length names) r.
  Proof.
    unfold apply_saved_model. split.
    - destruct (choose_signature O V m sn) as [s|]; [|discriminate]. cbn [bind]. destruct (make_input_map s inputs) as [im|] eqn:E1; [|discriminate]. cbn [bind].
      destruct (choose_outputs s ok) as [[names sg]|] eqn:E2; [|discriminate]. cbn [bind].
      destruct (all_some (map (m_tensor O V m) names)) as [ots|] eqn:E3; [|discriminate]. cbn [of_option bind].
      destruct (all_some (map _ (ots ++ _))) as [cg|] eqn:E4; [|discriminate]. cbn [of_option bind].
      destruct (import_graph_def _ _ _ _) as [r|] eqn:E5; [|discriminate]. cbn [bind]. intros [= <- <- <-].
      apply all_some_map in E3, E4. exists s, im, names, ots, cg, r. auto 10.
    - intros (s & im & names & ots & cg & r & -> & E1 & E2 & E3 & E4 & E5 & -> & ->). cbn [bind]. rewrite E1. cbn [bind]. rewrite E2. cbn [bind].
      apply all_some_map in E3, E4. rewrite E3. cbn [of_option bind]. rewrite E4. cbn [of_option bind]. rewrite E5. reflexivity.
  Qed.

  Lemma saved_sound sn ok single outs inits : NoDup (map fst (m_signatures O V m)) -> (forall n s, In (n, s) (m_signatures O V m) -> proper s) ->
    apply_saved_model O V m inputs sn ok = Ok (single, outs, inits) ->
    exists s names, asked O V m sn s /\ wanted s ok names single /\
      Forall2 (fun n out => exists e, m_tensor O V m n = Some e /\ stands_for s e out) names outs /\
      Forall2 (stands_for s) (m_initializers O V m) inits.
  Proof.
    intros ND PR A. apply saved_ok in A as (s & im & names & ots & cg & r & E0 & E1 & E2 & E3 & E4 & E5 & -> & ->).
    apply signature_spec in E0; [|exact ND]. pose proof (outputs_spec _ _ _ _ E2) as W.
    destruct E0 as [AS| ->].
    2: { destruct W as [(keys & _ & NE & _ & F)|(_ & _ & key & name & E & _)]; [|discriminate E]. destruct F as [|a b l l' H]; [contradiction|destruct H]. }
    assert (P : proper s) by (destruct AS as [(n & _ & _ & I)|(_ & n & E)]; [eapply PR; exact I|apply (PR n); rewrite E; left; reflexivity]).
    destruct (input_map_ok _ _ P E1) as (N & EQ & _). apply import_spec in E5 as [_ E5].
    pose proof (f2_trans _ _ _ _ _ E4 E5) as F. apply f2_app_split in F as [F1 F2].
    assert (LN : length names = length ots) by (clear - E3; induction E3; cbn; congruence). rewrite LN.
    exists s, names. split; [exact AS|]. split; [exact W|]. split.
    - eapply f2_impl; [|exact (f2_trans _ _ _ _ _ E3 F1)]. intros n out _ (e & T & e' & H1 & H2). exists e. split; [exact T|]. exact (element_ok s im e e' out N EQ H1 H2).
    - eapply f2_impl; [|exact F2]. intros e out _ (e' & H1 & H2). exact (element_ok s im e e' out N EQ H1 H2).
  Qed.

  Lemma saved_runs sn ok s names single : NoDup (map fst (m_signatures O V m)) -> proper s ->
    asked O V m sn s -> wanted s ok names single ->
    match inputs with Single _ => length (s_inputs s) = 1 | Dict d => forall key, In key (map fst (s_inputs s)) <-> In key (map fst d) end ->
    (forall n, In n names -> m_tensor O V m n <> None) ->
    let elements := fun e => (exists n, In n names /\ m_tensor O V m n = Some e) \/ In e (m_initializers O V m) in
    (forall e n, elements e -> mentions_var O V n e -> m_variables O V m n <> None) ->
    (forall key k, In (key, k) (s_inputs s) -> exists e, elements e /\ mentions O V k e) ->
    exists outs inits, apply_saved_model O V m inputs sn ok = Ok (single, outs, inits).
  Proof.
    intros ND P AS W HI HT elements HV HM. apply asked_chosen in AS; [|exact ND].
    assert (exists im, make_input_map s inputs = Ok im) as (im & E1).
    { unfold make_input_map, assert. destruct inputs as [u|d].
      - destruct (s_inputs s) as [|[key name] [|]]; try discriminate HI. eexists. reflexivity.
      - replace (same_keys (s_inputs s) d) with true by (symmetry; apply same_keys_spec, HI). cbn [bind].
        assert (exists im, Forall2 (fun kt nt => option_map (fun name => (name, snd kt)) (dict_get (s_inputs s) (fst kt)) = Some nt) d im) as (im & F).
        { assert (H : forall kt, In kt d -> exists n, dict_get (s_inputs s) (fst kt) = Some n).
          { intros [key t] I. cbn. assert (J : In key (map fst (s_inputs s))) by (apply HI; apply (in_map fst) in I; exact I).
            apply in_map_iff in J as ([key' n] & E & J). cbn in E. subst key'. exists n. apply in_get; [apply P|exact J]. }
          clear - H. induction d as [|kt d IH]; [exists []; constructor|]. destruct (H kt (or_introl eq_refl)) as (n & E).
          destruct IH as (im & F); [intros kt' I; apply H; right; exact I|]. exists ((n, snd kt) :: im). constructor; [rewrite E; reflexivity|exact F]. }
        apply all_some_map in F. rewrite F. eexists. reflexivity. }
    pose proof (wanted_chosen _ _ _ _ P W) as E2.
    assert (exists ots, Forall2 (fun n e => m_tensor O V m n = Some e) names ots) as (ots & E3).
    { clear - HT. induction names as [|n names IH]; [exists []; constructor|]. destruct (m_tensor O V m n) as [e|] eqn:E; [|destruct (HT n (or_introl eq_refl)); exact E].
      destruct IH as (ots & F); [intros n' I; apply HT; right; exact I|]. exists (e :: ots). constructor; assumption. }
    assert (EL : forall e, In e (ots ++ m_initializers O V m) <-> elements e).
    { intro e. rewrite in_app_iff. unfold elements. split; intros [I|I]; auto.
      - left. apply (f2_nth _ _ _ E3 e I).
      - left. destruct I as (n & I & E). destruct (f2_fwd _ _ _ E3 n I) as (e' & I' & E'). congruence. }
    assert (exists cg, Forall2 (fun e e' => freeze O V (m_variables O V m) e = Some e') (ots ++ m_initializers O V m) cg) as (cg & E4).
    { assert (H : forall e, In e (ots ++ m_initializers O V m) -> exists e', freeze O V (m_variables O V m) e = Some e').
      { intros e I. apply freeze_total. intros n M. apply (HV e n); [apply EL, I|exact M]. }
      clear - H. induction (ots ++ m_initializers O V m) as [|e l IH]; [exists []; constructor|]. destruct (H e (or_introl eq_refl)) as (e' & E).
      destruct IH as (cg & F); [intros e'' I; apply H; right; exact I|]. exists (e' :: cg). constructor; assumption. }
    destruct (import_total O V cg im) as (r & E5).
    { intros k t I. destruct (input_map_ok _ _ P E1) as (_ & EQ & _). apply EQ in I as (key & I & _). destruct (HM key k I) as (e & E & M).
      apply EL in E. destruct (f2_fwd _ _ _ E4 e E) as (e' & E' & F). exists e'. split; [exact E'|]. apply leaves_mentions. rewrite (freeze_leaves _ _ _ _ _ F).
      apply leaves_mentions, M. }
    do 2 eexists. apply saved_ok. exists s, im, names, ots, cg, r. auto 10.
  Qed.
End saved.
