(** * Proofs: evaluation in a saved model *)
From Coq Require Import List Arith Bool Lia Permutation.
From Verif Require Import ReadyModel ReadySpec ReadyProofs TablesProofs PhaseModel PhaseSpec
  PhaseProofs FullPassModel FullPassSpec.
Import ListNotations.

(** Induction along the parents, in a finite graph without cycles. *)
Lemma acyclic_ind {P} (g : tf_graph) (infos : list (nat * (bool * P))) (Pr : nat -> Prop) :
  closed_graph g -> acyclic g infos ->
  (forall x, x < length g ->
     (forall ps y, ~ is_source infos x -> nth_error g x = Some (Node ps) -> In y ps -> Pr y) -> Pr x) ->
  forall x, x < length g -> Pr x.
Proof.
  intros CG AC STEP.
  assert (H : forall n A x, NoDup A -> incl A (seq 0 (length g)) ->
    (forall a, In a A -> exists ps y, ~ is_source infos a /\ nth_error g a = Some (Node ps) /\
                              In y ps /\ reach g infos y x) ->
    length g <= length A + n -> x < length g -> Pr x).
  { induction n as [|n IH]; intros A x ND INC UP LEN LX.
    - exfalso. assert (NA : ~ In x A).
      { intros IA. destruct (UP x IA) as (ps & y & NS & N & IY & R). exact (AC x ps y NS N IY R). }
      assert (L : length (x :: A) <= length (seq 0 (length g))).
      { apply NoDup_incl_length; [constructor; assumption|].
        intros z [<-|Z]; [apply in_seq; lia | auto]. }
      rewrite seq_length in L. cbn in L. lia.
    - apply STEP; [exact LX|]. intros ps y NS N IY.
      assert (NA : ~ In x A).
      { intros IA. destruct (UP x IA) as (ps' & y' & NS' & N' & IY' & R). exact (AC x ps' y' NS' N' IY' R). }
      apply (IH (x :: A)).
      + now constructor.
      + intros z [<-|Z]; [apply in_seq; lia | auto].
      + intros a [<-|IA].
        * exists ps, y. repeat split; auto. apply reach_refl.
        * destruct (UP a IA) as (ps' & y' & NS' & N' & IY' & R). exists ps', y'. repeat split; auto.
          eapply reach_trans; [exact R|]. eapply reach_step; eauto. apply reach_refl.
      + cbn. lia.
      + eapply CG; eauto. }
  intros x LX. apply (H (length g) [] x); auto.
  - constructor.
  - intros z [].
  - intros a [].
Qed.

(** One bound for all the nodes. *)
Lemma bounded_max (n : nat) (Q : nat -> nat -> Prop) :
  (forall x k k', k <= k' -> Q x k -> Q x k') ->
  (forall x, x < n -> exists k, Q x k) -> exists k, forall x, x < n -> Q x k.
Proof.
  intros MON. induction n as [|n IH]; intros H.
  - exists 0. intros x X. lia.
  - destruct IH as (k & K); [intros x X; apply H; lia|].
    destruct (H n ltac:(lia)) as (k' & K'). exists (k + k'). intros x X.
    destruct (Nat.eq_dec x n) as [->|NE].
    + apply (MON n k'); [lia | exact K'].
    + apply (MON x k); [lia | apply K; lia].
Qed.

Lemma all_some_ok {A B} (f : A -> option B) (R : A -> B -> Prop) l :
  (forall a, In a l -> exists b, f a = Some b /\ R a b) ->
  exists bs, all_some f l = Some bs /\ Forall2 R l bs.
Proof.
  induction l as [|a l IH]; intros H.
  - exists []. split; [reflexivity | constructor].
  - destruct (H a (or_introl eq_refl)) as (b & E & Rb).
    destruct (IH (fun x X => H x (or_intror X))) as (bs & E' & F).
    exists (b :: bs). cbn [all_some]. rewrite E, E'. split; [reflexivity | now constructor].
Qed.

Lemma all_some_ext {A B} (f f' : A -> option B) l :
  (forall a, In a l -> f a = f' a) -> all_some f l = all_some f' l.
Proof.
  induction l as [|a l IH]; intros H; [reflexivity|]. cbn [all_some].
  rewrite (H a (or_introl eq_refl)), (IH (fun x X => H x (or_intror X))). reflexivity.
Qed.

Lemma permuted_rows {A B} (R : A -> B -> Prop) l l' rows :
  Permutation l l' -> Forall2 R l rows -> exists rows', Forall2 R l' rows' /\ Permutation rows rows'.
Proof.
  intros PM. revert rows. induction PM as [|x l l' PM IH|x y l|l l' l'' PM1 IH1 PM2 IH2]; intros rows F.
  - exists rows. split; auto.
  - inversion F as [|? b ? bs Rb Fs]; subst. destruct (IH bs Fs) as (bs' & F' & PM').
    exists (b :: bs'). split; constructor; auto.
  - inversion F as [|? b ? bs Rb Fs]; subst. inversion Fs as [|? c ? cs Rc Fc]; subst.
    exists (c :: b :: cs). split; [repeat constructor; auto | apply perm_swap].
  - destruct (IH1 rows F) as (r1 & F1 & P1). destruct (IH2 r1 F1) as (r2 & F2 & P2).
    exists r2. split; [exact F2|]. eapply perm_trans; eauto.
Qed.

Section Run.
Context {P V : Type}.
Variable g : tf_graph.
Variable inputs : list (nat * P).
Variable tables : list table.
Variable sinks : list sink.
Variable p0 : P.
Hypothesis AN : analyzable g inputs tables sinks.

Variable node_value : nat -> list V -> V.
Variable table_contents : nat -> list V -> V.
Variable analyzer : nat -> list (list V) -> V.
Variable m : mode (V := V).
Variable dataset : list (list (nat * V)).

Notation replaced := (replaced_tensors sinks).
Notation eval := (eval g node_value m sinks).
Notation means := (means g node_value table_contents analyzer tables sinks dataset).
Notation needs := (needs g inputs replaced tables).
Notation feeds := (feeds g inputs replaced tables).

Lemma replaced_keys : map fst replaced = map sink_tensor sinks.
Proof. unfold replaced_tensors. rewrite map_map. reflexivity. Qed.

Lemma replaced_sink x : is_replaced replaced x <-> In x (map sink_tensor sinks).
Proof.
  unfold is_replaced. rewrite <- replaced_keys. pose proof (find_none x replaced) as H.
  split.
  - intros NN. destruct (in_dec Nat.eq_dec x (map fst replaced)) as [I|NI]; [exact I|].
    apply H in NI. congruence.
  - intros I E. apply H in E. auto.
Qed.

Lemma is_sink x : existsb (fun k => Nat.eqb (sink_tensor k) x) sinks = true <-> is_replaced replaced x.
Proof.
  rewrite replaced_sink, existsb_exists, in_map_iff. split; intros (k & A & B); exists k.
  - apply Nat.eqb_eq in B. auto.
  - split; [exact B|]. now apply Nat.eqb_eq.
Qed.

Definition provided (x : nat) : Prop :=
  forall y, feeds x y -> ~ not_provided g inputs replaced tables y.

(** The environment has what [x] is fed with, and it is right. *)
Definition env_fits (c : option (list (nat * V))) (env : list (nat * V)) (x : nat) : Prop :=
  forall s, feeds x s ->
    (is_input inputs s \/ is_replaced replaced s \/ is_table tables s -> exists v, find s env = Some v) /\
    (forall v, find s env = Some v -> means c s v).

(** Enough fuel for the tensor [x]. *)
Definition enough_for (x K : nat) : Prop :=
  forall fuel env, K <= fuel ->
    (forall c, env_fits c env x -> provided x ->
       exists v, eval fuel env x = Some v /\ means c x v) /\
    ((exists temporary, m = Tf2 temporary) ->
       (forall s, feeds x s -> is_input inputs s \/ is_table tables s -> find s env <> None) ->
       provided x -> exists v, eval fuel env x = Some v).

(** Enough fuel for every tensor of the graph. *)
Definition enough (K : nat) : Prop := forall x, x < length g -> enough_for x K.

Lemma table_dec x : {is_table tables x} + {~ is_table tables x}.
Proof.
  destruct (in_dec Nat.eq_dec x (map table_op tables)) as [I|NI].
  - left. apply in_map_iff in I. destruct I as (t & E & T). exists t. auto.
  - right. intros (t & T & E). apply NI, in_map_iff. exists t. auto.
Qed.

Lemma source_cases x :
  (is_input inputs x \/ is_replaced replaced x \/ is_table tables x) \/
  (~ is_input inputs x /\ ~ is_replaced replaced x /\ ~ is_table tables x).
Proof.
  unfold is_input, is_replaced. destruct (find x inputs); [left; left; congruence|].
  destruct (find x replaced); [left; right; left; congruence|].
  destruct (table_dec x); [left; right; right; assumption|]. right. repeat split; auto.
Qed.

Lemma enough_fuel : exists K, enough K.
Proof.
  apply (bounded_max (length g) enough_for).
  { intros x k k' LE H fuel env LF. apply H. lia. }
  apply (acyclic_ind g (replaced_infos p0 replaced)).
  { apply (an_closed _ _ _ _ AN). } { apply (an_acyclic _ _ _ _ AN). }
  intros x LX IH.
  assert (D : (exists ps, ~ is_replaced replaced x /\ nth_error g x = Some (Node ps)) \/
              (is_replaced replaced x \/ nth_error g x = Some Unexpected)).
  { unfold is_replaced. destruct (find x replaced); [right; left; congruence|].
    destruct (nth_error g x) as [[ps|]|] eqn:N; [left; exists ps; split; auto| auto |].
    apply nth_error_None in N. lia. }
  destruct D as [(ps & NR & N)|D].
  - assert (B : exists K, forall y, In y ps -> enough_for y K).
    { assert (IH' : forall y, In y ps -> exists K, enough_for y K).
      { intros y IY. eapply IH; eauto. rewrite source0. exact NR. }
      clear - IH'. induction ps as [|a ps IHp].
      - exists 0. intros y [].
      - destruct IHp as (K & HK); [intros y Y; apply IH'; now right|].
        destruct (IH' a (or_introl eq_refl)) as (K' & HK'). exists (K + K').
        intros y [<-|Y] fuel env LE; [apply HK' | apply (HK y Y)]; lia. }
    destruct B as (K & HK). exists (S K). intros fuel env LE. destruct fuel as [|fuel]; [lia|].
    assert (NX : ~ is_input inputs x /\ ~ is_table tables x).
    { split; intros I.
      - apply (wf_input_nodes _ _ _ _ (an_signature _ _ _ _ AN)) in I. congruence.
      - apply (wf_table_nodes _ _ _ _ (an_signature _ _ _ _ AN)) in I. congruence. }
    destruct NX as [NI NT].
    assert (UP : forall y s, In y ps -> feeds y s -> feeds x s).
    { intros y s IY FY. eapply feeds_parent; eauto. }
    assert (PU : provided x -> forall y, In y ps -> provided y).
    { intros PX y IY s FS. apply PX. eauto. }
    assert (NSK : existsb (fun k => Nat.eqb (sink_tensor k) x) sinks = false).
    { destruct (existsb _ sinks) eqn:E; [|reflexivity]. apply is_sink in E. contradiction. }
    split.
    + intros c EF PX. cbn [FullPassModel.eval]. destruct (find x env) as [v|] eqn:FX.
      * exists v. split; [reflexivity|]. apply (EF x); [apply feeds_refl | exact FX].
      * rewrite NSK, N.
        destruct (all_some_ok (eval fuel env) (means c) ps) as (vs & E & F).
        { intros y IY. apply (HK y IY fuel env ltac:(lia)); [|now apply PU].
          intros s FS. apply EF. eauto. }
        rewrite E. exists (node_value x vs). split; [reflexivity|].
        eapply means_node; eauto. now rewrite <- replaced_sink.
    + intros T2 EF PX. cbn [FullPassModel.eval]. destruct (find x env) as [v|] eqn:FX; [eauto|].
      rewrite NSK, N.
      destruct (all_some_ok (eval fuel env) (fun _ _ => True) ps) as (vs & E & F).
      { intros y IY. destruct (HK y IY fuel env ltac:(lia)) as [_ H]. destruct H as (v & Ev); auto.
        - intros s FS. apply EF. eauto.
        - eauto. }
      rewrite E. eauto.
  - exists 1. intros fuel env LE. destruct fuel as [|fuel]; [lia|].
    assert (SRC : provided x -> is_input inputs x \/ is_replaced replaced x \/ is_table tables x).
    { intros PX. destruct (source_cases x) as [S|(NI & NR & NT)]; [exact S|].
      destruct D as [D|D]; [contradiction|]. exfalso. apply (PX x (feeds_refl _ _ _ _ _)).
      repeat split; auto. }
    split.
    + intros c EF PX. destruct (EF x (feeds_refl _ _ _ _ _)) as [EX RT].
      destruct (EX (SRC PX)) as (v & Fv). exists v. cbn [FullPassModel.eval]. rewrite Fv. auto.
    + intros (temp & T2) EF PX. cbn [FullPassModel.eval]. destruct (find x env) as [v|] eqn:FX; [eauto|].
      destruct (SRC PX) as [I|[R|T]].
      * exfalso. apply (EF x (feeds_refl _ _ _ _ _)); auto.
      * apply is_sink in R. rewrite R, T2. eauto.
      * exfalso. apply (EF x (feeds_refl _ _ _ _ _)); auto.
Qed.

End Run.
