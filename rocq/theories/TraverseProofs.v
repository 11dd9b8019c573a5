(** * Proofs about the traverser *)
From Coq Require Import List Arith Bool Lia.
From Verif Require Import TraverseModel TraverseSpec.
Import ListNotations.

Lemma value_node_eqb_eq a b : value_node_eqb a b = true <-> a = b.
Proof.
  destruct a as [a i], b as [b j]. unfold value_node_eqb. cbn.
  rewrite andb_true_iff, !Nat.eqb_eq. split; [intros [-> ->]; auto | intros [= -> ->]; auto].
Qed.

Lemma value_node_eqb_refl a : value_node_eqb a a = true.
Proof. now apply value_node_eqb_eq. Qed.

Lemma lookup_app {V} k (a b : list ((nat * nat) * V)) :
  lookup k (a ++ b) = match lookup k a with Some v => Some v | None => lookup k b end.
Proof.
  induction a as [|[k' v] a IH]; cbn; [reflexivity|].
  destruct (value_node_eqb k k'); [reflexivity | exact IH].
Qed.

Lemma lookup_outputs {V} op : forall (outs : list V) i0 i,
  lookup (op, i0 + i) (combine (map (pair op) (seq i0 (length outs))) outs) = nth_error outs i.
Proof.
  induction outs as [|v outs IH]; intros i0 i; cbn; [now destruct i|].
  unfold value_node_eqb; cbn. rewrite Nat.eqb_refl. cbn.
  destruct i as [|i]; cbn.
  - rewrite Nat.add_0_r, Nat.eqb_refl. reflexivity.
  - destruct (Nat.eqb_spec (i0 + S i) i0) as [E|E]; [lia|].
    specialize (IH (S i0) i). replace (S i0 + i) with (i0 + S i) in IH by lia. exact IH.
Qed.

Lemma lookup_outputs_other {V} op o i : forall (outs : list V) l,
  o <> op -> lookup (o, i) (combine (map (pair op) l) outs) = None.
Proof.
  intros outs l N. revert outs. induction l as [|x l IH]; intros outs; cbn; [reflexivity|].
  destruct outs as [|v outs]; cbn; [reflexivity|].
  unfold value_node_eqb; cbn.
  destruct (Nat.eqb_spec o op); [contradiction|]. cbn. apply IH.
Qed.

Lemma existsb_In op l : existsb (Nat.eqb op) l = true <-> In op l.
Proof.
  rewrite existsb_exists. split.
  - intros (x & I & E). apply Nat.eqb_eq in E. now subst.
  - intros I. exists op. split; [exact I | apply Nat.eqb_refl].
Qed.

Lemma Forall2_len {A B} (R : A -> B -> Prop) l l' : Forall2 R l l' -> length l = length l'.
Proof. induction 1; cbn; congruence. Qed.

Section Proofs.
Context {D V : Type}.
Variable visit : D -> list V -> option (list V).
Variable g : graph D.
Hypothesis WF : well_formed g.

Notation depends := (depends g).
Notation reaches := (reaches g).
Notation means := (means visit g).

Lemma reaches_trans a b c : reaches a b -> reaches b c -> reaches a c.
Proof. induction 1; eauto using reaches_step. Qed.

Lemma reaches_snoc a b c : reaches a b -> depends b c -> reaches a c.
Proof. intros R Dp. eapply reaches_trans; [exact R|]. eauto using reaches_step, reaches_refl. Qed.

Definition order (s : traverser V) : list nat := map fst (visits s).

Record inv (s : traverser V) : Prop := {
  inv_means : forall vn v, lookup vn (cached s) = Some v -> means vn v;
  inv_done : forall op node i, In op (order s) -> nth_error g op = Some node ->
      i < op_nouts node -> lookup (op, i) (cached s) <> None;
  inv_cached : forall op i v, lookup (op, i) (cached s) = Some v -> In op (order s);
  inv_nodup : NoDup (order s);
  inv_first : inputs_first g (order s);
  inv_args : forall op vs, In (op, vs) (visits s) ->
      exists node, nth_error g op = Some node /\ Forall2 means (op_inputs node) vs;
  inv_stack : forall o, In o (stack s) -> ~ In o (order s);
  inv_stack_nodup : NoDup (stack s);
  inv_stack_range : forall o, In o (stack s) -> o < length g
}.

(** The stack, innermost first, is a path in the graph. *)
Fixpoint path_to (op : nat) (st : list nat) : Prop :=
  match st with
  | [] => True
  | o :: st => depends o op /\ path_to o st
  end.

Definition new_visits (root : nat) (s s' : traverser V) : Prop :=
  exists more, visits s' = visits s ++ more /\ forall o, In o (map fst more) -> reaches root o.

Lemma new_visits_trans r s1 s2 s3 :
  new_visits r s1 s2 -> new_visits r s2 s3 -> new_visits r s1 s3.
Proof.
  intros (m1 & E1 & R1) (m2 & E2 & R2). exists (m1 ++ m2). split.
  - now rewrite E2, E1, app_assoc.
  - intros o I. rewrite map_app in I. apply in_app_or in I. destruct I; auto.
Qed.

Lemma new_visits_up r r' s s' : reaches r r' -> new_visits r' s s' -> new_visits r s s'.
Proof.
  intros R (m & E & H). exists m. split; [exact E|]. intros o I. eapply reaches_trans; eauto.
Qed.

Lemma new_visits_refl r s : new_visits r s s.
Proof. exists []. split; [now rewrite app_nil_r | intros o []]. Qed.

(** Any state reached from [s] by new visits keeps what was visited. *)
Lemma new_visits_order r s s' o : new_visits r s s' -> In o (order s) -> In o (order s').
Proof.
  intros (m & E & _) I. unfold order in *. rewrite E, map_app. apply in_or_app. now left.
Qed.

Definition cycle_error (root : nat) (e : error) : Prop :=
  exists c, e = CycleDetected c /\ is_cycle g c /\ forall o, In o c -> reaches root o.

(** What one call guarantees. *)
Definition good {A} (root from : nat) (s : traverser V) (P : A -> traverser V -> Prop)
    (r : result V A) : Prop :=
  match r with
  | Ok a s' => inv s' /\ stack s' = stack s /\ new_visits from s s' /\ P a s'
  | Raised e s' => cycle_error root e \/ (total_visitor visit g -> False)
  | TooDeep => False
  end.

(** The part of the stack from an operation on is a path ending in [o]. *)
Lemma stack_from_chain op o : forall st acc,
  In op st ->
  chain g (acc ++ [o]) ->
  (forall a, hd_error (acc ++ [o]) = Some a -> path_to a st) ->
  exists rest, stack_from op st acc ++ [o] = op :: rest ++ [o] /\
    chain g (op :: rest ++ [o]) /\
    forall x, In x rest -> In x st \/ In x acc.
Proof.
  induction st as [|b st IH]; intros acc I C H; [destruct I|].
  cbn [stack_from].
  assert (HB : path_to b st).
  { destruct (acc ++ [o]) as [|a l] eqn:E; [now destruct acc|].
    specialize (H a eq_refl). cbn in H. tauto. }
  assert (CB : chain g ((b :: acc) ++ [o])).
  { cbn. destruct (acc ++ [o]) as [|a l] eqn:E; [now destruct acc|].
    split; [|exact C]. specialize (H a eq_refl). cbn in H. tauto. }
  destruct (Nat.eqb_spec b op) as [->|N].
  - exists acc. split; [reflexivity|]. split; [exact CB|]. auto.
  - destruct I as [->|I]; [contradiction|].
    destruct (IH (b :: acc) I CB) as (rest & E & C' & R).
    + cbn. intros a [= <-]. exact HB.
    + exists rest. split; [exact E|]. split; [exact C'|].
      intros x X. destruct (R x X) as [Y|[->|Y]]; cbn; auto.
Qed.

Lemma map_state_good root (f : traverser V -> nat * nat -> result V V) op :
  forall l s,
  (forall vn, In vn l -> valid_value_node g vn /\ depends op (fst vn)) ->
  inv s ->
  forall st, stack s = st ->
  (forall s vn, inv s -> stack s = st -> In vn l ->
     good root (fst vn) s (fun v s' => means vn v /\ In (fst vn) (order s')) (f s vn)) ->
  good root op s (fun vs s' => Forall2 means l vs /\
                    forall vn, In vn l -> In (fst vn) (order s'))
    (map_state f s l).
Proof.
  induction l as [|vn l IH]; intros s VL I st E F; cbn.
  - split; [exact I|]. split; [reflexivity|]. split; [apply new_visits_refl|].
    split; [constructor | intros vn []].
  - pose proof (F s vn I E (or_introl eq_refl)) as G.
    destruct (f s vn) as [v s1|e s1|]; cbn in G; [|exact G|exact G].
    destruct G as (I1 & S1 & N1 & M1 & O1).
    assert (IH' : good root op s1 (fun vs s' => Forall2 means l vs /\
                    forall vn, In vn l -> In (fst vn) (order s')) (map_state f s1 l)).
    { apply IH with (st := st); auto.
      - intros w W. apply VL. now right.
      - congruence.
      - intros s0 w I0 E0 W. apply F; auto. now right. }
    destruct (map_state f s1 l) as [vs s2|e s2|]; cbn in IH' |- *; [|exact IH'|exact IH'].
    destruct IH' as (I2 & S2 & N2 & M2 & O2).
    split; [exact I2|]. split; [congruence|].
    assert (NV : new_visits op s s1).
    { apply new_visits_up with (r' := fst vn); [|exact N1].
      eapply reaches_step; [apply (VL vn (or_introl eq_refl)) | apply reaches_refl]. }
    split; [now apply new_visits_trans with (s2 := s1)|].
    split; [constructor; auto|].
    intros w [<-|W]; [|auto]. eapply new_visits_order; eauto.
Qed.

Lemma inputs_first_snoc l op :
  inputs_first g l -> (forall o, depends op o -> In o l) -> inputs_first g (l ++ [op]).
Proof.
  intros H N before x after E o Dp.
  destruct after as [|y after] using rev_ind.
  - apply app_inj_tail in E. destruct E as [-> ->]. auto.
  - clear IHafter. rewrite app_comm_cons, app_assoc in E.
    apply app_inj_tail in E. destruct E as [E _]. subst l. eapply H; eauto.
Qed.

Lemma visit_value_good root : forall depth s vn,
  inv s -> valid_value_node g vn ->
  S (length g) <= depth + length (stack s) ->
  path_to (fst vn) (stack s) ->
  reaches root (fst vn) -> (forall o, In o (stack s) -> reaches root o) ->
  good root (fst vn) s
    (fun v s' => means vn v /\ In (fst vn) (order s'))
    (maybe_visit_value_node visit g depth s vn).
Proof.
  induction depth as [|depth IH]; intros s vn I VN LE PT RR RS.
  { exfalso. pose proof (inv_stack_nodup s I) as ND. pose proof (inv_stack_range s I) as RG.
    assert (length (stack s) <= length (seq 0 (length g))).
    { apply NoDup_incl_length; [exact ND|]. intros o O. apply in_seq. specialize (RG o O). lia. }
    rewrite seq_length in H. lia. }
  cbn [maybe_visit_value_node].
  destruct (lookup vn (cached s)) as [v|] eqn:L.
  { split; [exact I|]. split; [reflexivity|]. split; [apply new_visits_refl|].
    split; [now apply (inv_means s I)|].
    destruct vn as [op i]. cbn. eapply inv_cached; eauto. }
  destruct vn as [op i]. cbn [fst] in *.
  destruct VN as (node & N & LT). cbn [fst snd] in N, LT.
  assert (NV : ~ In op (order s)).
  { intros O. now apply (inv_done s I op node i O N LT). }
  unfold visit_operation.
  destruct (existsb (Nat.eqb op) (stack s)) eqn:X.
  { left. apply existsb_In in X.
    destruct (stack_from_chain op op (stack s) [] X) as (rest & E & C & R).
    - exact Logic.I.
    - cbn. intros a [= <-]. exact PT.
    - eexists. split; [reflexivity|]. split.
      + exists op, rest. split; [exact E | rewrite E; exact C].
      + rewrite E. intros o [<-|O]; [exact RR|]. apply in_app_or in O.
        destruct O as [O|[<-|[]]]; [|exact RR]. destruct (R o O) as [O'|[]]. auto. }
  assert (NS : ~ In op (stack s)).
  { intros Y. apply existsb_In in Y. congruence. }
  rewrite N.
  set (s0 := Traverser (cached s) (op :: stack s) (visits s)).
  assert (I0 : inv s0).
  { destruct I. constructor; auto; cbn.
    - intros o [<-|O]; [exact NV | now apply inv_stack0].
    - constructor; auto.
    - intros o [<-|O]; [|auto]. apply nth_error_Some. congruence. }
  assert (DEP : forall vn, In vn (op_inputs node) -> valid_value_node g vn /\ depends op (fst vn)).
  { intros [o j] W. split; [eapply WF; eauto|]. exists node, j. auto. }
  assert (G : good root op s0 (fun vs s' => Forall2 means (op_inputs node) vs /\
                    forall vn, In vn (op_inputs node) -> In (fst vn) (order s'))
                (map_state (maybe_visit_value_node visit g depth) s0 (op_inputs node))).
  { apply map_state_good with (st := op :: stack s); auto.
    intros s1 w I1 E1 W. destruct (DEP w W) as [VW DW]. apply IH; auto.
    - rewrite E1. cbn [length]. lia.
    - rewrite E1. cbn. auto.
    - eapply reaches_snoc; eauto.
    - rewrite E1. intros o [<-|O]; auto. }
  destruct (map_state _ s0 (op_inputs node)) as [vs s1|e s1|]; cbn in G |- *;
    [|exact G|exact G].
  destruct G as (I1 & S1 & N1 & M1 & O1).
  destruct (visit (op_def node) vs) as [outs|] eqn:VI.
  2:{ right. intros T. destruct (T op node vs N) as (outs & E & _).
      - symmetry. eapply Forall2_len. exact M1.
      - congruence. }
  destruct (Nat.eqb_spec (length outs) (op_nouts node)) as [LO|LO].
  2:{ right. intros T. destruct (T op node vs N) as (outs' & E & E').
      - symmetry. eapply Forall2_len. exact M1.
      - congruence. }
  cbn [cached stack visits].
  set (new := combine (map (pair op) (seq 0 (op_nouts node))) outs).
  assert (LN : forall j, lookup (op, j) new = nth_error outs j).
  { intros j. subst new. rewrite <- LO. exact (lookup_outputs op outs 0 j). }
  assert (LX : forall o j, o <> op -> lookup (o, j) new = None).
  { intros o j NE. apply lookup_outputs_other. exact NE. }
  assert (NO : ~ In op (order s1)).
  { apply (inv_stack s1 I1). rewrite S1. cbn. auto. }
  destruct (nth_error outs i) as [v|] eqn:NO'.
  2:{ exfalso. apply nth_error_None in NO'. lia. }
  assert (LV : lookup (op, i) (new ++ cached s1) = Some v).
  { rewrite lookup_app, LN, NO'. reflexivity. }
  rewrite LV.
  set (s2 := Traverser (new ++ cached s1) (tl (stack s1)) (visits s1 ++ [(op, vs)])).
  assert (ORD : order s2 = order s1 ++ [op]).
  { unfold order, s2. cbn. now rewrite map_app. }
  assert (STK : stack s2 = stack s).
  { unfold s2. cbn. rewrite S1. reflexivity. }
  assert (MM : forall j w, nth_error outs j = Some w -> means (op, j) w).
  { intros j w E. econstructor; eauto. }
  assert (I2 : inv s2).
  { constructor.
    - intros [o j] w. unfold s2; cbn. rewrite lookup_app.
      destruct (Nat.eq_dec o op) as [->|NE].
      + rewrite LN. destruct (nth_error outs j) eqn:E.
        * intros [= <-]. auto.
        * intros Q. now apply (inv_means s1 I1).
      + rewrite LX by exact NE. intros Q. now apply (inv_means s1 I1).
    - intros o nd j. rewrite ORD. unfold s2; cbn. rewrite lookup_app.
      intros O E LT'. destruct (Nat.eq_dec o op) as [->|NE].
      + rewrite LN. rewrite N in E. injection E as <-.
        destruct (nth_error outs j) eqn:E'; [discriminate|].
        apply nth_error_None in E'. lia.
      + rewrite LX by exact NE. apply in_app_or in O. destruct O as [O|[->|[]]]; [|contradiction].
        eapply inv_done; eauto.
    - intros o j w. rewrite ORD. unfold s2; cbn. rewrite lookup_app.
      destruct (Nat.eq_dec o op) as [->|NE].
      + intros _. apply in_or_app. right. now left.
      + rewrite LX by exact NE. intros Q. apply in_or_app. left. eapply inv_cached; eauto.
    - rewrite ORD. apply NoDup_Add with (a := op) (l := order s1).
      + pose proof (Add_app op (order s1) []) as A. rewrite app_nil_r in A. exact A.
      + split; [apply (inv_nodup s1 I1) | exact NO].
    - rewrite ORD. apply inputs_first_snoc; [apply (inv_first s1 I1)|].
      intros o (nd & j & E & W). rewrite N in E. injection E as <-.
      exact (O1 (o, j) W).
    - intros o ws. unfold s2; cbn. intros O. apply in_app_or in O.
      destruct O as [O|[[= <- <-]|[]]]; [now apply (inv_args s1 I1)|].
      exists node. auto.
    - intros o. rewrite STK, ORD. intros O Q. apply in_app_or in Q.
      destruct Q as [Q|[<-|[]]]; [|contradiction].
      eapply (inv_stack s1 I1); [|exact Q]. rewrite S1. now right.
    - rewrite STK. apply (inv_stack_nodup s I).
    - intros o. rewrite STK. apply (inv_stack_range s I). }
  cbn. fold s2. split; [exact I2|]. split; [exact STK|]. split.
  - destruct N1 as (m & E & R). exists (m ++ [(op, vs)]). split.
    + unfold s2; cbn. rewrite E. unfold s0; cbn. now rewrite app_assoc.
    + intros o O. rewrite map_app in O. apply in_app_or in O.
      destruct O as [O|[<-|[]]]; [auto | apply reaches_refl].
  - split; [now apply MM|]. change (In op (order s2)). rewrite ORD. apply in_or_app. right. now left.
Qed.

Lemma inv_new : inv new_traverser.
Proof.
  constructor; cbn; try discriminate; try tauto; try (now constructor).
  intros before op after E. destruct before; discriminate E.
Qed.

(** A sequence of calls on one traverser whose stack is empty. *)
Lemma visit_value_nodes_good : forall roots s,
  inv s -> stack s = [] -> (forall r, In r roots -> valid_value_node g r) ->
  match visit_value_nodes visit g s roots with
  | Ok vs s' => inv s' /\ stack s' = [] /\ Forall2 means roots vs /\
      (forall r, In r roots -> In (fst r) (order s')) /\
      exists more, visits s' = visits s ++ more /\
        forall o, In o (map fst more) -> exists r, In r roots /\ reaches (fst r) o
  | Raised e s' => (exists r, In r roots /\ cycle_error (fst r) e) \/
                   (total_visitor visit g -> False)
  | TooDeep => False
  end.
Proof.
  unfold visit_value_nodes, visit_value_node.
  induction roots as [|r roots IH]; intros s I E VR; cbn [map_state].
  - split; [exact I|]. split; [exact E|]. split; [constructor|]. split; [intros r []|].
    exists []. split; [now rewrite app_nil_r | intros o []].
  - assert (G : good (fst r) (fst r) s (fun v s' => means r v /\ In (fst r) (order s'))
                 (maybe_visit_value_node visit g (S (length g)) s r)).
    { apply visit_value_good; auto.
      - apply VR. now left.
      - lia.
      - rewrite E. exact Logic.I.
      - apply reaches_refl.
      - rewrite E. intros o []. }
    destruct (maybe_visit_value_node visit g (S (length g)) s r) as [v s1|e s1|]; cbn in G.
    2:{ destruct G as [G|G]; [left; exists r; split; [now left | exact G] | now right]. }
    2:{ exact G. }
    destruct G as (I1 & S1 & (m1 & E1 & R1) & M1 & O1).
    specialize (IH s1 I1 (eq_trans S1 E) (fun x X => VR x (or_intror X))).
    destruct (map_state _ s1 roots) as [vs s2|e s2|].
    2:{ destruct IH as [(x & X & C)|G]; [left; exists x; split; [now right | exact C] | now right]. }
    2:{ exact IH. }
    destruct IH as (I2 & S2 & M2 & O2 & m2 & E2 & R2).
    split; [exact I2|]. split; [exact S2|]. split; [now constructor|]. split.
    + intros x [<-|X]; [|auto]. unfold order. rewrite E2, map_app. apply in_or_app. now left.
    + exists (m1 ++ m2). split; [now rewrite E2, E1, app_assoc|].
      intros o O. rewrite map_app in O. apply in_app_or in O. destruct O as [O|O].
      * exists r. split; [now left | auto].
      * destruct (R2 o O) as (x & X & RX). exists x. split; [now right | exact RX].
Qed.

Lemma inputs_first_upstream l a b :
  inputs_first g l -> In a l -> reaches a b -> In b l.
Proof.
  intros F I R. induction R as [|a c b Dp R IH]; [exact I|]. apply IH.
  apply in_split in I. destruct I as (l1 & l2 & ->).
  apply in_or_app. left. eapply F; eauto.
Qed.

(** In an order that puts inputs first and repeats nothing, nothing is upstream
    of itself. *)
Lemma inputs_first_acyclic l a :
  inputs_first g l -> NoDup l -> In a l -> ~ upstream g a a.
Proof.
  intros F ND I (c & Dp & R).
  assert (K : forall before x after, l = before ++ x :: after ->
            forall y, reaches x y -> y = x \/ In y before).
  { intros before x after E y Ry. revert before after E.
    induction Ry as [|x z y Dz Rz IH]; intros before after E; [now left|]. right.
    pose proof (F _ _ _ E z Dz) as B. apply in_split in B. destruct B as (b1 & b2 & ->).
    destruct (IH b1 (b2 ++ x :: after)) as [->|B].
    - rewrite E, <- app_assoc. reflexivity.
    - apply in_or_app. right. now left.
    - apply in_or_app. now left. }
  apply in_split in I. destruct I as (l1 & l2 & E).
  pose proof (F _ _ _ E c Dp) as B. apply in_split in B. destruct B as (b1 & b2 & ->).
  subst l. rewrite <- app_assoc in *. cbn in *.
  assert (NA : ~ In a (b1 ++ c :: b2)).
  { change (b1 ++ c :: b2 ++ a :: l2) with (b1 ++ (c :: b2) ++ a :: l2) in ND.
    rewrite app_assoc in ND. apply NoDup_remove_2 in ND.
    intros X. apply ND. apply in_or_app. now left. }
  destruct (K b1 c (b2 ++ a :: l2) eq_refl a R) as [->|B].
  - apply NA. apply in_or_app. right. now left.
  - apply NA. apply in_or_app. now left.
Qed.

Lemma chain_upstream : forall rest a b, chain g (a :: rest ++ [b]) -> upstream g a b.
Proof.
  induction rest as [|c rest IH]; intros a b C; cbn in C.
  - exists b. split; [tauto | apply reaches_refl].
  - destruct C as [Dp C]. destruct (IH c b C) as (x & Dx & Rx).
    exists c. split; [exact Dp|]. eapply reaches_step; eauto.
Qed.

Lemma traversal roots :
  (forall r, In r roots -> valid_value_node g r) ->
  forall vs s, visit_value_nodes visit g new_traverser roots = Ok vs s ->
    Forall2 means roots vs /\
    NoDup (map fst (visits s)) /\
    inputs_first g (map fst (visits s)) /\
    (forall o, In o (map fst (visits s)) <-> exists r, In r roots /\ reaches (fst r) o) /\
    (forall op args, In (op, args) (visits s) ->
       exists node, nth_error g op = Some node /\ Forall2 means (op_inputs node) args).
Proof.
  intros VR vs s E.
  pose proof (visit_value_nodes_good roots new_traverser inv_new eq_refl VR) as G.
  rewrite E in G. destruct G as (I & _ & M & O & m & Em & R). cbn in Em.
  split; [exact M|]. split; [apply (inv_nodup s I)|]. split; [apply (inv_first s I)|].
  split; [|intros op args; apply (inv_args s I)].
  intros o. split.
  - rewrite Em. apply R.
  - intros (r & Ir & Rr). eapply inputs_first_upstream; [apply (inv_first s I)| |exact Rr]. auto.
Qed.

Lemma traversal_total roots :
  (forall r, In r roots -> valid_value_node g r) ->
  total_visitor visit g ->
  (forall r, In r roots -> acyclic_from g (fst r)) ->
  exists vs s, visit_value_nodes visit g new_traverser roots = Ok vs s.
Proof.
  intros VR T A.
  pose proof (visit_value_nodes_good roots new_traverser inv_new eq_refl VR) as G.
  destruct (visit_value_nodes visit g new_traverser roots) as [vs s|e s|]; [eauto| |destruct G].
  exfalso. destruct G as [(r & Ir & c & -> & (op & rest & -> & C) & R)|G]; [|auto].
  apply (A r Ir op); [apply R; now left|]. eapply chain_upstream; eauto.
Qed.

Lemma traversal_cycle roots r o :
  (forall r, In r roots -> valid_value_node g r) ->
  total_visitor visit g ->
  In r roots -> reaches (fst r) o -> upstream g o o ->
  exists c s, visit_value_nodes visit g new_traverser roots = Raised (CycleDetected c) s /\
    is_cycle g c /\ exists r, In r roots /\ forall x, In x c -> reaches (fst r) x.
Proof.
  intros VR T Ir Ro U.
  pose proof (visit_value_nodes_good roots new_traverser inv_new eq_refl VR) as G.
  destruct (visit_value_nodes visit g new_traverser roots) as [vs s|e s|] eqn:E; [| |destruct G].
  - exfalso. destruct G as (I & _ & _ & O & _).
    apply (inputs_first_acyclic (order s) o); auto.
    + apply (inv_first s I).
    + apply (inv_nodup s I).
    + eapply inputs_first_upstream; [apply (inv_first s I)| |exact Ro]. auto.
  - destruct G as [(x & Ix & c & -> & C & R)|G]; [|destruct (G T)].
    exists c, s. eauto.
Qed.

(** Whatever the visitor does, the traversal ends, and never with a value when
    there is a cycle. *)
Lemma traversal_ends roots :
  (forall r, In r roots -> valid_value_node g r) ->
  visit_value_nodes visit g new_traverser roots <> TooDeep.
Proof.
  intros VR E.
  pose proof (visit_value_nodes_good roots new_traverser inv_new eq_refl VR) as G.
  rewrite E in G. exact G.
Qed.

End Proofs.

Lemma means_unique {D V} (visit : D -> list V -> option (list V)) g :
  forall vn v, means visit g vn v -> forall v', means visit g vn v' -> v = v'.
Proof.
  fix IH 3. intros vn v M v' M'.
  destruct M as [op node vs outs i v N F VI L NE].
  inversion M' as [op' node' vs' outs' i' v'' N' F' VI' L' NE' Q1 Q2]. subst.
  rewrite N in N'. injection N' as <-.
  assert (vs = vs').
  { clear - IH F F'. revert vs' F'.
    induction F as [|x y l l' Mx F IHF]; intros vs' F'; inversion F'; subst; [reflexivity|].
    f_equal; [eapply IH; eauto | auto]. }
  subst vs'. congruence.
Qed.
