(** * Proofs about python functions in transform graphs *)
From Coq Require Import String List Arith Bool Lia.
From Verif Require Import PyFuncModel PyFuncSpec.
Import ListNotations.
Local Open Scope list_scope.
Local Notation length := List.length.

Section Proofs.
Context {func : Type}.
Implicit Types (p : process (func := func)) (g : graph (func := func)) (m : meta_graph (func := func)) (w : world (func := func)) (e : entry (func := func)) (n : node (func := func)).

Definition is_py (n : node (func := func)) : bool := String.eqb (n_op n) "PyFunc" || String.eqb (n_op n) "PyFuncStateless".
Definition wf_process (p : process (func := func)) : Prop := forall t f, registry p t = Some f -> t < counter p.
Definition extends (p p' : process (func := func)) : Prop := forall t f, registry p t = Some f -> registry p' t = Some f.
Lemma extends_refl p : extends p p.
Proof. intros t f H. exact H. Qed.
Lemma extends_trans p p' p'' : extends p p' -> extends p' p'' -> extends p p''.
Proof. intros A B t f H. auto. Qed.

Lemma tf_insert_right p f p' t : wf_process p -> tf_insert p f = (p', t) -> wf_process p' /\ extends p p' /\ registry p' t = Some f.
Proof.
  intros W E. injection E as <- <-. repeat split.
  - intros t f' H. cbn in *. destruct (Nat.eqb_spec t (counter p)) as [->|]; [lia|]. apply W in H. lia.
  - intros t f' H. cbn. destruct (Nat.eqb_spec t (counter p)) as [->|]; [apply W in H; lia|exact H].
  - cbn. now rewrite Nat.eqb_refl.
Qed.

(** A node that is found in a collection of its own process. *)
Definition node_ok (i : nat) (es : list (entry (func := func))) (n : node (func := func)) : Prop :=
  if is_py n then exists f, made_for n = Some f /\ In (Entry (n_token n) f i) es else made_for n = None.
Lemma node_ok_incl i es es' n : incl es es' -> node_ok i es n -> node_ok i es' n.
Proof. intros I. unfold node_ok. destruct (is_py n); [intros (f & A & B); exists f; auto|auto]. Qed.

(** ** Registering the functions of a model *)
Lemma reinsert_right : forall defs p g d p' g' d', wf_process p -> reinsert p g defs d = (p', g', d') ->
  wf_process p' /\ extends p p' /\ g_process g' = g_process g /\ g_library g' = g_library g /\
  (exists temps, g_nodes g' = g_nodes g ++ temps /\ forall n, In n temps -> node_ok (g_process g) (g_pyfuncs g') n) /\
  (exists news, g_pyfuncs g' = g_pyfuncs g ++ news /\ forall e, In e news -> e_home e = g_process g /\ registry p' (e_token e) = Some (e_func e)) /\
  (forall t, get d' t = get d t /\ (forall e, In e defs -> e_token e <> t) \/
             exists e t', In e defs /\ e_token e = t /\ get d' t = Some t' /\ registry p' t' = Some (e_func e) /\ In (Entry t' (e_func e) (g_process g)) (g_pyfuncs g')).
Proof.
  induction defs as [|e defs IH]; intros p g d p' g' d' W E; cbn [reinsert] in E.
  - injection E as <- <- <-. repeat split; auto using extends_refl.
    + exists []. rewrite app_nil_r. split; [reflexivity|intros n []].
    + exists []. rewrite app_nil_r. split; [reflexivity|intros e []].
  - destruct (insert_pyfunc p g (e_func e) false "temp") as [[p1 g1] t1] eqn:I. unfold insert_pyfunc in I.
    destruct (tf_insert p (e_func e)) as [p1' t1'] eqn:T. destruct (tf_insert_right p (e_func e) p1' t1' W T) as (W1 & X1 & R1). injection I as <- <- <-.
    destruct (IH _ _ _ _ _ _ W1 E) as (W' & X' & Hp & Hl & (temps & Hn & Ht) & (news & He & Hr) & Hd). cbn [g_process g_nodes g_library g_pyfuncs] in *.
    repeat split; auto.
    + eapply extends_trans; eassumption.
    + eexists. rewrite Hn, <- app_assoc. split; [reflexivity|]. intros n [<-|I]; [|auto]. unfold node_ok, is_py. cbn [n_op n_token made_for].
      exists (e_func e). split; [reflexivity|]. rewrite He. apply in_or_app. left. apply in_or_app. right. now left.
    + eexists. rewrite He, <- app_assoc. split; [reflexivity|]. intros e' [<-|I]; [|auto]. cbn. split; [reflexivity|]. now apply X'.
    + intros t. destruct (Hd t) as [[A B]|(e' & t' & A & B & C & D & F)].
      * unfold get at 2 in A. cbn [find fst] in A. destruct (Nat.eqb_spec (e_token e) t) as [Et|Ne].
        -- right. exists e, t1'. split; [now left|]. split; [exact Et|]. cbn in A. split; [exact A|]. split; [now apply X'|]. rewrite He. apply in_or_app. left. apply in_or_app. right. now left.
        -- left. split; [exact A|]. intros e' [<-|I]; auto.
      * right. exists e', t'. split; [now right|]. auto.
Qed.

(** Entries whose tokens belong together. *)
Definition functional (es : list (entry (func := func))) : Prop :=
  forall e e', In e es -> In e' es -> e_token e = e_token e' -> e_func e = e_func e'.
Definition has_entry (es : list (entry (func := func))) (n : node (func := func)) : Prop :=
  if is_py n then exists f h, made_for n = Some f /\ In (Entry (n_token n) f h) es else made_for n = None.

Definition node_right (p : process (func := func)) (n : node (func := func)) : Prop := forall f, made_for n = Some f -> registry p (n_token n) = Some f.
Lemma swap_right defs d expected p es i : functional defs ->
  (forall t, get d t = None /\ (forall e, In e defs -> e_token e <> t) \/
             exists e t', In e defs /\ e_token e = t /\ get d t = Some t' /\ registry p t' = Some (e_func e) /\ In (Entry t' (e_func e) i) es) ->
  forall nodes, (forall n, In n nodes -> has_entry defs n) ->
  exists nodes', swap_tokens d expected nodes = Some nodes' /\ length nodes' = length nodes /\ (forall n, In n nodes' -> node_ok i es n /\ node_right p n).
Proof.
  intros F D. induction nodes as [|n nodes IH]; intros H; [exists []; split; [reflexivity|split; [reflexivity|intros n []]]|].
  destruct IH as (nodes' & E & L & R); [intros n' I; apply H; now right|]. cbn [swap_tokens]. rewrite E.
  assert (Hn := H n (or_introl eq_refl)). unfold has_entry in Hn. fold (is_py n). destruct (is_py n) eqn:P.
  - destruct Hn as (f & h & Mf & I). destruct (D (n_token n)) as [[_ No]|(e & t' & Ie & Et & -> & Rt & It)]; [exfalso; exact (No _ I eq_refl)|].
    assert (Ef : e_func e = f) by (exact (F e _ Ie I Et)). exists (with_token n t' :: nodes'). split; [reflexivity|]. split; [cbn; now rewrite L|].
    intros n' [<-|I']; [|auto]. split.
    + unfold node_ok, is_py in *. cbn [with_token n_op n_token made_for]. rewrite P. exists f. split; [exact Mf|]. now rewrite <- Ef.
    + intros f' Mf'. cbn in *. rewrite Rt. congruence.
  - exists (n :: nodes'). split; [reflexivity|]. split; [cbn; now rewrite L|]. intros n' [<-|I']; [|auto]. split; [unfold node_ok; now rewrite P|intros f Mf; congruence].
Qed.
Lemma swap_app d expected : forall a b, swap_tokens d expected (a ++ b) = match swap_tokens (func := func) d expected a, swap_tokens d expected b with Some x, Some y => Some (x ++ y) | _, _ => None end.
Proof.
  induction a as [|n a IH]; intros b; cbn [app swap_tokens]; [destruct (swap_tokens d expected b); reflexivity|]. rewrite IH. 
  destruct (if String.eqb (n_op n) "PyFunc" || String.eqb (n_op n) "PyFuncStateless" then _ else _); [|reflexivity].
  destruct (swap_tokens d expected a); [|reflexivity]. destruct (swap_tokens d expected b); reflexivity.
Qed.
Lemma swap_length d expected : forall (a a' : list (node (func := func))), swap_tokens d expected a = Some a' -> length a' = length a.
Proof.
  induction a as [|n a IH]; intros a' E; cbn [swap_tokens] in E; [injection E as <-; reflexivity|].
  destruct (if String.eqb (n_op n) "PyFunc" || String.eqb (n_op n) "PyFuncStateless" then _ else _); [|discriminate].
  destruct (swap_tokens d expected a) as [r|]; [|discriminate]. injection E as <-. cbn. now rewrite (IH r).
Qed.
(** New tokens are expected. *)
Lemma swap_expected d expected : forall nodes : list (node (func := func)), (forall n, In n nodes -> is_py n = true -> get d (n_token n) = None -> In (n_token n) expected) ->
  swap_tokens d expected nodes <> None.
Proof.
  induction nodes as [|n nodes IH]; intros H; cbn [swap_tokens]; [discriminate|]. fold (is_py n).
  assert (Hn := H n (or_introl eq_refl)). assert (R := IH (fun n' I => H n' (or_intror I))).
  destruct (swap_tokens d expected nodes); [|congruence]. destruct (is_py n); [|discriminate]. destruct (get d (n_token n)); [discriminate|].
  specialize (Hn eq_refl eq_refl). replace (existsb (Nat.eqb (n_token n)) expected) with true; [discriminate|]. symmetry. apply existsb_exists. exists (n_token n). split; [exact Hn|apply Nat.eqb_refl].
Qed.
Lemma reinsert_tokens : forall defs p g d p' g' d', reinsert (func := func) p g defs d = (p', g', d') ->
  incl (map snd d) (map snd d') /\ exists temps, g_nodes g' = g_nodes g ++ temps /\ forall n, In n temps -> In (n_token n) (map snd d').
Proof.
  induction defs as [|e defs IH]; intros p g d p' g' d' E; cbn [reinsert] in E.
  - injection E as <- <- <-. split; [intros x; auto|]. exists []. rewrite app_nil_r. split; [reflexivity|intros n []].
  - unfold insert_pyfunc in E. destruct (tf_insert p (e_func e)) as [p1 t1]. destruct (IH _ _ _ _ _ _ E) as (I & temps & Hn & Ht). cbn [map snd g_nodes] in *. split.
    + intros x J. apply I. now right.
    + eexists. rewrite Hn, <- app_assoc. split; [reflexivity|]. intros n [<-|J]; [|auto]. cbn. apply I. now left.
Qed.

(** ** Loading *)
Lemma load_right p g m : wf_process p -> functional (m_pyfuncs m) -> (forall n, In n (m_nodes m) -> has_entry (m_pyfuncs m) n) ->
  exists p' g', partially_apply_saved_transform p g m = Returned (p', g') /\ wf_process p' /\ extends p p' /\ g_process g' = g_process g /\
  (exists more, g_nodes g' = g_nodes g ++ more /\ forall n, In n more -> node_ok (g_process g) (g_pyfuncs g') n) /\
  (exists news, g_pyfuncs g' = g_pyfuncs g ++ news ++ m_pyfuncs m /\ forall e, In e news -> e_home e = g_process g /\ registry p' (e_token e) = Some (e_func e)).
Proof.
  intros W F H. unfold partially_apply_saved_transform, register_pyfuncs_from_saved_transform. destruct (m_pyfuncs m) as [|e0 defs0] eqn:Ed.
  - eexists _, _. split; [reflexivity|]. cbn [g_process g_nodes g_pyfuncs]. repeat split; auto using extends_refl.
    + exists (m_nodes m). split; [reflexivity|]. intros n I. specialize (H n I). unfold has_entry, node_ok in *. destruct (is_py n); [|exact H]. destruct H as (f & h & _ & []).
    + exists []. split; [reflexivity|intros e []].
  - rewrite <- Ed in *. destruct (reinsert p g (m_pyfuncs m) []) as [[p' g'] d'] eqn:R.
    destruct (reinsert_right _ _ _ _ _ _ _ W R) as (W' & X & Hp & Hl & (temps & Hn & Ht) & (news & He & Hr) & Hd).
    destruct (swap_right (m_pyfuncs m) d' (map fst d') p' (g_pyfuncs g') (g_process g) F Hd (m_nodes m) H) as (nodes & -> & L & N).
    eexists _, _. split; [reflexivity|]. cbn [g_process g_nodes g_pyfuncs]. repeat split; auto.
    + exists (temps ++ nodes). rewrite Hn, app_assoc. split; [reflexivity|]. intros n I. apply in_app_or in I as [I|I].
      * eapply node_ok_incl; [|apply Ht, I]. apply incl_appl, incl_refl.
      * eapply node_ok_incl; [|apply N, I]. apply incl_appl, incl_refl.
    + exists news. rewrite He, <- app_assoc. split; [reflexivity|exact Hr].
Qed.
Lemma load_v2_right i p m : wf_process p -> functional (m_pyfuncs m) -> (forall n, In n (m_nodes m) -> has_entry (m_pyfuncs m) n) ->
  exists p' ns, restore_from_v1_saved_model i p m = Returned (p', ns) /\ wf_process p' /\ extends p p' /\ length ns = length (m_nodes m) /\ forall n, In n ns -> node_right p' n.
Proof.
  intros W F H. unfold restore_from_v1_saved_model, register_pyfuncs_from_saved_transform. destruct (m_pyfuncs m) as [|e0 defs0] eqn:Ed.
  - eexists _, _. split; [reflexivity|]. repeat split; auto using extends_refl. intros n I. specialize (H n I). unfold has_entry in H. destruct (is_py n); [destruct H as (f & h & _ & [])|]. intros f Mf. congruence.
  - rewrite <- Ed in *. set (g := Graph i (m_nodes m) (m_library m) []). destruct (reinsert p g (m_pyfuncs m) []) as [[p' g'] d'] eqn:R.
    destruct (reinsert_right _ _ _ _ _ _ _ W R) as (W' & X & Hp & Hl & _ & _ & Hd). destruct (reinsert_tokens _ _ _ _ _ _ _ R) as (_ & temps & Hn & Ht).
    rewrite Hn, swap_app. cbn [g_nodes g].
    destruct (swap_right (m_pyfuncs m) d' (map fst d' ++ map snd d') p' (g_pyfuncs g') (g_process g) F Hd (m_nodes m) H) as (nodes & -> & L & N).
    pose proof (swap_expected d' (map fst d' ++ map snd d') temps) as S. destruct (swap_tokens d' (map fst d' ++ map snd d') temps) as [rest|].
    2:{ exfalso. apply S; [|reflexivity]. intros n I _ _. apply in_or_app. right. auto. }
    eexists _, _. split; [reflexivity|]. split; [exact W'|]. split; [exact X|]. rewrite <- L, firstn_app, Nat.sub_diag, firstn_all, app_nil_r. split; [reflexivity|]. intros n I. now apply N.
Qed.

(** ** Histories *)
Definition entry_ok (w : world (func := func)) (e : entry (func := func)) : Prop :=
  exists p, nth_error (w_processes w) (e_home e) = Some p /\ registry p (e_token e) = Some (e_func e).
Record invariant (w : world (func := func)) : Prop := {
  inv_processes : forall i p, nth_error (w_processes w) i = Some p -> wf_process p;
  inv_graphs : forall g, In g (w_graphs w) -> (exists p, nth_error (w_processes w) (g_process g) = Some p) /\
    (forall e, In e (g_pyfuncs g) -> entry_ok w e) /\ (forall n, In n (g_nodes g) -> node_ok (g_process g) (g_pyfuncs g) n);
  inv_models : forall m, In m (w_models w) -> (forall e, In e (m_pyfuncs m) -> entry_ok w e) /\ (forall n, In n (m_nodes m) -> has_entry (m_pyfuncs m) n);
  inv_restored : forall i ns n, In (i, ns) (w_restored w) -> In n ns -> calls_right w i n }.

Lemma node_ok_has i es n : node_ok i es n -> has_entry es n.
Proof. unfold node_ok, has_entry. destruct (is_py n); [intros (f & A & B); exists f, i; auto|auto]. Qed.
Lemma nth_set_eq {A} (a : A) : forall l i b, nth_error l i = Some b -> nth_error (set_nth i a l) i = Some a.
Proof. induction l as [|x l IH]; intros [|i] b E; try discriminate; cbn in *; [reflexivity|]. eauto. Qed.
Lemma nth_set_ne {A} (a : A) : forall l i j, i <> j -> nth_error (set_nth i a l) j = nth_error l j.
Proof. induction l as [|x l IH]; intros [|i] [|j] N; cbn; try reflexivity; try congruence. apply IH. congruence. Qed.
Lemma in_set {A} (a : A) : forall l i x, In x (set_nth i a l) -> x = a \/ In x l.
Proof. induction l as [|y l IH]; intros [|i] x I; cbn in *; [destruct I|destruct I|destruct I; auto|]. destruct I as [->|I]; [auto|]. destruct (IH _ _ I); auto. Qed.

(** Processes only learn. *)
Definition grows (w w' : world (func := func)) : Prop :=
  forall i p, nth_error (w_processes w) i = Some p -> exists p', nth_error (w_processes w') i = Some p' /\ extends p p'.
Lemma entry_ok_grows w w' e : grows w w' -> entry_ok w e -> entry_ok w' e.
Proof. intros G (p & A & B). destruct (G _ _ A) as (p' & C & D). exists p'. split; [exact C|]. now apply D. Qed.
Lemma calls_right_grows w w' i n : grows w w' -> calls_right w i n -> calls_right w' i n.
Proof. intros G H f Mf. destruct (H f Mf) as (p & A & B). destruct (G _ _ A) as (p' & C & D). exists p'. split; [exact C|]. now apply D. Qed.
Lemma grows_set w i p p' gs ms rs : nth_error (w_processes w) i = Some p -> extends p p' -> grows w (World (set_nth i p' (w_processes w)) gs ms rs).
Proof.
  intros E X j q Ej. cbn. destruct (Nat.eq_dec i j) as [<-|Ne].
  - exists p'. split; [eapply nth_set_eq; eassumption|]. rewrite E in Ej. injection Ej as <-. exact X.
  - exists q. rewrite nth_set_ne by exact Ne. split; [exact Ej|apply extends_refl].
Qed.
Lemma wf_set w i p p' : (forall i p, nth_error (w_processes w) i = Some p -> wf_process p) -> nth_error (w_processes w) i = Some p -> wf_process p' ->
  forall j q, nth_error (set_nth i p' (w_processes w)) j = Some q -> wf_process q.
Proof.
  intros H E W j q Ej. destruct (Nat.eq_dec i j) as [<-|Ne]; [rewrite (nth_set_eq p' _ _ _ E) in Ej; injection Ej as <-; exact W|]. rewrite nth_set_ne in Ej by exact Ne. eauto.
Qed.

(** Keeping the invariant when one graph changes. *)
Lemma invariant_step w w' : invariant w -> grows w w' ->
  (forall i p, nth_error (w_processes w') i = Some p -> wf_process p) ->
  (forall g, In g (w_graphs w') -> In g (w_graphs w) \/ ((exists p, nth_error (w_processes w') (g_process g) = Some p) /\
    (forall e, In e (g_pyfuncs g) -> entry_ok w' e) /\ (forall n, In n (g_nodes g) -> node_ok (g_process g) (g_pyfuncs g) n))) ->
  (forall m, In m (w_models w') -> In m (w_models w) \/ ((forall e, In e (m_pyfuncs m) -> entry_ok w' e) /\ (forall n, In n (m_nodes m) -> has_entry (m_pyfuncs m) n))) ->
  (forall i ns, In (i, ns) (w_restored w') -> In (i, ns) (w_restored w) \/ forall n, In n ns -> calls_right w' i n) ->
  invariant w'.
Proof.
  intros [A B C D] G W HG HM HR. split.
  - exact W.
  - intros g I. destruct (HG g I) as [I'|H]; [|exact H]. destruct (B g I') as ((p & E) & H1 & H2). destruct (G _ _ E) as (p' & E' & _). split; [eauto|]. split; [|exact H2].
    intros e Ie. eapply entry_ok_grows; eauto.
  - intros m I. destruct (HM m I) as [I'|H]; [|exact H]. destruct (C m I') as [H1 H2]. split; [|exact H2]. intros e Ie. eapply entry_ok_grows; eauto.
  - intros i ns n I In_. destruct (HR i ns I) as [I'|H]; [|auto]. eapply calls_right_grows; eauto.
Qed.

Lemma one_home_functional w m : (forall e, In e (m_pyfuncs m) -> entry_ok w e) -> one_home m -> functional (m_pyfuncs m).
Proof.
  intros H O e e' I I' E. destruct (H e I) as (p & A & B). destruct (H e' I') as (p' & A' & B'). rewrite (O e e' I I') in A. rewrite A in A'. injection A' as <-. rewrite E in B. congruence.
Qed.

Lemma perform_right w a : invariant w -> (forall k m, loads a k -> nth_error (w_models w) k = Some m -> one_home m) ->
  exists w', perform w a = Returned w' /\ invariant w' /\ grows w w'.
Proof.
  intros Inv O. assert (G0 : grows w w) by (intros i p E; exists p; split; [exact E|apply extends_refl]).
  pose proof (inv_processes w Inv) as IP. pose proof (inv_graphs w Inv) as IG. pose proof (inv_models w Inv) as IM.
  destruct a as [|i f|i|j f st name|j name op|j f name|j|j k|i k]; cbn [perform].
  - eexists. split; [reflexivity|]. assert (G : grows w (World (w_processes w ++ [new_process]) (w_graphs w) (w_models w) (w_restored w))).
    { intros i p E. exists p. split; [|apply extends_refl]. cbn. rewrite nth_error_app1; [exact E|]. apply nth_error_Some. congruence. }
    split; [|exact G]. eapply (invariant_step w _ Inv G); cbn; auto. intros i p E. apply nth_error_In, in_app_or in E as [I|[<-|[]]]; [apply In_nth_error in I as (j & I); eauto|].
    intros t f H. discriminate.
  - destruct (nth_error (w_processes w) i) as [p|] eqn:E; [|eexists; split; [reflexivity|]; auto]. destruct (tf_insert p f) as [p' t] eqn:T. cbn [fst].
    destruct (tf_insert_right p f p' t (IP _ _ E) T) as (W & X & _). eexists. split; [reflexivity|].
    pose proof (grows_set w i p p' (w_graphs w) (w_models w) (w_restored w) E X) as G. split; [|exact G].
    eapply (invariant_step w _ Inv G); cbn; auto. eapply wf_set; eauto.
  - destruct (nth_error (w_processes w) i) as [p|] eqn:E; [|eexists; split; [reflexivity|]; auto]. eexists. split; [reflexivity|]. split; [|exact G0].
    eapply (invariant_step w _ Inv); [exact G0| | | |]; cbn; auto. intros g I. apply in_app_or in I as [I|[<-|[]]]; [auto|right]. cbn. split; [eauto|]. split; intros x [].
  - destruct (nth_error (w_graphs w) j) as [g|] eqn:Eg; [|eexists; split; [reflexivity|]; auto]. destruct (nth_error (w_processes w) (g_process g)) as [p|] eqn:E; [|eexists; split; [reflexivity|]; auto].
    unfold insert_pyfunc. destruct (tf_insert p f) as [p' t] eqn:T. destruct (tf_insert_right p f p' t (IP _ _ E) T) as (W & X & R). eexists. split; [reflexivity|].
    match goal with |- invariant ?w' /\ _ => pose proof (grows_set w (g_process g) p p' (w_graphs w') (w_models w) (w_restored w) E X) as G; cbn [w_graphs] in G end. split; [|exact G].
    eapply (invariant_step w _ Inv G); cbn [w_processes w_graphs w_models w_restored]; auto; [eapply wf_set; eauto|]. intros g' I. apply in_set in I as [->|I]; [right|auto]. cbn [g_process g_nodes g_pyfuncs].
    destruct (IG g (nth_error_In _ _ Eg)) as (_ & H1 & H2). split; [exists p'; eapply nth_set_eq; eassumption|]. split.
    + intros e I. apply in_app_or in I as [I|[<-|[]]]; [eapply entry_ok_grows; eauto|]. exists p'. cbn. split; [eapply nth_set_eq; eassumption|exact R].
    + intros n I. apply in_app_or in I as [I|[<-|[]]]; [eapply node_ok_incl; [|apply H2, I]; apply incl_appl, incl_refl|]. unfold node_ok, is_py. cbn [n_op n_token made_for]. destruct st; cbn; exists f; (split; [reflexivity|]); apply in_or_app; right; now left.
  - destruct (nth_error (w_graphs w) j) as [g|] eqn:Eg; [|eexists; split; [reflexivity|]; auto]. destruct (String.eqb op "PyFunc" || String.eqb op "PyFuncStateless") eqn:P; [eexists; split; [reflexivity|]; auto|].
    eexists. split; [reflexivity|]. split; [|exact G0]. eapply (invariant_step w _ Inv); [exact G0| | | |]; cbn [w_processes w_graphs w_models w_restored]; auto. intros g' I. apply in_set in I as [->|I]; [right|auto]. cbn [g_process g_nodes g_pyfuncs].
    destruct (IG g (nth_error_In _ _ Eg)) as (H0 & H1 & H2). split; [exact H0|]. split; [exact H1|]. intros n I. apply in_app_or in I as [I|[<-|[]]]; [auto|]. unfold node_ok, is_py. cbn [n_op made_for]. now rewrite P.
  - destruct (nth_error (w_graphs w) j) as [g|] eqn:Eg; [|eexists; split; [reflexivity|]; auto]. destruct (nth_error (w_processes w) (g_process g)) as [p|] eqn:E; [|eexists; split; [reflexivity|]; auto].
    destruct (tf_insert p f) as [p' t] eqn:T. destruct (tf_insert_right p f p' t (IP _ _ E) T) as (W & X & R). eexists. split; [reflexivity|].
    match goal with |- invariant ?w' /\ _ => pose proof (grows_set w (g_process g) p p' (w_graphs w') (w_models w) (w_restored w) E X) as G; cbn [w_graphs] in G end. split; [|exact G].
    eapply (invariant_step w _ Inv G); cbn [w_processes w_graphs w_models w_restored]; auto; [eapply wf_set; eauto|]. intros g' I. apply in_set in I as [->|I]; [right|auto]. cbn [g_process g_nodes g_pyfuncs].
    destruct (IG g (nth_error_In _ _ Eg)) as (_ & H1 & H2). split; [exists p'; eapply nth_set_eq; eassumption|]. split.
    + intros e I. apply in_app_or in I as [I|[<-|[]]]; [eapply entry_ok_grows; eauto|]. exists p'. cbn. split; [eapply nth_set_eq; eassumption|exact R].
    + intros n I. eapply node_ok_incl; [|apply H2, I]. apply incl_appl, incl_refl.
  - destruct (nth_error (w_graphs w) j) as [g|] eqn:Eg; [|eexists; split; [reflexivity|]; auto]. eexists. split; [reflexivity|]. split; [|exact G0].
    eapply (invariant_step w _ Inv); [exact G0| | | |]; cbn [w_processes w_graphs w_models w_restored]; auto. intros m I. apply in_app_or in I as [I|[<-|[]]]; [auto|right]. cbn [export m_pyfuncs m_nodes].
    destruct (IG g (nth_error_In _ _ Eg)) as (H0 & H1 & H2). split; [exact H1|]. intros n I. eapply node_ok_has; eauto.
  - destruct (nth_error (w_graphs w) j) as [g|] eqn:Eg; [|eexists; split; [reflexivity|]; auto]. destruct (nth_error (w_models w) k) as [m|] eqn:Em; [|eexists; split; [reflexivity|]; auto].
    destruct (nth_error (w_processes w) (g_process g)) as [p|] eqn:E; [|eexists; split; [reflexivity|]; auto]. destruct (IM m (nth_error_In _ _ Em)) as [M1 M2].
    destruct (load_right p g m (IP _ _ E) (one_home_functional w m M1 (O k m eq_refl Em)) M2) as (p' & g' & -> & W & X & Hp & (more & Hn & Hm) & (news & He & Hr)).
    eexists. split; [reflexivity|].
    match goal with |- invariant ?w' /\ _ => pose proof (grows_set w (g_process g) p p' (w_graphs w') (w_models w) (w_restored w) E X) as G; cbn [w_graphs] in G end. split; [|exact G].
    eapply (invariant_step w _ Inv G); cbn [w_processes w_graphs w_models w_restored]; auto; [eapply wf_set; eauto|]. intros g'' I. apply in_set in I as [->|I]; [right|auto]. rewrite Hp.
    destruct (IG g (nth_error_In _ _ Eg)) as (_ & H1 & H2). split; [exists p'; eapply nth_set_eq; eassumption|]. split.
    + intros e I. rewrite He in I. apply in_app_or in I as [I|I]; [eapply entry_ok_grows; eauto|]. apply in_app_or in I as [I|I]; [|eapply entry_ok_grows; eauto].
      destruct (Hr e I) as [A B]. exists p'. rewrite A. split; [eapply nth_set_eq; eassumption|exact B].
    + intros n I. rewrite Hn in I. apply in_app_or in I as [I|I]; [|auto]. eapply node_ok_incl; [|apply H2, I]. rewrite He. apply incl_appl, incl_refl.
  - destruct (nth_error (w_processes w) i) as [p|] eqn:E; [|eexists; split; [reflexivity|]; auto]. destruct (nth_error (w_models w) k) as [m|] eqn:Em; [|eexists; split; [reflexivity|]; auto].
    destruct (IM m (nth_error_In _ _ Em)) as [M1 M2].
    destruct (load_v2_right i p m (IP _ _ E) (one_home_functional w m M1 (O k m eq_refl Em)) M2) as (p' & ns & -> & W & X & _ & N).
    eexists. split; [reflexivity|]. pose proof (grows_set w i p p' (w_graphs w) (w_models w) (w_restored w ++ [(i, ns)]) E X) as G. split; [|exact G].
    eapply (invariant_step w _ Inv G); cbn [w_processes w_graphs w_models w_restored]; auto; [eapply wf_set; eauto|]. intros i' ns' I. apply in_app_or in I as [I|[I|[]]]; [auto|right]. injection I as <- <-.
    intros n I f Mf. exists p'. split; [eapply nth_set_eq; eassumption|]. now apply N.
Qed.

Lemma invariant_all_right w : invariant w -> all_right w.
Proof.
  intros Inv. split; [|exact (inv_restored w Inv)]. intros g n Ig In_ f Mf. destruct (inv_graphs w Inv g Ig) as (_ & H1 & H2). specialize (H2 n In_). unfold node_ok in H2.
  destruct (is_py n); [|congruence]. destruct H2 as (f' & A & B). destruct (H1 _ B) as (p & C & D). cbn in C, D. exists p. split; [exact C|]. congruence.
Qed.
Lemma nothing_invariant : invariant nothing.
Proof. split; cbn; try (intros; contradiction). intros [|i]; discriminate. Qed.

Theorem histories_right : forall l w, invariant w -> loads_one_home w l -> exists w', perform_all w l = Returned w' /\ invariant w'.
Proof.
  induction l as [|a l IH]; intros w Inv L; [exists w; split; [reflexivity|exact Inv]|]. destruct L as [L1 L2].
  destruct (perform_right w a Inv L1) as (w' & E & Inv' & _). cbn [perform_all]. rewrite E. apply IH; [exact Inv'|]. now apply L2.
Qed.
Theorem from_nothing l : loads_one_home nothing l -> exists w, perform_all nothing l = Returned w /\ all_right w.
Proof. intros L. destruct (histories_right l nothing nothing_invariant L) as (w & E & Inv). exists w. split; [exact E|now apply invariant_all_right]. Qed.
End Proofs.
