(** * Histories in which the functions are always right *)
From Coq Require Import String List Arith Bool Lia.
From Verif Require Import PyFuncModel PyFuncSpec PyFuncProofs.
Import ListNotations.
Local Open Scope list_scope.
Local Notation length := List.length.

Section History.
Context {func : Type}.
Implicit Types (g : graph (func := func)) (m : meta_graph (func := func)) (w : world (func := func)) (a : action (func := func)).

(** ** One process *)
Lemma set_nth_length {A} (x : A) : forall l i, length (set_nth i x l) = length l.
Proof. induction l as [|y l IH]; intros [|i]; cbn; auto. Qed.
Lemma perform_processes w a w' : a <> New_process -> perform w a = Returned w' -> length (w_processes w') = length (w_processes w).
Proof.
  intros N E. destruct a as [|i f|i|j f st name|j name op|j f name|j|j k|i k]; [congruence| | | | | | | |]; cbn [perform] in E;
    repeat match type of E with
    | context [match ?x with _ => _ end] => destruct x
    end; try discriminate; injection E as <-; cbn; rewrite ?set_nth_length; reflexivity.
Qed.
Lemma home_bound w e : entry_ok w e -> e_home e < length (w_processes w).
Proof. intros (p & E & _). apply nth_error_Some. congruence. Qed.
Lemma one_process_from : forall l w, invariant w -> length (w_processes w) = 1 -> ~ In New_process l -> loads_one_home w l.
Proof.
  induction l as [|a l IH]; intros w Inv L N; [exact I|].
  assert (O : forall k m, loads a k -> nth_error (w_models w) k = Some m -> one_home m).
  { intros k m _ Em e e' Ie Ie'. destruct (inv_models w Inv m (nth_error_In _ _ Em)) as [H _]. pose proof (home_bound w e (H e Ie)). pose proof (home_bound w e' (H e' Ie')). lia. }
  split; [exact O|]. intros w' E. apply IH.
  - destruct (perform_right w a Inv O) as (w2 & E2 & Inv2 & _). rewrite E in E2. injection E2 as <-. exact Inv2.
  - rewrite (perform_processes w a w'); [exact L| |exact E]. intros ->. apply N. now left.
  - intros I. apply N. now right.
Qed.
Theorem one_process_right l : one_process l -> exists w, perform_all nothing l = Returned w /\ all_right w.
Proof.
  intros (l' & -> & N). apply from_nothing. split; [intros k m []|]. intros w' E. injection E as <-. apply one_process_from; [|reflexivity|exact N].
  destruct (perform_right (func := func) nothing New_process nothing_invariant) as (w2 & E2 & Inv2 & _); [intros k m []|]. injection E2 as <-. exact Inv2.
Qed.

(** ** Graphs that are saved before anything is loaded into them *)
Definition at_home g : Prop := forall e, In e (g_pyfuncs g) -> e_home e = g_process g.
Definition tidy w (loaded : nat -> Prop) : Prop :=
  (forall j g, nth_error (w_graphs w) j = Some g -> ~ loaded j -> at_home g) /\ (forall m, In m (w_models w) -> one_home m).

Lemma tidy_set w loaded j g g' ps : tidy w loaded -> nth_error (w_graphs w) j = Some g -> (~ loaded j -> at_home g') ->
  tidy (World ps (set_nth j g' (w_graphs w)) (w_models w) (w_restored w)) loaded.
Proof.
  intros [A B] E H. split; [|exact B]. cbn. intros j' g'' E' N. destruct (Nat.eq_dec j j') as [<-|Ne].
  - rewrite (nth_set_eq g' _ _ _ E) in E'. injection E' as <-. auto.
  - rewrite nth_set_ne in E' by exact Ne. eauto.
Qed.
Lemma tidy_perform w loaded a w' : tidy w loaded -> (forall j, a = Save j -> ~ loaded j) -> perform w a = Returned w' ->
  tidy w' (fun j => loaded j \/ exists k, a = Load j k).
Proof.
  intros T S E. assert (Weak : tidy w' loaded -> tidy w' (fun j => loaded j \/ exists k, a = Load j k)) by (intros [A B]; split; [intros j g Ej N; apply (A j g Ej); tauto|exact B]).
  destruct T as [A B]. destruct a as [|i f|i|j f st name|j name op|j f name|j|j k|i k]; cbn [perform] in E.
  - injection E as <-. apply Weak. now split.
  - apply Weak. destruct (nth_error (w_processes w) i); injection E as <-; now split.
  - apply Weak. destruct (nth_error (w_processes w) i); injection E as <-; [|now split]. split; [|exact B]. cbn. intros j g Ej N.
    apply nth_error_In in Ej as I. apply in_app_or in I as [I|[<-|[]]]; [|intros e []].
    destruct (lt_dec j (length (w_graphs w))) as [L|L]; [rewrite nth_error_app1 in Ej by exact L; eauto|].
    rewrite nth_error_app2 in Ej by lia. destruct (j - length (w_graphs w)) as [|d]; cbn in Ej; [injection Ej as <-; intros e []|destruct d; discriminate].
  - apply Weak. destruct (nth_error (w_graphs w) j) as [g|] eqn:Eg; [|injection E as <-; now split]. destruct (nth_error (w_processes w) (g_process g)) as [p|]; [|injection E as <-; now split].
    unfold insert_pyfunc in E. destruct (tf_insert p f) as [p' t]. injection E as <-. apply (tidy_set w loaded j g); [now split|exact Eg|].
    intros N e I. cbn in *. apply in_app_or in I as [I|[<-|[]]]; [exact (A j g Eg N e I)|reflexivity].
  - apply Weak. destruct (nth_error (w_graphs w) j) as [g|] eqn:Eg; [|injection E as <-; now split]. destruct (String.eqb op "PyFunc" || String.eqb op "PyFuncStateless"); injection E as <-; [now split|].
    apply (tidy_set w loaded j g); [now split|exact Eg|]. intros N e I. exact (A j g Eg N e I).
  - apply Weak. destruct (nth_error (w_graphs w) j) as [g|] eqn:Eg; [|injection E as <-; now split]. destruct (nth_error (w_processes w) (g_process g)) as [p|]; [|injection E as <-; now split].
    destruct (tf_insert p f) as [p' t]. injection E as <-. apply (tidy_set w loaded j g); [now split|exact Eg|].
    intros N e I. cbn in *. apply in_app_or in I as [I|[<-|[]]]; [exact (A j g Eg N e I)|reflexivity].
  - apply Weak. destruct (nth_error (w_graphs w) j) as [g|] eqn:Eg; [|injection E as <-; now split]. injection E as <-. split; [exact A|]. cbn. intros m I.
    apply in_app_or in I as [I|[<-|[]]]; [auto|]. intros e e' Ie Ie'. cbn in *. pose proof (A j g Eg (S j eq_refl)) as H. rewrite (H e Ie), (H e' Ie'). reflexivity.
  - destruct (nth_error (w_graphs w) j) as [g|] eqn:Eg; [|injection E as <-; apply Weak; now split]. destruct (nth_error (w_models w) k) as [m|]; [|injection E as <-; apply Weak; now split].
    destruct (nth_error (w_processes w) (g_process g)) as [p|]; [|injection E as <-; apply Weak; now split]. destruct (partially_apply_saved_transform p g m) as [[p' g']|]; [|discriminate]. injection E as <-.
    split; [|exact B]. cbn. intros j' g'' E' N. destruct (Nat.eq_dec j j') as [<-|Ne]; [exfalso; apply N; right; eauto|].
    rewrite nth_set_ne in E' by exact Ne. apply (A j' g'' E'). tauto.
  - apply Weak. destruct (nth_error (w_processes w) i) as [p|]; [|injection E as <-; now split]. destruct (nth_error (w_models w) k) as [m|]; [|injection E as <-; now split].
    destruct (restore_from_v1_saved_model i p m) as [[p' ns]|]; [|discriminate]. injection E as <-. now split.
Qed.
Lemma saved_before_from : forall l w loaded, tidy w loaded -> (forall j, loaded j -> ~ In (Save j) l) -> saved_before_loading l -> loads_one_home w l.
Proof.
  induction l as [|a l IH]; intros w loaded T H S; [exact I|]. split.
  - intros k m _ Em. apply T. eapply nth_error_In; eassumption.
  - intros w' E. apply (IH w' (fun j => loaded j \/ exists k, a = Load j k)).
    + eapply tidy_perform; [exact T| |exact E]. intros j -> L. apply (H j L). now left.
    + intros j [L|(k & ->)] I; [apply (H j L); now right|]. exact (S [] j k l eq_refl I).
    + intros before j k after -> I. apply (S (a :: before) j k after eq_refl I).
Qed.
Theorem saved_before_right l : saved_before_loading l -> exists w, perform_all nothing l = Returned w /\ all_right w.
Proof.
  intros S. apply from_nothing. apply (saved_before_from l nothing (fun _ => False)); [|tauto|exact S]. split; [intros [|j] g E; discriminate|intros m []].
Qed.

(** ** Functions that were not stored *)
Lemma swap_none (d : list (token * token)) expected : forall nodes : list (node (func := func)),
  (exists n, In n nodes /\ is_py n = true /\ get d (n_token n) = None /\ ~ In (n_token n) expected) -> swap_tokens d expected nodes = None.
Proof.
  induction nodes as [|n nodes IH]; intros (n0 & I & P & G & X); [destruct I|]. cbn [swap_tokens]. fold (is_py n). destruct I as [->|I].
  - rewrite P, G. replace (existsb (Nat.eqb (n_token n0)) expected) with false; [reflexivity|]. symmetry. apply not_true_is_false. intros E. apply existsb_exists in E as (t & It & Et). apply Nat.eqb_eq in Et as <-. contradiction.
  - rewrite IH by eauto. destruct (if is_py n then _ else _); reflexivity.
Qed.
Lemma get_in (d : list (token * token)) t t' : get d t = Some t' -> In t (map fst d).
Proof. unfold get. destruct (find (fun kv => fst kv =? t) d) as [kv|] eqn:F; [|discriminate]. intros _. apply find_some in F as [I E]. apply Nat.eqb_eq in E as <-. now apply in_map. Qed.
Lemma reinsert_keys : forall defs (p : process (func := func)) g d p' g' d', reinsert p g defs d = (p', g', d') -> map fst d' = rev (map e_token defs) ++ map fst d.
Proof.
  induction defs as [|e defs IH]; intros p g d p' g' d' E; cbn [reinsert] in E; [now injection E as <- <- <-|].
  destruct (insert_pyfunc p g (e_func e) false "temp") as [[p1 g1] t1]. rewrite (IH _ _ _ _ _ _ E). cbn. now rewrite <- app_assoc.
Qed.
Theorem unregistered_raises p g m : m_pyfuncs m <> [] ->
  (exists n, In n (m_nodes m) /\ (n_op n = "PyFunc" \/ n_op n = "PyFuncStateless")%string /\ forall e, In e (m_pyfuncs m) -> e_token e <> n_token n) ->
  partially_apply_saved_transform p g m = Raised.
Proof.
  intros Ne (n & I & P & X). unfold partially_apply_saved_transform, register_pyfuncs_from_saved_transform. destruct (m_pyfuncs m) as [|e0 defs0] eqn:Ed; [congruence|]. rewrite <- Ed in *.
  destruct (reinsert p g (m_pyfuncs m) []) as [[p' g'] d'] eqn:R. assert (K : ~ In (n_token n) (map fst d')).
  { rewrite (reinsert_keys _ _ _ _ _ _ _ R), app_nil_r. intros J. apply in_rev, in_map_iff in J as (e & E & Ie). exact (X e Ie E). }
  rewrite swap_none; [reflexivity|]. exists n. split; [exact I|]. split; [unfold is_py; destruct P as [-> | ->]; reflexivity|]. split; [|exact K].
  destruct (get d' (n_token n)) as [t'|] eqn:G; [|reflexivity]. exfalso. eapply K, get_in; eassumption.
Qed.
End History.
