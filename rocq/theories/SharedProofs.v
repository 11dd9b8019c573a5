(** * Proofs about shared graph states *)
From Coq Require Import String List Bool Arith Lia Permutation.
From Verif Require Import SharedModel SharedSpec.
Import ListNotations.
Local Open Scope list_scope.
Local Notation length := List.length.

(** ** Lists *)
Lemma update_length {A} (l : list A) : forall n a, length (update l n a) = length l.
Proof. induction l as [|x l IH]; intros [|n] a; cbn; auto. Qed.
Lemma update_same {A} (l : list A) : forall n a, n < length l -> nth_error (update l n a) n = Some a.
Proof. induction l as [|x l IH]; intros [|n] a H; cbn in *; try lia; [reflexivity|apply IH; lia]. Qed.
Lemma update_other {A} (l : list A) : forall n m a, n <> m -> nth_error (update l n a) m = nth_error l m.
Proof. induction l as [|x l IH]; intros [|n] [|m] a H; cbn; try reflexivity; try congruence. apply IH. congruence. Qed.
Lemma update_nth {A} (l : list A) n m a x : nth_error (update l n a) m = Some x -> (m = n /\ x = a /\ n < length l) \/ (m <> n /\ nth_error l m = Some x).
Proof.
  intros H. destruct (Nat.eq_dec n m) as [<-|N]; [|right; split; [congruence|rewrite update_other in H; assumption]].
  assert (L : n < length l) by (rewrite <- (update_length l n a); apply nth_error_Some; congruence).
  rewrite update_same in H by exact L. left. repeat split; congruence.
Qed.
Lemma update_flat_map {A B} (g : A -> list B) l : forall n old new, nth_error l n = Some old ->
  Permutation (g old ++ flat_map g (update l n new)) (g new ++ flat_map g l).
Proof.
  induction l as [|x l IH]; intros [|n] old new H; try discriminate; cbn [nth_error update flat_map] in *.
  - injection H as ->. rewrite !app_assoc. apply Permutation_app_tail, Permutation_app_comm.
  - rewrite app_assoc, (Permutation_app_comm (g old) (g x)), <- app_assoc, (IH _ _ new H), !app_assoc.
    apply Permutation_app_tail, Permutation_app_comm.
Qed.
Lemma nth_error_snoc {A} (l : list A) a n x : nth_error (l ++ [a]) n = Some x -> nth_error l n = Some x \/ (n = length l /\ x = a).
Proof.
  intros H. destruct (lt_dec n (length l)) as [L|L]; [left; rewrite nth_error_app1 in H; assumption|]. right.
  rewrite nth_error_app2 in H by lia. destruct (n - length l) as [|k] eqn:E; cbn in H; [split; [lia|congruence]|destruct k; discriminate].
Qed.
Lemma nth_error_old {A} (l : list A) a n x : nth_error l n = Some x -> nth_error (l ++ [a]) n = Some x.
Proof. intros H. rewrite nth_error_app1; [exact H|]. apply nth_error_Some. congruence. Qed.

Section proofs.
  Context {model batch out : Type} (load : nat -> string -> option model) (run : model -> batch -> option out).
  Notation execute := (execute load run).
  Notation step := (step load run).
  Notation transformed := (transformed load run).
  Implicit Types (sch : list (event batch)) (s : @process model batch out).

  Lemma execute_snoc sch e : execute (sch ++ [e]) = step (execute sch) e.
  Proof. unfold SharedModel.execute. rewrite fold_left_app. reflexivity. Qed.
  Lemma set_ups_snoc sch e : set_ups (sch ++ [e]) = set_ups sch ++ match e with Set_up p => [p] | _ => [] end.
  Proof. unfold set_ups. rewrite flat_map_app. cbn. rewrite app_nil_r. reflexivity. Qed.
  Lemma pardo_of_snoc sch e f p : pardo_of sch f p -> pardo_of (sch ++ [e]) f p.
  Proof. unfold pardo_of. rewrite set_ups_snoc. intros H. rewrite nth_error_app1; [exact H|]. apply nth_error_Some. congruence. Qed.
  Lemma is_called_snoc sch e p b dir : is_called sch p b dir -> is_called (sch ++ [e]) p b dir.
  Proof. intros (f & P & I). exists f. split; [apply pardo_of_snoc, P|apply in_or_app; auto]. Qed.

  (** ** What holds at any time *)
  Definition holds (d : @dofn batch) (o : nat) : Prop := f_state d = Some o \/ exists r, f_request d = Some r /\ r_state r = Some o.
  Definition live (s : @process model batch out) (o handle : nat) : Prop :=
    exists ob, nth_error (objects s) o = Some ob /\ o_handle ob = handle /\ o_collected ob = false.
  Record good sch (s : @process model batch out) : Prop := {
    g_pardos : map f_pardo (dofns s) = set_ups sch;
    g_objects : forall o ob, nth_error (objects s) o = Some ob -> load (o_handle ob) (o_dir ob) = Some (o_model ob) /\
      exists b, is_called sch (o_handle ob) b (o_dir ob);
    g_held : forall f d o, nth_error (dofns s) f = Some d -> holds d o -> live s o (f_pardo d);
    g_down : forall f d, nth_error (dofns s) f = Some d -> f_up d = false -> f_state d = None /\ f_request d = None;
    g_request : forall f d r, nth_error (dofns s) f = Some d -> f_request d = Some r ->
      is_called sch (f_pardo d) (r_batch r) (r_dir r) /\ (r_state r = None -> load (f_pardo d) (r_dir r) = None);
    g_keepalive : forall o, keepalive s = Some o -> exists h, live s o h;
    g_reference : forall o h, live s o h -> reference s h = Some o;
    g_referred : forall o h, reference s h = Some o -> exists ob, nth_error (objects s) o = Some ob /\ o_handle ob = h;
    g_loads : loads s = map o_handle (objects s);
    g_log : forall e, In e (log s) -> is_called sch (e_pardo e) (e_batch e) (e_dir e) /\
      (e_outcome e = transformed (e_pardo e) (e_batch e) (e_dir e) \/
       e_outcome e = Wrong_directory /\ exists b dir, dir <> e_dir e /\ is_called sch (e_pardo e) b dir) }.

  Lemma called_or sch e p b dir : is_called sch p b dir -> is_called (sch ++ [e]) p b dir.
  Proof. apply is_called_snoc. Qed.
  Lemma good_log_snoc sch e (l : list (entry batch out)) :
    (forall e, In e l -> is_called sch (e_pardo e) (e_batch e) (e_dir e) /\
      (e_outcome e = transformed (e_pardo e) (e_batch e) (e_dir e) \/
       e_outcome e = Wrong_directory /\ exists b dir, dir <> e_dir e /\ is_called sch (e_pardo e) b dir)) ->
    forall en, In en l -> is_called (sch ++ [e]) (e_pardo en) (e_batch en) (e_dir en) /\
      (e_outcome en = transformed (e_pardo en) (e_batch en) (e_dir en) \/
       e_outcome en = Wrong_directory /\ exists b dir, dir <> e_dir en /\ is_called (sch ++ [e]) (e_pardo en) b dir).
  Proof.
    intros H en I. destruct (H en I) as [C O]. split; [apply is_called_snoc, C|]. destruct O as [O|(O & b & dir & N & C')]; [auto|].
    right. split; [exact O|]. exists b, dir. split; [exact N|apply is_called_snoc, C'].
  Qed.
  (** Events that leave the process as it is. *)
  Lemma good_same sch e s : match e with Set_up _ => False | _ => True end -> good sch s -> good (sch ++ [e]) s.
  Proof.
    intros NE G. destruct G as [G1 G2 G3 G4 G5 G6 G7 G8 G9 G10]. split; try assumption.
    - rewrite set_ups_snoc. destruct e; try contradiction; rewrite app_nil_r; exact G1.
    - intros o ob H. destruct (G2 o ob H) as (L & b & C). split; [exact L|]. exists b. apply is_called_snoc, C.
    - intros f d r H R. destruct (G5 f d r H R) as [C L]. split; [apply is_called_snoc, C|exact L].
    - apply good_log_snoc, G10.
  Qed.
  Lemma good_set_up sch s p : good sch s ->
    good (sch ++ [Set_up p]) (Process (objects s) (references s) (keepalive s) (dofns s ++ [DoFn p None None true]) (log s) (loads s)).
  Proof.
    intros [G1 G2 G3 G4 G5 G6 G7 G8 G9 G10]. split; cbn [dofns objects keepalive log loads]; try assumption.
    - rewrite map_app, G1, set_ups_snoc. reflexivity.
    - intros o ob H. destruct (G2 o ob H) as (L & b & C). split; [exact L|]. exists b. apply is_called_snoc, C.
    - intros f d o H. apply nth_error_snoc in H as [H|[_ ->]]; [exact (G3 f d o H)|]. intros [E|(r & E & _)]; discriminate.
    - intros f d H. apply nth_error_snoc in H as [H|[_ ->]]; [exact (G4 f d H)|discriminate].
    - intros f d r H R. apply nth_error_snoc in H as [H|[_ ->]]; [|discriminate]. destruct (G5 f d r H R) as [C L]. split; [apply is_called_snoc, C|exact L].
    - apply good_log_snoc, G10.
  Qed.
  (** A DoFn changes, and keeps its ParDo. *)
  Lemma good_update sch s f d d' : good sch s -> nth_error (dofns s) f = Some d -> f_pardo d' = f_pardo d ->
    (forall o, holds d' o -> live s o (f_pardo d)) -> (f_up d' = false -> f_state d' = None /\ f_request d' = None) ->
    (forall r, f_request d' = Some r -> is_called sch (f_pardo d) (r_batch r) (r_dir r) /\ (r_state r = None -> load (f_pardo d) (r_dir r) = None)) ->
    good sch (set_dofn s f d').
  Proof.
    intros [G1 G2 G3 G4 G5 G6 G7 G8 G9 G10] D P H U R. split; cbn [set_dofn dofns objects keepalive log loads]; try assumption.
    - rewrite <- G1. assert (L : f < length (dofns s)) by (apply nth_error_Some; congruence). clear - D P. revert f D.
      induction (dofns s) as [|x l IH]; intros [|f] D; try discriminate; cbn in *; [injection D as ->; congruence|]. f_equal. apply IH, D.
    - intros g e o E. apply update_nth in E as [(-> & -> & _)|(N & E)]; [|exact (G3 g e o E)]. rewrite P. apply H.
    - intros g e E. apply update_nth in E as [(-> & -> & _)|(N & E)]; [exact U|exact (G4 g e E)].
    - intros g e r E. apply update_nth in E as [(-> & -> & _)|(N & E)]; [rewrite P; apply R|exact (G5 g e r E)].
  Qed.
  Lemma reference_cons h o refs objs ka fs lg ld h' : reference (Process (model := model) (batch := batch) (out := out) objs ((h, o) :: refs) ka fs lg ld) h' =
    if h =? h' then Some o else option_map snd (find (fun r => fst r =? h') refs).
  Proof. unfold reference. cbn. destruct (h =? h'); reflexivity. Qed.
  Lemma dereference_some s h o : (forall o h, reference s h = Some o -> exists ob, nth_error (objects s) o = Some ob /\ o_handle ob = h) ->
    dereference s h = Some o -> live s o h.
  Proof.
    intros G. unfold dereference. destruct (reference s h) as [o'|] eqn:R; [|discriminate]. destruct (G _ _ R) as (ob & N & E). rewrite N.
    destruct (o_collected ob) eqn:C; [discriminate|]. intros [= ->]. exists ob. auto.
  Qed.
  Lemma dereference_none s h : (forall o h, live s o h -> reference s h = Some o) -> dereference s h = None -> forall o, ~ live s o h.
  Proof.
    intros G D o L. pose proof (G _ _ L) as R. destruct L as (ob & N & E & C). unfold dereference in D. rewrite R, N, C in D. discriminate.
  Qed.
  Lemma good_acquire sch s p dir s' o b : good sch s -> is_called sch p b dir -> acquire load s p dir = (s', o) ->
    good sch s' /\ dofns s' = dofns s /\ match o with Some o => live s' o p | None => load p dir = None end.
  Proof.
    intros G C. unfold acquire, handle_of. destruct (dereference s p) as [o'|] eqn:D.
    - intros [= <- <-]. split; [exact G|]. split; [reflexivity|]. apply dereference_some; [apply G|exact D].
    - pose proof (dereference_none s p (g_reference _ _ G) D) as NL. destruct (load p dir) as [m|] eqn:L; [|intros [= <- <-]; auto].
      intros [= <- <-]. cbn [dofns]. assert (LV : forall x h, live s x h -> live (Process (objects s ++ [Object p dir m false]) ((p, length (objects s)) :: references s)
        (keepalive s) (dofns s) (log s) (loads s ++ [p])) x h).
      { intros x h (ob & N & E & K). exists ob. cbn. split; [apply nth_error_old, N|auto]. }
      split; [|split; [reflexivity|]].
      + destruct G as [G1 G2 G3 G4 G5 G6 G7 G8 G9 G10]. split; cbn [dofns objects keepalive log loads]; try assumption.
        * intros x ob H. apply nth_error_snoc in H as [H|[_ ->]]; [exact (G2 x ob H)|]. cbn. split; [exact L|eauto].
        * intros f d x H1 H2. apply LV, (G3 f d x H1 H2).
        * intros x K. destruct (G6 x K) as (h & H). exists h. apply LV, H.
        * intros x h (ob & N & E & K). cbn [objects] in N. rewrite reference_cons. apply nth_error_snoc in N as [N|[-> ->]].
          -- assert (LX : live s x h) by (exists ob; auto). destruct (Nat.eqb_spec p h) as [->|]; [destruct (NL x LX)|]. exact (G7 x h LX).
          -- cbn in E. subst h. rewrite Nat.eqb_refl. reflexivity.
        * intros x h. rewrite reference_cons. destruct (Nat.eqb_spec p h) as [->|].
          -- intros [= <-]. eexists. split; [rewrite nth_error_app2 by lia; rewrite Nat.sub_diag; reflexivity|reflexivity].
          -- intros R. destruct (G8 x h R) as (ob & N & E). exists ob. split; [apply nth_error_old, N|exact E].
        * rewrite G9, map_app. reflexivity.
      + eexists. cbn. split; [rewrite nth_error_app2 by lia; rewrite Nat.sub_diag; reflexivity|auto].
  Qed.
  Lemma good_call sch s f d b dir : good sch s -> nth_error (dofns s) f = Some d -> f_up d = true -> f_request d = None ->
    good (sch ++ [Call f b dir]) (call load s f d b dir).
  Proof.
    intros G D U R. pose proof (good_same _ (Call f b dir) s Logic.I G) as G'.
    assert (P : pardo_of (sch ++ [Call f b dir]) f (f_pardo d)).
    { apply pardo_of_snoc. unfold pardo_of. rewrite <- (g_pardos _ _ G). rewrite nth_error_map, D. reflexivity. }
    assert (C : is_called (sch ++ [Call f b dir]) (f_pardo d) b dir) by (exists f; split; [exact P|apply in_or_app; right; left; reflexivity]).
    unfold call. destruct (f_state d) as [o|] eqn:S'.
    - apply (good_update _ _ _ d); try exact G'; try exact D; try reflexivity; try discriminate.
      + intros x [E|(r & E & E')]; [injection E as <-|injection E as <-; cbn in E'; injection E' as <-];
          apply (g_held _ _ G' f d _ D); left; exact S'.
      + intros r [= <-]. cbn. split; [exact C|discriminate].
    - destruct (acquire load s (f_pardo d) dir) as [s' o] eqn:A. destruct (good_acquire _ _ _ _ _ _ _ G' C A) as (G2 & E & L).
      apply (good_update _ _ _ d); try exact G2; try reflexivity; try discriminate.
      + rewrite E. exact D.
      + intros x [H|(r & H & H')]; [discriminate|]. injection H as <-. cbn in H'. subst o. exact L.
      + intros r [= <-]. cbn. split; [exact C|]. intros ->. exact L.
  Qed.
  Lemma good_return sch s f d r : good sch s -> nth_error (dofns s) f = Some d -> f_request d = Some r ->
    good (sch ++ [Return f]) (return_ run s f d r).
  Proof.
    intros G D R. pose proof (good_same _ (Return f) s Logic.I G) as G'. destruct (g_request _ _ G' f d r D R) as [C N].
    unfold return_. destruct (r_state r) as [o|] eqn:S'.
    - assert (L : live s o (f_pardo d)) by (apply (g_held _ _ G f d o D); right; exists r; auto).
      pose proof L as (ob & NO & HO & _). rewrite NO. destruct (g_objects _ _ G' o ob NO) as (LO & b & CO). rewrite HO in LO, CO.
      assert (GU : good (sch ++ [Return f]) (set_dofn s f (DoFn (f_pardo d) (Some o) None true))).
      { apply (good_update _ _ _ d); try exact G'; try exact D; try reflexivity; try discriminate.
        intros x [E|(r' & E & _)]; [injection E as <-; exact L|discriminate]. }
      destruct GU as [U1 U2 U3 U4 U5 U6 U7 U8 U9 U10]. split; cbn [set_dofn dofns objects keepalive log loads] in *; try assumption.
      + intros x. destruct (r_acquired r); [|apply U6]. intros [= <-]. exists (f_pardo d). exact L.
      + intros e I. apply in_app_or in I as [I|[<-|[]]]; [apply U10, I|]. cbn [e_pardo e_batch e_dir e_outcome]. split; [exact C|].
        destruct (String.eqb_spec (o_dir ob) (r_dir r)) as [E|NE].
        * left. unfold handle_batch, SharedSpec.transformed. rewrite <- E, LO. reflexivity.
        * right. split; [reflexivity|]. exists b, (o_dir ob). auto.
    - assert (GU : good (sch ++ [Return f]) (set_dofn s f (DoFn (f_pardo d) None None true))).
      { apply (good_update _ _ _ d); try exact G'; try exact D; try reflexivity; try discriminate.
        intros x [E|(r' & E & _)]; discriminate. }
      destruct GU as [U1 U2 U3 U4 U5 U6 U7 U8 U9 U10]. split; cbn [set_dofn dofns objects keepalive log loads] in *; try assumption.
      intros e I. apply in_app_or in I as [I|[<-|[]]]; [apply U10, I|]. cbn [e_pardo e_batch e_dir e_outcome]. split; [exact C|].
      left. unfold SharedSpec.transformed. rewrite (N eq_refl). reflexivity.
  Qed.
  Lemma reachable_held s o : (exists f d, nth_error (dofns s) f = Some d /\ f_up d = true /\ holds d o) \/ keepalive s = Some o <-> reachable s o = true.
  Proof.
    unfold reachable. rewrite orb_true_iff, existsb_exists. split.
    - intros [(f & d & N & U & H)| ->]; [right|left; cbn; apply Nat.eqb_refl]. exists d. split; [exact (nth_error_In _ _ N)|]. rewrite U. cbn.
      destruct H as [->|(r & -> & ->)]; cbn; rewrite Nat.eqb_refl, ?orb_true_r; reflexivity.
    - intros [H|(d & I & H)].
      + right. unfold refers in H. destruct (keepalive s); [|discriminate]. apply Nat.eqb_eq in H. congruence.
      + left. apply In_nth_error in I as (f & N). exists f, d. split; [exact N|]. apply andb_true_iff in H as [U H]. split; [exact U|].
        apply orb_true_iff in H as [H|H].
        * left. unfold refers in H. destruct (f_state d); [|discriminate]. apply Nat.eqb_eq in H. congruence.
        * right. destruct (f_request d) as [r|]; [|discriminate]. exists r. split; [reflexivity|]. unfold refers in H. destruct (r_state r); [|discriminate].
          apply Nat.eqb_eq in H. congruence.
  Qed.
  Lemma good_collect sch s o : good sch s -> good (sch ++ [Collect o]) (collect s o).
  Proof.
    intros G. apply (good_same _ (Collect o)) in G; [|exact Logic.I]. unfold collect. destruct (reachable s o) eqn:RE; [exact G|].
    destruct (nth_error (objects s) o) as [ob|] eqn:NO; [|exact G].
    assert (LV : forall x h, x <> o -> live s x h -> live (Process (update (objects s) o (Object (o_handle ob) (o_dir ob) (o_model ob) true)) (references s)
        (keepalive s) (dofns s) (log s) (loads s)) x h).
    { intros x h NE (ob' & N & E & K). exists ob'. cbn. split; [rewrite update_other by congruence; exact N|auto]. }
    assert (LI : forall x h, live (Process (update (objects s) o (Object (o_handle ob) (o_dir ob) (o_model ob) true)) (references s)
        (keepalive s) (dofns s) (log s) (loads s)) x h -> live s x h).
    { intros x h (ob' & N & E & K). cbn in N. apply update_nth in N as [(-> & -> & _)|(NE & N)]; [discriminate K|]. exists ob'. auto. }
    pose proof G as [G1 G2 G3 G4 G5 G6 G7 G8 G9 G10]. split; cbn [dofns objects keepalive log loads]; try assumption.
    - intros x ob' N. apply update_nth in N as [(-> & -> & _)|(NE & N)]; [cbn; exact (G2 _ _ NO)|exact (G2 _ _ N)].
    - intros f d x N H. destruct (Nat.eq_dec x o) as [->|NE].
      + exfalso. assert (reachable s o = true); [|congruence]. apply reachable_held. left. exists f, d. split; [exact N|]. split; [|exact H].
        destruct (f_up d) eqn:U; [reflexivity|]. destruct (G4 f d N U) as [A B]. destruct H as [H|(r & H & _)]; congruence.
      + apply LV; [exact NE|]. exact (G3 f d x N H).
    - intros x K. destruct (Nat.eq_dec x o) as [->|NE].
      + exfalso. assert (reachable s o = true); [|congruence]. apply reachable_held. right. exact K.
      + destruct (G6 x K) as (h & L). exists h. apply LV; assumption.
    - intros x h L. apply LI in L. exact (G7 x h L).
    - intros x h R. destruct (G8 x h R) as (ob' & N & E). destruct (Nat.eq_dec x o) as [->|NE].
      + eexists. split; [apply update_same, nth_error_Some; congruence|]. cbn. congruence.
      + exists ob'. split; [rewrite update_other by congruence; exact N|exact E].
    - rewrite G9. clear - NO. revert o NO. induction (objects s) as [|x l IH]; intros [|o] NO; try discriminate; cbn in *; [injection NO as ->; reflexivity|].
      f_equal. apply IH, NO.
  Qed.
  Lemma good_execute sch : good sch (execute sch).
  Proof.
    induction sch as [|e sch IH] using rev_ind.
    - split; cbn.
      + reflexivity.
      + intros [|o] ob; discriminate.
      + intros [|f] d o; discriminate.
      + intros [|f] d; discriminate.
      + intros [|f] d r; discriminate.
      + discriminate.
      + intros o h (ob & N & _). destruct o; discriminate.
      + discriminate.
      + reflexivity.
      + intros e [].
    - rewrite execute_snoc. destruct e as [p|f b dir|f|f| |o]; cbn [SharedModel.step].
      + apply good_set_up, IH.
      + destruct (nth_error (dofns (execute sch)) f) as [d|] eqn:D; [|apply good_same; [exact Logic.I|exact IH]].
        destruct (f_up d) eqn:U; [|apply good_same; [exact Logic.I|exact IH]].
        destruct (f_request d) eqn:R; [apply good_same; [exact Logic.I|exact IH]|]. apply good_call; assumption.
      + destruct (nth_error (dofns (execute sch)) f) as [d|] eqn:D; [|apply good_same; [exact Logic.I|exact IH]].
        destruct (f_request d) eqn:R; [|apply good_same; [exact Logic.I|exact IH]]. apply good_return; assumption.
      + destruct (nth_error (dofns (execute sch)) f) as [d|] eqn:D; [|apply good_same; [exact Logic.I|exact IH]].
        destruct (f_request d) eqn:R; [apply good_same; [exact Logic.I|exact IH]|].
        apply (good_update _ _ _ d); try assumption; try reflexivity; [apply good_same; [exact Logic.I|exact IH]|..].
        * intros x [E|(r & E & _)]; discriminate.
        * intros _. split; reflexivity.
        * discriminate.
      + destruct (good_same sch Clear _ Logic.I IH) as [G1 G2 G3 G4 G5 G6 G7 G8 G9 G10].
        split; cbn [dofns objects keepalive log loads]; try assumption. discriminate.
      + apply good_collect, IH.
  Qed.

  Lemma right_model sch e : In e (log (execute sch)) -> is_called sch (e_pardo e) (e_batch e) (e_dir e) /\
    (e_outcome e = transformed (e_pardo e) (e_batch e) (e_dir e) \/
     e_outcome e = Wrong_directory /\ exists b dir, dir <> e_dir e /\ is_called sch (e_pardo e) b dir).
  Proof. apply (g_log _ _ (good_execute sch)). Qed.
  Lemma one_copy sch o o' ob ob' : nth_error (objects (execute sch)) o = Some ob -> nth_error (objects (execute sch)) o' = Some ob' ->
    o_collected ob = false -> o_collected ob' = false -> o_handle ob = o_handle ob' -> o = o'.
  Proof.
    intros N N' C C' E. pose proof (good_execute sch) as G.
    assert (R : reference (execute sch) (o_handle ob) = Some o) by (apply (g_reference _ _ G); exists ob; auto).
    assert (R' : reference (execute sch) (o_handle ob) = Some o') by (apply (g_reference _ _ G); exists ob'; auto). congruence.
  Qed.

  (** ** Well-formed schedules *)
  Lemma set_ups_length sch : length (dofns (execute sch)) = length (set_ups sch).
  Proof. rewrite <- (g_pardos _ _ (good_execute sch)), map_length. reflexivity. Qed.
  Lemma dofn_pardo sch f p : pardo_of sch f p -> exists d, nth_error (dofns (execute sch)) f = Some d /\ f_pardo d = p.
  Proof.
    unfold pardo_of. rewrite <- (g_pardos _ _ (good_execute sch)), nth_error_map. destruct (nth_error _ f) as [d|]; [|discriminate].
    intros [= <-]. exists d. auto.
  Qed.
  Lemma snoc_inj {A} (l l' : list A) a a' : l ++ [a] = l' ++ [a'] -> l = l' /\ a = a'.
  Proof. apply app_inj_tail. Qed.
  Lemma busy_snoc f sch e : busy f (sch ++ [e]) <-> (exists b dir, e = Call f b dir) \/ (busy f sch /\ e <> Return f).
  Proof.
    split.
    - inversion 1 as [sch' b dir E|sch' e' B N E]; apply snoc_inj in E as [E1 E2]; subst; [left; eauto|right; auto].
    - intros [(b & dir & ->)|[B N]]; [apply Busy_call|apply Busy_on; assumption].
  Qed.
  Lemma torn_down_snoc f sch (e : event batch) : torn_down (sch ++ [e]) f <-> torn_down sch f \/ e = Tear_down f.
  Proof. clear load run. unfold torn_down. rewrite in_app_iff. cbn. intuition. Qed.
  Definition status sch (s : @process model batch out) : Prop := forall f d, nth_error (dofns s) f = Some d ->
    (f_up d = false <-> torn_down sch f) /\ (f_request d <> None <-> busy f sch).
  Lemma never_busy sch f : well_formed sch -> length (set_ups sch) <= f -> ~ busy f sch /\ ~ torn_down sch f.
  Proof.
    clear load run. intros W. revert f. induction W as [|sch p W IH|sch f b dir p W IH P T B|sch f W IH B|sch f p W IH P T B|sch W IH|sch o W IH]; intros g L.
    - split; [intros H; inversion H as [? ? ? E|? ? ? ? E]; destruct sch; discriminate|intros []].
    - rewrite set_ups_snoc, app_length in L. cbn in L. destruct (IH g ltac:(lia)) as [A C]. rewrite busy_snoc, torn_down_snoc. split.
      + intros [(b & dir & [=])|[H _]]. auto.
      + intros [H|[=]]. auto.
    - rewrite set_ups_snoc, app_nil_r in L. destruct (IH g L) as [A C]. rewrite busy_snoc, torn_down_snoc. split.
      + intros [(b' & dir' & [= <- <- <-])|[H _]]; [|auto]. apply nth_error_None in L. unfold pardo_of in P. congruence.
      + intros [H|[=]]. auto.
    - rewrite set_ups_snoc, app_nil_r in L. destruct (IH g L) as [A C]. rewrite busy_snoc, torn_down_snoc. split.
      + intros [(b' & dir' & [=])|[H _]]. auto.
      + intros [H|[=]]. auto.
    - rewrite set_ups_snoc, app_nil_r in L. destruct (IH g L) as [A C]. rewrite busy_snoc, torn_down_snoc. split.
      + intros [(b' & dir' & [=])|[H _]]. auto.
      + intros [H|[= <-]]; [auto|]. apply nth_error_None in L. unfold pardo_of in P. congruence.
    - rewrite set_ups_snoc, app_nil_r in L. destruct (IH g L) as [A C]. rewrite busy_snoc, torn_down_snoc. split.
      + intros [(b' & dir' & [=])|[H _]]. auto.
      + intros [H|[=]]. auto.
    - rewrite set_ups_snoc, app_nil_r in L. destruct (IH g L) as [A C]. rewrite busy_snoc, torn_down_snoc. split.
      + intros [(b' & dir' & [=])|[H _]]. auto.
      + intros [H|[=]]. auto.
  Qed.
  Lemma call_dofns s f d b dir : exists st r, dofns (call load s f d b dir) = update (dofns s) f (DoFn (f_pardo d) st (Some r) true) /\
    r_batch r = b /\ r_dir r = dir /\ log (call load s f d b dir) = log s.
  Proof.
    unfold call, acquire. destruct (f_state d).
    - do 2 eexists. split; [reflexivity|auto].
    - destruct (dereference s _); [|destruct (load _ dir)]; do 2 eexists; (split; [reflexivity|auto]).
  Qed.
  Lemma return_dofns s f d r : exists st oc, dofns (return_ run s f d r) = update (dofns s) f (DoFn (f_pardo d) st None true) /\
    log (return_ run s f d r) = log s ++ [Entry (f_pardo d) (r_batch r) (r_dir r) oc].
  Proof. unfold return_. destruct (r_state r); do 2 eexists; split; reflexivity. Qed.
  Lemma collect_dofns s o : dofns (collect s o) = dofns s /\ log (collect s o) = log s /\ keepalive (collect s o) = keepalive s.
  Proof. unfold collect. destruct (reachable s o); [auto|]. destruct (nth_error _ o); auto. Qed.

  Lemma well_formed_status sch : well_formed sch -> status sch (execute sch).
  Proof.
    intros W. induction W as [|sch p W IH|sch f b dir p W IH P T B|sch f W IH B|sch f p W IH P T B|sch W IH|sch o W IH].
    - intros [|f] d; discriminate.
    - rewrite execute_snoc. intros g d H. cbn in H. rewrite busy_snoc, torn_down_snoc. apply nth_error_snoc in H as [H|[-> ->]].
      + destruct (IH g d H) as [A C]. rewrite A, C. split; split; intros X; try tauto; [intuition congruence|right; split; [exact X|discriminate]|].
        destruct X as [(? & ? & [=])|[X _]]. exact X.
      + cbn. destruct (never_busy sch (length (dofns (execute sch))) W) as [A C]; [rewrite set_ups_length; lia|].
        split; split; intros X; try discriminate; try congruence; exfalso.
        * destruct X as [X|[=]]. auto.
        * destruct X as [(? & ? & [=])|[X _]]. auto.
    - rewrite execute_snoc. destruct (dofn_pardo sch f p P) as (d & D & EP). destruct (IH f d D) as [A C]. cbn. rewrite D.
      assert (U : f_up d = true) by (destruct (f_up d); [reflexivity|destruct (T (proj1 A eq_refl))]). rewrite U.
      assert (R : f_request d = None) by (destruct (f_request d); [destruct (B (proj1 C ltac:(discriminate)))|reflexivity]). rewrite R.
      destruct (call_dofns (execute sch) f d b dir) as (st & r & E & _). intros g e H. rewrite E in H. rewrite busy_snoc, torn_down_snoc.
      apply update_nth in H as [(-> & -> & _)|(N & H)].
      + cbn. split; split; intros X; try discriminate; try congruence; [destruct X as [X|[=]]; contradiction|]. left; eauto.
      + destruct (IH g e H) as [A' C']. rewrite A', C'. split; split; intros X; try tauto; [destruct X as [X|[=]]; exact X|right; split; [exact X|discriminate]|].
        destruct X as [(? & ? & [= <- _ _])|[X _]]; [congruence|exact X].
    - rewrite execute_snoc. cbn. assert (L : f < length (set_ups sch)).
      { destruct (lt_dec f (length (set_ups sch))) as [L|L]; [exact L|]. exfalso. destruct (never_busy sch f W ltac:(lia)) as [X _]. auto. }
      rewrite <- set_ups_length in L. destruct (nth_error (dofns (execute sch)) f) as [d|] eqn:D; [|apply nth_error_None in D; lia].
      destruct (IH f d D) as [A C]. destruct (f_request d) as [r|] eqn:R; [|destruct (proj2 C B eq_refl)].
      assert (U : f_up d = true).
      { destruct (f_up d) eqn:U; [reflexivity|]. destruct (g_down _ _ (good_execute sch) f d D U) as [_ X]. congruence. }
      destruct (return_dofns (execute sch) f d r) as (st & oc & E & _). intros g e H. rewrite E in H. rewrite busy_snoc, torn_down_snoc.
      apply update_nth in H as [(-> & -> & _)|(N & H)].
      + cbn. split; split; intros X; try discriminate; try congruence.
        * destruct X as [X|[=]]. destruct (proj2 A X). reflexivity || congruence.
        * destruct X as [(? & ? & [=])|[_ X]]. congruence.
      + destruct (IH g e H) as [A' C']. rewrite A', C'. split; split; intros X; try tauto; [destruct X as [X|[=]]; exact X|right; split; [exact X|congruence]|].
        destruct X as [(? & ? & [=])|[X _]]. exact X.
    - rewrite execute_snoc. destruct (dofn_pardo sch f p P) as (d & D & EP). destruct (IH f d D) as [A C]. cbn. rewrite D.
      assert (R : f_request d = None) by (destruct (f_request d); [destruct (B (proj1 C ltac:(discriminate)))|reflexivity]). rewrite R.
      intros g e H. cbn [set_dofn dofns] in H. rewrite busy_snoc, torn_down_snoc. apply update_nth in H as [(-> & -> & _)|(N & H)].
      + cbn. split; split; intros X; try tauto; try congruence. destruct X as [(? & ? & [=])|[X _]]. contradiction.
      + destruct (IH g e H) as [A' C']. rewrite A', C'. split; split; intros X; try tauto; [destruct X as [X|[= <-]]; [exact X|congruence]|right; split; [exact X|discriminate]|].
        destruct X as [(? & ? & [=])|[X _]]. exact X.
    - rewrite execute_snoc. cbn. intros g e H. cbn in H. rewrite busy_snoc, torn_down_snoc. destruct (IH g e H) as [A' C']. rewrite A', C'.
      split; split; intros X; try tauto; [destruct X as [X|[=]]; exact X|right; split; [exact X|discriminate]|]. destruct X as [(? & ? & [=])|[X _]]. exact X.
    - rewrite execute_snoc. cbn [SharedModel.step]. destruct (collect_dofns (execute sch) o) as (E & _). intros g e H. rewrite E in H.
      rewrite busy_snoc, torn_down_snoc. destruct (IH g e H) as [A' C']. rewrite A', C'.
      split; split; intros X; try tauto; [destruct X as [X|[=]]; exact X|right; split; [exact X|discriminate]|]. destruct X as [(? & ? & [=])|[X _]]. exact X.
  Qed.
End proofs.
