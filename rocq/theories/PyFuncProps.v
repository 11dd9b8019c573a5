(** * Python functions in transform graphs (C56) *)
From Coq Require Import String List Lia.
From Verif Require Import PyFuncModel PyFuncSpec PyFuncProofs PyFuncHistory PyFuncExample.
Import ListNotations.
Local Open Scope list_scope.

(** Every history of processes, graphs, saves and loads in which the models loaded hold functions that got their
    tokens in one process: nothing raises, and every py_func outside of the bodies of functions calls the function
    it was made for, in every graph. *)
Theorem c56_histories : forall (func : Type) (l : list (action (func := func))), loads_one_home nothing l ->
  exists w, perform_all nothing l = Returned w /\ all_right w.
Proof. intros func. exact from_nothing. Qed.
Print Assumptions c56_histories.

(** This is so if graphs are saved before models are loaded into them. *)
Theorem c56_saved_before_loading : forall (func : Type) (l : list (action (func := func))), saved_before_loading l ->
  exists w, perform_all nothing l = Returned w /\ all_right w.
Proof. intros func. exact saved_before_right. Qed.
Print Assumptions c56_saved_before_loading.

(** And if there is one process only. *)
Theorem c56_one_process : forall (func : Type) (l : list (action (func := func))), one_process l ->
  exists w, perform_all nothing l = Returned w /\ all_right w.
Proof. intros func. exact one_process_right. Qed.
Print Assumptions c56_one_process.

Example c56_saved_before_loading_applies : saved_before_loading two_loads /\
  exists w g, perform_all nothing two_loads = Returned w /\ nth_error (w_graphs w) 1 = Some g /\
  map (fun n => (n_name n, n_token n, made_for n)) (filter (fun n => negb (String.eqb (n_name n) "temp")) (g_nodes g))
  = [("a", 1, Some true); ("c", 0, None); ("b", 2, Some false); ("a", 3, Some true); ("c", 0, None); ("b", 4, Some false)]%string.
Proof.
  split.
  - intros before j k after E I. assert (J : In (Save j) (skipn (S (length before)) two_loads)).
    { rewrite E. replace (S (length before)) with (length (before ++ [Load j k])) by (rewrite app_length; cbn; lia).
      replace (before ++ Load j k :: after) with ((before ++ [Load j k]) ++ after) by now rewrite <- app_assoc. now rewrite skipn_app, skipn_all, PeanoNat.Nat.sub_diag. }
    assert (L : nth_error two_loads (length before) = Some (Load j k)) by (rewrite E, nth_error_app2, PeanoNat.Nat.sub_diag by lia; reflexivity).
    clear E I. destruct (length before) as [|[|[|[|[|[|[|[|[|[|[|[|n]]]]]]]]]]]]; cbn in L; try discriminate; cbn in J; repeat destruct J as [J|J]; try discriminate; try contradiction.
  - vm_compute. eexists _, _. repeat split.
Qed.
Example c56_one_process_applies : one_process same_process.
Proof. eexists. split; [reflexivity|]. cbn. intuition discriminate. Qed.

(** A model whose functions were not all stored is refused, unless none was. *)
Theorem c56_unregistered : forall (func : Type) (p : process (func := func)) g m, m_pyfuncs m <> [] ->
  (exists n, In n (m_nodes m) /\ (n_op n = "PyFunc" \/ n_op n = "PyFuncStateless")%string /\ forall e, In e (m_pyfuncs m) -> e_token e <> n_token n) ->
  partially_apply_saved_transform p g m = Raised.
Proof. intros func. exact unregistered_raises. Qed.
Print Assumptions c56_unregistered.

Example c56_unregistered_applies : let m := Meta [Node "a" "PyFunc" 0 (Some true); Node "b" "PyFunc" 1 (Some false)] [] [Entry 0 true 0] in
  m_pyfuncs m <> [] /\ exists n, In n (m_nodes m) /\ (n_op n = "PyFunc" \/ n_op n = "PyFuncStateless")%string /\ forall e, In e (m_pyfuncs m) -> e_token e <> n_token n.
Proof. split; [discriminate|]. exists (Node "b" "PyFunc" 1 (Some false)). split; [cbn; auto|]. split; [left; reflexivity|]. intros e [<-|[]]. discriminate. Qed.

(** Finding: a graph that was loaded and saved again stores the functions under their old tokens too (as in
    AnalyzeDataset, where a worker loads the graph, replaces the analyzers and saves it). If a new token of one
    function is an old token of another one, the next process that loads the model calls the other one. *)
Theorem c56_saved_again_refuted : exists (l : list (action (func := bool))) w, perform_all nothing l = Returned w /\ ~ all_right w /\
  exists g n p, In g (w_graphs w) /\ In n (g_nodes g) /\ nth_error (w_processes w) (g_process g) = Some p /\
  made_for n = Some true /\ registry p (n_token n) = Some false.
Proof.
  set (g := nth 2 (w_graphs (world_of analyze_and_transform)) (Graph 0 [] [] [])).
  set (p := nth 2 (w_processes (world_of analyze_and_transform)) new_process).
  assert (A : nth_error (w_graphs (world_of analyze_and_transform)) 2 = Some g) by (apply nth_error_nth'; vm_compute; lia).
  assert (B : nth_error (w_processes (world_of analyze_and_transform)) (g_process g) = Some p) by (change (g_process g) with 2; apply nth_error_nth'; vm_compute; lia).
  assert (C : In (Node "a" "PyFunc" 3 (Some true)) (g_nodes g)) by (vm_compute; tauto).
  assert (D : registry p 3 = Some false) by (vm_compute; reflexivity).
  exists analyze_and_transform, (world_of analyze_and_transform). split; [vm_compute; reflexivity|].
  split; [exact (wrong_call _ _ g _ p A B C eq_refl D)|]. exists g, (Node "a" "PyFunc" 3 (Some true)), p.
  split; [exact (nth_error_In _ _ A)|]. split; [exact C|]. split; [exact B|]. split; [reflexivity|exact D].
Qed.
Print Assumptions c56_saved_again_refuted.

(** Finding: tokens in the bodies of functions are not replaced. Such a py_func calls whatever has its old token in
    the process that loads the model. *)
Theorem c56_function_bodies_refuted : exists (l : list (action (func := bool))) w g n p,
  perform_all nothing l = Returned w /\ loads_one_home nothing l /\ In g (w_graphs w) /\ In n (g_library g) /\
  nth_error (w_processes w) (g_process g) = Some p /\ made_for n = Some true /\ registry p (n_token n) = Some false.
Proof.
  exists in_a_function. eexists _, _, (Node "a" "PyFunc" 0 (Some true)), _. split; [reflexivity|]. split; [|split; [cbn; right; left; reflexivity|]].
  - cbn. repeat (split; [intros k m H; try destruct H; try (destruct k as [|[|k]]; discriminate)|intros w' E; injection E as <-]); try exact I. 
    cbn. intros E e e' Ie Ie'. injection E as <-. cbn in *. destruct Ie as [<-|[]], Ie' as [<-|[]]. reflexivity.
  - split; [cbn; auto|]. split; [reflexivity|]. split; reflexivity.
Qed.
Print Assumptions c56_function_bodies_refuted.

(** Finding: an unregistered py_func is accepted if no function was stored with the model, and, in TensorFlow 2, if
    its token happens to be one of the new ones: it then calls another function. *)
Theorem c56_unregistered_refuted :
  (exists (m : meta_graph (func := bool)) p' g', (exists n, In n (m_nodes m) /\ n_op n = "PyFunc"%string /\ forall e, In e (m_pyfuncs m) -> e_token e <> n_token n) /\
   partially_apply_saved_transform new_process (Graph 0 [] [] []) m = Returned (p', g')) /\
  (exists (m : meta_graph (func := bool)) p p' ns n, In n (m_nodes m) /\ n_op n = "PyFunc"%string /\ (forall e, In e (m_pyfuncs m) -> e_token e <> n_token n) /\
   m_pyfuncs m <> [] /\ restore_from_v1_saved_model 0 p m = Returned (p', ns) /\ In n ns /\ made_for n = Some true /\ registry p' (n_token n) = Some false).
Proof.
  split.
  - exists (Meta [Node "a" "PyFunc" 0 (Some true)] [] []). eexists _, _. split; [|reflexivity]. eexists. split; [left; reflexivity|]. split; [reflexivity|intros e []].
  - exists (Meta [Node "a" "PyFunc" 0 (Some true); Node "b" "PyFunc" 1 (Some false)] [] [Entry 1 false 0]), new_process. eexists _, _, (Node "a" "PyFunc" 0 (Some true)).
    split; [cbn; auto|]. split; [reflexivity|]. split; [intros e [<-|[]]; discriminate|]. split; [discriminate|]. split; [reflexivity|]. split; [cbn; auto|]. split; reflexivity.
Qed.
Print Assumptions c56_unregistered_refuted.
