(** C85: tft.apply_function_with_checkpoint and tft.apply_saved_model.  [computes], [has_value], [arguments], [mentions],
    [chosen], [asked], [feeds], [wanted] and [proper] (PreSpec): the value of an expression, that of a returned tensor, the
    arguments of a function, what an expression depends on, the variables to be restored, and what a signature says. *)
From Coq Require Import String Ascii List Bool Arith Lia.
From Verif Require Import PreModel PreSpec PreProofs PreSaved PreExample.
Import ListNotations.

Section c85.
Variables O V : Type.
Variable run : O -> list V -> V.

(** If the operations that make the inputs have different names, what is returned is what the function computes from the
    inputs and the variables of the checkpoint: for any values of the inputs, no other value and no value where the
    function has none. *)
Theorem c85_function (fn : function O V) (inputs : list tensor) (checkpoint : string -> option V)
    (include exclude : option (list string)) (single : bool) (outs : list (imported O V)) :
  NoDup (map (fun t => lower (t_op t)) inputs) ->
  apply_function_with_checkpoint O V fn inputs checkpoint include exclude = Ok (single, outs) ->
  single = f_single O V fn /\
  Forall2 (fun output out => forall outer v,
      has_value O V run outer out v <-> computes O V run (arguments V outer inputs) checkpoint output v)
    (f_outputs O V fn) outs.
Proof. intros N A. exact (sound O V run fn inputs checkpoint include exclude N single outs A). Qed.

(** The variables an output depends on are among those chosen, and in the checkpoint. *)
Theorem c85_variables (fn : function O V) (inputs : list tensor) (checkpoint : string -> option V)
    (include exclude : option (list string)) (single : bool) (outs : list (imported O V)) (output : expr O V nat) (n : string) :
  NoDup (map (fun t => lower (t_op t)) inputs) ->
  apply_function_with_checkpoint O V fn inputs checkpoint include exclude = Ok (single, outs) ->
  In output (f_outputs O V fn) -> mentions_var O V n output ->
  In n (f_variables O V fn) /\ chosen include exclude n /\ checkpoint n <> None.
Proof. intros N A I M. exact (used_restored O V fn inputs checkpoint include exclude N single outs A output n I M). Qed.

(** It succeeds if each input is the first output of its operation and each is used, if the function makes no tables, and if
    variables are chosen, each by one scope, are in the checkpoint, and include those the outputs depend on. *)
Theorem c85_function_runs (fn : function O V) (inputs : list tensor) (checkpoint : string -> option V) (include exclude : option (list string)) :
  NoDup (map (fun t => lower (t_op t)) inputs) -> (forall t, In t inputs -> t_index t = 0) ->
  f_tables O V fn = false ->
  (forall output i, In output (f_outputs O V fn) -> mentions O V i output -> i < length inputs) ->
  (forall i, i < length inputs -> exists output, In output (f_outputs O V fn) /\ mentions O V i output) ->
  NoDup (f_variables O V fn) ->
  (exists v, In v (f_variables O V fn) /\ chosen include exclude v) ->
  (forall scopes, include = Some scopes -> forall v i j s t, nth_error scopes i = Some s -> nth_error scopes j = Some t ->
     In v (f_variables O V fn) -> begins_with s (v ++ ":0") -> begins_with t (v ++ ":0") -> i = j) ->
  (forall v, In v (f_variables O V fn) -> chosen include exclude v -> checkpoint v <> None) ->
  (forall output n, In output (f_outputs O V fn) -> mentions_var O V n output -> In n (f_variables O V fn) /\ chosen include exclude n) ->
  exists outs, apply_function_with_checkpoint O V fn inputs checkpoint include exclude = Ok (f_single O V fn, outs).
Proof.
  intros N I0 T HI HU NV (w & W) HS HC HV. apply runs; try assumption.
  - intro E. apply restored_spec in W. rewrite E in W. destruct W.
  - unfold get_variables_to_restore. apply NoDup_filter. destruct include as [scopes|]; [|exact NV].
    specialize (HS scopes eq_refl). clear - NV HS. induction scopes as [|s scopes IH]; cbn; [constructor|].
    apply NoDup_app_intro.
    + apply NoDup_filter, NV.
    + apply IH. intros v i j s' t I J VI P Q. specialize (HS v (S i) (S j) s' t I J VI P Q). congruence.
    + intros v I J. unfold get_variables in I. apply filter_In in I as [VI P]. apply prefix_spec in P.
      apply in_scopes in J as (_ & t & T & Q). apply In_nth_error in T as (j & J). specialize (HS v 0 (S j) s t eq_refl J VI P Q). discriminate HS.
  - intros v I. apply restored_spec in I as [I C]. apply HC; assumption.
  - intros b n B M. apply restored_spec. eapply HV; eassumption.
Qed.

(** tft.apply_saved_model: the signature is the one asked for, the tensors are those asked for, in that order, and each has
    the value the model computes from the inputs given; so do the table initializers, all of which are added to the graph. *)
Theorem c85_saved_model (m : saved_model O V) (inputs : given) (signature_name : option string) (output_keys : option (list string))
    (single : bool) (outs initializers : list (imported O V)) :
  NoDup (map fst (m_signatures O V m)) -> (forall n s, In (n, s) (m_signatures O V m) -> proper s) ->
  match inputs with Dict d => NoDup (map fst d) | Single _ => True end ->
  apply_saved_model O V m inputs signature_name output_keys = Ok (single, outs, initializers) ->
  exists s names, asked O V m signature_name s /\ wanted s output_keys names single /\
    let stands_for := fun e out => forall outer leaf v,
      (forall k t, feeds s inputs k t -> leaf k = outer t) -> (forall k, (forall t, ~ feeds s inputs k t) -> leaf k = None) ->
      (has_value O V run outer out v <-> computes O V run leaf (m_variables O V m) e v) in
    Forall2 (fun name out => exists e, m_tensor O V m name = Some e /\ stands_for e out) names outs /\
    Forall2 stands_for (m_initializers O V m) initializers.
Proof. intros N P D A. exact (saved_sound O V run m inputs D signature_name output_keys single outs initializers N P A). Qed.

(** It succeeds if inputs are given for exactly the names of the signature and each of these inputs is used. *)
Theorem c85_saved_model_runs (m : saved_model O V) (inputs : given) (signature_name : option string) (output_keys : option (list string))
    (s : signature) (names : list tensor) (single : bool) :
  NoDup (map fst (m_signatures O V m)) -> proper s ->
  match inputs with Dict d => NoDup (map fst d) | Single _ => True end ->
  asked O V m signature_name s -> wanted s output_keys names single ->
  match inputs with Single _ => length (s_inputs s) = 1 | Dict d => forall key, In key (map fst (s_inputs s)) <-> In key (map fst d) end ->
  (forall name, In name names -> m_tensor O V m name <> None) ->
  let element := fun e => (exists name, In name names /\ m_tensor O V m name = Some e) \/ In e (m_initializers O V m) in
  (forall e n, element e -> mentions_var O V n e -> m_variables O V m n <> None) ->
  (forall key k, In (key, k) (s_inputs s) -> exists e, element e /\ mentions O V k e) ->
  exists outs initializers, apply_saved_model O V m inputs signature_name output_keys = Ok (single, outs, initializers).
Proof. intros N P D A W HI HT element HV HM. exact (saved_runs O V m inputs D signature_name output_keys s names single N P A W HI HT HV HM). Qed.
End c85.

(** A function that does not use one of its arguments cannot be applied: it is a ValueError. *)
Theorem c85_unused_refuted : exists (fn : function arithmetic nat) (inputs : list tensor) (checkpoint : string -> option nat),
  NoDup (map (fun t => lower (t_op t)) inputs) /\ (forall t, In t inputs -> t_index t = 0) /\
  (exists outs, apply_function_with_checkpoint _ _ fn (firstn 1 inputs) checkpoint None None = Ok (true, outs)) /\
  apply_function_with_checkpoint _ _ fn inputs checkpoint None None = Err ValueError.
Proof.
  exists scaled, [x; y], weights. split; [repeat constructor; cbn; intuition discriminate|].
  split; [intros t [<-|[<-|[]]]; reflexivity|]. split; [eexists|]; reflexivity.
Qed.

(** A tensor that is passed twice: the second argument becomes another tensor, without an error.  Here f(x, x, x_1) is the
    value of f(x, x_1, x_1). *)
Theorem c85_twice_refuted : exists (fn : function arithmetic nat) (inputs : list tensor) (checkpoint : string -> option nat)
    (output : expr arithmetic nat nat) (out : imported arithmetic nat) (outer : tensor -> option nat) (v w : nat),
  f_outputs _ _ fn = [output] /\
  apply_function_with_checkpoint _ _ fn inputs checkpoint None None = Ok (true, [out]) /\
  computes _ _ run (arguments nat outer inputs) checkpoint output v /\ has_value _ _ run outer out w /\ v <> w.
Proof.
  exists dense, [x; x; x_1], weights. do 2 eexists. exists (fun t => if tensor_eqb t x then Some 1 else Some 10), 3, 12.
  split; [reflexivity|]. split; [reflexivity|]. split; [|split; [|discriminate]].
  - change 3 with (run Plus [run Times [1; 2]; 1]). repeat constructor.
  - unfold has_value. change 12 with (run Plus [run Times [1; 2]; 10]). repeat constructor.
Qed.

(** A tensor that is not the first output of its operation cannot be passed: it is a ValueError. *)
Theorem c85_second_output_refuted : exists (fn : function arithmetic nat) (o : string) (checkpoint : string -> option nat),
  (exists outs, apply_function_with_checkpoint _ _ fn [Tensor o 0] checkpoint None None = Ok (true, outs)) /\
  apply_function_with_checkpoint _ _ fn [Tensor o 1] checkpoint None None = Err ValueError.
Proof. exists scaled, "split"%string, weights. split; [eexists|]; reflexivity. Qed.

(** A scope takes in the variables of scopes that begin with its name. *)
Theorem c85_scope_refuted : exists (fn : function arithmetic nat) (checkpoint : string -> option nat) (scope v : string)
    (out : imported arithmetic nat) (value : nat),
  ~ begins_with (scope ++ "/") v /\ checkpoint v = Some value /\ f_outputs _ _ fn = [Var v] /\
  apply_function_with_checkpoint _ _ fn [] checkpoint (Some [scope]) None = Ok (true, [out]) /\
  forall outer, has_value _ _ run outer out value.
Proof.
  exists other_weight, weights, "dense"%string, "dense_1/kernel"%string. do 2 eexists.
  split; [intro H; apply prefix_spec in H; discriminate H|]. split; [reflexivity|]. split; [reflexivity|]. split; [reflexivity|].
  intro outer. constructor.
Qed.

(** Scopes that overlap are a ValueError, where each of them is not. *)
Theorem c85_overlap_refuted : exists (fn : function arithmetic nat) (inputs : list tensor) (checkpoint : string -> option nat) (s t : string),
  (exists outs, apply_function_with_checkpoint _ _ fn inputs checkpoint (Some [s]) None = Ok (true, outs)) /\
  (exists outs, apply_function_with_checkpoint _ _ fn inputs checkpoint (Some [t]) None = Ok (true, outs)) /\
  apply_function_with_checkpoint _ _ fn inputs checkpoint (Some [s; t]) None = Err ValueError.
Proof. exists dense, [x; y], weights, "dense"%string, "dense/kernel"%string. split; [eexists; reflexivity|]. split; [eexists|]; reflexivity. Qed.

(** A saved model, given exactly the inputs of its signature, is a ValueError if the outputs asked for do not depend on one
    of them. *)
Theorem c85_saved_model_unused_refuted : exists (m : saved_model arithmetic nat) (inputs : given),
  (exists r, apply_saved_model _ _ m inputs None (Some ["sum"; "scaled"]%string) = Ok r) /\
  apply_saved_model _ _ m inputs None (Some ["scaled"]%string) = Err ValueError.
Proof. exists two_outputs, both. split; [eexists|]; reflexivity. Qed.

(** * The hypotheses are met *)
Lemma xy_names : NoDup (map (fun t => lower (t_op t)) [x; y]).
Proof. repeat constructor; cbn; intuition discriminate. Qed.

Example c85_function_applies : exists out,
  apply_function_with_checkpoint _ _ dense [x; y] weights (Some ["dense/"%string]) None = Ok (true, [out]) /\
  (forall outer v, has_value _ _ run outer out v <->
    computes _ _ run (arguments nat outer [x; y]) weights (Ap Plus [Ap Times [Leaf 0; Var "dense/kernel"]; Leaf 1]) v) /\
  has_value _ _ run (fun t => if tensor_eqb t x then Some 5 else Some 4) out 14.
Proof.
  eexists. split; [reflexivity|]. split.
  - pose proof (c85_function _ _ run dense [x; y] weights (Some ["dense/"%string]) None true _ xy_names eq_refl) as [_ F].
    inversion F; subst. assumption.
  - unfold has_value. change 14 with (run Plus [run Times [5; 2]; 4]). repeat constructor.
Qed.

Example c85_variables_applies :
  In "dense/kernel"%string (f_variables _ _ dense) /\ chosen (Some ["dense/"%string]) None "dense/kernel" /\ weights "dense/kernel" <> None.
Proof.
  eapply (c85_variables _ _ dense [x; y] weights (Some ["dense/"%string]) None true _ (Ap Plus [Ap Times [Leaf 0; Var "dense/kernel"]; Leaf 1]));
    [exact xy_names|reflexivity|left; reflexivity|].
  eapply mentions_var_ap; [left; reflexivity|]. eapply mentions_var_ap; [right; left; reflexivity|]. constructor.
Qed.

Example c85_function_runs_applies :
  exists outs, apply_function_with_checkpoint _ _ dense [x; y] weights None (Some ["dense_1"%string]) = Ok (true, outs).
Proof.
  apply c85_function_runs.
  - exact xy_names.
  - intros t [<-|[<-|[]]]; reflexivity.
  - reflexivity.
  - intros b i [<-|[]] M. apply leaves_mentions in M. cbn in *. lia.
  - intros i L. eexists. split; [left; reflexivity|]. apply leaves_mentions. cbn in *. lia.
  - repeat constructor; cbn; intuition discriminate.
  - exists "dense/kernel"%string. split; [left; reflexivity|]. split; [exact Logic.I|].
    intros (s & [<-|[]] & B). apply prefix_spec in B. discriminate B.
  - discriminate.
  - intros v [<-|[<-|[]]] _; discriminate.
  - intros b n [<-|[]] M. inversion M as [|? ? e E M']; subst. destruct E as [<-|[<-|[]]]; [|inversion M'].
    inversion M' as [|? ? e E M'']; subst. destruct E as [<-|[<-|[]]]; inversion M''; subst.
    split; [left; reflexivity|]. split; [exact Logic.I|]. intros (s & [<-|[]] & B). apply prefix_spec in B. discriminate B.
Qed.

Lemma two_outputs_proper n s : In (n, s) (m_signatures _ _ two_outputs) -> proper s.
Proof. intros [[= <- <-]|[]]. repeat split; repeat constructor; cbn; intuition discriminate. Qed.

Example c85_saved_model_applies : exists o1 o2 i,
  apply_saved_model _ _ two_outputs both (Some "serving_default"%string) (Some ["scaled"; "sum"]%string) = Ok (false, [o1; o2], [i]) /\
  NoDup (map fst (m_signatures _ _ two_outputs)) /\ (forall n s, In (n, s) (m_signatures _ _ two_outputs) -> proper s) /\
  has_value _ _ run (fun t => if tensor_eqb t x then Some 5 else Some 4) o1 15 /\
  has_value _ _ run (fun t => if tensor_eqb t x then Some 5 else Some 4) o2 9.
Proof.
  do 3 eexists. split; [reflexivity|]. split; [repeat constructor; intros []|]. split; [exact two_outputs_proper|]. unfold has_value. split.
  - change 15 with (run Times [5; 3]). repeat constructor.
  - change 9 with (run Plus [5; 4]). repeat constructor.
Qed.

Example c85_saved_model_runs_applies :
  exists outs initializers, apply_saved_model _ _ two_outputs both None (Some ["sum"%string]) = Ok (false, outs, initializers).
Proof.
  eapply (c85_saved_model_runs _ _ two_outputs both None (Some ["sum"%string])
    (Signature [("a", Tensor "in_a" 0); ("b", Tensor "in_b" 0)] [("sum", Tensor "sum" 0); ("scaled", Tensor "mul" 0)])%string [Tensor "sum" 0]).
  - repeat constructor; intros [].
  - apply (two_outputs_proper "serving_default"). left. reflexivity.
  - repeat constructor; cbn; intuition discriminate.
  - right. split; [left; reflexivity|]. eexists. reflexivity.
  - left. eexists. split; [reflexivity|]. split; [discriminate|]. split; [reflexivity|]. repeat constructor.
  - intro key. cbn. tauto.
  - intros name [<-|[]]. discriminate.
  - intros e n [(name & [<-|[]] & [= <-])|[<-|[]]] M; [|inversion M]. inversion M as [|? ? e E M']; subst. destruct E as [<-|[<-|[]]]; inversion M'.
  - intros key k [[= <- <-]|[[= <- <-]|[]]]; (eexists; split; [left; exists (Tensor "sum" 0); split; [left; reflexivity|reflexivity]|]);
      apply leaves_mentions; cbn; tauto.
Qed.

Print Assumptions c85_function.
Print Assumptions c85_variables.
Print Assumptions c85_function_runs.
Print Assumptions c85_saved_model.
Print Assumptions c85_saved_model_runs.
Print Assumptions c85_unused_refuted.
Print Assumptions c85_twice_refuted.
Print Assumptions c85_second_output_refuted.
Print Assumptions c85_scope_refuted.
Print Assumptions c85_overlap_refuted.
Print Assumptions c85_saved_model_unused_refuted.
