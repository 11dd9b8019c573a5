(** Applying a SavedModel to tensors of a graph, and applying it again (C88). *)
From Coq Require Import String List Bool.
From Verif Require Import PreModel ImpModel ImpSpec ImpNames PreProofs ImpProofs ImpApply ImpExample.
Import ListNotations.

Lemma forall2_weaken : forall A B (R R' : A -> B -> Prop) l l', (forall a b, R a b -> R' a b) -> Forall2 R l l' -> Forall2 R' l l'.
Proof. intros A B R R' l l' H F. induction F; constructor; auto. Qed.

Section statements.
  Variables O V : Type.
  Variable run : O -> list V -> list V.
  Variable checkpoint : string -> string -> option nat -> option V.
  Local Notation graph := (graph O V).
  Local Notation apply := (partially_apply_saved_transform O V checkpoint).
  Local Notation value_in g fed := (value O V run (nodes O V g) fed (initialized O V checkpoint g)).

  (** Every output that is returned has the values that it has in the SavedModel, when the tensors that were given are fed to its
      inputs, its assets are its files, its variables are what was saved, and what is fed to the tensors that were returned for
      the other inputs is fed to these. *)
Theorem c88_outputs : forall g current dir m given replacements g' unbound outputs fed saved,
    graph_ok O V current g -> call_ok O V g m given replacements ->
    apply g current dir m given replacements = Some (g', unbound, outputs) ->
    feeds O V run checkpoint g m given replacements g' unbound fed saved ->
    Forall2 (fun ke kx => fst ke = fst kx /\
        Forall2 (fun t u => forall v, value_in g' fed u v <-> value O V run (saved_nodes O V m) saved (saved_variable O V checkpoint m dir) t v)
          (components (snd ke)) (parts (snd kx)))
      (output_signature O V m) outputs.
  Proof.
    intros g current dir m given replacements g' unbound outputs fed saved [W S] [P [N [Tg Tr]]] E F.
    destruct (call_facts O V checkpoint _ _ _ _ _ _ _ _ _ W S P N E) as [g1 [am [scope [imap [consts [inits f]]]]]].
    pose proof (same_values O V run checkpoint _ _ _ _ _ _ _ _ _ P _ _ _ _ _ _ f fed saved F) as K.
    eapply forall2_weaken; [|exact (f_outputs _ _ _ _ _ _ _ _ _ _ _ _ _ _ _ _ _ f)].
    intros [k e] [k' x] [Ek Ep]. cbn [fst snd] in *. split; [exact Ek|]. rewrite Ep. clear Ep.
    induction (components e) as [|t ts IH]; cbn; constructor; [intros v; apply K | exact IH].
  Qed.
  (** There is such a feed for everything that can be fed to the graph. *)
Theorem c88_feeds : forall g current dir m given replacements g' unbound outputs fed,
    graph_ok O V current g -> call_ok O V g m given replacements ->
    apply g current dir m given replacements = Some (g', unbound, outputs) ->
    (forall t, fed t <> None -> there O V g t \/ exists t', left_open O V m unbound t' t) ->
    exists saved, feeds O V run checkpoint g m given replacements g' unbound fed saved.
  Proof.
    intros g current dir m given replacements g' unbound outputs fed [W S] [P [N [Tg Tr]]] E F.
    destruct (call_facts O V checkpoint _ _ _ _ _ _ _ _ _ W S P N E) as [g1 [am [scope [imap [consts [inits f]]]]]].
    exact (feeds_exist O V run checkpoint _ _ _ _ _ _ _ _ _ P _ _ _ _ _ _ f fed F).
  Qed.
  (** The inputs that were not given are returned, with new tensors of the graph. *)
Theorem c88_unbound : forall g current dir m given replacements g' unbound outputs,
    graph_ok O V current g -> call_ok O V g m given replacements ->
    apply g current dir m given replacements = Some (g', unbound, outputs) ->
    (forall k, In k (map fst unbound) <-> In k (map fst (input_signature O V m)) /\ ~ In k (map fst given)) /\
    (forall k e x, In (k, e) (input_signature O V m) -> In (k, x) unbound -> List.length (parts x) = List.length (components e)) /\
    (forall k x u, In (k, x) unbound -> In u (parts x) -> there O V g' u /\ ~ there O V g u).
  Proof.
    intros g current dir m given replacements g' unbound outputs [W S] [P [N [Tg Tr]]] E.
    destruct (call_facts O V checkpoint _ _ _ _ _ _ _ _ _ W S P N E) as [g1 [am [scope [imap [consts [inits f]]]]]].
    pose proof (f_unbound _ _ _ _ _ _ _ _ _ _ _ _ _ _ _ _ _ f) as F. pose proof (unbound_keys O V m given) as K. set (us := filter _ _) in *.
    assert (X : forall k x, In (k, x) unbound -> exists e, In (k, e) us /\ parts x = map (image scope imap) (components e)).
    { intros k x U. clear - F U. induction F as [|a b la lb [E X] F IH]; [destruct U|]. destruct U as [->|U].
      - destruct a as [k' e']. cbn in *. subst k'. exists e'. split; [now left | exact X].
      - destruct (IH U) as [e' [A B]]. exists e'. split; [now right | exact B]. }
    split; [|split].
    - intros k. assert (Y : map fst us = map fst unbound) by (clear - F; induction F as [|a b la lb [E X] F IH]; cbn; congruence). rewrite <- Y. split.
      + intros I. apply in_map_iff in I. destruct I as [[k' e] [<- I]]. apply K in I. destruct I as [I J]. split; [now apply (in_map fst) in I | exact J].
      + intros [I J]. apply in_map_iff in I. destruct I as [[k' e] [<- I]]. assert (I' : In (k', e) us) by now apply K. now apply (in_map fst) in I'.
    - intros k e x I U. destruct (X k x U) as [e' [I' ->]]. rewrite map_length. apply K in I'. destruct I' as [I' _].
      now rewrite (same_key _ _ _ _ _ (proj1 (proj2 (proj2 P))) I I').
    - intros k x u U C. destruct (X k x U) as [e [I Ep]]. apply K in I. destruct I as [I J].
      assert (L : exists t, In (t, u) (combine (components e) (parts x))) by (rewrite Ep in *; rewrite combine_image; apply in_map_iff in C; destruct C as [t [<- C]]; exists t; apply in_map_iff; now exists t).
      destruct L as [t L]. assert (Lo : left_open O V m unbound t u) by (exists k, e, x; now repeat split). eapply open_new; [exact P | exact f | exact Lo].
  Qed.
  (** Inputs that the SavedModel does not have are refused. *)
Theorem c88_unexpected : forall g current dir m given replacements k x, In (k, x) given -> ~ In k (map fst (input_signature O V m)) ->
    apply g current dir m given replacements = None.
  Proof.
    intros g current dir m given replacements k x I N. unfold partially_apply_saved_transform. destruct (add_constants O V current (saved_assets O V m) g) as [g1 am].
    destruct (forallb _ given) eqn:F; [exfalso|reflexivity]. rewrite forallb_forall in F. apply F in I. unfold has_name in I. apply existsb_exists in I.
    destruct I as [[k' e] [I K]]. apply String.eqb_eq in K. cbn in K. subst k'. apply N. now apply (in_map fst) in I.
  Qed.
  (** The files of the assets are added, in order, to the collection of assets of the graph. *)
Theorem c88_assets : forall g current dir m given replacements g' unbound outputs fed,
    graph_ok O V current g -> call_ok O V g m given replacements ->
    apply g current dir m given replacements = Some (g', unbound, outputs) ->
    (forall t, fed t <> None -> there O V g t \/ exists t', left_open O V m unbound t' t) ->
    exists files, asset_filepaths O V g' = (asset_filepaths O V g ++ files)%list /\
      Forall2 (fun asset t => ~ there O V g t /\ forall v, value_in g' fed t v <-> v = snd asset) (saved_assets O V m) files.
  Proof.
    intros g current dir m given replacements g' unbound outputs fed [W S] [P [N [Tg Tr]]] E F.
    destruct (call_facts O V checkpoint _ _ _ _ _ _ _ _ _ W S P N E) as [g1 [am [scope [imap [consts [inits f]]]]]].
    exists (map snd am). split; [exact (f_files _ _ _ _ _ _ _ _ _ _ _ _ _ _ _ _ _ f)|].
    assert (C : forall n path, In (Node O V n (Constant O V path) []) consts -> forall v, value_in g' fed (Tensor n 0) v <-> v = path) by (eapply constant_value; [exact P | exact f | exact F]).
    assert (D : forall n p, In (Node O V n (Constant O V p) []) consts -> ~ In n (map (node_name O V) (nodes O V g))).
    { pose proof (proj1 (f_wf1 _ _ _ _ _ _ _ _ _ _ _ _ _ _ _ _ _ f)) as N1. rewrite (f_nodes1 _ _ _ _ _ _ _ _ _ _ _ _ _ _ _ _ _ f), map_app in N1.
      apply nodup_app in N1. destruct N1 as [_ [_ N1]]. intros n p I J. apply (N1 n J). now apply (in_map (node_name O V)) in I. }
    pose proof (f_assets _ _ _ _ _ _ _ _ _ _ _ _ _ _ _ _ _ f) as A. clear - A C D. induction A as [|a b la lb [K [n [R I]]] A IH]; cbn; constructor; [|exact IH].
    rewrite R. split; [exact (D n _ I) | now apply C].
  Qed.

  (** Graphs that come from one by applying SavedModels, any number of times *)
  Inductive applied (current : string) (g0 : graph) : graph -> Prop :=
  | applied_none : applied current g0 g0
  | applied_next g dir m given replacements g' unbound outputs : applied current g0 g -> call_ok O V g m given replacements ->
      apply g current dir m given replacements = Some (g', unbound, outputs) -> applied current g0 g'.
  (** The tensors of the graph keep their values, and SavedModels can be applied again (c88_outputs), after any of them were. *)
Theorem c88_history : forall current g0 g, graph_ok O V current g0 -> applied current g0 g ->
    graph_ok O V current g /\ (forall t, there O V g0 t -> there O V g t) /\
    forall fed t v, there O V g0 t -> (value_in g fed t v <-> value_in g0 fed t v).
  Proof.
    intros current g0 g Ok H. induction H as [|g dir m given replacements g' unbound outputs H [[W S] [I1 I2]] [P [N [Tg Tr]]] E]; [split; [exact Ok | split; [auto | reflexivity]]|].
    destruct (call_facts O V checkpoint _ _ _ _ _ _ _ _ _ W S P N E) as [g1 [am [scope [imap [consts [inits f]]]]]].
    split; [eapply again; [exact W | exact P | exact Tg | exact Tr | exact f]|]. split.
    - intros t T. unfold there. rewrite (f_nodes _ _ _ _ _ _ _ _ _ _ _ _ _ _ _ _ _ f), map_app. apply in_or_app. left. eapply old_in_g1; [exact f | now apply I1].
    - intros fed t v T. rewrite <- (I2 fed t v T). eapply old_kept; [exact W | exact P | exact f | now apply I1].
  Qed.

  (** tf_transform_output.transform_raw_features with drop_unused_features: those outputs are kept that need no input that was not
      given. *)
Theorem c88_drop : forall g current dir m given g' kept,
    graph_ok O V current g -> call_ok O V g m given [] ->
    transform_raw_features_compat_v1 O V checkpoint g current dir m given true = Some (g', kept) ->
    exists unbound outputs keep, apply g current dir m given [] = Some (g', unbound, outputs) /\ kept = filter keep outputs /\
      forall kx, In kx outputs -> (keep kx = true <->
        forall t, In t (parts (snd kx)) -> ~ needs O V g' (flat_map (fun e => parts (snd e)) given) (flat_map (fun e => parts (snd e)) unbound) t).
  Proof.
    intros g current dir m given g' kept [W S] [P [N [Tg Tr]]] E. unfold transform_raw_features_compat_v1 in E.
    destruct (apply g current dir m given []) as [[[g2 unbound] outputs]|] eqn:A; [|discriminate].
    assert (Fl : forall l : list (string * tensor_or_composite), flat_map (fun e => flatten_tensor (snd e)) l = flat_map (fun e => parts (snd e)) l)
      by (intros l; induction l as [|[k [t|i v d|ts]] l IH]; cbn; congruence). rewrite (Fl given), (Fl unbound) in E.
    destruct (all_some _) as [l|] eqn:L; [|discriminate]. injection E as <- <-. apply all_some_map in L.
    destruct (call_facts O V checkpoint _ _ _ _ _ _ _ _ _ W S P N A) as [g1 [am [scope [imap [consts [inits f]]]]]].
    assert (Ng : NoDup (map (node_name O V) (nodes O V g2))) by (eapply names_g'; [exact P | exact f]).
    set (gs := flat_map _ given) in *. set (us := flat_map _ unbound) in *.
    exists unbound, outputs, (fun kx => match ready_feature O V g2 gs us (snd kx) with Some b => b | None => false end).
    split; [reflexivity|]. split.
    - clear - L. induction L as [|e p outs l H F IH]; cbn; [reflexivity|]. destruct (ready_feature O V g2 gs us (snd e)) as [b|]; [|discriminate]. injection H as <-. cbn.
      destruct b; cbn; now rewrite IH.
    - intros kx I. assert (R : exists b, ready_feature O V g2 gs us (snd kx) = Some b).
      { clear - L I. induction L as [|e p outs l H F IH]; [destruct I|]. destruct I as [->|I]; [|now apply IH]. destruct (ready_feature O V g2 gs us (snd kx)) as [b|]; [now exists b | discriminate]. }
      destruct R as [b R]. rewrite R. exact (ready_feature_needs O V _ _ _ _ _ Ng R).
  Qed.
  (** The values of those are the same, whatever is fed to the tensors of inputs that were not given, or nothing is. *)
Theorem c88_drop_independent : forall g current dir m given replacements g' unbound outputs fed fed' t v,
    graph_ok O V current g -> call_ok O V g m given replacements ->
    apply g current dir m given replacements = Some (g', unbound, outputs) ->
    (forall t, ~ In t (flat_map (fun e => parts (snd e)) unbound) -> fed t = fed' t) ->
    ~ needs O V g' (flat_map (fun e => parts (snd e)) given) (flat_map (fun e => parts (snd e)) unbound) t ->
    value_in g' fed t v -> value_in g' fed' t v.
  Proof.
    intros g current dir m given replacements g' unbound outputs fed fed' t v Ok Call E A Nd H.
    pose proof (c88_unbound _ _ _ _ _ _ _ _ _ Ok Call E) as [_ [_ U]]. destruct Ok as [W S], Call as [P [N [Tg Tr]]].
    destruct (call_facts O V checkpoint _ _ _ _ _ _ _ _ _ W S P N E) as [g1 [am [scope [imap [consts [inits f]]]]]].
    eapply (independent O V run checkpoint g' _ _ fed fed' A); [|exact H | exact Nd].
    intros r w I. apply in_flat_map in I. destruct I as [[k x] [I C]]. pose proof (Tg k x r I C) as T.
    assert (K : forall fd, value_in g' fd r w <-> value_in g fd r w) by (intros fd; eapply old_kept; [exact W | exact P | exact f | exact T]).
    rewrite !K. intros Hv. apply feed_agree with fed; [apply W | | exact Hv | exact T].
    intros u Tu. apply A. intros J. apply in_flat_map in J. destruct J as [[k' x'] [J Cu]]. destruct (U k' x' u J Cu) as [_ X]. now apply X.
  Qed.
End statements.

(** ** Examples *)

Open Scope string_scope.

Lemma ex_ok : graph_ok string string "" ex_graph.
Proof.
  split.
  - split; [|split; [|split]].
    + cbn. repeat constructor; cbn; intuition congruence.
    + cbn. intros n [<-|[<-|[]]]; cbn; discriminate.
    + cbn. intros n t [<-|[<-|[]]]; cbn; [intros [] | intros [<-|[]]; now left].
    + intros n i [].
  - intros s n I F [r E]. cbn in I. destruct I as [<-|[<-|[]]].
    + exfalso. cbn in E. destruct s as [|a [|b s]]; cbn in E; discriminate.
    + change "transform/old" with ("transform" ++ "/" ++ "old")%string in E. cbn [in_scope] in E. apply first_part in E; [|exact transform_free | exact F].
      destruct E as [<- _]. cbn. discriminate.
Qed.
Ltac nodup := cbn; repeat (apply NoDup_cons; [cbn; intuition discriminate|]); apply NoDup_nil.
Lemma ex_call : call_ok string string ex_graph ex_model ex_given [].
Proof.
  split; [|split; [|split]].
  - split; [|split; [|split; [|split]]]; [nodup | | nodup | nodup |].
    + cbn. intros n t H; repeat destruct H as [<-|H]; try contradiction; cbn; intros J; repeat destruct J as [<-|J]; try contradiction; cbn; tauto.
    + cbn. intros n s ins H. repeat destruct H as [[= <- <- <-]|H]; try contradiction; try (destruct H as [H|H]); try discriminate; repeat destruct H as [[= <- <- <-]|H];
        try contradiction; try discriminate; try reflexivity; eexists; (split; [|reflexivity]); discriminate.
  - nodup.
  - intros k x r [[= <- <-]|[]] [<-|[]]. cbn. tauto.
  - intros t r [].
Qed.
Lemma ex_applied : partially_apply_saved_transform string string ex_checkpoint ex_graph "" "/model" ex_model ex_given [] = Some (ex_result, ex_unbound, ex_outputs).
Proof. reflexivity. Qed.

Definition ex_fed : feed string := fun t =>
  if tensor_eqb t (T0 "x") then Some (fun v => v = "batch") else if tensor_eqb t (T0 "transform_1/s/values") then Some (fun v => v = "words") else None.
Lemma ex_fed_only : forall t, ex_fed t <> None -> there string string ex_graph t \/ exists t', left_open string string ex_model ex_unbound t' t.
Proof.
  intros t H. unfold ex_fed in H. destruct (tensor_eqb_spec t (T0 "x")) as [Et|Nt]; [subst t; left; cbn; now left|].
  destruct (tensor_eqb_spec t (T0 "transform_1/s/values")) as [Et|Nt']; [subst t|congruence]. right. exists (T0 "s/values"), "s". eexists. eexists.
  split; [right; left; reflexivity|]. split; [left; reflexivity|]. right. now left.
Qed.
Local Notation ex_value := (value string string ex_run (nodes string string ex_result) ex_fed (initialized string string ex_checkpoint ex_result)).
Ltac vals := repeat (apply Forall2_cons; [assumption|]); apply Forall2_nil.
Ltac node_in := cbn; repeat (first [left; reflexivity | right]).
Lemma ex_scaled : ex_value (T0 "transform_1/scaled") "Mul(Sub(Old(batch),/model:mean),Concat(/model:w[0],/model:w[1]))".
Proof.
  assert (X : ex_value (T0 "x") "batch") by (apply value_fed with (P := (fun v => v = "batch")); reflexivity).
  assert (Old : ex_value (T0 "transform/old") "Old(batch)") by (apply value_operation with (o := "Old") (ins := [T0 "x"]) (vs := ["batch"]); [reflexivity | node_in | vals | reflexivity]).
  assert (V1 : ex_value (T0 "transform_1/mean") "/model:mean") by (apply value_variable with (slice := None) (ins := []); [reflexivity | node_in | eexists; split; reflexivity]).
  assert (V2 : ex_value (T0 "transform_1/w/part_0") "/model:w[0]") by (apply value_variable with (slice := (Some ("w", 0))) (ins := []); [reflexivity | node_in | eexists; split; reflexivity]).
  assert (V3 : ex_value (T0 "transform_1/w/part_1") "/model:w[1]") by (apply value_variable with (slice := (Some ("w", 1))) (ins := []); [reflexivity | node_in | eexists; split; reflexivity]).
  assert (Sub : ex_value (T0 "transform_1/sub") "Sub(Old(batch),/model:mean)")
    by (apply value_operation with (o := "Sub") (ins := [T0 "transform/old"; T0 "transform_1/mean"]) (vs := ["Old(batch)"; "/model:mean"]); [reflexivity | node_in | vals | reflexivity]).
  assert (Con : ex_value (T0 "transform_1/w") "Concat(/model:w[0],/model:w[1])")
    by (apply value_operation with (o := "Concat") (ins := [T0 "transform_1/w/part_0"; T0 "transform_1/w/part_1"]) (vs := ["/model:w[0]"; "/model:w[1]"]); [reflexivity | node_in | vals | reflexivity]).
  apply value_operation with (o := "Mul") (ins := [T0 "transform_1/sub"; T0 "transform_1/w"]) (vs := ["Sub(Old(batch),/model:mean)"; "Concat(/model:w[0],/model:w[1])"]); [reflexivity | node_in | vals | reflexivity].
Qed.
Lemma ex_ids : ex_value (T0 "transform_1/ids") "Lookup(/model/assets/vocab,words)".
Proof.
  apply value_operation with (o := "Lookup") (ins := [T0 "Const"; T0 "transform_1/s/values"]) (vs := ["/model/assets/vocab"; "words"]); [reflexivity | node_in | | reflexivity].
  constructor; [apply value_constant; [reflexivity | node_in]|]. constructor; [|constructor]. apply value_fed with (P := (fun v => v = "words")); reflexivity.
Qed.
Example c88_outputs_applies : exists saved,
  graph_ok string string "" ex_graph /\ call_ok string string ex_graph ex_model ex_given [] /\
  partially_apply_saved_transform string string ex_checkpoint ex_graph "" "/model" ex_model ex_given [] = Some (ex_result, ex_unbound, ex_outputs) /\
  feeds string string ex_run ex_checkpoint ex_graph ex_model ex_given [] ex_result ex_unbound ex_fed saved /\
  value string string ex_run (saved_nodes string string ex_model) saved (saved_variable string string ex_checkpoint ex_model "/model") (T0 "scaled")
    "Mul(Sub(Old(batch),/model:mean),Concat(/model:w[0],/model:w[1]))" /\
  value string string ex_run (saved_nodes string string ex_model) saved (saved_variable string string ex_checkpoint ex_model "/model") (T0 "ids") "Lookup(/model/assets/vocab,words)".
Proof.
  destruct (c88_feeds string string ex_run ex_checkpoint _ _ _ _ _ _ _ _ _ ex_fed ex_ok ex_call ex_applied ex_fed_only) as [saved F]. exists saved.
  pose proof (c88_outputs string string ex_run ex_checkpoint _ _ _ _ _ _ _ _ _ _ _ ex_ok ex_call ex_applied F) as H.
  split; [exact ex_ok|]. split; [exact ex_call|]. split; [exact ex_applied|]. split; [exact F|].
  inversion H as [|a b la lb [_ H1] H2]; subst. inversion H2 as [|a b la lb [_ H3] _]; subst. cbn in H1, H3.
  inversion H1 as [|a b la lb K1 _]; subst. inversion H3 as [|a b la lb _ H4]; subst. inversion H4 as [|a b la lb K2 _]; subst. split; [apply K1, ex_scaled | apply K2, ex_ids].
Qed.
Example c88_feeds_applies : exists fed saved, feeds string string ex_run ex_checkpoint ex_graph ex_model ex_given [] ex_result ex_unbound fed saved.
Proof. exists ex_fed. exact (c88_feeds string string ex_run ex_checkpoint _ _ _ _ _ _ _ _ _ ex_fed ex_ok ex_call ex_applied ex_fed_only). Qed.
Example c88_unbound_applies : graph_ok string string "" ex_graph /\ call_ok string string ex_graph ex_model ex_given [] /\
  partially_apply_saved_transform string string ex_checkpoint ex_graph "" "/model" ex_model ex_given [] = Some (ex_result, ex_unbound, ex_outputs) /\ map fst ex_unbound = ["s"].
Proof. split; [exact ex_ok|]. split; [exact ex_call|]. split; reflexivity. Qed.
Example c88_unexpected_applies : ~ In "b" (map fst (input_signature string string ex_model)) /\
  partially_apply_saved_transform string string ex_checkpoint ex_graph "" "/model" ex_model (("b", Dense (T0 "x")) :: ex_given) [] = None.
Proof. split; [cbn; intuition discriminate|]. apply c88_unexpected with "b" (Dense (T0 "x")); [now left | cbn; intuition discriminate]. Qed.
Example c88_assets_applies : saved_assets string string ex_model <> [] /\ asset_filepaths string string ex_result = [T0 "Const"] /\
  forall v, ex_value (T0 "Const") v <-> v = "/model/assets/vocab".
Proof.
  destruct (c88_assets string string ex_run ex_checkpoint _ _ _ _ _ _ _ _ _ ex_fed ex_ok ex_call ex_applied ex_fed_only) as [files [E F]].
  cbn in E. subst files. split; [discriminate|]. split; [reflexivity|]. inversion F as [|a b la lb [_ H] _]; subst. exact H.
Qed.
(** The model is applied twice. *)
Example c88_history_applies : exists g, applied string string ex_checkpoint "" ex_graph g /\ List.length (nodes string string g) = 28 /\
  In "transform_2/scaled" (map (node_name string string) (nodes string string g)).
Proof.
  exists (ex_graph_of ex_again). split.
  - apply (applied_next _ _ _ _ _ ex_result "/model" ex_model [("a", Dense (T0 "transform_1/scaled"))] [] _ (ex_unbound_of ex_again) (ex_outputs_of ex_again));
      [|split; [|split; [|split]] | vm_compute; reflexivity].
    + apply (applied_next _ _ _ _ _ ex_graph "/model" ex_model ex_given [] _ ex_unbound ex_outputs); [constructor | exact ex_call | exact ex_applied].
    + apply ex_call.
    + nodup.
    + intros k x r [[= <- <-]|[]] [<-|[]]. cbn. tauto.
    + intros t r [].
  - split; [vm_compute; reflexivity|]. assert (X : existsb (String.eqb "transform_2/scaled") (map (node_name string string) (nodes string string (ex_graph_of ex_again))) = true) by (vm_compute; reflexivity).
    apply existsb_exists in X. destruct X as [n [I X]]. apply String.eqb_eq in X. rewrite X. exact I.
Qed.
Example c88_drop_applies : graph_ok string string "" ex_graph /\ call_ok string string ex_graph ex_model ex_given [] /\
  transform_raw_features_compat_v1 string string ex_checkpoint ex_graph "" "/model" ex_model ex_given true = Some (ex_result, [("a_scaled", Dense (T0 "transform_1/scaled"))]).
Proof. split; [exact ex_ok|]. split; [exact ex_call | reflexivity]. Qed.
Example c88_drop_independent_applies :
  ~ needs string string ex_result [T0 "transform/old"] [T0 "transform_1/s/indices"; T0 "transform_1/s/values"; T0 "transform_1/s/shape"] (T0 "transform_1/scaled") /\
  value string string ex_run (nodes string string ex_result) (fun t => if tensor_eqb t (T0 "x") then Some (fun v => v = "batch") else None)
    (initialized string string ex_checkpoint ex_result) (T0 "transform_1/scaled") "Mul(Sub(Old(batch),/model:mean),Concat(/model:w[0],/model:w[1]))".
Proof.
  destruct (c88_drop string string ex_checkpoint _ _ _ _ _ _ _ ex_ok ex_call (proj2 (proj2 c88_drop_applies))) as [unbound [outputs [keep [E [K H]]]]].
  rewrite ex_applied in E. injection E as <- <-.
  assert (Nd : ~ needs string string ex_result [T0 "transform/old"] [T0 "transform_1/s/indices"; T0 "transform_1/s/values"; T0 "transform_1/s/shape"] (T0 "transform_1/scaled")).
  { refine (proj1 (H ("a_scaled", Dense (T0 "transform_1/scaled")) _) _ _ _); [now left | | now left].
    assert (I : In ("a_scaled", Dense (T0 "transform_1/scaled")) (filter keep ex_outputs)) by (rewrite <- K; now left). apply filter_In in I. apply I. }
  split; [exact Nd|].
  refine (c88_drop_independent string string ex_run ex_checkpoint _ _ _ _ _ _ _ _ _ ex_fed _ _ _ ex_ok ex_call ex_applied _ Nd ex_scaled).
  intros t U. unfold ex_fed. destruct (tensor_eqb t (T0 "x")); [reflexivity|]. destruct (tensor_eqb_spec t (T0 "transform_1/s/values")) as [Et|Nt]; [subst t|reflexivity].
  destruct U. cbn. tauto.
Qed.

(** ** What does not hold *)

(** A graph that has operations under the name "transform" but where this name is not in use, as after importing a graph with
    its names, without a name scope: operations of the model get other names, and the outputs that are returned are the tensors
    that were there. *)
Theorem c88_existing_scope_refuted : exists (g : graph string string) m given g' u fed saved,
  well_formed string string g /\ call_ok string string g m given [] /\
  partially_apply_saved_transform string string ex_checkpoint g "" "/model" m given [] = Some (g', [], [("out", Dense u)]) /\
  output_signature string string m = [("out", Name (T0 "sub"))] /\
  feeds string string ex_run ex_checkpoint g m given [] g' [] fed saved /\
  value string string ex_run (nodes string string g') fed (initialized string string ex_checkpoint g') u "Other(batch)" /\
  value string string ex_run (saved_nodes string string m) saved (saved_variable string string ex_checkpoint m "/model") (T0 "sub") "Sub(batch)" /\
  ~ value string string ex_run (saved_nodes string string m) saved (saved_variable string string ex_checkpoint m "/model") (T0 "sub") "Other(batch)".
Proof.
  set (fed := fun t => if tensor_eqb t (T0 "x") then Some (fun v => v = "batch") else None).
  set (given := [("a", Dense (T0 "x"))]).
  assert (E : partially_apply_saved_transform string string ex_checkpoint ex_imported "" "/model" ex_plain given [] = Some (ex_existing, [], [("out", Dense (T0 "transform/sub"))]))
    by (vm_compute; reflexivity).
  assert (Ns : nodes string string ex_existing = [ph "x"; N "transform/sub" (Op "Other") [T0 "x"]; ph "transform/a"; N "transform/sub_1" (Op "Sub") [T0 "x"]]) by (vm_compute; reflexivity).
  set (g' := ex_existing) in *.
  set (va := value string string ex_run (nodes string string g') fed (initialized string string ex_checkpoint g')).
  set (saved := fun t => if tensor_eqb t (T0 "a") then Some (va (T0 "x")) else None).
  assert (X : forall v, va (T0 "x") v <-> v = "batch").
  { clear E Ns. intros v. split; [|intros ->; apply value_fed with (P := (fun v => v = "batch")); reflexivity].
    assert (Fx : fed (T0 "x") = Some (fun v => v = "batch")) by reflexivity. change (va (T0 "x") v) with (value string string ex_run (nodes string string g') fed (initialized string string ex_checkpoint g') (T0 "x") v).
    intros H. inversion H as [t Q w Ef q|n w Ef J|n s ins w Ef J x|n i o ins vs w Ef J]; subst; try (change (Tensor "x" 0) with (T0 "x") in Ef; rewrite Fx in Ef; discriminate).
    rewrite Fx in Ef. injection Ef as <-. exact q. }
  exists ex_imported, ex_plain, given, g', (T0 "transform/sub"), fed, saved.
  assert (Va : forall v, value string string ex_run (saved_nodes string string ex_plain) saved (saved_variable string string ex_checkpoint ex_plain "/model") (T0 "a") v <-> v = "batch").
  { clear E Ns. intros v. rewrite <- X. split.
    - intros H. inversion H as [t Q w Ef q|n w Ef J|n s ins w Ef J x|n i o ins vs w Ef J]; subst; cbn in Ef; try discriminate. injection Ef as <-. exact q.
    - intros H. apply value_fed with (P := (va (T0 "x"))); [reflexivity | exact H]. }
  split; [|split; [|split; [exact E | split; [reflexivity | split; [|split; [|split]]]]]].
  - split; [|split; [|split]].
    + nodup.
    + cbn. intros n [<-|[<-|[]]]; cbn; discriminate.
    + cbn. intros n t [<-|[<-|[]]]; cbn; [intros [] | intros [<-|[]]; now left].
    + intros n i [].
  - split; [|split; [|split]]; [|nodup | intros k x r [[= <- <-]|[]] [<-|[]]; cbn; tauto | intros t r []].
    split; [|split; [|split; [|split]]]; [nodup | | nodup | nodup |].
    + cbn. intros n t [<-|[<-|[]]]; cbn; [intros [] | intros [<-|[]]; now left].
    + cbn. intros n s ins [H|[H|[]]]; discriminate.
  - split; [|split; [|split; [|split]]].
    + intros t r [[]|k e x [[= <- <-]|[]] [[= <-]|[]] [[= <- <-]|[]]]. reflexivity.
    + intros t p [].
    + intros t u [k [e [x [_ [[] _]]]]].
    + intros t S1 _ _. unfold saved. destruct (tensor_eqb_spec t (T0 "a")) as [Et|Nt]; [subst t|reflexivity]. destruct (S1 (T0 "x")).
      apply (stands_given string string ex_plain given [] _ _ "a" (Name (T0 "a")) (Dense (T0 "x"))); cbn; auto.
    + intros t H. unfold fed in H. destruct (tensor_eqb_spec t (T0 "x")) as [Et|Nt]; [subst t; left; cbn; now left | congruence].
  - apply value_operation with (o := "Other") (ins := [T0 "x"]) (vs := ["batch"]); [reflexivity | rewrite Ns; node_in | apply Forall2_cons; [now apply X | apply Forall2_nil] | reflexivity].
  - apply value_operation with (o := "Sub") (ins := [T0 "a"]) (vs := ["batch"]); [reflexivity | node_in | apply Forall2_cons; [now apply Va | apply Forall2_nil] | reflexivity].
  - clear E Ns. intros H. inversion H as [t Q w Ef q|n w Ef J|n s ins w Ef J x|n i o ins vs w Ef J F R]; subst; cbn in Ef; try discriminate; cbn in J;
      repeat destruct J as [J|J]; try discriminate; try contradiction. injection J as <- <-. inversion F as [|a b la lb Ha F']; subst. inversion F'; subst.
    apply Va in Ha. subst b. cbn in R. discriminate.
Qed.
(** A composite tensor must be given for a composite input, and with all of its parts, but this is not checked: the placeholders of
    the other parts remain, and the input is not returned as one that has to be fed. *)
Theorem c88_components_refuted : exists (g : graph string string) m given g' u,
  graph_ok string string "" g /\ call_ok string string g m given [] /\
  partially_apply_saved_transform string string ex_checkpoint g "" "/model" m given [] = Some (g', [], [("out", Dense u)]) /\
  (forall k, In k (map fst (input_signature string string m)) <-> In k (map fst given)) /\
  (exists k e t, In (k, e) (input_signature string string m) /\ In t (components e) /\ forall r, ~ stands_for string string m given [] t r) /\
  forall fed v, (forall t, fed t <> None -> there string string g t) ->
    ~ value string string ex_run (nodes string string g') fed (initialized string string ex_checkpoint g') u v.
Proof.
  set (given := [("r", Dense (T0 "x"))]).
  assert (E : partially_apply_saved_transform string string ex_checkpoint ex_graph "" "/model" ex_ragged given [] = Some (ex_parts, [], [("out", Dense (T0 "transform_1/size"))]))
    by (vm_compute; reflexivity).
  assert (Ns : nodes string string ex_parts = [ph "x"; N "transform/old" (Op "Old") [T0 "x"]; ph "transform_1/values"; ph "transform_1/row_splits"; N "transform_1/size" (Op "Size") [T0 "transform_1/row_splits"]])
    by (vm_compute; reflexivity).
  set (g' := ex_parts) in *.
  exists ex_graph, ex_ragged, given, g', (T0 "transform_1/size"). split; [exact ex_ok|]. split; [|split; [exact E | split; [|split]]].
  - split; [|split; [|split]]; [|nodup | intros k x r [[= <- <-]|[]] [<-|[]]; cbn; tauto | intros t r []].
    split; [|split; [|split; [|split]]]; [nodup | | nodup | nodup |].
    + cbn. intros n t [<-|[<-|[<-|[]]]]; cbn; [intros [] | intros [] | intros [<-|[]]; right; now left].
    + cbn. intros n s ins [H|[H|[H|[]]]]; discriminate.
  - intros k. reflexivity.
  - exists "r", (Composite [T0 "values"; T0 "row_splits"]), (T0 "row_splits"). split; [now left|]. split; [right; now left|].
    intros r [[]|k e x [[= <- <-]|[]] [[= <-]|[]] [[=]|[]]].
  - clear E. intros fed v O H. assert (Fn : forall n, ~ In n ["x"; "transform/old"] -> fed (Tensor n 0) = None).
    { intros n N. destruct (fed (Tensor n 0)) eqn:Ef; [exfalso|reflexivity]. apply N. apply (O (Tensor n 0)). congruence. }
    rewrite Ns in H. clear Ns. inversion H as [t Q w Ef q|n w Ef J|n s ins w Ef J x|n i o ins vs w Ef J F R]; subst.
    + change (T0 "transform_1/size") with (Tensor "transform_1/size" 0) in Ef. rewrite Fn in Ef; [discriminate | cbn; intuition discriminate].
    + cbn in J. repeat destruct J as [J|J]; try discriminate; contradiction.
    + cbn in J. repeat destruct J as [J|J]; try discriminate; contradiction.
    + cbn in J. repeat destruct J as [J|J]; try discriminate; try contradiction. injection J as <- <-. inversion F as [|a b la lb Ha F']; subst.
      inversion Ha as [t Q w Ef' q|n w Ef' J'|n s ins w Ef' J' x|n i o ins vs w Ef' J']; subst.
      * unfold T0 in Ef'. rewrite Fn in Ef'; [discriminate | cbn; intuition discriminate].
      * cbn in J'. repeat destruct J' as [J'|J']; try discriminate; contradiction.
      * cbn in J'. repeat destruct J' as [J'|J']; try discriminate; contradiction.
      * cbn in J'. repeat destruct J' as [J'|J']; try discriminate; contradiction.
Qed.

Print Assumptions c88_outputs.
Print Assumptions c88_feeds.
Print Assumptions c88_unbound.
Print Assumptions c88_unexpected.
Print Assumptions c88_assets.
Print Assumptions c88_history.
Print Assumptions c88_drop.
Print Assumptions c88_drop_independent.
Print Assumptions c88_existing_scope_refuted.
Print Assumptions c88_components_refuted.
