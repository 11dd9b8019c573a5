(** * Proofs about leaving out datasets and cache entries *)
From Coq Require Import String.
From Coq Require Import List Arith Bool Lia.
From Verif Require Import OptimizeModel OptimizeSpec OptimizeProofs OptimizeShape OptimizeHistory RollModel.
Import ListNotations.
Local Notation length := List.length.

Section Roll.
Context {B C K PC : Type}.
Variable partitionable : B -> bool.
Variable cache_coder : B -> option C.
Variable num_outputs : B -> nat.
Variable key_eqb : K -> K -> bool.
Variable is_cached : K -> bool.
Variable class_name : op B C K -> string.
Variable fields : string -> op B C K -> list string.
Variable tensor_path : string -> option string.
Variable sha1 : string -> string.
Variable cache_version : string.
Hypothesis KEY : forall a b, key_eqb a b = true <-> a = b.

Notation translated := (translated partitionable cache_coder num_outputs).
Notation cached_path := (cached_path partitionable cache_coder).
Notation op_coder := (op_coder cache_coder).
Notation has_hash := (has_hash partitionable class_name fields tensor_path sha1).
Notation node := (node B C K).
Notation opt := (optimize partitionable cache_coder num_outputs key_eqb is_cached class_name fields
  tensor_path sha1 cache_version).

Lemma hash_det : forall (n : node) h h', has_hash n h -> has_hash n h' -> h = h'.
Proof.
  induction n as [label o inputs index IH] using node_rect'. intros h h' H H'.
  inversion H as [|l1 o1 i1 x1 hs h1 NA P F N]; inversion H' as [|l2 o2 i2 x2 hs' h2 NA' P' F' N']; subst;
    try congruence.
  assert (hs = hs').
  { clear - IH F F'. revert hs' F'. induction F as [|n h ns hs E F IHF]; intros hs' F'; inversion F'; subst; [reflexivity|].
    f_equal; [eapply (IH n); eauto; now left|]. apply IHF; [|assumption]. intros; eapply IH; eauto; now right. }
  subst. congruence.
Qed.

(** ** Entries *)
Section Entries.
Variables (keys keys' : list K) (c1 c2 : K -> string -> bool) (reported : list string) (k0 : K).
Variable root : node.
Hypothesis T : translated root.
Hypothesis K0 : In k0 keys'.
Hypothesis C0 : is_cached k0 = true.
Hypothesis REP : analysis_cache_entry_keys partitionable cache_coder num_outputs key_eqb is_cached class_name fields
  tensor_path sha1 cache_version keys' root = Some reported.
Hypothesis SAME : forall k key, In key reported -> c1 k key = c2 k key.

Lemma reported_key (n : node) c h : occurs n root -> first_phase partitionable n -> cacheable cache_coder n c ->
  has_hash n h -> match n with Node label _ _ _ => In (cache_entry_key cache_version label h) reported end.
Proof.
  intros O F CA H. unfold analysis_cache_entry_keys in REP.
  destruct (opt keys' (Some (fun _ _ => false)) root) as [[v em]|] eqn:R; [|discriminate]. injection REP as <-.
  destruct (coverage partitionable cache_coder num_outputs key_eqb is_cached class_name fields tensor_path sha1
      cache_version keys' (Some (fun _ _ => false)) root T) with (v := v) (em := em) (n' := n) (c := c) (k := k0)
    as (key & HK & D); auto; [discriminate|].
  destruct D as [D|(m & I)]; [discriminate D|].
  destruct n as [label o inputs index]. destruct HK as (h' & HH & ->).
  rewrite (hash_det _ _ _ H HH). apply in_map_iff. eexists. split; [|exact I]. reflexivity.
Qed.

Lemma same_entries : forall n : node, occurs n root -> translated n -> opt keys (Some c1) n = opt keys (Some c2) n.
Proof.
  induction n as [label o inputs index IH] using node_rect'. intros O TN.
  assert (TI : forall n, In n inputs -> translated n) by (intros; eapply translated_inputs; eauto).
  assert (E : map (opt keys (Some c1)) inputs = map (opt keys (Some c2)) inputs).
  { apply map_ext_in. intros n I. apply IH; [exact I| |auto]. eapply occurs_trans; [|exact O]. now apply occurs_input. }
  cbn [optimize]. rewrite <- E. destruct (sequence (map (opt keys (Some c1)) inputs)) as [rs|] eqn:S; [|reflexivity].
  assert (V : visit partitionable cache_coder num_outputs key_eqb is_cached class_name fields tensor_path sha1
      cache_version keys (Some c1) label o (map fst rs) =
    visit partitionable cache_coder num_outputs key_eqb is_cached class_name fields tensor_path sha1
      cache_version keys (Some c2) label o (map fst rs)); [|rewrite V; reflexivity].
  apply sequence_map in S.
  assert (F : Forall2 (shape partitionable cache_coder class_name fields tensor_path sha1 keys (Some c1)) inputs (map fst rs)).
  { clear - S TI KEY. induction S as [|n [v e] ns rs E S IHS]; cbn; constructor.
    - eapply shape_ok; [apply TI; now left | exact E].
    - apply IHS. intros; apply TI; now right. }
  unfold visit. destruct (validate partitionable cache_coder num_outputs o); [|reflexivity].
  assert (W : op_partitionable partitionable o = true -> o <> Apply 0 ->
    visit_partitionable cache_coder num_outputs key_eqb is_cached class_name fields tensor_path sha1 cache_version
      keys (Some c1) label o (map fst rs) =
    visit_partitionable cache_coder num_outputs key_eqb is_cached class_name fields tensor_path sha1 cache_version
      keys (Some c2) label o (map fst rs)).
  { intros P NA. unfold visit_partitionable.
    destruct (forallb (fun v => truthy (fine v)) (map fst rs)) eqn:AF; [|reflexivity].
    destruct (all_fine_first _ _ _ _ _ _ _ _ _ _ F AF) as (FP & hs & HS & HH).
    destruct (next_hashed_path class_name fields tensor_path sha1 (map hashed (map fst rs)) label o) as [h|] eqn:NH;
      [|reflexivity].
    assert (A : apply_fine cache_coder key_eqb is_cached cache_version keys (Some c1) label o
        (map (fun v => match fine v with Some f => f | None => [] end) (map fst rs)) (Some h) =
      apply_fine cache_coder key_eqb is_cached cache_version keys (Some c2) label o
        (map (fun v => match fine v with Some f => f | None => [] end) (map fst rs)) (Some h)); [|rewrite A; reflexivity].
    unfold apply_fine. f_equal.
    match goal with |- match sequence ?a with _ => _ end = match sequence ?b with _ => _ end => assert (EQ : a = b) end;
      [|rewrite EQ; reflexivity].
    apply map_ext. intros [i k]. unfold apply_to_dataset. cbn [fst snd].
    destruct (op_coder o) as [c|] eqn:OC; [|reflexivity]. cbn [hit]. rewrite SAME; [reflexivity|].
    apply (reported_key (Node label o inputs index) c h O).
    - constructor; auto.
    - exact OC.
    - econstructor; eauto. rewrite <- HS. exact NH. }
  destruct o as [|[|p]| | | | |b]; try reflexivity; try (apply W; [reflexivity|discriminate]).
  cbn [op_partitionable]. destruct (partitionable b) eqn:P; [apply W; [exact P|discriminate]|reflexivity].
Qed.

(** Only reported keys are written. *)
Lemma written_reported : forall n : node, occurs n root -> translated n -> forall v em,
  opt keys (Some c1) n = Some (v, em) -> forall k key m, In (k, key, m) em -> In key reported /\ c1 k key = false /\
  is_cached k = true /\ In k keys.
Proof.
  induction n as [label o inputs index IH] using node_rect'. intros OR TN v em O k key m I.
  destruct (opt_inv _ _ _ _ _ _ _ _ _ _ _ _ _ _ _ _ _ _ TN O) as (rs & vs & e & S & H & N & ->).
  assert (TI : forall n, In n inputs -> translated n) by (intros; eapply translated_inputs; eauto).
  assert (F : Forall2 (shape partitionable cache_coder class_name fields tensor_path sha1 keys (Some c1)) inputs (map fst rs)).
  { clear - S TI KEY. induction S as [|n [v e] ns rs E S IHS]; cbn; constructor.
    - eapply shape_ok; [apply TI; now left | exact E].
    - apply IHS. intros; apply TI; now right. }
  apply in_app_iff in I. destruct I as [I|I].
  - apply in_concat in I. destruct I as (em' & IM & I). apply in_map_iff in IM. destruct IM as ([v' e'] & E & IR).
    cbn in E. subst e'. destruct (Forall2_in_r _ _ _ _ S IR) as (n & IN & E).
    eapply (IH n IN); [|apply TI, IN|exact E|exact I]. eapply occurs_trans; [|exact OR]. now apply occurs_input.
  - destruct H as [m' il -> -> -> DF V|P NA CN -> ONE NE' NO V|P NA ONE V].
    + unfold visit_apply in V. destruct (existsb _ _); [discriminate|].
      destruct (map fst rs) as [|vm [|vi [|]]]; try discriminate V. injection V as <- <-. destruct I.
    + destruct (visit_part_spec _ _ _ _ _ _ _ _ _ _ _ _ _ _ _ _ _ NO V N) as (_ & _ & _ & HV & D).
      destruct D as [(AF & f & E & A)|(_ & _ & ->)]; [|destruct I].
      destruct (all_fine_first _ _ _ _ _ _ _ _ _ _ F AF) as (FP & hs & HS & HH).
      unfold apply_fine in A. destruct (hashed v) as [h|] eqn:HVE; [|discriminate].
      destruct (sequence _) as [results|] eqn:SQ; [|discriminate]. injection A as <- <-.
      apply sequence_map in SQ. apply in_concat in I. destruct I as (em' & IM & I). apply in_map_iff in IM.
      destruct IM as ([r e'] & E' & IR). cbn in E'. subst e'.
      destruct (Forall2_in_r _ _ _ _ SQ IR) as ([i k'] & IK & AR). cbn in AR. apply in_combine_r in IK.
      unfold apply_to_dataset in AR. destruct (op_coder o) as [c|] eqn:OC.
      * destruct (hit (Some c1) k' _) eqn:HIT; [injection AR as <- <-; destruct I|].
        destruct (sequence (map (at_key key_eqb k') _)) as [ins|]; [|discriminate].
        injection AR as <- <-. destruct (is_cached k') eqn:IC; [|destruct I]. destruct I as [I|[]].
        injection I as <- <- <-. repeat split; auto.
        apply (reported_key (Node label o inputs 0) c h OR).
        -- constructor; auto.
        -- exact OC.
        -- econstructor; eauto. rewrite <- HS, <- HV. reflexivity.
      * destruct (sequence (map (at_key key_eqb k') _)); [|discriminate]. injection AR as <- <-. destruct I.
    + destruct (visit_other_spec _ _ _ _ _ _ _ _ V N) as (_ & _ & ->). destruct I.
Qed.
End Entries.

(** ** Datasets *)
Section Datasets.
Variable keys : list K.
Variable c : K -> string -> bool.

(** Only entries of the cache are decoded. *)
Definition decodes_in (m : node) : Prop :=
  forall l k key cc ins i, occurs (Node l (Decode k key cc) ins i) m -> c k key = true.

Lemma decodes_in_node label (o : op B C K) inputs index :
  (forall k key cc, o = Decode k key cc -> c k key = true) -> (forall m, In m inputs -> decodes_in m) ->
  decodes_in (Node label o inputs index).
Proof.
  intros HO HI l k key cc ins i OC. inversion OC as [|m n l' o' ins' i' IN ON]; subst; [eauto|].
  eapply HI; eauto.
Qed.

Lemma decodes_ok : forall n : node, translated n -> forall v em, opt keys (Some c) n = Some (v, em) ->
  decodes_in (flat v) /\ forall f, fine v = Some f -> forall k m, In (k, m) f -> decodes_in m.
Proof.
  induction n as [label o inputs index IH] using node_rect'. intros T v em O.
  destruct (opt_inv _ _ _ _ _ _ _ _ _ _ _ _ _ _ _ _ _ _ T O) as (rs & vs & e & S & H & N & _).
  assert (TI : forall n, In n inputs -> translated n) by (intros; eapply translated_inputs; eauto).
  assert (F : forall v', In v' (map fst rs) ->
    decodes_in (flat v') /\ forall f, fine v' = Some f -> forall k m, In (k, m) f -> decodes_in m).
  { intros v' I. apply in_map_iff in I. destruct I as ([v1 e1] & <- & IR).
    destruct (Forall2_in_r _ _ _ _ S IR) as (n & IN & E). eapply (IH n IN (TI n IN)); exact E. }
  assert (NI : forall k key cc, o <> Decode k key cc) by (inversion T; congruence).
  assert (FLAT : forall i, decodes_in (Node label o (map flat (map fst rs)) i)).
  { intros i. apply decodes_in_node; [intros k key cc E; destruct (NI _ _ _ E)|]. intros m I. apply in_map_iff in I.
    destruct I as (v' & <- & IV). apply F. exact IV. }
  destruct H as [m il -> -> -> DF V|P NA CN -> ONE NE' NO V|P NA ONE V].
  - unfold visit_apply in V. destruct (existsb _ _); [discriminate|].
    destruct (map fst rs) as [|vm [|vi [|]]] eqn:MR; try discriminate V. injection V as <- <-.
    cbn in N. injection N as <-. cbn [flat fine]. split; [apply (FLAT 0)|].
    intros f [= <-] k m' I. apply in_map_iff in I. destruct I as ([i k'] & E & II). injection E as <- <-.
    apply decodes_in_node; [discriminate|]. intros m1 [<-|[<-|[]]].
    + apply F. now left.
    + apply decodes_in_node; [discriminate|intros ? []].
  - destruct (visit_part_spec _ _ _ _ _ _ _ _ _ _ _ _ _ _ _ _ _ NO V N) as (FL & _ & _ & _ & D).
    rewrite FL. split; [apply FLAT|]. intros f E.
    destruct D as [(AF & f' & E' & A)|(_ & E' & _)]; [|congruence]. rewrite E in E'. injection E' as <-.
    unfold apply_fine in A. destruct (hashed v) as [h|]; [|discriminate].
    destruct (sequence _) as [results|] eqn:SQ; [|discriminate]. injection A as <- <-.
    apply sequence_map in SQ. intros k m I. apply in_map_iff in I. destruct I as ([r e'] & RE & IR).
    cbn in RE. subst r. destruct (Forall2_in_r _ _ _ _ SQ IR) as ([i k'] & _ & AR). cbn in AR.
    assert (CMP : forall ins, sequence (map (at_key key_eqb k')
        (map (fun v => match fine v with Some f => f | None => [] end) (map fst rs))) = Some ins ->
        decodes_in (Node (relabel label i) o ins 0)).
    { intros ins SI. apply sequence_map in SI. apply decodes_in_node; [intros ? ? ? E0; destruct (NI _ _ _ E0)|].
      intros m0 IM. destruct (Forall2_in_r _ _ _ _ SI IM) as (f0 & IF & AK).
      apply in_map_iff in IF. destruct IF as (v' & <- & IV).
      apply (at_key_spec key_eqb KEY) in AK. destruct (fine v') as [f1|] eqn:F1; [|destruct AK].
      destruct (F v' IV) as [_ G]. eapply G; eauto. }
    unfold apply_to_dataset in AR. destruct (op_coder o).
    + destruct (hit (Some c) k' _) eqn:HIT.
      * injection AR as <- <- <-. apply decodes_in_node; [|intros ? []]. intros ? ? ? [= <- <- <-]. exact HIT.
      * destruct (sequence (map (at_key key_eqb k') _)) as [ins|] eqn:SI; [|discriminate].
        injection AR as <- <- <-. apply CMP. reflexivity.
    + destruct (sequence (map (at_key key_eqb k') _)) as [ins|] eqn:SI; [|discriminate].
      injection AR as <- <- <-. apply CMP. reflexivity.
  - destruct (visit_other_spec _ _ _ _ _ _ _ _ V N) as (VF & _ & _). split; [|congruence].
    unfold visit_other in V.
    destruct (existsb (fun v => truthy (fine v) && prefer v) (map fst rs)).
    + destruct (sequence (map fine (map fst rs))) as [fines|] eqn:SQ; [|discriminate]. injection V as <- <-.
      apply (nth_outputs num_outputs) in N. subst v. cbn [flat]. apply sequence_map in SQ.
      apply decodes_in_node; [intros ? ? ? E; destruct (NI _ _ _ E)|]. intros m [<-|[]].
      apply decodes_in_node; [discriminate|]. intros m IM. apply in_map_iff in IM. destruct IM as ([k m'] & <- & IM).
      apply in_concat in IM. destruct IM as (f & IF & IM).
      destruct (Forall2_in_r _ _ _ _ SQ IF) as (v' & IV & FV). destruct (F v' IV) as [_ G]. eapply G; eauto.
    + injection V as <- <-. apply (nth_outputs num_outputs) in N. subst v. apply FLAT.
Qed.

(** Nor is anything else decoded for what is written. *)
Lemma emitted_decodes : forall n : node, translated n -> forall v em, opt keys (Some c) n = Some (v, em) ->
  forall k key m, In (k, key, m) em -> decodes_in m.
Proof.
  induction n as [label o inputs index IH] using node_rect'. intros T v em O k key m I.
  pose proof (decodes_ok _ T _ _ O) as [_ FD].
  destruct (opt_inv _ _ _ _ _ _ _ _ _ _ _ _ _ _ _ _ _ _ T O) as (rs & vs & e & S & H & N & ->).
  assert (TI : forall n, In n inputs -> translated n) by (intros; eapply translated_inputs; eauto).
  apply in_app_iff in I. destruct I as [I|I].
  - apply in_concat in I. destruct I as (em' & IM & I). apply in_map_iff in IM. destruct IM as ([v' e'] & E & IR).
    cbn in E. subst e'. destruct (Forall2_in_r _ _ _ _ S IR) as (n & IN & E).
    eapply (IH n IN); [apply TI, IN|exact E|exact I].
  - destruct H as [m' il -> -> -> DF V|P NA CN -> ONE NE' NO V|P NA ONE V].
    + unfold visit_apply in V. destruct (existsb _ _); [discriminate|].
      destruct (map fst rs) as [|vm [|vi [|]]]; try discriminate V. injection V as <- <-. destruct I.
    + destruct (visit_part_spec _ _ _ _ _ _ _ _ _ _ _ _ _ _ _ _ _ NO V N) as (_ & _ & _ & HV & D).
      destruct D as [(AF & f & E & A)|(_ & _ & ->)]; [|destruct I].
      unfold apply_fine in A. destruct (hashed v) as [h|]; [|discriminate].
      destruct (sequence _) as [results|] eqn:SQ; [|discriminate]. injection A as <- <-.
      apply sequence_map in SQ. apply in_concat in I. destruct I as (em' & IM & I). apply in_map_iff in IM.
      destruct IM as ([r e'] & E' & IR). cbn in E'. subst e'.
      destruct (Forall2_in_r _ _ _ _ SQ IR) as ([i k'] & IK & AR). cbn in AR.
      unfold apply_to_dataset in AR. destruct (op_coder o) as [cc|] eqn:OC.
      * destruct (hit (Some c) k' _) eqn:HIT; [injection AR as <- <-; destruct I|].
        destruct (sequence (map (at_key key_eqb k') _)) as [ins|]; [|discriminate].
        injection AR as <- <-. destruct (is_cached k') eqn:IC; [|destruct I]. destruct I as [I|[]].
        injection I as <- <- <-. apply decodes_in_node; [discriminate|]. intros m [<-|[]].
        eapply FD; [exact E|]. apply (in_map fst) in IR. exact IR.
      * destruct (sequence (map (at_key key_eqb k') _)); [|discriminate]. injection AR as <- <-. destruct I.
    + destruct (visit_other_spec _ _ _ _ _ _ _ _ V N) as (_ & _ & ->). destruct I.
Qed.

Lemma inputs_below label (o : op B C K) inputs index m x :
  In m inputs -> In x (inputs_of m) -> In x (inputs_of (Node label o inputs index)).
Proof.
  intros IM IX. assert (In x (concat (map inputs_of inputs))).
  { apply in_concat. exists (inputs_of m). split; [now apply in_map | exact IX]. }
  destruct o; cbn; auto.
Qed.

(** What is computed for a dataset, and written for it, reads it. *)
Lemma written_reads root : no_nested_caches partitionable cache_coder root ->
  forall n : node, occurs n root -> translated n -> forall v em, opt keys (Some c) n = Some (v, em) ->
  (cached_path n = false -> forall f, fine v = Some f -> forall k m, In (k, m) f -> In (Some k) (inputs_of m)) /\
  (forall k key m, In (k, key, m) em -> In (Some k) (inputs_of m)).
Proof.
  intro NN. induction n as [label o inputs index IH] using node_rect'. intros OR T v em O.
  destruct (opt_inv _ _ _ _ _ _ _ _ _ _ _ _ _ _ _ _ _ _ T O) as (rs & vs & e & S & H & N & ->).
  assert (TI : forall n, In n inputs -> translated n) by (intros; eapply translated_inputs; eauto).
  assert (OI : forall n, In n inputs -> occurs n root).
  { intros n I. eapply occurs_trans; [|exact OR]. now apply occurs_input. }
  assert (BELOW : forall k key m, In (k, key, m) (concat (map snd rs)) -> In (Some k) (inputs_of m)).
  { intros k key m I. apply in_concat in I. destruct I as (em' & IM & I). apply in_map_iff in IM.
    destruct IM as ([v' e'] & E & IR). cbn in E. subst e'.
    destruct (Forall2_in_r _ _ _ _ S IR) as (n & IN & E).
    destruct (IH n IN (OI n IN) (TI n IN) v' em' E) as [_ G]. eapply G; eauto. }
  destruct H as [m il -> -> -> DF V|P NA CN -> ONE NE' NO V|P NA ONE V].
  - unfold visit_apply in V. destruct (existsb _ _); [discriminate|].
    destruct (map fst rs) as [|vm [|vi [|]]] eqn:MR; try discriminate V. injection V as <- <-.
    cbn in N. injection N as <-. cbn [flat fine]. split.
    + intros _ f [= <-] k m' I. apply in_map_iff in I. destruct I as ([i k'] & E & II). injection E as <- <-.
      eapply inputs_below; [right; left; reflexivity|]. cbn. auto.
    + intros k key m' I. rewrite app_nil_r in I. eauto.
  - destruct (visit_part_spec _ _ _ _ _ _ _ _ _ _ _ _ _ _ _ _ _ NO V N) as (FL & _ & _ & _ & D).
    destruct D as [(AF & f & E & A)|(_ & E & ->)].
    2: { split; [congruence|]. intros k key m I. rewrite app_nil_r in I. eauto. }
    unfold apply_fine in A. destruct (hashed v) as [h|]; [|discriminate].
    destruct (sequence _) as [results|] eqn:SQ; [|discriminate]. injection A as <- <-.
    apply sequence_map in SQ.
    (* the inputs for a dataset read it *)
    assert (CMP : existsb cached_path inputs = false -> forall k' i ins, sequence (map (at_key key_eqb k')
        (map (fun v => match fine v with Some f => f | None => [] end) (map fst rs))) = Some ins ->
        In (Some k') (inputs_of (Node (relabel label i) o ins 0))).
    { intros NC k' i ins SI. apply sequence_map in SI.
      destruct inputs as [|n0 inputs]; [congruence|]. inversion S as [|? [v0 e0] ? rs' E0 S' ]; subst.
      cbn [map fst] in SI. inversion SI as [|? m0 ? ins' A0 SI']; subst.
      cbn in NC. apply orb_false_iff in NC. destruct NC as [NC _].
      destruct (IH n0 (or_introl eq_refl) (OI n0 (or_introl eq_refl)) (TI n0 (or_introl eq_refl)) v0 e0 E0) as [G _].
      apply (at_key_spec key_eqb KEY) in A0. destruct (fine v0) as [f0|] eqn:F0; [|destruct A0].
      eapply inputs_below; [left; reflexivity|]. eapply G; eauto. }
    split.
    + intros NC f E1 k m I. rewrite E in E1. injection E1 as <-.
      cbn in NC. rewrite P in NC. cbn in NC. apply orb_false_iff in NC. destruct NC as [NC1 NC2].
      apply in_map_iff in I. destruct I as ([r e'] & RE & IR). cbn in RE. subst r.
      destruct (Forall2_in_r _ _ _ _ SQ IR) as ([i k'] & _ & AR). cbn in AR.
      unfold apply_to_dataset in AR. destruct (op_coder o); [discriminate NC1|].
      destruct (sequence (map (at_key key_eqb k') _)) as [ins|] eqn:SI; [|discriminate].
      injection AR as <- <- <-. apply CMP; auto.
    + intros k key m I. apply in_app_iff in I. destruct I as [I|I]; [eauto|].
      apply in_concat in I. destruct I as (em' & IM & I). apply in_map_iff in IM.
      destruct IM as ([r e'] & E' & IR). cbn in E'. subst e'.
      destruct (Forall2_in_r _ _ _ _ SQ IR) as ([i k'] & _ & AR). cbn in AR.
      unfold apply_to_dataset in AR. destruct (op_coder o) as [cc|] eqn:OC.
      * destruct (hit (Some c) k' _); [injection AR as <- <-; destruct I|].
        destruct (sequence (map (at_key key_eqb k') _)) as [ins|] eqn:SI; [|discriminate].
        injection AR as <- <-. destruct (is_cached k'); [|destruct I]. destruct I as [I|[]].
        injection I as <- <- <-. eapply inputs_below; [left; reflexivity|]. apply CMP; [|exact SI].
        eapply NN; [exact OR|]. rewrite OC. discriminate.
      * destruct (sequence (map (at_key key_eqb k') _)); [|discriminate]. injection AR as <- <-. destruct I.
  - destruct (visit_other_spec _ _ _ _ _ _ _ _ V N) as (VF & _ & ->). split; [congruence|].
    intros k key m I. rewrite app_nil_r in I. eauto.
Qed.
End Datasets.

(** ** Running with what was given *)
Section Given.
Variable flatten : list PC -> PC.
Variable sem : op B C K -> list PC -> list PC.
Variable encode decode : C -> PC -> PC.
Variable size : PC -> nat.

Lemma construct_ok data datasets cache : (forall k p, In (k, Some p) datasets -> p = data k) ->
  NoDup (map fst datasets) -> forall n : node,
  (forall l k key cc ins i, occurs (Node l (Decode k key cc) ins i) n -> cache k key <> None) ->
  (forall k, In (Some k) (inputs_of n) -> exists p, In (k, Some p) datasets) ->
  (In None (inputs_of n) -> forall d, In d datasets -> snd d <> None) ->
  construct key_eqb flatten sem encode decode datasets cache n =
    Some (eval flatten sem encode decode data (map fst datasets) cache n).
Proof.
  intros DATA ND. induction n as [label o inputs index IH] using node_rect'. intros DEC SM NO.
  cbn [construct eval].
  assert (E : sequence (map (construct key_eqb flatten sem encode decode datasets cache) inputs)
    = Some (map (eval flatten sem encode decode data (map fst datasets) cache) inputs)).
  { assert (G : map (construct key_eqb flatten sem encode decode datasets cache) inputs
      = map Some (map (eval flatten sem encode decode data (map fst datasets) cache) inputs)).
    { rewrite map_map. apply map_ext_in. intros m I. apply IH; [exact I| | |].
      - intros l k key cc ins i OC. eapply DEC. eapply occurs_below; eauto.
      - intros k IK. apply SM. eapply inputs_below; eauto.
      - intros IN. apply NO. eapply inputs_below; eauto. }
    rewrite G. clear. induction (map (eval flatten sem encode decode data (map fst datasets) cache) inputs) as [|x l IHl]; cbn; [reflexivity|].
    rewrite IHl. reflexivity. }
  rewrite E. destruct o as [[k|]| | | |k key cc| |]; try reflexivity.
  - destruct (SM k) as (p & I); [now left|].
    rewrite (at_key_in key_eqb KEY k (Some p) datasets ND I). now rewrite (DATA _ _ I).
  - assert (A : forall d, In d datasets -> snd d <> None) by (apply NO; now left).
    assert (G : sequence (map snd datasets) = Some (map data (map fst datasets))).
    { clear - A DATA. induction datasets as [|[k [p|]] l IHl]; cbn in *; [reflexivity| |].
      - rewrite IHl; auto. rewrite (DATA k p); auto.
      - exfalso. apply (A (k, None)); auto. }
    rewrite G. reflexivity.
  - assert (A : cache k key <> None) by (eapply DEC; constructor). destruct (cache k key); [reflexivity|congruence].
Qed.
End Given.
End Roll.
