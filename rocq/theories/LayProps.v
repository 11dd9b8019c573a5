(** Which function a TransformFeaturesLayer applies (C90). *)
From Coq Require Import List Bool Arith Lia.
From Verif Require Import LayModel LaySpec.
Import ListNotations.

Section props.
  Variable F : Type.
  Variable outermost : nat -> nat.
  Notation step := (step F outermost).
  Notation after := (after F outermost).
  Notation gives := (gives F outermost).

  Lemma after_app h1 h2 o : after (h1 ++ h2) o = after h2 (after h1 o).
  Proof. revert o. induction h1; cbn; auto. Qed.

(** Induction on histories: an invariant of layers that construction and calls keep *)
  Lemma layer_inv (P : event F -> Prop) (V : bool -> Prop) (I : layer F -> Prop) (R : event F -> result F -> Prop) :
    (forall e v y, P e -> V v -> new_layer F outermost (e_context F e) (e_files F e) v = Some y -> I y) ->
    (forall e v, P e -> V v -> new_layer F outermost (e_context F e) (e_files F e) v <> None) ->
    (forall e, P e -> V (as_v1 F (e_files F e))) ->
    (forall e y, P e -> I y -> R e (fst (call F outermost (e_context F e) (e_files F e) y)) /\ I (snd (call F outermost (e_context F e) (e_files F e) y))) ->
    (forall e d, P e -> V true -> R e (compat_v1 F (e_context F e) (e_files F e) d)) ->
    forall h o, (forall v, o_v1 F o = Some v -> V v) -> (forall y, o_layer F o = Some y -> I y) -> Forall P h ->
      (forall y, o_layer F (after h o) = Some y -> I y) /\ forall e, P e -> R e (fst (step (after h o) e)).
  Proof.
    intros N NN VS C K.
    assert (X : forall o e, (forall v, o_v1 F o = Some v -> V v) -> P e ->
      V (fst (exported_as_v1 F (e_files F e) o)) /\ (forall v, o_v1 F (snd (exported_as_v1 F (e_files F e) o)) = Some v -> V v) /\
      o_layer F (snd (exported_as_v1 F (e_files F e) o)) = o_layer F o).
    { intros o e Ho Pe. unfold exported_as_v1. destruct (o_v1 F o) as [b|] eqn:E; cbn.
      - split; [now apply Ho | split; [|reflexivity]]. intros v Hv. apply Ho. congruence.
      - split; [now apply VS|]. split; [|reflexivity]. intros v [= <-]. now apply VS. }
    assert (L : forall o e, (forall v, o_v1 F o = Some v -> V v) -> (forall y, o_layer F o = Some y -> I y) -> P e ->
      let r := call_layer F outermost (e_context F e) (e_files F e) o in
      R e (fst r) /\ (forall v, o_v1 F (snd r) = Some v -> V v) /\ (forall y, o_layer F (snd r) = Some y -> I y)).
    { intros o e Ho Hy Pe. cbn zeta. unfold call_layer, transform_features_layer.
      destruct (o_layer F o) as [y|] eqn:Ey.
      - destruct (C e y Pe (Hy y eq_refl)) as [C1 C2]. destruct (call F outermost _ _ y) as [r y']. cbn in *.
        split; [exact C1|]. split; [exact Ho|]. now intros ? [= <-].
      - destruct (X o e Ho Pe) as [X1 [X2 X3]]. destruct (exported_as_v1 F (e_files F e) o) as [v o']. cbn in X1, X2, X3.
        destruct (new_layer F outermost _ _ v) as [y|] eqn:En; [|destruct (NN e v Pe X1 En)].
        destruct (C e y Pe (N e v y Pe X1 En)) as [C1 C2]. destruct (call F outermost _ _ y) as [r y']. cbn in *.
        split; [exact C1|]. split; [exact X2|]. now intros ? [= <-]. }
    assert (S : forall o e, (forall v, o_v1 F o = Some v -> V v) -> (forall y, o_layer F o = Some y -> I y) -> P e ->
      let r := step o e in R e (fst r) /\ (forall v, o_v1 F (snd r) = Some v -> V v) /\ (forall y, o_layer F (snd r) = Some y -> I y)).
    { intros o e Ho Hy Pe. cbn zeta. unfold step. destruct (X o e Ho Pe) as [X1 [X2 X3]].
      assert (Y : forall y, o_layer F (snd (exported_as_v1 F (e_files F e) o)) = Some y -> I y) by (intros y; rewrite X3; apply Hy).
      destruct (e_use F e).
      - now apply L.
      - destruct (exported_as_v1 F (e_files F e) o) as [v o']. cbn in X1, X2, Y. destruct v; [cbn; auto | now apply L].
      - destruct (exported_as_v1 F (e_files F e) o) as [v o']. cbn in X1, X2, Y. destruct v; [cbn; auto | now apply L]. }
    induction h as [|e h IH]; intros o Ho Hy Ph; cbn [after LayModel.after].
    - split; [exact Hy|]. intros e Pe. now apply S.
    - inversion Ph; subst. destruct (S o e Ho Hy H1) as [_ [S1 S2]]. now apply IH.
  Qed.

(** No history of uses makes the assertion of the layer fail. *)
Theorem c90_no_assertion : forall h e, gives h e <> Assertion_error F.
  Proof.
    intros h e. unfold gives. apply (layer_inv (fun _ => True) (fun _ => True) (fun _ => True) (fun _ r => r <> Assertion_error F)); try easy.
    - intros x v _ _. unfold new_layer, saved_model_loader. cbn. now destruct (eager (e_context F x)) eqn:E; cbn; rewrite ?E.
    - intros x y _ _. split; [|exact Logic.I]. unfold call, saved_model_loader, compat_v1.
      destruct (y_v1 F y) eqn:V, (eager (e_context F x)) eqn:E; cbn; try (destruct (as_v1 F _); easy);
        destruct (y_loader F y); cbn; rewrite ?V; cbn; try easy; destruct (y_graph F y) as [g|]; cbn; try easy; destruct (_ =? _); easy.
    - intros x d _ _. unfold compat_v1. now destruct (as_v1 F _).
    - apply Forall_forall. easy.
  Qed.

(** While the files are as they were, every use, in whatever contexts there were others, applies their function. *)
Theorem c90_function : forall s h e, files_are F s (e :: h) -> exists a, gives h e = Gave F a /\ a_fn F a = fn F s.
  Proof.
    intros s h e Hs.
    apply (layer_inv (fun e => e_files F e = s) (fun v => v = as_v1 F s) (fun y => y_v1 F y = as_v1 F s /\ forall l, y_loader F y = Some l -> l_fn F l = fn F s)
      (fun _ r => exists a, r = Gave F a /\ a_fn F a = fn F s)).
    - intros x v y -> ->. unfold new_layer, saved_model_loader. cbn. destruct (eager (e_context F x)) eqn:E; cbn; rewrite ?E; intros [= <-]; cbn.
      + split; [reflexivity|]. intros l [= <-]. reflexivity.
      + split; [reflexivity|]. discriminate.
    - intros x v _ _. unfold new_layer, saved_model_loader. cbn. now destruct (eager (e_context F x)) eqn:E; cbn; rewrite ?E.
    - intros x ->. reflexivity.
    - intros x y -> [V I]. unfold call, saved_model_loader, compat_v1. rewrite V.
      destruct (as_v1 F s) eqn:A, (eager (e_context F x)) eqn:E; cbn.
      + destruct (y_loader F y) as [l|] eqn:L; cbn; (split; [eexists; split; [reflexivity|] | split]); cbn; auto; intros ? K0; try rewrite L in K0; injection K0 as <-; cbn; auto.
      + split; [eexists; split; reflexivity | auto].
      + destruct (y_loader F y) as [l|] eqn:L; cbn; (split; [eexists; split; [reflexivity|] | split]); cbn; auto; intros ? K0; try rewrite L in K0; injection K0 as <-; cbn; auto.
      + destruct (y_loader F y) as [l|] eqn:L; cbn; rewrite V.
        * destruct (y_graph F y) as [g|]; [destruct (g =? _)|]; cbn; (split; [eexists; split; [reflexivity|] | split]); cbn; auto; intros ? K0; try rewrite L in K0; injection K0 as <-; cbn; auto.
        * rewrite Nat.eqb_refl. cbn. (split; [eexists; split; [reflexivity|] | split]); cbn; auto; intros ? K0; try rewrite L in K0; injection K0 as <-; cbn; auto.
    - intros x d -> A. unfold compat_v1. rewrite <- A. eexists. split; reflexivity.
    - discriminate.
    - discriminate.
    - apply Forall_forall. intros x Hx. apply Hs. now right.
    - apply Hs. now left.
  Qed.

(** In graph mode every use applies what is in the default graph of that use, or around it, whatever graphs and modes there were
      before, and also if the files change; but for default graphs that there also were in eager mode (c90_graph_refuted). *)
Theorem c90_graph : forall h e a,
    (forall e', In e' h -> eager (e_context F e') = true -> default_graph (e_context F e') <> default_graph (e_context F e)) ->
    eager (e_context F e) = false -> gives h e = Gave F a -> usable outermost (e_context F e) (a_place F a).
  Proof.
    intros h e a Ap Ee G. set (g0 := default_graph (e_context F e)) in *.
    set (R := fun (x : event F) (r : result F) => forall a, eager (e_context F x) = false -> default_graph (e_context F x) = g0 -> r = Gave F a -> usable outermost (e_context F x) (a_place F a)).
    assert (X : R e (gives h e)).
    { unfold gives.
      apply (layer_inv (fun x => eager (e_context F x) = true -> default_graph (e_context F x) <> g0) (fun _ => True)
        (fun y => (forall l, y_loader F y = Some l -> y_graph F y = Some g0 -> l_place F l = In_graph (outermost g0))) R); try easy.
      - intros x v y Px _. unfold new_layer, saved_model_loader. cbn. destruct (eager (e_context F x)) eqn:E; cbn; rewrite ?E; intros [= <-]; cbn; [|easy].
        intros l _ [= K]. now destruct (Px eq_refl).
      - intros x v _ _. unfold new_layer, saved_model_loader. cbn. now destruct (eager (e_context F x)) eqn:E; cbn; rewrite ?E.
      - intros x y Px I. unfold R, call, saved_model_loader, compat_v1, reload, load.
        destruct (y_v1 F y) eqn:V, (eager (e_context F x)) eqn:E; cbn.
        + destruct (y_loader F y) as [l|] eqn:L; cbn; (split; [discriminate|]); [rewrite L; exact I|].
          intros l _ [= K]. now destruct (Px eq_refl).
        + split; [|exact I]. intros b _ K. destruct (as_v1 F _); [|discriminate]. intros [= <-]. cbn. now left.
        + destruct (y_loader F y) as [l|] eqn:L; cbn; (split; [discriminate|]); [rewrite L; exact I|].
          intros l _ [= K]. now destruct (Px eq_refl).
        + assert (U : usable outermost (e_context F x) (In_graph (outermost (default_graph (e_context F x))))) by (right; now split).
          assert (J : forall l : loader F, Some (Loader F (fn F (e_files F x)) (In_graph (outermost (default_graph (e_context F x))))) = Some l ->
            Some (default_graph (e_context F x)) = Some g0 -> l_place F l = In_graph (outermost g0)) by (intros l [= <-] [= <-]; reflexivity).
          destruct (y_loader F y) as [l|] eqn:L; cbn; rewrite ?V.
          * destruct (y_graph F y) as [g|] eqn:Gy; [destruct (Nat.eqb_spec g (default_graph (e_context F x))) as [->|Ng]|]; cbn.
            -- split; [|rewrite L, Gy; exact I]. intros b _ K [= <-]. cbn. rewrite (I l eq_refl); [rewrite <- K; exact U | now rewrite K].
            -- split; [intros b _ K [= <-]; exact U | exact J].
            -- split; [intros b _ K [= <-]; exact U | exact J].
          * rewrite Nat.eqb_refl. cbn. split; [intros b _ K [= <-]; exact U | exact J].
      - intros x d Px _ b Eb K. unfold compat_v1. destruct (as_v1 F _); [|discriminate]. intros [= <-]. cbn. now left.
      - apply Forall_forall. exact Ap.
      - congruence. }
    exact (X a Ee eq_refl G).
  Qed.

(** In eager mode the function is loaded once, eagerly, and stays the same, also if the files change; what is tracked, and so
      saved in checkpoints, is what is applied. *)
Theorem c90_eager : forall h e, mode_is F true (e :: h) -> (forall x, In x (e :: h) -> as_v1 F (e_files F x) = false) ->
    exists a, gives h e = Gave F a /\ a_place F a = Eager /\ a_drop F a = true /\
      loaded F outermost (h ++ [e]) = 1 /\ tracked F outermost (h ++ [e]) = Some (Loader F (a_fn F a) Eager) /\
      forall first rest, (h ++ [e] = first :: rest)%list -> a_fn F a = fn F (e_files F first).
  Proof.
    intros h e M V2.
    assert (Inv : forall h, Forall (fun x => eager (e_context F x) = true /\ as_v1 F (e_files F x) = false) h -> forall x, eager (e_context F x) = true /\ as_v1 F (e_files F x) = false ->
      let f0 := fn F (e_files F (hd x h)) in
      exists g, step (after h (fresh F)) x = (Gave F (Applied F f0 Eager true), Output F (Some false) (Some (Layer F false (Some (Loader F f0 Eager)) (Some g) (Some (Loader F f0 Eager)) 1)))).
    { assert (St : forall x f g, eager (e_context F x) = true ->
        let o := Output F (Some false) (Some (Layer F false (Some (Loader F f Eager)) (Some g) (Some (Loader F f Eager)) 1)) in
        step o x = (Gave F (Applied F f Eager true), o)).
      { intros x f g E. cbn. unfold step, call_layer, transform_features_layer, call, saved_model_loader. cbn. destruct (e_use F x); cbn; rewrite E; cbn; reflexivity. }
      assert (S0 : forall x, eager (e_context F x) = true -> as_v1 F (e_files F x) = false -> 
        step (fresh F) x = (Gave F (Applied F (fn F (e_files F x)) Eager true), Output F (Some false) (Some (Layer F false (Some (Loader F (fn F (e_files F x)) Eager)) (Some (default_graph (e_context F x))) (Some (Loader F (fn F (e_files F x)) Eager)) 1)))).
      { intros x E A. unfold step, call_layer, transform_features_layer, exported_as_v1, new_layer, call, saved_model_loader, reload, load. cbn.
        destruct (e_use F x); cbn; rewrite A; cbn; rewrite ?E; cbn; rewrite ?E; reflexivity. }
      intros [|x0 l] Fl x [E A]; cbn zeta; cbn [hd after LayModel.after].
      - eexists. now apply S0.
      - inversion Fl as [|? ? [E0 A0] Fl']; subst. rewrite (S0 x0 E0 A0). cbn [snd].
        exists (default_graph (e_context F x0)). clear Fl. revert Fl'. induction l as [|x1 l IH]; intros Fl; cbn [after LayModel.after].
        + now rewrite St.
        + inversion Fl as [|? ? [E1 A1] Fl']; subst. rewrite (St x1 _ _ E1). cbn [snd]. now apply IH. }
    destruct (Inv h) with (x := e) as [g G].
    { apply Forall_forall. intros x I. split; [apply M | apply V2]; now right. }
    { split; [apply M | apply V2]; now left. }
    exists (Applied F (fn F (e_files F (hd e h))) Eager true). unfold gives, loaded, tracked. rewrite after_app. cbn [after LayModel.after].
    rewrite G. cbn. repeat (split; [reflexivity|]). intros first rest K. destruct h; cbn in *; now injection K as <- _.
  Qed.

(** A call of the layer in the context of the one before does not load again. *)
Theorem c90_again : forall h e e', e_use F e = Call_layer -> e_use F e' = Call_layer -> e_context F e' = e_context F e ->
    loaded F outermost (h ++ [e; e']) = loaded F outermost (h ++ [e]).
  Proof.
    intros h e e' U U' Ec. unfold loaded. rewrite !after_app. cbn [after LayModel.after]. set (o := LayModel.after F outermost h (fresh F)). clearbody o.
    unfold step, LayModel.step. rewrite U, U', Ec. set (c := e_context F e). clearbody c.
    unfold call_layer at 2 3. destruct (transform_features_layer F outermost c (e_files F e) o) as [[y o1]|] eqn:T.
    - destruct (call F outermost c (e_files F e) y) as [r y1] eqn:Cl. cbn [snd]. unfold call_layer, transform_features_layer. cbn [o_layer].
      destruct (call F outermost c (e_files F e') y1) as [r2 y2] eqn:Cl2. cbn [snd o_layer].
      unfold call in Cl. destruct (y_v1 F y && negb (eager c)) eqn:B.
      + injection Cl as <- <-. unfold call in Cl2. rewrite B in Cl2. now injection Cl2 as <- <-.
      + assert (Z : y_v1 F y1 = y_v1 F y /\ y_loader F y1 <> None /\ (eager c = true \/ y_graph F y1 = Some (default_graph c) /\ y_v1 F y = false)).
        { unfold saved_model_loader, reload in Cl. destruct (y_loader F y) as [l|] eqn:L, (eager c) eqn:E; cbn in Cl.
          - injection Cl as <- <-. rewrite L. repeat split; first [discriminate | now left].
          - destruct (y_v1 F y) eqn:V; [discriminate B|]. cbn in Cl.
            destruct (y_graph F y) as [g|] eqn:G; [destruct (Nat.eqb_spec g (default_graph c)) as [->|]|]; injection Cl as <- <-; cbn.
            + rewrite L. repeat split; first [exact V | discriminate | now right | (right; now split)].
            + repeat split; first [exact V | discriminate | now right | (right; now split)].
            + repeat split; first [exact V | discriminate | now right | (right; now split)].
          - injection Cl as <- <-. cbn. repeat split; first [discriminate | now left].
          - destruct (y_v1 F y) eqn:V; [discriminate B|]. cbn in Cl. rewrite Nat.eqb_refl in Cl. injection Cl as <- <-. cbn. repeat split; first [exact V | discriminate | now right | (right; now split)]. }
        destruct Z as [Z1 [Z2 Z3]]. unfold call in Cl2. rewrite Z1, B in Cl2. unfold saved_model_loader in Cl2.
        destruct (y_loader F y1) as [l|] eqn:L; [|congruence]. destruct Z3 as [E|[G V]].
        * rewrite E in Cl2. now injection Cl2 as <- <-.
        * rewrite Z1, V, G, Nat.eqb_refl in Cl2. destruct (eager c); now injection Cl2 as <- <-.
    - exfalso. unfold transform_features_layer in T. destruct (o_layer F o); [discriminate|].
      destruct (exported_as_v1 F (e_files F e) o) as [v o']. unfold new_layer, saved_model_loader in T. cbn in T. destruct (eager c) eqn:E; cbn in T; rewrite ?E in T; discriminate.
  Qed.

(** Outputs that are not determined by the given features are left out, but by transform_raw_features where all are asked for, and
      where a graph is only loaded. *)
Theorem c90_drop : forall h e a, gives h e = Gave F a -> a_drop F a = false ->
    e_use F e = Transform_raw_features false \/ e_use F e = Load_transform_graph.
  Proof.
    intros h e a. unfold gives. generalize (LayModel.after F outermost h (fresh F)). intros o. unfold step, LayModel.step.
    assert (L : forall o a, fst (call_layer F outermost (e_context F e) (e_files F e) o) = Gave F a -> a_drop F a = true).
    { intros o' b. unfold call_layer. destruct (transform_features_layer F outermost _ _ o') as [[y o1]|]; [|discriminate].
      unfold call, compat_v1. destruct (y_v1 F y && _); cbn.
      - destruct (as_v1 F _); [|discriminate]. now intros [= <-].
      - destruct (saved_model_loader F outermost _ _ y) as [[l y']|]; [|discriminate]. now intros [= <-]. }
    destruct (e_use F e) as [|d|]; [|destruct d|]; auto.
    - intros G D. apply L in G. congruence.
    - destruct (exported_as_v1 F (e_files F e) o) as [v o']. destruct v; intros G D; [|apply L in G; congruence].
      unfold compat_v1 in G. cbn in G. destruct (as_v1 F _); [|discriminate]. injection G as <-. discriminate.
  Qed.

(** What is known of the version is that of the files. *)
Lemma version_known s h : forall o, o_v1 F o = None \/ o_v1 F o = Some (as_v1 F s) -> files_are F s h ->
  o_v1 F (LayModel.after F outermost h o) = None \/ o_v1 F (LayModel.after F outermost h o) = Some (as_v1 F s).
Proof.
  induction h as [|e h IH]; intros o O S; [exact O|]. cbn [LayModel.after]. apply IH; [|intros x I; apply S; now right].
  assert (e_files F e = s) as E by (apply S; now left).
  assert (X : forall o, o_v1 F o = None \/ o_v1 F o = Some (as_v1 F s) -> o_v1 F (snd (exported_as_v1 F s o)) = Some (as_v1 F s)).
  { intros o' O'. unfold exported_as_v1. destruct (o_v1 F o') as [b|] eqn:B; [|reflexivity]. cbn. destruct O'; congruence. }
  assert (C : forall o, o_v1 F o = None \/ o_v1 F o = Some (as_v1 F s) ->
    let o' := snd (call_layer F outermost (e_context F e) s o) in o_v1 F o' = None \/ o_v1 F o' = Some (as_v1 F s)).
  { intros o' O'. unfold call_layer, transform_features_layer. destruct (o_layer F o') as [y|]; [now destruct (call F outermost _ _ y)|].
    pose proof (X o' O') as Y. destruct (exported_as_v1 F s o') as [v o1]. cbn in Y. destruct (new_layer F outermost _ _ v) as [y|]; [|exact O'].
    destruct (call F outermost _ _ y). now right. }
  unfold LayModel.step. rewrite E. pose proof (X o O) as Y. destruct (exported_as_v1 F s o) as [v o1]. cbn in Y. destruct (e_use F e) as [|d|].
  - exact (C o O).
  - destruct v; [now right | apply C; now right].
  - destruct v; [now right | apply C; now right].
Qed.

(** With the SavedModel of TF1, after any uses: transform_raw_features and load_transform_graph bring the function into the default graph, and
      leave out outputs only if that is asked for. *)
Theorem c90_tf1 : forall s h c, files_are F s h -> as_v1 F s = true ->
    (forall drop, gives h (Event F c s (Transform_raw_features drop)) = Gave F (Applied F (fn F s) (In_graph (default_graph c)) drop)) /\
    gives h (Event F c s Load_transform_graph) = Gave F (Applied F (fn F s) (In_graph (default_graph c)) false).
  Proof.
    intros s h c S V. destruct (version_known s h (fresh F) (or_introl eq_refl) S) as [K|K]; unfold gives, LayModel.gives, LayModel.step, exported_as_v1; cbn [e_use e_context e_files];
      rewrite K, ?V; unfold compat_v1; rewrite V; split; reflexivity.
  Qed.
End props.

Definition file (n : nat) : saved nat := Saved nat false n.
Definition at_graph (g n : nat) : event nat := Event nat (Context false g) (file n) Call_layer.
Definition at_eager (n : nat) : event nat := Event nat (Context true 0) (file n) Call_layer.

Example c90_no_assertion_applies : gives nat (fun g => g) [at_eager 7; at_graph 1 7] (Event nat (Context false 2) (Saved nat true 7) (Transform_raw_features true)) = Gave nat (Applied nat 7 (In_graph 2) true).
Proof. reflexivity. Qed.
Example c90_function_applies : let h := [at_graph 1 7; at_eager 7; at_graph 2 7] in
  files_are nat (file 7) (at_graph 1 7 :: h) /\ gives nat (fun g => g) h (at_graph 1 7) = Gave nat (Applied nat 7 (In_graph 1) true).
Proof. split; [|reflexivity]. intros e. cbn. intuition; subst; reflexivity. Qed.
(** Graph 3 is that of a function in graph 2. *)
Example c90_graph_applies : let outermost := fun g => if g =? 3 then 2 else g in let h := [at_eager 7; at_graph 1 8; at_eager 9] in
  (forall e, In e h -> eager (e_context nat e) = true -> default_graph (e_context nat e) <> 3) /\
  gives nat outermost h (at_graph 3 10) = Gave nat (Applied nat 10 (In_graph 2) true) /\ usable outermost (Context false 3) (In_graph 2) /\
  ~ usable outermost (Context false 3) (In_graph 1).
Proof.
  cbn zeta. split; [|split; [reflexivity | split]].
  - intros e. cbn. intros I _. destruct I as [<-|[<-|[<-|[]]]]; cbn; discriminate.
  - right. now split.
  - intros [E|[_ E]]; discriminate.
Qed.
Example c90_eager_applies : mode_is nat true [at_eager 8; at_eager 7] /\ gives nat (fun g => g) [at_eager 7] (at_eager 8) = Gave nat (Applied nat 7 Eager true).
Proof. split; [|reflexivity]. intros e. cbn. intuition; subst; reflexivity. Qed.
Example c90_again_applies : loaded nat (fun g => g) [at_eager 7; at_graph 1 7; at_graph 1 7] = 2 /\ loaded nat (fun g => g) [at_graph 1 7; at_graph 2 7; at_graph 1 7] = 3.
Proof. split; reflexivity. Qed.
Example c90_drop_applies : gives nat (fun g => g) [] (Event nat (Context false 1) (Saved nat true 7) (Transform_raw_features false)) = Gave nat (Applied nat 7 (In_graph 1) false).
Proof. reflexivity. Qed.
Example c90_tf1_applies : files_are nat (Saved nat true 7) [Event nat (Context true 0) (Saved nat true 7) Call_layer; Event nat (Context false 1) (Saved nat true 7) Call_layer] /\
  gives nat (fun g => g) [Event nat (Context true 0) (Saved nat true 7) Call_layer] (Event nat (Context false 2) (Saved nat true 7) Load_transform_graph) = Gave nat (Applied nat 7 (In_graph 2) false).
Proof. split; [intros e; cbn; intuition; subst; reflexivity | reflexivity]. Qed.

(** Uses in eager mode apply what can be used there.  Not so after one in a graph: the layer then keeps what it has loaded in that
    graph, and goes on to use it in eager mode. *)
Theorem c90_eager_after_graph_refuted : exists h e a, gives nat (fun g => g) h e = Gave nat a /\ eager (e_context nat e) = true /\ ~ usable (fun g => g) (e_context nat e) (a_place nat a).
Proof.
  exists [at_eager 7; at_graph 1 7], (at_eager 7). eexists. split; [reflexivity|]. split; [reflexivity|]. cbn. intros [E|[E _]]; discriminate.
Qed.

(** What is tracked, and saved in checkpoints, is what is applied.  Not so after a use in a graph. *)
Theorem c90_tracked_refuted : exists h e a, gives nat (fun g => g) h e = Gave nat a /\
  exists l, tracked nat (fun g => g) h = Some l /\ (l_fn nat l <> a_fn nat a /\ l_place nat l <> a_place nat a).
Proof.
  exists [at_eager 7], (at_graph 1 8). eexists. split; [reflexivity|]. eexists. split; [reflexivity|]. cbn. split; discriminate.
Qed.

(** Uses in graph mode apply what can be used there.  Not so in the default graph that there was when the layer was made in eager
    mode: nothing is loaded into that graph. *)
Theorem c90_graph_refuted : exists h e a, gives nat (fun g => g) h e = Gave nat a /\ eager (e_context nat e) = false /\ ~ usable (fun g => g) (e_context nat e) (a_place nat a).
Proof.
  exists [at_eager 7], (at_graph 0 7). eexists. split; [reflexivity|]. split; [reflexivity|]. cbn. discriminate.
Qed.

(** A layer applies one function.  Not so if the files are replaced and it is used in another graph. *)
Theorem c90_replaced_refuted : exists h e e' a a', gives nat (fun g => g) h e = Gave nat a /\ gives nat (fun g => g) (h ++ [e]) e' = Gave nat a' /\ a_fn nat a <> a_fn nat a'.
Proof.
  exists [], (at_graph 1 7), (at_graph 2 8). do 2 eexists. split; [reflexivity|]. split; [reflexivity|]. cbn. discriminate.
Qed.

(** transform_raw_features with drop_unused_features=False gives all outputs.  Not so for SavedModels of TF2. *)
Theorem c90_keep_refuted : exists e a, gives nat (fun g => g) [] e = Gave nat a /\ e_use nat e = Transform_raw_features false /\ a_drop nat a = true.
Proof. exists (Event nat (Context true 0) (file 7) (Transform_raw_features false)). eexists. split; [reflexivity|]. split; reflexivity. Qed.

Print Assumptions c90_no_assertion.
Print Assumptions c90_function.
Print Assumptions c90_graph.
Print Assumptions c90_eager.
Print Assumptions c90_again.
Print Assumptions c90_drop.
Print Assumptions c90_tf1.
Print Assumptions c90_eager_after_graph_refuted.
Print Assumptions c90_tracked_refuted.
Print Assumptions c90_graph_refuted.
Print Assumptions c90_replaced_refuted.
Print Assumptions c90_keep_refuted.
