From Coq Require Import String List Bool Permutation.
From Verif Require Import RegModel RegSpec.
Import ListNotations.
Local Open Scope string_scope.

Lemma tag_eqb_spec a b : reflect (a = b) (tag_eqb a b).
Proof.
  destruct a, b; cbn; try (constructor; congruence).
  destruct (String.eqb_spec name name0); constructor; congruence.
Qed.
Lemma key_eqb_spec a b : reflect (a = b) (key_eqb a b).
Proof. destruct a as [a|], b as [b|]; cbn; try (constructor; congruence). destruct (tag_eqb_spec a b); constructor; congruence. Qed.

Lemma get_added k p l : forall w,
  dict_get k (fold_left (fun w t => (t, p) :: w) l w) = if existsb (key_eqb k) l then Some p else dict_get k w.
Proof.
  induction l as [|t l IH]; intros w; cbn [fold_left existsb]; [reflexivity|]. rewrite IH. cbn [dict_get].
  destruct (key_eqb k t); cbn [orb]; [|reflexivity]. now destruct (existsb (key_eqb k) l).
Qed.

(** What is registered under a key. *)
Definition of_key (c : operation_class) (k : key) (r : registration) : Prop :=
  match k with None => in_general c r | Some t => in_environment t c r end.
Lemma of_key_dec c k r : {of_key c k r} + {~ of_key c k r}.
Proof.
  destruct (String.string_dec (operation r) c) as [E|E].
  - destruct k as [t|]; cbn; unfold in_environment, in_general.
    + destruct (tags r) as [ts|] eqn:T.
      * destruct (in_dec (fun a b => match tag_eqb_spec a b with ReflectT _ h => left h | ReflectF _ h => right h end) t ts) as [I|I];
          [left; split; [exact E|now exists ts]|right; intros (_ & ts' & [= <-] & I'); contradiction].
      * right. intros (_ & ts & [=] & _).
    + destruct (tags r) eqn:T; [right; intros [_ [=]]|left; now split].
  - right. destruct k; cbn; unfold in_environment, in_general; tauto.
Qed.
Lemma register_get c k reg r : dict_get k (wrapper_of c (register reg r))
  = if of_key_dec c k r then Some (implementation r) else dict_get k (wrapper_of c reg).
Proof.
  unfold register. cbn [wrapper_of]. destruct (String.eqb_spec c (operation r)) as [E|E].
  - subst c. unfold add_ptransform. rewrite get_added.
    destruct (of_key_dec (operation r) k r) as [H|H].
    + destruct k as [t|]; cbn in H; unfold in_environment, in_general in H.
      * destruct H as (_ & ts & -> & I).
        assert (X : existsb (key_eqb (Some t)) (map Some ts) = true).
        { apply existsb_exists. exists (Some t). split; [now apply in_map|]. now destruct (key_eqb_spec (Some t) (Some t)). }
        now rewrite X.
      * destruct H as [_ ->]. reflexivity.
    + assert (X : existsb (key_eqb k) match tags r with Some l => map Some l | None => [None] end = false).
      { destruct (existsb _ _) eqn:X; [|reflexivity]. exfalso. apply H. apply existsb_exists in X as (k' & I & Ek).
        destruct (key_eqb_spec k k') as [<-|]; [|discriminate]. destruct (tags r) as [ts|] eqn:T.
        - apply in_map_iff in I as (t & <- & I). cbn. split; [reflexivity|]. now exists ts.
        - destruct I as [<-|[]]. now split. }
      cbv zeta. unfold key in *. rewrite X. reflexivity.
  - destruct (of_key_dec c k r) as [H|H]; [|reflexivity]. exfalso. apply E.
    destruct k; cbn in H; destruct H as [<- _]; reflexivity.
Qed.

(** The dict has the last registration of the key. *)
Lemma get_history c k h : match dict_get k (wrapper_of c (fold_left register h [])) with
  | Some p => exists r, last_of (of_key c k) h r /\ p = implementation r
  | None => Forall (fun r => ~ of_key c k r) h
  end.
Proof.
  induction h as [|r h IH] using rev_ind; [constructor|]. rewrite fold_left_app. cbn [fold_left]. rewrite register_get.
  destruct (of_key_dec c k r) as [H|H].
  - exists r. split; [|reflexivity]. exists h, []. repeat split; [exact H|constructor].
  - destruct (dict_get k (wrapper_of c (fold_left register h []))) as [p|].
    + destruct IH as (r0 & (b & a & -> & K & F) & ->). exists r0. split; [|reflexivity].
      exists b, (a ++ [r])%list. rewrite <- app_assoc. repeat split; [exact K|]. apply Forall_app. split; [exact F|]. constructor; [exact H|constructor].
    + apply Forall_app. split; [exact IH|]. constructor; [exact H|constructor].
Qed.

Lemma last_in kind h r : last_of kind h r -> In r h /\ kind r.
Proof. intros (b & a & -> & K & _). split; [apply in_app_iff; right; now left|exact K]. Qed.
Lemma last_unique kind h r r' : last_of kind h r -> last_of kind h r' -> r = r'.
Proof.
  intros (b & a & -> & K & F) (b' & a' & E & K' & F'). revert b' E. induction b as [|x b IH]; intros [|x' b'] E; cbn in E.
  - congruence.
  - injection E as -> ->. apply Forall_app in F as [_ F]. inversion F; contradiction.
  - injection E as -> <-. apply Forall_app in F' as [_ F']. inversion F'; contradiction.
  - injection E as -> E. exact (IH b' E).
Qed.

Section visits.
  Context {pcollection : Type} (apply : ptransform -> string -> list pcollection -> outputs pcollection).

  Lemma visit_spec h v1 c label inputs :
    (exists p tagged, implemented h (environment v1) c p tagged /\
       visit apply (fold_left register h []) v1 c label inputs = applied (apply p (tagged label) inputs) (tagged label)) \/
    (Forall (fun r => ~ in_environment (environment v1) c r /\ ~ in_general c r) h /\
       visit apply (fold_left register h []) v1 c label inputs = No_implementation).
  Proof.
    unfold visit, get_ptransform. fold (environment v1).
    assert (A := get_history c (Some (environment v1)) h). assert (B := get_history c None h). cbn [of_key] in A, B.
    destruct (dict_get (Some (environment v1)) (wrapper_of c (fold_left register h []))) as [p|].
    - destruct A as (r & L & ->). left. exists (implementation r), (fun label => label ++ "[" ++ tag_value (environment v1) ++ "]").
      split; [now apply By_environment|]. destruct (apply _ _ inputs); reflexivity.
    - destruct (dict_get None (wrapper_of c (fold_left register h []))) as [p|].
      + destruct B as (r & L & ->). left. exists (implementation r), (fun label => label). split; [now apply By_general|].
        destruct (apply _ _ inputs); reflexivity.
      + right. split; [|reflexivity]. rewrite Forall_forall in A, B. apply Forall_forall. intros r I. split; [apply A, I|apply B, I].
  Qed.
  Lemma implemented_unique h t c p f p' f' : implemented h t c p f -> implemented h t c p' f' -> p = p' /\ f = f'.
  Proof.
    intros [r L|r F L] [r' L'|r' F' L'].
    - now rewrite (last_unique _ _ _ _ L L').
    - exfalso. destruct (last_in _ _ _ L) as [I K]. rewrite Forall_forall in F'. exact (F' r I K).
    - exfalso. destruct (last_in _ _ _ L') as [I K]. rewrite Forall_forall in F. exact (F r' I K).
    - now rewrite (last_unique _ _ _ _ L L').
  Qed.
  Lemma visit_implemented h v1 c label inputs p tagged : implemented h (environment v1) c p tagged ->
    visit apply (fold_left register h []) v1 c label inputs = applied (apply p (tagged label) inputs) (tagged label).
  Proof.
    intros H. destruct (visit_spec h v1 c label inputs) as [(p' & f' & H' & E)|[F _]].
    - destruct (implemented_unique _ _ _ _ _ _ _ H H') as [-> ->]. exact E.
    - exfalso. rewrite Forall_forall in F. destruct H as [r L|r _ L]; destruct (last_in _ _ _ L) as [I K]; destruct (F r I); contradiction.
  Qed.
  Lemma visit_none h v1 c label inputs : Forall (fun r => ~ in_environment (environment v1) c r /\ ~ in_general c r) h ->
    visit apply (fold_left register h []) v1 c label inputs = No_implementation.
  Proof.
    intros F. destruct (visit_spec h v1 c label inputs) as [(p' & f' & H' & E)|[_ E]]; [|exact E].
    exfalso. rewrite Forall_forall in F. destruct H' as [r L|r _ L]; destruct (last_in _ _ _ L) as [I K]; destruct (F r I); contradiction.
  Qed.

  (** Registrations of other operations do not matter. *)
  Lemma wrapper_other c h' : forall reg, Forall (fun r => operation r <> c) h' -> wrapper_of c (fold_left register h' reg) = wrapper_of c reg.
  Proof.
    induction h' as [|r h' IH]; intros reg F; [reflexivity|]. inversion F as [|? ? N F']; subst. cbn [fold_left]. rewrite IH by exact F'.
    unfold register. cbn [wrapper_of]. destruct (String.eqb_spec c (operation r)); [congruence|reflexivity].
  Qed.
  (** After the library's registrations and any others, every operation of it has some implementation. *)
  Lemma library_of_key c v1 : In c operations ->
    exists r, In r library /\ (in_environment (environment v1) c r \/ in_general c r).
  Proof.
    intros I. assert (F : Forall (fun c => exists r, In r library /\ (in_environment (environment v1) c r \/ in_general c r)) operations).
    { unfold operations.
      repeat (constructor; [first
        [ match goal with |- exists r, _ /\ (in_environment _ "CreateSavedModel" r \/ _) =>
            exists (Registration "CreateSavedModel" (Some [environment v1]) (if v1 then "_CreateSavedModelImpl" else "_CreateSavedModelImplV2"));
            split; [destruct v1; cbn; tauto|left; split; [reflexivity|exists [environment v1]; split; [reflexivity|now left]]] end
        | match goal with |- exists r, _ /\ (in_environment _ ?c r \/ _) =>
            let r := eval vm_compute in (find (fun r => String.eqb (operation r) c) library) in
            match r with Some ?r => exists r end end;
          split; [cbn; tauto|right; split; reflexivity] ]|]). constructor. }
    rewrite Forall_forall in F. exact (F c I).
  Qed.

  (** In the library the key of an operation is registered at most once, so that any order gives the same. *)
  Lemma library_once c k r r' : In r library -> In r' library -> of_key c k r -> of_key c k r' -> r = r'.
  Proof.
    assert (W : forallb (fun r => forallb (fun r' =>
      negb (String.eqb (operation r) (operation r'))
      || String.eqb (implementation r) (implementation r') && (match tags r, tags r' with
           | None, None => true | Some [t], Some [t'] => tag_eqb t t' | _, _ => false end)
      || match tags r, tags r' with Some [t], Some [t'] => negb (tag_eqb t t') | _, _ => false end) library) library = true)
      by (vm_compute; reflexivity).
    intros I I' K K'. rewrite forallb_forall in W. specialize (W r I). rewrite forallb_forall in W. specialize (W r' I').
    assert (O : operation r = c /\ operation r' = c) by (destruct k; cbn in K, K'; destruct K, K'; tauto). destruct O as [O O'].
    rewrite O, O', String.eqb_refl in W. cbn [negb orb] in W.
    destruct r as [o ts p], r' as [o' ts' p']; cbn [operation tags implementation] in *. subst o o'.
    apply orb_true_iff in W as [W|W].
    - apply andb_true_iff in W as [Wp Wt]. apply String.eqb_eq in Wp as ->. f_equal.
      destruct ts as [[|t [|? ?]]|], ts' as [[|t' [|? ?]]|]; try discriminate; [|reflexivity].
      destruct (tag_eqb_spec t t') as [->|]; [reflexivity|discriminate].
    - destruct ts as [[|t [|? ?]]|], ts' as [[|t' [|? ?]]|]; try discriminate.
      destruct (tag_eqb_spec t t') as [->|N]; [discriminate|]. exfalso.
      destruct k as [k|]; cbn in K, K'.
      + destruct K as (_ & l & E & L), K' as (_ & l' & E' & L'). cbn in E, E'. injection E as <-. injection E' as <-.
        destruct L as [<-|[]], L' as [<-|[]]. now apply N.
      + destruct K as [_ [=]].
  Qed.
  Lemma order_get loaded c k : Permutation library loaded ->
    dict_get k (wrapper_of c (fold_left register loaded [])) = dict_get k (wrapper_of c (fold_left register library [])).
  Proof.
    intros P. assert (A := get_history c k loaded). assert (B := get_history c k library).
    destruct (dict_get k (wrapper_of c (fold_left register loaded []))) as [p|], (dict_get k (wrapper_of c (fold_left register library []))) as [q|].
    - destruct A as (r & L & ->), B as (r' & L' & ->). apply last_in in L as [I K], L' as [I' K'].
      rewrite (library_once c k r r'); auto. exact (Permutation_in _ (Permutation_sym P) I).
    - exfalso. destruct A as (r & L & _). apply last_in in L as [I K]. rewrite Forall_forall in B. exact (B r (Permutation_in _ (Permutation_sym P) I) K).
    - exfalso. destruct B as (r & L & _). apply last_in in L as [I K]. rewrite Forall_forall in A. exact (A r (Permutation_in _ P I) K).
    - reflexivity.
  Qed.
  Lemma order_matters_not loaded v1 c label inputs : Permutation library loaded ->
    visit apply (fold_left register loaded []) v1 c label inputs = visit apply (fold_left register library []) v1 c label inputs.
  Proof. intros P. unfold visit, get_ptransform. now rewrite !(order_get loaded c) by exact P. Qed.
End visits.
