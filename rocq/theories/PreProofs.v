From Coq Require Import String Ascii List Bool Arith Lia.
From Verif Require Import PreModel PreSpec.
Import ListNotations.

Lemma all_some_spec {A} (l : list (option A)) r : all_some l = Some r <-> Forall2 (fun o a => o = Some a) l r.
Proof.
  revert r. induction l as [|[a|] l IH]; intros r; cbn.
  - split; [intros [= <-]; constructor|intro H; inversion H; reflexivity].
  - split.
    + destruct (all_some l) as [r'|]; [|discriminate]. intros [= <-]. constructor; [reflexivity|]. apply IH. reflexivity.
    + intro H. inversion H as [|? ? ? r' E H']; subst. injection E as ->. apply IH in H'. rewrite H'. reflexivity.
  - split; [discriminate|]. intro H. inversion H as [|? ? ? ? E]; discriminate E.
Qed.

Lemma all_some_map {A B} (f : A -> option B) l r : all_some (map f l) = Some r <-> Forall2 (fun a b => f a = Some b) l r.
Proof.
  rewrite all_some_spec. revert r. induction l as [|a l IH]; intro r; cbn; split; intro H; inversion H; subst; constructor; auto; apply IH; assumption.
Qed.

Section ind.
  Variables O V L : Type.
  Variable P : expr O V L -> Prop.
  Hypothesis Hl : forall l, P (Leaf l).
  Hypothesis Hv : forall n, P (Var n).
  Hypothesis Hc : forall v, P (Const v).
  Hypothesis Ha : forall o args, Forall P args -> P (Ap o args).
  Fixpoint expr_ind' (e : expr O V L) : P e :=
    match e with
    | Leaf l => Hl l
    | Var n => Hv n
    | Const v => Hc v
    | Ap o args => Ha o args ((fix go (l : list (expr O V L)) : Forall P l :=
        match l with [] => Forall_nil _ | e :: l' => Forall_cons _ (expr_ind' e) (go l') end) args)
    end.
End ind.

Section proofs.
  Variables O V : Type.
  Variable run : O -> list V -> V.
  Notation computes := (computes O V run).

  Lemma computes_ap_inv {L} (leaf : L -> option V) var o args v :
    computes leaf var (Ap o args) v <-> exists vs, Forall2 (computes leaf var) args vs /\ v = run o vs.
  Proof.
    split; [intro H; inversion H; subst; eauto|]. intros (vs & H & ->). constructor. exact H.
  Qed.

  Lemma f2_iff {A B C} (R : A -> C -> Prop) (S : B -> C -> Prop) l l' vs :
    Forall2 (fun a b => forall v, R a v <-> S b v) l l' -> Forall2 R l vs <-> Forall2 S l' vs.
  Proof.
    intro H. revert vs. induction H as [|a b l l' E H IH]; intro vs; split; intro F; inversion F; subst; constructor;
      try (apply E; assumption); apply IH; assumption.
  Qed.

  Lemma computes_subst {L L'} (f : L -> option L') (leaf : L' -> option V) var e e' : subst O V f e = Some e' ->
    forall v, computes (fun l => match f l with Some l' => leaf l' | None => None end) var e v <-> computes leaf var e' v.
  Proof.
    revert e'. induction e as [l|n|c|o args IH] using expr_ind'; cbn; intros e' E v.
    - destruct (f l) as [l'|] eqn:F; [|discriminate]. injection E as <-.
      split; intro H; inversion H; subst; constructor; [rewrite F in *; assumption|rewrite F; assumption].
    - injection E as <-. split; intro H; inversion H; subst; constructor; assumption.
    - injection E as <-. split; intro H; inversion H; subst; constructor.
    - destruct (all_some _) as [args'|] eqn:A; [|discriminate]. injection E as <-. apply all_some_map in A. rewrite !computes_ap_inv.
      assert (F : Forall2 (fun a b => forall v, computes (fun l => match f l with Some l' => leaf l' | None => None end) var a v <-> computes leaf var b v) args args').
      { clear - IH A. induction A as [|a b args args' E A I]; constructor; inversion IH; subst; auto. }
      split; intros (vs & H & ->); exists vs; (split; [|reflexivity]); apply (f2_iff _ _ _ _ _ F); exact H.
  Qed.

  Lemma computes_freeze {L} (session var : string -> option V) (leaf : L -> option V) e e' : freeze O V session e = Some e' ->
    forall v, computes leaf session e v <-> computes leaf var e' v.
  Proof.
    revert e'. induction e as [l|n|c|o args IH] using expr_ind'; cbn; intros e' E v.
    - injection E as <-. split; intro H; inversion H; subst; constructor; assumption.
    - destruct (session n) as [w|] eqn:F; [|discriminate]. injection E as <-.
      split; intro H; inversion H; subst; [assert (v = w) as -> by congruence; constructor|constructor; exact F].
    - injection E as <-. split; intro H; inversion H; subst; constructor.
    - destruct (all_some _) as [args'|] eqn:A; [|discriminate]. injection E as <-. apply all_some_map in A. rewrite !computes_ap_inv.
      assert (F : Forall2 (fun a b => forall v, computes leaf session a v <-> computes leaf var b v) args args').
      { clear - IH A. induction A as [|a b args args' E A I]; constructor; inversion IH; subst; auto. }
      split; intros (vs & H & ->); exists vs; (split; [|reflexivity]); apply (f2_iff _ _ _ _ _ F); exact H.
  Qed.

  Lemma freeze_leaves {L} session (e e' : expr O V L) : freeze O V session e = Some e' -> leaves O V e' = leaves O V e.
  Proof.
    revert e'. induction e as [l|n|c|o args IH] using expr_ind'; cbn; intros e' E.
    - injection E as <-. reflexivity.
    - destruct (session n); [|discriminate]. injection E as <-. reflexivity.
    - injection E as <-. reflexivity.
    - destruct (all_some _) as [args'|] eqn:A; [|discriminate]. injection E as <-. apply all_some_map in A. cbn.
      induction A as [|a b args args' E A I]; cbn; [reflexivity|]. inversion IH; subst. f_equal; auto.
  Qed.

  Lemma leaves_mentions {L} (l : L) e : In l (leaves O V e) <-> mentions O V l e.
  Proof.
    induction e as [l'|n|c|o args IH] using expr_ind'; cbn.
    - split; [intros [->|[]]; constructor|intro H; inversion H; auto].
    - split; [intros []|intro H; inversion H].
    - split; [intros []|intro H; inversion H].
    - rewrite in_flat_map. rewrite Forall_forall in IH. split.
      + intros (e & E & M). econstructor; [exact E|]. apply IH; assumption.
      + intro H. inversion H as [|? ? e E M]; subst. exists e. split; [exact E|]. apply IH; assumption.
  Qed.

  (** Values of leaves that are not mentioned do not matter, nor do those of variables. *)
  Lemma computes_ext {L} (leaf leaf' : L -> option V) var var' e v :
    (forall l, mentions O V l e -> leaf l = leaf' l) -> (forall n, mentions_var O V n e -> var n = var' n) ->
    computes leaf var e v <-> computes leaf' var' e v.
  Proof.
    revert v. induction e as [l|n|c|o args IH] using expr_ind'; intros v HL HV.
    - split; intro H; inversion H; subst; constructor; [rewrite <- HL by constructor|rewrite HL by constructor]; assumption.
    - split; intro H; inversion H; subst; constructor; [rewrite <- HV by constructor|rewrite HV by constructor]; assumption.
    - split; intro H; inversion H; subst; constructor.
    - rewrite !computes_ap_inv.
      assert (F : Forall2 (fun a b => forall v, computes leaf var a v <-> computes leaf' var' b v) args args).
      { assert (HL' : forall a, In a args -> forall l, mentions O V l a -> leaf l = leaf' l) by (intros a A l M; apply HL; econstructor; eassumption).
        assert (HV' : forall a, In a args -> forall l, mentions_var O V l a -> var l = var' l) by (intros a A l M; apply HV; econstructor; eassumption).
        clear HL HV. induction args as [|a args I]; constructor; inversion IH; subst.
        - intro w. apply H1; [apply HL'|apply HV']; left; reflexivity.
        - apply I; [assumption|intros b B; apply HL'|intros b B; apply HV']; right; exact B. }
      split; intros (vs & H & ->); exists vs; (split; [|reflexivity]); apply (f2_iff _ _ _ _ _ F); exact H.
  Qed.

  Lemma freeze_vars {L} session (e e' : expr O V L) : freeze O V session e = Some e' -> forall n, mentions_var O V n e -> session n <> None.
  Proof.
    revert e'. induction e as [l|n|c|o args IH] using expr_ind'; cbn; intros e' E m M; inversion M; subst.
    - destruct (session n); [discriminate|discriminate E].
    - destruct (all_some _) as [args'|] eqn:A; [|discriminate]. apply all_some_map in A. rewrite Forall_forall in IH.
      match goal with H : In ?x args |- _ => assert (exists b, freeze O V session x = Some b) as (b & B) end.
      { clear - A H1. induction A; [destruct H1|]. destruct H1 as [<-|H1]; eauto. }
      eapply IH; eauto.
  Qed.

  Lemma freeze_total {L} session (e : expr O V L) : (forall n, mentions_var O V n e -> session n <> None) -> exists e', freeze O V session e = Some e'.
  Proof.
    induction e as [l|n|c|o args IH] using expr_ind'; cbn; intros H; eauto.
    - destruct (session n) eqn:F; [eexists; reflexivity|]. destruct (H n); [constructor|exact F].
    - assert (exists args', Forall2 (fun a b => freeze O V session a = Some b) args args') as (args' & A).
      { assert (H' : forall a, In a args -> forall n, mentions_var O V n a -> session n <> None) by (intros a A n M; apply H; econstructor; eassumption).
        clear H. induction args as [|a args I]; [exists []; constructor|]. inversion IH; subst.
        destruct H1 as (a' & E); [apply H'; left; reflexivity|]. destruct I as (args' & F); [assumption|intros b B; apply H'; right; exact B|].
        exists (a' :: args'). constructor; assumption. }
      apply all_some_map in A. rewrite A. eexists. reflexivity.
  Qed.

  Lemma subst_total {L L'} (f : L -> option L') (e : expr O V L) : (forall l, mentions O V l e -> f l <> None) -> exists e', subst O V f e = Some e'.
  Proof.
    induction e as [l|n|c|o args IH] using expr_ind'; cbn; intros H; eauto.
    - destruct (f l) eqn:F; [eexists; reflexivity|]. destruct (H l); [constructor|exact F].
    - assert (exists args', Forall2 (fun a b => subst O V f a = Some b) args args') as (args' & A).
      { assert (H' : forall a, In a args -> forall n, mentions O V n a -> f n <> None) by (intros a A n M; apply H; econstructor; eassumption).
        clear H. induction args as [|a args I]; [exists []; constructor|]. inversion IH; subst.
        destruct H1 as (a' & E); [apply H'; left; reflexivity|]. destruct I as (args' & F); [assumption|intros b B; apply H'; right; exact B|].
        exists (a' :: args'). constructor; assumption. }
      apply all_some_map in A. rewrite A. eexists. reflexivity.
  Qed.

  Lemma subst_leaves {L L'} (f : L -> option L') (e : expr O V L) e' : subst O V f e = Some e' ->
    Forall2 (fun l l' => f l = Some l') (leaves O V e) (leaves O V e').
  Proof.
    revert e'. induction e as [l|n|c|o args IH] using expr_ind'; cbn; intros e' E.
    - destruct (f l) eqn:F; [|discriminate]. injection E as <-. constructor; [exact F|constructor].
    - injection E as <-. constructor.
    - injection E as <-. constructor.
    - destruct (all_some _) as [args'|] eqn:A; [|discriminate]. injection E as <-. apply all_some_map in A. cbn.
      induction A as [|a b args args' E A I]; cbn; [constructor|]. inversion IH; subst. apply Forall2_app; auto.
  Qed.

  Lemma subst_vars {L L'} (f : L -> option L') (e : expr O V L) e' n : subst O V f e = Some e' -> mentions_var O V n e <-> mentions_var O V n e'.
  Proof.
    revert e'. induction e as [l|m|c|o args IH] using expr_ind'; cbn; intros e' E.
    - destruct (f l); [|discriminate]. injection E as <-. split; intro H; inversion H.
    - injection E as <-. split; intro H; inversion H; constructor.
    - injection E as <-. split; intro H; inversion H.
    - destruct (all_some _) as [args'|] eqn:A; [|discriminate]. injection E as <-. apply all_some_map in A. rewrite Forall_forall in IH.
      split; intro H; inversion H as [|? ? e I M]; subst.
      + assert (exists b, In b args' /\ subst O V f e = Some b) as (b & B & S).
        { clear - A I. induction A; [destruct I|]. destruct I as [<-|I]; [eexists; split; [left; reflexivity|assumption]|].
          destruct (IHA I) as (b & B & S). exists b. split; [right; exact B|exact S]. }
        econstructor; [exact B|]. apply (IH e I b S). exact M.
      + assert (exists a, In a args /\ subst O V f a = Some e) as (a & B & S).
        { clear - A I. induction A; [destruct I|]. destruct I as [<-|I]; [eexists; split; [left; reflexivity|assumption]|].
          destruct (IHA I) as (b & B & S). exists b. split; [right; exact B|exact S]. }
        econstructor; [exact B|]. apply (IH a B e S). exact M.
  Qed.
End proofs.

Lemma tensor_eqb_spec a b : reflect (a = b) (tensor_eqb a b).
Proof.
  unfold tensor_eqb. destruct a as [o i], b as [o' i']. cbn. destruct (String.eqb_spec o o'); [|constructor; congruence].
  destruct (Nat.eqb_spec i i'); constructor; congruence.
Qed.

Lemma mem_tensor t l : existsb (tensor_eqb t) l = true <-> In t l.
Proof.
  rewrite existsb_exists. split.
  - intros (u & U & E). destruct (tensor_eqb_spec t u); [subst; exact U|discriminate].
  - intro H. exists t. split; [exact H|]. destruct (tensor_eqb_spec t t); [reflexivity|contradiction].
Qed.

Lemma mem_string t l : existsb (String.eqb t) l = true <-> In t l.
Proof.
  rewrite existsb_exists. split.
  - intros (u & U & E). apply String.eqb_eq in E. subst. exact U.
  - intro H. exists t. split; [exact H|]. apply String.eqb_refl.
Qed.

(** * Names *)
Lemma unique_names_same names in_use : NoDup (map lower names) -> (forall n, In n names -> dict_get in_use (lower n) = None) ->
  unique_names in_use names = names.
Proof.
  revert in_use. induction names as [|n names IH]; intros in_use ND F; cbn; [reflexivity|].
  unfold unique_name. rewrite (F n (or_introl eq_refl)). f_equal. inversion ND as [|? ? NI ND']; subst. apply IH; [exact ND'|].
  intros m M. cbn. destruct (String.eqb_spec (lower n) (lower m)) as [E|_]; [|apply F; right; exact M].
  destruct NI. rewrite E. apply in_map, M.
Qed.

Lemma unique_names_length names in_use : length (unique_names in_use names) = length names.
Proof. revert in_use. induction names as [|n names IH]; intro in_use; cbn; [reflexivity|]. destruct (unique_name in_use n). cbn. rewrite IH. reflexivity. Qed.

Lemma prefix_spec s t : String.prefix s t = true <-> begins_with s t.
Proof.
  unfold begins_with. revert t. induction s as [|c s IH]; intros t; cbn.
  - split; [intros _; exists t; reflexivity|destruct t; reflexivity].
  - destruct t as [|d t]; [split; [discriminate|intros (r & E); discriminate E]|].
    cbn. destruct (ascii_dec c d) as [->|N].
    + rewrite IH. split; intros (r & E); exists r; [rewrite E; reflexivity|injection E as E; exact E].
    + split; [discriminate|]. intros (r & E). injection E as E _. congruence.
Qed.

Lemma has_duplicates_spec l : has_duplicates l = false <-> NoDup l.
Proof.
  induction l as [|x l IH]; cbn; [split; [constructor|reflexivity]|]. rewrite orb_false_iff, IH. split.
  - intros [A B]. constructor; [|exact B]. intro C. apply mem_string in C. congruence.
  - intro H. inversion H as [|? ? NI ND]; subst. split; [|exact ND]. destruct (existsb (String.eqb x) l) eqn:E; [|reflexivity].
    apply mem_string in E. contradiction.
Qed.

(** * The variables *)
Lemma in_scopes variables scopes v : In v (flat_map (get_variables variables) scopes) <->
  In v variables /\ exists s, In s scopes /\ begins_with s (v ++ ":0").
Proof.
  rewrite in_flat_map. unfold get_variables. split.
  - intros (s & S & H). apply filter_In in H as [H P]. apply prefix_spec in P. eauto.
  - intros (H & s & S & P). exists s. split; [exact S|]. apply filter_In. split; [exact H|]. apply prefix_spec, P.
Qed.

Lemma restored_spec variables include exclude v :
  In v (get_variables_to_restore variables include exclude) <-> In v variables /\ chosen include exclude v.
Proof.
  unfold get_variables_to_restore, chosen. rewrite filter_In, negb_true_iff.
  assert (E : existsb (String.eqb v) match exclude with Some scopes => flat_map (get_variables variables) scopes | None => [] end = false <->
    ~ In v match exclude with Some scopes => flat_map (get_variables variables) scopes | None => [] end).
  { rewrite <- mem_string. destruct (existsb _ _); split; congruence. }
  rewrite E. destruct include as [inc|], exclude as [exc|]; rewrite ?in_scopes; cbn [In]; tauto.
Qed.

Lemma restore_ok {V} vars (checkpoint : string -> option V) session : restore V vars checkpoint = Ok session ->
  vars <> [] /\ NoDup vars /\ (forall v, In v vars -> session v = checkpoint v /\ checkpoint v <> None) /\ (forall v, ~ In v vars -> session v = None).
Proof.
  unfold restore, assert. destruct vars as [|w vars]; [discriminate|]. set (l := w :: vars) in *. cbn [bind].
  destruct (has_duplicates l) eqn:D; [discriminate|]. cbn [bind negb]. destruct (forallb _ l) eqn:F; [|discriminate]. cbn [bind].
  intros [= <-]. split; [discriminate|]. split; [apply has_duplicates_spec, D|]. rewrite forallb_forall in F. split.
  - intros v H. specialize (F v H). apply mem_string in H. change (_ || _) with (existsb (String.eqb v) l). rewrite H. split; [reflexivity|]. destruct (checkpoint v); [discriminate|discriminate F].
  - intros v H. change (_ || _) with (existsb (String.eqb v) l). destruct (existsb (String.eqb v) l) eqn:M; [apply mem_string in M; contradiction|reflexivity].
Qed.

(** * Importing *)
Section import.
  Variables O V : Type.
  Variable run : O -> list V -> V.

  Definition renaming (input_map : list (tensor * tensor)) (t : tensor) : tensor + tensor :=
    match map_get (rev input_map) t with Some o => inl o | None => inr t end.

  Lemma import_spec elements input_map r : import_graph_def O V elements input_map = Ok r <->
    (forall k t, In (k, t) input_map -> exists e, In e elements /\ mentions O V k e) /\
    Forall2 (fun e e' => subst O V (fun t => Some (renaming input_map t)) e = Some e') elements r.
  Proof.
    unfold import_graph_def, assert. set (b := forallb _ _). assert (B : b = true <-> forall k t, In (k, t) input_map -> exists e, In e elements /\ mentions O V k e).
    { unfold b. rewrite forallb_forall. split.
      - intros H k t I. specialize (H _ I). cbn in H. apply mem_tensor, in_flat_map in H as (e & E & M). exists e. split; [exact E|]. apply leaves_mentions, M.
      - intros H [k t] I. cbn. apply mem_tensor, in_flat_map. destruct (H k t I) as (e & E & M). exists e. split; [exact E|]. apply leaves_mentions, M. }
    clearbody b.
    set (f := fun t => match map_get (rev input_map) t with Some outer => Some (inl outer) | None => Some (inr t) end).
    assert (F : forall e, subst O V f e = subst O V (fun t => Some (renaming input_map t)) e).
    { intro e. induction e as [l|n|c|o args IH] using expr_ind'; cbn; try reflexivity.
      - unfold f, renaming. destruct (map_get _ _); reflexivity.
      - do 2 f_equal. apply map_ext_in. rewrite Forall_forall in IH. exact IH. }
    rewrite (map_ext _ _ F). destruct b; cbn [bind].
    - rewrite <- all_some_map. destruct (all_some _); cbn; split.
      + intros [= ->]. split; [apply B; reflexivity|reflexivity].
      + intros [_ [= ->]]. reflexivity.
      + discriminate.
      + intros [_ H]. discriminate H.
    - split; [discriminate|]. intros [H _]. apply B in H. discriminate H.
  Qed.

  Lemma import_total elements input_map : (forall k t, In (k, t) input_map -> exists e, In e elements /\ mentions O V k e) ->
    exists r, import_graph_def O V elements input_map = Ok r.
  Proof.
    intro H. assert (exists r, Forall2 (fun e e' => subst O V (fun t => Some (renaming input_map t)) e = Some e') elements r) as (r & R).
    { clear H. induction elements as [|e es (r & R)]; [exists []; constructor|]. destruct (subst_total O V (fun t => Some (renaming input_map t)) e) as (e' & E); [discriminate|].
      exists (e' :: r). constructor; assumption. }
    exists r. apply import_spec. split; assumption.
  Qed.

  (** The values of an imported element. *)
  Lemma import_value outer input_map e e' v : subst O V (fun t => Some (renaming input_map t)) e = Some e' ->
    has_value O V run outer e' v <->
    computes O V run (fun t => match map_get (rev input_map) t with Some o => outer o | None => None end) (fun _ => None) e v.
  Proof.
    intro S. unfold has_value. rewrite <- (computes_subst O V run _ _ _ _ _ S). apply computes_ext; [|reflexivity].
    intros t _. unfold renaming. destruct (map_get _ _); reflexivity.
  Qed.
End import.

Lemma map_get_unique m k t : NoDup (map fst m) -> In (k, t) m -> map_get m k = Some t.
Proof.
  unfold map_get. induction m as [|[k' t'] m IH]; [intros _ []|]. intros ND [E|I]; cbn.
  - injection E as -> ->. destruct (tensor_eqb_spec k k); [reflexivity|contradiction].
  - inversion ND as [|? ? NI ND']; subst. destruct (tensor_eqb_spec k' k) as [->|_]; [|apply IH; assumption].
    destruct NI. apply (in_map fst) in I. exact I.
Qed.
Lemma map_get_in m k t : map_get m k = Some t -> In (k, t) m.
Proof.
  unfold map_get. destruct (find _ m) as [[k' t']|] eqn:F; [|discriminate]. cbn. intros [= ->]. apply find_some in F as [F E]. cbn in E.
  destruct (tensor_eqb_spec k' k); [subst; exact F|discriminate].
Qed.

Lemma f2_nth {A B} (R : A -> B -> Prop) l l' : Forall2 R l l' -> forall b, In b l' -> exists a, In a l /\ R a b.
Proof. intro H. induction H as [|a b l l' H _ IH]; [intros ? []|]; intros c [<-|C]; [exists a; split; [left; reflexivity|exact H]|]. destruct (IH c C) as (d & D & E). exists d. split; [right; exact D|exact E]. Qed.
Lemma f2_fwd {A B} (R : A -> B -> Prop) l l' : Forall2 R l l' -> forall a, In a l -> exists b, In b l' /\ R a b.
Proof. intro H. induction H as [|a b l l' H _ IH]; [intros ? []|]; intros c [<-|C]; [exists b; split; [left; reflexivity|exact H]|]. destruct (IH c C) as (d & D & E). exists d. split; [right; exact D|exact E]. Qed.
Lemma f2_trans {A B C} (R : A -> B -> Prop) (S : B -> C -> Prop) l m n : Forall2 R l m -> Forall2 S m n -> Forall2 (fun a c => exists b, R a b /\ S b c) l n.
Proof. intros H. revert n. induction H; intros n K; inversion K; subst; constructor; eauto. Qed.
Lemma f2_impl {A B} (R S : A -> B -> Prop) l l' : (forall a b, In a l -> R a b -> S a b) -> Forall2 R l l' -> Forall2 S l l'.
Proof. intros H F. induction F; constructor; [apply H; [left; reflexivity|assumption]|]. apply IHF. intros a b I. apply H. right. exact I. Qed.

Section function.
  Variables O V : Type.
  Variable run : O -> list V -> V.
  Variable fn : function O V.
  Variable inputs : list tensor.
  Variable checkpoint : string -> option V.
  Variables include exclude : option (list string).
  Hypothesis names : NoDup (map (fun t => lower (t_op t)) inputs).
  Notation vars := (get_variables_to_restore (f_variables O V fn) include exclude).
  Notation phs := (map (fun t => Tensor (t_op t) 0) inputs).

  Lemma placeholders : map (fun n => Tensor n 0) (unique_names [] (map t_op inputs)) = phs.
  Proof.
    rewrite unique_names_same; [apply map_map| |reflexivity]. rewrite map_map. exact names.
  Qed.

  Lemma apply_ok single outs : apply_function_with_checkpoint O V fn inputs checkpoint include exclude = Ok (single, outs) <->
    exists ots session og, Forall2 (fun b e => subst O V (nth_error phs) b = Some e) (f_outputs O V fn) ots /\
      f_tables O V fn = false /\ restore V vars checkpoint = Ok session /\
      Forall2 (fun e e' => freeze O V session e = Some e') ots og /\
      import_graph_def O V og (map (fun t => (t, t)) inputs) = Ok outs /\ single = f_single O V fn.
  Proof.
    unfold apply_function_with_checkpoint. rewrite placeholders. split.
    - destruct (all_some (map _ (f_outputs O V fn))) as [ots|] eqn:E1; [|discriminate]. cbn [of_option bind].
      destruct (f_tables O V fn); [discriminate|]. cbn [negb assert bind].
      destruct (restore V vars checkpoint) as [session|] eqn:E2; [|discriminate]. cbn [bind].
      destruct (all_some (map (freeze O V session) ots)) as [og|] eqn:E3; [|discriminate]. cbn [of_option bind].
      destruct (import_graph_def _ _ _ _) as [o|] eqn:E4; [|discriminate]. cbn [bind]. intros [= <- <-].
      exists ots, session, og. apply all_some_map in E1, E3. auto 7.
    - intros (ots & session & og & E1 & -> & -> & E3 & E4 & ->). apply all_some_map in E1, E3. rewrite E1. cbn [of_option negb assert bind].
      rewrite E3. cbn [of_option bind]. rewrite E4. reflexivity.
  Qed.

  Lemma index_0 ots session og outs : Forall2 (fun b e => subst O V (nth_error phs) b = Some e) (f_outputs O V fn) ots ->
    Forall2 (fun e e' => freeze O V session e = Some e') ots og -> import_graph_def O V og (map (fun t => (t, t)) inputs) = Ok outs ->
    forall t, In t inputs -> t = Tensor (t_op t) 0.
  Proof.
    intros E1 E3 E4 t T. apply import_spec in E4 as [E4 _]. destruct (E4 t t) as (e & I & M); [apply in_map_iff; eauto|].
    destruct (f2_nth _ _ _ E3 e I) as (e1 & I1 & F1). destruct (f2_nth _ _ _ E1 e1 I1) as (b & _ & S).
    apply leaves_mentions in M. rewrite (freeze_leaves _ _ _ _ _ F1) in M. apply subst_leaves in S.
    destruct (f2_nth _ _ _ S t M) as (i & _ & N). apply nth_error_In, in_map_iff in N as (u & <- & _). reflexivity.
  Qed.

  Lemma nodup_inputs : NoDup inputs.
  Proof. eapply NoDup_map_inv. exact names. Qed.

  Lemma get_input t : In t inputs -> map_get (rev (map (fun t => (t, t)) inputs)) t = Some t.
  Proof.
    intro T. apply map_get_unique.
    - rewrite map_rev. apply NoDup_rev. rewrite map_map. cbn. rewrite map_id. apply nodup_inputs.
    - rewrite <- in_rev. apply in_map_iff. eauto.
  Qed.

  Lemma sound single outs : apply_function_with_checkpoint O V fn inputs checkpoint include exclude = Ok (single, outs) ->
    single = f_single O V fn /\
    Forall2 (fun b out => forall outer v, has_value O V run outer out v <-> computes O V run (arguments V outer inputs) checkpoint b v)
      (f_outputs O V fn) outs.
  Proof.
    intro A. apply apply_ok in A as (ots & session & og & E1 & _ & E2 & E3 & E4 & ->). split; [reflexivity|].
    pose proof (index_0 _ _ _ _ E1 E3 E4) as I0. apply import_spec in E4 as [_ E4]. apply restore_ok in E2 as (_ & _ & S1 & S2).
    pose proof (f2_trans _ _ _ _ _ (f2_trans _ _ _ _ _ E1 E3) E4) as F. eapply f2_impl; [|exact F].
    intros b out _ (e' & (e & B1 & B2) & B3) outer v. rewrite (import_value O V run outer _ _ _ v B3).
    rewrite <- (computes_freeze O V run _ _ _ _ _ B2). rewrite <- (computes_subst O V run _ _ _ _ _ B1). apply computes_ext.
    - intros i _. unfold arguments. rewrite nth_error_map. destruct (nth_error inputs i) as [t|] eqn:N; [|reflexivity]. cbn.
      apply nth_error_In in N. rewrite <- (I0 t N), (get_input t N). reflexivity.
    - intros n N. apply (subst_vars _ _ _ _ _ n B1) in N. pose proof (freeze_vars _ _ _ _ _ B2 n N) as NN.
      destruct (in_dec string_dec n vars) as [I|I]; [apply S1, I|]. rewrite (S2 n I) in NN. contradiction.
  Qed.

  Lemma used_restored single outs : apply_function_with_checkpoint O V fn inputs checkpoint include exclude = Ok (single, outs) ->
    forall b n, In b (f_outputs O V fn) -> mentions_var O V n b -> In n (f_variables O V fn) /\ chosen include exclude n /\ checkpoint n <> None.
  Proof.
    intros A b n B M. apply apply_ok in A as (ots & session & og & E1 & _ & E2 & E3 & E4 & ->). apply restore_ok in E2 as (_ & _ & S1 & S2).
    destruct (f2_fwd _ _ _ E1 b B) as (e & E & B1). destruct (f2_fwd _ _ _ E3 e E) as (e' & _ & B2).
    apply (subst_vars _ _ _ _ _ n B1) in M. pose proof (freeze_vars _ _ _ _ _ B2 n M) as NN.
    destruct (in_dec string_dec n vars) as [I|I]; [|rewrite (S2 n I) in NN; contradiction]. pose proof (S1 n I) as [_ C].
    apply restored_spec in I as [I1 I2]. auto.
  Qed.

  Lemma runs : (forall t, In t inputs -> t_index t = 0) -> f_tables O V fn = false ->
    (forall b i, In b (f_outputs O V fn) -> mentions O V i b -> i < length inputs) ->
    (forall i, i < length inputs -> exists b, In b (f_outputs O V fn) /\ mentions O V i b) ->
    vars <> [] -> NoDup vars -> (forall v, In v vars -> checkpoint v <> None) ->
    (forall b n, In b (f_outputs O V fn) -> mentions_var O V n b -> In n vars) ->
    exists outs, apply_function_with_checkpoint O V fn inputs checkpoint include exclude = Ok (f_single O V fn, outs).
  Proof.
    intros I0 T HI HU NE ND HC HV.
    assert (exists session, restore V vars checkpoint = Ok session) as (session & E2).
    { unfold restore, assert. destruct vars as [|w l] eqn:E; [contradiction|]. rewrite <- E in *. cbn [bind].
      replace (has_duplicates vars) with false by (symmetry; apply has_duplicates_spec, ND). cbn [bind negb].
      replace (forallb _ vars) with true; [eexists; reflexivity|]. symmetry. apply forallb_forall. intros v Hv. specialize (HC v Hv).
      destruct (checkpoint v); [reflexivity|contradiction]. }
    assert (exists ots, Forall2 (fun b e => subst O V (nth_error phs) b = Some e) (f_outputs O V fn) ots) as (ots & E1).
    { clear HU HV. induction (f_outputs O V fn) as [|b bs IH]; [exists []; constructor|].
      destruct (subst_total O V (nth_error phs) b) as (e & E).
      { intros i M. apply nth_error_Some. rewrite map_length. apply (HI b i); [left; reflexivity|exact M]. }
      destruct IH as (ots & F); [intros c i C; apply HI; right; exact C|]. exists (e :: ots). constructor; assumption. }
    pose proof (restore_ok _ _ _ E2) as (_ & _ & S1 & _).
    assert (exists og, Forall2 (fun e e' => freeze O V session e = Some e') ots og) as (og & E3).
    { assert (H : forall e, In e ots -> forall n, mentions_var O V n e -> session n <> None).
      { intros e E n M. destruct (f2_nth _ _ _ E1 e E) as (b & B & SB). apply (subst_vars _ _ _ _ _ n SB) in M.
        destruct (S1 n (HV b n B M)) as [-> C]. exact C. }
      clear - H. induction ots as [|e ots IH]; [exists []; constructor|].
      destruct (freeze_total O V session e) as (e' & E); [apply H; left; reflexivity|].
      destruct IH as (og & F); [intros d D; apply H; right; exact D|]. exists (e' :: og). constructor; assumption. }
    destruct (import_total O V og (map (fun t => (t, t)) inputs)) as (outs & E4).
    - intros k t I. apply in_map_iff in I as (u & [= <- <-] & U). apply In_nth_error in U as (i & N).
      destruct (HU i) as (b & B & M); [apply nth_error_Some; congruence|].
      destruct (f2_fwd _ _ _ E1 b B) as (e & E & SB). destruct (f2_fwd _ _ _ E3 e E) as (e' & E' & FB).
      exists e'. split; [exact E'|]. apply leaves_mentions. rewrite (freeze_leaves _ _ _ _ _ FB).
      apply leaves_mentions in M. destruct (f2_fwd _ _ _ (subst_leaves _ _ _ _ _ SB) i M) as (l & L & NL).
      rewrite nth_error_map, N in NL. cbn in NL. injection NL as <-. apply nth_error_In in N. specialize (I0 u N).
      destruct u as [o j]. cbn in *. subst j. exact L.
    - exists outs. apply apply_ok. exists ots, session, og. auto 7.
  Qed.
End function.

Lemma NoDup_app_intro {A} (l l' : list A) : NoDup l -> NoDup l' -> (forall a, In a l -> ~ In a l') -> NoDup (l ++ l').
Proof.
  intros N N' D. induction N as [|a l NI N IH]; cbn; [exact N'|]. constructor.
  - rewrite in_app_iff. intros [I|I]; [contradiction|]. apply (D a); [left; reflexivity|exact I].
  - apply IH. intros b B. apply D. right. exact B.
Qed.
