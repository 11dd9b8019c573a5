(** * Proofs about deep copies: cloning *)
From Coq Require Import String.
From Coq Require Import List Arith Bool Lia.
From Verif Require Import PackGraphModel PackTraverse DeepCopyModel DeepCopySpec.
Import ListNotations.
Local Notation length := List.length.

Lemma pvalue_eqb_eq a b : pvalue_eqb a b = true <-> a = b.
Proof.
  destruct a as [|t s], b as [|t' s']; cbn; try (split; [discriminate|discriminate]); [tauto|].
  rewrite andb_true_iff, Nat.eqb_eq, String.eqb_eq. split; [intros [-> ->]; reflexivity|intros [= -> ->]; now split].
Qed.
Lemma mem_In v l : mem v l = true <-> In v l.
Proof.
  unfold mem. rewrite existsb_exists. split; [intros (x & I & E)|intros I].
  - apply pvalue_eqb_eq in E. now subst.
  - exists v. split; [exact I|]. now apply pvalue_eqb_eq.
Qed.
Lemma mem_false v l : mem v l = false <-> ~ In v l.
Proof. rewrite <- mem_In. destruct (mem v l); split; intros H; congruence || now destruct H. Qed.

Lemma ascend_spec v cs : ascend v cs = true <->
  exists inner c outer, cs = inner ++ c :: outer /\ comp_barrier c = true /\ Forall (fun c => In v (comp_outputs c)) (inner ++ [c]).
Proof.
  induction cs as [|c cs IH]; cbn [ascend].
  - split; [discriminate|]. intros (i & c & o & E & _). now destruct i.
  - destruct (mem v (comp_outputs c)) eqn:M.
    + apply mem_In in M. rewrite orb_true_iff, IH. split.
      * intros [B|(i & d & o & -> & B & F)]; [exists [], c, cs; repeat split; auto; now repeat constructor|].
        exists (c :: i), d, o. split; [reflexivity|]. split; [exact B|]. now constructor.
      * intros ([|c' i] & d & o & E & B & F); cbn in E; injection E as -> ->; [now left|right].
        exists i, d, o. split; [reflexivity|]. split; [exact B|]. now inversion F.
    + apply mem_false in M. split; [discriminate|]. intros ([|c' i] & d & o & E & B & F); cbn in E; injection E as -> ->; now inversion F.
Qed.
Lemma at_boundary_true {F} (p : list (transform F)) v : at_boundary p v = true <-> materialized p v.
Proof.
  unfold at_boundary, materialized. split.
  - destruct v as [|t tag]; [discriminate|]. destruct (nth_error p t) as [a|] eqn:A; [|discriminate].
    rewrite orb_true_iff, ascend_spec. intros H. now exists t, tag, a.
  - intros (t & tag & a & -> & -> & H). now rewrite orb_true_iff, ascend_spec.
Qed.
Lemma at_boundary_false {F} (p : list (transform F)) v : at_boundary p v = false <-> ~ materialized p v.
Proof. rewrite <- at_boundary_true. destruct (at_boundary p v); split; congruence. Qed.

Lemma Forall2_weaken {A B} (P Q : A -> B -> Prop) l l' : (forall a b, P a b -> Q a b) -> Forall2 P l l' -> Forall2 Q l l'.
Proof. intros H. induction 1; constructor; auto. Qed.

Lemma update_length {A} i f (l : list A) : length (update i f l) = length l.
Proof. revert i. induction l as [|a l IH]; intros [|i]; cbn; [reflexivity..|]. now rewrite IH. Qed.
Lemma update_nth {A} i f (l : list A) j :
  nth_error (update i f l) j = if Nat.eqb i j then option_map f (nth_error l j) else nth_error l j.
Proof.
  revert i j. induction l as [|a l IH]; intros [|i] [|j]; cbn; try reflexivity.
  - now destruct (Nat.eqb i j).
  - rewrite IH. reflexivity.
Qed.

Lemma replacement_in l v v' : replacement l v = Some v' -> In (v, v') l.
Proof.
  unfold replacement. destruct (find _ l) as [[a b]|] eqn:E; [|discriminate]. intros [= <-].
  apply find_some in E. destruct E as [I E]. cbn in E. apply pvalue_eqb_eq in E. now subst.
Qed.
Lemma replacement_none l v : replacement l v = None <-> ~ In v (map fst l).
Proof.
  unfold replacement. destruct (find _ l) as [[a b]|] eqn:E; cbn.
  - apply find_some in E. destruct E as [I E]. cbn in E. apply pvalue_eqb_eq in E. subst. split; [discriminate|].
    intros N. destruct N. now apply (in_map fst) in I.
  - split; [|reflexivity]. intros _ I. apply in_map_iff in I. destruct I as ([a b] & <- & I). apply (find_none _ _ E) in I. cbn in I.
    assert (pvalue_eqb a a = true) by now apply pvalue_eqb_eq. congruence.
Qed.
Lemma transform_replacement_in l v v' : transform_replacement l v = Some v' -> In (v, v') l.
Proof.
  unfold transform_replacement. destruct (find _ l) as [[a b]|] eqn:E; [|discriminate]. intros [= <-].
  apply find_some in E. destruct E as [I E]. cbn in E. apply Nat.eqb_eq in E. now subst.
Qed.
Lemma transform_replacement_none l v : transform_replacement l v = None <-> ~ In v (map fst l).
Proof.
  unfold transform_replacement. destruct (find _ l) as [[a b]|] eqn:E; cbn.
  - apply find_some in E. destruct E as [I E]. cbn in E. apply Nat.eqb_eq in E. subst. split; [discriminate|].
    intros N. destruct N. now apply (in_map fst) in I.
  - split; [|reflexivity]. intros _ I. apply in_map_iff in I. destruct I as ([a b] & <- & I). apply (find_none _ _ E) in I. cbn in I.
    rewrite Nat.eqb_refl in I. discriminate.
Qed.

Lemma copy_label_inj l a b : copy_label l a = copy_label l b -> a = b.
Proof.
  unfold copy_label. intros E. apply OptimizeHistory.append_cancel in E. cbn in E. injection E as E. now apply decimal_inj.
Qed.
Lemma copy_count_some labels l : exists c, copy_count labels l = Some c /\ ~ In (copy_label l c) labels.
Proof.
  unfold copy_count. destruct (find _ _) as [c|] eqn:E.
  - apply find_some in E. destruct E as [_ E]. exists c. split; [reflexivity|]. intros I. apply negb_true_iff in E.
    assert (existsb (String.eqb (copy_label l c)) labels = true); [|congruence]. apply existsb_exists. eexists. split; [exact I|]. now apply String.eqb_eq.
  - exfalso. assert (incl (map (copy_label l) (seq 0 (S (length labels)))) labels) as H.
    { intros x I. apply in_map_iff in I. destruct I as (c & <- & I). apply (find_none _ _ E) in I. apply negb_false_iff in I.
      apply existsb_exists in I. destruct I as (y & I & Y). apply String.eqb_eq in Y. now rewrite Y. }
    apply NoDup_incl_length in H; [rewrite map_length, seq_length in H; lia|].
    apply FinFun.Injective_map_NoDup; [|apply seq_NoDup]. intros a b. apply copy_label_inj.
Qed.

Section Clone.
Context {F : Type}.
Notation transform := (transform F).
Notation pipeline := (list transform).
Notation state := (@state F).
Variable hints_available : bool.
Notation clone_items := (clone_items hints_available).
Notation clone_item := (clone_item hints_available).
Notation set_hint := (set_hint hints_available).

Lemma set_hint_unchanged h (a : transform) : unchanged a (set_hint h a).
Proof. unfold DeepCopyModel.set_hint. destruct hints_available; repeat split. Qed.
Lemma unchanged_refl (a : transform) : unchanged a a. Proof. repeat split. Qed.
Lemma unchanged_trans (a b c : transform) : unchanged a b -> unchanged b c -> unchanged a c.
Proof. unfold unchanged. intros (?&?&?&?&?&?&?) (?&?&?&?&?&?&?). repeat split; congruence. Qed.

Variable p : pipeline.
Variable labels : list string.
Notation n := (length p).

(** [w'] is [w], or an output of one of the first [k] copies. *)
Definition copy_of (ts : list nat) (q : pipeline) (k : nat) (w w' : pvalue) : Prop :=
  w' = w \/ exists t tag j b, w = PColl t tag /\ w' = PColl (n + j) tag /\ nth_error ts j = Some t /\ j < k /\
    nth_error q (n + j) = Some b /\ forall a, nth_error p t = Some a -> In tag (outputs a) -> In tag (outputs b).

(** A transform and its copy. *)
Definition copied (ts : list nat) (q : pipeline) (k : nat) (colls : list pvalue) (t : nat) (a b : transform) : Prop :=
  fn b = fn a /\ barrier b = barrier a /\ side_inputs b = side_inputs a /\ composites b = composites a /\
  (exists c, label b = copy_label (label a) c) /\
  Forall2 (copy_of ts q k) (main_inputs a) (main_inputs b) /\
  NoDup (outputs b) /\ forall tag, In tag (outputs b) -> In tag (outputs a) /\ In (PColl t tag) colls.

Record invariant (ts : list nat) (s : state) : Prop := {
  inv_transforms : transform_replacements s = rev (combine ts (seq n (length ts)));
  inv_nodup : NoDup ts;
  inv_length : length (transforms s) = n + length ts;
  inv_old : forall t a, nth_error p t = Some a -> exists b, nth_error (transforms s) t = Some b /\ unchanged a b;
  inv_new : forall j t, nth_error ts j = Some t -> exists a b, nth_error p t = Some a /\ nth_error (transforms s) (n + j) = Some b /\
    copied ts (transforms s) j (map fst (coll_replacements s)) t a b;
  inv_colls : forall w w', In (w, w') (coll_replacements s) -> copy_of ts (transforms s) (length ts) w w';
  inv_labels : exists new, applied_labels s = new ++ labels /\ map label (transforms s) = map label p ++ rev new /\
    (NoDup labels -> NoDup (new ++ labels)) }.

Lemma start : invariant [] (State p labels [] []).
Proof.
  constructor; cbn; try reflexivity; try tauto.
  - constructor.
  - lia.
  - intros t a E. exists a. split; [exact E|apply unchanged_refl].
  - intros [|j] t E; discriminate.
  - exists []. cbn. split; [reflexivity|]. split; [now rewrite app_nil_r|]. tauto.
Qed.

Lemma copy_of_weaken ts ts' q q' k k' w w' :
  copy_of ts q k w w' -> (forall j t, nth_error ts j = Some t -> nth_error ts' j = Some t) -> k <= k' ->
  (forall j b, nth_error q (n + j) = Some b -> exists b', nth_error q' (n + j) = Some b' /\ incl (outputs b) (outputs b')) ->
  copy_of ts' q' k' w w'.
Proof.
  intros [->|(t & tag & j & b & -> & -> & J & K & B & I)] T L Q; [now left|right].
  destruct (Q _ _ B) as (b' & B' & L'). exists t, tag, j, b'. repeat split; auto; try lia. intros a A O. apply L'. eauto.
Qed.

Lemma trepl_lookup ts s t : invariant ts s -> match transform_replacement (transform_replacements s) t with
  | Some t' => exists j, t' = n + j /\ nth_error ts j = Some t | None => ~ In t ts end.
Proof.
  intros I. destruct (transform_replacement _ t) as [t'|] eqn:E.
  - apply transform_replacement_in in E. rewrite (inv_transforms _ _ I), <- in_rev in E.
    apply In_nth_error in E. destruct E as [j E]. exists j.
    assert (forall ts m j, nth_error (combine ts (seq m (length ts))) j = Some (t, t') -> t' = m + j /\ nth_error ts j = Some t) as H.
    { clear. induction ts as [|x ts IH]; intros m [|j] E; try discriminate; cbn in E.
      - injection E as -> ->. split; [lia|reflexivity].
      - apply IH in E. destruct E as [-> E]. split; [lia|exact E]. }
    now apply H.
  - apply transform_replacement_none in E. rewrite (inv_transforms _ _ I), map_rev, <- in_rev in E. intros J. apply E.
    clear -J. revert J. generalize n. induction ts as [|x ts IH]; intros m J; [destruct J|]. cbn. destruct J as [->|J]; [now left|right; now apply IH].
Qed.

Lemma clone_coll_invariant ts s t tag s' : invariant ts s -> clone_coll s t tag = Some s' -> invariant ts s' /\
  coll_replacements s' = (PColl t tag, match transform_replacement (transform_replacements s) t with Some t' => PColl t' tag | None => PColl t tag end)
    :: coll_replacements s /\ ~ In (PColl t tag) (map fst (coll_replacements s)) /\ transform_replacements s' = transform_replacements s.
Proof.
  intros I. unfold clone_coll. destruct (replacement _ (PColl t tag)) eqn:R; [discriminate|]. apply replacement_none in R.
  pose proof (trepl_lookup ts s t I) as L. destruct (transform_replacement (transform_replacements s) t) as [t'|] eqn:T.
  - destruct L as (j & -> & J). intros [= <-]. cbn [coll_replacements transform_replacements]. split; [|now split].
    destruct (inv_new _ _ I _ _ J) as (a & b & A & B & C).
    destruct (inv_old _ _ I _ _ A) as (a' & A' & U). rewrite A'.
    set (produced := existsb (String.eqb tag) (outputs a')).
    assert (produced = true <-> In tag (outputs a)) as PR.
    { unfold produced. rewrite existsb_exists. destruct U as (_&_&_&_&_&->&_). split.
      - intros (x & X & E). apply String.eqb_eq in E. now subst.
      - intros X. exists tag. split; [exact X|apply String.eqb_refl]. }
    set (q := if produced then update (n + j) (add_output tag) (transforms s) else transforms s).
    assert (length q = length (transforms s)) as QL by (unfold q; destruct produced; [apply update_length|reflexivity]).
    assert (forall i x, nth_error (transforms s) i = Some x -> nth_error q i = Some (if (produced && Nat.eqb (n + j) i)%bool then add_output tag x else x)) as QN.
    { intros i x E. unfold q. destruct produced; cbn; [|exact E]. rewrite update_nth, E. now destruct (Nat.eqb (n + j) i). }
    assert (forall i x, nth_error (transforms s) (n + i) = Some x -> exists x', nth_error q (n + i) = Some x' /\ incl (outputs x) (outputs x')) as QI.
    { intros i x E. eexists. split; [apply QN, E|]. destruct (_ && _)%bool; [|apply incl_refl]. cbn. now apply incl_appl, incl_refl. }
    constructor; cbn.
    + apply I.
    + apply I.
    + rewrite QL. apply I.
    + intros i x E. destruct (inv_old _ _ I _ _ E) as (x' & E' & U'). eexists. split; [apply QN, E'|].
      assert (i < n) by (apply nth_error_Some; congruence).
      assert (Nat.eqb (n + j) i = false) as -> by (apply Nat.eqb_neq; lia). now rewrite andb_false_r.
    + intros i u E. destruct (inv_new _ _ I _ _ E) as (x & y & X & Y & (C1&C2&C3&C4&C5&C6&C7&C8)).
      exists x. eexists. split; [exact X|]. split; [apply QN, Y|].
      assert (Forall2 (copy_of ts q i) (main_inputs x) (main_inputs y)) as C6'.
      { eapply Forall2_weaken; [|exact C6]. intros w w' W. eapply copy_of_weaken; [exact W|auto|auto|exact QI]. }
      destruct (produced && Nat.eqb (n + j) (n + i))%bool eqn:PE.
      * apply andb_true_iff in PE. destruct PE as [PE EQ]. apply PR in PE. apply Nat.eqb_eq in EQ. assert (i = j) by lia. subst i.
        assert (u = t) by congruence. subst u. assert (x = a) by congruence. subst x.
        repeat split; cbn; auto.
        -- apply NoDup_rev in C7. rewrite <- (rev_involutive (outputs y ++ [tag])). apply NoDup_rev. rewrite rev_app_distr. cbn. constructor; [|exact C7].
           rewrite <- in_rev. intros Z. apply C8 in Z. now apply R.
        -- apply in_app_iff in H. destruct H as [H|[->|[]]]; [now apply C8|exact PE].
        -- apply in_app_iff in H. destruct H as [H|[->|[]]]; [right; now apply C8|now left].
      * repeat split; auto; [now apply C8|right; now apply C8].
    + intros w w' [[= <- <-]|W].
      * right. exists t, tag, j. eexists. split; [reflexivity|]. split; [reflexivity|]. split; [exact J|].
        split; [apply nth_error_Some; congruence|]. split; [apply QN, B|]. intros z Z IN. assert (z = a) by congruence. subst z.
        apply PR in IN. rewrite IN, Nat.eqb_refl. cbn. apply in_app_iff. right. now left.
      * eapply copy_of_weaken; [apply (inv_colls _ _ I), W|auto|auto|exact QI].
    + destruct (inv_labels _ _ I) as (new & N1 & N2 & N3). exists new. split; [exact N1|]. split; [|exact N3]. rewrite <- N2.
      clear. unfold q. destruct produced; [|reflexivity]. generalize (n + j) as i. induction (transforms s) as [|x l IH]; intros [|i]; cbn; [reflexivity..|]. now rewrite IH.
  - intros [= <-]. cbn [coll_replacements transform_replacements]. split; [|now split]. constructor; cbn; try apply I.
    + intros i u E. destruct (inv_new _ _ I _ _ E) as (x & y & X & Y & (C1&C2&C3&C4&C5&C6&C7&C8)). exists x, y. repeat split; auto; [now apply C8|right; now apply C8].
    + intros w w' [[= <- <-]|W]; [now left|now apply (inv_colls _ _ I)].
Qed.

Lemma clone_transform_invariant ts s t s' : invariant ts s -> t < n -> clone_transform hints_available s t = Some s' ->
  invariant (ts ++ [t]) s' /\ coll_replacements s' = coll_replacements s /\ ~ In t ts /\
  exists a b, nth_error p t = Some a /\ nth_error (transforms s') (n + length ts) = Some b /\
    main_inputs b = map (fun v => match replacement (coll_replacements s) v with Some v' => v' | None => v end) (main_inputs a).
Proof.
  intros I LT. unfold clone_transform. destruct (nth_error (transforms s) t) as [a'|] eqn:A'; [|discriminate].
  pose proof (trepl_lookup ts s t I) as L. destruct (transform_replacement _ t) eqn:T; [discriminate|].
  destruct (copy_count_some (applied_labels s) (label a')) as (c & -> & CL). intros [= <-]. cbn [coll_replacements].
  destruct (nth_error p t) as [a|] eqn:A; [|apply nth_error_None in A; lia].
  destruct (inv_old _ _ I _ _ A) as (a2 & A2 & U). assert (a2 = a') by congruence. subst a2. clear A2.
  set (b := Transform _ _ _ _ _ _ _ _). set (q := update _ _ _ ++ [_]).
  assert (length (transforms s) = n + length ts) as LEN by apply I.
  assert (forall i x, nth_error (transforms s) i = Some x -> exists x', nth_error q i = Some x' /\ unchanged x x') as QN.
  { intros i x E. unfold q. rewrite nth_error_app1 by (rewrite update_length; apply nth_error_Some; congruence).
    rewrite update_nth, E. destruct (Nat.eqb t i); eexists; (split; [reflexivity|]); [apply set_hint_unchanged|apply unchanged_refl]. }
  assert (forall i x, nth_error (transforms s) (n + i) = Some x -> exists x', nth_error q (n + i) = Some x' /\ incl (outputs x) (outputs x')) as QI.
  { intros i x E. destruct (QN _ _ E) as (x' & E' & V). exists x'. split; [exact E'|]. destruct V as (_&_&_&_&_&->&_). apply incl_refl. }
  assert (nth_error q (n + length ts) = Some (set_hint ("/fake/DeepCopy.Copy" ++ decimal c ++ "[0]") b)) as QB.
  { unfold q. rewrite nth_error_app2; rewrite update_length, LEN; [|lia]. now rewrite Nat.sub_diag. }
  assert (forall j u, nth_error ts j = Some u -> nth_error (ts ++ [t]) j = Some u) as TA.
  { intros j u E. rewrite nth_error_app1; [exact E|]. apply nth_error_Some. congruence. }
  assert (main_inputs a' = main_inputs a) as MI by apply U.
  split; [|split; [reflexivity|split; [exact L|]]].
  - constructor; cbn.
    + rewrite app_length. cbn [length]. rewrite Nat.add_1_r, seq_S, (inv_transforms _ _ I), LEN.
      assert (forall (x y : list nat) u v, length x = length y -> combine (x ++ [u]) (y ++ [v]) = combine x y ++ [(u, v)]) as CA.
      { clear. induction x as [|x xs IH]; intros [|y ys] u v E; try discriminate; [reflexivity|]. cbn. f_equal. apply IH. now injection E. }
      rewrite CA by (now rewrite seq_length). now rewrite rev_app_distr.
    + rewrite <- (rev_involutive (ts ++ [t])). apply NoDup_rev. rewrite rev_app_distr. cbn. constructor; [now rewrite <- in_rev|]. apply NoDup_rev, I.
    + unfold q. rewrite !app_length, update_length, LEN. cbn. lia.
    + intros i x E. destruct (inv_old _ _ I _ _ E) as (x1 & E1 & U1). destruct (QN _ _ E1) as (x2 & E2 & U2). exists x2. split; [exact E2|].
      eapply unchanged_trans; eassumption.
    + intros j u E. destruct (Nat.eq_dec j (length ts)) as [->|NE].
      * rewrite nth_error_app2, Nat.sub_diag in E by lia. cbn in E. injection E as <-.
        exists a. eexists. split; [exact A|]. split; [exact QB|].
        pose proof (set_hint_unchanged ("/fake/DeepCopy.Copy" ++ decimal c ++ "[0]") b) as (V1&V2&V3&V4&V5&V6&V7).
        unfold copied. rewrite V1, V2, V3, V4, V5, V6, V7. destruct U as (U1&U2&U3&U4&U5&U6&U7). cbn.
        rewrite U1, U2, U3, U4, U5, U7. repeat split; try tauto; try constructor; [now exists c|].
        clear -I TA QI. induction (main_inputs a) as [|w ws IH]; cbn; constructor; [|exact IH].
        destruct (replacement (coll_replacements s) w) as [w'|] eqn:R; [|now left].
        apply replacement_in in R. eapply copy_of_weaken; [apply (inv_colls _ _ I), R|exact TA|auto|exact QI].
      * assert (j < length ts) as JL. { assert (j < length (ts ++ [t])) by (apply nth_error_Some; congruence). rewrite app_length in H. cbn in H. lia. }
        rewrite nth_error_app1 in E by exact JL.
        destruct (inv_new _ _ I _ _ E) as (x & y & X & Y & (C1&C2&C3&C4&C5&C6&C7&C8)).
        destruct (QN _ _ Y) as (y' & Y' & (V1&V2&V3&V4&V5&V6&V7)). exists x, y'. split; [exact X|]. split; [exact Y'|].
        unfold copied. rewrite V1, V2, V3, V4, V5, V6, V7. repeat split; auto; [|now apply C8..].
        eapply Forall2_weaken; [|exact C6]. intros w w' W. eapply copy_of_weaken; [exact W|exact TA|auto|exact QI].
    + intros w w' W. eapply copy_of_weaken; [apply (inv_colls _ _ I), W|exact TA|rewrite app_length; cbn; lia|exact QI].
    + destruct (inv_labels _ _ I) as (new & N1 & N2 & N3). exists (copy_label (label a') c :: new). rewrite N1 in CL |- *. split; [reflexivity|].
      split.
      * unfold q. rewrite map_app. cbn [rev map]. rewrite app_assoc, <- N2. f_equal.
        -- clear. revert t. induction (transforms s) as [|x l IH]; intros [|t]; cbn; [reflexivity..| |].
           ++ f_equal. apply set_hint_unchanged.
           ++ now rewrite IH.
        -- f_equal. transitivity (label b); [apply set_hint_unchanged|reflexivity].
      * intros ND. cbn. constructor; [exact CL|]. now apply N3.
  - exists a. eexists. split; [exact eq_refl|]. split; [exact QB|].
    transitivity (main_inputs b); [apply set_hint_unchanged|]. cbn. now rewrite MI.
Qed.

Definition transforms_of (items : list item) : list nat :=
  concat (map (fun i => match i with Trans t => [t] | Coll _ => [] end) items).

Lemma clone_items_invariant items : forall ts s s', invariant ts s -> (forall t, In (Trans t) items -> t < n) ->
  clone_items s items = Some s' -> invariant (ts ++ transforms_of items) s'.
Proof.
  induction items as [|i items IH]; intros ts s s' I R E; cbn in E.
  - injection E as <-. unfold transforms_of. cbn. now rewrite app_nil_r.
  - destruct (clone_item s i) as [s1|] eqn:C; [|discriminate]. destruct i as [[|t tag]|t]; cbn in C; [discriminate|..].
    + apply (clone_coll_invariant ts) in C; [|exact I]. apply (IH ts s1); [apply C|intros t' J; apply R; now right|exact E].
    + apply (clone_transform_invariant ts) in C; [|exact I|apply R; now left].
      change (transforms_of (Trans t :: items)) with ([t] ++ transforms_of items). rewrite app_assoc.
      apply (IH _ s1); [apply C|intros t' J; apply R; now right|exact E].
Qed.

(** ** The copy is computed like the original *)
Scheme computed_ind2 := Minimality for computed Sort Prop
  with computed_list_ind2 := Minimality for computed_list Sort Prop.

Lemma copy_computed ts s : invariant ts s -> forall w c, computed p w c ->
  forall k w', copy_of ts (transforms s) k w w' -> computed (transforms s) w' c.
Proof.
  intros I. apply (computed_ind2 F p (fun w c => forall k w', copy_of ts (transforms s) k w w' -> computed (transforms s) w' c)
    (fun ws cs => forall k ws', Forall2 (copy_of ts (transforms s) k) ws ws' -> computed_list (transforms s) ws' cs)).
  - intros k w' [->|(t & tag & j & b & E & _)]; [constructor|discriminate].
  - intros t a tag mains sides A IN _ IM _ IS k w' [->|(t' & tag' & j & b & [= <- <-] & -> & J & _ & B & O)].
    + destruct (inv_old _ _ I _ _ A) as (b & B & (U1&U2&U3&U4&U5&U6&U7)). rewrite <- U1. apply (computed_output _ t b); [exact B|now rewrite U6|..].
      * rewrite U4. apply (IM 0). clear. induction (main_inputs a); constructor; [now left|assumption].
      * rewrite U5. apply (IS 0). clear. induction (side_inputs a); constructor; [now left|assumption].
    + destruct (inv_new _ _ I _ _ J) as (a2 & b2 & A2 & B2 & (C1&C2&C3&C4&C5&C6&C7&C8)).
      assert (a2 = a) by congruence. assert (b2 = b) by congruence. subst a2 b2.
      rewrite <- C1. apply (computed_output _ (n + j) b); [exact B|now apply (O a)|now apply (IM j)|].
      rewrite C3. apply (IS 0). clear. induction (side_inputs a); constructor; [now left|assumption].
  - intros k ws' W. inversion W. constructor.
  - intros v vs c cs _ IV _ IVS k ws' W. inversion W; subst. constructor; eauto.
Qed.
End Clone.
