(** * Proofs about deep copies: what is cloned, and in which order *)
From Coq Require Import String.
From Coq Require Import List Arith Bool Lia.
From Verif Require Import DeepCopyModel DeepCopySpec DeepCopyProofs.
Import ListNotations.
Local Notation length := List.length.

Section Search.
Context {F : Type}.
Notation pipeline := (list (transform F)).
Variable p : pipeline.
Variable root : pvalue.
Notation n := (length p).
Hypothesis VALID : valid p.
Hypothesis ROOT : before p n root.
Hypothesis ROOT_COLL : root <> PBegin.

Definition relevant (w : pvalue) : Prop := w <> PBegin /\ at_boundary p w = false.

Lemma enqueue_spec inputs : forall q seen, exists new seen', enqueue inputs q seen = (q ++ new, seen') /\ NoDup new /\
  (forall w, In w new -> In w inputs /\ ~ In w seen) /\ (forall w, In w seen' <-> In w seen \/ In w new) /\ incl inputs seen' /\
  length new <= length inputs.
Proof.
  induction inputs as [|v inputs IH]; intros q seen; cbn.
  - exists [], seen. rewrite app_nil_r. split; [reflexivity|]. split; [constructor|]. split; [easy|]. split; [cbn; tauto|]. split; [easy|cbn; lia].
  - destruct (mem v seen) eqn:M.
    + apply mem_In in M. destruct (IH q seen) as (new & seen' & E & ND & N & S & I & L). exists new, seen'. rewrite E. repeat split; auto.
      * right. now apply N.
      * now apply N.
      * now apply S.
      * now apply S.
      * intros w [<-|W]; [apply S; now left|now apply I].
    + apply mem_false in M. destruct (IH (q ++ [v]) (v :: seen)) as (new & seen' & E & ND & N & S & I & L).
      exists (v :: new), seen'. rewrite E, <- app_assoc. cbn. repeat split.
      * constructor; [|exact ND]. intros W. apply N in W. apply W. now left.
      * destruct H as [<-|H]; [now left|right; now apply N].
      * destruct H as [<-|H]; [exact M|]. intros W. apply N in H. apply H. now right.
      * intros W. apply S in W. cbn in W. tauto.
      * intros W. apply S. cbn. tauto.
      * intros w [<-|W]; [apply S; cbn; tauto|now apply I].
      * lia.
Qed.

Definition inputs_length (t : nat) : nat := match nth_error p t with Some a => length (main_inputs a) | None => 0 end.
Definition remaining (st : list nat) : nat :=
  list_sum (map (fun t => if existsb (Nat.eqb t) st then 0 else inputs_length t) (seq 0 n)).

Lemma existsb_nat t l : existsb (Nat.eqb t) l = true <-> In t l.
Proof. rewrite existsb_exists. split; [intros (x & I & E); apply Nat.eqb_eq in E; now subst|intros I; exists t; split; [exact I|apply Nat.eqb_refl]]. Qed.

Lemma remaining_start : S (remaining []) = enough p.
Proof.
  unfold remaining, enough. f_equal. f_equal. cbn [existsb]. unfold inputs_length.
  clear. induction p as [|a l IH]; [reflexivity|]. cbn. f_equal. rewrite <- seq_shift, map_map. exact IH.
Qed.

Lemma remaining_step t st : t < n -> ~ In t st -> remaining (t :: st) + inputs_length t = remaining st.
Proof.
  intros L N. unfold remaining. assert (In t (seq 0 n)) as I by (apply in_seq; lia).
  pose proof (seq_NoDup n 0) as ND. induction (seq 0 n) as [|x l IH]; [destruct I|]. inversion ND as [|? ? NI ND']; subst.
  cbn [map list_sum fold_right]. change (fold_right plus 0) with list_sum. cbn [existsb].
  destruct I as [->|I].
  - rewrite Nat.eqb_refl. cbn. destruct (existsb (Nat.eqb t) st) eqn:E; [apply existsb_nat in E; tauto|].
    assert (map (fun u => if (u =? t) || existsb (Nat.eqb u) st then 0 else inputs_length u) l =
            map (fun u => if existsb (Nat.eqb u) st then 0 else inputs_length u) l) as ->; [|lia].
    apply map_ext_in. intros u U. destruct (u =? t) eqn:EU; [apply Nat.eqb_eq in EU; subst; tauto|reflexivity].
  - specialize (IH I ND'). cbn [existsb] in IH. destruct (x =? t) eqn:EX; [apply Nat.eqb_eq in EX; subst; tauto|]. cbn. lia.
Qed.

(** [done]: the collections that were taken from the queue. *)
Record inv (done q seen : list pvalue) (st : list nat) (items : list item) : Prop := {
  i_seen : forall w, In w seen <-> In w done \/ In w q;
  i_nodup : NoDup (done ++ q);
  i_source : forall w, In w seen -> relevant w -> to_copy p root w;
  i_range : forall w, In w seen -> before p n w;
  i_root : In root seen;
  i_st : forall t, In t st -> t < n /\ exists tag, In (PColl t tag) done /\ to_copy p root (PColl t tag);
  i_closed : forall t a w, In t st -> nth_error p t = Some a -> In w (main_inputs a) -> In w seen;
  i_done : forall t tag, In (PColl t tag) done -> relevant (PColl t tag) -> In t st /\ In (Coll (PColl t tag)) items;
  i_transforms : transforms_of items = st;
  i_nodup_st : NoDup st;
  i_colls : forall w, In (Coll w) items -> exists t tag a, w = PColl t tag /\ In t st /\ nth_error p t = Some a /\ In tag (outputs a);
  (** With one output of each transform to be copied. *)
  i_copied : one_output p root -> forall w, In (Coll w) items -> to_copy p root w -> In w done;
  i_nodup_items : one_output p root -> NoDup items;
  i_order : one_output p root -> forall l1 t l2 tag, items = l1 ++ Trans t :: l2 -> ~ In (Coll (PColl t tag)) l1 }.

Lemma transforms_of_app a b : transforms_of (a ++ b) = transforms_of a ++ transforms_of b.
Proof. unfold transforms_of. now rewrite map_app, concat_app. Qed.
Lemma transforms_of_colls l : transforms_of (map Coll l) = [].
Proof. unfold transforms_of. induction l; [reflexivity|assumption]. Qed.
Lemma in_transforms_of items t : In t (transforms_of items) <-> In (Trans t) items.
Proof.
  unfold transforms_of. rewrite in_concat. split.
  - intros (l & L & I). apply in_map_iff in L. destruct L as ([w|u] & <- & L); [destruct I|]. destruct I as [->|[]]. exact L.
  - intros I. exists [t]. split; [|now left]. apply in_map_iff. now exists (Trans t).
Qed.

Lemma skip done v q seen st items : inv done (v :: q) seen st items -> ~ relevant v ->
  inv (v :: done) q seen st items.
Proof.
  intros I R. constructor.
  - intros w. rewrite (i_seen _ _ _ _ _ I w). cbn. tauto.
  - cbn. pose proof (i_nodup _ _ _ _ _ I) as N. apply NoDup_remove in N. constructor; apply N.
  - apply I.
  - apply I.
  - apply (i_root _ _ _ _ _ I) || apply I.
  - intros t T. destruct (i_st _ _ _ _ _ I t T) as (L & tag & D & C). split; [exact L|]. exists tag. split; [now right|exact C].
  - apply I.
  - intros t tag [->|D] RE; [tauto|]. now apply I.
  - apply I.
  - apply I.
  - apply (i_root _ _ _ _ _ I) || apply I.
  - intros O w W C. right. now apply (i_copied _ _ _ _ _ I O).
  - apply I.
  - apply I.
Qed.

Lemma app_cons_split {A} (x : A) items y l1 l2 : x :: items = l1 ++ y :: l2 -> (l1 = [] /\ x = y /\ items = l2) \/ exists l, l1 = x :: l /\ items = l ++ y :: l2.
Proof. destruct l1 as [|z l1]; intros [= -> ->]; [now left|right; now exists l1]. Qed.

Lemma skip_colls pre items l u l2 : (forall t, ~ In (Trans t) pre) -> pre ++ items = l ++ Trans u :: l2 ->
  exists m, l = pre ++ m /\ items = m ++ Trans u :: l2.
Proof.
  revert l. induction pre as [|x pre IH]; intros l N E; [now exists l|].
  apply app_cons_split in E. destruct E as [(_ & -> & _)|(l' & -> & E)]; [destruct (N u); now left|].
  destruct (IH l') as (m & -> & M); [intros t T; apply (N t); now right|exact E|]. now exists m.
Qed.

Lemma again done t tag q seen st items : inv done (PColl t tag :: q) seen st items -> relevant (PColl t tag) -> In t st ->
  inv (PColl t tag :: done) q seen st (Coll (PColl t tag) :: items).
Proof.
  intros I R T.
  assert (before p n (PColl t tag)) as (LT & a & A & TA).
  { apply (i_range _ _ _ _ _ I), (i_seen _ _ _ _ _ I). right. now left. }
  assert (to_copy p root (PColl t tag)) as TC.
  { apply (i_source _ _ _ _ _ I); [|exact R]. apply (i_seen _ _ _ _ _ I). right. now left. }
  assert (one_output p root -> False) as NO.
  { intros O. destruct (i_st _ _ _ _ _ I t T) as (L & tag' & D & C). rewrite (O _ _ _ C TC) in D.
    pose proof (i_nodup _ _ _ _ _ I) as N. apply NoDup_remove_2 in N. apply N. apply in_app_iff. now left. }
  constructor; try (intros O; now destruct (NO O)).
  - intros w. rewrite (i_seen _ _ _ _ _ I w). cbn. tauto.
  - cbn. pose proof (i_nodup _ _ _ _ _ I) as N. apply NoDup_remove in N. constructor; apply N.
  - apply I.
  - apply I.
  - apply (i_root _ _ _ _ _ I) || apply I.
  - intros u U. destruct (i_st _ _ _ _ _ I u U) as (L & tag' & D & C). split; [exact L|]. exists tag'. split; [now right|exact C].
  - apply I.
  - intros u tag' [[= -> ->]|D] RE; [split; [exact T|now left]|]. destruct (i_done _ _ _ _ _ I _ _ D RE). split; [assumption|now right].
  - cbn. apply I.
  - apply I.
  - intros w [[= <-]|W]; [now exists t, tag, a|now apply I].
Qed.

Lemma first done t tag q seen st items a q' seen' :
  inv done (PColl t tag :: q) seen st items -> relevant (PColl t tag) -> ~ In t st -> nth_error p t = Some a ->
  enqueue (main_inputs a) q seen = (q', seen') ->
  inv (PColl t tag :: done) q' seen' (t :: st)
    (Trans t :: rev (map Coll (filter (fun o => negb (mem o seen)) (map (PColl t) (outputs a)))) ++ Coll (PColl t tag) :: items).
Proof.
  intros I R NT A E. destruct (enqueue_spec (main_inputs a) q seen) as (new & seen2 & E2 & ND & NW & SN & INC & _).
  rewrite E in E2. injection E2 as -> ->.
  set (others := filter _ _).
  assert (forall o, In o others <-> exists tag', o = PColl t tag' /\ In tag' (outputs a) /\ ~ In o seen) as OT.
  { intros o. unfold others. rewrite filter_In, in_map_iff, negb_true_iff, mem_false. split.
    - intros ((tag' & <- & T) & N). now exists tag'.
    - intros (tag' & -> & T & N). split; [now exists tag'|exact N]. }
  assert (In (PColl t tag) seen) as SV. { apply (i_seen _ _ _ _ _ I). right. now left. }
  destruct (i_range _ _ _ _ _ I _ SV) as (LT & a2 & A2 & TA). assert (a2 = a) by congruence. subst a2.
  assert (to_copy p root (PColl t tag)) as TC by now apply (i_source _ _ _ _ _ I).
  assert (forall w, In w (main_inputs a) -> relevant w -> to_copy p root w) as TI.
  { intros w W [RB RW]. apply at_boundary_false in RW. eapply copy_input; eassumption. }
  assert (one_output p root -> forall o, In o others -> ~ to_copy p root o) as OC.
  { intros O o H C. apply OT in H. destruct H as (tag' & -> & T' & N). rewrite (O _ _ _ C TC) in N. tauto. }
  assert (forall w, In (Coll w) items -> In w (map (PColl t) (outputs a)) -> False) as FR.
  { intros w W M. apply in_map_iff in M. destruct M as (tag' & <- & _). destruct (i_colls _ _ _ _ _ I _ W) as (u & x & b & [= <- <-] & U & _). tauto. }
  constructor.
  - intros w. rewrite SN, (i_seen _ _ _ _ _ I w), in_app_iff. cbn. tauto.
  - cbn. pose proof (i_nodup _ _ _ _ _ I) as N. pose proof (NoDup_remove_2 _ _ _ N) as N2. apply NoDup_remove_1 in N.
    rewrite app_assoc. constructor.
    + rewrite in_app_iff. intros [W|W]; [tauto|]. now apply NW in W.
    + assert (forall w, In w (done ++ q) -> ~ In w new) as DJ.
      { intros w W V. apply NW in V. apply V. apply (i_seen _ _ _ _ _ I). apply in_app_iff in W. cbn. tauto. }
      clear -N ND DJ. induction (done ++ q) as [|x l IH]; [exact ND|]. cbn. inversion N; subst. constructor.
      * rewrite in_app_iff. intros [H|H]; [tauto|]. apply (DJ x); [now left|exact H].
      * apply IH; [assumption|]. intros w W. apply DJ. now right.
  - intros w W RW. apply SN in W. destruct W as [W|W]; [now apply I|]. apply NW in W. now apply TI.
  - intros w W. apply SN in W. destruct W as [W|W]; [now apply I|]. apply NW in W.
    destruct (VALID _ _ A) as [_ V]. specialize (V w). rewrite in_app_iff in V. specialize (V (or_introl (proj1 W))).
    destruct w as [|u x]; [exact Logic.I|]. destruct V as (V1 & V2). split; [lia|exact V2].
  - apply SN. left. exact (i_root _ _ _ _ _ I).
  - intros u [<-|U].
    + split; [exact LT|]. exists tag. split; [now left|exact TC].
    + destruct (i_st _ _ _ _ _ I u U) as (L & tag' & D & C). split; [exact L|]. exists tag'. split; [now right|exact C].
  - intros u b w [<-|U] B W.
    + assert (b = a) by congruence. subst b. now apply INC.
    + apply SN. left. now apply (i_closed _ _ _ _ _ I u b w).
  - intros u x [[= <- <-]|D] RX.
    + split; [now left|]. right. apply in_app_iff. right. now left.
    + destruct (i_done _ _ _ _ _ I _ _ D RX). split; [now right|]. right. apply in_app_iff. right. now right.
  - change (Trans t :: ?x) with ([Trans t] ++ x). rewrite transforms_of_app, transforms_of_app, <- map_rev, transforms_of_colls.
    cbn. f_equal. apply I.
  - constructor; [exact NT|apply I].
  - intros w [W|W]; [discriminate|]. apply in_app_iff in W. destruct W as [W|[[= <-]|W]].
    + apply in_rev, in_map_iff in W. destruct W as (o & [= ->] & W). apply OT in W. destruct W as (tag' & -> & T' & _).
      exists t, tag', a. repeat split; auto. now left.
    + exists t, tag, a. repeat split; auto. now left.
    + destruct (i_colls _ _ _ _ _ I _ W) as (u & x & b & -> & U & B). exists u, x, b. split; [reflexivity|]. split; [now right|exact B].
  - intros O w [W|W] C; [discriminate|]. apply in_app_iff in W. destruct W as [W|[[= <-]|W]].
    + apply in_rev, in_map_iff in W. destruct W as (o & [= ->] & W). now destruct (OC O _ W).
    + now left.
    + right. now apply (i_copied _ _ _ _ _ I O).
  - intros O. constructor.
    + rewrite in_app_iff. intros [W|[W|W]]; [|discriminate|].
      * apply in_rev, in_map_iff in W. destruct W as (o & W & _). discriminate.
      * apply NT. rewrite <- (i_transforms _ _ _ _ _ I). now apply in_transforms_of.
    + assert (NoDup (rev (map Coll others))) as N1.
      { apply NoDup_rev. apply FinFun.Injective_map_NoDup; [congruence|]. apply NoDup_filter.
        apply FinFun.Injective_map_NoDup; [congruence|]. now apply (VALID _ _ A). }
      assert (NoDup (Coll (PColl t tag) :: items)) as N2.
      { constructor; [|apply I; exact O]. intros W. apply (FR _ W). now apply in_map. }
      assert (forall x, In x (rev (map Coll others)) -> ~ In x (Coll (PColl t tag) :: items)) as DJ.
      { intros x X Y. apply in_rev, in_map_iff in X. destruct X as (o & <- & X). apply OT in X. destruct X as (tag' & -> & T' & N).
        destruct Y as [[= ->]|Y]; [tauto|]. apply (FR _ Y). now apply in_map. }
      clear -N1 N2 DJ. induction (rev (map Coll others)) as [|x l IH]; [exact N2|]. cbn. inversion N1; subst. constructor.
      * rewrite in_app_iff. intros [H|H]; [tauto|]. apply (DJ x); [now left|exact H].
      * apply IH; [assumption|]. intros w W. apply DJ. now right.
  - intros O l1 u l2 x EQ. apply app_cons_split in EQ. destruct EQ as [(-> & _ & _)|(l & -> & EQ)]; [easy|].
    rewrite app_comm_cons, app_assoc in EQ || idtac.
    change (Coll (PColl t tag) :: items) with ([Coll (PColl t tag)] ++ items) in EQ. rewrite app_assoc in EQ.
    apply skip_colls in EQ.
    2:{ intros y Y. apply in_app_iff in Y. destruct Y as [Y|[Y|[]]]; [|discriminate]. apply in_rev, in_map_iff in Y. destruct Y as (o & Y & _). discriminate. }
    destruct EQ as (m & -> & EQ).
    assert (In u st) as US. { rewrite <- (i_transforms _ _ _ _ _ I). apply in_transforms_of. rewrite EQ. apply in_app_iff. right. now left. }
    intros [W|W]; [discriminate|]. apply in_app_iff in W. destruct W as [W|W]; [|now apply (i_order _ _ _ _ _ I O _ _ _ x EQ)].
    apply in_app_iff in W. destruct W as [W|[[= -> ->]|[]]]; [|tauto]. apply in_rev, in_map_iff in W. destruct W as (o & [= ->] & W).
    apply OT in W. destruct W as (tag' & [= -> ->] & _). tauto.
Qed.

(** ** Levels *)
Definition levels (depth : pvalue -> nat) : Prop := forall t tag a w,
  to_copy p root (PColl t tag) -> nth_error p t = Some a -> In w (main_inputs a) -> to_copy p root w ->
  depth w = S (depth (PColl t tag)).

Definition inputs_first (items : list item) : Prop := forall l1 t l2 a w,
  items = l1 ++ Trans t :: l2 -> nth_error p t = Some a -> In w (main_inputs a) -> to_copy p root w -> ~ In (Coll w) l2.

Definition queue_ordered (depth : pvalue -> nat) (done q : list pvalue) : Prop := exists D q1 q2, q = q1 ++ q2 /\
  (forall u, In u q1 -> to_copy p root u -> depth u = D) /\ (forall u, In u q2 -> to_copy p root u -> depth u = S D) /\
  (forall u, In u done -> to_copy p root u -> depth u <= D).

Definition ordered (done q : list pvalue) (items : list item) : Prop := one_output p root -> forall depth, levels depth ->
  queue_ordered depth done q /\ inputs_first items.

Lemma queue_head depth done v q : queue_ordered depth done (v :: q) -> exists D q1 q2, q = q1 ++ q2 /\
  (to_copy p root v -> depth v = D) /\
  (forall u, In u q1 -> to_copy p root u -> depth u = D) /\ (forall u, In u q2 -> to_copy p root u -> depth u = S D) /\
  (forall u, In u done -> to_copy p root u -> depth u <= D).
Proof.
  intros (D & [|x q1] & q2 & E & Q1 & Q2 & QD); cbn in E.
  - exists (S D), q, []. subst q2. rewrite app_nil_r. repeat split.
    + apply Q2. now left.
    + intros u U. apply Q2. now right.
    + intros u [].
    + intros u U C. specialize (QD u U C). lia.
  - injection E as <- ->. exists D, q1, q2. repeat split; auto.
    + apply Q1. now left.
    + intros u U. apply Q1. now right.
Qed.

Lemma ordered_skip done v q items : ordered done (v :: q) items -> ~ to_copy p root v -> ordered (v :: done) q items.
Proof.
  intros O N ONE depth LV. destruct (O ONE depth LV) as (Q & I). split; [|exact I].
  apply queue_head in Q. destruct Q as (D & q1 & q2 & E & _ & Q1 & Q2 & QD). exists D, q1, q2. repeat split; auto.
  intros u [->|U]; [tauto|auto].
Qed.

Lemma ordered_again done t tag q seen st items : inv done (PColl t tag :: q) seen st items -> relevant (PColl t tag) -> In t st ->
  ordered (PColl t tag :: done) q (Coll (PColl t tag) :: items).
Proof.
  intros I R T O. exfalso. destruct (i_st _ _ _ _ _ I t T) as (L & tag' & D & C).
  assert (to_copy p root (PColl t tag)) as TC.
  { apply (i_source _ _ _ _ _ I); [|exact R]. apply (i_seen _ _ _ _ _ I). right. now left. }
  rewrite (O _ _ _ C TC) in D. pose proof (i_nodup _ _ _ _ _ I) as N. apply NoDup_remove_2 in N. apply N. apply in_app_iff. now left.
Qed.

Lemma ordered_first done t tag q seen st items a q' seen' :
  inv done (PColl t tag :: q) seen st items -> relevant (PColl t tag) -> ~ In t st -> nth_error p t = Some a ->
  enqueue (main_inputs a) q seen = (q', seen') -> ordered done (PColl t tag :: q) items ->
  ordered (PColl t tag :: done) q'
    (Trans t :: rev (map Coll (filter (fun o => negb (mem o seen)) (map (PColl t) (outputs a)))) ++ Coll (PColl t tag) :: items).
Proof.
  intros I R NT A E O ONE depth LV. destruct (O ONE depth LV) as (Q & IF). apply queue_head in Q.
  destruct Q as (D & q1 & q2 & EQ & QV & Q1 & Q2 & QD).
  destruct (enqueue_spec (main_inputs a) q seen) as (new & seen2 & E2 & ND & NW & SN & INC & _).
  rewrite E in E2. injection E2 as -> ->.
  assert (In (PColl t tag) seen) as SV. { apply (i_seen _ _ _ _ _ I). right. now left. }
  assert (to_copy p root (PColl t tag)) as TC by now apply (i_source _ _ _ _ _ I).
  specialize (QV TC). split.
  - exists D, q1, (q2 ++ new). rewrite EQ, app_assoc. repeat split; auto.
    + intros u U C. apply in_app_iff in U. destruct U as [U|U]; [auto|]. apply NW in U. rewrite (LV t tag a u); auto; tauto.
    + intros u [<-|U] C; [lia|auto].
  - intros l1 u l2 b w EL B W C. apply app_cons_split in EL. destruct EL as [(-> & [= <-] & <-)|(l & -> & EL)].
    + assert (b = a) by congruence. subst b. intros X.
      assert (depth w = S D) as DW by (rewrite (LV t tag a w); auto).
      apply in_app_iff in X. destruct X as [X|[[= <-]|X]].
      * apply in_rev, in_map_iff in X. destruct X as (o & [= ->] & X). apply filter_In in X. destruct X as [X XN].
        apply in_map_iff in X. destruct X as (tag' & <- & _). rewrite (ONE _ _ _ C TC) in XN.
        apply negb_true_iff, mem_false in XN. tauto.
      * lia.
      * apply (i_copied _ _ _ _ _ I ONE) in X; [|exact C]. specialize (QD w X C). lia.
    + change (Coll (PColl t tag) :: items) with ([Coll (PColl t tag)] ++ items) in EL. rewrite app_assoc in EL.
      apply skip_colls in EL.
      2:{ intros y Y. apply in_app_iff in Y. destruct Y as [Y|[Y|[]]]; [|discriminate]. apply in_rev, in_map_iff in Y. destruct Y as (o & Y & _). discriminate. }
      destruct EL as (m & -> & EL). now apply (IF _ _ _ _ _ EL B W C).
Qed.

Lemma to_copy_relevant w : to_copy p root w -> at_boundary p w = false.
Proof. intros H. apply at_boundary_false. now destruct H. Qed.

Lemma search_ok : forall fuel done q seen st items, inv done q seen st items -> ordered done q items ->
  length q + remaining st <= fuel ->
  exists done' seen' st' items', search fuel p q seen st items = Some items' /\ inv done' [] seen' st' items' /\ ordered done' [] items'.
Proof.
  induction fuel as [|fuel IH]; intros done [|v q] seen st items I O L; cbn [search]; try (cbn in L; lia).
  - now exists done, seen, st, items.
  - now exists done, seen, st, items.
  - destruct v as [|t tag].
    + apply (IH (PBegin :: done)); [apply skip; [exact I|intros [H _]; now apply H]| |cbn in L; lia].
      apply ordered_skip; [exact O|]. intros C.
      assert (forall w, to_copy p root w -> w = PBegin -> root = PBegin) as H. { induction 1; auto; congruence. }
      now specialize (H _ C eq_refl).
    + destruct (at_boundary p (PColl t tag)) eqn:B.
      * apply (IH (PColl t tag :: done)); [apply skip; [exact I|intros [_ H]; congruence]| |cbn in L; lia].
        apply ordered_skip; [exact O|]. intros C. apply to_copy_relevant in C. congruence.
      * assert (relevant (PColl t tag)) as R by now split.
        assert (before p n (PColl t tag)) as (LT & a & A & TA).
        { apply (i_range _ _ _ _ _ I), (i_seen _ _ _ _ _ I). right. now left. }
        rewrite A. destruct (existsb (Nat.eqb t) st) eqn:E.
        -- apply existsb_nat in E. apply (IH (PColl t tag :: done)); [now apply again|now apply (ordered_again done t tag q seen st)|cbn in L; lia].
        -- assert (~ In t st) as NT by (rewrite <- existsb_nat; congruence).
           destruct (enqueue (main_inputs a) q seen) as [q' seen'] eqn:EN.
           apply (IH (PColl t tag :: done)); [eapply first; eassumption|eapply ordered_first; eassumption|].
           destruct (enqueue_spec (main_inputs a) q seen) as (new & seen2 & E2 & _ & _ & _ & _ & NL).
           rewrite EN in E2. injection E2 as -> ->. pose proof (remaining_step t st LT NT) as RS.
           unfold inputs_length in RS. rewrite A in RS. rewrite app_length. cbn in L. lia.
Qed.

Lemma start_inv : inv [] [root] [root] [] [].
Proof.
  constructor; cbn; try tauto; try (now constructor).
  - repeat constructor. tauto.
  - intros w [<-|[]] [_ R]. constructor. now apply at_boundary_false.
  - intros w [<-|[]]. exact ROOT.
  - intros _ [|x l1] t l2 tag E; discriminate.
Qed.
Lemma start_ordered : ordered [] [root] [].
Proof.
  intros _ depth LV. split; [|intros [|x l1] t l2 a w E; discriminate].
  exists (depth root), [root], []. repeat split; auto; try easy. intros u [<-|[]]. auto.
Qed.

(** What is cloned. *)
Theorem items_spec : exists items, items_to_clone p root = Some items /\
  NoDup (transforms_of items) /\
  (forall t, In t (transforms_of items) <-> exists tag, to_copy p root (PColl t tag)) /\
  (forall t, In (Trans t) items -> t < n) /\
  (forall w, to_copy p root w -> In (Coll w) items) /\
  (forall w, In (Coll w) items -> exists t tag a, w = PColl t tag /\ In (Trans t) items /\ nth_error p t = Some a /\ In tag (outputs a)) /\
  (one_output p root -> NoDup items /\
     (forall l1 t l2 tag, items = l1 ++ Trans t :: l2 -> ~ In (Coll (PColl t tag)) l1) /\
     (level p root -> inputs_first items)).
Proof.
  destruct (search_ok (enough p) [] [root] [root] [] [] start_inv start_ordered) as (done & seen & st & items & E & I & O).
  { rewrite <- remaining_start. cbn. lia. }
  exists items. split; [exact E|].
  assert (forall w, to_copy p root w -> In w done /\ w <> PBegin) as CD.
  { induction 1 as [B|t tag a w C [IH _] A W WB B].
    - split; [|exact ROOT_COLL]. pose proof (i_root _ _ _ _ _ I) as R. apply (i_seen _ _ _ _ _ I) in R. now destruct R.
    - split; [|exact WB]. destruct (i_done _ _ _ _ _ I t tag IH) as [T _]; [split; [discriminate|now apply to_copy_relevant]|].
      pose proof (i_closed _ _ _ _ _ I t a w T A W) as R. apply (i_seen _ _ _ _ _ I) in R. now destruct R. }
  split; [rewrite (i_transforms _ _ _ _ _ I); apply I|].
  split; [|split; [|split; [|split; [|]]]].
  - intros t. rewrite (i_transforms _ _ _ _ _ I). split.
    + intros T. destruct (i_st _ _ _ _ _ I t T) as (_ & tag & _ & C). now exists tag.
    + intros (tag & C). apply (i_done _ _ _ _ _ I t tag); [now apply CD|]. split; [discriminate|now apply to_copy_relevant].
  - intros t T. apply in_transforms_of in T. rewrite (i_transforms _ _ _ _ _ I) in T. now apply I.
  - intros w C. destruct (CD w C) as [D N]. destruct w as [|t tag]; [tauto|]. apply (i_done _ _ _ _ _ I t tag D). split; [exact N|now apply to_copy_relevant].
  - intros w W. destruct (i_colls _ _ _ _ _ I w W) as (t & tag & a & -> & T & A). exists t, tag, a. repeat split; try apply A.
    apply in_transforms_of. now rewrite (i_transforms _ _ _ _ _ I).
  - intros ONE. split; [now apply I|]. split; [now apply I|]. intros (depth & LV). now apply (O ONE depth LV).
Qed.
End Search.
