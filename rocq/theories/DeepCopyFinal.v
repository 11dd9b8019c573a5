(** * Proofs about deep copies: the properties *)
From Coq Require Import String.
From Coq Require Import List Arith Bool Lia.
From Verif Require Import DeepCopyModel DeepCopySpec DeepCopyProofs DeepCopySearch.
Import ListNotations.
Local Notation length := List.length.

Section Final.
Context {F : Type}.
Notation pipeline := (list (transform F)).
Variable hints_available : bool.
Notation deep_copy := (deep_copy hints_available).
Notation clone_items := (clone_items hints_available).
Notation clone_item := (clone_item hints_available).

Section One.
Variable p : pipeline.
Variable labels : list string.
Variable v : pvalue.
Notation n := (length p).
Hypothesis VALID : valid p.
Hypothesis ROOT : before p n v.

Lemma no_items_of_start : items_to_clone p PBegin = Some [].
Proof. unfold items_to_clone, enough. cbn. now destruct (list_sum _). Qed.
Lemma no_copy_of_start : deep_copy p labels PBegin = None.
Proof. unfold DeepCopyModel.deep_copy. now rewrite no_items_of_start. Qed.

Lemma deep_copy_inv p' labels' v' : deep_copy p labels v = Some (p', labels', v') -> v <> PBegin /\
  exists items s, items_to_clone p v = Some items /\ clone_items (State p labels [] []) items = Some s /\
    invariant p labels (transforms_of items) s /\ p' = transforms s /\ labels' = applied_labels s /\ In (v, v') (coll_replacements s).
Proof.
  intros E. assert (v <> PBegin) as N by (intros ->; rewrite no_copy_of_start in E; discriminate). split; [exact N|].
  unfold DeepCopyModel.deep_copy in E. destruct (items_spec p v VALID ROOT N) as (items & EI & _ & _ & R & _). rewrite EI in E.
  destruct (clone_items _ items) as [s|] eqn:C; [|discriminate].
  destruct (replacement (coll_replacements s) v) as [w|] eqn:RE; [|discriminate]. injection E as <- <- <-.
  exists items, s. split; [exact EI|]. split; [exact C|]. split; [|split; [reflexivity|split; [reflexivity|now apply replacement_in]]].
  apply (clone_items_invariant hints_available p labels items [] (State p labels [] []) s); [apply start|exact R|exact C].
Qed.

Theorem same_computation p' labels' v' : deep_copy p labels v = Some (p', labels', v') ->
  (forall c, computed p v c -> computed p' v' c) /\
  (forall t a, nth_error p t = Some a -> exists b, nth_error p' t = Some b /\ unchanged a b) /\ valid p' /\ before p' (length p') v'.
Proof.
  intros E. apply deep_copy_inv in E. destruct E as (N & items & s & EI & C & I & -> & -> & V).
  assert (forall w k, before p k w -> k <= n -> before (transforms s) k w) as BO.
  { intros [|t tag] k B L; [exact Logic.I|]. destruct B as (B & a & A & O). destruct (inv_old _ _ _ _ I _ _ A) as (b & B2 & U).
    split; [exact B|]. exists b. split; [exact B2|]. destruct U as (_&_&_&_&_&->&_). exact O. }
  assert (forall w k k', before (transforms s) k w -> k <= k' -> before (transforms s) k' w) as BW.
  { intros [|t tag] k k' B L; [exact Logic.I|]. destruct B as (B & B2). split; [lia|exact B2]. }
  assert (forall w w' k j, before p k w -> k <= n -> copy_of p (transforms_of items) (transforms s) j w w' -> before (transforms s) (n + j) w') as BC.
  { intros w w' k j B L [->|(t & tag & i & b & -> & -> & T & J & Q & O)].
    - eapply BW; [now apply BO with (k := k)|lia].
    - split; [lia|]. exists b. split; [exact Q|]. destruct B as (_ & a & A & AO). now apply (O a). }
  split; [|split; [|split]].
  - intros c CO. eapply copy_computed; [exact I|exact CO|]. now apply (inv_colls _ _ _ _ I).
  - apply I.
  - intros t a A. destruct (lt_dec t n) as [L|L].
    + destruct (nth_error p t) as [a0|] eqn:A0; [|apply nth_error_None in A0; lia].
      destruct (inv_old _ _ _ _ I _ _ A0) as (b & B & (U1&U2&U3&U4&U5&U6&U7)). assert (b = a) by congruence. subst b.
      rewrite U4, U5, U6. destruct (VALID _ _ A0) as [ND VI]. split; [exact ND|]. intros w W. apply BO; [now apply VI|lia].
    + assert (t < length (transforms s)) as LT by (apply nth_error_Some; congruence). rewrite (inv_length _ _ _ _ I) in LT.
      destruct (nth_error (transforms_of items) (t - n)) as [u|] eqn:U; [|apply nth_error_None in U; lia].
      destruct (inv_new _ _ _ _ I _ _ U) as (x & b & X & B & (C1&C2&C3&C4&C5&C6&C7&C8)).
      assert (n + (t - n) = t) as TN by lia. rewrite TN in B. assert (b = a) by congruence. subst b.
      split; [exact C7|]. intros w W. destruct (VALID _ _ X) as [_ VI]. assert (u < n) as UN by (apply nth_error_Some; congruence).
      apply in_app_iff in W. destruct W as [W|W].
      * assert (exists w0, In w0 (main_inputs x) /\ copy_of p (transforms_of items) (transforms s) (t - n) w0 w) as (w0 & W0 & CW).
        { clear -C6 W. induction C6 as [|y y' l l' H _ IH]; [destruct W|]. destruct W as [<-|W]; [exists y; split; [now left|exact H]|].
          destruct (IH W) as (w0 & I & H0). exists w0. split; [now right|exact H0]. }
        rewrite <- TN at 1. eapply (BC w0 w u); [apply VI, in_app_iff; now left|lia|exact CW].
      * rewrite C3 in W. eapply BW; [apply BO with (k := u); [apply VI, in_app_iff; now right|lia]|lia].
  - rewrite (inv_length _ _ _ _ I). eapply (BC v v' n); [exact ROOT|lia|now apply (inv_colls _ _ _ _ I)].
Qed.

Theorem copies_once p' labels' v' : deep_copy p labels v = Some (p', labels', v') ->
  exists ts, NoDup ts /\ (forall t, In t ts <-> exists tag, to_copy p v (PColl t tag)) /\ length p' = n + length ts /\
    forall i t, nth_error ts i = Some t -> exists a b, nth_error p t = Some a /\ nth_error p' (n + i) = Some b /\
      fn b = fn a /\ barrier b = barrier a /\ side_inputs b = side_inputs a /\ composites b = composites a.
Proof.
  intros E. apply deep_copy_inv in E. destruct E as (N & items & s & EI & C & I & -> & -> & V).
  destruct (items_spec p v VALID ROOT N) as (items2 & EI2 & ND & T & _). assert (items2 = items) by congruence. subst items2.
  exists (transforms_of items). split; [exact ND|]. split; [exact T|]. split; [apply I|].
  intros i t H. destruct (inv_new _ _ _ _ I _ _ H) as (a & b & A & B & (C1&C2&C3&C4&_)). exists a, b. auto 10.
Qed.

Theorem labels_unique p' labels' v' : deep_copy p labels v = Some (p', labels', v') -> NoDup labels ->
  exists new, map label p' = map label p ++ new /\ NoDup new /\ (forall l, In l new -> ~ In l labels) /\
    (forall l, In l labels' <-> In l new \/ In l labels).
Proof.
  intros E ND. apply deep_copy_inv in E. destruct E as (N & items & s & EI & C & I & -> & -> & V).
  destruct (inv_labels _ _ _ _ I) as (new & N1 & N2 & N3). specialize (N3 ND). exists (rev new). split; [exact N2|].
  assert (NoDup new /\ forall l, In l new -> ~ In l labels) as [D1 D2].
  { clear -N3. induction new as [|x l IH]; [split; [constructor|easy]|]. cbn in N3. inversion N3 as [|? ? NI ND]; subst. rewrite in_app_iff in NI.
    destruct (IH ND) as [A B]. split; [constructor; tauto|]. intros y [<-|Y]; [tauto|auto]. }
  split; [now apply NoDup_rev|]. split; [intros l L; apply D2; now apply in_rev|]. intros l. rewrite N1, in_app_iff, <- in_rev. tauto.
Qed.

(** ** Returning *)
Lemma clone_items_returns items : forall ts s, invariant p labels ts s -> NoDup items ->
  (forall t, In (Trans t) items -> t < n /\ ~ In t ts) ->
  (forall w, In (Coll w) items -> w <> PBegin /\ ~ In w (map fst (coll_replacements s))) ->
  exists s', clone_items s items = Some s' /\ forall w, In (Coll w) items \/ In w (map fst (coll_replacements s)) -> In w (map fst (coll_replacements s')).
Proof.
  induction items as [|i items IH]; intros ts s I ND HT HC; cbn [DeepCopyModel.clone_items].
  - exists s. split; [reflexivity|]. cbn. tauto.
  - inversion ND as [|? ? NI ND']; subst. destruct i as [[|t tag]|t]; cbn [DeepCopyModel.clone_item].
    + destruct (HC PBegin); [now left|congruence].
    + destruct (HC (PColl t tag)) as [_ NC]; [now left|]. destruct (clone_coll s t tag) as [s1|] eqn:C.
      2:{ unfold clone_coll in C. apply replacement_none in NC. rewrite NC in C. now destruct (transform_replacement _ t). }
      apply (clone_coll_invariant p labels ts) in C; [|exact I]. destruct C as (I1 & C1 & _ & _).
      destruct (IH ts s1 I1 ND') as (s' & E & K).
      * intros u U. apply HT. now right.
      * intros w W. destruct (HC w) as [A B]; [now right|]. split; [exact A|]. rewrite C1. cbn. intros [<-|J]; tauto.
      * exists s'. split; [exact E|]. intros w [[[= <-]|W]|W]; apply K; [right; rewrite C1; now left|now left|right; rewrite C1; now right].
    + destruct (HT t) as [LT NT]; [now left|]. destruct (clone_transform hints_available s t) as [s1|] eqn:C.
      2:{ unfold clone_transform in C. destruct (nth_error p t) as [a|] eqn:A; [|apply nth_error_None in A; lia].
          destruct (inv_old _ _ _ _ I _ _ A) as (b & B & _). rewrite B in C.
          pose proof (trepl_lookup p labels ts s t I) as L. destruct (transform_replacement _ t) as [u|].
          - destruct L as (j & -> & J). apply nth_error_In in J. tauto.
          - destruct (copy_count_some (applied_labels s) (label b)) as (c & EC & _). rewrite EC in C. discriminate. }
      apply (clone_transform_invariant hints_available p labels ts) in C; [|exact I|exact LT]. destruct C as (I1 & C1 & _ & _).
      destruct (IH _ s1 I1 ND') as (s' & E & K).
      * intros u U. destruct (HT u) as [A B]; [now right|]. split; [exact A|]. rewrite in_app_iff. intros [J|[<-|[]]]; tauto.
      * intros w W. rewrite C1. apply HC. now right.
      * exists s'. split; [exact E|]. intros w [[W|W]|W]; [discriminate|..]; apply K; [now left|right; now rewrite C1].
Qed.

Theorem returns : v <> PBegin -> ~ materialized p v -> one_output p v -> exists r, deep_copy p labels v = Some r.
Proof.
  intros N B ONE. destruct (items_spec p v VALID ROOT N) as (items & EI & ND & T & R & TC & CO & O).
  destruct (O ONE) as (NDI & _). unfold DeepCopyModel.deep_copy. rewrite EI.
  destruct (clone_items_returns items [] (State p labels [] []) (start p labels) NDI) as (s & E & K).
  - intros t H. split; [now apply R|easy].
  - intros w W. destruct (CO w W) as (t & tag & a & -> & _). split; [discriminate|easy].
  - rewrite E. destruct (replacement (coll_replacements s) v) as [w|] eqn:RE; [cbn; eauto|].
    apply replacement_none in RE. destruct RE. apply K. left. apply TC. now constructor.
Qed.

(** ** Reading copies *)
Lemma clone_item_inputs (s : @state F) i s' : clone_item s i = Some s' -> forall k a, nth_error (transforms s) k = Some a ->
  exists b, nth_error (transforms s') k = Some b /\ main_inputs b = main_inputs a.
Proof.
  intros E k a A. destruct i as [[|t tag]|t]; cbn in E; [discriminate|..].
  - unfold clone_coll in E. destruct (replacement _ _); [discriminate|]. destruct (transform_replacement _ t) as [t'|]; injection E as <-; cbn; [|eauto].
    destruct (match nth_error (transforms s) t with Some _ => _ | None => _ end); [|eauto].
    rewrite update_nth, A. destruct (Nat.eqb t' k); cbn; eauto.
  - unfold clone_transform in E. destruct (nth_error (transforms s) t) as [x|] eqn:X; [|discriminate].
    destruct (transform_replacement _ t); [discriminate|]. destruct (copy_count _ _) as [c|]; [|discriminate]. injection E as <-. cbn.
    rewrite nth_error_app1 by (rewrite update_length; apply nth_error_Some; congruence). rewrite update_nth, A.
    destruct (Nat.eqb t k); cbn; [|eauto]. eexists. split; [reflexivity|]. apply set_hint_unchanged.
Qed.

Definition new (w : pvalue) : Prop := match w with PBegin => False | PColl t _ => n <= t end.
Definition reads_copies (q : pipeline) : Prop := forall t b w, n <= t -> nth_error q t = Some b -> In w (main_inputs b) ->
  w = PBegin \/ new w \/ materialized p w.

Theorem reads_only_copies p' labels' v' : deep_copy p labels v = Some (p', labels', v') -> one_output p v -> level p v ->
  new v' /\ reads_copies p'.
Proof.
  intros E ONE LV. unfold DeepCopyModel.deep_copy in E. destruct (items_to_clone p v) as [items|] eqn:EI; [|discriminate].
  destruct (clone_items _ items) as [s|] eqn:C; [|discriminate]. destruct (replacement (coll_replacements s) v) as [w|] eqn:RE; [|discriminate].
  injection E as <- <- <-.
  assert (v <> PBegin) as N. { intros ->. rewrite no_items_of_start in EI. injection EI as <-. cbn in C. injection C as <-. discriminate RE. }
  destruct (items_spec p v VALID ROOT N) as (items2 & EI2 & ND & T & R & TC & CO & O).
  assert (items2 = items) by congruence. subst items2. destruct (O ONE) as (NDI & ORD & IF). specialize (IF LV).
  assert (forall rest pre s1 s2, items = pre ++ rest -> invariant p labels (transforms_of pre) s1 ->
    (forall w, In w (map fst (coll_replacements s1)) <-> In (Coll w) pre) -> (forall w w', In (w, w') (coll_replacements s1) -> new w') ->
    reads_copies (transforms s1) -> clone_items s1 rest = Some s2 ->
    (forall w w', In (w, w') (coll_replacements s2) -> new w') /\ reads_copies (transforms s2)) as MAIN.
  { induction rest as [|i rest IH]; intros pre s1 s2 EQ I K NW RC CL; cbn in CL; [injection CL as <-; now split|].
    destruct (clone_item s1 i) as [s3|] eqn:CI; [|discriminate].
    pose proof (clone_item_inputs _ _ _ CI) as KEEP.
    destruct i as [[|t tag]|t]; cbn in CI; [discriminate|..].
    - pose proof CI as CI'. apply (clone_coll_invariant p labels (transforms_of pre)) in CI; [|exact I]. destruct CI as (I3 & C3 & _ & TR).
      assert (In (Trans t) pre) as TP.
      { assert (In (Coll (PColl t tag)) items) as J by (rewrite EQ; apply in_app_iff; right; now left).
        destruct (CO _ J) as (u & x & a & [= <- <-] & TI & _). rewrite EQ in TI. apply in_app_iff in TI. destruct TI as [TI|[TI|TI]]; [exact TI|discriminate|].
        exfalso. apply in_split in TI. destruct TI as (r1 & r2 & ->).
        apply (ORD (pre ++ Coll (PColl t tag) :: r1) t r2 tag); [rewrite EQ, <- app_assoc; reflexivity|]. apply in_app_iff. right. now left. }
      assert (reads_copies (transforms s3)) as RC3.
      { intros k b w0 L B W0. assert (length (transforms s3) = length (transforms s1)) as LE by (rewrite (inv_length _ _ _ _ I3), (inv_length _ _ _ _ I); reflexivity).
        destruct (nth_error (transforms s1) k) as [b1|] eqn:B1; [|apply nth_error_None in B1; assert (k < length (transforms s3)) by (apply nth_error_Some; congruence); lia].
        destruct (KEEP _ _ B1) as (b3 & B3 & M). assert (b3 = b) by congruence. subst b3. rewrite M in W0. now apply (RC k b1 w0). }
      apply (IH (pre ++ [Coll (PColl t tag)]) s3 s2); try assumption.
      + now rewrite <- app_assoc.
      + rewrite transforms_of_app. cbn. now rewrite app_nil_r.
      + intros w0. rewrite C3, in_app_iff. cbn. rewrite K. split; [intros [<-|J]; tauto|intros [J|[[= <-]|[]]]; tauto].
      + intros w0 w'. rewrite C3. intros [[= <- <-]|J]; [|now apply (NW w0)].
        pose proof (trepl_lookup p labels _ s1 t I) as L. destruct (transform_replacement _ t) as [u|].
        * destruct L as (j & -> & _). cbn. lia.
        * destruct L. now apply in_transforms_of.
    - assert (t < n) as LT by (apply R; rewrite EQ; apply in_app_iff; right; now left).
      apply (clone_transform_invariant hints_available p labels (transforms_of pre)) in CI; [|exact I|exact LT].
      destruct CI as (I3 & C3 & NT & a & b & A & B & M).
      apply (IH (pre ++ [Trans t]) s3 s2); try assumption.
      + now rewrite <- app_assoc.
      + rewrite transforms_of_app. exact I3.
      + intros w0. rewrite C3, in_app_iff, K. cbn. split; [tauto|]. intros [J|[J|[]]]; [exact J|discriminate].
      + now rewrite C3.
      + intros k b' w0 L B' W0.
        assert (length (transforms s3) = S (length (transforms s1))) as LE by (rewrite (inv_length _ _ _ _ I3), (inv_length _ _ _ _ I), app_length; cbn; lia).
        destruct (nth_error (transforms s1) k) as [b1|] eqn:B1.
        * destruct (KEEP _ _ B1) as (b3 & B3 & M3). assert (b3 = b') by congruence. subst b3. rewrite M3 in W0. now apply (RC k b1 w0).
        * apply nth_error_None in B1. assert (k < length (transforms s3)) by (apply nth_error_Some; congruence).
          rewrite (inv_length _ _ _ _ I) in *. assert (k = n + length (transforms_of pre)) by lia. subst k. assert (b' = b) by congruence. subst b'.
          rewrite M in W0. apply in_map_iff in W0. destruct W0 as (u & <- & U).
          destruct (replacement (coll_replacements s1) u) as [u'|] eqn:RU; [right; left; apply replacement_in in RU; now apply (NW u)|].
          destruct u as [|tu tagu]; [now left|]. right. right. destruct (at_boundary p (PColl tu tagu)) eqn:BU; [now apply at_boundary_true|exfalso]. apply at_boundary_false in BU.
          apply replacement_none in RU. rewrite K in RU.
          assert (In t (transforms_of items)) as TI by (apply in_transforms_of; rewrite EQ; apply in_app_iff; right; now left).
          apply T in TI. destruct TI as (tag & TCt).
          assert (to_copy p v (PColl tu tagu)) as TU by (eapply copy_input; eauto; discriminate).
          pose proof (TC _ TU) as IC. rewrite EQ in IC. apply in_app_iff in IC. destruct IC as [IC|[IC|IC]]; [tauto|discriminate|].
          now apply (IF pre t rest a (PColl tu tagu) EQ A U TU). }
  destruct (MAIN items [] (State p labels [] []) s eq_refl (start p labels)) as [NW RC]; try assumption.
  - cbn. tauto.
  - easy.
  - intros t b x L B. cbn in B. assert (t < n) by (apply nth_error_Some; congruence). lia.
  - split; [|exact RC]. apply replacement_in in RE. now apply (NW v).
Qed.
End One.
End Final.
