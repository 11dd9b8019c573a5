(** Proofs about analyzers made of PTransforms of the user. *)
From Coq Require Import String List Bool Arith Permutation Lia.
From Verif Require Import CustModel CustSpec.
Import ListNotations.

Lemma perm_one : forall A (x : list A) a, Permutation x [a] -> x = [a].
Proof. intros A x a P. apply Permutation_sym in P. now apply Permutation_length_1_inv in P. Qed.
Lemma flat_concat : forall A B (f : A -> list B) l, flat_map f l = concat (map f l).
Proof. intros A B f l. apply flat_map_concat_map. Qed.

Lemma elements_all : forall B (xs : list (list B)) vs, the_elements xs = Some vs <-> xs = map (fun v => [v]) vs.
Proof.
  intros B xs. induction xs as [|x xs IH]; intros vs.
  - cbn. split; [intros [= <-]; reflexivity | destruct vs; [reflexivity | discriminate]].
  - cbn [the_elements]. split.
    + destruct x as [|b [|b' x]]; cbn [the_element]; try discriminate.
      destruct (the_elements xs) as [bs|] eqn:E; [|discriminate]. intros [= <-].
      cbn. now rewrite (proj1 (IH bs) eq_refl).
    + destruct vs as [|v vs]; [discriminate|]. cbn. intros [= -> ->]. cbn. now rewrite (proj2 (IH vs) eq_refl).
Qed.

Section analyzers.
  Context {batch acc out entry source dataset key : Type}.
  Context (dataset_eqb : dataset -> dataset -> bool) (key_eqb : key -> key -> bool) (hash : description source -> key).
  Context (batches : source -> dataset -> list batch).
  Context (dataset_eq : forall d d', dataset_eqb d d' = true <-> d = d') (key_eq : forall k k', key_eqb k k' = true <-> k = k').
  Local Notation analysis := (analysis batch acc out entry source dataset).
  Local Notation cache := (dataset -> key -> option (list entry)).
  Local Notation make a := (apply (make_accumulators (analyzer a))).
  Local Notation merge a := (apply (merge_accumulators (analyzer a))).
  Local Notation enc a := (encode (cache_coder (analyzer a))).
  Local Notation dec a := (decode (cache_coder (analyzer a))).
  Local Notation ekey := (entry_key hash).

  (** What is in the cache was written by one of the analyses [done]. *)
  Definition sound (done : list analysis) (c : cache) : Prop :=
    forall d k es, c d k = Some es -> exists a, In a done /\ ekey a = k /\ es = map (enc a) (merge a (make a (batches (inputs a) d))).

  Lemma local_right : forall done c (a : analysis) d x,
    correct (analyzer a) -> sound done c -> (forall a', In a' done -> ekey a' = ekey a -> alike a' a) ->
    local_merge hash batches c a d x -> x = merge a (make a (batches (inputs a) d)).
  Proof.
    intros done c a d x [_ [One [_ [[C1 C2] RT]]]] S AL L. unfold local_merge in L.
    destruct (c d (ekey a)) as [es|] eqn:E.
    - destruct (S _ _ _ E) as [a' [I [K ->]]]. destruct (AL a' I K) as [EI [Em [Eg Ee]]].
      subst x. rewrite EI, Em, Eg.
      destruct (One (make a (batches (inputs a) d))) as [y ->]. cbn. now rewrite Ee, RT.
    - destruct L as [made [[o1 [P1 ->]] [o2 [P2 ->]]]].
      rewrite (C1 _ _ P2). now apply C2.
  Qed.
  Lemma locals_right : forall done c (a : analysis) ds parts,
    correct (analyzer a) -> sound done c -> (forall a', In a' done -> ekey a' = ekey a -> alike a' a) ->
    local_merges hash batches c a ds parts -> parts = map (fun d => merge a (make a (batches (inputs a) d))) ds.
  Proof.
    intros done c a ds. induction ds as [|d ds IH]; intros parts Co S AL L.
    - destruct parts; [reflexivity | destruct L].
    - destruct parts as [|x parts]; [destruct L|]. destruct L as [L1 L2]. cbn [map].
      rewrite <- (IH parts Co S AL L2). now rewrite <- (local_right done c a d x Co S AL L1).
  Qed.
  Lemma written_sound : forall done c (a : analysis) ds,
    sound done c -> sound (a :: done) (written dataset_eqb key_eqb hash c a ds (map (fun d => merge a (make a (batches (inputs a) d))) ds)).
  Proof.
    intros done c a ds S. induction ds as [|d ds IH].
    - intros d k es E. cbn in E. destruct (S d k es E) as [a' [I R]]. exists a'. split; [now right | exact R].
    - intros d' k es. cbn [map written].
      destruct (dataset_eqb d d') eqn:Ed; [|exact (IH d' k es)].
      destruct (key_eqb (ekey a) k) eqn:Ek; [|exact (IH d' k es)].
      cbn [andb]. destruct (is_cached a d); [|exact (IH d' k es)]. cbn [andb].
      destruct (c d (ekey a)); [exact (IH d' k es)|].
      intros [= <-]. apply dataset_eq in Ed. apply key_eq in Ek. subst d' k. exists a. split; [now left|]. split; reflexivity.
  Qed.

  Lemma run_right : forall done c (a : analysis) outs c',
    correct (analyzer a) -> sound done c -> (forall a', In a' done -> ekey a' = ekey a -> alike a' a) ->
    run dataset_eqb key_eqb hash batches c a outs c' ->
    right_output batches a outs /\ sound (a :: done) c'.
  Proof.
    intros done c a outs c' Co S AL [accs [merged [R [[o3 [P3 M3]] [o4 [P4 ->]]]]]].
    assert (Co' := Co). destruct Co' as [Doc [One [Ass [[C1 C2] RT]]]].
    assert (M : merged = merge a (make a (flat_map (batches (inputs a)) (datasets a))) /\ sound (a :: done) c').
    { destruct (fine_grained a) eqn:F.
      - destruct R as [parts [L [-> ->]]]. pose proof (locals_right done c a _ _ Co S AL L) as ->.
        split; [|now apply written_sound].
        rewrite M3, (C1 _ _ P3), flat_concat, Doc, map_map.
        rewrite <- (Ass (map (fun d => make a (batches (inputs a) d)) (datasets a))), map_map. reflexivity.
      - destruct R as [-> [made [[o1 [P1 ->]] [o2 [P2 ->]]]]].
        split.
        + rewrite M3, (C1 _ _ P3), (C1 _ _ P2), (C2 _ _ P1).
          pose proof (Ass [make a (flat_map (batches (inputs a)) (datasets a))]) as A. cbn in A. now rewrite !app_nil_r in A.
        + intros d k es E. destruct (S d k es E) as [a' [I R]]. exists a'. split; [now right | exact R]. }
    destruct M as [-> S']. split; [|exact S'].
    unfold right_output, value_of. destruct (One (make a (flat_map (batches (inputs a)) (datasets a)))) as [y Y].
    rewrite Y in P4 |- *. now rewrite (perm_one _ _ _ P4).
  Qed.

  Lemma history_right : forall analyses done c values,
    (forall a, In a analyses -> correct (analyzer a)) ->
    (forall a a', In a (done ++ analyses) -> In a' analyses -> ekey a = ekey a' -> alike a a') ->
    sound done c ->
    history dataset_eqb key_eqb hash batches c analyses values ->
    forall i a v, nth_error analyses i = Some a -> nth_error values i = Some v ->
    exists outs, right_output batches a outs /\ v = the_element outs.
  Proof.
    induction analyses as [|a as' IH]; intros done c values Co AL S H i a0 v Ea Ev.
    - destruct i; discriminate.
    - destruct values as [|v0 vs]; [destruct H|]. destruct H as [outs [c' [R [-> H]]]].
      destruct (run_right done c a outs c') as [RO S'].
      + apply Co. now left.
      + exact S.
      + intros a' I K. apply AL; [apply in_or_app; now left | now left | exact K].
      + exact R.
      + destruct i as [|i].
        * injection Ea as <-. injection Ev as <-. now exists outs.
        * apply (IH (a :: done) c' vs) with (i := i); try assumption.
          -- intros b I. apply Co. now right.
          -- intros b b' I I' K. apply AL; [|now right|exact K].
             cbn [app] in I. destruct I as [->|I]; [apply in_or_app; right; now left|].
             apply in_app_or in I. apply in_or_app. destruct I; [now left | right; now right].
  Qed.

  Lemma entries_of_run : forall done c (a : analysis) outs c',
    correct (analyzer a) -> sound done c -> (forall a', In a' done -> ekey a' = ekey a -> alike a' a) ->
    run dataset_eqb key_eqb hash batches c a outs c' -> fine_grained a = true ->
    forall d, In d (datasets a) -> is_cached a d = true -> c' d (ekey a) <> None.
  Proof.
    intros done c a outs c' Co S AL [accs [merged [R _]]] F d I Cd. rewrite F in R.
    destruct R as [parts [L [_ ->]]]. pose proof (locals_right done c a _ _ Co S AL L) as ->. clear L.
    induction (datasets a) as [|e ds IH]; [destruct I|]. cbn [map written].
    destruct (dataset_eqb e d) eqn:Ed.
    - apply dataset_eq in Ed. subst e. rewrite (proj2 (key_eq (ekey a) (ekey a)) eq_refl), Cd. cbn [andb].
      destruct (c d (ekey a)) as [es|] eqn:E; [|discriminate].
      clear IH I. induction ds as [|e ds IH]; cbn [map written]; [congruence|].
      destruct (dataset_eqb e d) eqn:Ee; [|exact IH]. apply dataset_eq in Ee. subst e.
      now rewrite E, !andb_false_r.
    - cbn [andb]. apply IH. destruct I as [->|I]; [|exact I]. now rewrite (proj2 (dataset_eq d d) eq_refl) in Ed.
  Qed.

  (** Entries there were stay. *)
  Lemma written_keeps : forall c (a : analysis) ds parts d k es,
    c d k = Some es -> written dataset_eqb key_eqb hash c a ds parts d k = Some es.
  Proof.
    intros c a ds. induction ds as [|e ds IH]; intros parts d k es E; [exact E|].
    destruct parts as [|x parts]; [exact E|]. cbn [written].
    destruct (dataset_eqb e d) eqn:Ee; [|now apply IH]. apply dataset_eq in Ee. subst e.
    destruct (key_eqb (ekey a) k) eqn:Ek; [|now apply IH]. apply key_eq in Ek. subst k. rewrite E, !andb_false_r. now apply IH.
  Qed.
  Lemma run_keeps : forall c (a : analysis) outs c' d k es,
    run dataset_eqb key_eqb hash batches c a outs c' -> c d k = Some es -> c' d k = Some es.
  Proof.
    intros c a outs c' d k es [accs [merged [R _]]] E. destruct (fine_grained a).
    - destruct R as [parts [_ [_ ->]]]. now apply written_keeps.
    - destruct R as [-> _]. exact E.
  Qed.
  (** Every analysis can be run. *)
  Lemma locals_exist : forall c (a : analysis) ds, exists parts, local_merges hash batches c a ds parts.
  Proof.
    intros c a ds. induction ds as [|d ds [parts IH]]; [now exists []|].
    assert (E : exists x, local_merge hash batches c a d x).
    { unfold local_merge. destruct (c d (ekey a)) as [es|]; [now exists (map (dec a) es)|].
      exists (merge a (make a (batches (inputs a) d))), (make a (batches (inputs a) d)).
      split; [exists (batches (inputs a) d) | exists (make a (batches (inputs a) d))]; split; reflexivity. }
    destruct E as [x X]. exists (x :: parts). now split.
  Qed.
  Lemma run_exists : forall c (a : analysis), exists outs c', run dataset_eqb key_eqb hash batches c a outs c'.
  Proof.
    intros c a.
    assert (E : exists accs c', if fine_grained a
      then exists parts, local_merges hash batches c a (datasets a) parts /\ accs = concat parts /\ c' = written dataset_eqb key_eqb hash c a (datasets a) parts
      else c' = c /\ exists made, stage (make_accumulators (analyzer a)) (flat_map (batches (inputs a)) (datasets a)) made /\
                                  stage (merge_accumulators (analyzer a)) made accs).
    { destruct (fine_grained a).
      - destruct (locals_exist c a (datasets a)) as [parts L]. exists (concat parts), (written dataset_eqb key_eqb hash c a (datasets a) parts), parts. auto.
      - exists (merge a (make a (flat_map (batches (inputs a)) (datasets a)))), c. split; [reflexivity|].
        exists (make a (flat_map (batches (inputs a)) (datasets a))).
        split; eexists; split; reflexivity. }
    destruct E as [accs [c' E]].
    exists (apply (extract_output (analyzer a)) (merge a accs)), c', accs, (merge a accs).
    split; [exact E|]. split; eexists; split; reflexivity.
  Qed.
End analyzers.

(** A dataset with an entry is not read. *)
Section reading.
  Context {batch acc out entry source dataset key : Type}.
  Context (dataset_eqb : dataset -> dataset -> bool) (key_eqb : key -> key -> bool) (hash : description source -> key).
  Lemma locals_agree : forall batches batches' c (a : analysis batch acc out entry source dataset) ds parts,
    (forall d, In d ds -> c d (entry_key hash a) = None -> batches (inputs a) d = batches' (inputs a) d) ->
    local_merges hash batches c a ds parts -> local_merges hash batches' c a ds parts.
  Proof.
    intros b b' c a ds. induction ds as [|d ds IH]; intros parts A L; destruct parts as [|x parts]; try exact L.
    destruct L as [L1 L2]. split.
    - unfold local_merge in *. destruct (c d (entry_key hash a)) eqn:E; [exact L1|].
      rewrite <- (A d (or_introl eq_refl) E). exact L1.
    - apply IH; [|exact L2]. intros e I. apply A. now right.
  Qed.
  Lemma run_agree : forall batches batches' c (a : analysis batch acc out entry source dataset) outs c',
    fine_grained a = true ->
    (forall d, In d (datasets a) -> c d (entry_key hash a) = None -> batches (inputs a) d = batches' (inputs a) d) ->
    run dataset_eqb key_eqb hash batches c a outs c' -> run dataset_eqb key_eqb hash batches' c a outs c'.
  Proof.
    intros b b' c a outs c' F A [accs [merged [R M]]]. exists accs, merged. split; [|exact M]. rewrite F in *.
    destruct R as [parts [L R]]. exists parts. split; [|exact R]. now apply (locals_agree b).
  Qed.
End reading.
