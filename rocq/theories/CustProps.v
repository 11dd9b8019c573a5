(** C86: analyzers made of PTransforms of the user. *)
From Coq Require Import String List Bool Arith Permutation Lia.
From Verif Require Import CustModel CustSpec CustProofs CustExample.
Import ListNotations.

(** A PTransform gets every batch once, and the tensors are the elements of the PCollections it returns, in order,
    one for each type and shape that was given. *)
Theorem c86_plain : forall A B (ptransform : list A -> returned B) n batches vs,
  run_plain ptransform n batches (Some vs) <->
  exists order, Permutation order batches /\ List.length vs = n /\ returns (ptransform order) vs.
Proof.
  intros A B p n bs vs. unfold run_plain. split.
  - intros [o [P E]]. exists o. split; [exact P|]. destruct (p o) as [x|xs|xs]; cbn [visited] in E.
    + destruct n as [|[|n]]; cbn in E; try discriminate. destruct x as [|b [|b' x]]; cbn in E; try discriminate.
      injection E as ->. split; [reflexivity | constructor].
    + destruct (length xs =? n) eqn:L; [|discriminate]. apply Nat.eqb_eq in L.
      symmetry in E. apply elements_all in E. subst xs. rewrite map_length in L. split; [exact L | constructor].
    + destruct (n <=? length xs) eqn:L; [|discriminate]. apply Nat.leb_le in L.
      symmetry in E. apply elements_all in E.
      assert (N : length vs = n). { rewrite <- (map_length (fun v => [v])), <- E, firstn_length. lia. }
      split; [exact N|]. rewrite <- (firstn_skipn n xs), E. constructor.
  - intros [o [P [N R]]]. exists o. split; [exact P|]. destruct R as [v|vs|vs more]; cbn [visited].
    + cbn in N. subst n. reflexivity.
    + rewrite map_length, (proj2 (Nat.eqb_eq _ _) N). symmetry. now apply elements_all.
    + rewrite app_length, map_length, <- N. rewrite (proj2 (Nat.leb_le _ _)) by lia.
      rewrite firstn_app, map_length, Nat.sub_diag, firstn_O, app_nil_r.
      rewrite <- (map_length (fun v => [v]) vs) at 1. rewrite firstn_all. symmetry. now apply elements_all.
Qed.
Print Assumptions c86_plain.

Example c86_plain_applies :
  run_plain (fun xs : list (list nat) => Tuple [[sums (concat xs)]; [length (concat xs)]]) 2 (days 0 0) (Some [9; 3]).
Proof. exists (days 0 0). split; [apply Permutation_refl | reflexivity]. Qed.

(** Whatever analyses were run before, of this or other analyzers, with caches that they left, and whatever
    datasets the data is in: if every analyzer is what the documentation asks for, and analyzers that have the same
    cache key do the same with the same inputs, the output of each analysis is that of its analyzer on all its data. *)
Theorem c86_history : forall batch acc out entry source dataset key (dataset_eqb : dataset -> dataset -> bool) (key_eqb : key -> key -> bool)
    (hash : description source -> key) (batches : source -> dataset -> list batch)
    (analyses : list (analysis batch acc out entry source dataset)) values,
  (forall d d', dataset_eqb d d' = true <-> d = d') -> (forall k k', key_eqb k k' = true <-> k = k') ->
  (forall a, In a analyses -> correct (analyzer a)) ->
  (forall a a', In a analyses -> In a' analyses -> entry_key hash a = entry_key hash a' -> alike a a') ->
  history dataset_eqb key_eqb hash batches no_cache analyses values ->
  forall i a v, nth_error analyses i = Some a -> nth_error values i = Some v ->
  exists outs, right_output batches a outs /\ v = the_element outs.
Proof.
  intros batch acc out entry source dataset key deq keq hash bs as_ vs D K Co AL H.
  apply (history_right deq keq hash bs D K as_ [] no_cache vs Co).
  - cbn [app]. exact AL.
  - intros d k es E. discriminate.
  - exact H.
Qed.
Print Assumptions c86_history.

Example c86_history_applies :
  let analyses := [analysis_of (mean 1 6) true [0]; analysis_of (mean 2 9) true [0]; analysis_of (mean 1 6) true [0; 1]; analysis_of (mean 1 6) false [0; 1]] in
  (forall a, In a analyses -> correct (analyzer a)) /\
  (forall a a', In a analyses -> In a' analyses -> entry_key (fun d => d) a = entry_key (fun d => d) a' -> alike a a') /\
  history Nat.eqb key_eqb (fun d => d) days no_cache analyses [Some 3; Some 13; Some 5; Some 5].
Proof.
  assert (S : forall A B (p : ptransform A B) x, stage p x (apply p x)) by (intros; eexists; split; reflexivity).
  split; [|split].
  - cbn [In]. intros a [<-|[<-|[<-|[<-|[]]]]]; apply mean_correct.
  - cbn [In]. intros a a' [<-|[<-|[<-|[<-|[]]]]] [<-|[<-|[<-|[<-|[]]]]]; try discriminate; intros _; repeat split.
  - cbn [history]. repeat split.
    + eexists [3], _. split; [|split; [reflexivity|]].
      { exists [(9, 3)], [(9, 3)]. split; [|split; eexists; split; reflexivity].
        exists [[(9, 3)]]. split; [|split; reflexivity]. split; [|exact Logic.I].
        exists [(9, 3)]. split; eexists; split; try reflexivity. }
      eexists [13], _. split; [|split; [reflexivity|]].
      { exists [(41, 3)], [(41, 3)]. split; [|split; eexists; split; reflexivity].
        exists [[(41, 3)]]. split; [|split; reflexivity]. split; [|exact Logic.I].
        exists [(41, 3)]. split; eexists; split; try reflexivity. }
      eexists [5], _. split; [|split; [reflexivity|]].
      { exists [(9, 3); (21, 3)], [(30, 6)]. split; [|split; eexists; split; reflexivity].
        exists [[(9, 3)]; [(21, 3)]]. split; [|split; reflexivity]. split; [reflexivity|]. split; [|exact Logic.I].
        exists [(21, 3)]. split; eexists; split; try reflexivity. }
      eexists [5], _. split; [|split; [reflexivity | exact Logic.I]].
      { exists [(30, 6)], [(30, 6)]. split; [|split; eexists; split; reflexivity].
        split; [reflexivity|]. exists [(30, 6)]. split; eexists; split; try reflexivity. }
Qed.

(** Every analysis can be run; there is one value only, however the data is divided into datasets and
    whether there is a cache or not. *)
Theorem c86_division : forall batch acc out entry source dataset key (dataset_eqb : dataset -> dataset -> bool) (key_eqb : key -> key -> bool)
    (hash : description source -> key) (batches : source -> dataset -> list batch)
    (a a' : analysis batch acc out entry source dataset),
  (forall d d', dataset_eqb d d' = true <-> d = d') -> (forall k k', key_eqb k k' = true <-> k = k') ->
  correct (analyzer a) -> analyzer a' = analyzer a ->
  Permutation (flat_map (batches (inputs a)) (datasets a)) (flat_map (batches (inputs a')) (datasets a')) ->
  (exists outs c, run dataset_eqb key_eqb hash batches no_cache a outs c) /\
  forall outs outs' c c', run dataset_eqb key_eqb hash batches no_cache a outs c -> run dataset_eqb key_eqb hash batches no_cache a' outs' c' -> outs = outs'.
Proof.
  intros batch acc out entry source dataset key deq keq hash bs a a' D K Co E P. split; [apply run_exists|].
  assert (S : sound hash bs ([] : list (analysis batch acc out entry source dataset)) no_cache) by (intros d k es X; discriminate).
  assert (R1 : forall outs c, run deq keq hash bs no_cache a outs c -> right_output bs a outs).
  { intros outs c R. now apply (run_right deq keq hash bs D K [] no_cache a outs c Co S (fun x F => False_ind _ F)) in R. }
  assert (R2 : forall outs c, run deq keq hash bs no_cache a' outs c -> right_output bs a' outs).
  { assert (Co' : correct (analyzer a')) by now rewrite E.
    intros outs c R. now apply (run_right deq keq hash bs D K [] no_cache a' outs c Co' S (fun x F => False_ind _ F)) in R. }
  intros outs outs' c c' H1 H2. apply R1 in H1. apply R2 in H2. rewrite H1, H2, E. unfold value_of.
  destruct Co as [_ [_ [_ [[_ C2] _]]]]. now rewrite (C2 _ _ P).
Qed.
Print Assumptions c86_division.

Example c86_division_applies :
  correct (analyzer (analysis_of (mean 1 6) true [0; 1])) /\
  Permutation (flat_map (days 0) [0; 1]) (flat_map (days 0) [1; 0]) /\
  run Nat.eqb key_eqb (fun d => d) days no_cache (analysis_of (mean 1 6) true [0; 1]) [5] (written Nat.eqb key_eqb (fun d => d) no_cache (analysis_of (mean 1 6) true [0; 1]) [0; 1] [[(9, 3)]; [(21, 3)]]).
Proof.
  split; [apply mean_correct|]. split; [cbn; apply (Permutation_app_comm [[1; 2]; [6]] [[10]; [4; 7]])|].
  exists [(9, 3); (21, 3)], [(30, 6)]. split; [|split; eexists; split; reflexivity].
  exists [[(9, 3)]; [(21, 3)]]. split; [|split; reflexivity]. split; [|split; [|exact Logic.I]].
  - exists [(9, 3)]. split; eexists; split; reflexivity.
  - exists [(21, 3)]. split; eexists; split; reflexivity.
Qed.

(** A dataset that an earlier analysis with the same key has cached need not be there any more: the output is that of
    the data it had. *)
Theorem c86_not_read : forall batch acc out entry source dataset key (dataset_eqb : dataset -> dataset -> bool) (key_eqb : key -> key -> bool)
    (hash : description source -> key) (batches batches' : source -> dataset -> list batch)
    (a a' : analysis batch acc out entry source dataset) outs c outs' c',
  (forall d d', dataset_eqb d d' = true <-> d = d') -> (forall k k', key_eqb k k' = true <-> k = k') ->
  correct (analyzer a) -> correct (analyzer a') -> entry_key hash a' = entry_key hash a -> alike a a' ->
  with_cache a = true -> first_phase a = true -> with_cache a' = true -> first_phase a' = true -> datasets a <> [] -> datasets a' <> [] ->
  (forall d, In d (datasets a') -> batches' (inputs a') d = batches (inputs a') d \/ In d (datasets a) /\ is_cached a d = true) ->
  run dataset_eqb key_eqb hash batches no_cache a outs c -> run dataset_eqb key_eqb hash batches' c a' outs' c' ->
  right_output batches a' outs'.
Proof.
  intros batch acc out entry source dataset key deq keq hash bs bs' a a' outs c outs' c' D K Co Co' EK AL W F W' F' N N' B R R'.
  assert (Fa : fine_grained a = true) by (unfold fine_grained; rewrite W, F; now destruct (datasets a)).
  assert (Fa' : fine_grained a' = true) by (unfold fine_grained; rewrite W', F'; now destruct (datasets a')).
  assert (S : sound hash bs ([] : list (analysis batch acc out entry source dataset)) no_cache) by (intros d k es X; discriminate).
  assert (NE := entries_of_run deq keq hash bs D K [] no_cache a outs c Co S (fun x X => False_ind _ X) R Fa).
  apply (run_right deq keq hash bs D K [] no_cache a outs c Co S (fun x X => False_ind _ X)) in R. destruct R as [_ S1].
  apply (run_agree deq keq hash bs' bs) in R'; [|exact Fa'|].
  - apply (run_right deq keq hash bs D K [a] c a' outs' c' Co' S1) in R'; [exact (proj1 R')|].
    intros x [<-|[]] _. exact AL.
  - intros d I E. destruct (B d I) as [X|[I1 C1]]; [exact X|]. exfalso. apply (NE d I1 C1). now rewrite <- EK.
Qed.
Print Assumptions c86_not_read.

Example c86_not_read_applies :
  let a := analysis_of (mean 1 6) true [0] in let a' := analysis_of (mean 1 6) true [0; 1] in
  let gone (s d : nat) := match d with 0 => [] | _ => days s d end in
  let c := written Nat.eqb key_eqb (fun d => d) no_cache a [0] [[(9, 3)]] in
  run Nat.eqb key_eqb (fun d => d) days no_cache a [3] c /\
  exists c', run Nat.eqb key_eqb (fun d => d) gone c a' [5] c'.
Proof.
  cbn zeta. split.
  - exists [(9, 3)], [(9, 3)]. split; [|split; eexists; split; reflexivity].
    exists [[(9, 3)]]. split; [|split; reflexivity]. split; [|exact Logic.I].
    exists [(9, 3)]. split; eexists; split; reflexivity.
  - eexists. exists [(9, 3); (21, 3)], [(30, 6)]. split; [|split; eexists; split; reflexivity].
    exists [[(9, 3)]; [(21, 3)]]. split; [|split; reflexivity]. split; [reflexivity|]. split; [|exact Logic.I].
    exists [(21, 3)]. split; eexists; split; reflexivity.
Qed.

(** A call is accepted, and returns a tensor for each type, exactly if the lists that were given have the same
    length and an analyzer with cache has at most one output. *)
Theorem c86_call : forall dtypes shapes assets cacheable n,
  ptransform_analyzer dtypes shapes assets cacheable = Outputs n <->
  dtypes = n /\ shapes = n /\ (forall k, assets = Some k -> k = n) /\ (cacheable = true -> n <= 1).
Proof.
  intros t s as_ c n. unfold ptransform_analyzer.
  destruct (Nat.eqb_spec t s) as [->|N]; cbn [negb]; [|split; [discriminate | intros [-> [-> _]]; now destruct N]].
  assert (A : match as_ with Some k => negb (k =? s) | None => false end = false <-> forall k, as_ = Some k -> k = s).
  { destruct as_ as [k|]; [|split; [intros _ k X; discriminate | reflexivity]].
    rewrite negb_false_iff, Nat.eqb_eq. split; [intros -> k' [= <-]; reflexivity | intros H; now apply H]. }
  destruct (match as_ with Some k => negb (k =? s) | None => false end).
  - split; [discriminate|]. intros [-> [_ [X _]]]. apply A in X. discriminate.
  - destruct c; cbn [andb].
    + destruct (Nat.ltb_spec 1 s).
      * split; [discriminate|]. intros [-> [_ [_ X]]]. specialize (X eq_refl). lia.
      * split; [intros [= <-]; repeat split; [now apply A | intros; lia] | intros [-> _]; reflexivity].
    + split; [intros [= <-]; repeat split; [now apply A | discriminate] | intros [-> _]; reflexivity].
Qed.
Print Assumptions c86_call.

Example c86_call_applies : ptransform_analyzer 2 2 (Some 2) false = Outputs 2 /\ ptransform_analyzer 1 1 None true = Outputs 1 /\ ptransform_analyzer 1 2 None true = Raises.
Proof. repeat split. Qed.

(** Finding: an analyzer with cache cannot have two outputs, although ptransform_analyzer takes lists of types and shapes: building
    the analysis fails, also without a cache. *)
Theorem c86_two_outputs_refuted : exists n, n = 2 /\ ptransform_analyzer n n None true = Fails /\ ptransform_analyzer n n None false = Outputs n.
Proof. exists 2. repeat split. Qed.
Print Assumptions c86_two_outputs_refuted.

(** Finding: the condition that the documentation says must hold does not ensure correctness, not even with a merge
    that makes one accumulator and does not depend on the order: accumulators are merged twice, so the output depends on how the data is
    divided into datasets and on whether there is a cache. *)
Theorem c86_condition_refuted : exists c : cacheable (list nat) (nat * nat) nat (nat * nat),
  documented_condition (apply (make_accumulators c)) (apply (merge_accumulators c)) /\
  one_accumulator (apply (merge_accumulators c)) /\ commutative (apply (make_accumulators c)) (apply (merge_accumulators c)) /\
  round_trips (encode (cache_coder c)) (decode (cache_coder c)) /\
  (exists c', run Nat.eqb key_eqb (fun d => d) days no_cache (analysis_of c false [0; 1]) [1] c') /\
  (exists c', run Nat.eqb key_eqb (fun d => d) days no_cache (analysis_of c true [0; 1]) [2] c') /\
  right_output days (analysis_of c true [0; 1]) [4].
Proof.
  exists counting. split; [|split; [|split; [|split; [|split; [|split]]]]].
  - intros parts. cbn. now rewrite concat_map.
  - intros xs. eexists. reflexivity.
  - split; intros xs ys P; cbn; [|rewrite !map_length]; now rewrite (Permutation_length P).
  - intros [x y]. reflexivity.
  - eexists. exists [(4, 1)], [(1, 1)]. split; [|split; eexists; split; reflexivity].
    split; [reflexivity|]. exists [(1, 1); (1, 1); (1, 1); (1, 1)]. split; eexists; split; reflexivity.
  - eexists. exists [(2, 1); (2, 1)], [(2, 1)]. split; [|split; eexists; split; reflexivity].
    exists [[(2, 1)]; [(2, 1)]]. split; [|split; reflexivity]. split; [|split; [|exact Logic.I]].
    + exists [(1, 1); (1, 1)]. split; eexists; split; reflexivity.
    + exists [(1, 1); (1, 1)]. split; eexists; split; reflexivity.
  - reflexivity.
Qed.
Print Assumptions c86_condition_refuted.

(** Finding: what an analyzer wrote is not found by the same analyzer made again, as in the next process: the key has the
    addresses of its PTransforms. *)
Theorem c86_restart_refuted : forall hash : description nat -> key, (forall d d', hash d = hash d' -> d = d') ->
  exists (a a' : analysis (list nat) (nat * nat) nat (nat * nat) nat nat) c,
  alike a a' /\ extract_output (analyzer a) = extract_output (analyzer a') /\ label a = label a' /\ datasets a = datasets a' /\
  class (make_accumulators (analyzer a)) = class (make_accumulators (analyzer a')) /\
  ptransform_label (make_accumulators (analyzer a)) = ptransform_label (make_accumulators (analyzer a')) /\
  run Nat.eqb key_eqb hash days no_cache a [3] c /\ c 0 (entry_key hash a) <> None /\ c 0 (entry_key hash a') = None /\
  exists other c', run Nat.eqb key_eqb hash other c a' [7] c'.
Proof.
  intros hash H. exists (analysis_of (mean 1 6) true [0]), (analysis_of (mean 1 9) true [0]),
    (written Nat.eqb key_eqb hash no_cache (analysis_of (mean 1 6) true [0]) [0] [[(9, 3)]]).
  assert (K : entry_key hash (analysis_of (mean 1 6) true [0]) <> entry_key hash (analysis_of (mean 1 9) true [0])).
  { intros E. apply H in E. discriminate. }
  split; [repeat split|]. repeat (split; [reflexivity|]). split; [|split; [|split]].
  - exists [(9, 3)], [(9, 3)]. split; [|split; eexists; split; reflexivity].
    exists [[(9, 3)]]. split; [|split; reflexivity]. split; [|exact Logic.I].
    exists [(9, 3)]. split; eexists; split; reflexivity.
  - cbn [written]. rewrite (proj2 (key_eq _ _) eq_refl). discriminate.
  - cbn [written]. destruct (key_eqb (entry_key hash (analysis_of (mean 1 6) true [0])) (entry_key hash (analysis_of (mean 1 9) true [0]))) eqn:E; [|reflexivity].
    apply key_eq in E. now destruct K.
  - exists (fun _ _ => [[7]]). eexists. exists [(7, 1)], [(7, 1)]. split; [|split; eexists; split; reflexivity].
    exists [[(7, 1)]]. split; [|split; reflexivity]. split; [|exact Logic.I].
    unfold local_merge. cbn [written].
    destruct (key_eqb (entry_key hash (analysis_of (mean 1 6) true [0])) (entry_key hash (analysis_of (mean 1 9) true [0]))) eqn:E.
    + apply key_eq in E. now destruct K.
    + cbn [andb Nat.eqb no_cache]. exists [(7, 1)]. split; eexists; split; reflexivity.
Qed.
Print Assumptions c86_restart_refuted.

(** Finding: what a PTransform was made with is not part of the key.  An analyzer of the same class and with the same
    address as that of an earlier analysis (in another process, or after that was freed) is given the accumulators of that one. *)
Theorem c86_parameters_refuted : forall hash : description nat -> key, exists (a a' : analysis (list nat) (nat * nat) nat (nat * nat) nat nat) c c',
  correct (analyzer a) /\ correct (analyzer a') /\ datasets a = [0] /\ datasets a' = [0] /\
  run Nat.eqb key_eqb hash days no_cache a [3] c /\ run Nat.eqb key_eqb hash days c a' [3] c' /\ right_output days a' [13].
Proof.
  intros hash. exists (analysis_of (mean 1 6) true [0]), (analysis_of (mean 2 6) true [0]),
    (written Nat.eqb key_eqb hash no_cache (analysis_of (mean 1 6) true [0]) [0] [[(9, 3)]]).
  eexists. split; [apply mean_correct|]. split; [apply mean_correct|]. split; [reflexivity|]. split; [reflexivity|].
  split; [|split].
  - exists [(9, 3)], [(9, 3)]. split; [|split; eexists; split; reflexivity].
    exists [[(9, 3)]]. split; [|split; reflexivity]. split; [|exact Logic.I].
    exists [(9, 3)]. split; eexists; split; reflexivity.
  - exists [(9, 3)], [(9, 3)]. split; [|split; eexists; split; reflexivity].
    exists [[(9, 3)]]. split; [|split; reflexivity]. split; [|exact Logic.I].
    unfold local_merge. cbn [written].
    change (entry_key hash (analysis_of (mean 2 6) true [0])) with (entry_key hash (analysis_of (mean 1 6) true [0])).
    rewrite (proj2 (key_eq _ _) eq_refl). reflexivity.
  - reflexivity.
Qed.
Print Assumptions c86_parameters_refuted.
