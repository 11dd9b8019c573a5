(** C84: tft.scale_by_min_max and tft.scale_by_min_max_per_key in single precision, from the batches to the scaled values,
    for any schedule.  [rows_with], [takes_max], [unit_place] and [bound_place] (FmmSpec): the values of a key, a function
    that returns the greatest number, and where a scaled value should be. *)
From Coq Require Import String List ZArith Reals Bool Permutation Lra Lia.
From Flocq Require Import Core BinarySingleNaN.
From Verif Require Import CombineModel MeanVarModel PerKeyModel IeeeModel IeeeSpec IeeeProofs IeeeScaleProofs IeeeColumnProofs IeeeExample
  FzkProofs FmmModel FmmSpec FmmProofs FmmExample.
Import ListNotations.
Local Open Scope R_scope.

Section c84.
Variable sigmoid : f32 -> f32.

(** tft.scale_to_0_1: a value between the least and the greatest of a column with two different single precision numbers
    becomes a number of [0, 1], the least exactly 0, the greatest exactly 1, each within 5 units of the 24th binary
    place of its exact position. *)
Theorem c84_unit (s : sched (sched (list number))) (lo hi x : number) :
  let column := concat (batches_of s) in
  (forall v, In v column -> ordinary v) -> least lo column -> greatest hi column -> single (val lo) < single (val hi) ->
  ordinary x -> val lo <= val x <= val hi ->
  exists r, scale_over sigmoid zero64 one64 s x = Some r /\ unit_place lo hi x r.
Proof.
  intros column O L H D Ox X. destruct unit_bounds as (B1 & B2 & E1 & E2). unfold scale_over.
  rewrite accepted by (assumption || (rewrite E1, E2; lra)).
  pose proof (of_ends s lo hi O L H) as EN. destruct (min_and_max_of _) as [mn mx] eqn:E. eexists. split; [reflexivity|].
  apply (out_unit sigmoid zero64 one64 (mn, mx) lo hi); try assumption; [rewrite E1, E2; lra|split; assumption].
Qed.

(** tft.scale_by_min_max between any two bounds: no value falls under the (single precision) lower bound, the least value
    becomes it, and every value is within a relative 2^-19 of its exact place. *)
Theorem c84_scaled (output_min output_max : f64) (s : sched (sched (list number))) (lo hi x : number) :
  let column := concat (batches_of s) in
  bound output_min -> bound output_max -> B2R output_min < B2R output_max ->
  (forall v, In v column -> ordinary v) -> least lo column -> greatest hi column -> single (val lo) < single (val hi) ->
  ordinary x -> val lo <= val x <= val hi ->
  exists r, scale_over sigmoid output_min output_max s x = Some r /\
    bound_place output_min output_max (position lo hi x) r /\ (val x = val lo -> B2R r = single (B2R output_min)).
Proof.
  intros column B1 B2 E1 O L H D Ox X. unfold scale_over. rewrite accepted by assumption.
  pose proof (of_ends s lo hi O L H) as EN. destruct (min_and_max_of _) as [mn mx] eqn:E. eexists. split; [reflexivity|].
  apply (out_place sigmoid output_min output_max (mn, mx) lo hi); try assumption. split; assumption.
Qed.

(** Scaling keeps the order. *)
Theorem c84_order (output_min output_max : f64) (s : sched (sched (list number))) (lo hi x y : number) :
  let column := concat (batches_of s) in
  bound output_min -> bound output_max -> B2R output_min < B2R output_max ->
  (forall v, In v column -> ordinary v) -> least lo column -> greatest hi column -> single (val lo) < single (val hi) ->
  ordinary x -> ordinary y -> val lo <= val x -> val x <= val y -> val y <= val hi ->
  exists r t, scale_over sigmoid output_min output_max s x = Some r /\ scale_over sigmoid output_min output_max s y = Some t /\
    B2R r <= B2R t.
Proof.
  intros column B1 B2 E1 O L H D Ox Oy X XY Y. unfold scale_over. rewrite accepted by assumption.
  pose proof (of_ends s lo hi O L H) as EN. destruct (min_and_max_of _) as [mn mx] eqn:E. do 2 eexists. do 2 (split; [reflexivity|]).
  apply (out_mono sigmoid output_min output_max (mn, mx) lo hi B1 B2 E1); try assumption; split; try assumption; split; lra.
Qed.

(** If all values of the column are one single precision number, the place of a value is its sigmoid. *)
Theorem c84_constant (output_min output_max : f64) (s : sched (sched (list number))) (lo hi x : number) :
  let column := concat (batches_of s) in
  bound output_min -> bound output_max -> B2R output_min < B2R output_max -> sigmoid_like sigmoid ->
  (forall v, In v column -> ordinary v) -> least lo column -> greatest hi column -> single (val lo) = single (val hi) ->
  ordinary x ->
  exists r, scale_over sigmoid output_min output_max s x = Some r /\
    bound_place output_min output_max (B2R (sigmoid (to_f32 x))) r.
Proof.
  intros column B1 B2 E1 S O L H D Ox. unfold scale_over. rewrite accepted by assumption.
  pose proof (of_ends s lo hi O L H) as EN. destruct (min_and_max_of _) as [mn mx] eqn:E. eexists. split; [reflexivity|].
  apply (out_constant sigmoid output_min output_max (mn, mx) lo hi B1 B2 E1); assumption.
Qed.

(** So it is if the column has no values. *)
Theorem c84_empty (output_min output_max : f64) (s : sched (sched (list number))) (x : number) :
  bound output_min -> bound output_max -> B2R output_min < B2R output_max -> sigmoid_like sigmoid ->
  concat (batches_of s) = [] -> ordinary x ->
  exists r, scale_over sigmoid output_min output_max s x = Some r /\
    bound_place output_min output_max (B2R (sigmoid (to_f32 x))) r.
Proof.
  intros B1 B2 E1 S N Ox. unfold scale_over. rewrite accepted by assumption. rewrite (of_none s N). eexists. split; [reflexivity|].
  change (scale32 _ _ _ _ _ _) with (place output_min output_max (sigmoid (to_f32 x))).
  apply sigmoid_place; try assumption. apply (to_f32_ok x Ox).
Qed.

(** * Per key *)
Variable segment_max : list f32 -> f32.
Hypothesis segment_max_ok : takes_max segment_max.

(** tft.scale_to_0_1_per_key. *)
Theorem c84_unit_per_key (bs : list (list (string * number))) (sch : string -> sched (sched (f32 * f32))) (keys : list string)
    (k : string) (lo hi x : number) :
  let column := rows_with k (concat bs) in
  NoDup keys -> In k keys ->
  Permutation (batches_of (sch k)) (inputs_of_key k (map (batch32_per_key segment_max) bs)) ->
  (forall v, In v column -> ordinary v) -> least lo column -> greatest hi column -> single (val lo) < single (val hi) ->
  ordinary x -> val lo <= val x <= val hi ->
  let (vocab, results) := per_key_analysis key_min_and_max32 sch keys in
  exists r, scale_per_key32 sigmoid zero64 one64 vocab results k x = Some r /\ unit_place lo hi x r.
Proof.
  intros column ND K HP O L H D Ox X. destruct unit_bounds as (B1 & B2 & E1 & E2).
  pose proof (entries key_min_and_max32 sch keys k (fun _ => (zero32, zero32)) ND) as EN.
  destruct (per_key_analysis _ _ _) as [vocab results]. destruct EN as [EN _]. unfold scale_per_key32.
  rewrite accepted by (assumption || (rewrite E1, E2; lra)). rewrite (EN K). eexists. split; [reflexivity|].
  apply out_unit; try assumption; [rewrite E1, E2; lra|exact (key_ends segment_max bs k (sch k) lo hi segment_max_ok HP O L H)|split; assumption].
Qed.

(** tft.scale_by_min_max_per_key. *)
Theorem c84_scaled_per_key (output_min output_max : f64) (bs : list (list (string * number))) (sch : string -> sched (sched (f32 * f32)))
    (keys : list string) (k : string) (lo hi x : number) :
  let column := rows_with k (concat bs) in
  NoDup keys -> In k keys ->
  Permutation (batches_of (sch k)) (inputs_of_key k (map (batch32_per_key segment_max) bs)) ->
  bound output_min -> bound output_max -> B2R output_min < B2R output_max ->
  (forall v, In v column -> ordinary v) -> least lo column -> greatest hi column -> single (val lo) < single (val hi) ->
  ordinary x -> val lo <= val x <= val hi ->
  let (vocab, results) := per_key_analysis key_min_and_max32 sch keys in
  exists r, scale_per_key32 sigmoid output_min output_max vocab results k x = Some r /\
    bound_place output_min output_max (position lo hi x) r /\ (val x = val lo -> B2R r = single (B2R output_min)).
Proof.
  intros column ND K HP B1 B2 E1 O L H D Ox X.
  pose proof (entries key_min_and_max32 sch keys k (fun _ => (zero32, zero32)) ND) as EN.
  destruct (per_key_analysis _ _ _) as [vocab results]. destruct EN as [EN _]. unfold scale_per_key32.
  rewrite accepted by assumption. rewrite (EN K). eexists. split; [reflexivity|].
  apply out_place; try assumption; [exact (key_ends segment_max bs k (sch k) lo hi segment_max_ok HP O L H)|split; assumption].
Qed.

Theorem c84_order_per_key (output_min output_max : f64) (bs : list (list (string * number))) (sch : string -> sched (sched (f32 * f32)))
    (keys : list string) (k : string) (lo hi x y : number) :
  let column := rows_with k (concat bs) in
  NoDup keys -> In k keys ->
  Permutation (batches_of (sch k)) (inputs_of_key k (map (batch32_per_key segment_max) bs)) ->
  bound output_min -> bound output_max -> B2R output_min < B2R output_max ->
  (forall v, In v column -> ordinary v) -> least lo column -> greatest hi column -> single (val lo) < single (val hi) ->
  ordinary x -> ordinary y -> val lo <= val x -> val x <= val y -> val y <= val hi ->
  let (vocab, results) := per_key_analysis key_min_and_max32 sch keys in
  exists r t, scale_per_key32 sigmoid output_min output_max vocab results k x = Some r /\
    scale_per_key32 sigmoid output_min output_max vocab results k y = Some t /\ B2R r <= B2R t.
Proof.
  intros column ND K HP B1 B2 E1 O L H D Ox Oy X XY Y.
  pose proof (entries key_min_and_max32 sch keys k (fun _ => (zero32, zero32)) ND) as EN.
  destruct (per_key_analysis _ _ _) as [vocab results]. destruct EN as [EN _]. unfold scale_per_key32.
  rewrite accepted by assumption. rewrite (EN K). do 2 eexists. do 2 (split; [reflexivity|]).
  apply (out_mono sigmoid output_min output_max (key_min_and_max32 (sch k)) lo hi B1 B2 E1); try assumption;
    [exact (key_ends segment_max bs k (sch k) lo hi segment_max_ok HP O L H)| |]; split; try assumption; split; lra.
Qed.

(** If all values of the key are one single precision number, the place of a value is its sigmoid. *)
Theorem c84_constant_per_key (output_min output_max : f64) (bs : list (list (string * number))) (sch : string -> sched (sched (f32 * f32)))
    (keys : list string) (k : string) (lo hi x : number) :
  let column := rows_with k (concat bs) in
  NoDup keys -> In k keys ->
  Permutation (batches_of (sch k)) (inputs_of_key k (map (batch32_per_key segment_max) bs)) ->
  bound output_min -> bound output_max -> B2R output_min < B2R output_max -> sigmoid_like sigmoid ->
  (forall v, In v column -> ordinary v) -> least lo column -> greatest hi column -> single (val lo) = single (val hi) ->
  ordinary x ->
  let (vocab, results) := per_key_analysis key_min_and_max32 sch keys in
  exists r, scale_per_key32 sigmoid output_min output_max vocab results k x = Some r /\
    bound_place output_min output_max (B2R (sigmoid (to_f32 x))) r.
Proof.
  intros column ND K HP B1 B2 E1 S O L H D Ox.
  pose proof (entries key_min_and_max32 sch keys k (fun _ => (zero32, zero32)) ND) as EN.
  destruct (per_key_analysis _ _ _) as [vocab results]. destruct EN as [EN _]. unfold scale_per_key32.
  rewrite accepted by assumption. rewrite (EN K). eexists. split; [reflexivity|].
  apply (out_constant sigmoid output_min output_max (key_min_and_max32 (sch k)) lo hi B1 B2 E1); try assumption.
  exact (key_ends segment_max bs k (sch k) lo hi segment_max_ok HP O L H).
Qed.

(** So it is if the key was not seen. *)
Theorem c84_unseen (output_min output_max : f64) (sch : string -> sched (sched (f32 * f32))) (keys : list string) (k : string) (x : number) :
  NoDup keys -> keys <> [] -> ~ In k keys ->
  bound output_min -> bound output_max -> B2R output_min < B2R output_max -> sigmoid_like sigmoid -> ordinary x ->
  let (vocab, results) := per_key_analysis key_min_and_max32 sch keys in
  exists r, scale_per_key32 sigmoid output_min output_max vocab results k x = Some r /\
    bound_place output_min output_max (B2R (sigmoid (to_f32 x))) r.
Proof.
  intros ND NE NI B1 B2 E1 S Ox.
  pose proof (entries key_min_and_max32 sch keys k (fun _ => (zero32, zero32)) ND) as EN.
  destruct (per_key_analysis _ _ _) as [vocab results]. destruct EN as [_ EN]. destruct (EN NE NI) as (o & E). unfold scale_per_key32.
  rewrite accepted by assumption. rewrite E. eexists. split; [reflexivity|].
  cbn [fst snd]. change (scale32 _ _ _ _ _ _) with (place output_min output_max (sigmoid (to_f32 x))).
  apply sigmoid_place; try assumption. apply (to_f32_ok x Ox).
Qed.
End c84.

(** With infinities the result depends on the order of the batches: a batch whose only value is an infinity has the
    accumulator's initial value as its least value and is forgotten when another one follows, but not when it comes last.
    Then 2, the greatest finite value of the column, becomes 1 or 0. *)
Theorem c84_infinity_refuted : exists (s s' : sched (sched (list number))) (x : number) (r r' : f32),
  Permutation (batches_of s) (batches_of s') /\ In x (concat (batches_of s)) /\ ordinary x /\
  (forall v, In v (concat (batches_of s)) -> is_nan (to_f32 v) = false) /\
  scale_over no_sigmoid zero64 one64 s x = Some r /\ scale_over no_sigmoid zero64 one64 s' x = Some r' /\ B2R r = 1 /\ B2R r' = 0.
Proof.
  exists infinity_first, infinity_last, (NInt 2).
  destruct (scale_over no_sigmoid zero64 one64 infinity_first (NInt 2)) as [r|] eqn:E1;
    [|apply (f_equal (fun o => match o with Some _ => true | None => false end)) in E1; vm_compute in E1; discriminate E1].
  destruct (scale_over no_sigmoid zero64 one64 infinity_last (NInt 2)) as [r'|] eqn:E2;
    [|apply (f_equal (fun o => match o with Some _ => true | None => false end)) in E2; vm_compute in E2; discriminate E2].
  apply (f_equal (option_map B2SF)) in E1, E2. vm_compute in E1, E2. exists r, r'.
  split; [apply perm_swap|]. split; [cbn; tauto|]. split.
  { split; [exact Logic.I|]. cbn [val]. rewrite <- abs_IZR. apply IZR_le. lia. }
  split; [intros v V; cbn in V; destruct V as [<-|[<-|[<-|[]]]]; vm_compute; reflexivity|].
  split; [reflexivity|]. split; [reflexivity|].
  destruct r as [s1|s1| |s1 m1 e1 P1]; try discriminate E1. destruct r' as [s2|s2| |s2 m2 e2 P2]; try discriminate E2.
  injection E1 as <- <- <-. split; [unfold B2R, F2R; cbn; lra|reflexivity].
Qed.

(** * The hypotheses are met *)
Lemma ages_perm : Permutation (concat (batches_of ages_bundles)) (concat ages).
Proof. cbn. apply (Permutation_app_comm [NInt 64; NInt 18] [NInt 31; NInt 18]). Qed.

Lemma ages_column : (forall v, In v (concat (batches_of ages_bundles)) -> ordinary v) /\ least (NInt 18) (concat (batches_of ages_bundles)) /\
  greatest (NInt 64) (concat (batches_of ages_bundles)).
Proof.
  pose proof ages_perm as P. split; [|split; split].
  - intros v V. apply ages_ordinary. eapply Permutation_in; eassumption.
  - cbn. tauto.
  - intros v V. apply ages_least. eapply Permutation_in; eassumption.
  - cbn. tauto.
  - intros v V. apply ages_greatest. eapply Permutation_in; eassumption.
Qed.

Lemma int_ordinary z : (Z.abs z <= 100)%Z -> ordinary (NInt z).
Proof. intro H. split; [exact Logic.I|]. cbn [val]. rewrite <- abs_IZR. apply IZR_le. lia. Qed.

Lemma greatest_of_max : takes_max greatest_of.
Proof.
  intros [|x l] N F; [contradiction|]. assert (Fx : is_finite x = true) by (apply F; left; reflexivity).
  assert (Fl : forall y, In y l -> is_finite y = true) by (intros y Y; apply F; right; exact Y). clear N F. cbn [greatest_of].
  revert x Fx. induction l as [|y l IH]; intros x Fx; cbn [fold_left].
  - split; [exact Fx|]. split; [exists x; split; [left; reflexivity|reflexivity]|]. intros z [<-|[]]. lra.
  - assert (Fy : is_finite y = true) by (apply Fl; left; reflexivity). destruct (max_fin x y Fx Fy) as [G H].
    destruct (IH (fun z Hz => Fl z (or_intror Hz)) _ G) as (A & (z & Z1 & Z2) & M). split; [exact A|]. split.
    + destruct Z1 as [<-|Z1]; [|exists z; split; [right; right; exact Z1|exact Z2]]. rewrite Z2, H. unfold Rmax.
      destruct (Rle_dec (B2R x) (B2R y)); [exists y|exists x]; split; try reflexivity; cbn; tauto.
    + pose proof (M _ (or_introl eq_refl)) as M0. rewrite H in M0. intros w [<-|[<-|W]].
      * eapply Rle_trans; [apply Rmax_l|exact M0].
      * eapply Rle_trans; [apply Rmax_r|exact M0].
      * apply M. right. exact W.
Qed.

Lemma keyed_column : (forall v, In v (rows_with "a" (concat keyed_ages)) -> ordinary v) /\ least (NInt 18) (rows_with "a" (concat keyed_ages)) /\
  greatest (NInt 64) (rows_with "a" (concat keyed_ages)).
Proof.
  cbn. split; [|split; split].
  - intros v [<-|[<-|[<-|[<-|[]]]]]; apply int_ordinary; lia.
  - cbn. tauto.
  - intros v [<-|[<-|[<-|[<-|[]]]]]; cbn [val]; lra.
  - cbn. tauto.
  - intros v [<-|[<-|[<-|[<-|[]]]]]; cbn [val]; lra.
Qed.

Example c84_unit_applies :
  exists r, scale_over no_sigmoid zero64 one64 ages_bundles (NInt 31) = Some r /\ unit_place (NInt 18) (NInt 64) (NInt 31) r.
Proof.
  destruct ages_column as (O & L & H). apply c84_unit; try assumption; [exact ages_differ|apply int_ordinary; lia|cbn [val]; lra].
Qed.
Example c84_scaled_applies :
  exists r, scale_over no_sigmoid tenth seven_tenths ages_bundles (NInt 20) = Some r /\
    bound_place tenth seven_tenths (position (NInt 18) (NInt 64) (NInt 20)) r /\ (val (NInt 20) = val (NInt 18) -> B2R r = single (B2R tenth)).
Proof.
  destruct ages_column as (O & L & H). destruct tenth_bound as (A & B & C).
  apply c84_scaled; try assumption; [exact ages_differ|apply int_ordinary; lia|cbn [val]; lra].
Qed.
Example c84_order_applies :
  exists r t, scale_over no_sigmoid tenth seven_tenths ages_bundles (NInt 20) = Some r /\
    scale_over no_sigmoid tenth seven_tenths ages_bundles (NInt 31) = Some t /\ B2R r <= B2R t.
Proof.
  destruct ages_column as (O & L & H). destruct tenth_bound as (A & B & C).
  apply (c84_order no_sigmoid tenth seven_tenths ages_bundles (NInt 18) (NInt 64)); try assumption;
    [exact ages_differ|apply int_ordinary; lia|apply int_ordinary; lia| | |]; cbn [val]; lra.
Qed.
Example c84_constant_applies :
  exists r, scale_over no_sigmoid tenth seven_tenths (Bundle [Bundle [[NInt 7]]; Bundle [[NInt 7]]]) (NInt 7) = Some r /\
    bound_place tenth seven_tenths (B2R (no_sigmoid (to_f32 (NInt 7)))) r.
Proof.
  destruct tenth_bound as (A & B & C).
  apply (c84_constant no_sigmoid tenth seven_tenths (Bundle [Bundle [[NInt 7]]; Bundle [[NInt 7]]]) (NInt 7) (NInt 7)); try assumption.
  - exact no_sigmoid_like.
  - intros v [<-|[<-|[]]]; apply int_ordinary; lia.
  - split; [cbn; tauto|]. intros v [<-|[<-|[]]]; cbn [val snd]; lra.
  - split; [cbn; tauto|]. intros v [<-|[<-|[]]]; cbn [val snd]; lra.
  - reflexivity.
  - apply int_ordinary; lia.
Qed.
Example c84_empty_applies :
  exists r, scale_over no_sigmoid tenth seven_tenths no_rows (NInt 7) = Some r /\
    bound_place tenth seven_tenths (B2R (no_sigmoid (to_f32 (NInt 7)))) r.
Proof.
  destruct tenth_bound as (A & B & C). apply c84_empty; try assumption; [exact no_sigmoid_like|reflexivity|apply int_ordinary; lia].
Qed.

Lemma ab_nodup : NoDup ["b"; "a"]%string.
Proof. repeat constructor; cbn; intuition discriminate. Qed.

Example c84_unit_per_key_applies :
  let (vocab, results) := per_key_analysis key_min_and_max32 (key_bundle keyed_ages) ["b"; "a"]%string in
  exists r, scale_per_key32 no_sigmoid zero64 one64 vocab results "a" (NInt 31) = Some r /\ unit_place (NInt 18) (NInt 64) (NInt 31) r.
Proof.
  destruct keyed_column as (O & L & H).
  apply (c84_unit_per_key no_sigmoid greatest_of greatest_of_max keyed_ages); try assumption;
    [exact ab_nodup|cbn; tauto|cbn; rewrite ?app_nil_r; apply Permutation_refl|exact ages_differ|apply int_ordinary; lia|cbn [val]; lra].
Qed.
Example c84_scaled_per_key_applies :
  let (vocab, results) := per_key_analysis key_min_and_max32 (key_bundle keyed_ages) ["b"; "a"]%string in
  exists r, scale_per_key32 no_sigmoid tenth seven_tenths vocab results "a" (NInt 20) = Some r /\
    bound_place tenth seven_tenths (position (NInt 18) (NInt 64) (NInt 20)) r /\ (val (NInt 20) = val (NInt 18) -> B2R r = single (B2R tenth)).
Proof.
  destruct keyed_column as (O & L & H). destruct tenth_bound as (A & B & C).
  apply (c84_scaled_per_key no_sigmoid greatest_of greatest_of_max tenth seven_tenths keyed_ages); try assumption;
    [exact ab_nodup|cbn; tauto|cbn; rewrite ?app_nil_r; apply Permutation_refl|exact ages_differ|apply int_ordinary; lia|cbn [val]; lra].
Qed.
Example c84_order_per_key_applies :
  let (vocab, results) := per_key_analysis key_min_and_max32 (key_bundle keyed_ages) ["b"; "a"]%string in
  exists r t, scale_per_key32 no_sigmoid tenth seven_tenths vocab results "a" (NInt 20) = Some r /\
    scale_per_key32 no_sigmoid tenth seven_tenths vocab results "a" (NInt 31) = Some t /\ B2R r <= B2R t.
Proof.
  destruct keyed_column as (O & L & H). destruct tenth_bound as (A & B & C).
  apply (c84_order_per_key no_sigmoid greatest_of greatest_of_max tenth seven_tenths keyed_ages (key_bundle keyed_ages) ["b"; "a"]%string "a"%string
    (NInt 18) (NInt 64)); try assumption;
    [exact ab_nodup|cbn; tauto|cbn; rewrite ?app_nil_r; apply Permutation_refl|exact ages_differ|apply int_ordinary; lia|apply int_ordinary; lia| | |]; cbn [val]; lra.
Qed.
Example c84_constant_per_key_applies :
  let (vocab, results) := per_key_analysis key_min_and_max32 (key_bundle keyed_ages) ["b"; "a"]%string in
  exists r, scale_per_key32 no_sigmoid tenth seven_tenths vocab results "b" (NInt 9) = Some r /\
    bound_place tenth seven_tenths (B2R (no_sigmoid (to_f32 (NInt 9)))) r.
Proof.
  destruct tenth_bound as (A & B & C).
  apply (c84_constant_per_key no_sigmoid greatest_of greatest_of_max tenth seven_tenths keyed_ages (key_bundle keyed_ages) ["b"; "a"]%string "b"%string
    (NInt 7) (NInt 7)); try assumption.
  - exact ab_nodup.
  - cbn; tauto.
  - cbn; rewrite ?app_nil_r; apply Permutation_refl.
  - exact no_sigmoid_like.
  - intros v [<-|[<-|[]]]; apply int_ordinary; lia.
  - split; [cbn; tauto|]. intros v [<-|[<-|[]]]; cbn [val snd]; lra.
  - split; [cbn; tauto|]. intros v [<-|[<-|[]]]; cbn [val snd]; lra.
  - reflexivity.
  - apply int_ordinary; lia.
Qed.
Example c84_unseen_applies :
  let (vocab, results) := per_key_analysis key_min_and_max32 (key_bundle keyed_ages) ["b"; "a"]%string in
  exists r, scale_per_key32 no_sigmoid tenth seven_tenths vocab results "c" (NInt 9) = Some r /\
    bound_place tenth seven_tenths (B2R (no_sigmoid (to_f32 (NInt 9)))) r.
Proof.
  destruct tenth_bound as (A & B & C).
  apply c84_unseen; try assumption; [exact ab_nodup|discriminate|cbn; intuition discriminate|exact no_sigmoid_like|apply int_ordinary; lia].
Qed.

Print Assumptions c84_unit.
Print Assumptions c84_scaled.
Print Assumptions c84_order.
Print Assumptions c84_constant.
Print Assumptions c84_empty.
Print Assumptions c84_unit_per_key.
Print Assumptions c84_scaled_per_key.
Print Assumptions c84_order_per_key.
Print Assumptions c84_constant_per_key.
Print Assumptions c84_unseen.
Print Assumptions c84_infinity_refuted.
