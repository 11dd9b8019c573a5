(** Proofs about what a batch contributes to a vocabulary ranked by mutual information (C64): the accumulators. *)
From Coq Require Import String List ZArith QArith Bool Arith Lia Setoid Permutation.
From Verif Require Import CombineModel CombineProofs FloatModel MeanVarSpec MeanVarProofs WeightedModel WeightedSpec WeightedProofs InfoModel InfoLink.
From Verif Require Import CooccurModel CooccurSpec CooccurProofs CooccurRows CooccurBatch.
Import ListNotations.
Local Open Scope nat_scope.
Local Notation length := List.length.

(** ** The accumulators of a batch *)
Section Statistics.
Local Notation row := (CooccurSpec.row string).
Local Notation tokens := (CooccurSpec.tokens string).
Local Notation row_labels := (CooccurSpec.row_labels string).
Local Notation row_weight := (CooccurSpec.row_weight string).
Local Notation ctoken := (ctoken string).
Local Notation clabel := (clabel string).
Local Notation cweight := (cweight string).

Definition of_cell (k : cell string) : labelled := Lab (Z.to_nat (clabel k)) (cweight k).
Definition token_part {A} (rows : list (list string * A)) : list (string * A) := flat_map (fun r => map (fun t => (t, snd r)) (fst r)) rows.

Lemma cells_rows f t : forall (rows : list row) (ys : list Z), map row_labels rows = map (fun v => [v]) ys ->
  rows_of t (token_part (map (labelled_row f) rows)) =
  map of_cell (filter (fun k => String.eqb t (ctoken k)) (filter (keep string f) (cells_of string (map tokens rows) ys (map row_weight rows)))).
Proof.
  induction rows as [|r rows IH]; intros [|y ys] E; try discriminate; [reflexivity|]. cbn [map] in E. injection E as E1 E2. unfold token_part in *. cbn [map flat_map].
  rewrite rows_of_app, (IH ys E2). unfold cells_of. cbn [combine flat_map fst snd]. rewrite !filter_app, map_app. f_equal.
  unfold labelled_row. rewrite E1. cbn [fst snd hd]. clear. induction (tokens r) as [|u us IH]; [reflexivity|]. cbn [map filter].
  unfold keep at 1. cbn [CooccurProofs.ctoken fst snd]. destruct f as [g|]; cbn [negb].
  - destruct (negb (g u)); [|exact IH]. unfold rows_of in *. cbn [map filter fst snd]. unfold CooccurProofs.ctoken at 1. cbn [fst snd]. rewrite String.eqb_sym.
    destruct (String.eqb t u); cbn [map snd]; [f_equal|]; exact IH.
  - unfold rows_of in *. cbn [map filter fst snd]. unfold CooccurProofs.ctoken at 1. cbn [fst snd]. rewrite String.eqb_sym.
    destruct (String.eqb t u); cbn [map snd]; [f_equal|]; exact IH.
Qed.

Lemma filter_filter {A} (p q : A -> bool) l : filter p (filter q l) = filter (fun a => q a && p a) l.
Proof. induction l as [|a l IH]; [reflexivity|]. cbn [filter]. destruct (q a); cbn [filter andb]; [|exact IH]. destruct (p a); now rewrite IH. Qed.

Lemma filter_of_map {A B} (p : B -> bool) (g : A -> B) l : filter p (map g l) = map g (filter (fun a => p (g a)) l).
Proof. induction l as [|a l IH]; [reflexivity|]. cbn [map filter]. destruct (p (g a)); cbn [map]; now rewrite IH. Qed.

(** What is counted for a token is what its rows give. *)
Lemma batch_token_of f m t cells (rows : list row) ys : map row_labels rows = map (fun v => [v]) ys -> cells = map (fun v => [Some v]) ys -> Forall (fun v => (0 <= v)%Z) ys ->
  wm_make (positive_of string String.eqb f 1 m cells rows t) (weight_of string String.eqb f cells rows t) (Z.of_nat (count_of string String.eqb f rows t)) =
  batch_token (S m) (rows_of t (token_part (map (labelled_row f) rows))).
Proof.
  intros E -> N. rewrite (cells_rows f t rows ys E). unfold batch_token, positive_of, weight_of, count_of, column_sum, column_cells.
  replace (column_labels (map (fun v => [Some v]) ys) 0) with ys by (unfold column_labels; rewrite map_map; cbn [nth lab]; now rewrite map_id).
  cbn [Nat.sub seq fold_left].
  assert (L : length ys = length rows) by (apply (f_equal (@length _)) in E; now rewrite !map_length in E).
  set (cs := cells_of string (map tokens rows) ys (map row_weight rows)).
  assert (Nc : forall k, In k cs -> (0 <= clabel k)%Z).
  { intros k I. unfold cs, cells_of in I. apply in_flat_map in I as ([[ts y] w] & I & It). apply in_map_iff in It as (u & <- & _). apply in_combine_l, in_combine_r in I.
    rewrite Forall_forall in N. exact (N y I). }
  f_equal.
  - change (0 :: seq 1 m) with (seq 0 (S m)). apply map_ext. intros j. f_equal. rewrite filter_of_map, !map_map. cbn [lab_weight of_cell lab_label].
    f_equal. rewrite !filter_filter. apply filter_ext_in. intros k Ik. specialize (Nc k Ik).
    destruct (keep string f k); [|reflexivity]. destruct (String.eqb t (ctoken k)); [|reflexivity]. cbn [andb].
    destruct (Z.eqb_spec (clabel k) (Z.of_nat j)); destruct (Nat.eqb_spec (Z.to_nat (clabel k)) j); try reflexivity; lia.
  - rewrite map_map. reflexivity.
  - f_equal. rewrite map_length. unfold tokens_kept. rewrite <- (cells_tokens string (map tokens rows) ys (map row_weight rows)) by now rewrite !map_length. fold cs.
    rewrite !filter_of_map, map_length. reflexivity.
Qed.

Lemma accumulators_map (u : list string) s P p W w C c :
  key_accumulators string (Reduced string (u ++ [s]) (map W u ++ [w]) (map P u ++ [p]) (map C u ++ [c])) =
  map (fun t => (t, wm_make (P t) (W t) (Z.of_nat (C t)))) u ++ [(s, wm_make p w (Z.of_nat c))].
Proof. unfold key_accumulators. cbn [unique_x summed_weights_per_x summed_positive_per_x_and_y counts_per_x]. induction u as [|t u IH]; [reflexivity|]. cbn [app map key_and_means_accumulators]. now rewrite IH. Qed.

Lemma rows_of_keyed {A} t (rows : list (list string * A)) : t <> sentinel -> rows_of t (keyed rows) = rows_of t (token_part rows).
Proof.
  intros Ne. unfold keyed. rewrite rows_of_app. fold (token_part rows). replace (rows_of t (map _ rows)) with (@nil A); [apply app_nil_r|]. symmetry.
  unfold rows_of. induction rows as [|r rs IH]; [reflexivity|]. cbn [map filter fst]. replace (String.eqb sentinel t) with false; [exact IH|]. symmetry. apply String.eqb_neq. congruence.
Qed.
Lemma rows_of_nothing {A} t (rows : list (list string * A)) : (forall r, In r rows -> ~ In t (fst r)) -> rows_of t (token_part rows) = [].
Proof.
  unfold token_part. induction rows as [|r rows IH]; intros H; [reflexivity|]. cbn [flat_map]. rewrite rows_of_app, IH by (intros r' I; apply H; cbn; auto). rewrite app_nil_r.
  specialize (H r (or_introl eq_refl)). unfold rows_of. induction (fst r) as [|u us IHu]; [reflexivity|]. cbn [map filter fst]. destruct (String.eqb_spec u t) as [->|_]; [exfalso; apply H; cbn; auto|].
  apply IHu. intros I. apply H. cbn. auto.
Qed.
Lemma rows_of_some {A} t (rows : list (list string * A)) : (exists r, In r rows /\ In t (fst r)) -> rows_of t (token_part rows) <> [].
Proof.
  intros (r & I & It) E. assert (H : In (snd r) (rows_of t (token_part rows))); [|rewrite E in H; exact H]. unfold rows_of. apply in_map_iff. exists (t, snd r). split; [reflexivity|].
  apply filter_In. split; [|apply String.eqb_refl]. unfold token_part. apply in_flat_map. exists r. split; [exact I|]. apply in_map_iff. now exists t.
Qed.

Theorem statistics_right x shape flat weights (rows : list row) f : is_batch string x (Dense_labels shape flat) weights rows ->
  (forall r, In r rows -> ~ In sentinel (tokens r)) ->
  exists r known m, vocabulary_inputs string String.eqb sentinel x (Dense_labels shape flat) weights f = Some r /\
  vocabulary_of string f rows known /\ largest_label string rows m /\
  key_accumulators string r = map (fun t => (t, batch_token (S m) (rows_of t (keyed (map (labelled_row f) rows))))) (known ++ [sentinel]) /\
  ((forall r, In r rows -> 0 <= row_weight r)%Q -> forall t, In t (known ++ [sentinel]) -> wf_batch (S m, rows_of t (keyed (map (labelled_row f) rows)))).
Proof.
  intros B NS. destruct (batch_matrix string x (Dense_labels shape flat) weights rows B) as (width & cells & m & M & Pw & F & E & Bd & Hm & Lm).
  pose proof (batch_form string String.eqb String.eqb_spec sentinel x (Dense_labels shape flat) weights rows B f width cells m M Pw F E Bd Hm) as R. cbv zeta in R.
  pose proof (kept_vocabulary string String.eqb String.eqb_spec sentinel f rows) as V. set (u := unique string String.eqb (tokens_kept string f (map tokens rows))) in *.
  eexists; exists u, m. split; [exact R|]. split; [exact V|]. split; [exact Lm|]. rewrite accumulators_map.
  destruct M as [-> Ec]. destruct B as (Ne & X & Y & W & N). cbn [has_labels] in Y.
  assert (Np : Forall (fun v => (0 <= v)%Z) flat).
  { apply Forall_forall. intros v I. assert (Iv : In [v] (map row_labels rows)) by (rewrite Y; now apply (in_map (fun v => [v]))).
    apply in_map_iff in Iv as (r & Er & Ir). rewrite Forall_forall in N. specialize (N r Ir). rewrite Er in N. now inversion N. }
  assert (Nu : ~ In sentinel u) by (intros I; apply V in I as (_ & r & Ir & It); exact (NS r Ir It)).
  assert (NK : forall r, In r (map (labelled_row f) rows) -> ~ In sentinel (fst r)).
  { intros r I It. apply in_map_iff in I as (r0 & <- & I). unfold labelled_row in It. cbn [fst] in It. apply filter_In in It as [It _]. exact (NS r0 I It). }
  assert (KS : rows_of sentinel (keyed (map (labelled_row f) rows)) = map (fun r => snd (labelled_row f r)) rows).
  { unfold keyed. rewrite rows_of_app, rows_of_sentinels. fold (token_part (map (labelled_row f) rows)). rewrite (rows_of_nothing sentinel _ NK). now rewrite map_map. }
  split.
  - rewrite map_app. f_equal.
    + apply map_ext_in. intros t It. f_equal. rewrite rows_of_keyed by (intros ->; contradiction). now apply batch_token_of with (ys := flat).
    + cbn [map]. do 2 f_equal. rewrite KS. rewrite (batch_token_of None m sentinel cells (sentinel_rows string sentinel rows) flat); [|unfold sentinel_rows; rewrite map_map; exact Y|exact Ec|exact Np].
      f_equal. unfold sentinel_rows. rewrite map_map. clear. unfold token_part. induction rows as [|r rows IH]; [reflexivity|]. cbn [map flat_map]. rewrite rows_of_app, IH. reflexivity.
  - intros Wp t It. assert (IL : forall l, In l (rows_of t (keyed (map (labelled_row f) rows))) -> exists r, In r rows /\ l = snd (labelled_row f r)).
    { intros l Il. unfold rows_of in Il. apply in_map_iff in Il as ([k l'] & <- & Il). apply filter_In in Il as [Il _]. unfold keyed in Il. apply in_app_iff in Il as [Il|Il].
      - apply in_flat_map in Il as (r & Ir & Il). apply in_map_iff in Il as (k' & Ek & _). injection Ek as _ <-. apply in_map_iff in Ir as (r0 & <- & Ir). now exists r0.
      - apply in_map_iff in Il as (r & Ek & Ir). injection Ek as _ <-. apply in_map_iff in Ir as (r0 & <- & Ir). now exists r0. }
    split.
    + cbn [snd]. apply in_app_iff in It as [It|[<-|[]]].
      * rewrite rows_of_keyed by (intros ->; contradiction). apply rows_of_some. apply V in It as (K & r & Ir & It). exists (labelled_row f r). split; [now apply in_map|]. cbn [labelled_row fst].
        apply filter_In. split; [exact It|]. unfold kept in K. destruct f; [now rewrite K|reflexivity].
      * rewrite KS. destruct rows; [congruence|discriminate].
    + apply Forall_forall. intros l Il. apply IL in Il as (r & Ir & ->). cbn [labelled_row snd fst lab_label lab_weight]. split; [|now apply Wp].
      destruct Lm as [U _]. assert (Il : In (row_labels r) (map (fun v => [v]) flat)) by (rewrite <- Y; now apply in_map). apply in_map_iff in Il as (v & Ev & Iv).
      specialize (U r v Ir). rewrite <- Ev in *. cbn [hd]. specialize (U (or_introl eq_refl)). lia.
Qed.
End Statistics.
