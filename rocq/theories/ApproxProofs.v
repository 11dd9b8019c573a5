From Coq Require Import String Ascii List ZArith QArith Qcanon Bool Permutation Sorting.Sorted Lia Lqa.
From Verif Require Import CombineModel MeanVarModel MeanVarProofs PerKeyProofs SortModel SortProofs VocabModel VocabSpec VocabProofs ApproxModel ApproxSpec.
Import ListNotations.
Local Open Scope Qc_scope.
Local Notation length := List.length.

(** Linear arithmetic over Qc. *)
Lemma this_plus a b : (this (a + b) == this a + this b)%Q. Proof. apply Qred_correct. Qed.
Lemma this_mult a b : (this (a * b) == this a * this b)%Q. Proof. apply Qred_correct. Qed.
Lemma this_opp a : (this (- a) == - this a)%Q. Proof. apply Qred_correct. Qed.
Lemma this_minus a b : (this (a - b) == this a - this b)%Q.
Proof. unfold Qcminus, Qminus. rewrite this_plus, this_opp. reflexivity. Qed.
Lemma this_Q2Qc q : (this (Q2Qc q) == q)%Q. Proof. apply Qred_correct. Qed.
Lemma eq_this a b : a = b -> (this a == this b)%Q. Proof. intros ->. reflexivity. Qed.
Ltac to_q := repeat match goal with H : @eq Qc _ _ |- _ => apply eq_this in H end; unfold Qcle, Qclt in *;
  repeat match goal with H : context [this _] |- _ => progress (rewrite ?this_plus, ?this_mult, ?this_opp, ?this_minus, ?this_Q2Qc in H) end;
  repeat (progress (rewrite ?this_plus, ?this_mult, ?this_opp, ?this_minus, ?this_Q2Qc)).
Ltac qc := to_q; lra.
Ltac qceq := apply Qc_is_canon; to_q; lra.

(** ** What the sketches are given *)
Notation rows := (list (string * Qc)) (only parsing).
Definition weighed (weighted : bool) (rs : rows) : rows := map (fun r => (fst r, row_weight weighted r)) rs.

Lemma acceptable_filtered text t : acceptable text t = negb (filtered_out text t).
Proof.
  unfold acceptable, filtered_out. destruct text; [|reflexivity]. cbn [negb orb andb].
  destruct (String.eqb t ""); [reflexivity|]. cbn [negb andb orb].
  induction t as [|c t IH]; [reflexivity|]. cbn [list_ascii_of_string forallb contains].
  rewrite IH. unfold newline, carriage_return.
  destruct (Ascii.eqb c "010"), (Ascii.eqb c "013"), (contains "010" t), (contains "013" t); reflexivity.
Qed.
Lemma accepted_kept text rs : accepted text rs = kept text rs.
Proof. unfold accepted, kept. apply filter_ext. intros r. apply acceptable_filtered. Qed.
Lemma kept_weighed text weighted rs : kept text (weighed weighted rs) = weighed weighted (kept text rs).
Proof.
  unfold kept, weighed. induction rs as [|r rs IH]; [reflexivity|]. cbn [map filter fst].
  destruct (negb (filtered_out text (fst r))); cbn [map]; now rewrite IH.
Qed.
Lemma reduced_batch_reduce text weighted b : reduced_batch text weighted b = reduce_batch text true (weighed weighted b).
Proof.
  unfold reduced_batch, reduce_batch. fold (kept text b). fold (kept text (weighed weighted b)). rewrite kept_weighed. f_equal.
  unfold weighed, row_weight. destruct weighted; [|reflexivity].
  rewrite <- map_id at 1. apply map_ext. intros []; reflexivity.
Qed.
Lemma reduced_frequency text weighted b t :
  total (values_of t (reduced_batch text weighted b)) = total (values_of t (weighed weighted (kept text b))).
Proof.
  rewrite reduced_batch_reduce, reduce_batch_total, kept_weighed. do 2 f_equal.
  rewrite <- (map_id (weighed weighted (kept text b))) at 1. rewrite map_id.
  rewrite <- (map_id (weighed weighted (kept text b))) at 2. apply map_ext. intros []; reflexivity.
Qed.
Lemma reduced_keys text weighted b t : In t (map fst (reduced_batch text weighted b)) <-> In t (map fst (kept text b)).
Proof.
  rewrite reduced_batch_reduce, reduce_batch_keys, kept_weighed. unfold weighed. rewrite map_map. reflexivity.
Qed.

Lemma total_plus {A} (f g : A -> Qc) l : total (map (fun x => f x + g x) l) = total (map f l) + total (map g l).
Proof. induction l as [|x l IH]; cbn [map total]; [ring|]. rewrite IH. ring. Qed.
Lemma total_point ks k0 w : NoDup ks -> In k0 ks -> total (map (fun k => if String.eqb k k0 then w else Q2Qc 0) ks) = w.
Proof.
  induction 1 as [|k ks N D IH]; [contradiction|]. cbn [map total]. intros [->|I].
  - rewrite String.eqb_refl. replace (total (map (fun k => if String.eqb k k0 then w else Q2Qc 0) ks)) with (Q2Qc 0); [ring|].
    clear IH D. induction ks as [|k ks IH]; [reflexivity|]. cbn [map total]. destruct (String.eqb_spec k k0) as [->|_].
    + destruct N. left. reflexivity.
    + rewrite <- IH; [ring|]. intros I. apply N. right. exact I.
  - destruct (String.eqb_spec k k0) as [->|_]; [contradiction|]. rewrite (IH I). ring.
Qed.
Lemma total_by_keys (l : rows) ks : NoDup ks -> (forall r, In r l -> In (fst r) ks) ->
  total (map (fun k => total (values_of k l)) ks) = total (map snd l).
Proof.
  intros D. induction l as [|[k0 w] l IH]; intros I.
  - clear I D. induction ks as [|k ks IH]; [reflexivity|]. cbn [map total]. rewrite IH. unfold values_of. cbn [filter map total]. ring.
  - cbn [map total snd]. rewrite <- IH by (intros; apply I; right; assumption).
    transitivity (total (map (fun k => if String.eqb k k0 then w else Q2Qc 0) ks) + total (map (fun k => total (values_of k l)) ks));
      [|now rewrite (total_point ks k0 w D (I (k0, w) (or_introl eq_refl)))].
    rewrite <- total_plus. f_equal. apply map_ext. intros k.
    unfold values_of. cbn [filter fst]. destruct (String.eqb k k0); cbn [map total snd]; ring.
Qed.
Lemma reduced_mass text weighted b : total (map snd (reduced_batch text weighted b)) = total (map snd (weighed weighted (kept text b))).
Proof.
  set (K := weighed weighted (kept text b)).
  assert (E : reduced_batch text weighted b = reduce_per_key qc_sum K).
  { rewrite reduced_batch_reduce. unfold reduce_batch. fold (kept text (weighed weighted b)). now rewrite kept_weighed. }
  rewrite E. unfold reduce_per_key. rewrite map_map. cbn [snd].
  destruct (tf_unique_spec (map fst K) []) as [HN HI].
  rewrite <- (total_by_keys K (tf_unique [] (map fst K)) HN).
  - f_equal. apply map_ext. intros k. apply qc_sum_total.
  - intros r I. apply HI. split; [now apply in_map|intros []].
Qed.

Definition given (text weighted : bool) (bs : list rows) : rows := flat_map (reduced_batch text weighted) bs.
Lemma given_frequency text weighted bs t : indicator true (given text weighted bs) t = indicator weighted (accepted text (concat bs)) t.
Proof.
  rewrite accepted_kept. induction bs as [|b bs IH]; [reflexivity|]. cbn [concat]. unfold given in *. cbn [flat_map].
  rewrite kept_app, !indicator_app, IH. f_equal. rewrite !indicator_values.
  assert (H := reduced_frequency text weighted b t). unfold weighed in H. unfold row_weight in *.
  replace (map (fun r : string * Qc => (fst r, snd r)) (reduced_batch text weighted b)) with (reduced_batch text weighted b); [exact H|].
  rewrite <- (map_id (reduced_batch text weighted b)) at 1. apply map_ext. intros []; reflexivity.
Qed.
Lemma given_mass text weighted bs : total (map snd (given text weighted bs)) = mass text weighted (concat bs).
Proof.
  unfold mass. rewrite accepted_kept. induction bs as [|b bs IH]; [reflexivity|]. cbn [concat]. unfold given in *. cbn [flat_map].
  rewrite kept_app, !map_app, !total_app, IH. f_equal. rewrite reduced_mass. unfold weighed. rewrite map_map. reflexivity.
Qed.
Lemma given_keys text weighted bs t : In t (map fst (given text weighted bs)) <-> eligible text weighted (Q2Qc 0) (concat bs) t.
Proof.
  assert (E : eligible text weighted (Q2Qc 0) (concat bs) t <-> In t (map fst (kept text (concat bs)))).
  { unfold eligible. rewrite <- (filtered_out_one_line text t), !in_map_iff. split.
    - intros ((r & <- & I) & F & _). exists r. split; [reflexivity|]. now apply kept_in.
    - intros (r & <- & I). apply kept_in in I as [I F]. split; [eauto|]. split; [exact F|left; reflexivity]. }
  rewrite E. clear E. induction bs as [|b bs IH]; [reflexivity|]. cbn [concat]. unfold given in *. cbn [flat_map].
  rewrite kept_app, !map_app, !in_app_iff, IH, reduced_keys. reflexivity.
Qed.
Lemma total_nonneg l : Forall (fun q => 0 <= q) l -> 0 <= total l.
Proof. induction 1 as [|q l H F IH]; cbn [total]; qc. Qed.
Lemma values_nonneg k (l : rows) : Forall (fun r => 0 <= snd r) l -> Forall (fun q => 0 <= q) (values_of k l).
Proof.
  intros F. apply Forall_forall. intros q I. apply values_of_in in I. rewrite Forall_forall in F. exact (F _ I).
Qed.
Lemma given_nonneg text weighted bs : (weighted = true -> Forall (fun r => 0 <= snd r) (concat bs)) ->
  Forall (fun r => 0 <= snd r) (given text weighted bs).
Proof.
  intros H. unfold given. apply Forall_forall. intros [t w] I. apply in_flat_map in I as (b & Ib & I). cbn [snd].
  assert (E : reduced_batch text weighted b = reduce_per_key qc_sum (weighed weighted (kept text b))).
  { rewrite reduced_batch_reduce. unfold reduce_batch. fold (kept text (weighed weighted b)). now rewrite kept_weighed. }
  rewrite E in I. unfold reduce_per_key in I. apply in_map_iff in I as (k & [= -> <-] & _).
  rewrite qc_sum_total. apply total_nonneg, values_nonneg. unfold weighed. apply Forall_map, Forall_forall. intros r Ir. cbn [snd].
  unfold row_weight. destruct weighted; [|vm_compute; discriminate].
  specialize (H eq_refl). rewrite Forall_forall in H. apply H. apply kept_in in Ir as [Ir _]. apply in_concat. eauto.
Qed.

(** ** Plans build sketches *)
Section plan_ind.
  Variable P : plan -> Prop.
  Hypothesis HA : forall bs, P (Add bs).
  Hypothesis HM : forall p ps, P p -> Forall P ps -> P (Merge p ps).
  Hypothesis HC : forall p, P p -> P (Cached p).
  Hypothesis HN : forall ps, Forall P ps -> P (Merge_into_new ps).
  Fixpoint plan_ind' (p : plan) : P p :=
    let go := fix go ps : Forall P ps := match ps with [] => Forall_nil _ | q :: qs => Forall_cons _ (plan_ind' q) (go qs) end in
    match p with
    | Add bs => HA bs
    | Merge p0 ps => HM p0 ps (plan_ind' p0) (go ps)
    | Cached p0 => HC p0 (plan_ind' p0)
    | Merge_into_new ps => HN ps (go ps)
    end.
End plan_ind.

Section plans.
  Context {sketch : Type} (ops : sketch_ops sketch) (text weighted : bool) (k : nat).
  Notation B := (built ops k).
  Notation G := (given text weighted).

  Lemma add_batches bs : forall s l, B s l -> B (fold_left (add_input ops text weighted) bs s) (l ++ G bs).
  Proof.
    induction bs as [|b bs IH]; intros s l H; cbn [fold_left]; unfold given in *; cbn [flat_map]; [now rewrite app_nil_r|].
    rewrite app_assoc. apply IH. unfold add_input. destruct (reduced_batch text weighted b) eqn:E; [now rewrite app_nil_r|].
    now apply built_add.
  Qed.
  Lemma merge_all (f : plan -> sketch) (g : plan -> rows) ps : Forall (fun p => B (f p) (g p)) ps ->
    forall s l, B s l -> B (fold_left (merge ops) (map f ps) s) (l ++ flat_map g ps).
  Proof.
    induction 1 as [|p ps H F IH]; intros s l Hs; cbn [map fold_left flat_map]; [now rewrite app_nil_r|].
    rewrite app_assoc. apply IH. now apply built_merge.
  Qed.
  Lemma execute_built p : B (execute ops text weighted k p) (G (batches_of p)).
  Proof.
    assert (E : forall ps, G (flat_map batches_of ps) = flat_map (fun p => G (batches_of p)) ps).
    { unfold given. induction ps as [|q qs IH]; [reflexivity|]. cbn [flat_map]. now rewrite flat_map_app, IH. }
    induction p as [bs|p ps IHp IHps|p IHp|ps IHps] using plan_ind'; cbn [batches_of execute].
    - apply (add_batches bs (create_accumulator ops k) []). apply built_new.
    - unfold given. rewrite flat_map_app. fold (G (batches_of p)). fold (G (flat_map batches_of ps)). rewrite E. now apply merge_all.
    - now apply built_recode.
    - rewrite E. unfold merge_accumulators. cbn [fold_left].
      apply (merge_all (execute ops text weighted k) _ ps IHps (create_accumulator ops k) []). apply built_new.
  Qed.
End plans.

(** ** Estimates *)
Lemma estimated_in es q t : NoDup (map snd es) -> In (q, t) es -> estimated es t = q.
Proof.
  unfold estimated. induction es as [|[q0 t0] es IH]; [contradiction|]. cbn [map snd]. intros D [[= -> ->]|I]; inversion_clear D.
  - cbn [filter snd]. rewrite String.eqb_refl. cbn [map total fst].
    replace (filter (fun e => String.eqb t (snd e)) es) with (@nil (Qc * string)); [cbn; ring|].
    symmetry. clear - H. induction es as [|[q1 t1] es IH]; [reflexivity|]. cbn [filter snd].
    destruct (String.eqb_spec t t1) as [->|_]; [destruct H; left; reflexivity|]. apply IH. intros I. apply H. right. exact I.
  - cbn [filter snd]. destruct (String.eqb_spec t t0) as [->|_]; [destruct H; apply in_map_iff; exists (q, t0); auto|]. now apply IH.
Qed.
Lemma estimated_out es t : ~ In t (map snd es) -> estimated es t = Q2Qc 0.
Proof.
  unfold estimated. induction es as [|[q0 t0] es IH]; [reflexivity|]. cbn [map snd filter]. intros N.
  destruct (String.eqb_spec t t0) as [->|_]; [destruct N; left; reflexivity|]. apply IH. intros I. apply N. right. exact I.
Qed.
Lemma entries_estimated es : NoDup (map snd es) -> es = map (fun t => (estimated es t, t)) (map snd es).
Proof.
  intros D. rewrite map_map. rewrite <- (map_id es) at 1. apply map_ext_in. intros [q t] I. cbn [snd]. now rewrite (estimated_in es q t D I).
Qed.
Lemma sorted_comes_before es : NoDup (map snd es) ->
  StronglySorted (fun a b => (fst b < fst a)%Qc \/ (fst b = fst a /\ String.ltb (snd b) (snd a) = true)) es ->
  StronglySorted (comes_before (estimated es)) (map snd es).
Proof.
  intros D S.
  assert (H : forall l, StronglySorted (fun a b => (fst b < fst a)%Qc \/ (fst b = fst a /\ String.ltb (snd b) (snd a) = true)) l ->
    (forall e, In e l -> In e es) -> StronglySorted (comes_before (estimated es)) (map snd l)).
  { induction 1 as [|[q t] l S' IH F]; intros I; cbn [map]; constructor; [apply IH; intros; apply I; now right|].
    apply Forall_map. rewrite Forall_forall in *. intros [q' t'] I'. cbn [snd].
    unfold comes_before. rewrite (estimated_in es q t D), (estimated_in es q' t' D) by (apply I; (now left) || (now right)).
    exact (F _ I'). }
  now apply H.
Qed.

Section run.
  Context {sketch : Type} (ops : sketch_ops sketch) (is_string is_text weighted : bool) (k : nat) (p : plan).
  Notation text := (is_string && is_text).
  Notation rs := (concat (batches_of p)).
  Hypothesis Pr : keeps_promise ops k.
  Hypothesis W : weighted = true -> Forall (fun r => 0 <= snd r) rs.

  Definition es : list (Qc * string) := estimate ops (execute ops text weighted k p).
  Definition tokens : list string := map snd es.
  Definition f : string -> Qc := estimated es.
  Definition x : string -> Qc := indicator weighted (accepted text rs).

  Lemma promise : estimates k (given text weighted (batches_of p)) es.
  Proof. apply Pr; [apply execute_built|now apply given_nonneg]. Qed.
  Lemma tokens_length : (length tokens <= k)%nat.
  Proof. unfold tokens. rewrite map_length. apply promise. Qed.
  Lemma tokens_nodup : NoDup tokens. Proof. apply promise. Qed.
  Lemma tokens_sorted : StronglySorted (comes_before f) tokens.
  Proof. apply sorted_comes_before; apply promise. Qed.
  Lemma tokens_eligible t : In t tokens -> eligible text weighted (Q2Qc 0) rs t.
  Proof. intros I. apply given_keys. now apply promise. Qed.
  Lemma f_out t : ~ In t tokens -> f t = Q2Qc 0. Proof. apply estimated_out. Qed.
  Lemma f_nonneg t : 0 <= f t.
  Proof.
    destruct (in_dec string_dec t tokens) as [I|N]; [|rewrite (f_out t N); apply Qcle_refl].
    destruct promise as (_ & _ & D & F & _). unfold tokens in I. apply in_map_iff in I as ([q t'] & E & I). cbn in E. subst t'.
    unfold f. rewrite (estimated_in es q t D I). rewrite Forall_forall in F. exact (F _ I).
  Qed.
  Lemma f_total : total (map fst es) = total (map f tokens).
  Proof. unfold tokens. rewrite (entries_estimated es) at 1 by apply promise. rewrite map_map. reflexivity. Qed.
  Lemma bounds : within_bounds k f x (mass text weighted rs) (total (map f tokens)).
  Proof.
    destruct promise as (_ & _ & _ & _ & _ & delta & B1 & B2). rewrite given_mass, f_total in B2. exists delta. split; [|exact B2].
    intros t. unfold f, x. rewrite <- given_frequency. apply B1.
  Qed.
  Lemma entries_eq : extract_output ops is_string (execute ops text weighted k p)
    = match tokens with [] => [dummy_entry is_string] | _ => map (fun t => (f t, t)) tokens end.
  Proof.
    unfold extract_output. fold es. assert (E := entries_estimated es ltac:(apply promise)). fold tokens f in E.
    unfold tokens in *. destruct es as [|e l]; [reflexivity|]. exact E.
  Qed.

  Lemma heavy t : mass text weighted rs < Q2Qc (inject_Z (Z.of_nat (S k))) * x t -> In t tokens.
  Proof.
    intros H. destruct (in_dec string_dec t tokens) as [I|N]; [exact I|exfalso].
    destruct bounds as (delta & B1 & B2). destruct (B1 t) as [_ B]. rewrite (f_out t N) in B.
    assert (T : 0 <= total (map f tokens)) by (apply total_nonneg, Forall_map, Forall_forall; intros; apply f_nonneg).
    assert (K : 0 <= Q2Qc (inject_Z (Z.of_nat (S k)))).
    { to_q. change 0%Q with (inject_Z 0). rewrite <- Zle_Qle. lia. }
    set (K1 := Q2Qc (inject_Z (Z.of_nat (S k)))) in *. clearbody K1.
    assert (B' : x t <= delta) by qc.
    assert (M : K1 * x t <= K1 * delta) by (rewrite (Qcmult_comm K1 (x t)), (Qcmult_comm K1 delta); now apply Qcmult_le_compat_r).
    qc.
  Qed.

  (** Few tokens. *)
  Definition distinct_tokens : list string := tf_unique [] (map fst (given text weighted (batches_of p))).
  Lemma distinct_tokens_spec : NoDup distinct_tokens /\ forall t, In t distinct_tokens <-> eligible text weighted (Q2Qc 0) rs t.
  Proof.
    destruct (tf_unique_spec (map fst (given text weighted (batches_of p))) []) as [N I]. split; [exact N|].
    intros t. unfold distinct_tokens. rewrite I, <- given_keys. cbn. tauto.
  Qed.
  Lemma total_f : total (map f distinct_tokens) = total (map f tokens).
  Proof.
    destruct distinct_tokens_spec as [N I].
    assert (E : forall t, In t distinct_tokens -> f t = total (values_of t (map (fun u => (u, f u)) tokens))).
    { intros t _. destruct (in_dec string_dec t tokens) as [J|J].
      - rewrite (values_of_nodup t (f t)); [cbn; ring| |].
        + rewrite map_map. cbn. rewrite map_id. apply tokens_nodup.
        + apply in_map_iff. eauto.
      - rewrite values_of_none; [now apply f_out|]. rewrite map_map. cbn. now rewrite map_id. }
    rewrite (map_ext_in _ _ _ E), total_by_keys.
    - rewrite map_map. reflexivity.
    - exact N.
    - intros r J. apply in_map_iff in J as (t & <- & J). apply I. now apply tokens_eligible.
  Qed.
  Lemma total_x : total (map x distinct_tokens) = mass text weighted rs.
  Proof.
    rewrite <- given_mass. destruct distinct_tokens_spec as [N I].
    rewrite <- (total_by_keys (given text weighted (batches_of p)) distinct_tokens N).
    - f_equal. apply map_ext. intros t. unfold x. rewrite <- given_frequency, indicator_values. unfold row_weight.
      do 2 f_equal. rewrite <- (map_id (given text weighted (batches_of p))) at 2. apply map_ext. intros []; reflexivity.
    - intros r J. apply I, given_keys. now apply in_map.
  Qed.
  Lemma total_le {A} (g h : A -> Qc) l : (forall a, In a l -> g a <= h a) -> total (map g l) <= total (map h l).
  Proof.
    induction l as [|a l IH]; intros H; cbn [map total]; [apply Qcle_refl|].
    assert (H1 := H a (or_introl eq_refl)). assert (H2 := IH (fun b I => H b (or_intror I))). qc.
  Qed.
  Lemma total_const {A} (c : Qc) (l : list A) : total (map (fun _ => c) l) = Q2Qc (inject_Z (Z.of_nat (length l))) * c.
  Proof.
    induction l as [|a l IH]; cbn [map total length].
    - change (Z.of_nat 0) with 0%Z. change (inject_Z 0) with 0%Q. ring.
    - rewrite IH, Nat2Z.inj_succ. unfold Z.succ. apply Qc_is_canon. to_q. rewrite inject_Z_plus. ring.
  Qed.
  Lemma few_exact D : (length D <= k)%nat -> (forall t, eligible text weighted (Q2Qc 0) rs t -> In t D) -> forall t, f t = x t.
  Proof.
    intros L C. destruct bounds as (delta & B1 & B2). destruct distinct_tokens_spec as [N I].
    assert (Ld : (length distinct_tokens <= k)%nat).
    { etransitivity; [|exact L]. apply NoDup_incl_length; [exact N|]. intros t J. now apply C, I. }
    assert (T : total (map x distinct_tokens) <= total (map (fun t => f t + delta) distinct_tokens)) by (apply total_le; intros; apply B1).
    rewrite total_plus, total_f, total_x, total_const in T.
    assert (Z : delta <= 0).
    { apply Qcnot_lt_le. intros P.
      assert (Q : Q2Qc (inject_Z (Z.of_nat (length distinct_tokens))) <= Q2Qc (inject_Z (Z.of_nat k))) by (to_q; rewrite <- Zle_Qle; lia).
      assert (M := Qcmult_le_compat_r _ _ delta Q (Qclt_le_weak _ _ P)).
      assert (S : Q2Qc (inject_Z (Z.of_nat (Datatypes.S k))) * delta = Q2Qc (inject_Z (Z.of_nat k)) * delta + delta).
      { rewrite Nat2Z.inj_succ. unfold Z.succ. apply Qc_is_canon. to_q. rewrite inject_Z_plus. ring. }
      rewrite S in B2. set (a := Q2Qc (inject_Z (Z.of_nat k)) * delta) in *. clearbody a.
      set (b := Q2Qc (inject_Z (Z.of_nat (length distinct_tokens))) * delta) in *. clearbody b. qc. }
    intros t. destruct (B1 t) as [B3 B4]. apply Qcle_antisym; [exact B3|]. qc.
  Qed.
End run.

(** ** The lines *)
Section lines.
  Context {sketch : Type} (ops : sketch_ops sketch) (fmt : Qc -> string).

  Lemma lines_entries is_string is_text weighted k store p lines : keeps_promise ops k ->
    (weighted = true -> Forall (fun r => 0 <= snd r) (concat (batches_of p))) ->
    approximate_vocabulary ops fmt is_string is_text weighted k store None p lines ->
    lines = lines_of fmt store is_string (f ops is_string is_text weighted k p) (tokens ops is_string is_text weighted k p).
  Proof.
    intros Pr W (written & -> & ->). rewrite entries_eq by assumption. unfold lines_of.
    destruct (tokens ops is_string is_text weighted k p) as [|t l]; [destruct is_string; reflexivity|]. apply format_entries.
  Qed.

  Lemma approximate_bounds is_string is_text weighted k store p lines : keeps_promise ops k ->
    (weighted = true -> Forall (fun r => 0 <= snd r) (concat (batches_of p))) ->
    approximate_vocabulary ops fmt is_string is_text weighted k store None p lines ->
    let text := is_string && is_text in
    let rs := concat (batches_of p) in
    exists l est,
      lines = lines_of fmt store is_string est l /\
      (length l <= k)%nat /\ StronglySorted (comes_before est) l /\
      (forall t, In t l -> eligible text weighted (Q2Qc 0) rs t) /\ (forall t, ~ In t l -> est t = Q2Qc 0) /\
      within_bounds k est (indicator weighted (accepted text rs)) (mass text weighted rs) (total (map est l)).
  Proof.
    intros Pr W H text rs. exists (tokens ops is_string is_text weighted k p), (f ops is_string is_text weighted k p).
    split; [now apply lines_entries in H|]. split; [now apply tokens_length|]. split; [now apply tokens_sorted|].
    split; [now apply tokens_eligible|]. split; [intros; now apply f_out|]. now apply bounds.
  Qed.

  Lemma approximate_heavy is_string is_text weighted k store p lines t : keeps_promise ops k ->
    (weighted = true -> Forall (fun r => 0 <= snd r) (concat (batches_of p))) ->
    approximate_vocabulary ops fmt is_string is_text weighted k store None p lines ->
    let text := is_string && is_text in
    let rs := concat (batches_of p) in
    (mass text weighted rs < Q2Qc (inject_Z (Z.of_nat (S k))) * indicator weighted (accepted text rs) t) ->
    exists q, In (line_of fmt store (fun _ => q) t) lines.
  Proof.
    intros Pr W H text rs M. apply lines_entries in H; [|exact Pr|exact W]. subst lines.
    apply (heavy ops is_string is_text weighted k p Pr W) in M. unfold lines_of.
    destruct (tokens ops is_string is_text weighted k p) as [|t0 l]; [contradiction|].
    exists (f ops is_string is_text weighted k p t). apply (in_map (line_of fmt store (f ops is_string is_text weighted k p)) _ _ M).
  Qed.

  Lemma positive_frequency weighted rs t : (weighted = true -> Forall (fun r => 0 < snd r) rs) -> In t (map fst rs) -> 0 < indicator weighted rs t.
  Proof.
    unfold indicator. induction rs as [|[u w] rs IH]; [contradiction|]. intros P I. cbn [filter fst].
    assert (P' : weighted = true -> Forall (fun r => 0 < snd r) rs) by (intros E; specialize (P E); now inversion P).
    assert (N : 0 <= total (map (fun r => if weighted then snd r else Q2Qc 1) (filter (fun r => String.eqb t (fst r)) rs))).
    { apply total_nonneg, Forall_map, Forall_forall. intros r J. apply filter_In in J as [J _]. destruct weighted; [|vm_compute; discriminate].
      specialize (P' eq_refl). rewrite Forall_forall in P'. apply Qclt_le_weak. exact (P' _ J). }
    destruct (String.eqb_spec t u) as [->|NE].
    - cbn [map total snd]. assert (Q : 0 < (if weighted then w else Q2Qc 1)).
      { destruct weighted; [specialize (P eq_refl); now inversion P|reflexivity]. }
      set (a := total _) in *. clearbody a. set (b := if weighted then w else Q2Qc 1) in *. clearbody b. qc.
    - apply IH; [exact P'|]. destruct I as [E|I]; [cbn in E; congruence|exact I].
  Qed.
  Lemma accepted_frequency text weighted rs t : (text = true -> one_line t) -> indicator weighted (accepted text rs) t = indicator weighted rs t.
  Proof.
    intros O. apply filtered_out_one_line in O. unfold indicator, accepted. do 2 f_equal. induction rs as [|r rs IH]; [reflexivity|].
    cbn [filter]. destruct (String.eqb_spec t (fst r)) as [E|E].
    - rewrite <- E, acceptable_filtered, O. cbn [negb filter]. rewrite <- E, String.eqb_refl. now rewrite IH.
    - destruct (acceptable text (fst r)); cbn [filter]; [|exact IH]. destruct (String.eqb_spec t (fst r)); [contradiction|exact IH].
  Qed.

  Lemma few_ranking is_string is_text weighted k p D : keeps_promise ops k ->
    let text := is_string && is_text in
    let rs := concat (batches_of p) in
    (weighted = true -> Forall (fun r => 0 < snd r) rs) ->
    (length D <= k)%nat -> (forall t, eligible text weighted (Q2Qc 0) rs t -> In t D) ->
    (forall t, (text = true -> one_line t) -> f ops is_string is_text weighted k p t = indicator weighted rs t) /\
    is_ranking (indicator weighted rs) (eligible text weighted (Q2Qc 0) rs) (tokens ops is_string is_text weighted k p).
  Proof.
    intros Pr text rs W L C.
    assert (W' : weighted = true -> Forall (fun r => 0 <= snd r) rs).
    { intros E. eapply Forall_impl; [|exact (W E)]. intros r H. cbv beta in *. now apply Qclt_le_weak. }
    assert (E : forall t, (text = true -> one_line t) -> f ops is_string is_text weighted k p t = indicator weighted rs t).
    { intros t O. rewrite (few_exact ops is_string is_text weighted k p Pr W' D L C t). now apply accepted_frequency. }
    split; [exact E|]. split.
    - assert (S' := tokens_sorted ops is_string is_text weighted k p Pr W').
      assert (I := tokens_eligible ops is_string is_text weighted k p Pr W').
      set (l := tokens ops is_string is_text weighted k p) in *. clearbody l.
      induction S' as [|t l S' IH F]; [constructor|]. constructor; [apply IH; intros; apply I; now right|].
      rewrite Forall_forall in *. intros u J. specialize (F u J). unfold comes_before in *.
      rewrite <- (E t), <- (E u); [exact F| |]; apply I; [now right|now left].
    - intros t. split; [now apply tokens_eligible|]. intros H.
      destruct (in_dec string_dec t (tokens ops is_string is_text weighted k p)) as [J|J]; [exact J|exfalso].
      apply (f_out ops) in J. assert (P := positive_frequency weighted rs t W (proj1 H)).
      rewrite <- E, J in P by apply H. exact (Qclt_not_le _ _ P (Qcle_refl _)).
  Qed.

  Lemma lines_of_ext store is_string g h l : (forall t, In t l -> g t = h t) -> lines_of fmt store is_string g l = lines_of fmt store is_string h l.
  Proof.
    intros H. unfold lines_of. destruct l as [|t l]; [reflexivity|]. apply map_ext_in. intros u J. unfold line_of. now rewrite (H u J).
  Qed.

  Lemma approximate_exact is_string is_text weighted k store p lines D : keeps_promise ops k ->
    let text := is_string && is_text in
    let rs := concat (batches_of p) in
    (weighted = true -> Forall (fun r => 0 < snd r) rs) ->
    (length D <= k)%nat -> (forall t, eligible text weighted (Q2Qc 0) rs t -> In t D) ->
    approximate_vocabulary ops fmt is_string is_text weighted k store None p lines ->
    exists l, is_ranking (indicator weighted rs) (eligible text weighted (Q2Qc 0) rs) l /\
      lines = lines_of fmt store is_string (indicator weighted rs) l.
  Proof.
    intros Pr text rs W L C H. destruct (few_ranking is_string is_text weighted k p D Pr W L C) as [E R].
    exists (tokens ops is_string is_text weighted k p). split; [exact R|].
    apply lines_entries in H; [|exact Pr|].
    - rewrite H. apply lines_of_ext. intros t J. apply R in J. apply E. apply J.
    - intros E'. eapply Forall_impl; [|exact (W E')]. intros r Hr. cbv beta in *. now apply Qclt_le_weak.
  Qed.

  Lemma eligible_perm text weighted r1 r2 t : Permutation r1 r2 -> eligible text weighted (Q2Qc 0) r1 t -> eligible text weighted (Q2Qc 0) r2 t.
  Proof.
    intros P (I & O & _). split; [|split; [exact O|now left]]. eapply Permutation_in; [apply Permutation_map; exact P|exact I].
  Qed.

  Lemma approximate_same_as_vocabulary sha1 (q : params) k datasets p lines lines' size D : keeps_promise ops k ->
    let rs := concat (batches_of p) in
    top_k q = Some k -> (0 < k)%nat -> frequency_threshold q = Q2Qc 0 -> coverage q = None -> reserved_tokens q = None ->
    fingerprint_shuffle q = false ->
    (is_weighted q = true -> Forall (fun r => 0 < snd r) rs) ->
    (length D <= k)%nat -> (forall t, eligible (is_string q && is_text q) (is_weighted q) (Q2Qc 0) rs t -> In t D) ->
    Permutation (all_rows datasets) rs ->
    approximate_vocabulary ops fmt (is_string q) (is_text q) (is_weighted q) k (store_frequency q) None p lines ->
    vocabulary fmt sha1 q datasets lines' size ->
    lines = lines'.
  Proof.
    intros Pr rs Hk K0 Ht Hc Hr Hf W L C P A V.
    destruct (approximate_exact _ _ _ _ _ _ _ D Pr W L C A) as (l & R & ->). fold rs in R.
    assert (Vp : valid_params q).
    { split; [rewrite Hk; exact K0|]. split; [rewrite Ht; apply Qcle_refl|]. rewrite Hc. exact Logic.I. }
    destruct (vocabulary_exact fmt sha1 q datasets lines' size Vp Hc Hr Hf V) as (l' & R' & El & _).
    rewrite Ht in R'.
    assert (R2 : is_ranking (indicator (is_weighted q) rs) (eligible (is_string q && is_text q) (is_weighted q) (Q2Qc 0) rs) l').
    { destruct R' as [S' I']. split.
      - clear I' El. induction S' as [|t l0 S' IH F]; [constructor|]. constructor; [exact IH|]. rewrite Forall_forall in *. intros u J.
        specialize (F u J). unfold comes_before in *. now rewrite !(indicator_perm _ _ _ _ P) in F.
      - intros t. rewrite I'. split; apply eligible_perm; [exact P|now symmetry]. }
    assert (l = l') by (eapply ranking_unique; eassumption). subst l'.
    rewrite El, Hk. cbn [first_of]. rewrite firstn_all2.
    - unfold lines_of. destruct l as [|t l]; [unfold format_entry, line_of, placeholder, dummy_entry, count_and_token_to_bytes; destruct (store_frequency q), (is_string q); reflexivity|].
      apply map_ext. intros u. unfold line_of. now rewrite (indicator_perm _ _ _ _ P).
    - etransitivity; [|exact L]. apply NoDup_incl_length.
      + destruct R as [S' _]. clear - S'. induction S' as [|t l S' IH F]; constructor; [|exact IH].
        intros J. rewrite Forall_forall in F. destruct (F t J) as [H|[_ H]]; [exact (Qclt_not_le _ _ H (Qcle_refl _))|].
        now rewrite ltb_irrefl in H.
      + intros t J. apply C, R, J.
  Qed.

  Lemma approximate_reserved is_string is_text weighted k store r p lines : keeps_promise ops k -> r <> [] ->
    (weighted = true -> Forall (fun r => 0 <= snd r) (concat (batches_of p))) ->
    approximate_vocabulary ops fmt is_string is_text weighted k store (Some r) p lines ->
    forall lines0, approximate_vocabulary ops fmt is_string is_text weighted k store None p lines0 ->
    exists l est, lines0 = lines_of fmt store is_string est l /\ StronglySorted (comes_before est) l /\
      (l <> [] -> lines = map (line_of fmt store (fun _ => Q2Qc (-1))) r
         ++ map (line_of fmt store est) (filter (fun t => negb (existsb (String.eqb t) r)) l)).
  Proof.
    intros Pr Nr W (written & (batches & P & ->) & ->) lines0 H0.
    exists (tokens ops is_string is_text weighted k p), (f ops is_string is_text weighted k p).
    split; [now apply lines_entries in H0|]. split; [now apply tokens_sorted|]. intros Nl.
    rewrite entries_eq in P by assumption.
    assert (S' := tokens_sorted ops is_string is_text weighted k p Pr W).
    set (l := tokens ops is_string is_text weighted k p) in *. set (g := f ops is_string is_text weighted k p) in *. clearbody l g.
    assert (P' : Permutation (concat batches) (map (fun t => (g t, t)) l)) by (destruct l; [contradiction|exact P]). clear P.
    set (keep := fun t => negb (existsb (String.eqb t) r)).
    assert (E : py_sorted entry_geb (flat_map (filter (fun e => negb (existsb (String.eqb (snd e)) r))) (map (py_sorted entry_geb) batches))
                = map (fun t => (g t, t)) (filter keep l)).
    { apply sort_ranked.
      - clear P' Nl. induction S' as [|t l S' IH F]; [constructor|]. cbn [filter]. destruct (keep t); [|exact IH]. constructor; [exact IH|].
        rewrite Forall_forall in *. intros u J. apply filter_In in J as [J _]. now apply F.
      - transitivity (filter (fun e : entry => keep (snd e)) (concat batches)).
        + clear. induction batches as [|b bs IH]; [reflexivity|]. cbn [map flat_map concat]. rewrite filter_app. apply Permutation_app; [|exact IH].
          apply filter_perm. apply py_sorted_perm.
        + rewrite (filter_perm _ _ _ P'). apply Permutation_refl'. clear. induction l as [|t l IH]; [reflexivity|]. cbn [map filter snd].
          destruct (keep t); cbn [map]; now rewrite IH. }
    rewrite E.
    assert (Ed : forall X, maybe_add_dummy is_string (map (fun t => (Q2Qc (-1), t)) r ++ X) = map (fun t => (Q2Qc (-1), t)) r ++ X) by (intros X; destruct r; [contradiction|reflexivity]).
    rewrite Ed, map_app, !map_map. reflexivity.
  Qed.
End lines.
