(** * The values of a program traced again *)
From Coq Require Import String List Bool Arith Lia.
From Verif Require Import RetraceModel RetraceSpec RetraceProofs.
Import ListNotations.
Local Open Scope list_scope.
Local Notation length := List.length.

Lemma forall2_map_r {A B C} (R : A -> C -> Prop) (f : B -> C) l l' :
  Forall2 (fun a b => R a (f b)) l l' -> Forall2 R l (map f l').
Proof. induction 1; cbn; constructor; assumption. Qed.

Lemma forall2_self {A} (R : A -> A -> Prop) l : (forall a, In a l -> R a a) -> Forall2 R l l.
Proof.
  induction l as [|a l IH]; intros H; constructor; [apply H; now left|].
  apply IH. intros b I. apply H. now right.
Qed.

Lemma same_tensor_refl t : same_tensor (fun i => i) t t.
Proof.
  induction t as [k|op args IH|i] using tensor_rec'; constructor.
  apply forall2_self. now apply Forall_forall.
Qed.

Lemma reordered_refl p : reordered p p (fun i => i).
Proof.
  constructor.
  - auto.
  - intros j c E. exists c. split; [exact E|]. split; [reflexivity|]. split; [reflexivity|].
    apply forall2_self. intros t _. apply same_tensor_refl.
  - apply forall2_self. intros o _. split; [reflexivity | apply same_tensor_refl].
Qed.

Section Run.
Context {V : Type}.
Variable op_value : nat -> list V -> V.
Variable analyze : nat -> list (list V) -> V.
Variable missing : V.
Variable dataset : list (string -> V).
Local Notation value := (value op_value missing).
Local Notation means := (means op_value analyze dataset).

(** ** The results of the first trace have their meaning *)
Lemma value_means p results n batch t :
  (forall i, i < n -> forall b, means p b (Result i) (nth i results missing)) ->
  refers_below n t -> means p batch t (value batch results t).
Proof.
  intros H. induction t as [k|op args IH|i] using tensor_rec'; intros R; inversion R as [|? ? F|]; subst; cbn [RetraceModel.value].
  - constructor.
  - constructor. apply forall2_map_r, forall2_self. intros a I.
    rewrite Forall_forall in IH, F. apply IH; auto.
  - apply H. assumption.
Qed.

Lemma run_means p cs results :
  (forall i c, nth_error (calls p) (length results + i) = nth_error cs i -> nth_error cs i = Some c ->
     Forall (refers_below (length results + i)) (sources c)) ->
  (forall i, nth_error (calls p) (length results + i) = nth_error cs i) ->
  (forall i, i < length results -> forall b, means p b (Result i) (nth i results missing)) ->
  forall i, i < length results + length cs ->
    forall b, means p b (Result i) (nth i (run_calls op_value analyze missing dataset results cs) missing).
Proof.
  revert results. induction cs as [|c cs IH]; intros results OR AT H i I b; cbn [run_calls].
  - apply H. cbn in I. lia.
  - set (r := analyze _ _).
    assert (LEN : length (results ++ [r]) = S (length results)) by (rewrite app_length; cbn; lia).
    apply IH.
    + intros j d E1 E2. rewrite LEN in *. rewrite Nat.add_succ_comm in *. apply (OR (S j)); assumption.
    + intros j. rewrite LEN, Nat.add_succ_comm. exact (AT (S j)).
    + intros j J b'. rewrite LEN in J. destruct (Nat.eq_dec j (length results)) as [->|NE].
      * rewrite app_nth2, Nat.sub_diag by lia. cbn [nth]. subst r. pose proof (AT 0) as A0.
        rewrite Nat.add_0_r in A0. cbn in A0.
        apply means_result; [exact A0|]. apply forall2_map_r, forall2_self. intros d _.
        apply forall2_map_r, forall2_self. intros t IT. apply value_means with (length results); [exact H|].
        specialize (OR 0 c). rewrite Nat.add_0_r in OR. specialize (OR A0 eq_refl).
        rewrite Forall_forall in OR. auto.
      * rewrite app_nth1 by lia. apply H. lia.
    + rewrite LEN. cbn in I. lia.
Qed.

Lemma run_length cs results :
  length (run_calls op_value analyze missing dataset results cs) = length results + length cs.
Proof.
  revert results. induction cs as [|c cs IH]; intros results; cbn [run_calls]; [cbn; lia|].
  rewrite IH, app_length. cbn. lia.
Qed.

Lemma results_mean p : in_order p -> forall i, i < length (calls p) ->
  forall b, means p b (Result i) (nth i (analyzer_results op_value analyze missing dataset p) missing).
Proof.
  intros OR. unfold analyzer_results. apply (run_means p (calls p) []); cbn [length]; [| reflexivity | lia].
  intros i c _ E. now apply OR.
Qed.

(** ** Reordering *)
Definition bound first again :=
  bound_results missing (evaluated_replacements op_value analyze missing dataset first) again.

(** Every call of the second trace has the name of its counterpart. *)
Definition names_kept (first again : program) (was : nat -> nat) : Prop :=
  forall j, j < length (calls again) ->
    nth_error (call_names [] (calls again)) j = nth_error (call_names [] (calls first)) (was j).

Lemma bound_kept first again was j : names_kept first again was ->
  (forall j, j < length (calls again) -> was j < length (calls first)) ->
  j < length (calls again) ->
  nth j (bound first again) missing = nth (was j) (analyzer_results op_value analyze missing dataset first) missing.
Proof.
  intros K RG J. pose proof (K j J) as KJ. pose proof (RG j J) as RJ.
  assert (exists n, nth_error (call_names [] (calls again)) j = Some n) as [n N].
  { destruct (nth_error _ j) eqn:E; [eauto|]. apply nth_error_None in E. rewrite names_length in E. lia. }
  rewrite N in KJ. symmetry in KJ.
  assert (LR : length (analyzer_results op_value analyze missing dataset first) = length (calls first)).
  { unfold analyzer_results. rewrite run_length. reflexivity. }
  assert (exists v, nth_error (analyzer_results op_value analyze missing dataset first) (was j) = Some v) as [v VV].
  { destruct (nth_error (analyzer_results op_value analyze missing dataset first) (was j)) eqn:E; [eauto|]. apply nth_error_None in E. lia. }
  rewrite (nth_error_nth _ _ missing VV). apply nth_error_nth. unfold bound, bound_results.
  erewrite map_nth_error by exact N. f_equal. unfold evaluated_replacements.
  erewrite lookup_dict; [reflexivity | apply names_nodup | | exact KJ | exact VV].
  rewrite names_length. now symmetry.
Qed.

Lemma value_same was results results' batch n t t' :
  (forall j, j < n -> nth j results missing = nth (was j) results' missing) ->
  refers_below n t -> same_tensor was t t' -> value batch results t = value batch results' t'.
Proof.
  intros H. revert t'. induction t as [k|op args IH|i] using tensor_rec'; intros t' R E;
    inversion R as [|? ? RA|]; subst; inversion E as [|? ? args' F|]; subst; cbn [RetraceModel.value].
  - reflexivity.
  - f_equal. clear R E. revert args' F. induction IH as [|a args IA _ IHargs]; intros args' F; inversion F as [|? a' ? l' EA F']; subst; [reflexivity|].
    inversion RA; subst. cbn [map]. f_equal; [now apply IA | now apply IHargs].
  - now apply H.
Qed.

Lemma same_refers was n m t t' : (forall j, j < n -> was j < m) ->
  refers_below n t -> same_tensor was t t' -> refers_below m t'.
Proof.
  intros H. revert t'. induction t as [k|op args IH|i] using tensor_rec'; intros t' R E;
    inversion R as [|? ? RA|]; subst; inversion E as [|? ? args' F|]; subst; constructor.
  - rewrite Forall_forall in *. intros a' I. destruct (Forall2_in_r _ _ _ _ F I) as (a & IA & SA).
    apply (IH a IA a'); auto.
  - now apply H.
Qed.

Lemma reordered_range first again was : reordered first again was ->
  forall j, j < length (calls again) -> was j < length (calls first).
Proof.
  intros R j J. destruct (nth_error (calls again) j) as [c|] eqn:E.
  - destruct (re_calls _ _ _ R j c E) as (c' & E' & _). apply nth_error_Some. congruence.
  - apply nth_error_None in E. lia.
Qed.

Lemma kept_right first again was batch :
  in_order first -> outputs_refer again -> reordered first again was -> names_kept first again was ->
  right op_value analyze dataset first batch (map (fun kt => (fst kt, value batch (bound first again) (snd kt))) (outputs again)).
Proof.
  intros OR REF R K. pose proof (reordered_range _ _ _ R) as RG. unfold right.
  pose proof (re_outputs _ _ _ R) as RO. unfold outputs_refer in REF.
  induction RO as [|o o' l l' [EN ET] _ IH]; [constructor|]. inversion REF as [|? ? RX REF']; subst.
  cbn [map]. constructor; [|now apply IH]. cbn [fst snd]. split; [exact EN|].
  rewrite (value_same was (bound first again) (analyzer_results op_value analyze missing dataset first)
            batch (length (calls again)) (snd o) (snd o')); [| | exact RX | exact ET].
  - apply value_means with (length (calls first)); [now apply results_mean|].
    eapply same_refers; [exact RG | exact RX | exact ET].
  - intros j J. now apply bound_kept.
Qed.

Lemma same_call_keys was c c' : same_call was c c' -> forall key, call_reads key c <-> call_reads key c'.
Proof.
  intros (_ & _ & F) key. split; intros (t & I & RK).
  - destruct (Forall2_in_l _ _ _ _ F I) as (t' & I' & E). exists t'. split; [exact I'|]. now apply (same_tensor_reads was t t').
  - destruct (Forall2_in_r _ _ _ _ F I) as (t' & I' & E). exists t'. split; [exact I'|]. now apply (same_tensor_reads was t' t).
Qed.

Lemma lookup_fingerprint p i n c :
  nth_error (call_names [] (calls p)) i = Some n -> nth_error (calls p) i = Some c ->
  lookup n (fingerprint p) = Some (call_source_keys c).
Proof.
  intros E1 E2. unfold fingerprint. apply lookup_dict with i; [apply names_nodup | | exact E1 | now apply map_nth_error].
  now rewrite names_length, map_length.
Qed.

Lemma in_names p n : In n (call_names [] (calls p)) ->
  exists i c, nth_error (call_names [] (calls p)) i = Some n /\ nth_error (calls p) i = Some c.
Proof.
  intros I. apply In_nth_error in I. destruct I as [i E]. destruct (nth_error (calls p) i) as [c|] eqn:C; [eauto|].
  apply nth_error_None in C. assert (nth_error (call_names [] (calls p)) i <> None) as NN by congruence.
  apply nth_error_Some in NN. rewrite names_length in NN. lia.
Qed.

(** Kept names are accepted. *)
Lemma kept_valid first again was :
  reordered first again was -> names_kept first again was -> validate (fingerprint first) again = true.
Proof.
  intros R K. unfold validate. apply forallb_forall. intros n I.
  destruct (in_names _ _ I) as (j & c & EN & EC).
  destruct (re_calls _ _ _ R j c EC) as (c' & EC' & SC).
  assert (J : j < length (calls again)) by (apply nth_error_Some; congruence).
  pose proof (K j J) as KJ. rewrite EN in KJ. symmetry in KJ.
  rewrite (lookup_fingerprint _ _ _ _ EN EC), (lookup_fingerprint _ _ _ _ KJ EC').
  apply same_keys_spec. intros k. rewrite !call_keys_spec. symmetry. eapply same_call_keys; eassumption.
Qed.

(** When sources tell the calls apart, an accepted trace keeps names. *)
Lemma valid_kept first again was : reordered first again was -> read_apart first ->
  validate (fingerprint first) again = true -> names_kept first again was.
Proof.
  intros R AP VA j J. unfold validate in VA. rewrite forallb_forall in VA.
  destruct (nth_error (calls again) j) as [c|] eqn:EC; [|apply nth_error_None in EC; lia].
  destruct (nth_error (call_names [] (calls again)) j) as [n|] eqn:EN;
    [|apply nth_error_None in EN; rewrite names_length in EN; lia].
  specialize (VA n (nth_error_In _ _ EN)). rewrite (lookup_fingerprint _ _ _ _ EN EC) in VA.
  destruct (lookup n (fingerprint first)) as [ks|] eqn:L; [|discriminate].
  unfold fingerprint in L. apply lookup_dict_inv in L. destruct L as (i & EI & EK).
  destruct (nth_error (calls first) i) as [d|] eqn:ED; [|rewrite nth_error_map, ED in EK; discriminate].
  erewrite map_nth_error in EK by exact ED. injection EK as <-.
  destruct (re_calls _ _ _ R j c EC) as (c' & EC' & SC).
  assert (i = was j) as <-; [|now symmetry].
  apply (AP i (was j) d c' ED EC'). intros key. rewrite <- (same_call_keys _ _ _ SC key).
  rewrite <- !call_keys_spec. now apply same_keys_spec.
Qed.

(** Scopes of their own are the names. *)
Lemma names_of_apart p : named_apart p -> call_names [] (calls p) = map scope (calls p).
Proof. intros N. apply names_apart; [exact N | reflexivity]. Qed.

Lemma apart_again first again was : reordered first again was -> named_apart first -> named_apart again.
Proof.
  unfold named_apart. intros R N. apply NoDup_nth_error. intros i j I E. rewrite map_length in I.
  rewrite !nth_error_map in E.
  destruct (nth_error (calls again) i) as [c|] eqn:EI; [|apply nth_error_None in EI; lia].
  destruct (nth_error (calls again) j) as [d|] eqn:EJ; [|discriminate]. cbn in E. injection E as E.
  assert (J : j < length (calls again)) by (apply nth_error_Some; congruence).
  destruct (re_calls _ _ _ R i c EI) as (c' & EI' & (SC & _)).
  destruct (re_calls _ _ _ R j d EJ) as (d' & EJ' & (SD & _)).
  apply (re_once _ _ _ R); [exact I | exact J |].
  rewrite NoDup_nth_error in N. apply N.
  - rewrite map_length. apply nth_error_Some. congruence.
  - rewrite !nth_error_map, EI', EJ'. cbn. congruence.
Qed.

Lemma apart_kept first again was : reordered first again was -> named_apart first -> names_kept first again was.
Proof.
  intros R N j J. rewrite (names_of_apart first N), (names_of_apart again (apart_again _ _ _ R N)), !nth_error_map.
  destruct (nth_error (calls again) j) as [c|] eqn:E; [|apply nth_error_None in E; lia].
  destruct (re_calls _ _ _ R j c E) as (c' & E' & (SC & _)). rewrite E'. cbn. congruence.
Qed.

(** ** The theorems *)
Lemma kept_transform first again was batch :
  in_order first -> outputs_refer again -> reordered first again was -> names_kept first again was ->
  exists outs, write_and_transform op_value analyze missing dataset first again batch = Some outs /\
    right op_value analyze dataset first batch outs.
Proof.
  intros OR REF R K. unfold write_and_transform. rewrite (kept_valid first again was R K).
  eexists. split; [reflexivity|]. now apply kept_right with was.
Qed.

Lemma same_order p batch : in_order p -> outputs_refer p ->
  exists outs, write_and_transform op_value analyze missing dataset p p batch = Some outs /\ right op_value analyze dataset p batch outs.
Proof. intros OR REF. apply kept_transform with (fun i => i); [exact OR | exact REF | apply reordered_refl | now intros j _]. Qed.

Lemma named first again was batch : in_order first -> outputs_refer again ->
  reordered first again was -> named_apart first ->
  exists outs, write_and_transform op_value analyze missing dataset first again batch = Some outs /\
    right op_value analyze dataset first batch outs.
Proof. intros OR REF R N. apply kept_transform with was; auto using apart_kept. Qed.

Lemma distinct_sources first again was batch outs : in_order first -> outputs_refer again ->
  reordered first again was -> read_apart first ->
  write_and_transform op_value analyze missing dataset first again batch = Some outs -> right op_value analyze dataset first batch outs.
Proof.
  intros OR REF R N E. unfold write_and_transform in E.
  destruct (validate (fingerprint first) again) eqn:VA; [|discriminate]. injection E as <-.
  apply kept_right with was; auto. now apply valid_kept.
Qed.

(** Whatever the second trace is, an accepted one gets for each of its calls the
    result of a call of the first that reads the same inputs. *)
Lemma detects first again batch outs : in_order first ->
  write_and_transform op_value analyze missing dataset first again batch = Some outs ->
  exists results,
    Forall2 (fun c v => exists i c', nth_error (calls first) i = Some c' /\
               (forall key, call_reads key c <-> call_reads key c') /\
               forall b, means first b (Result i) v) (calls again) results /\
    outs = map (fun o => (fst o, value batch results (snd o))) (outputs again).
Proof.
  intros OR E. unfold write_and_transform in E.
  destruct (validate (fingerprint first) again) eqn:VA; [|discriminate]. injection E as <-.
  exists (bound first again). split; [|reflexivity]. unfold bound, bound_results.
  unfold validate in VA. rewrite forallb_forall in VA.
  assert (LN : length (call_names [] (calls again)) = length (calls again)) by apply names_length.
  assert (LR : length (analyzer_results op_value analyze missing dataset first) = length (calls first)).
  { unfold analyzer_results. rewrite run_length. reflexivity. }
  apply forall2_map_r.
  assert (G : forall j n c, nth_error (call_names [] (calls again)) j = Some n -> nth_error (calls again) j = Some c ->
    exists i c', nth_error (calls first) i = Some c' /\
               (forall key, call_reads key c <-> call_reads key c') /\
               forall b, means first b (Result i)
                 match lookup n (evaluated_replacements op_value analyze missing dataset first) with
                 | Some v => v | None => missing end).
  { intros j n c EN EC. specialize (VA n (nth_error_In _ _ EN)). rewrite (lookup_fingerprint _ _ _ _ EN EC) in VA.
    destruct (lookup n (fingerprint first)) as [ks|] eqn:L; [|discriminate].
    unfold fingerprint in L. apply lookup_dict_inv in L. destruct L as (i & EI & EK).
    destruct (nth_error (calls first) i) as [d|] eqn:ED; [|rewrite nth_error_map, ED in EK; discriminate].
    erewrite map_nth_error in EK by exact ED. injection EK as <-. exists i, d. split; [exact ED|]. split.
    - intros key. rewrite <- !call_keys_spec. symmetry. now apply same_keys_spec.
    - intros b. assert (I : i < length (calls first)) by (apply nth_error_Some; congruence).
      unfold evaluated_replacements. erewrite lookup_dict; [now apply results_mean | apply names_nodup | | exact EI |].
      + rewrite names_length. now symmetry.
      + apply nth_error_nth'. lia. }
  clear VA. revert LN G. generalize (call_names [] (calls again)). generalize (calls again).
  induction l as [|c cs IH]; intros [|n ns] LN G; try discriminate; constructor.
  - exact (G 0 n c eq_refl eq_refl).
  - apply IH; [now injection LN|]. intros j. exact (G (S j)).
Qed.
End Run.

(** The meaning is unique. *)
Lemma means_unique {V} op_value analyze dataset p : in_order p ->
  forall n t, refers_below n t -> forall (batch : string -> V) v w,
  means op_value analyze dataset p batch t v -> means op_value analyze dataset p batch t w -> v = w.
Proof.
  intros OR. assert (F2 : forall A (R : A -> V -> Prop) l r r', (forall a v w, In a l -> R a v -> R a w -> v = w) ->
    Forall2 R l r -> Forall2 R l r' -> r = r').
  { intros A R l r r' H F. revert r'. induction F as [|a b l r RA F IH]; intros r' F'; inversion F' as [|? b' ? r2 RB F2]; subst; [reflexivity|].
    f_equal; [apply (H a); auto; now left | apply IH; [|assumption]]. intros c v w I. apply H. now right. }
  intros n. induction n as [n IHn] using lt_wf_ind.
  intros t. induction t as [k|op args IH|i] using tensor_rec'; intros RB batch v w M1 M2;
    inversion RB as [|? ? RA|]; subst; inversion M1 as [|? ? vs1 X1|? c1 rows1 C1 X1]; subst; inversion M2 as [|? ? vs2 X2|? c2 rows2 C2 X2]; subst.
  - reflexivity.
  - f_equal. rewrite Forall_forall in IH, RA. eapply F2; [|exact X1|exact X2]. intros a x y I. apply IH; auto.
  - rewrite C1 in C2. injection C2 as <-. f_equal.
    assert (ROWS : forall (ds : list (string -> V)) r r',
       Forall2 (fun b row => Forall2 (means op_value analyze dataset p b) (sources c1) row) ds r ->
       Forall2 (fun b row => Forall2 (means op_value analyze dataset p b) (sources c1) row) ds r' -> r = r').
    { intros ds r r' G. revert r'. induction G as [|b row ds r GB G IHG]; intros r' G'; inversion G' as [|? row' ? r2 GB' G2]; subst; [reflexivity|].
      f_equal; [|now apply IHG]. eapply F2; [|exact GB|exact GB']. intros a x y I. apply (IHn i); [assumption|].
      pose proof (OR i c1 C1) as O. rewrite Forall_forall in O. auto. }
    exact (ROWS _ _ _ X1 X2).
Qed.
