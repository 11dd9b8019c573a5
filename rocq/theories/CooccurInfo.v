(** Proofs about what a batch contributes to a vocabulary ranked by mutual information (C64): from the batches to the information of a token. *)
From Coq Require Import String List ZArith QArith Qreals Reals Bool Arith Lia Lra Setoid Permutation.
From Verif Require Import CombineModel CombineProofs FloatModel MeanVarSpec MeanVarProofs WeightedModel WeightedSpec WeightedProofs InfoModel InfoToken InfoLink.
From Verif Require InfoSpec InfoProofs.
From Verif Require Import CooccurModel CooccurSpec CooccurProofs CooccurRows CooccurBatch CooccurUnweighted.
Import ListNotations.
Local Open Scope nat_scope.
Local Notation length := List.length.

Section Dataset.
Variable token : Type.
Variable token_eqb : token -> token -> bool.
Hypothesis token_spec : forall a b, reflect (a = b) (token_eqb a b).
Variable sentinel_token : token.
Variable f : option (token -> bool).
Variables (batches : list (a_batch token)) (results : list (reduced token)).
Hypothesis right : Forall2 (fun b r => is_batch token (b_x token b) (b_y token b) (b_weights token b) (b_rows token b) /\
  vocabulary_inputs token token_eqb sentinel_token (b_x token b) (b_y token b) (b_weights token b) f = Some r) batches results.
Let es := concat (map (entries token) results).
Let rows := concat (map (b_rows token) batches).

Lemma occurs_count t (rs : list (row token)) r0 : In r0 rs -> In t (tokens token r0) -> 0 < token_count token token_eqb t rs.
Proof.
  intros I0 It. unfold token_count. induction rs as [|r1 rs IH]; [destruct I0|]. cbn [map list_sum fold_right]. fold (list_sum (map (times token token_eqb t) rs)). destruct I0 as [->|I0]; [|specialize (IH I0); lia].
  assert (P : 0 < times token token_eqb t r0); [|lia]. unfold times. assert (H : In t (filter (token_eqb t) (tokens token r0))) by (apply filter_In; split; [exact It|]; destruct (token_spec t t); congruence).
  destruct (filter _ _); [destruct H|cbn; lia].
Qed.
Lemma counts_positive k e : In (k, e) es -> 0 < snd e.
Proof.
  unfold es. clear es rows. induction right as [|b r bs rs [B R] F IH]; cbn [map concat]; [intros []|]. intros I. apply in_app_iff in I as [I|I]; [|exact (IH F I)].
  destruct (batch_right token token_eqb token_spec sentinel_token (b_x token b) (b_y token b) (b_weights token b) (b_rows token b) B f) as (r' & known & m & total & R' & _ & V & _ & K & En & T & Tr).
  rewrite R in R'. injection R' as <-. apply In_nth_error in I as (i & I).
  assert (Ln : length (entries token r) = S (length known)) by (rewrite <- (map_length fst), K, app_length; cbn; lia).
  assert (Li : i < length (entries token r)) by (apply nth_error_Some; congruence).
  destruct (Nat.eq_dec i (length known)) as [->|Ne].
  - rewrite I in T. injection T as _ ->. destruct total as [[w p] c]. destruct Tr as (_ & _ & _ & ->). cbn [snd]. destruct B as (Nr & _). destruct (b_rows token b); [congruence|cbn; lia].
  - assert (I1 : In (k, e) (firstn (length known) (entries token r))).
    { apply nth_error_In with (n := i). rewrite <- I. rewrite <- (firstn_skipn (length known) (entries token r)) at 2. symmetry. apply nth_error_app1. rewrite firstn_length. lia. }
    specialize (En k e I1). destruct e as [[w p] c]. destruct En as (_ & _ & _ & ->). cbn [snd].
    assert (Ik : In k known).
    { assert (Ik : nth_error (map fst (entries token r)) i = Some k) by (now rewrite nth_error_map, I). rewrite K, nth_error_app1 in Ik by lia. now apply nth_error_In in Ik. }
    apply V in Ik as (_ & r0 & I0 & It). exact (occurs_count k _ r0 I0 It).
Qed.

Lemma under_positive key : Forall (fun b => (0 < snd b)%Z) (under token token_eqb key es).
Proof. apply Forall_forall. intros b I. unfold under in I. apply in_map_iff in I as ([k e] & <- & I). apply filter_In in I as [I _]. apply counts_positive in I. cbn [snd]. lia. Qed.
Lemma under_counts key : batch_counts (under token token_eqb key es) = Z.of_nat (sum_count token (token_eqb key) es).
Proof.
  unfold batch_counts, under, sum_count. rewrite map_map. cbn [snd]. induction (filter _ es) as [|e l IH]; [reflexivity|]. cbn [map fold_right list_sum]. rewrite IH. unfold list_sum. lia.
Qed.
Lemma under_labels key j : batch_labels j (under token token_eqb key es) = sum_label_weight token (token_eqb key) j es.
Proof. unfold batch_labels, under, sum_label_weight. now rewrite map_map. Qed.

Lemma batch_counts_perm a b : Permutation a b -> batch_counts a = batch_counts b.
Proof. unfold batch_counts. induction 1; cbn [map fold_right]; lia. Qed.
Lemma batch_labels_perm j a b : Permutation a b -> (batch_labels j a == batch_labels j b)%Q.
Proof. unfold batch_labels, qsum. induction 1; cbn [map fold_right]; [reflexivity|rewrite IHPermutation; reflexivity|ring|now rewrite IHPermutation1]. Qed.

Lemma key_right key s n (Y : nat -> Q) : Permutation (batches_of s) (under token token_eqb key es) -> sum_count token (token_eqb key) es = n -> 0 < n ->
  (forall j, (sum_label_weight token (token_eqb key) j es == Y j)%Q) ->
  let a := unweighted_statistics s in
  wm_count a = Z.of_nat n /\ wm_weight a = Fin 1 /\ forall j, exists m, nth j (wm_mean a) (Fin 0) = Fin m /\ (m == Y j / qnat n)%Q.
Proof.
  intros P Cn Pn Yn a. destruct (unweighted_exact s) as (A & B & C).
  - eapply Permutation_Forall; [symmetry; exact P|apply under_positive].
  - intros E. rewrite E in P. apply Permutation_nil in P. pose proof (under_counts key) as U. rewrite P, Cn in U. cbn in U. lia.
  - fold a in A, B, C. rewrite (batch_counts_perm _ _ P), under_counts, Cn in A. repeat split; [exact A|exact B|]. intros j. destruct (C j) as (m & Em & Hm). exists m. split; [exact Em|].
    rewrite Hm, (batch_counts_perm _ _ P), under_counts, Cn, (batch_labels_perm j _ _ P), under_labels, (Yn j). reflexivity.
Qed.

Theorem unweighted_right :
  (forall t s, kept token f t -> t <> sentinel_token -> (exists r, In r rows /\ In t (tokens token r)) -> Permutation (batches_of s) (under token token_eqb t es) ->
    let a := unweighted_statistics s in
    wm_count a = Z.of_nat (token_count token token_eqb t rows) /\ wm_weight a = Fin 1 /\
    forall j, exists m, nth j (wm_mean a) (Fin 0) = Fin m /\ (m == token_label_weight token token_eqb t j rows / qnat (token_count token token_eqb t rows))%Q) /\
  (forall s, rows <> [] -> (forall r, In r rows -> ~ In sentinel_token (tokens token r)) -> Permutation (batches_of s) (under token token_eqb sentinel_token es) ->
    let a := unweighted_statistics s in
    wm_count a = Z.of_nat (length rows) /\ wm_weight a = Fin 1 /\
    forall j, exists m, nth j (wm_mean a) (Fin 0) = Fin m /\ (m == rows_label_weight token j rows / qnat (length rows))%Q).
Proof.
  destruct (dataset_right token token_eqb token_spec sentinel_token f batches results right) as (_ & D & G). fold es rows in D, G. split.
  - intros t s K Ne Oc P. destruct (D t K Ne) as (_ & Dl & Dc). apply (key_right t); [exact P|exact Dc| |exact Dl].
    destruct Oc as (r0 & I0 & It). exact (occurs_count t _ r0 I0 It).
  - intros s Nr NS P. destruct (G NS) as (_ & Dl & Dc). apply (key_right sentinel_token); [exact P|exact Dc| |exact Dl]. destruct rows; [congruence|cbn; lia].
Qed.
End Dataset.

(** ** The information of a token, without weights *)
Section Information.
Local Notation row := (CooccurSpec.row string).
Local Notation tokens := (CooccurSpec.tokens string).
Local Notation row_labels := (CooccurSpec.row_labels string).
Local Notation row_weight := (CooccurSpec.row_weight string).
Local Open Scope R_scope.

Definition seen (f : option (string -> bool)) (t : string) (r : row) : InfoSpec.row := InfoSpec.tagged t (labelled_row f r).

Lemma seen_times f t r : kept string f t -> plain_row r -> times string String.eqb t r = if InfoSpec.has (seen f t r) then 1%nat else 0%nat.
Proof.
  intros K (N & _). unfold seen, InfoSpec.tagged, labelled_row. cbn [InfoSpec.has fst]. unfold times.
  assert (E : existsb (String.eqb t) (filter (fun t0 => match f with Some m => negb (m t0) | None => true end) (tokens r)) = existsb (String.eqb t) (tokens r)).
  { clear N. induction (tokens r) as [|u us IH]; [reflexivity|]. cbn [filter existsb]. destruct (String.eqb_spec t u) as [<-|Ne].
    - replace (match f with Some m => negb (m t) | None => true end) with true by (unfold kept in K; destruct f; [now rewrite K|reflexivity]). cbn [existsb]. now rewrite String.eqb_refl.
    - destruct (match f with Some m => negb (m u) | None => true end); cbn [existsb]; [|exact IH]. apply String.eqb_neq in Ne. rewrite Ne. exact IH. }
  rewrite E. clear E K. induction (tokens r) as [|u us IH]; [reflexivity|]. inversion N as [|? ? Nu Nus]; subst. specialize (IH Nus). cbn [filter existsb]. destruct (String.eqb_spec t u) as [<-|Ne]; cbn [orb]; [|exact IH].
  cbn [List.length]. rewrite IH. replace (existsb (String.eqb t) us) with false; [reflexivity|]. symmetry. apply not_true_is_false. intros X. apply existsb_exists in X as (v & I & X). apply String.eqb_eq in X as <-. contradiction.
Qed.
Lemma seen_label f t r j : plain_row r -> label_times string j r = if (InfoSpec.label (seen f t r) =? j)%nat then 1%nat else 0%nat.
Proof.
  intros (_ & _ & l & E & P). unfold seen, InfoSpec.tagged, labelled_row, label_times. rewrite E. cbn [InfoSpec.label snd lab_label hd filter].
  destruct (Z.eqb_spec (Z.of_nat j) l) as [<-|Ne]; [now rewrite Nat2Z.id, Nat.eqb_refl|]. destruct (Nat.eqb_spec (Z.to_nat l) j) as [<-|_]; [lia|reflexivity].
Qed.
Lemma seen_weight f t r : plain_row r -> InfoSpec.weight (seen f t r) = 1.
Proof. intros (_ & W & _). unfold seen, InfoSpec.tagged, labelled_row. cbn [InfoSpec.weight snd lab_weight]. rewrite W. unfold Q2R. cbn. lra. Qed.

Section Rows.
Variables (f : option (string -> bool)) (t : string) (rows : list row).
Hypothesis plain : forall r, In r rows -> plain_row r.
Let data := map (seen f t) rows.

Lemma data_unit r : In r data -> InfoSpec.weight r = 1.
Proof. intros I. apply in_map_iff in I as (r0 & <- & I). now apply seen_weight, plain. Qed.
Lemma count_having : kept string f t -> token_count string String.eqb t rows = length (InfoSpec.having data).
Proof.
  intros K. unfold token_count, data, InfoSpec.having. clear data. induction rows as [|r rs IH]; [reflexivity|]. cbn [map list_sum fold_right filter]. fold (list_sum (map (times string String.eqb t) rs)).
  rewrite IH by (intros r' I; apply plain; cbn; auto). rewrite (seen_times f t r K) by (apply plain; cbn; auto). destruct (InfoSpec.has (seen f t r)); reflexivity.
Qed.
Lemma label_having j : kept string f t -> Q2R (token_label_weight string String.eqb t j rows) = InfoSpec.size (InfoSpec.labelled j (InfoSpec.having data)).
Proof.
  intros K. unfold token_label_weight, qsum, data, InfoSpec.having, InfoSpec.labelled, InfoSpec.size, InfoSpec.total. clear data. induction rows as [|r rs IH]; [unfold Q2R; cbn; lra|].
  assert (Pr := plain r (or_introl eq_refl)). cbn [map fold_right filter]. rewrite Q2R_plus, IH by (intros r' I; apply plain; cbn; auto).
  rewrite (seen_times f t r K Pr), (seen_label f t r j Pr). pose proof (seen_weight f t r Pr) as W. destruct Pr as (_ & W1 & _). rewrite W1.
  assert (Z0 : Q2R 0 = 0) by (unfold Q2R; cbn; lra). assert (Z1 : Q2R 1 = 1) by (unfold Q2R; cbn; lra).
  assert (E0 : (qnat 0 == 0)%Q) by reflexivity. assert (E1 : (qnat 1 == 1)%Q) by reflexivity.
  destruct (InfoSpec.has (seen f t r)); cbn [filter]; destruct (InfoSpec.label (seen f t r) =? j)%nat; cbn [fold_right]; rewrite ?W.
  - f_equal. rewrite (Qeq_eqR _ 1); [exact Z1|]. now rewrite E1.
  - rewrite (Qeq_eqR _ 0); [lra|]. now rewrite E1, E0.
  - rewrite (Qeq_eqR _ 0); [lra|]. now rewrite E1, E0.
  - rewrite (Qeq_eqR _ 0); [lra|]. now rewrite E0.
Qed.
Lemma label_all j : Q2R (rows_label_weight string j rows) = InfoSpec.size (InfoSpec.labelled j data).
Proof.
  unfold rows_label_weight, qsum, data, InfoSpec.labelled, InfoSpec.size, InfoSpec.total. clear data. induction rows as [|r rs IH]; [unfold Q2R; cbn; lra|].
  assert (Pr := plain r (or_introl eq_refl)). cbn [map fold_right filter]. rewrite Q2R_plus, IH by (intros r' I; apply plain; cbn; auto).
  rewrite (seen_label f t r j Pr). pose proof (seen_weight f t r Pr) as W. destruct Pr as (_ & W1 & _). rewrite W1.
  assert (Z0 : Q2R 0 = 0) by (unfold Q2R; cbn; lra). assert (Z1 : Q2R 1 = 1) by (unfold Q2R; cbn; lra).
  assert (E0 : (qnat 0 == 0)%Q) by reflexivity. assert (E1 : (qnat 1 == 1)%Q) by reflexivity.
  destruct (InfoSpec.label (seen f t r) =? j)%nat; cbn [fold_right]; rewrite ?W.
  - f_equal. rewrite (Qeq_eqR _ 1); [exact Z1|]. now rewrite E1.
  - rewrite (Qeq_eqR _ 0); [lra|]. now rewrite E0.
Qed.
Lemma described a n (Y : nat -> Q) l : (forall r, In r l -> InfoSpec.weight r = 1) -> (0 < n)%nat -> wm_count a = Z.of_nat n -> wm_weight a = Fin 1 ->
  (forall j, exists m, nth j (wm_mean a) (Fin 0) = Fin m /\ (m == Y j / qnat n)%Q) ->
  n = length l -> (forall j, Q2R (Y j) = InfoSpec.size (InfoSpec.labelled j l)) ->
  InfoSpec.describes (acc_count (real_accumulator a)) (acc_mean (real_accumulator a)) (acc_weight (real_accumulator a)) l.
Proof.
  intros U Pn C W M En EY. unfold real_accumulator. cbn [acc_count acc_mean acc_weight]. rewrite C, W. cbn [real].
  assert (S : InfoSpec.size l = INR n) by (rewrite (size_length l U); now rewrite En).
  unfold InfoSpec.describes. rewrite S. repeat split.
  - now rewrite En, INR_IZR_INZ.
  - rewrite INR_IZR_INZ. unfold Q2R. cbn. lra.
  - intros j. rewrite real_nth. destruct (M j) as (m & -> & Hm). cbn [real]. rewrite (Qeq_eqR _ _ Hm). assert (Nz : ~ (qnat n == 0)%Q) by (unfold qnat, inject_Z, Qeq; cbn; lia).
    rewrite Q2R_div, EY by exact Nz. replace (Q2R (qnat n)) with (INR n) by (rewrite INR_IZR_INZ; unfold Q2R, qnat; cbn; lra). field. apply not_0_INR. lia.
Qed.
End Rows.

Theorem unweighted_information f (batches : list (a_batch string)) (results : list (reduced string)) :
  Forall2 (fun b r => is_batch string (b_x _ b) (b_y _ b) (b_weights _ b) (b_rows _ b) /\
    vocabulary_inputs string String.eqb sentinel (b_x _ b) (b_y _ b) (b_weights _ b) f = Some r) batches results ->
  let es := concat (map (entries string) results) in
  let rows := concat (map (b_rows string) batches) in
  (forall r, In r rows -> plain_row r) -> (forall r, In r rows -> ~ In sentinel (tokens r)) ->
  forall t s sg, kept string f t -> t <> sentinel -> (exists r, In r rows /\ In t (tokens r)) -> (exists r, In r rows /\ ~ In t (tokens r)) ->
  Permutation (batches_of s) (under string String.eqb t es) -> Permutation (batches_of sg) (under string String.eqb sentinel es) ->
  let data := map (InfoSpec.tagged t) (map (labelled_row f) rows) in
  forall lgamma min_diff p ls, (forall j, InfoSpec.moved (InfoSpec.share j (InfoSpec.having data)) (p j)) -> InfoSpec.lists_counted min_diff p data ls ->
  let information := InfoSpec.total (fun j => InfoSpec.about_label (InfoSpec.size (InfoSpec.having data)) (p j) (InfoSpec.share j data)) ls in
  calculate_mutual_information lgamma false min_diff (real_accumulator (unweighted_statistics s)) (real_accumulator (unweighted_statistics sg))
    = Information information (InfoSpec.size (InfoSpec.having data)) /\
  (InfoSpec.is_lgamma lgamma -> forall arrs, InfoSpec.all_arrangements (length data) (length (InfoSpec.having data)) arrs ->
    calculate_mutual_information lgamma true min_diff (real_accumulator (unweighted_statistics s)) (real_accumulator (unweighted_statistics sg))
    = Information (information - InfoSpec.average (fun bs => InfoSpec.total (fun j => InfoSpec.exact_about j (InfoSpec.rearranged bs data)) ls) arrs) (InfoSpec.size (InfoSpec.having data))).
Proof.
  intros R es rows Pl NS t s sg K Ne Oc Ab P Pg data lgamma min_diff p ls Mv LC information.
  destruct (unweighted_right string String.eqb String.eqb_spec sentinel f batches results R) as [T G]. fold es rows in T, G.
  assert (Nr : rows <> []) by (destruct Oc as (r & I & _); intros E; rewrite E in I; exact I).
  destruct (T t s K Ne Oc P) as (T1 & T2 & T3). destruct (G sg Nr NS Pg) as (G1 & G2 & G3).
  assert (Ed : data = map (seen f t) rows) by (unfold data; now rewrite map_map).
  assert (U : forall r, In r data -> InfoSpec.weight r = 1) by (rewrite Ed; now apply data_unit).
  assert (Uh : forall r, In r (InfoSpec.having data) -> InfoSpec.weight r = 1) by (intros r I; apply filter_In in I as [I _]; auto).
  assert (Pc : (0 < token_count string String.eqb t rows)%nat) by (destruct Oc as (r0 & I0 & It); exact (occurs_count string String.eqb String.eqb_spec t rows r0 I0 It)).
  assert (Dt : InfoSpec.describes (acc_count (real_accumulator (unweighted_statistics s))) (acc_mean (real_accumulator (unweighted_statistics s))) (acc_weight (real_accumulator (unweighted_statistics s))) (InfoSpec.having data)).
  { apply (described _ (token_count string String.eqb t rows) (fun j => token_label_weight string String.eqb t j rows)); try assumption; rewrite Ed; [now apply count_having|intros j; now apply label_having]. }
  assert (Dg : InfoSpec.describes (acc_count (real_accumulator (unweighted_statistics sg))) (acc_mean (real_accumulator (unweighted_statistics sg))) (acc_weight (real_accumulator (unweighted_statistics sg))) data).
  { apply (described _ (length rows) (fun j => rows_label_weight string j rows)); try assumption; [destruct rows; [congruence|cbn; lia]|now rewrite Ed, map_length|intros j; rewrite Ed; now apply label_all]. }
  assert (NN : nonneg data) by (intros r I; rewrite (U r I); lra).
  assert (Sz : 0 < InfoSpec.size (InfoSpec.having data)).
  { rewrite (size_length _ Uh). apply lt_0_INR. rewrite Ed, <- (count_having f t rows Pl K). exact Pc. }
  assert (NE : exists r, In r data /\ InfoSpec.has r = false).
  { destruct Ab as (r & Ir & Nt). exists (seen f t r). rewrite Ed. split; [now apply in_map|]. apply not_true_is_false. intros X. unfold seen, InfoSpec.tagged, labelled_row in X. cbn [InfoSpec.has fst] in X.
    apply existsb_exists in X as (v & I & X). apply String.eqb_eq in X as <-. apply filter_In in I as [I _]. contradiction. }
  pose proof (rounds_apart data (or_intror (conj U NE))) as Ra. unfold real_accumulator in *. cbn [acc_count acc_mean acc_weight] in Dt, Dg. split.
  - unfold information. eapply information_right; try eassumption; lia.
  - intros LG arrs AL. rewrite (size_length data U), (size_length (InfoSpec.having data) Uh), !InfoProofs.py_round_INR in Ra. unfold information. eapply adjusted_right; try eassumption. lia.
Qed.
End Information.
