(** Proofs about what a batch contributes to a vocabulary ranked by mutual information (C64): batches and datasets. *)
From Coq Require Import List ZArith QArith Bool Arith Lia Setoid.
From Verif Require Import FloatModel WeightedModel CooccurModel CooccurSpec CooccurProofs CooccurRows.
Import ListNotations.
Local Open Scope nat_scope.

Lemma sumq_qsum l : sumq l = qsum l.
Proof. reflexivity. Qed.
Lemma qsum_app a b : (qsum (a ++ b) == qsum a + qsum b)%Q.
Proof. unfold qsum. induction a as [|x a IH]; cbn [app fold_right]; [ring|]. rewrite IH. ring. Qed.
Lemma qsum_plus {A} (f g : A -> Q) l : (qsum (map (fun a => f a + g a) l) == qsum (map f l) + qsum (map g l))%Q.
Proof. unfold qsum. induction l as [|a l IH]; cbn [map fold_right]; [ring|]. rewrite IH. ring. Qed.
Lemma qsum_zero {A} (l : list A) : (qsum (map (fun _ => 0) l) == 0)%Q.
Proof. unfold qsum. induction l as [|a l IH]; cbn [map fold_right]; [ring|]. rewrite IH. ring. Qed.
Lemma qsum_ext {A} (f g : A -> Q) l : (forall a, In a l -> (f a == g a)%Q) -> (qsum (map f l) == qsum (map g l))%Q.
Proof.
  unfold qsum. induction l as [|a l IH]; intros H; cbn [map fold_right]; [ring|]. rewrite IH by (intros; apply H; cbn; auto). rewrite (H a) by (cbn; auto). ring.
Qed.
Lemma qnat_S n : (qnat (S n) == 1 + qnat n)%Q.
Proof. unfold qnat. rewrite Nat2Z.inj_succ, <- Z.add_1_l, inject_Z_plus. reflexivity. Qed.
Lemma qsum_const {A} (w : Q) (l : list A) : (qsum (map (fun _ => w) l) == qnat (length l) * w)%Q.
Proof.
  unfold qsum. induction l as [|a l IH]; cbn [map fold_right length]; [unfold qnat; cbn; ring|]. rewrite IH, qnat_S. ring.
Qed.
Lemma fold_left_qsum {A} (f : A -> Q) l : forall s, (fold_left (fun s c => s + f c) l s == s + qsum (map f l))%Q.
Proof. unfold qsum. induction l as [|a l IH]; intros s; cbn [fold_left map fold_right]; [ring|]. rewrite IH. ring. Qed.

Section Batch.
Variable token : Type.
Variable token_eqb : token -> token -> bool.
Hypothesis token_spec : forall a b, reflect (a = b) (token_eqb a b).
Variable sentinel_token : token.
Local Notation unique := (unique token token_eqb).
Local Notation ctoken := (ctoken token).
Local Notation clabel := (clabel token).
Local Notation cweight := (cweight token).
Local Notation row := (row token).
Local Notation tokens := (tokens token).
Local Notation row_labels := (row_labels token).
Local Notation row_weight := (row_weight token).
Local Notation times := (times token token_eqb).

Definition keptb (f : option (token -> bool)) (t : token) : bool := match f with None => true | Some g => negb (g t) end.
Lemma kept_b f t : kept token f t <-> keptb f t = true.
Proof. unfold kept, keptb. destruct f as [g|]; [|tauto]. destruct (g t); cbn; intuition congruence. Qed.

(** The cells of one row that count. *)
Lemma row_cells f t (p : Z -> bool) ts y w : keptb f t = true ->
  (qsum (map cweight (filter (fun k => token_eqb t (ctoken k) && p (clabel k)) (filter (keep token f) (map (fun t0 => (t0, y, w)) ts))))
   == if p y then qnat (length (filter (token_eqb t) ts)) * w else 0)%Q.
Proof.
  intros K. rewrite filter_filter', filter_map', map_map.
  assert (E : forall v, (keep token f (v, y, w) && (token_eqb t (ctoken (v, y, w)) && p (clabel (v, y, w)))) = (token_eqb t v && p y)).
  { intros v. cbn [fst snd CooccurProofs.ctoken CooccurProofs.clabel]. unfold CooccurProofs.ctoken, CooccurProofs.clabel. cbn [fst snd]. destruct (token_spec t v) as [<-|]; cbn [andb]; [|apply andb_false_r].
    unfold keep, CooccurProofs.ctoken. cbn [fst]. unfold keptb in K. destruct f; rewrite ?K; reflexivity. }
  rewrite (filter_same _ (fun v => token_eqb t v && p y)) by (intros; apply E). unfold CooccurProofs.cweight. cbn [snd].
  destruct (p y).
  - rewrite (filter_same _ (token_eqb t)) by (intros; apply andb_true_r). apply qsum_const.
  - rewrite (filter_same _ (fun _ => false)) by (intros; apply andb_false_r). replace (filter (fun _ => false) ts) with (@nil token); [cbn; ring|].
    clear. induction ts; [reflexivity|exact IHts].
Qed.

Lemma weight_right f t : keptb f t = true -> forall (rows : list row) cells, length cells = length rows ->
  (sumq (map cweight (filter (fun k => token_eqb t (ctoken k)) (column_cells token f (map tokens rows) cells (map row_weight rows) 0))) == token_weight token token_eqb t rows)%Q.
Proof.
  intros K. unfold column_cells, cells_of, token_weight. induction rows as [|r rows IH]; intros [|c cells] L; try discriminate; [cbn; ring|].
  unfold column_labels. cbn [map combine flat_map fst snd]. rewrite !filter_app, map_app, sumq_qsum, qsum_app. cbn [map qsum fold_right]. fold (qsum (map (fun r => qnat (times t r) * row_weight r)%Q rows)).
  rewrite <- (IH cells) by (cbn in L; lia). unfold column_labels.
  assert (E := row_cells f t (fun _ => true) (tokens r) (lab (nth 0 c None)) (row_weight r) K). cbv beta in E.
  rewrite (filter_same _ (fun k => token_eqb t (ctoken k))) in E by (intros; apply andb_true_r). rewrite E. reflexivity.
Qed.

Lemma column_sum_right f t j c : keptb f t = true -> forall (rows : list row) cells, length cells = length rows ->
  (column_sum token token_eqb f (map tokens rows) cells (map row_weight rows) c t j ==
   qsum (map (fun p => if (lab (nth c (snd p) None) =? Z.of_nat j)%Z then qnat (times t (fst p)) * row_weight (fst p) else 0) (combine rows cells)))%Q.
Proof.
  intros K. unfold column_sum, column_cells, cells_of. induction rows as [|r rows IH]; intros [|d cells] L; try discriminate; [cbn; ring|].
  unfold column_labels. cbn [map combine flat_map fst snd]. rewrite !filter_app, map_app, sumq_qsum, qsum_app. cbn [map qsum fold_right fst snd].
  rewrite (row_cells f t (fun y => (y =? Z.of_nat j)%Z) (tokens r) (lab (nth c d None)) (row_weight r) K).
  specialize (IH cells). change (@sumq) with (@qsum) in IH. unfold column_labels in IH. rewrite IH by (cbn in L; lia). reflexivity.
Qed.

Lemma present_times j l (v : Q) : (qsum (map (fun o => if (lab o =? Z.of_nat j)%Z then v else 0) l) == qnat (length (filter (Z.eqb (Z.of_nat j)) (present l))) * v)%Q.
Proof.
  unfold qsum. induction l as [|[y|] l IH]; cbn [map fold_right present flat_map app].
  - unfold qnat. cbn. ring.
  - fold (present l). cbn [filter lab]. rewrite IH. rewrite (Z.eqb_sym y). destruct (Z.of_nat j =? y)%Z; cbn [length]; [rewrite qnat_S|]; ring.
  - fold (present l). cbn [lab]. rewrite IH. replace (-1 =? Z.of_nat j)%Z with false by (symmetry; apply Z.eqb_neq; lia). ring.
Qed.

Lemma columns_right f t j width : keptb f t = true -> 0 < width -> forall (rows : list row) cells, Forall (fun r => length r = width) cells -> map row_labels rows = map present cells ->
  (fold_left (fun s c => (s + column_sum token token_eqb f (map tokens rows) cells (map row_weight rows) c t j)%Q) (seq 1 (width - 1))
     (column_sum token token_eqb f (map tokens rows) cells (map row_weight rows) 0 t j) == token_label_weight token token_eqb t j rows)%Q.
Proof.
  intros K Pw rows cells F E. rewrite fold_left_qsum.
  assert (L : length cells = length rows) by (apply (f_equal (@length _)) in E; now rewrite !map_length in E).
  set (col := fun c => column_sum token token_eqb f (map tokens rows) cells (map row_weight rows) c t j).
  transitivity (qsum (map col (seq 0 width))).
  { destruct width as [|w]; [lia|]. cbn [seq map qsum fold_right Nat.sub]. rewrite Nat.sub_0_r. reflexivity. }
  rewrite (qsum_ext col _ _ (fun c _ => column_sum_right f t j c K rows cells L)). clear col L. unfold token_label_weight.
  revert cells F E. induction rows as [|r rows IH]; intros [|d cells] F E; try discriminate; [apply qsum_zero|].
  cbn [map] in E. injection E as E1 E2. inversion F as [|? ? Ld F']; subst. specialize (IH cells F' E2).
  cbn [combine map qsum fold_right fst snd]. rewrite (qsum_plus (fun c => if (lab (nth c d None) =? Z.of_nat j)%Z then qnat (times t r) * row_weight r else 0)%Q).
  fold (qsum (map (fun r => qnat (times t r) * (qnat (label_times token j r) * row_weight r))%Q rows)). rewrite <- IH.
  rewrite (map_nth_seq (fun o => if (lab o =? Z.of_nat j)%Z then (qnat (times t r) * row_weight r)%Q else 0%Q) d None), present_times.
  unfold label_times. rewrite E1. unfold qsum. ring.
Qed.

Lemma kept_tokens f rows t : In t (tokens_kept token f (map tokens rows)) <-> kept token f t /\ exists r, In r rows /\ In t (tokens r).
Proof.
  unfold tokens_kept. rewrite filter_In. fold (keptb f t). rewrite <- kept_b, in_concat. split.
  - intros ((l & I & It) & K). apply in_map_iff in I as (r & <- & I). split; [exact K|now exists r].
  - intros (K & r & I & It). split; [|exact K]. exists (tokens r). split; [now apply in_map|exact It].
Qed.
Lemma kept_vocabulary f rows : vocabulary_of token f rows (unique (tokens_kept token f (map tokens rows))).
Proof. destruct (unique_right token token_eqb token_spec (tokens_kept token f (map tokens rows))) as [N I]. split; [exact N|]. intros t. rewrite I. apply kept_tokens. Qed.
Lemma count_right f t rows : keptb f t = true -> length (filter (token_eqb t) (tokens_kept token f (map tokens rows))) = token_count token token_eqb t rows.
Proof.
  intros K. unfold tokens_kept. rewrite filter_filter'. rewrite (filter_same _ (token_eqb t)).
  - unfold token_count. induction rows as [|r rows IH]; [reflexivity|]. cbn [map concat list_sum fold_right]. rewrite filter_app, app_length. f_equal. exact IH.
  - intros v _. destruct (token_spec t v) as [<-|]; [|apply andb_false_r]. fold (keptb f t). now rewrite K.
Qed.

Lemma entries_map (u : list token) s W w P p C c :
  entries token (Reduced token (u ++ [s]) (map W u ++ [w]) (map P u ++ [p]) (map C u ++ [c])) = map (fun t => (t, (W t, P t, C t))) u ++ [(s, (w, p, c))].
Proof. unfold entries. cbn [unique_x summed_weights_per_x summed_positive_per_x_and_y counts_per_x]. induction u as [|t u IH]; [reflexivity|]. cbn. now rewrite IH. Qed.

(** Labels as a matrix *)
Lemma matrix_of y rows : has_labels y rows -> exists width cells, matrix y width cells /\ 0 < width /\ Forall (fun r => length r = width) cells /\ rows = map present cells.
Proof.
  destruct y as [shape flat|width cells]; cbn [has_labels].
  - intros ->. exists 1, (map (fun v => [Some v]) flat). repeat split; [lia| |].
    + apply Forall_forall. intros r I. now apply in_map_iff in I as (v & <- & _).
    + rewrite map_map. reflexivity.
  - intros (P & F & ->). now exists width, cells.
Qed.
Lemma in_present y l : In y (present l) <-> In (Some y) l.
Proof.
  unfold present. rewrite in_flat_map. split.
  - intros ([z|] & I & H); [destruct H as [->|[]]; exact I|destruct H].
  - intros I. exists (Some y). split; [exact I|cbn; auto].
Qed.

Definition largest (rows : list row) : nat := fold_right Nat.max 0 (map Z.to_nat (concat (map row_labels rows))).
Lemma largest_right rows : Forall (fun r => Forall (fun l => (0 <= l)%Z) (row_labels r)) rows -> largest_label token rows (largest rows).
Proof.
  intros F. assert (N : forall l, In l (concat (map row_labels rows)) -> (0 <= l)%Z).
  { intros l I. apply in_concat in I as (ls & I & Il). apply in_map_iff in I as (r & <- & I). rewrite Forall_forall in F. specialize (F r I). rewrite Forall_forall in F. auto. }
  unfold largest_label, largest. split.
  - intros r l I Il. assert (Ic : In l (concat (map row_labels rows))) by (apply in_concat; exists (row_labels r); split; [now apply in_map|exact Il]).
    clear F N I Il r. induction (concat (map row_labels rows)) as [|z zs IH]; [destruct Ic|]. cbn [map fold_right]. destruct Ic as [<-|Ic]; [lia|]. specialize (IH Ic). lia.
  - assert (H : let m := fold_right Nat.max 0 (map Z.to_nat (concat (map row_labels rows))) in m = 0 \/ In (Z.of_nat m) (concat (map row_labels rows))).
    { clear F. induction (concat (map row_labels rows)) as [|z zs IH]; [now left|]. cbn [map fold_right]. specialize (IH (fun l I => N l (or_intror I))). specialize (N z (or_introl eq_refl)).
      cbv zeta in *. destruct (Nat.max_spec (Z.to_nat z) (fold_right Nat.max 0 (map Z.to_nat zs))) as [[H ->]|[H ->]].
      - destruct IH as [E|I]; [lia|]. right. now right.
      - right. left. lia. }
    cbv zeta in H. destruct H as [H|I]; [now left|right]. apply in_concat in I as (ls & I & Il). apply in_map_iff in I as (r & <- & I). now exists r.
Qed.

Section One.
Variables (x : feature token) (y : labels) (weights : option (list nat * list Q)) (rows : list row).
Hypothesis batch : is_batch token x y weights rows.

Lemma ok_weights : weights_ok token x weights (map tokens rows) (map row_weight rows).
Proof.
  destruct batch as (_ & _ & _ & W & _). unfold weights_ok. rewrite !map_length. split; [reflexivity|]. unfold has_weights in W. destruct weights as [[shape flat]|].
  - destruct W as (-> & -> & F & D). repeat split; [|exact D]. apply Forall_map. exact F.
  - apply Forall_map. exact W.
Qed.
Lemma sentinel_weights : weights_ok token (Dense token (length rows) [] (repeat sentinel_token (length rows))) weights (map (fun _ => [sentinel_token]) rows) (map row_weight rows).
Proof.
  destruct batch as (_ & _ & _ & W & _). unfold weights_ok. rewrite !map_length. split; [reflexivity|]. unfold has_weights in W. destruct weights as [[shape flat]|].
  - destruct W as (-> & -> & F & D). repeat split. apply Forall_map. now apply Forall_forall.
  - apply Forall_map. exact W.
Qed.

(** The rows with the sentinel as their only token. *)
Definition sentinel_rows : list row := map (fun r => Row token [sentinel_token] (row_labels r) (row_weight r)) rows.

(** The result for labels in a matrix. *)
Definition weight_of (f : option (token -> bool)) cells (rs : list row) (t : token) : Q :=
  sumq (map cweight (filter (fun k => token_eqb t (ctoken k)) (column_cells token f (map tokens rs) cells (map row_weight rs) 0))).
Definition positive_of (f : option (token -> bool)) (width m : nat) cells (rs : list row) (t : token) : list Q :=
  map (fun j => fold_left (fun s c => (s + column_sum token token_eqb f (map tokens rs) cells (map row_weight rs) c t j)%Q) (seq 1 (width - 1))
                  (column_sum token token_eqb f (map tokens rs) cells (map row_weight rs) 0 t j)) (seq 0 (S m)).
Definition count_of (f : option (token -> bool)) (rs : list row) (t : token) : nat := length (filter (token_eqb t) (tokens_kept token f (map tokens rs))).

Lemma sentinel_unique : unique (tokens_kept token None (map tokens sentinel_rows)) = [sentinel_token].
Proof.
  destruct batch as (Ne & _). destruct (kept_vocabulary None sentinel_rows) as [Nu Iu]. revert Nu Iu. generalize (unique (tokens_kept token None (map tokens sentinel_rows))). intros us Nu Iu.
  assert (A : forall t, In t us -> t = sentinel_token).
  { intros t I. apply Iu in I as (_ & r & Ir & It). unfold sentinel_rows in Ir. apply in_map_iff in Ir as (r0 & <- & _). cbn in It. intuition congruence. }
  assert (A2 : In sentinel_token us).
  { apply Iu. split; [exact Logic.I|]. assert (Ex : exists r, In r rows) by (clear -Ne; destruct rows as [|r rs]; [congruence|exists r; now left]).
    destruct Ex as [r I]. exists (Row token [sentinel_token] (row_labels r) (row_weight r)). split; [|cbn; auto]. unfold sentinel_rows. apply in_map_iff. now exists r. }
  destruct us as [|a [|b us]]; [destruct A2| |].
  - f_equal. apply A. cbn; auto.
  - inversion Nu as [|? ? Na _]; subst. exfalso. apply Na. rewrite (A a), (A b) by (cbn; auto). cbn; auto.
Qed.

Lemma batch_form filter_regex width cells m : matrix y width cells -> 0 < width -> Forall (fun r => length r = width) cells -> map row_labels rows = map present cells ->
  bounded m cells -> (m = 0 \/ exists r, In r cells /\ In (Some (Z.of_nat m)) r) ->
  let u := unique (tokens_kept token filter_regex (map tokens rows)) in
  vocabulary_inputs token token_eqb sentinel_token x y weights filter_regex =
  Some (Reduced token (u ++ [sentinel_token]) (map (weight_of filter_regex cells rows) u ++ [weight_of None cells sentinel_rows sentinel_token])
    (map (positive_of filter_regex width m cells rows) u ++ [positive_of None width m cells sentinel_rows sentinel_token])
    (map (count_of filter_regex rows) u ++ [count_of None sentinel_rows sentinel_token])).
Proof.
  intros M Pw F E B Hm u. pose proof ok_weights as OW. pose proof sentinel_weights as SW. pose proof sentinel_unique as US. destruct batch as (Ne & X & Y & W & N).
  assert (Lc : length cells = length rows) by (apply (f_equal (@length _)) in E; now rewrite !map_length in E).
  set (toks := map tokens rows) in *. set (ws := map row_weight rows) in *.
  assert (Lt : length cells = length toks) by (unfold toks; now rewrite map_length).
  assert (Nt : toks <> []) by (unfold toks; destruct rows; [congruence|discriminate]).
  set (y' := match y with Dense_labels _ flat => Dense_labels [length flat] flat | Sparse_labels _ _ => y end).
  assert (M' : matrix y' width cells) by (unfold y'; destruct y; exact M).
  pose proof (reduced_right token token_eqb token_spec x y' weights filter_regex toks width cells ws m X M' Pw F Lt Nt OW B Hm) as R. cbv zeta in R.
  assert (Sx : has_rows token (Dense token (length rows) [] (repeat sentinel_token (length rows))) (map (fun _ => [sentinel_token]) rows)).
  { cbn [has_rows]. rewrite map_length. split; [reflexivity|]. split; [|apply Forall_map; now apply Forall_forall]. clear. induction rows as [|r rs IH]; [reflexivity|]. cbn. now rewrite IH. }
  assert (Ls : length cells = length (map (fun _ : row => [sentinel_token]) rows)) by now rewrite map_length.
  assert (Ns : map (fun _ : row => [sentinel_token]) rows <> []) by (destruct rows; [congruence|discriminate]).
  pose proof (reduced_right token token_eqb token_spec _ y' weights None _ width cells ws m Sx M' Pw F Ls Ns SW B Hm) as RS. cbv zeta in RS.
  replace (map (fun _ : row => [sentinel_token]) rows) with (map tokens sentinel_rows) in * by (unfold sentinel_rows; rewrite map_map; reflexivity).
  replace ws with (map row_weight sentinel_rows) in RS by (unfold sentinel_rows, ws; rewrite map_map; reflexivity).
  rewrite US in RS. cbn [map] in RS.
  unfold vocabulary_inputs, reduce_batch_weighted_cooccurrences. fold y'. rewrite R. unfold extend_with_y_counts.
  replace (match y' with Dense_labels _ flat => length flat | Sparse_labels _ rows0 => length rows0 end) with (length rows).
  - rewrite RS. reflexivity.
  - unfold y'. rewrite <- Lc. destruct y; cbn [matrix] in M; destruct M as [_ ->]; [now rewrite map_length|reflexivity].
Qed.

Lemma batch_matrix : exists width cells m, matrix y width cells /\ 0 < width /\ Forall (fun r => length r = width) cells /\ map row_labels rows = map present cells /\
  bounded m cells /\ (m = 0 \/ exists r, In r cells /\ In (Some (Z.of_nat m)) r) /\ largest_label token rows m.
Proof.
  destruct batch as (Ne & X & Y & W & N). destruct (matrix_of y _ Y) as (width & cells & M & Pw & F & E).
  pose proof (largest_right rows N) as Lm. exists width, cells, (largest rows). set (m := largest rows) in *. repeat (split; [assumption|]). split; [|split; [|exact Lm]].
  - intros c v Ic Iv. apply in_present in Iv. assert (Ip : In (present c) (map row_labels rows)) by (rewrite E; now apply in_map).
    apply in_map_iff in Ip as (r & Er & Ir). rewrite <- Er in Iv. destruct Lm as [U _]. rewrite Forall_forall in N. specialize (N r Ir). rewrite Forall_forall in N. split; [now apply N|now apply (U r)].
  - destruct Lm as [_ [H|(r & I & Il)]]; [now left|right]. assert (Ip : In (row_labels r) (map present cells)) by (rewrite <- E; now apply in_map).
    apply in_map_iff in Ip as (c & Ec & Ic). exists c. split; [exact Ic|]. apply in_present. now rewrite Ec.
Qed.

Lemma positive_right f width m cells (rs : list row) t : keptb f t = true -> 0 < width -> Forall (fun r => length r = width) cells -> map row_labels rs = map present cells ->
  (forall r l, In r rs -> In l (row_labels r) -> (l <= Z.of_nat m)%Z) ->
  forall j, (nth j (positive_of f width m cells rs t) 0 == token_label_weight token token_eqb t j rs)%Q.
Proof.
  intros K Pw F E U j. destruct (le_lt_dec (S m) j) as [Le|Lt'].
  - rewrite nth_overflow by (unfold positive_of; rewrite map_length, seq_length; lia). symmetry. unfold token_label_weight.
    transitivity (qsum (map (fun _ : row => 0%Q) rs)); [|apply qsum_zero]. apply qsum_ext. intros r Ir. replace (label_times token j r) with 0; [unfold qnat; cbn; ring|].
    unfold label_times. specialize (U r). destruct (filter (Z.eqb (Z.of_nat j)) (row_labels r)) as [|z zs] eqn:Ef; [reflexivity|].
    assert (Iz : In z (filter (Z.eqb (Z.of_nat j)) (row_labels r))) by (rewrite Ef; cbn; auto). apply filter_In in Iz as [Iz Ez]. apply Z.eqb_eq in Ez. specialize (U z Ir Iz). lia.
  - unfold positive_of.
    match goal with |- context [map ?g (seq 0 (S m))] => rewrite (nth_indep _ 0%Q (g 0)) by (rewrite map_length, seq_length; lia); rewrite (map_nth g) end.
    rewrite seq_nth by lia. cbn [plus]. apply columns_right; assumption.
Qed.

Theorem batch_right filter_regex : exists r known m total,
  vocabulary_inputs token token_eqb sentinel_token x y weights filter_regex = Some r /\ same_length token r /\
  vocabulary_of token filter_regex rows known /\ largest_label token rows m /\
  map fst (entries token r) = known ++ [sentinel_token] /\
  (forall t e, In (t, e) (firstn (length known) (entries token r)) -> right_entry token token_eqb m rows t e) /\
  nth_error (entries token r) (length known) = Some (sentinel_token, total) /\ right_total token m rows total.
Proof.
  destruct batch_matrix as (width & cells & m & M & Pw & F & E & B & Hm & Lm). pose proof (batch_form filter_regex width cells m M Pw F E B Hm) as R. cbv zeta in R.
  set (u := unique (tokens_kept token filter_regex (map tokens rows))) in *.
  assert (Lc : length cells = length rows) by (apply (f_equal (@length _)) in E; now rewrite !map_length in E).
  assert (ES : map row_labels sentinel_rows = map present cells) by (unfold sentinel_rows; rewrite map_map; exact E).
  match type of R with _ = Some ?r => exists r end. exists u, m, (weight_of None cells sentinel_rows sentinel_token, positive_of None width m cells sentinel_rows sentinel_token, count_of None sentinel_rows sentinel_token).
  split; [exact R|]. rewrite entries_map. split; [|split; [|split; [|split; [|split; [|split]]]]].
  - unfold same_length. cbn [unique_x summed_weights_per_x summed_positive_per_x_and_y counts_per_x]. rewrite !app_length, !map_length. cbn. lia.
  - apply kept_vocabulary.
  - exact Lm.
  - rewrite map_app, map_map. cbn [map fst]. now rewrite map_id.
  - intros t e I. rewrite firstn_app, map_length, Nat.sub_diag, app_nil_r, firstn_all2 in I by (rewrite map_length; lia).
    apply in_map_iff in I as (t' & Ee & It). injection Ee as -> <-. destruct (kept_vocabulary filter_regex rows) as [_ Iu]. fold u in Iu. apply Iu in It as (K & _). apply kept_b in K.
    repeat split.
    + unfold weight_of. apply weight_right; assumption.
    + unfold positive_of. now rewrite map_length, seq_length.
    + apply positive_right; try assumption. exact (proj1 Lm).
    + apply count_right. exact K.
  - rewrite nth_error_app2 by (now rewrite map_length). rewrite map_length, Nat.sub_diag. reflexivity.
  - repeat split.
    + unfold weight_of. rewrite (weight_right None sentinel_token eq_refl sentinel_rows cells) by (unfold sentinel_rows; rewrite map_length; exact Lc).
      unfold token_weight, rows_weight, sentinel_rows. rewrite map_map. apply qsum_ext. intros r _. cbn. rewrite (eqb_refl token token_eqb token_spec). unfold qnat. cbn. ring.
    + unfold positive_of. now rewrite map_length, seq_length.
    + intros j. rewrite positive_right; [|reflexivity|assumption..|].
      * unfold token_label_weight, rows_label_weight, sentinel_rows. rewrite map_map. apply qsum_ext. intros r _. cbn. rewrite (eqb_refl token token_eqb token_spec). unfold label_times. cbn. unfold qnat at 1. cbn. ring.
      * intros r l I Il. unfold sentinel_rows in I. apply in_map_iff in I as (r0 & <- & I). exact (proj1 Lm r0 l I Il).
    + unfold count_of. rewrite (count_right None sentinel_token sentinel_rows eq_refl). unfold token_count, sentinel_rows. rewrite map_map. unfold CooccurSpec.times. cbn [CooccurSpec.tokens filter]. rewrite (eqb_refl token token_eqb token_spec).
      cbn [length]. clear. induction rows as [|r rs IH]; [reflexivity|]. cbn [map list_sum fold_right length]. unfold list_sum in IH. rewrite IH. reflexivity.
Qed.

(** What is counted under a token. *)
Local Notation entry := (token * (Q * list Q * nat))%type.
Lemma single_key t (front : list entry) : NoDup (map fst front) ->
  (~ In t (map fst front) /\ filter (fun e => token_eqb t (fst e)) front = []) \/
  (exists e, In (t, e) front /\ filter (fun e => token_eqb t (fst e)) front = [(t, e)]).
Proof.
  induction front as [|[k e] front IH]; intros Nd; [left; split; [intros []|reflexivity]|]. cbn [map fst] in Nd. inversion Nd as [|? ? Nk Nf]; subst. cbn [filter fst map].
  destruct (IH Nf) as [[No Ef]|(e' & I & Ef)]; destruct (token_spec t k) as [<-|Ne].
  - right. exists e. rewrite Ef. split; [now left|reflexivity].
  - left. split; [intros [->|I]; [congruence|contradiction]|exact Ef].
  - exfalso. apply Nk. apply in_map_iff. now exists (t, e').
  - right. exists e'. split; [now right|exact Ef].
Qed.
Lemma times_none t : ~ (exists r, In r rows /\ In t (tokens r)) -> forall r, In r rows -> times t r = 0.
Proof.
  intros No r I. unfold CooccurSpec.times. destruct (filter (token_eqb t) (tokens r)) as [|v vs] eqn:E; [reflexivity|]. exfalso. apply No. exists r. split; [exact I|].
  assert (Iv : In v (filter (token_eqb t) (tokens r))) by (rewrite E; now left). apply filter_In in Iv as [Iv Et]. destruct (token_spec t v); [now subst|discriminate].
Qed.
Lemma none_counted t : (forall r, In r rows -> times t r = 0) ->
  (token_weight token token_eqb t rows == 0)%Q /\ (forall j, (token_label_weight token token_eqb t j rows == 0)%Q) /\ token_count token token_eqb t rows = 0.
Proof.
  intros Z0. unfold token_weight, token_label_weight, token_count. split; [|split].
  - transitivity (qsum (map (fun _ : row => 0%Q) rows)); [|apply qsum_zero]. apply qsum_ext. intros r I. rewrite Z0 by exact I. unfold qnat. cbn. ring.
  - intros j. transitivity (qsum (map (fun _ : row => 0%Q) rows)); [|apply qsum_zero]. apply qsum_ext. intros r I. rewrite Z0 by exact I. unfold qnat at 1. cbn. ring.
  - clear batch. induction rows as [|r rs IH]; [reflexivity|]. cbn [map list_sum fold_right]. rewrite Z0 by now left. apply IH. intros; apply Z0; now right.
Qed.

Lemma batch_sums f r : vocabulary_inputs token token_eqb sentinel_token x y weights f = Some r ->
  (forall k e, In (k, e) (entries token r) -> k = sentinel_token \/ kept token f k) /\
  (forall t, kept token f t -> t <> sentinel_token ->
    (sum_weight token (token_eqb t) (entries token r) == token_weight token token_eqb t rows)%Q /\
    (forall j, (sum_label_weight token (token_eqb t) j (entries token r) == token_label_weight token token_eqb t j rows)%Q) /\
    sum_count token (token_eqb t) (entries token r) = token_count token token_eqb t rows) /\
  ((forall row, In row rows -> ~ In sentinel_token (tokens row)) ->
    (sum_weight token (token_eqb sentinel_token) (entries token r) == rows_weight token rows)%Q /\
    (forall j, (sum_label_weight token (token_eqb sentinel_token) j (entries token r) == rows_label_weight token j rows)%Q) /\
    sum_count token (token_eqb sentinel_token) (entries token r) = length rows).
Proof.
  intros R. destruct (batch_right f) as (r' & known & m & [[w p] c] & R' & Same & [Nk Ik] & Lm & Keys & Front & Last & Tw & Tp & Tj & Tc).
  assert (r' = r) by congruence. subst r'. set (es := entries token r) in *.
  assert (Le : length es = S (length known)) by (apply (f_equal (@length _)) in Keys; rewrite map_length, app_length in Keys; cbn in Keys; lia).
  assert (Es : es = firstn (length known) es ++ [(sentinel_token, (w, p, c))]).
  { rewrite <- (firstn_skipn (length known) es) at 1. f_equal. pose proof (skipn_length (length known) es) as Ls.
    destruct (skipn (length known) es) as [|a [|b l]] eqn:E; cbn in Ls; try lia. f_equal.
    assert (H : nth_error (skipn (length known) es) 0 = Some a) by now rewrite E. rewrite <- (firstn_skipn (length known) es) in Last.
    rewrite nth_error_app2 in Last by (rewrite firstn_length; lia). rewrite firstn_length, Nat.min_l, Nat.sub_diag in Last by lia. congruence. }
  set (front := firstn (length known) es) in *. clearbody front.
  assert (Kf : map fst front = known).
  { rewrite Es, map_app in Keys. cbn [map fst] in Keys. now apply app_inj_tail in Keys. }
  assert (Fs : forall t, filter (fun e => token_eqb t (fst e)) es = filter (fun e => token_eqb t (fst e)) front ++ (if token_eqb t sentinel_token then [(sentinel_token, (w, p, c))] else [])).
  { intros t. rewrite Es, filter_app. cbn [filter fst]. now destruct (token_eqb t sentinel_token). }
  split; [|split].
  - intros k e I. rewrite Es in I. apply in_app_or in I as [I|[I|[]]]; [|left; congruence]. right. apply (in_map fst) in I. rewrite Kf in I. apply Ik in I. tauto.
  - intros t K Ne. unfold sum_weight, sum_label_weight, sum_count. rewrite Fs. destruct (token_spec t sentinel_token) as [|_]; [contradiction|]. rewrite app_nil_r.
    destruct (single_key t front) as [[No ->]|([[w' p'] c'] & I & ->)]; [now rewrite Kf| |].
    + rewrite Kf, Ik in No. destruct (none_counted t) as (A & B & C); [apply times_none; tauto|]. cbn. rewrite A. split; [reflexivity|]. split; [|now rewrite C]. intros j. now rewrite B.
    + destruct (Front t _ I) as (A & _ & B & C). cbn [map qsum fold_right fst snd list_sum]. rewrite <- A, <- C. split; [ring|]. split; [|lia]. intros j. rewrite <- B. ring.
  - intros No. unfold sum_weight, sum_label_weight, sum_count. rewrite Fs, (eqb_refl token token_eqb token_spec).
    destruct (single_key sentinel_token front) as [[_ ->]|(e & I & _)]; [now rewrite Kf| |].
    + cbn [app map qsum fold_right fst snd list_sum]. rewrite <- Tw, <- Tc. split; [ring|]. split; [|lia]. intros j. rewrite <- Tj. ring.
    + exfalso. apply (in_map fst) in I. rewrite Kf, Ik in I. destruct I as (_ & row & Ir & It). exact (No row Ir It).
Qed.
End One.

(** A dataset, as batches. *)
Record a_batch := Batch { b_x : feature token; b_y : labels; b_weights : option (list nat * list Q); b_rows : list row }.

Lemma filter_concat {A B} (p : B -> bool) (g : A -> list B) l : filter p (concat (map g l)) = concat (map (fun a => filter p (g a)) l).
Proof. induction l as [|a l IH]; [reflexivity|]. cbn. now rewrite filter_app, IH. Qed.

Theorem dataset_right f (batches : list a_batch) (results : list (reduced token)) :
  Forall2 (fun b r => is_batch token (b_x b) (b_y b) (b_weights b) (b_rows b) /\
                      vocabulary_inputs token token_eqb sentinel_token (b_x b) (b_y b) (b_weights b) f = Some r) batches results ->
  let es := concat (map (entries token) results) in
  let rows := concat (map b_rows batches) in
  (forall k e, In (k, e) es -> k = sentinel_token \/ kept token f k) /\
  (forall t, kept token f t -> t <> sentinel_token ->
    (sum_weight token (token_eqb t) es == token_weight token token_eqb t rows)%Q /\
    (forall j, (sum_label_weight token (token_eqb t) j es == token_label_weight token token_eqb t j rows)%Q) /\
    sum_count token (token_eqb t) es = token_count token token_eqb t rows) /\
  ((forall r, In r rows -> ~ In sentinel_token (tokens r)) ->
    (sum_weight token (token_eqb sentinel_token) es == rows_weight token rows)%Q /\
    (forall j, (sum_label_weight token (token_eqb sentinel_token) j es == rows_label_weight token j rows)%Q) /\
    sum_count token (token_eqb sentinel_token) es = length rows).
Proof.
  intros F es rows. unfold es, rows. clear es rows. induction F as [|b r batches results [B R] F (I1 & I2 & I3)]; cbn [map concat].
  - split; [intros k e []|]. split; [intros t _ _|intros _]; cbn; repeat split; try reflexivity.
  - destruct (batch_sums _ _ _ _ B f r R) as (H1 & H2 & H3). split; [|split].
    + intros k e I. apply in_app_or in I as [I|I]; [now apply (H1 k e)|now apply (I1 k e)].
    + intros t K Ne. destruct (H2 t K Ne) as (A1 & A2 & A3). destruct (I2 t K Ne) as (B1 & B2 & B3).
      unfold sum_weight, sum_label_weight, sum_count, token_weight, token_label_weight, token_count in *. rewrite !filter_app, !map_app, list_sum_app. split; [|split].
      * rewrite !qsum_app, A1, B1. reflexivity.
      * intros j. rewrite !map_app, !qsum_app, A2, B2. reflexivity.
      * rewrite list_sum_app. lia.
    + intros No. destruct H3 as (A1 & A2 & A3); [intros r' I; apply No, in_or_app; now left|]. destruct I3 as (B1 & B2 & B3); [intros r' I; apply No, in_or_app; now right|].
      unfold sum_weight, sum_label_weight, sum_count, rows_weight, rows_label_weight in *. rewrite !filter_app, !map_app. split; [|split].
      * rewrite !qsum_app, A1, B1. reflexivity.
      * intros j. rewrite !map_app, !qsum_app, A2, B2. reflexivity.
      * rewrite list_sum_app, app_length. lia.
Qed.
End Batch.
