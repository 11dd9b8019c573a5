(** * Proofs about document frequencies *)
From Coq Require Import String List ZArith QArith Bool Arith Lia.
From Verif Require Import NumericModel SortModel MiscModel SparseModel SparseSpec SparseProofs SparseRowsProofs TfidfProofs.
From Verif Require Import DocFreqModel DocFreqSpec.
Import ListNotations.
Open Scope Z_scope.
Open Scope list_scope.
Local Notation length := List.length.

Lemma wrap_id z : - 2 ^ 63 <= z < 2 ^ 63 -> wrap Int64 z = z.
Proof.
  intros H. unfold wrap. change (dmin Int64) with (- 2 ^ 63). change (bits Int64) with 64.
  rewrite Z.mod_small by lia. lia.
Qed.

Lemma z_eqb_eq a c : Z.eqb a c = true <-> a = c.
Proof. apply Z.eqb_eq. Qed.

Section Batch.
Variables (divide : Z -> Z -> Z) (V : Z) (b : sparse Z).
Hypothesis V_pos : 0 < V.
Hypothesis shape : in_shape b.
Hypothesis small : fits V b.

Definition flat : list Z := map2 (fun i v => fst i * (V + 1) + v) (indices b) (map (fun v => v mod V) (values b)).

Lemma flat_in u : In u flat <-> exists i v, In (i, v) (combine (indices b) (values b)) /\ u = fst i * (V + 1) + v mod V.
Proof.
  unfold flat. generalize (indices b) (values b). induction l as [|i l IH]; intros [|v vs]; cbn [map map2 combine In];
    [split; [intros []|intros (j & w & [] & _)]..|].
  rewrite IH. split.
  - intros [<-|(j & w & I & ->)]; [exists i, v; auto|exists j, w; auto].
  - intros (j & w & [E|I] & ->); [injection E as <- <-; now left|right; eauto].
Qed.
Lemma row_range i v : In (i, v) (combine (indices b) (values b)) -> 0 <= fst i < fst (dense_shape b).
Proof. intros I. apply in_combine_l in I. destruct shape as (_ & F & _). rewrite Forall_forall in F. now apply F. Qed.

Lemma decode r t : 0 <= t < V -> (r * (V + 1) + t) / (V + 1) = r /\ (r * (V + 1) + t) mod (V + 1) = t.
Proof using V_pos.
  intros H. split.
  - rewrite Z.div_add_l by lia. rewrite Z.div_small by lia. lia.
  - rewrite Z.add_comm, Z.mod_add by lia. apply Z.mod_small. lia.
Qed.

Lemma one_hot_flat : to_term_document_one_hot divide (cleaned b V) V
  = Sparse (map (fun u => (divide u (V + 1), u mod (V + 1))) (unique Z.eqb flat)) (map (fun _ => 1) (unique Z.eqb flat))
           (fst (dense_shape b), V).
Proof.
  unfold to_term_document_one_hot, cleaned, to_vocab_range. cbn [indices values dense_shape].
  replace (map2 _ (indices b) (map (fun v => v mod V) (values b))) with flat; [reflexivity|].
  unfold flat. destruct shape as (L & F & P). unfold fits in small.
  assert (G : forall (l : list (Z * Z)) vs, Forall (fun i => 0 <= fst i < fst (dense_shape b)) l ->
    map2 (fun i v => fst i * (V + 1) + v) l (map (fun v => v mod V) vs)
    = map2 (fun i v => wrap Int64 (wrap Int64 (fst i * (V + 1)) + v)) l (map (fun v => v mod V) vs)).
  { induction l as [|i l IH]; intros [|v vs] FA; cbn; try reflexivity. inversion FA as [|? ? Hi FA']; subst.
    rewrite <- IH by assumption. f_equal. pose proof (Z.mod_pos_bound v V V_pos).
    assert (fst i * (V + 1) + (V + 1) <= 2 ^ 63) by nia.
    rewrite (wrap_id (fst i * (V + 1))) by nia. rewrite wrap_id by nia. reflexivity. }
  apply G. eapply Forall_impl; [|exact F]. cbn. tauto.
Qed.

(** The documents with a term. *)
Definition rows_with (term : Z) : list Z := map (fun u => u / (V + 1)) (filter (fun u => u mod (V + 1) =? term) (unique Z.eqb flat)).

Lemma unique_flat_in u : In u (unique Z.eqb flat) <-> In u flat.
Proof using. unfold unique. rewrite (unique_from_in Z.eqb z_eqb_eq). cbn [In]. clear. split; [intros [I _]; exact I|intros I; split; [exact I|intros []]]. Qed.
Lemma rows_with_in term r : In r (rows_with term) <-> has_term V term b r.
Proof using V_pos.
  unfold rows_with, has_term. rewrite in_map_iff. split.
  - intros (u & <- & I). apply filter_In in I as [I E]. apply Z.eqb_eq in E. apply unique_flat_in, flat_in in I as ((r0 & c) & v & I & ->).
    cbn [fst] in *. destruct (decode r0 (v mod V)) as [D1 D2]; [now apply Z.mod_pos_bound|]. exists c, v. rewrite D1. rewrite D2 in E. auto.
  - intros (c & v & I & E). exists (r * (V + 1) + term). destruct (decode r term) as [D1 D2]; [subst; now apply Z.mod_pos_bound|].
    split; [exact D1|]. apply filter_In. split; [|now rewrite D2, Z.eqb_refl]. apply unique_flat_in, flat_in. exists (r, c), v. subst. auto.
Qed.
Lemma nodup_map_on {A B} (f : A -> B) l : NoDup l -> (forall x y, In x l -> In y l -> f x = f y -> x = y) -> NoDup (map f l).
Proof.
  induction 1 as [|x l N ND IH]; intros H; cbn; [constructor|]. constructor.
  - intros I. apply in_map_iff in I as (y & E & I). assert (y = x) as -> by (apply H; [now right|now left|exact E]). contradiction.
  - apply IH. intros y z Iy Iz. apply H; now right.
Qed.
Lemma rows_with_nodup term : NoDup (rows_with term).
Proof using V_pos.
  unfold rows_with. apply nodup_map_on.
  - apply NoDup_filter. apply unique_from_nodup, z_eqb_eq.
  - intros u w Iu Iw E. apply filter_In in Iu as [_ Eu], Iw as [_ Ew]. apply Z.eqb_eq in Eu, Ew.
    rewrite (Z.div_mod u (V + 1)), (Z.div_mod w (V + 1)) by lia. congruence.
Qed.

Lemma ones_total (p : Z -> bool) l : z_total (map snd (filter (fun e : (Z * Z) * Z => p (snd (fst e)))
    (combine (map (fun u => (divide u (V + 1), u mod (V + 1))) l) (map (fun _ => 1) l))))
  = Z.of_nat (length (filter (fun u => p (u mod (V + 1))) l)).
Proof.
  unfold z_total. induction l as [|u l IH]; cbn [map combine filter fst snd]; [reflexivity|].
  destruct (p (u mod (V + 1))); cbn [map fold_right length snd]; [rewrite IH; lia|exact IH].
Qed.

Lemma batch_counts : reduce_sum_rows (to_term_document_one_hot divide (cleaned b V) V)
  = Some (map (fun term => Z.of_nat (length (rows_with term))) (range V)).
Proof.
  rewrite one_hot_flat. unfold reduce_sum_rows. cbn [indices values dense_shape snd].
  assert (forallb (fun i => (0 <=? snd i) && (snd i <? V))
            (map (fun u => (divide u (V + 1), u mod (V + 1))) (unique Z.eqb flat)) = true) as ->.
  { apply forallb_forall. intros i I. apply in_map_iff in I as (u & <- & I). cbn [snd].
    apply unique_flat_in, flat_in in I as (j & v & I & ->).
    pose proof (Z.mod_pos_bound v V V_pos) as B. destruct (decode (fst j) (v mod V) B) as [_ D]. rewrite D. lia. }
  f_equal. apply map_ext. intros term. rewrite (ones_total (fun t => t =? term)). unfold rows_with. now rewrite map_length.
Qed.
End Batch.

Lemma counts_all divide V batches : 0 < V -> Forall in_shape batches -> Forall (fits V) batches ->
  to_global_document_frequency divide V batches
  = Some (map (fun term => z_total (map (fun b => Z.of_nat (length (rows_with V b term))) batches)) (range V)).
Proof.
  intros P S F. unfold to_global_document_frequency.
  rewrite (sequence_map _ (fun b => map (fun term => Z.of_nat (length (rows_with V b term))) (range V))).
  - f_equal. rewrite <- (map_map (fun b term => Z.of_nat (length (rows_with V b term))) (fun f => map f (range V))).
    rewrite vector_sum_eq by reflexivity. apply map_ext. intros term. now rewrite map_map.
  - intros b I. rewrite Forall_forall in S, F. apply batch_counts; auto.
Qed.

(** ** The documents of the dataset *)
Fixpoint places (V term : Z) (k : nat) (batches : list (sparse Z)) : list (nat * Z) :=
  match batches with
  | [] => []
  | b :: bs => map (pair k) (rows_with V b term) ++ places V term (S k) bs
  end.
Lemma places_in V term : 0 < V -> forall batches k i r, In (i, r) (places V term k batches) <->
  exists j b, i = (k + j)%nat /\ nth_error batches j = Some b /\ has_term V term b r.
Proof.
  intros P. induction batches as [|b bs IH]; intros k i r; cbn [places].
  - split; [intros []|intros (j & b & _ & E & _); destruct j; discriminate].
  - rewrite in_app_iff, IH, in_map_iff. split.
    + intros [(x & E & I)|(j & b' & -> & E & I)].
      * injection E as -> ->. exists 0%nat, b. rewrite Nat.add_0_r. split; [reflexivity|]. split; [reflexivity|]. now apply rows_with_in.
      * exists (S j), b'. rewrite Nat.add_succ_r. auto.
    + intros ([|j] & b' & -> & E & I).
      * injection E as <-. left. exists r. rewrite Nat.add_0_r. split; [reflexivity|]. now apply rows_with_in.
      * right. exists j, b'. rewrite Nat.add_succ_r. auto.
Qed.
Lemma places_nodup V term : 0 < V -> forall batches k, NoDup (places V term k batches).
Proof.
  intros P. induction batches as [|b bs IH]; intros k; cbn [places]; [constructor|].
  assert (D : forall l, NoDup l -> NoDup (map (pair k) l ++ places V term (S k) bs)).
  { induction 1 as [|x l N ND IHl]; cbn; [apply IH|]. constructor; [|exact IHl]. intros I. apply in_app_iff in I as [I|I].
    - apply in_map_iff in I as (y & E & I). injection E as ->. contradiction.
    - apply places_in in I as (j & b' & E & _); [lia|exact P]. }
  apply D. now apply rows_with_nodup.
Qed.
Lemma places_length V term : forall batches k,
  Z.of_nat (length (places V term k batches)) = z_total (map (fun b => Z.of_nat (length (rows_with V b term))) batches).
Proof.
  unfold z_total. induction batches as [|b bs IH]; intros k; cbn [places map fold_right]; [reflexivity|].
  rewrite app_length, map_length, Nat2Z.inj_add. now rewrite IH.
Qed.
Lemma counted V term batches : 0 < V ->
  documents_have V term batches (z_total (map (fun b => Z.of_nat (length (rows_with V b term))) batches)).
Proof.
  intros P. exists (places V term 0 batches). split; [now apply places_nodup|]. split; [apply places_length|].
  intros i r. rewrite places_in by exact P. split.
  - intros (j & b & -> & E & H). eauto.
  - intros (b & E & H). exists i, b. auto.
Qed.
Lemma documents_have_unique V term batches n m : documents_have V term batches n -> documents_have V term batches m -> n = m.
Proof.
  intros (l & N1 & <- & H1) (k & N2 & <- & H2). f_equal. apply Nat.le_antisymm; apply NoDup_incl_length; auto; intros [i r] I;
    [apply H2, H1, I|apply H1, H2, I].
Qed.

Lemma range_nth V i : 0 <= i < V -> nth_error (range V) (Z.to_nat i) = Some i.
Proof.
  intros H. unfold range. rewrite nth_error_map.
  rewrite (nth_error_nth' _ 0%nat) by (rewrite seq_length; lia). rewrite seq_nth by lia. cbn. f_equal. lia.
Qed.

Theorem document_frequencies divide V batches batch : 1 < V -> Forall in_shape batches -> Forall (fits V) batches ->
  exists out, document_frequency divide V batches batch = Some out /\
    indices out = indices batch /\ dense_shape out = dense_shape batch /\
    Forall2 (fun id n => documents_have V (id mod V) batches n) (values batch) (values out).
Proof.
  intros P S F. unfold document_frequency. rewrite counts_all by (auto; lia). unfold cleaned, to_vocab_range. cbn [values indices dense_shape].
  set (df := fun term => z_total (map (fun b => Z.of_nat (length (rows_with V b term))) batches)).
  unfold squeeze_gather. rewrite map_length. unfold range at 1. rewrite map_length, seq_length.
  destruct (Z.to_nat V =? 1)%nat eqn:E; [apply Nat.eqb_eq in E; lia|].
  rewrite (gather_map _ df).
  - eexists. split; [reflexivity|]. cbn [indices dense_shape values]. split; [reflexivity|]. split; [reflexivity|].
    rewrite map_map. induction (values batch) as [|v vs IH]; cbn; constructor; [|exact IH]. apply counted. lia.
  - intros i I. apply in_map_iff in I as (v & <- & _). assert (0 <= v mod V < V) as B by (apply Z.mod_pos_bound; lia).
    split; [lia|]. rewrite nth_error_map, range_nth by exact B. reflexivity.
Qed.

Theorem idfs divide log V smooth add_baseline batches batch : 0 < V -> Forall in_shape batches -> Forall (fits V) batches ->
  exists out, idf divide log V smooth add_baseline batches batch = Some out /\
    indices out = indices batch /\ dense_shape out = dense_shape batch /\
    Forall2 (fun id q => exists n, documents_have V (id mod V) batches n /\
      q = ((if smooth then log ((inject_Z (corpus batches) + 1) / (1 + inject_Z n)) else log (inject_Z (corpus batches) / inject_Z n))
           + (if add_baseline then 1 else 0))%Q) (values batch) (values out).
Proof.
  intros P S F. unfold idf. rewrite counts_all by auto. unfold cleaned, to_vocab_range. cbn [values indices dense_shape].
  set (df := fun term => z_total (map (fun b => Z.of_nat (length (rows_with V b term))) batches)).
  rewrite map_map. set (g := fun term => to_idf log _ smooth add_baseline _). rewrite (gather_map _ g).
  - eexists. split; [reflexivity|]. cbn [indices dense_shape values]. split; [reflexivity|]. split; [reflexivity|].
    rewrite map_map. induction (values batch) as [|v vs IH]; cbn; constructor; [|exact IH]. exists (df (v mod V)).
    split; [now apply counted|]. unfold g, to_idf, corpus. destruct smooth; reflexivity.
  - intros i I. apply in_map_iff in I as (v & <- & _). assert (0 <= v mod V < V) as B by (apply Z.mod_pos_bound; lia).
    split; [lia|]. rewrite nth_error_map, range_nth by exact B. reflexivity.
Qed.

Lemma one_term divide batches batch : document_frequency divide 1 batches batch = None.
Proof.
  unfold document_frequency. destruct (to_global_document_frequency divide 1 batches) as [df|] eqn:E; [|reflexivity].
  assert (L : length df = 1%nat).
  { unfold to_global_document_frequency in E. destruct (sequence _) as [l|] eqn:Es; [|discriminate]. injection E as <-.
    assert (forall v, In v l -> length v = 1%nat) as H.
    { intros v I. apply (sequence_in _ _ v Es) in I. apply in_map_iff in I as (b & E & _).
      unfold reduce_sum_rows in E. destruct (forallb _ _); [|discriminate]. injection E as <-. reflexivity. }
    clear Es. induction l as [|v l IH]; [reflexivity|]. cbn [vector_sum]. assert (length v = 1%nat) as Lv by (apply H; now left).
    destruct v as [|x [|y v]]; try discriminate Lv. specialize (IH (fun w I => H w (or_intror I))).
    destruct (vector_sum _ l) as [|z [|w r]]; try discriminate IH. reflexivity. }
  unfold squeeze_gather. now rewrite L.
Qed.

(** ** Datasets of documents *)
Lemma filter_map_length {A B} (f : A -> B) (p : B -> bool) l : length (filter (fun x => p (f x)) l) = length (filter p (map f l)).
Proof. induction l as [|x l IH]; cbn; [reflexivity|]. destruct (p (f x)); cbn; now rewrite IH. Qed.
Lemma nth_seq {A} (d : A) l : map (fun r => nth r l d) (seq 0 (length l)) = l.
Proof.
  apply (nth_ext _ _ d d); [now rewrite map_length, seq_length|]. intros n H. rewrite map_length, seq_length in H.
  rewrite (nth_indep _ d (nth 0 l d)) by (now rewrite map_length, seq_length).
  rewrite (map_nth (fun r => nth r l d)). now rewrite seq_nth.
Qed.
Lemma has_term_row V term b r : in_shape b ->
  (has_term V term b r <-> 0 <= r < fst (dense_shape b) /\ exists id, In id (row b (Z.to_nat r)) /\ id mod V = term).
Proof.
  intros S. unfold has_term, row. split.
  - intros (c & id & I & E). pose proof (row_range b S _ _ I) as R. cbn [fst] in R. split; [exact R|]. exists id. split; [|exact E].
    apply in_map_iff. exists ((r, c), id). split; [reflexivity|]. apply filter_In. split; [exact I|]. cbn [fst]. apply Z.eqb_eq. lia.
  - intros (R & id & I & E). apply in_map_iff in I as ([[r' c] id'] & <- & I). apply filter_In in I as [I Er]. cbn [fst snd] in *.
    apply Z.eqb_eq in Er. assert (r' = r) as -> by lia. eauto.
Qed.
Lemma rows_with_count V term g : 0 < V ->
  length (rows_with V (tensor_of_rows g) term) = length (filter (fun doc => existsb (fun id => id mod V =? term) doc) g).
Proof.
  intros P. set (has := fun doc => existsb (fun id => id mod V =? term) doc).
  transitivity (length (map Z.of_nat (filter (fun r => has (nth r g [])) (seq 0 (length g))))).
  - assert (E : forall r, In r (rows_with V (tensor_of_rows g) term)
                <-> In r (map Z.of_nat (filter (fun r => has (nth r g [])) (seq 0 (length g))))).
    { intros r. rewrite rows_with_in by exact P. rewrite has_term_row by apply windows_tensor_in_shape.
      assert (R : forall k, (k < length g)%nat -> row (tensor_of_rows g) k = nth k g []).
      { intros k L. rewrite <- (rows_of_tensor g) at 2. unfold rows.
        assert (Z.to_nat (fst (dense_shape (tensor_of_rows g))) = length g) as -> by (cbn; lia).
        rewrite (nth_indep _ [] (row (tensor_of_rows g) 0)) by (now rewrite map_length, seq_length).
        rewrite (map_nth (row (tensor_of_rows g))). now rewrite seq_nth. }
      rewrite in_map_iff. change (fst (dense_shape (tensor_of_rows g))) with (Z.of_nat (length g)). split.
      - intros (B & id & I & E). exists (Z.to_nat r). split; [lia|]. apply filter_In. split; [apply in_seq; lia|].
        rewrite R in I by lia. apply existsb_exists. exists id. split; [exact I|]. now apply Z.eqb_eq.
      - intros (k & <- & I). apply filter_In in I as [I H]. apply in_seq in I. split; [lia|]. rewrite Nat2Z.id, R by lia.
        apply existsb_exists in H as (id & I' & E). apply Z.eqb_eq in E. eauto. }
    apply Nat.le_antisymm; apply NoDup_incl_length.
    + now apply rows_with_nodup.
    + intros r I. now apply E.
    + apply nodup_map_on; [apply NoDup_filter, seq_NoDup|]. intros. lia.
    + intros r I. now apply E.
  - rewrite map_length, (filter_map_length (fun r => nth r g []) has). now rewrite nth_seq.
Qed.

Lemma documents_of_groups V term groups n : 0 < V ->
  (documents_have V term (map tensor_of_rows groups) n <-> n = Z.of_nat (containing V term (concat groups))).
Proof.
  intros P.
  assert (E : z_total (map (fun b => Z.of_nat (length (rows_with V b term))) (map tensor_of_rows groups))
              = Z.of_nat (containing V term (concat groups))).
  { unfold z_total, containing. induction groups as [|g gs IH]; cbn [map fold_right concat]; [reflexivity|].
    rewrite IH, filter_app, app_length, rows_with_count by exact P. lia. }
  pose proof (counted V term (map tensor_of_rows groups) P) as C. rewrite E in C. split.
  - intros H. eapply documents_have_unique; eauto.
  - now intros ->.
Qed.
Lemma corpus_of_groups groups : corpus (map tensor_of_rows groups) = Z.of_nat (length (concat groups)).
Proof. unfold corpus. induction groups as [|g gs IH]; cbn [map fold_right concat]; [reflexivity|]. rewrite IH, app_length. cbn. lia. Qed.
Lemma groups_in_shape (groups : list (list (list Z))) : Forall in_shape (map tensor_of_rows groups).
Proof. apply Forall_forall. intros b I. apply in_map_iff in I as (g & <- & _). apply windows_tensor_in_shape. Qed.
Lemma groups_fit V groups : 0 < V -> Z.of_nat (length (concat groups)) * (V + 1) <= 2 ^ 63 -> Forall (fits V) (map tensor_of_rows groups).
Proof.
  intros P. induction groups as [|g gs IH]; cbn [map concat]; intros L; constructor; rewrite app_length, Nat2Z.inj_add in L.
  - unfold fits. cbn. nia.
  - apply IH. nia.
Qed.

Theorem groups_document_frequency divide V groups batch : 1 < V -> Z.of_nat (length (concat groups)) * (V + 1) <= 2 ^ 63 ->
  document_frequency divide V (map tensor_of_rows groups) batch
  = Some (Sparse (indices batch) (map (fun id => Z.of_nat (containing V (id mod V) (concat groups))) (values batch)) (dense_shape batch)).
Proof.
  intros P L. destruct (document_frequencies divide V (map tensor_of_rows groups) batch) as ([i v s] & E & Ei & Es & F); auto using groups_in_shape.
  { apply groups_fit; [lia|exact L]. }
  cbn [indices dense_shape values] in *. subst i s. rewrite E. f_equal. f_equal. clear E.
  induction F as [|id n ids ns H F IH]; cbn; [reflexivity|]. f_equal; [|exact IH]. now apply documents_of_groups in H; [|lia].
Qed.
Theorem groups_idf divide log V smooth add_baseline groups batch : 0 < V -> Z.of_nat (length (concat groups)) * (V + 1) <= 2 ^ 63 ->
  idf divide log V smooth add_baseline (map tensor_of_rows groups) batch
  = Some (Sparse (indices batch)
      (map (fun id => idf_value log smooth add_baseline (length (concat groups)) (containing V (id mod V) (concat groups))) (values batch))
      (dense_shape batch)).
Proof.
  intros P L. destruct (idfs divide log V smooth add_baseline (map tensor_of_rows groups) batch) as ([i v s] & E & Ei & Es & F); auto using groups_in_shape.
  { apply groups_fit; [lia|exact L]. }
  cbn [indices dense_shape values] in *. subst i s. rewrite E. f_equal. f_equal. clear E. rewrite corpus_of_groups in F.
  induction F as [|id n ids ns (m & H & ->) F IH]; cbn; [reflexivity|]. f_equal; [|exact IH].
  apply documents_of_groups in H; [|exact P]. subst m. reflexivity.
Qed.
