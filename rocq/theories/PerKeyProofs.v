From Coq Require Import String List ZArith Bool Lia Permutation Sorting.Sorted.
From Verif Require Import CombineModel CombineProofs NumericModel NumericSpec NumericProofs FloatModel MeanVarModel MeanVarProofs.
From Verif Require Import SortModel SortProofs PerKeyModel.
Import ListNotations.
Open Scope Z_scope.

(** ** Recovering the values behind a schedule of reduced batches *)

Lemma sched_unmap {X Y} (f : X -> Y) (s : sched Y) : forall ls,
  elements s = map f ls -> exists s', s = map_sched f s' /\ elements s' = ls.
Proof.
  induction s as [xs|s0 rest IH0 IHr] using sched_ind'; cbn [elements]; intros ls E.
  - exists (Bundle ls). cbn. rewrite E. auto.
  - symmetry in E. apply map_eq_app in E as (l0 & l1 & -> & E0 & E1).
    destruct (IH0 l0 (eq_sym E0)) as (s0' & -> & <-).
    assert (H : exists rest', rest = map (map_sched f) rest' /\ flat_map elements rest' = l1).
    { revert l1 E1. clear IH0 E0. induction IHr as [|r rest Hr _ IH]; cbn [flat_map]; intros l1 E1.
      - exists []. destruct l1; [split; reflexivity|discriminate].
      - apply map_eq_app in E1 as (la & lb & -> & Ea & Eb).
        destruct (Hr la (eq_sym Ea)) as (r' & -> & <-). destruct (IH lb Eb) as (rest' & -> & <-).
        exists (r' :: rest'). split; reflexivity. }
    destruct H as (rest' & -> & <-). exists (Merged s0' rest'). split; reflexivity.
Qed.

Lemma batches_unmap {X Y} (f : X -> Y) (s : sched (sched Y)) ls :
  batches_of s = map f ls -> exists s', s = map_sched (map_sched f) s' /\ batches_of s' = ls.
Proof.
  unfold batches_of. intros E.
  assert (H : forall es l, flat_map elements es = map f l ->
            exists es', es = map (map_sched f) es' /\ flat_map elements es' = l).
  { induction es as [|e es IH]; cbn [flat_map]; intros l El.
    - exists []. destruct l; [split; reflexivity|discriminate].
    - symmetry in El. apply map_eq_app in El as (la & lb & -> & Ea & Eb).
      destruct (sched_unmap f e la (eq_sym Ea)) as (e' & -> & <-).
      destruct (IH lb (eq_sym Eb)) as (es' & -> & <-). exists (e' :: es'). split; reflexivity. }
  destruct (H _ _ E) as (es' & E1 & <-).
  destruct (sched_unmap (map_sched f) s es' E1) as (s' & -> & <-). exists s'. split; reflexivity.
Qed.

Lemma values_of_app {V} k (a b : list (string * V)) : values_of k (a ++ b) = values_of k a ++ values_of k b.
Proof. unfold values_of. rewrite filter_app, map_app. reflexivity. Qed.

Lemma values_of_concat {V} k (bs : list (list (string * V))) :
  concat (map (values_of k) (filter (fun b => existsb (String.eqb k) (map fst b)) bs)) = values_of k (concat bs).
Proof.
  induction bs as [|b bs IH]; cbn [filter concat map]; [reflexivity|].
  rewrite values_of_app. destruct (existsb (String.eqb k) (map fst b)) eqn:E; cbn [map concat]; rewrite IH.
  - reflexivity.
  - rewrite (values_of_no_key k b E). reflexivity.
Qed.

(** For every schedule of the reduced rows of key [k] there is a schedule of batches of values, whose
    rows are the values of key [k], that reduces to it. *)
Lemma per_key_schedule {V B} (g : list V -> B) k (bs : list (list (string * V))) (s : sched (sched B)) :
  Permutation (batches_of s) (inputs_of_key k (map (reduce_per_key g) bs)) ->
  exists s', s = map_sched (map_sched g) s' /\ Permutation (rows_of s') (values_of k (concat bs)) /\
             Forall (fun b => b <> []) (batches_of s').
Proof.
  intros HP. rewrite inputs_of_key_gen in HP.
  rewrite <- (map_map (values_of k) g) in HP.
  destruct (Permutation_map_inv g _ HP) as (ls & E & HL).
  destruct (batches_unmap g s ls E) as (s' & -> & Eb). exists s'. split; [reflexivity|]. split.
  - unfold rows_of. rewrite Eb, <- values_of_concat. clear -HL. induction HL as [|x l1 l2 _ IH|x y l|l1 l2 l3 _ IH1 _ IH2]; cbn [concat].
    + constructor.
    + apply Permutation_app_head, IH.
    + rewrite !app_assoc. apply Permutation_app_tail, Permutation_app_comm.
    + etransitivity; eassumption.
  - rewrite Eb. eapply Permutation_Forall; [exact HL|]. apply Forall_map, Forall_forall.
    intros b Hb. apply filter_In in Hb as [_ Hb]. apply existsb_eqb in Hb. apply in_map_iff in Hb as ((k' & v) & <- & Hin).
    unfold values_of. cbn [fst]. intros E0.
    assert (Hv : In v (map snd (filter (fun p => String.eqb k' (fst p)) b))).
    { apply in_map_iff. exists (k', v). split; [reflexivity|]. apply filter_In. split; [exact Hin|]. cbn. apply String.eqb_refl. }
    rewrite E0 in Hv. exact Hv.
Qed.

(** ** Min and max *)

Lemma per_key_work_ok d w : per_key_work_dtype d = Some w -> work_ok d w.
Proof. destruct d; cbn; intros E; inversion E; subst; auto. Qed.

Lemma key_min_and_max_in d w s' :
  per_key_work_dtype d = Some w ->
  key_min_and_max d (map_sched (map_sched (batch_minus_min_and_max w)) s') = min_and_max_in d w s'.
Proof. unfold key_min_and_max. intros ->. reflexivity. Qed.

Lemma is_max_perm m l1 l2 : Permutation l1 l2 -> is_max m l1 -> is_max m l2.
Proof.
  intros HP [H1 H2]. split; [eapply Permutation_in; eassumption|].
  intros x Hx. apply H2. eapply Permutation_in; [symmetry; exact HP|exact Hx].
Qed.
Lemma is_min_perm m l1 l2 : Permutation l1 l2 -> is_min m l1 -> is_min m l2.
Proof.
  intros HP [H1 H2]. split; [eapply Permutation_in; eassumption|].
  intros x Hx. apply H2. eapply Permutation_in; [symmetry; exact HP|exact Hx].
Qed.

Lemma key_max_exact d w k (bs : list (list (string * Z))) s :
  per_key_work_dtype d = Some w ->
  Permutation (batches_of s) (inputs_of_key k (map (batch_minus_min_and_max_per_key w) bs)) ->
  let vs := values_of k (concat bs) in
  vs <> [] -> Forall (in_range d) vs -> Forall (fun x => x <> dmax d) vs ->
  exists mn mx, key_min_and_max d s = Some (mn, mx) /\ is_max mx vs.
Proof.
  intros Hw HP vs Hn HR HM. destruct (per_key_schedule _ _ _ _ HP) as (s' & -> & HPr & _). fold vs in HPr.
  rewrite (key_min_and_max_in d w s' Hw).
  destruct (max_exact d w s' (per_key_work_ok d w Hw)) as (mn & mx & E & H).
  - intros E. rewrite E in HPr. apply Permutation_nil in HPr. contradiction.
  - eapply Permutation_Forall; [symmetry; exact HPr|exact HR].
  - eapply Permutation_Forall; [symmetry; exact HPr|exact HM].
  - exists mn, mx. split; [exact E|]. eapply is_max_perm; eassumption.
Qed.

Lemma key_min_exact d w k (bs : list (list (string * Z))) s :
  per_key_work_dtype d = Some w ->
  Permutation (batches_of s) (inputs_of_key k (map (batch_minus_min_and_max_per_key w) bs)) ->
  let vs := values_of k (concat bs) in
  vs <> [] -> Forall (in_range d) vs -> Forall (fun x => dmin w < x) vs ->
  exists mn mx, key_min_and_max d s = Some (mn, mx) /\ is_min mn vs.
Proof.
  intros Hw HP vs Hn HR HM. destruct (per_key_schedule _ _ _ _ HP) as (s' & -> & HPr & HNe). fold vs in HPr.
  rewrite (key_min_and_max_in d w s' Hw).
  destruct (min_exact_sentinel d w (per_key_work_ok d w Hw) s') as (mn & mx & E & H).
  - intros E. rewrite E in HPr. apply Permutation_nil in HPr. contradiction.
  - exact HNe.
  - eapply Permutation_Forall; [symmetry; exact HPr|exact HR].
  - eapply Permutation_Forall; [symmetry; exact HPr|exact HM].
  - exists mn, mx. split; [exact E|]. eapply is_min_perm; eassumption.
Qed.

(** The result of a key is a result of the global analyzer on the rows of the key. *)
Lemma key_agrees_with_global d w k (bs : list (list (string * Z))) s :
  per_key_work_dtype d = Some w -> d <> Int16 ->
  Permutation (batches_of s) (inputs_of_key k (map (batch_minus_min_and_max_per_key w) bs)) ->
  exists s', Permutation (rows_of s') (values_of k (concat bs)) /\ key_min_and_max d s = min_and_max d s'.
Proof.
  intros Hw Hd HP. destruct (per_key_schedule _ _ _ _ HP) as (s' & -> & HPr & HNe).
  exists s'. split; [exact HPr|]. rewrite (key_min_and_max_in d w s' Hw).
  symmetry. apply min_and_max_work. destruct d; cbn in *; congruence.
Qed.

(** ** Counts *)

Lemma values_of_units k (b : list string) :
  length (values_of k (map (fun k => (k, tt)) b)) = count_occ String.string_dec b k.
Proof.
  induction b as [|k' b IH]; [reflexivity|]. unfold values_of in *. cbn [map filter fst count_occ].
  destruct (String.eqb_spec k k') as [->|Hne].
  - destruct (String.string_dec k' k'); [|congruence]. cbn [map length]. rewrite IH. reflexivity.
  - destruct (String.string_dec k' k); [congruence|]. exact IH.
Qed.

Lemma key_count_exact k (bs : list (list string)) s :
  Permutation (batches_of s) (inputs_of_key k (map batch_count_per_key bs)) ->
  Z.of_nat (length (concat bs)) < 2 ^ 63 ->
  key_count s = Some (Z.of_nat (count_occ String.string_dec (concat bs) k)).
Proof.
  intros HP HL. unfold batch_count_per_key in HP.
  rewrite <- (map_map (map (fun k => (k, tt))) (reduce_per_key (fun l : list unit => [Sc (Z.of_nat (length l))]))) in HP.
  destruct (per_key_schedule _ _ _ _ HP) as (s' & -> & HPr & _).
  set (g1 := fun l : list unit => map (fun _ => 1) l).
  set (s2 := map_sched (map_sched g1) s').
  assert (Es : map_sched (map_sched (fun l : list unit => [Sc (Z.of_nat (length l))])) s'
               = map_sched (map_sched (fun xs : list Z => [Sc (Z.of_nat (length xs))])) s2).
  { unfold s2. clear. assert (HM : forall X Y Z' (f : X -> Y) (g : Y -> Z') (t : sched X), map_sched g (map_sched f t) = map_sched (fun x => g (f x)) t).
    { intros X Y Z' f g t. induction t as [xs|t0 rest IH0 IHr] using sched_ind'; cbn.
      - rewrite map_map. reflexivity.
      - rewrite IH0. f_equal. rewrite map_map. induction IHr as [|r rest Hr _ IH]; cbn; [reflexivity|]. rewrite Hr, IH. reflexivity. }
    assert (HE : forall X Y (f g : X -> Y) (t : sched X), (forall x, f x = g x) -> map_sched f t = map_sched g t).
    { intros X Y f g t H. induction t as [xs|t0 rest IH0 IHr] using sched_ind'; cbn.
      - rewrite (map_ext _ _ H). reflexivity.
      - rewrite IH0. f_equal. induction IHr as [|r rest Hr _ IH]; cbn; [reflexivity|]. rewrite Hr, IH. reflexivity. }
    rewrite HM. apply HE. intros t. rewrite HM. apply HE. intros l. unfold g1. rewrite map_length. reflexivity. }
  rewrite Es. unfold key_count.
  destruct (sum_result Int64 (fun xs => Z.of_nat (length xs)) s2) as (z & -> & Hz).
  f_equal. rewrite Hz.
  assert (EB : batches_of s2 = map g1 (batches_of s')) by apply batches_map.
  assert (ET : zsum (map (fun xs : list Z => Z.of_nat (length xs)) (batches_of s2))
               = Z.of_nat (count_occ String.string_dec (concat bs) k)).
  { rewrite EB, map_map. unfold g1.
    rewrite (map_ext _ (fun l : list unit => Z.of_nat (length l))) by (intros; rewrite map_length; reflexivity).
    rewrite <- values_of_units.
    assert (E1 : Z.of_nat (length (rows_of s')) = zsum (map (fun l : list unit => Z.of_nat (length l)) (batches_of s'))).
    { unfold rows_of. generalize (batches_of s'). intros l. induction l as [|x l IH]; [reflexivity|].
      cbn [concat map]. rewrite app_length. change (zsum (?a :: ?b)) with (a + zsum b). cbn [zsum fold_right] in *. unfold zsum in *. lia. }
    rewrite <- E1. f_equal. rewrite concat_map. apply Permutation_length. exact HPr. }
  rewrite ET. apply wrap_id. unfold in_range. change (dmin Int64) with (- 2 ^ 63). change (dmax Int64) with (2 ^ 63 - 1).
  pose proof (count_occ_bound String.string_dec k (concat bs)). lia.
Qed.

(** ** Assembly *)

Lemma fst_leb_trans {O} (x y z : string * O) :
  bytes_leb (fst x) (fst y) = true -> bytes_leb (fst y) (fst z) = true -> bytes_leb (fst x) (fst z) = true.
Proof. apply bytes_leb_trans. Qed.

Lemma NoDup_key_inj {O} (l : list (string * O)) p q :
  NoDup (map fst l) -> In p l -> In q l -> fst p = fst q -> p = q.
Proof.
  induction l as [|x l IH]; cbn; [tauto|]. intros HN Hp Hq E. inversion HN as [|? ? Hx HN']; subst.
  destruct Hp as [->|Hp], Hq as [->|Hq].
  - reflexivity.
  - exfalso. apply Hx. rewrite E. apply in_map, Hq.
  - exfalso. apply Hx. rewrite <- E. apply in_map, Hp.
  - apply IH; assumption.
Qed.

Lemma merge_outputs_spec {O} (l : list (string * O)) :
  let (ks, os) := merge_outputs_by_key l in
  Permutation (combine ks os) l /\ length ks = length os /\ StronglySorted (fun a b => bytes_leb a b = true) ks.
Proof.
  unfold merge_outputs_by_key.
  pose proof (py_sorted_perm (fun a b : string * O => bytes_leb (fst a) (fst b)) l) as HP.
  pose proof (py_sorted_sorted (fun a b : string * O => bytes_leb (fst a) (fst b))
                (fun x y => bytes_leb_total (fst x) (fst y)) fst_leb_trans l) as HS.
  set (sorted := py_sorted _ l) in *. split; [|split].
  - replace (combine (map fst sorted) (map snd sorted)) with sorted; [exact HP|].
    generalize sorted. intros q. induction q as [|[k o] q IH]; cbn; [reflexivity|]. rewrite <- IH. reflexivity.
  - rewrite !map_length. reflexivity.
  - clear HP. induction HS as [|x l0 HS IH HF]; cbn; constructor; [exact IH|].
    apply Forall_map. exact HF.
Qed.

Lemma merge_outputs_order_independent {O} (l1 l2 : list (string * O)) :
  NoDup (map fst l1) -> Permutation l1 l2 -> merge_outputs_by_key l1 = merge_outputs_by_key l2.
Proof.
  intros HN HP. unfold merge_outputs_by_key.
  rewrite (py_sorted_perm_eq _ (fun x y => bytes_leb_total (fst x) (fst y)) fst_leb_trans l1 l2 HP); [reflexivity|].
  intros x y Hx Hy H1 H2. apply (NoDup_key_inj l1 x y HN Hx Hy). apply bytes_leb_antisym; assumption.
Qed.

(** ** Lookup *)

Lemma match_indices_spec k vocab : forall i, 0 <= i ->
  Forall (fun x => x = -1 \/ i <= x) (match_indices i k vocab) /\
  forall x, In x (match_indices i k vocab) -> x <> -1 ->
    nth_error vocab (Z.to_nat (x - i)) = Some k.
Proof.
  induction vocab as [|k' v IH]; intros i Hi; cbn [match_indices]; [split; [constructor|contradiction]|].
  destruct (IH (i + 1) ltac:(lia)) as [I1 I2]. split.
  - constructor; [destruct (String.eqb k k'); lia|]. eapply Forall_impl; [|exact I1]. cbn. intros; lia.
  - intros x [<-|Hx] Hne.
    + destruct (String.eqb_spec k k') as [->|]; [|congruence]. rewrite Z.sub_diag. reflexivity.
    + rewrite Forall_forall in I1. destruct (I1 x Hx) as [?|Hge]; [contradiction|].
      specialize (I2 x Hx Hne). replace (Z.to_nat (x - i)) with (S (Z.to_nat (x - (i + 1)))) by lia. exact I2.
Qed.

Lemma match_indices_In k vocab j : forall i, nth_error vocab j = Some k -> In (i + Z.of_nat j) (match_indices i k vocab).
Proof.
  revert j. induction vocab as [|k' v IH]; intros [|j] i; cbn [nth_error match_indices]; try discriminate.
  - intros E; injection E as ->. rewrite String.eqb_refl. left. cbn. lia.
  - intros E. right. replace (i + Z.of_nat (S j)) with (i + 1 + Z.of_nat j) by lia. apply IH, E.
Qed.

Lemma lookup_key_spec k vocab :
  (In k vocab -> 0 <= lookup_key k vocab /\ nth_error vocab (Z.to_nat (lookup_key k vocab)) = Some k) /\
  (~ In k vocab -> lookup_key k vocab = -1).
Proof.
  unfold lookup_key. destruct vocab as [|k0 v]; [split; [contradiction|reflexivity]|].
  set (vocab := k0 :: v). destruct (match_indices_spec k vocab 0 ltac:(lia)) as [I1 I2].
  assert (Hn : match_indices 0 k vocab <> []) by discriminate.
  destruct (list_max_spec _ Hn) as [Hin Hmax]. set (m := list_max (match_indices 0 k vocab)) in *.
  split.
  - intros HI. apply In_nth_error in HI as (j & Hj).
    pose proof (Hmax _ (match_indices_In k vocab j 0 Hj)) as Hge.
    assert (m <> -1) by lia. split; [lia|]. specialize (I2 m Hin H). rewrite Z.sub_0_r in I2. exact I2.
  - intros HI. destruct (Z.eq_dec m (-1)) as [E|E]; [exact E|]. exfalso. apply HI.
    eapply nth_error_In. exact (I2 m Hin E).
Qed.

Lemma map_per_key_spec {O} (zeros_like : O -> O) (results : list O) vocab k :
  length results = length vocab -> NoDup vocab -> vocab <> [] ->
  (forall j, nth_error vocab j = Some k -> map_per_key zeros_like results vocab k = nth_error results j) /\
  (~ In k vocab -> exists t0, map_per_key zeros_like results vocab k = Some (zeros_like t0)).
Proof.
  intros HL HN Hv. destruct (lookup_key_spec k vocab) as [L1 L2]. unfold map_per_key.
  destruct results as [|t0 ts]; [destruct vocab; [congruence|discriminate]|]. split.
  - intros j Hj. destruct (L1 (nth_error_In _ _ Hj)) as [P1 P2].
    destruct (Z.leb_spec 0 (lookup_key k vocab)); [|lia].
    assert (Hlt : (j < length vocab)%nat) by (apply nth_error_Some; congruence).
    assert (Z.to_nat (lookup_key k vocab) = j) as ->.
    { rewrite NoDup_nth_error in HN. symmetry. apply HN; [exact Hlt|congruence]. }
    rewrite nth_error_app1 by (rewrite HL; exact Hlt). reflexivity.
  - intros HI. rewrite (L2 HI). cbn [Z.leb Z.compare]. exists t0.
    rewrite nth_error_app2 by lia. rewrite HL, Nat.sub_diag. reflexivity.
Qed.
