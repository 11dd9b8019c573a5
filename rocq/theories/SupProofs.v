(** Proofs about supplied inputs. *)
From Coq Require Import String List Arith Bool Lia.
From Verif Require Import SupModel SupSpec.
Import ListNotations.

Section proofs.
  Variable V : Type.
  Variable zero : V.
  Local Notation zeros := (zeros V zero).
  Local Notation supply := (supply V zero).

  Lemma product_fold : forall s, fold_right Nat.mul 1 s = product s.
  Proof. induction s as [|n s IH]; cbn; [reflexivity | now rewrite IH]. Qed.
  Lemma zeros_full : forall s, full V (zeros s).
  Proof. intros s. unfold full, SupModel.zeros. cbn [values shape]. now rewrite repeat_length, product_fold. Qed.
  Lemma supplied_full : forall b s, full V (supply_missing_tensor V zero b s).
  Proof. intros b [[|d ds]|]; apply zeros_full. Qed.
  Lemma sizes_fits : forall ds s, compatible_sizes ds s = true <-> Forall2 (fun d n => d = None \/ d = Some n) ds s.
  Proof.
    induction ds as [|d ds IH]; intros [|n s]; cbn; split; intros H; try discriminate; try (now inversion H); try constructor.
    - apply andb_true_iff in H. destruct d as [m|]; [right; f_equal; now apply Nat.eqb_eq | now left].
    - apply andb_true_iff in H. now apply IH.
    - inversion H as [|a b la lb [->| ->] F]; subst; [now apply IH|]. rewrite Nat.eqb_refl. now apply IH.
  Qed.
  Lemma compatible_fits : forall st s, compatible st s = true <-> fits st s.
  Proof. intros [ds|] s; cbn; [apply sizes_fits | now split]. Qed.
  Lemma sizes_or_one : forall ds, Forall2 (fun d n => d = None \/ d = Some n) ds (map (fun d => match d with None => 1 | Some n => n end) ds).
  Proof. induction ds as [|[n|] ds IH]; cbn; constructor; auto. Qed.
  Lemma default_fits : forall b ds, compatible (Some (None :: ds)) (shape V (supply_missing_tensor V zero b (Some (None :: ds)))) = true.
  Proof. intros b ds. apply compatible_fits. cbn. constructor; [now left | apply sizes_or_one]. Qed.

  Lemma seq_at : forall n a i, i < n -> nth_error (seq a n) i = Some (a + i).
  Proof.
    induction n as [|n IH]; intros a i H; [lia|]. destruct i; cbn; [f_equal; lia|]. rewrite IH by lia. f_equal. lia.
  Qed.
  Lemma seq_at_inv : forall n a i x, nth_error (seq a n) i = Some x -> x = a + i /\ i < n.
  Proof.
    intros n a i x E. assert (L : i < n) by (rewrite <- (seq_length n a); apply nth_error_Some; congruence). rewrite (seq_at n a i L) in E. injection E as <-. now split.
  Qed.
  Lemma one_each : forall n, splits_ok (seq 0 (n + 1)) n /\ uniform 1 (seq 0 (n + 1)).
  Proof.
    intros n. split; [split; [|split]|].
    - apply seq_at. lia.
    - rewrite seq_length, seq_at by lia. f_equal. lia.
    - intros i a b A B. apply seq_at_inv in A, B. lia.
    - intros i a b A B. apply seq_at_inv in A, B. lia.
  Qed.
  Lemma wrap_splits : forall k n l, wrap k n l = (repeat (seq 0 (n + 1)) k ++ l)%list.
  Proof.
    induction k as [|k IH]; intros n l; [reflexivity|]. cbn [wrap]. rewrite seq_length. replace (n + 1 - 1) with n by lia. rewrite IH.
    replace (S k) with (k + 1) by lia. rewrite repeat_app. cbn [repeat]. now rewrite <- app_assoc.
  Qed.
  Lemma repeat_ok : forall k n, partitions_ok (repeat (seq 0 (n + 1)) k) n.
  Proof.
    induction k as [|k IH]; intros n; [exact Logic.I|]. cbn [repeat partitions_ok]. split; [|apply IH]. destruct k; cbn [repeat]; [apply one_each|].
    rewrite seq_length. replace (n + 1 - 1) with n by lia. apply one_each.
  Qed.
  Lemma repeat_uniform : forall ps n, Forall any_or_one ps -> Forall2 (fun p splits => match p with None => True | Some m => uniform m splits end) ps (repeat (seq 0 (n + 1)) (List.length ps)).
  Proof. intros ps n F. induction F as [|p ps [->| ->] F IH]; cbn [List.length repeat]; constructor; try exact IH; [exact Logic.I | apply one_each]. Qed.
  Lemma indices_ordered : forall (tail : list nat) n a, ordered (map (fun i => i :: tail) (seq a n)).
  Proof.
    intros tail. induction n as [|n IH]; intros a; cbn; constructor; [apply IH|]. intros b I. apply in_map_iff in I. destruct I as [i [<- I]]. apply in_seq in I.
    apply before_here. lia.
  Qed.
  Lemma ones : forall ds, Forall any_or_one ds -> Forall2 (fun d n => d = None \/ d = Some n) ds (repeat 1 (List.length ds)).
  Proof. intros ds F. induction F; cbn; constructor; auto. Qed.
  Lemma below_ones : forall k, Forall2 lt (repeat 0 k) (repeat 1 k).
  Proof. induction k; cbn; constructor; auto. Qed.

  Lemma supply_dense : forall b s v, supply b (Dense_spec s) = Some v -> well_formed V v /\ of_type V (Dense_spec s) v.
  Proof.
    intros b s v E. cbn in E. unfold placeholder_with_default in E. destruct (compatible s _) eqn:C; [|discriminate]. injection E as <-.
    split; [apply supplied_full | now apply compatible_fits].
  Qed.
  Lemma supply_batched : forall b t, batched t -> exists v, supply b t = Some v /\ well_formed V v /\ of_type V t v /\ rows V v b.
  Proof.
    intros b t B. destruct t as [s|s vs|ps flat|]; [| | |destruct B].
    - destruct B as [ds ->]. exists (Dense V (supply_missing_tensor V zero b (Some (None :: ds)))). unfold SupModel.supply, placeholder_with_default. rewrite default_fits.
      split; [reflexivity|]. split; [apply supplied_full|]. split; [apply compatible_fits, default_fits|]. eexists. reflexivity.
    - destruct B as [[ds [-> F]] ->]. cbn [SupModel.supply supply_missing_tensor or shape SupModel.zeros map List.length]. rewrite Nat.sub_succ, Nat.sub_0_r.
      cbn [compatible compatible_sizes andb List.length repeat Nat.add]. rewrite !repeat_length, !Nat.eqb_refl. cbn [andb].
      unfold placeholder_with_default. cbn [compatible compatible_sizes shape SupModel.zeros]. cbn [andb option_map]. eexists. split; [reflexivity|].
      split; [|split; [split|]].
      + split; [exact (zeros_full [b])|]. cbn [shape SupModel.zeros]. split; [now rewrite map_length, seq_length|]. split; [apply indices_ordered|].
        intros i I. apply in_map_iff in I. destruct I as [j [<- I]]. apply in_seq in I. constructor; [lia | apply below_ones].
      + cbn [fits]. constructor; [now left | now apply ones].
      + cbn. constructor; [now left | constructor].
      + now eexists.
    - destruct B as [F [ds ->]]. destruct ps as [|p ps].
      + exists (Dense V (supply_missing_tensor V zero b (Some (None :: ds)))). unfold SupModel.supply, placeholder_with_default. rewrite default_fits.
        split; [reflexivity|]. split; [apply supplied_full|]. split; [apply compatible_fits, default_fits|]. eexists. reflexivity.
      + exists (Ragged V (repeat (seq 0 (b + 1)) (List.length (p :: ps))) (supply_missing_tensor V zero b (Some (None :: ds)))). split; [|split; [|split]].
        * unfold SupModel.supply, placeholder_with_default. rewrite default_fits. cbn [supply_missing_tensor shape SupModel.zeros or option_map]. rewrite wrap_splits, app_nil_r. reflexivity.
        * split; [apply supplied_full|]. eexists. eexists. split; [reflexivity | apply repeat_ok].
        * split; [now apply repeat_uniform | apply compatible_fits, default_fits].
        * cbn [List.length repeat rows]. rewrite seq_length. lia.
  Qed.

  Lemma all_some_in : forall A B (f : A -> option B) l, (forall a, In a l -> exists b, f a = Some b) -> exists r, all_some (map f l) = Some r /\
    forall b, In b r <-> exists a, In a l /\ f a = Some b.
  Proof.
    intros A B f l H. induction l as [|a l IH]; [exists []; cbn; split; [reflexivity | intros b; split; [intros [] | intros [a [[] _]]]]|].
    destruct (H a (or_introl eq_refl)) as [b E]. destruct IH as [r [R I]]; [intros x X; apply H; now right|]. exists (b :: r). cbn. rewrite E, R. split; [reflexivity|].
    intros c. rewrite I. split.
    - intros [<-|[x [X Y]]]; [exists a; split; [now left | exact E] | exists x; split; [now right | exact Y]].
    - intros [x [[<-|X] Y]]; [left; congruence | right; now exists x].
  Qed.
  Lemma get_in : forall A (d : list (string * A)) k a, dict_get d k = Some a -> In (k, a) d.
  Proof. induction d as [|[k' x] d IH]; intros k a E; [discriminate|]. cbn in E. destruct (String.eqb_spec k' k) as [->|_]; [injection E as ->; now left | right; now apply IH]. Qed.
  Lemma in_get : forall A (d : list (string * A)) k, In k (map fst d) -> exists a, dict_get d k = Some a.
  Proof. induction d as [|[k' x] d IH]; intros k I; [destruct I|]. cbn in *. destruct (String.eqb_spec k' k) as [->|N]; [now exists x|]. destruct I as [->|I]; [congruence | now apply IH]. Qed.
  Lemma supply_all : forall structured b ks, ks <> [] -> (forall k t, In (k, t) structured -> batched t) -> incl ks (map fst structured) ->
    exists r, supply_missing_inputs V zero structured b ks = Some r /\
      (forall k, In k (map fst r) <-> In k ks) /\
      forall k v, In (k, v) r -> well_formed V v /\ rows V v b /\ exists t, In (k, t) structured /\ dict_get structured k = Some t /\ of_type V t v.
  Proof.
    intros structured b ks N B I. unfold supply_missing_inputs. destruct ks as [|k0 ks]; [congruence|]. clear N. set (l := k0 :: ks) in *.
    set (f := fun k => match dict_get structured k with Some t => option_map (pair k) (supply b t) | None => None end).
    assert (T : forall k, In k l -> exists v t, f k = Some (k, v) /\ dict_get structured k = Some t /\ well_formed V v /\ rows V v b /\ of_type V t v).
    { intros k K. destruct (in_get _ _ _ (I k K)) as [t G]. destruct (supply_batched b t (B k t (get_in _ _ _ _ G))) as [v [S [W [O R]]]]. exists v, t.
      unfold f. rewrite G, S. now repeat split. }
    destruct (all_some_in _ _ f l) as [r [R X]]; [intros k K; destruct (T k K) as [v [t [E _]]]; now exists (k, v)|]. exists r. split; [exact R|]. split.
    - intros k. split.
      + intros J. apply in_map_iff in J. destruct J as [[k' v] [<- J]]. apply X in J. destruct J as [a [A E]]. destruct (T a A) as [v' [t [E' _]]]. rewrite E' in E. now injection E as -> ->.
      + intros K. destruct (T k K) as [v [t [E _]]]. change k with (fst (k, v)). apply in_map. apply X. now exists k.
    - intros k v J. apply X in J. destruct J as [a [A E]]. destruct (T a A) as [v' [t [E' [G [W [Rw O]]]]]]. rewrite E' in E. injection E as -> ->.
      split; [exact W|]. split; [exact Rw|]. exists t. split; [now apply get_in | now split].
  Qed.
  Lemma supply_keys : forall structured b ks r, ks <> [] -> supply_missing_inputs V zero structured b ks = Some r -> map fst r = ks.
  Proof.
    intros structured b ks r N E. unfold supply_missing_inputs in E. destruct ks as [|k0 ks]; [congruence|]. clear N. set (l := k0 :: ks) in *. clearbody l.
    revert r E. induction l as [|k l IH]; intros r E; cbn in E; [injection E as <-; reflexivity|].
    destruct (dict_get structured k) as [t|]; [|discriminate]. destruct (supply b t) as [v|]; [|discriminate]. cbn [option_map] in E.
    destruct (all_some _) as [r'|]; [|discriminate]. injection E as <-. cbn. f_equal. now apply IH.
  Qed.
  Lemma batch_size_rows : forall k v l n, rows V v n -> batch_size_of V ((k, v) :: l) = Some n.
  Proof.
    intros k v l n R. destruct v as [a|i vs d|[|s ss] a]; cbn in *.
    - destruct R as [s ->]. reflexivity.
    - destruct R as [s ->]. reflexivity.
    - destruct R as [s ->]. reflexivity.
    - rewrite R. f_equal. lia.
  Qed.
End proofs.
