From Coq Require Import List ZArith Bool Lia Permutation.
From Verif Require Import CombineModel CombineProofs NumericModel NumericSpec.
Import ListNotations.
Open Scope Z_scope.

(** ** Machine integers *)

Lemma pow_bits_pos d : 0 < 2 ^ bits d.
Proof. destruct d; reflexivity. Qed.

Lemma dmax_dmin d : dmax d = dmin d + 2 ^ bits d - 1.
Proof. destruct d; reflexivity. Qed.

Lemma wrap_id d z : in_range d z -> wrap d z = z.
Proof.
  unfold in_range, wrap. rewrite dmax_dmin. intros H.
  rewrite Z.mod_small; lia.
Qed.

Lemma wrap_in_range d z : in_range d (wrap d z).
Proof.
  unfold in_range, wrap. rewrite dmax_dmin.
  pose proof (Z.mod_pos_bound (z - dmin d) (2 ^ bits d) (pow_bits_pos d)). lia.
Qed.

Lemma wrap_add_idem d a b : wrap d (wrap d a + b) = wrap d (a + b).
Proof.
  unfold wrap. pose proof (pow_bits_pos d) as HP.
  replace ((a - dmin d) mod 2 ^ bits d + dmin d + b - dmin d)
    with ((a - dmin d) mod 2 ^ bits d + b) by lia.
  rewrite Zplus_mod_idemp_l. do 2 f_equal. lia.
Qed.

(** The pairs of a column dtype and the dtype its batches are reduced in. *)
Definition work_ok (d w : int_dtype) : Prop :=
  match d with
  | UInt8 | UInt16 => w = Int32
  | Int16 => w = Int32 \/ w = Int16
  | UInt32 | UInt64 => False
  | Int8 | Int32 | Int64 => w = d
  end.
Lemma work_dtype_ok d w : minmax_work_dtype d = Some w -> work_ok d w.
Proof. destruct d; cbn; intros E; inversion E; subst; auto. Qed.
Ltac work_destruct Hw :=
  match type of Hw with
  | work_ok ?d _ => destruct d; cbn in Hw; try contradiction; try (destruct Hw as [Hw|Hw]); subst
  end.

Lemma in_range_sub d w z : work_ok d w -> in_range d z -> in_range w z.
Proof. unfold in_range. intros E; work_destruct E; cbn; lia. Qed.

Lemma neg_in_range d w z :
  work_ok d w -> in_range d z -> dmin w < z -> in_range w (0 - z) /\ dmin w < 0 - z.
Proof. unfold in_range. intros E; work_destruct E; cbn; lia. Qed.

Lemma wrap_neg_min w : In w [Int8; Int16; Int32; Int64] -> wrap w (0 - dmin w) = dmin w.
Proof. cbn. intros [<-|[<-|[<-|[<-|[]]]]]; reflexivity. Qed.

Lemma work_cases d w : work_ok d w -> In w [Int8; Int16; Int32; Int64].
Proof. intros E; work_destruct E; cbn; tauto. Qed.

Lemma work_dmin d w : work_ok d w -> dmin w < - dmax d.
Proof. intros E; work_destruct E; reflexivity. Qed.
Lemma work_range d w : work_ok d w -> in_range w (- dmax d).
Proof. intros E; unfold in_range; work_destruct E; cbn; lia. Qed.

(** ** Maxima *)

Lemma fold_max_spec l b :
  (fold_left Z.max l b = b \/ In (fold_left Z.max l b) l)
  /\ b <= fold_left Z.max l b
  /\ forall x, In x l -> x <= fold_left Z.max l b.
Proof.
  revert b. induction l as [|y l IH]; cbn; intros b.
  - split; [left; reflexivity|]. split; [lia|]. tauto.
  - destruct (IH (Z.max b y)) as (H1 & H2 & H3). split; [|split].
    + destruct H1 as [H1|H1]; [|right; right; exact H1].
      rewrite H1. destruct (Z.max_spec b y) as [[_ ->]|[_ ->]]; [right; left; reflexivity|left; reflexivity].
    + lia.
    + intros x [->|Hx]; [lia|]. apply H3, Hx.
Qed.

Lemma fold_max_unique l b m :
  (m = b \/ In m l) -> b <= m -> (forall x, In x l -> x <= m) -> fold_left Z.max l b = m.
Proof.
  intros Hm Hb Hl. destruct (fold_max_spec l b) as (H1 & H2 & H3).
  apply Z.le_antisymm.
  - destruct H1 as [->|H1]; [exact Hb|apply Hl, H1].
  - destruct Hm as [->|Hm]; [exact H2|apply H3, Hm].
Qed.

Lemma fold_max_app l1 l2 b :
  fold_left Z.max (l1 ++ l2) b = Z.max (fold_left Z.max l1 b) (fold_left Z.max l2 b).
Proof.
  apply fold_max_unique.
  - destruct (fold_max_spec l1 b) as (A1 & A2 & A3), (fold_max_spec l2 b) as (B1 & B2 & B3).
    rewrite in_app_iff.
    destruct (Z.max_spec (fold_left Z.max l1 b) (fold_left Z.max l2 b)) as [[_ ->]|[_ ->]]; tauto.
  - destruct (fold_max_spec l1 b) as (A1 & A2 & A3). lia.
  - intros x Hx. apply in_app_iff in Hx as [Hx|Hx].
    + destruct (fold_max_spec l1 b) as (A1 & A2 & A3). specialize (A3 x Hx). lia.
    + destruct (fold_max_spec l2 b) as (A1 & A2 & A3). specialize (A3 x Hx). lia.
Qed.

Lemma list_max_spec l : l <> [] -> In (list_max l) l /\ forall x, In x l -> x <= list_max l.
Proof.
  destruct l as [|y l]; [congruence|intros _]. cbn [list_max].
  destruct (fold_max_spec l y) as (H1 & H2 & H3). split.
  - destruct H1 as [->|H1]; [left; reflexivity|right; exact H1].
  - intros x [->|Hx]; [exact H2|apply H3, Hx].
Qed.

Lemma list_max_unique l m : In m l -> (forall x, In x l -> x <= m) -> list_max l = m.
Proof.
  intros Hm Hl. assert (l <> []) as Hn by (destruct l; [contradiction|discriminate]).
  destruct (list_max_spec l Hn) as [H1 H2]. specialize (Hl _ H1). specialize (H2 _ Hm). lia.
Qed.

(** list_max of the maxima of the parts. *)
Lemma list_max_concat (ls : list (list Z)) :
  ls <> [] -> Forall (fun l => l <> []) ls ->
  list_max (concat ls) = list_max (map list_max ls).
Proof.
  intros Hn HF. apply list_max_unique.
  - assert (map list_max ls <> []) as Hn' by (destruct ls; [congruence|discriminate]).
    destruct (list_max_spec _ Hn') as [H1 _]. apply in_map_iff in H1 as (l & E & Hl).
    rewrite <- E. apply in_concat. exists l. split; [exact Hl|].
    rewrite Forall_forall in HF. apply list_max_spec, HF, Hl.
  - intros x Hx. apply in_concat in Hx as (l & Hl & Hx).
    rewrite Forall_forall in HF. pose proof (HF l Hl) as Hln.
    destruct (list_max_spec l Hln) as [_ H2]. specialize (H2 x Hx).
    assert (map list_max ls <> []) as Hn' by (destruct ls; [congruence|discriminate]).
    destruct (list_max_spec _ Hn') as [_ H3]. specialize (H3 (list_max l) (in_map _ _ _ Hl)). lia.
Qed.

(** ** zip_star and sequence on accumulators with one or two entries *)

Lemma zip_star_pairs {X} (ps : list (X * X)) :
  ps <> [] ->
  zip_star (map (fun p => [fst p; snd p]) ps) = [map fst ps; map snd ps].
Proof.
  destruct ps as [|[x y] ps]; [congruence|intros _]. cbn [map zip_star fst snd].
  assert (G : forall l m,
    fold_left (fun acc l' => map (fun p : list X * X => fst p ++ [snd p]) (combine acc l'))
              (map (fun p : X * X => [fst p; snd p]) ps) [l; m]
    = [l ++ map fst ps; m ++ map snd ps]).
  { induction ps as [|[a b] ps IH]; cbn; intros l m; [rewrite !app_nil_r; reflexivity|].
    rewrite IH, <- !app_assoc. reflexivity. }
  rewrite G. reflexivity.
Qed.

Lemma zip_star_singles {X} (ps : list X) :
  ps <> [] -> zip_star (map (fun p => [p]) ps) = [ps].
Proof.
  destruct ps as [|x ps]; [congruence|intros _]. cbn [map zip_star].
  assert (G : forall l,
    fold_left (fun acc l' => map (fun p : list X * X => fst p ++ [snd p]) (combine acc l'))
              (map (fun p : X => [p]) ps) [l] = [l ++ ps]).
  { induction ps as [|a ps IH]; cbn; intros l; [rewrite !app_nil_r; reflexivity|].
    rewrite IH, <- !app_assoc. reflexivity. }
  rewrite G. reflexivity.
Qed.

Lemma sequence_map_Some {X Y} (f : X -> Y) l : sequence (map (fun x => Some (f x)) l) = Some (map f l).
Proof. induction l as [|x l IH]; cbn; [reflexivity|]. rewrite IH. reflexivity. Qed.

Lemma all_sc_map l : all_sc (map Sc l) = Some l.
Proof. induction l as [|z l IH]; cbn; [reflexivity|]. rewrite IH. reflexivity. Qed.

Lemma all_vec_map n l : Forall (fun v => length v = n) l -> all_vec n (map Vec l) = Some l.
Proof.
  induction 1 as [|v l Hv _ IH]; cbn; [reflexivity|].
  rewrite Hv, Nat.eqb_refl, IH. reflexivity.
Qed.

Lemma np_reduce_sc fn l : l <> [] -> np_reduce fn (map Sc l) = Some (Sc (fn l)).
Proof.
  destruct l as [|z l]; [congruence|intros _]. cbn [map np_reduce].
  change (Sc z :: map Sc l) with (map Sc (z :: l)). rewrite all_sc_map. reflexivity.
Qed.

Lemma np_reduce_vec fn n l :
  l <> [] -> Forall (fun v => length v = n) l ->
  np_reduce fn (map Vec l) = Some (Vec (map (fun j => fn (column j l)) (seq 0 n))).
Proof.
  destruct l as [|v l]; [congruence|intros _ HF]. cbn [map np_reduce].
  change (Vec v :: map Vec l) with (map Vec (v :: l)).
  assert (length v = n) as E by (inversion HF; assumption). rewrite E.
  rewrite all_vec_map by exact HF. reflexivity.
Qed.

(** The merge of accumulators with two scalar entries. *)
Definition sc_pair (p : Z * Z) : list arr := [Sc (fst p); Sc (snd p)].

Lemma np_merge_sc_pairs fn default shapes (ps : list (Z * Z)) :
  np_merge fn default shapes (map (fun p => Some (sc_pair p)) ps)
  = match filter (fun p => negb (fst p =? default)) ps with
    | [] => Some (np_create default shapes)
    | (_ :: _) as qs => Some (sc_pair (fn (map fst qs), fn (map snd qs)))
    end.
Proof.
  unfold np_merge. rewrite sequence_map_Some, map_map.
  change (fun x => first_is_default default (sc_pair x))
    with (fun x : Z * Z => Some (fst x =? default)).
  rewrite sequence_map_Some.
  assert (E : filter (fun acc => match first_is_default default acc with Some b => negb b | None => true end)
                     (map sc_pair ps)
              = map sc_pair (filter (fun p => negb (fst p =? default)) ps)).
  { induction ps as [|p ps IH]; cbn [map filter]; [reflexivity|].
    rewrite IH. cbn [first_is_default is_default_sub_accumulator sc_pair].
    destruct (negb (fst p =? default)); reflexivity. }
  cbn zeta. rewrite E. destruct (filter _ ps) as [|q qs] eqn:EF; [reflexivity|].
  assert (N : q :: qs <> []) by discriminate.
  change (map sc_pair (q :: qs)) with (sc_pair q :: map sc_pair qs) at 1. cbv iota.
  replace (map sc_pair (q :: qs))
    with (map (fun p : arr * arr => [fst p; snd p]) (map (fun p : Z * Z => (Sc (fst p), Sc (snd p))) (q :: qs)))
    by (rewrite map_map; reflexivity).
  rewrite zip_star_pairs by discriminate. rewrite !map_map.
  change (map (fun x => fst (Sc (fst x), Sc (snd x))) (q :: qs))
    with (map (fun x : Z * Z => Sc (fst x)) (q :: qs)).
  change (map (fun x => snd (Sc (fst x), Sc (snd x))) (q :: qs))
    with (map (fun x : Z * Z => Sc (snd x)) (q :: qs)).
  rewrite <- (map_map fst Sc), <- (map_map snd Sc).
  cbn [map]. change (Sc (fst q) :: map Sc (map fst qs)) with (map Sc (map fst (q :: qs))).
  change (Sc (snd q) :: map Sc (map snd qs)) with (map Sc (map snd (q :: qs))).
  rewrite !np_reduce_sc by discriminate. reflexivity.
Qed.

Lemma np_add_sc_pair fn default p q :
  np_add_input fn default (Some (sc_pair p)) (sc_pair q)
  = Some (if fst p =? default then sc_pair q
          else sc_pair (fn [fst p; fst q], fn [snd p; snd q])).
Proof.
  cbn [np_add_input first_is_default is_default_sub_accumulator sc_pair].
  destruct (fst p =? default); reflexivity.
Qed.

(** Sum accumulators with one scalar entry. *)
Lemma np_merge_sc_single fn default shapes (ps : list Z) :
  np_merge fn default shapes (map (fun p => Some [Sc p]) ps)
  = match filter (fun p => negb (p =? default)) ps with
    | [] => Some (np_create default shapes)
    | (_ :: _) as qs => Some [Sc (fn qs)]
    end.
Proof.
  unfold np_merge. rewrite sequence_map_Some, map_map.
  change (fun x => first_is_default default [Sc x]) with (fun x : Z => Some (x =? default)).
  rewrite sequence_map_Some.
  assert (E : filter (fun acc => match first_is_default default acc with Some b => negb b | None => true end)
                     (map (fun p => [Sc p]) ps)
              = map (fun p => [Sc p]) (filter (fun p => negb (p =? default)) ps)).
  { induction ps as [|p ps IH]; cbn [map filter]; [reflexivity|].
    rewrite IH. cbn [first_is_default is_default_sub_accumulator].
    destruct (negb (p =? default)); reflexivity. }
  cbn zeta. rewrite E. destruct (filter _ ps) as [|q qs] eqn:EF; [reflexivity|].
  change (map (fun p => [Sc p]) (q :: qs)) with ([Sc q] :: map (fun p => [Sc p]) qs) at 1. cbv iota.
  replace (map (fun p => [Sc p]) (q :: qs)) with (map (fun p => [p]) (map Sc (q :: qs)))
    by (rewrite map_map; reflexivity).
  rewrite zip_star_singles by discriminate. cbn [map].
  change (Sc q :: map Sc qs) with (map Sc (q :: qs)).
  rewrite np_reduce_sc by discriminate. reflexivity.
Qed.

(** ** tft.max *)

Section scalar.
  Variables (d w : int_dtype).
  Hypothesis Hw : work_ok d w.
  Let D := - dmax d.
  Let comb := np_combiner list_max D [ScalarShape; ScalarShape].

  Definition bpair (xs : list Z) : Z * Z :=
    (reduce_max w (map (fun x => wrap w (0 - x)) xs), reduce_max w xs).

  Lemma batch_pair xs : batch_minus_min_and_max w xs = sc_pair (bpair xs).
  Proof. reflexivity. Qed.

  Lemma dmin_w_lt_D : dmin w < D.
  Proof. exact (work_dmin d w Hw). Qed.

  Lemma D_in_range : in_range w D.
  Proof. exact (work_range d w Hw). Qed.

  (** The first entry of a batch never is the sentinel unless the batch holds dtype.max. *)
  Lemma bpair_fst_not_default xs :
    Forall (in_range d) xs -> Forall (fun x => x <> dmax d) xs -> fst (bpair xs) <> D.
  Proof.
    intros HR HM. unfold bpair, reduce_max; cbn [fst].
    destruct (fold_max_spec (map (fun x => wrap w (0 - x)) xs) (dmin w)) as ([E|Hin] & _ & _).
    - rewrite E. pose proof dmin_w_lt_D. lia.
    - apply in_map_iff in Hin as (x & E & Hx).
      rewrite Forall_forall in HR, HM. specialize (HR x Hx). specialize (HM x Hx).
      rewrite <- E. destruct (Z.eq_dec x (dmin w)) as [->|Hne].
      + rewrite (wrap_neg_min w (work_cases d w Hw)). pose proof dmin_w_lt_D. lia.
      + assert (dmin w < x).
        { pose proof (in_range_sub d w x Hw HR) as [H1 H2]. lia. }
        rewrite wrap_id by (apply (neg_in_range d w x Hw HR); assumption).
        subst D. lia.
  Qed.

  (** Relation between batches and accumulators when no batch carries the sentinel. *)
  Definition Rmm (l : list (list arr)) (a : option (list arr)) : Prop :=
    exists ps, l = map sc_pair ps /\ Forall (fun p => fst p <> D) ps /\
      (ps = [] /\ a = Some (sc_pair (D, D)) \/
       ps <> [] /\ a = Some (sc_pair (list_max (map fst ps), list_max (map snd ps)))).

  Lemma list_max_fst_ne ps : ps <> [] -> Forall (fun p : Z * Z => fst p <> D) ps -> list_max (map fst ps) <> D.
  Proof.
    intros Hn HF. assert (map fst ps <> []) as Hn' by (destruct ps; [congruence|discriminate]).
    destruct (list_max_spec _ Hn') as [Hin _]. apply in_map_iff in Hin as (p & E & Hp).
    rewrite <- E. rewrite Forall_forall in HF. apply HF, Hp.
  Qed.

  Lemma list_max_snoc l x : l <> [] -> list_max (l ++ [x]) = list_max [list_max l; x].
  Proof.
    destruct l as [|y l]; [congruence|intros _]. cbn [list_max app fold_left].
    rewrite fold_left_app. reflexivity.
  Qed.

  Lemma Rmm_create : Rmm [] (create_accumulator comb).
  Proof. exists []. split; [reflexivity|]. split; [constructor|]. left. split; reflexivity. Qed.

  Lemma Rmm_add l a x :
    (exists p, x = sc_pair p /\ fst p <> D) -> Rmm l a -> Rmm (l ++ [x]) (add_input comb a x).
  Proof.
    intros (p & -> & Hp) (ps & -> & HF & H). exists (ps ++ [p]).
    split; [rewrite map_app; reflexivity|].
    split; [apply Forall_app; split; [exact HF|constructor; [exact Hp|constructor]]|].
    right. split; [destruct ps; discriminate|].
    cbn [add_input comb np_combiner].
    destruct H as [[-> ->]|[Hn ->]].
    - rewrite np_add_sc_pair. cbn [fst]. rewrite Z.eqb_refl. cbn. destruct p; reflexivity.
    - rewrite np_add_sc_pair. cbn [fst snd].
      destruct (Z.eqb_spec (list_max (map fst ps)) D) as [E|_];
        [exfalso; apply (list_max_fst_ne ps Hn HF E)|].
      rewrite !map_app. cbn [map].
      rewrite !list_max_snoc by (destruct ps; [congruence|discriminate]). reflexivity.
  Qed.

  Lemma Rmm_merge ls ags : ls <> [] -> Forall2 Rmm ls ags -> Rmm (concat ls) (merge_accumulators comb ags).
  Proof.
    intros _ HF2.
    (* collect the pairs of all parts *)
    assert (exists pss, ls = map (map sc_pair) pss /\
              Forall (Forall (fun p => fst p <> D)) pss /\
              ags = map (fun ps => Some (sc_pair (match ps with [] => (D, D)
                        | _ => (list_max (map fst ps), list_max (map snd ps)) end))) pss) as (pss & -> & HFp & ->).
    { induction HF2 as [|l a ls ags (ps & -> & HFp & H) _ (pss & -> & HFF & ->)].
      - exists []. repeat split; constructor.
      - exists (ps :: pss). split; [reflexivity|]. split; [constructor; assumption|].
        cbn [map]. f_equal.
        destruct H as [[-> ->]|[Hn ->]]; [reflexivity|]. destruct ps; [congruence|reflexivity]. }
    clear HF2. exists (concat pss). split; [rewrite concat_map; reflexivity|].
    split; [rewrite Forall_concat; exact HFp|].
    cbn [merge_accumulators comb np_combiner].
    set (g := fun ps : list (Z * Z) => match ps with [] => (D, D) | _ => (list_max (map fst ps), list_max (map snd ps)) end).
    rewrite <- (map_map g (fun p => Some (sc_pair p))), np_merge_sc_pairs.
    assert (E : filter (fun p => negb (fst p =? D)) (map g pss)
                = map g (filter (fun ps => match ps with [] => false | _ => true end) pss)).
    { induction HFp as [|ps pss HF HFF IH]; cbn [map filter]; [reflexivity|].
      rewrite IH. destruct ps as [|p ps]; cbn [g fst].
      - rewrite Z.eqb_refl. reflexivity.
      - destruct (Z.eqb_spec (list_max (map fst (p :: ps))) D) as [E|_];
          [exfalso; exact (list_max_fst_ne (p :: ps) ltac:(discriminate) HF E)|].
        reflexivity. }
    rewrite E. clear E.
    set (qss := filter (fun ps => match ps with [] => false | _ => true end) pss).
    assert (Ec : concat pss = concat qss).
    { subst qss. clear HFp. induction pss as [|ps pss IH]; cbn; [reflexivity|].
      destruct ps; cbn; rewrite IH; reflexivity. }
    assert (Hq : Forall (fun qs => qs <> []) qss).
    { subst qss. apply Forall_forall. intros qs Hqs. apply filter_In in Hqs as [_ Hqs].
      destruct qs; [discriminate|discriminate]. }
    clearbody qss. rewrite Ec.
    destruct qss as [|qs0 qss'] eqn:Eq; [left; split; reflexivity|].
    rewrite <- Eq in *. assert (qss <> []) as Hnq by (subst; discriminate).
    right. split.
    - intros Habs. subst qss. cbn in Habs. inversion Hq as [|? ? Hqs0]; subst.
      destruct qs0; [congruence|discriminate].
    - assert (Eg1 : map fst (map g qss) = map (fun qs => list_max (map fst qs)) qss).
      { rewrite map_map. apply map_ext_in. intros qs Hqs. rewrite Forall_forall in Hq.
        specialize (Hq qs Hqs). destruct qs; [congruence|reflexivity]. }
      assert (Eg2 : map snd (map g qss) = map (fun qs => list_max (map snd qs)) qss).
      { rewrite map_map. apply map_ext_in. intros qs Hqs. rewrite Forall_forall in Hq.
        specialize (Hq qs Hqs). destruct qs; [congruence|reflexivity]. }
      assert (HA : forall f : Z * Z -> Z, list_max (map f (concat qss)) = list_max (map (fun qs => list_max (map f qs)) qss)).
      { intros f. rewrite concat_map, list_max_concat.
        - rewrite map_map. reflexivity.
        - destruct qss; [congruence|discriminate].
        - apply Forall_map. eapply Forall_impl; [|exact Hq]. intros qs; destruct qs; [congruence|discriminate]. }
      rewrite !HA, <- Eg1, <- Eg2.
      destruct (map g qss) as [|p0 ps0] eqn:Eps; [destruct qss; [congruence|discriminate]|]. reflexivity.
  Qed.

  (** Result of the analysis when no value equals dtype.max. *)
  Lemma minmax_no_sentinel s :
    Forall (Forall (in_range d)) (batches_of s) ->
    Forall (Forall (fun x => x <> dmax d)) (batches_of s) ->
    let ps := map bpair (batches_of s) in
    analyze comb (map_sched (map_sched (batch_minus_min_and_max w)) s)
    = Some (sc_pair (match ps with [] => (D, D) | _ => (list_max (map fst ps), list_max (map snd ps)) end)).
  Proof.
    intros HR HM ps.
    assert (EB : batches_of (map_sched (map_sched (batch_minus_min_and_max w)) s) = map sc_pair ps).
    { unfold batches_of, ps. rewrite elements_map. rewrite flat_map_concat_map, map_map.
      rewrite (map_ext _ (fun x => map (batch_minus_min_and_max w) (elements x))).
      - rewrite <- (map_map elements (map (batch_minus_min_and_max w))), <- concat_map.
        unfold batches_of. rewrite flat_map_concat_map, map_map. reflexivity.
      - intros x. apply elements_map. }
    destruct (analyze_rep comb Rmm (fun x => exists p, x = sc_pair p /\ fst p <> D)
                Rmm_create Rmm_add Rmm_merge (map_sched (map_sched (batch_minus_min_and_max w)) s))
      as (a & Ha & ->).
    - rewrite EB. apply Forall_map. unfold ps. apply Forall_map.
      apply Forall_forall. intros b Hb. exists (bpair b). split; [reflexivity|].
      rewrite Forall_forall in HR, HM. apply bpair_fst_not_default; [apply HR, Hb|apply HM, Hb].
    - rewrite EB in Ha. destruct Ha as (qs & E & _ & H).
      assert (ps = qs) as ->.
      { revert E. clear. generalize ps; intros l. revert qs.
        induction l as [|[a b] l IH]; intros [|[a' b'] qs]; cbn; intros E; inversion E; subst; [reflexivity|].
        f_equal. apply IH. assumption. }
      cbn [extract_output comb np_combiner].
      destruct H as [[-> ->]|[Hn ->]]; [reflexivity|]. destruct qs; [congruence|reflexivity].
  Qed.
End scalar.

Lemma reduce_max_concat w bs :
  Forall (Forall (fun x => dmin w <= x)) bs -> bs <> [] ->
  list_max (map (reduce_max w) bs) = reduce_max w (concat bs).
Proof.
  intros HF Hn. symmetry. unfold reduce_max.
  apply fold_max_unique.
  - assert (map (fun l => fold_left Z.max l (dmin w)) bs <> []) as Hn' by (destruct bs; [congruence|discriminate]).
    destruct (list_max_spec _ Hn') as [Hin _]. apply in_map_iff in Hin as (l & E & Hl). fold (reduce_max w).
    change (map (reduce_max w) bs) with (map (fun l => fold_left Z.max l (dmin w)) bs).
    rewrite <- E. destruct (fold_max_spec l (dmin w)) as ([H|H] & _); [left; exact H|].
    right. apply in_concat. exists l. split; assumption.
  - destruct bs as [|b bs]; [congruence|].
    destruct (list_max_spec (map (fun l => fold_left Z.max l (dmin w)) (b :: bs)) ltac:(discriminate)) as [_ H].
    specialize (H _ (or_introl eq_refl)).
    destruct (fold_max_spec b (dmin w)) as (_ & H2 & _). cbn in *. unfold reduce_max. lia.
  - intros x Hx. apply in_concat in Hx as (l & Hl & Hx).
    destruct (list_max_spec (map (fun l => fold_left Z.max l (dmin w)) bs)) as [_ H];
      [destruct bs; [contradiction|discriminate]|].
    specialize (H _ (in_map _ _ _ Hl)). cbn in H.
    destruct (fold_max_spec l (dmin w)) as (_ & _ & H3). specialize (H3 x Hx).
    change (map (reduce_max w) bs) with (map (fun l => fold_left Z.max l (dmin w)) bs). lia.
Qed.


Lemma reduce_max_is_max w l : l <> [] -> Forall (fun x => dmin w <= x) l -> is_max (reduce_max w l) l.
Proof.
  intros Hn HF. unfold reduce_max. destruct (fold_max_spec l (dmin w)) as (H1 & H2 & H3).
  split; [|exact H3]. destruct H1 as [H1|H1]; [|exact H1].
  destruct l as [|y l]; [congruence|]. left.
  inversion HF; subst. specialize (H3 y (or_introl eq_refl)). lia.
Qed.


Lemma rows_forall (P : Z -> Prop) (s : sched (sched (list Z))) : Forall P (rows_of s) <-> Forall (Forall P) (batches_of s).
Proof. unfold rows_of. apply Forall_concat. Qed.

Lemma rows_nonempty {X} (s : sched (sched (list X))) : rows_of s <> [] -> batches_of s <> [].
Proof. unfold rows_of. intros H E. rewrite E in H. apply H. reflexivity. Qed.

Lemma wrap_out d w z : work_ok d w -> in_range d z -> wrap d (wrap w z) = z.
Proof.
  intros Hw H. rewrite (wrap_id w) by (apply (in_range_sub d w z Hw H)). apply wrap_id, H.
Qed.

Lemma minmax_no_sentinel_result d w s :
  work_ok d w -> rows_of s <> [] ->
  Forall (in_range d) (rows_of s) -> Forall (fun x => x <> dmax d) (rows_of s) ->
  min_and_max_in d w s
  = Some (wrap d (wrap w (0 - wrap w (reduce_max w (map (fun x => wrap w (0 - x)) (rows_of s))))),
          wrap d (wrap w (reduce_max w (rows_of s)))).
Proof.
  intros Hw Hn HR HM. unfold min_and_max_in.
  rewrite (minmax_no_sentinel d w Hw) by (apply rows_forall; assumption).
  pose proof (rows_nonempty s Hn) as Hb.
  destruct (map (bpair w) (batches_of s)) as [|p ps] eqn:E;
    [destruct (batches_of s); [congruence|discriminate]|].
  rewrite <- E. cbn [sc_pair fst snd].
  assert (E1 : map fst (map (bpair w) (batches_of s))
               = map (reduce_max w) (map (map (fun x => wrap w (0 - x))) (batches_of s)))
    by (rewrite !map_map; reflexivity).
  assert (E2 : map snd (map (bpair w) (batches_of s)) = map (reduce_max w) (batches_of s))
    by (rewrite map_map; reflexivity).
  rewrite E1, E2.
  rewrite !reduce_max_concat.
  - rewrite <- concat_map. reflexivity.
  - apply rows_forall. eapply Forall_impl; [|exact HR]. intros x Hx. apply (in_range_sub d w x Hw Hx).
  - exact Hb.
  - apply Forall_map, Forall_forall. intros b _. apply Forall_map, Forall_forall. intros x _. apply wrap_in_range.
  - destruct (batches_of s); [congruence|discriminate].
Qed.

Lemma max_exact d w s :
  work_ok d w -> rows_of s <> [] ->
  Forall (in_range d) (rows_of s) -> Forall (fun x => x <> dmax d) (rows_of s) ->
  exists mn mx, min_and_max_in d w s = Some (mn, mx) /\ is_max mx (rows_of s).
Proof.
  intros Hw Hn HR HM. rewrite (minmax_no_sentinel_result d w s Hw Hn HR HM).
  eexists _, _. split; [reflexivity|].
  assert (H : is_max (reduce_max w (rows_of s)) (rows_of s)).
  { apply reduce_max_is_max; [exact Hn|]. eapply Forall_impl; [|exact HR].
    intros x Hx. apply (in_range_sub d w x Hw Hx). }
  rewrite (wrap_out d w); [exact H|exact Hw|]. rewrite Forall_forall in HR. apply HR, H.
Qed.

Lemma min_exact_no_sentinel d w s :
  work_ok d w -> rows_of s <> [] ->
  Forall (in_range d) (rows_of s) -> Forall (fun x => x <> dmax d) (rows_of s) ->
  Forall (fun x => dmin w < x) (rows_of s) ->
  exists mn mx, min_and_max_in d w s = Some (mn, mx) /\ is_min mn (rows_of s).
Proof.
  intros Hw Hn HR HM HL. rewrite (minmax_no_sentinel_result d w s Hw Hn HR HM).
  eexists _, _. split; [reflexivity|].
  set (rs := rows_of s) in *.
  assert (Emap : map (fun x => wrap w (0 - x)) rs = map (fun x => 0 - x) rs).
  { apply map_ext_in. intros x Hx. rewrite Forall_forall in HR, HL.
    apply wrap_id, (neg_in_range d w x Hw (HR x Hx) (HL x Hx)). }
  rewrite Emap.
  assert (H : is_max (reduce_max w (map (fun x => 0 - x) rs)) (map (fun x => 0 - x) rs)).
  { apply reduce_max_is_max; [destruct rs; [congruence|discriminate]|].
    apply Forall_map, Forall_forall. intros x Hx. rewrite Forall_forall in HR, HL.
    destruct (neg_in_range d w x Hw (HR x Hx) (HL x Hx)) as [_ H]. lia. }
  destruct H as [Hin Hmax]. apply in_map_iff in Hin as (x & E & Hx). rewrite <- E in *.
  rewrite Forall_forall in HR, HL.
  rewrite (wrap_id w (0 - x)) by (apply (neg_in_range d w x Hw (HR x Hx) (HL x Hx))).
  replace (0 - (0 - x)) with x by lia.
  rewrite (wrap_out d w) by (auto).
  split; [exact Hx|]. intros y Hy. specialize (Hmax (0 - y) (in_map (fun z => 0 - z) rs y Hy)). lia.
Qed.

(** ** tft.min even when the sentinel value occurs, for batches that are not empty *)

Section min_sentinel.
  Variables (d w : int_dtype).
  Hypothesis Hw : work_ok d w.
  Let D := - dmax d.
  Let comb := np_combiner list_max D [ScalarShape; ScalarShape].

  Definition Rmin (l : list (list arr)) (a : option (list arr)) : Prop :=
    exists ps q, l = map sc_pair ps /\ Forall (fun p => D <= fst p) ps /\
      a = Some (sc_pair (fold_left Z.max (map fst ps) D, q)).

  Lemma Rmin_create : Rmin [] (create_accumulator comb).
  Proof. exists [], D. repeat split. constructor. Qed.

  Lemma Rmin_add l a x :
    (exists p, x = sc_pair p /\ D <= fst p) -> Rmin l a -> Rmin (l ++ [x]) (add_input comb a x).
  Proof.
    intros (p & -> & Hp) (ps & q & -> & HF & ->).
    assert (E : exists q', add_input comb (Some (sc_pair (fold_left Z.max (map fst ps) D, q))) (sc_pair p)
                = Some (sc_pair (fold_left Z.max (map fst (ps ++ [p])) D, q'))).
    { cbn [add_input comb np_combiner]. rewrite np_add_sc_pair. cbn [fst snd].
      rewrite map_app, fold_left_app. cbn [map fold_left].
      destruct (Z.eqb_spec (fold_left Z.max (map fst ps) D) D) as [E|E].
      - exists (snd p). rewrite E. rewrite Z.max_r by exact Hp. destruct p; reflexivity.
      - eexists. reflexivity. }
    destruct E as [q' E]. exists (ps ++ [p]), q'. split; [rewrite map_app; reflexivity|].
    split; [apply Forall_app; split; [exact HF|constructor; [exact Hp|constructor]]|exact E].
  Qed.

  Lemma Rmin_merge ls ags : ls <> [] -> Forall2 Rmin ls ags -> Rmin (concat ls) (merge_accumulators comb ags).
  Proof.
    intros _ HF2.
    assert (exists pss qs, ls = map (map sc_pair) pss /\ length qs = length pss /\
              Forall (Forall (fun p => D <= fst p)) pss /\
              ags = map (fun p => Some (sc_pair p))
                        (combine (map (fun ps => fold_left Z.max (map fst ps) D) pss) qs))
      as (pss & qs & -> & HL & HFp & ->).
    { induction HF2 as [|l a ls ags (ps & q & -> & HFp & ->) _ (pss & qs & -> & HL & HFF & ->)].
      - exists [], []. repeat split; constructor.
      - exists (ps :: pss), (q :: qs). split; [reflexivity|]. split; [cbn; lia|].
        split; [constructor; assumption|]. reflexivity. }
    cbn [merge_accumulators comb np_combiner]. rewrite np_merge_sc_pairs.
    set (ms := map (fun ps => fold_left Z.max (map fst ps) D) pss).
    assert (Hms : fold_left Z.max (map fst (concat pss)) D = fold_left Z.max ms D).
    { subst ms. clear. induction pss as [|ps pss IH]; cbn; [reflexivity|].
      rewrite map_app, fold_max_app, IH.
      destruct (fold_max_spec (map fst ps) D) as (_ & H & _). rewrite (Z.max_r D) by exact H.
      clear IH. set (a := fold_left Z.max (map fst ps) D) in *. clearbody a.
      change (fold_left Z.max (map (fun ps0 : list (Z * Z) => fold_left Z.max (map fst ps0) D) pss) a)
        with (fold_left Z.max (map (fun ps0 => fold_left Z.max (map fst ps0) D) pss) a).
      set (l := map _ pss). clearbody l. revert a H. induction l as [|y l IH]; cbn; intros a H; [lia|].
      rewrite <- (IH (Z.max a y)) by lia.
      assert (G : forall b, fold_left Z.max l (Z.max b y) = Z.max (fold_left Z.max l b) y).
      { clear. induction l as [|z l IH]; cbn; intros b; [reflexivity|].
        rewrite <- IH. f_equal. lia. }
      rewrite G. destruct (fold_max_spec l D) as (_ & ? & _). lia. }
    assert (Hge : Forall (fun m => D <= m) ms).
    { subst ms. apply Forall_map, Forall_forall. intros ps _. apply (proj1 (proj2 (fold_max_spec _ _))). }
    assert (Hlen : length qs = length ms) by (subst ms; rewrite map_length; exact HL).
    assert (G : exists q, match filter (fun p => negb (fst p =? D)) (combine ms qs) with
                | [] => Some (np_create D [ScalarShape; ScalarShape])
                | (_ :: _) as qs => Some (sc_pair (list_max (map fst qs), list_max (map snd qs)))
                end = Some (sc_pair (fold_left Z.max ms D, q))).
    { assert (GF : map fst (filter (fun p => negb (fst p =? D)) (combine ms qs)) = filter (fun m => negb (m =? D)) ms).
      { clear Hms Hge HF2 HL HFp. clearbody ms. revert qs Hlen. induction ms as [|m ms IH]; intros [|q qs] Hlen; cbn in *; try lia; [reflexivity|].
        destruct (m =? D); cbn; [|f_equal]; apply (IH qs); lia. }
      destruct (filter (fun p => negb (fst p =? D)) (combine ms qs)) as [|p0 ps0] eqn:EF.
      - exists D. cbn in GF. 
        assert (fold_left Z.max ms D = D) as ->; [|reflexivity].
        apply fold_max_unique; [left; reflexivity|lia|].
        intros x Hx. destruct (Z.eq_dec x D) as [->|Hne]; [lia|].
        exfalso. assert (In x (filter (fun m => negb (m =? D)) ms)) as HI
          by (apply filter_In; split; [exact Hx|]; destruct (Z.eqb_spec x D); [congruence|reflexivity]).
        rewrite <- GF in HI. contradiction.
      - cbv zeta. rewrite GF. exists (list_max (map snd (p0 :: ps0))).
        assert (list_max (filter (fun m => negb (m =? D)) ms) = fold_left Z.max ms D) as ->; [|reflexivity].
        apply list_max_unique.
        + destruct (fold_max_spec ms D) as ([E|Hin] & _ & H3).
          * exfalso. assert (In (fst p0) (filter (fun m => negb (m =? D)) ms)) as HI by (rewrite <- GF; left; reflexivity).
            apply filter_In in HI as [HI Hb]. specialize (H3 _ HI).
            rewrite Forall_forall in Hge. specialize (Hge _ HI).
            destruct (Z.eqb_spec (fst p0) D); [discriminate|]. lia.
          * apply filter_In. split; [exact Hin|].
            destruct (Z.eqb_spec (fold_left Z.max ms D) D) as [E|]; [|reflexivity].
            exfalso. assert (In (fst p0) (filter (fun m => negb (m =? D)) ms)) as HI by (rewrite <- GF; left; reflexivity).
            apply filter_In in HI as [HI Hb]. specialize (H3 _ HI).
            rewrite Forall_forall in Hge. specialize (Hge _ HI).
            destruct (Z.eqb_spec (fst p0) D); [discriminate|]. lia.
        + intros x Hx. apply filter_In in Hx as [Hx _]. apply (proj2 (proj2 (fold_max_spec ms D))), Hx. }
    destruct G as [q G]. exists (concat pss), q.
    split; [rewrite concat_map; reflexivity|].
    split; [rewrite Forall_concat; exact HFp|].
    rewrite Hms. exact G.
  Qed.

  Lemma min_exact_sentinel s :
    rows_of s <> [] -> Forall (fun b => b <> []) (batches_of s) ->
    Forall (in_range d) (rows_of s) -> Forall (fun x => dmin w < x) (rows_of s) ->
    exists mn mx, min_and_max_in d w s = Some (mn, mx) /\ is_min mn (rows_of s).
  Proof.
    intros Hn HB HR HL. unfold min_and_max_in. fold D comb.
    assert (EB : batches_of (map_sched (map_sched (batch_minus_min_and_max w)) s)
                 = map sc_pair (map (bpair w) (batches_of s))).
    { unfold batches_of. rewrite elements_map. rewrite !flat_map_concat_map, map_map.
      rewrite (map_ext _ (fun x => map (batch_minus_min_and_max w) (elements x))).
      - rewrite <- (map_map elements (map (batch_minus_min_and_max w))), <- concat_map.
        rewrite map_map. reflexivity.
      - intros x. apply elements_map. }
    assert (HP : Forall (fun p => D <= fst p) (map (bpair w) (batches_of s))).
    { apply Forall_map, Forall_forall. intros b Hb. cbn [bpair fst].
      rewrite Forall_forall in HB. specialize (HB b Hb). destruct b as [|x b]; [congruence|].
      unfold reduce_max. destruct (fold_max_spec (map (fun x => wrap w (0 - x)) (x :: b)) (dmin w)) as (_ & _ & H).
      specialize (H _ (or_introl eq_refl)).
      assert (Hx : In x (rows_of s)) by (unfold rows_of; apply in_concat; exists (x :: b); split; [exact Hb|left; reflexivity]).
      rewrite Forall_forall in HR, HL. specialize (HR x Hx). specialize (HL x Hx).
      rewrite wrap_id in H by (apply (neg_in_range d w x Hw HR HL)).
      unfold in_range in HR. subst D. lia. }
    destruct (analyze_rep comb Rmin (fun x => exists p, x = sc_pair p /\ D <= fst p)
                Rmin_create Rmin_add Rmin_merge (map_sched (map_sched (batch_minus_min_and_max w)) s))
      as (a & Ha & ->).
    - rewrite EB. apply Forall_map. eapply Forall_impl; [|exact HP]. intros p Hp. exists p. auto.
    - rewrite EB in Ha. destruct Ha as (qs & q & E & _ & ->).
      assert (map (bpair w) (batches_of s) = qs) as <-.
      { revert E. clear. generalize (map (bpair w) (batches_of s)); intros l. revert qs.
        induction l as [|[a b] l IH]; intros [|[a' b'] qs]; cbn; intros E; inversion E; subst; [reflexivity|].
        f_equal. apply IH. assumption. }
      cbn [extract_output comb np_combiner sc_pair fst snd].
      eexists _, _. split; [reflexivity|].
      rewrite map_map. cbn [bpair fst].
      set (bs := batches_of s) in *.
      change (map (fun x => fst (bpair w x)) bs) with (map (fun b => reduce_max w (map (fun x => wrap w (0 - x)) b)) bs).
      assert (Hmax : is_max (fold_left Z.max (map (fun b => reduce_max w (map (fun x => wrap w (0 - x)) b)) bs) D)
                            (map (fun x => 0 - x) (rows_of s))).
      { assert (HE : forall b, In b bs -> is_max (reduce_max w (map (fun x => wrap w (0 - x)) b)) (map (fun x => 0 - x) b)).
        { intros b Hb. rewrite Forall_forall in HB. pose proof (HB b Hb) as Hbn.
          assert (Hsub : forall x, In x b -> In x (rows_of s)).
          { intros x Hx. unfold rows_of. apply in_concat. exists b. split; assumption. }
          rewrite Forall_forall in HR, HL.
          assert (Emap : map (fun x => wrap w (0 - x)) b = map (fun x => 0 - x) b).
          { apply map_ext_in. intros x Hx.
            apply wrap_id, (neg_in_range d w x Hw (HR x (Hsub x Hx)) (HL x (Hsub x Hx))). }
          rewrite Emap. apply reduce_max_is_max; [destruct b; [congruence|discriminate]|].
          apply Forall_map, Forall_forall. intros x Hx.
          destruct (neg_in_range d w x Hw (HR x (Hsub x Hx)) (HL x (Hsub x Hx))). lia. }
        unfold rows_of. fold bs. rewrite concat_map.
        destruct (fold_max_spec (map (fun b => reduce_max w (map (fun x => wrap w (0 - x)) b)) bs) D) as (H1 & H2 & H3).
        set (M := fold_left Z.max _ D) in *.
        assert (Hup : forall y, In y (concat (map (map (fun x => 0 - x)) bs)) -> y <= M).
        { intros y Hy. apply in_concat in Hy as (l & Hl & Hy). apply in_map_iff in Hl as (b & <- & Hb).
          specialize (HE b Hb) as [_ HE]. specialize (HE y Hy).
          specialize (H3 _ (in_map (fun b => reduce_max w (map (fun x => wrap w (0 - x)) b)) bs b Hb)). cbv beta in H3. lia. }
        split; [|exact Hup].
        destruct H1 as [H1|H1].
        - (* every value is dtype.max *)
          assert (exists b, In b bs) as [b Hb].
          { destruct bs as [|b bs'] eqn:Eb; [exfalso; apply (rows_nonempty s Hn); exact Eb|].
            exists b. left. reflexivity. }
          destruct (HE b Hb) as [Hin _]. apply in_concat. exists (map (fun x => 0 - x) b).
          split; [apply in_map, Hb|]. 
          specialize (H3 _ (in_map (fun b => reduce_max w (map (fun x => wrap w (0 - x)) b)) bs b Hb)). cbv beta in H3.
          assert (D <= reduce_max w (map (fun x => wrap w (0 - x)) b)) as HD.
          { rewrite Forall_forall in HP. apply (HP (bpair w b)). apply in_map, Hb. }
          replace M with (reduce_max w (map (fun x => wrap w (0 - x)) b)) by lia. exact Hin.
        - apply in_map_iff in H1 as (b & E1 & Hb). rewrite <- E1.
          apply in_concat. exists (map (fun x => 0 - x) b). split; [apply in_map, Hb|]. apply HE, Hb. }
      destruct Hmax as [Hin Hmax]. apply in_map_iff in Hin as (x & Ex & Hx). rewrite <- Ex in *.
      rewrite Forall_forall in HR, HL.
      rewrite (wrap_id w (0 - x)) by (apply (neg_in_range d w x Hw (HR x Hx) (HL x Hx))).
      replace (0 - (0 - x)) with x by lia.
      rewrite (wrap_out d w) by auto.
      split; [exact Hx|]. intros y Hy. specialize (Hmax (0 - y) (in_map (fun z => 0 - z) _ y Hy)). lia.
  Qed.
End min_sentinel.

(** ** A column that only holds dtype.max *)

Section all_max.
  Variables (d w : int_dtype).
  Hypothesis Hw : work_ok d w.
  Let D := - dmax d.
  Let comb := np_combiner list_max D [ScalarShape; ScalarShape].

  (** Every accumulator that can arise starts with the sentinel. *)
  Definition Rall (l : list (list arr)) (a : option (list arr)) : Prop := exists q, a = Some (sc_pair (D, q)).

  Lemma merge_all_default qs :
    np_merge list_max D [ScalarShape; ScalarShape] (map (fun q => Some (sc_pair (D, q))) qs)
    = Some (sc_pair (D, D)).
  Proof.
    rewrite <- (map_map (fun q => (D, q)) (fun p => Some (sc_pair p))), np_merge_sc_pairs.
    assert (E : filter (fun p => negb (fst p =? D)) (map (fun q => (D, q)) qs) = []).
    { induction qs as [|q qs IH]; cbn; [reflexivity|]. rewrite Z.eqb_refl. exact IH. }
    rewrite E. reflexivity.
  Qed.

  Lemma Rall_merge_eq ls ags : Forall2 Rall ls ags -> np_merge list_max D [ScalarShape; ScalarShape] ags = Some (sc_pair (D, D)).
  Proof.
    intros H. assert (exists qs, ags = map (fun q => Some (sc_pair (D, q))) qs) as [qs ->].
    { induction H as [|l a ls ags [q ->] _ [qs ->]]; [exists []; reflexivity|exists (q :: qs); reflexivity]. }
    apply merge_all_default.
  Qed.

  Lemma bpair_all_max b : b <> [] -> Forall (fun x => x = dmax d) b -> fst (bpair w b) = D.
  Proof.
    intros Hn HF. cbn [bpair fst]. unfold reduce_max. apply fold_max_unique.
    - right. destruct b as [|x b]; [congruence|]. left. inversion HF; subst.
      rewrite wrap_id; [reflexivity|]. pose proof (D_in_range d w Hw) as H. exact H.
    - pose proof (dmin_w_lt_D d w Hw). subst D. lia.
    - intros y Hy. apply in_map_iff in Hy as (x & <- & Hx). rewrite Forall_forall in HF.
      rewrite (HF x Hx), wrap_id; [subst D; lia|]. pose proof (D_in_range d w Hw) as H. exact H.
  Qed.

  Lemma all_max_result s :
    Forall (fun b => b <> []) (batches_of s) ->
    Forall (fun x => x = dmax d) (rows_of s) ->
    min_and_max_in d w s = Some (dmax d, wrap d (- dmax d)).
  Proof.
    intros HB HM.
    set (s' := map_sched (map_sched (batch_minus_min_and_max w)) s).
    set (P := fun x : list arr => exists q, x = sc_pair (D, q)).
    assert (Rmk : Rall [] (create_accumulator comb)) by (exists D; reflexivity).
    assert (Radd : forall l a x, P x -> Rall l a -> Rall (l ++ [x]) (add_input comb a x)).
    { intros l a x [q ->] [q' ->]. exists q. cbn [add_input comb np_combiner].
      rewrite np_add_sc_pair. cbn [fst]. rewrite Z.eqb_refl. reflexivity. }
    assert (Rmrg : forall ls ags, ls <> [] -> Forall2 Rall ls ags -> Rall (concat ls) (merge_accumulators comb ags)).
    { intros ls ags _ H. exists D. exact (Rall_merge_eq ls ags H). }
    assert (HPall : Forall P (batches_of s')).
    { assert (EB : batches_of s' = map sc_pair (map (bpair w) (batches_of s))).
      { unfold s', batches_of. rewrite elements_map. rewrite !flat_map_concat_map, map_map.
        rewrite (map_ext _ (fun x => map (batch_minus_min_and_max w) (elements x))).
        - rewrite <- (map_map elements (map (batch_minus_min_and_max w))), <- concat_map.
          rewrite map_map. reflexivity.
        - intros x. apply elements_map. }
      rewrite EB. apply Forall_map, Forall_map, Forall_forall. intros b Hb.
      exists (snd (bpair w b)). f_equal.
      rewrite <- (bpair_all_max b).
      - reflexivity.
      - rewrite Forall_forall in HB. apply HB, Hb.
      - apply rows_forall in HM. rewrite Forall_forall in HM. apply HM, Hb. }
    assert (HA : forall t, In t (elements s') -> Rall (elements t) (run_accumulate comb t)).
    { intros t Ht. apply (run_accumulate_rep comb Rall P Rmk Radd Rmrg).
      apply Forall_forall. intros x Hx. rewrite Forall_forall in HPall. apply HPall.
      unfold batches_of. apply in_flat_map. exists t. split; assumption. }
    assert (HR : run (create_accumulator comb) (fun a x => merge_accumulators comb [a; x]) (merge_accumulators comb)
                   (map_sched (run_accumulate comb) s') = Some (sc_pair (D, D))).
    { clear HPall. clearbody s'. induction s' as [xs|s0 rest IH0 IHr] using sched_ind'; cbn [map_sched run elements] in *.
      - assert (G : forall q, fold_left (fun a x => merge_accumulators comb [a; x]) (map (run_accumulate comb) xs) (Some (sc_pair (D, q)))
                     = Some (sc_pair (D, match xs with [] => q | _ => D end))).
        { clear Rmk. induction xs as [|x xs IH]; cbn [map fold_left]; intros q; [reflexivity|].
          destruct (HA x (or_introl eq_refl)) as [q' ->].
          change (merge_accumulators comb [Some (sc_pair (D, q)); Some (sc_pair (D, q'))])
            with (np_merge list_max D [ScalarShape; ScalarShape] (map (fun q => Some (sc_pair (D, q))) [q; q'])).
          rewrite merge_all_default, IH by (intros t Ht; apply HA; right; exact Ht).
          destruct xs; reflexivity. }
        change (create_accumulator comb) with (Some (sc_pair (D, D))).
        rewrite G. destruct xs; reflexivity.
      - rewrite IH0 by (intros t Ht; apply HA, in_app_iff; left; exact Ht).
        rewrite map_map.
        assert (E : map (fun x => run (create_accumulator comb) (fun a x => merge_accumulators comb [a; x])
                        (merge_accumulators comb) (map_sched (run_accumulate comb) x)) rest
                    = map (fun q => Some (sc_pair (D, q))) (map (fun _ => D) rest)).
        { rewrite map_map. apply map_ext_in. intros x Hx. rewrite Forall_forall in IHr. apply IHr; [exact Hx|].
          intros t Ht. apply HA, in_app_iff. right. apply in_flat_map. exists x. split; assumption. }
        rewrite E. exact (merge_all_default (D :: map (fun _ => D) rest)). }
    unfold min_and_max_in. unfold analyze, run_merge. fold D comb s'. rewrite HR.
    cbn [extract_output comb np_combiner sc_pair fst snd].
    pose proof (D_in_range d w Hw) as HD. fold D in HD.
    rewrite !(wrap_id w D HD). f_equal. f_equal.
    replace (0 - D) with (dmax d) by (unfold D; lia).
    apply wrap_out; [exact Hw|]. unfold in_range. rewrite dmax_dmin. pose proof (pow_bits_pos d). lia.
  Qed.
End all_max.

(** ** Elementwise minima and maxima *)

Definition vec_pair (p : list Z * list Z) : list arr := [Vec (fst p); Vec (snd p)].

Lemma np_merge_vec_pairs fn default shapes n (ps : list (list Z * list Z)) :
  ps <> [] -> Forall (fun p => length (fst p) = n /\ length (snd p) = n) ps ->
  np_merge fn default shapes (map (fun p => Some (vec_pair p)) ps)
  = Some (vec_pair (map (fun j => fn (column j (map fst ps))) (seq 0 n),
                    map (fun j => fn (column j (map snd ps))) (seq 0 n))).
Proof.
  intros Hn HF. unfold np_merge. rewrite sequence_map_Some, map_map.
  change (fun x => first_is_default default (vec_pair x)) with (fun x : list Z * list Z => Some false).
  rewrite sequence_map_Some.
  assert (E : filter (fun acc => match first_is_default default acc with Some b => negb b | None => true end)
                     (map vec_pair ps) = map vec_pair ps).
  { clear. induction ps as [|p ps IH]; cbn; [reflexivity|]. cbn in IH. rewrite IH. reflexivity. }
  cbn zeta. rewrite E.
  destruct ps as [|p0 ps0] eqn:Ep; [congruence|]. rewrite <- Ep in *.
  assert (En : map vec_pair ps = vec_pair p0 :: map vec_pair ps0) by (rewrite Ep; reflexivity).
  rewrite En at 1. cbv iota.
  replace (map vec_pair ps)
    with (map (fun p : arr * arr => [fst p; snd p]) (map (fun p : list Z * list Z => (Vec (fst p), Vec (snd p))) ps))
    by (rewrite map_map; reflexivity).
  rewrite zip_star_pairs by (rewrite Ep; discriminate). rewrite !map_map.
  change (map (fun x => fst (Vec (fst x), Vec (snd x))) ps) with (map (fun x : list Z * list Z => Vec (fst x)) ps).
  change (map (fun x => snd (Vec (fst x), Vec (snd x))) ps) with (map (fun x : list Z * list Z => Vec (snd x)) ps).
  rewrite <- (map_map fst Vec), <- (map_map snd Vec). cbn [map].
  rewrite !(np_reduce_vec fn n).
  - reflexivity.
  - rewrite Ep; discriminate.
  - apply Forall_map. eapply Forall_impl; [|exact HF]. cbn. tauto.
  - rewrite Ep; discriminate.
  - apply Forall_map. eapply Forall_impl; [|exact HF]. cbn. tauto.
Qed.

Lemma np_add_vec_pair fn default n p q :
  length (fst p) = n -> length (snd p) = n -> length (fst q) = n -> length (snd q) = n ->
  np_add_input fn default (Some (vec_pair p)) (vec_pair q)
  = Some (vec_pair (map (fun j => fn [nth j (fst p) 0; nth j (fst q) 0]) (seq 0 n),
                    map (fun j => fn [nth j (snd p) 0; nth j (snd q) 0]) (seq 0 n))).
Proof.
  intros H1 H2 H3 H4.
  cbn [np_add_input first_is_default is_default_sub_accumulator vec_pair combine map fst snd].
  change [Vec (fst p); Vec (fst q)] with (map Vec [fst p; fst q]).
  change [Vec (snd p); Vec (snd q)] with (map Vec [snd p; snd q]).
  rewrite !(np_reduce_vec fn n) by (discriminate || (repeat constructor; assumption)).
  reflexivity.
Qed.

Lemma column_length j vs : length (column j vs) = length vs.
Proof. apply map_length. Qed.

Lemma nth_map_seq (f : nat -> Z) n j : (j < n)%nat -> nth j (map f (seq 0 n)) 0 = f j.
Proof.
  intros H. rewrite (nth_indep _ 0 (f 0%nat)) by (rewrite map_length, seq_length; exact H).
  rewrite map_nth, seq_nth by exact H. reflexivity.
Qed.

Lemma fold_reduce_max w D cs :
  dmin w < D -> concat cs <> [] -> (forall y, In y (concat cs) -> D <= y) ->
  is_max (fold_left Z.max (map (reduce_max w) cs) D) (concat cs).
Proof.
  intros Hlo Hn HD.
  destruct (fold_max_spec (map (reduce_max w) cs) D) as (H1 & H2 & H3).
  set (M := fold_left Z.max _ D) in *.
  assert (Hup : forall y, In y (concat cs) -> y <= M).
  { intros y Hy. apply in_concat in Hy as (c & Hc & Hy). specialize (H3 _ (in_map _ _ _ Hc)).
    destruct (fold_max_spec c (dmin w)) as (_ & _ & H). specialize (H y Hy). unfold reduce_max in H3. lia. }
  split; [|exact Hup].
  destruct H1 as [H1|H1].
  - destruct (concat cs) as [|y l]; [congruence|]. left.
    specialize (HD y (or_introl eq_refl)). specialize (Hup y (or_introl eq_refl)). lia.
  - apply in_map_iff in H1 as (c & E & Hc). rewrite <- E in *. unfold reduce_max in *.
    destruct (fold_max_spec c (dmin w)) as ([Ec|Hin] & _ & _); [|apply in_concat; exists c; split; assumption].
    lia.
Qed.

Section elementwise.
  Variables (d w : int_dtype) (n : nat).
  Hypothesis Hw0 : minmax_work_dtype d = Some w.
  Let Hw : work_ok d w := work_dtype_ok d w Hw0.
  Let D := - dmax d.
  Let comb := np_combiner list_max D [KnownShape n; KnownShape n].

  Definition colmax (l : list (list Z)) : list Z := map (fun j => fold_left Z.max (column j l) D) (seq 0 n).

  Definition Rel (l : list (list arr)) (a : option (list arr)) : Prop :=
    exists ps, l = map vec_pair ps /\ Forall (fun p => length (fst p) = n /\ length (snd p) = n) ps /\
      a = Some (vec_pair (colmax (map fst ps), colmax (map snd ps))).

  Lemma colmax_length l : length (colmax l) = n.
  Proof. unfold colmax. rewrite map_length, seq_length. reflexivity. Qed.

  Lemma colmax_nil : colmax [] = repeat D n.
  Proof.
    unfold colmax, column. cbn [map fold_left]. clear. generalize 0%nat.
    induction n as [|k IH]; intros i; cbn; [reflexivity|]. f_equal. apply IH.
  Qed.

  Lemma Rel_create : Rel [] (create_accumulator comb).
  Proof. exists []. repeat split; [constructor|]. cbn. rewrite colmax_nil. reflexivity. Qed.

  Lemma colmax_snoc l v :
    colmax (l ++ [v]) = map (fun j => list_max [nth j (colmax l) 0; nth j v 0]) (seq 0 n).
  Proof.
    unfold colmax. apply map_ext_in. intros j Hj. apply in_seq in Hj.
    rewrite nth_map_seq by lia. unfold column. rewrite map_app, fold_left_app. reflexivity.
  Qed.

  Lemma Rel_add l a x :
    (exists p, x = vec_pair p /\ length (fst p) = n /\ length (snd p) = n) ->
    Rel l a -> Rel (l ++ [x]) (add_input comb a x).
  Proof.
    intros (p & -> & Hp) (ps & -> & HF & ->). exists (ps ++ [p]).
    split; [rewrite map_app; reflexivity|].
    split; [apply Forall_app; split; [exact HF|constructor; [exact Hp|constructor]]|].
    cbn [add_input comb np_combiner].
    rewrite (np_add_vec_pair list_max D n) by (cbn [fst snd]; rewrite ?colmax_length; tauto).
    rewrite !map_app. cbn [map fst snd]. rewrite !colmax_snoc. reflexivity.
  Qed.

  Lemma colmax_concat (ls : list (list (list Z))) :
    ls <> [] ->
    map (fun j => list_max (column j (map colmax ls))) (seq 0 n) = colmax (concat ls).
  Proof.
    intros Hn. unfold colmax at 2. apply map_ext_in. intros j Hj. apply in_seq in Hj.
    assert (E : column j (map colmax ls) = map (fun l => fold_left Z.max (column j l) D) ls).
    { unfold column at 1. rewrite map_map. apply map_ext. intros l. unfold colmax.
      apply nth_map_seq. lia. }
    rewrite E. clear E.
    assert (E : column j (concat ls) = concat (map (column j) ls)) by (unfold column; apply concat_map).
    rewrite E. clear E. rewrite <- (map_map (column j) (fun c => fold_left Z.max c D)).
    assert (Hn' : map (column j) ls <> []) by (destruct ls; [congruence|discriminate]).
    generalize dependent (map (column j) ls). clear. intros cs Hn.
    symmetry. apply fold_max_unique.
    - assert (map (fun c => fold_left Z.max c D) cs <> []) as Hn' by (destruct cs; [congruence|discriminate]).
      destruct (list_max_spec _ Hn') as [Hin _]. apply in_map_iff in Hin as (c & E & Hc).
      rewrite <- E. destruct (fold_max_spec c D) as ([H|H] & _); [left; exact H|right].
      apply in_concat. exists c. split; assumption.
    - destruct cs as [|c cs]; [congruence|].
      destruct (list_max_spec (map (fun c => fold_left Z.max c D) (c :: cs)) ltac:(discriminate)) as [_ H].
      specialize (H _ (or_introl eq_refl)). destruct (fold_max_spec c D) as (_ & H2 & _). lia.
    - intros x Hx. apply in_concat in Hx as (c & Hc & Hx).
      destruct (list_max_spec (map (fun c => fold_left Z.max c D) cs)) as [_ H];
        [destruct cs; [contradiction|discriminate]|].
      specialize (H _ (in_map _ _ _ Hc)). cbn in H. destruct (fold_max_spec c D) as (_ & _ & H3).
      specialize (H3 x Hx). lia.
  Qed.

  Lemma Rel_merge ls ags : ls <> [] -> Forall2 Rel ls ags -> Rel (concat ls) (merge_accumulators comb ags).
  Proof.
    intros Hn HF2.
    assert (exists pss, ls = map (map vec_pair) pss /\
              Forall (Forall (fun p => length (fst p) = n /\ length (snd p) = n)) pss /\
              ags = map (fun ps => Some (vec_pair (colmax (map fst ps), colmax (map snd ps)))) pss)
      as (pss & -> & HFp & ->).
    { clear Hn. induction HF2 as [|l a ls ags (ps & -> & HFp & ->) _ (pss & -> & HFF & ->)].
      - exists []. repeat split; constructor.
      - exists (ps :: pss). split; [reflexivity|]. split; [constructor; assumption|]. reflexivity. }
    exists (concat pss). split; [rewrite concat_map; reflexivity|].
    split; [rewrite Forall_concat; exact HFp|].
    assert (Hn' : pss <> []) by (destruct pss; [cbn in Hn; congruence|discriminate]).
    cbn [merge_accumulators comb np_combiner].
    rewrite <- (map_map (fun ps => (colmax (map fst ps), colmax (map snd ps))) (fun p => Some (vec_pair p))).
    rewrite (np_merge_vec_pairs list_max D [KnownShape n; KnownShape n] n).
    - rewrite !map_map. cbn [fst snd].
      rewrite <- (map_map (map fst) colmax), <- (map_map (map snd) colmax).
      rewrite !colmax_concat by (destruct pss; [congruence|discriminate]).
      rewrite <- !concat_map. reflexivity.
    - destruct pss; [congruence|discriminate].
    - apply Forall_map, Forall_forall. intros ps _. cbn. rewrite !colmax_length. split; reflexivity.
  Qed.

  (** Rows of the whole dataset. *)
  Lemma elementwise_exact s :
    let rows := concat (batches_of s) in
    rows <> [] ->
    Forall (fun r => length r = n) rows ->
    Forall (Forall (fun x => in_range d x /\ - dmax d <= x)) rows ->
    exists mins maxs, min_and_max_elementwise d n s = Some (mins, maxs) /\
      length mins = n /\ length maxs = n /\
      forall j, (j < n)%nat ->
      is_min (nth j mins 0) (column j rows) /\ is_max (nth j maxs 0) (column j rows).
  Proof.
    intros rows Hrows Hlen HR. unfold min_and_max_elementwise. rewrite Hw0. fold D comb.
    set (f := batch_minus_min_and_max_elementwise w n).
    set (bp := fun rows => (map (fun j => reduce_max w (map (fun x => wrap w (0 - x)) (column j rows))) (seq 0 n),
                            map (fun j => reduce_max w (column j rows)) (seq 0 n))).
    assert (EB : batches_of (map_sched (map_sched f) s) = map vec_pair (map bp (batches_of s))).
    { unfold batches_of. rewrite elements_map. rewrite !flat_map_concat_map, map_map.
      rewrite (map_ext _ (fun x => map f (elements x))).
      - rewrite <- (map_map elements (map f)), <- concat_map. rewrite map_map. reflexivity.
      - intros x. apply elements_map. }
    destruct (analyze_rep comb Rel (fun x => exists p, x = vec_pair p /\ length (fst p) = n /\ length (snd p) = n)
                Rel_create Rel_add Rel_merge (map_sched (map_sched f) s)) as (a & Ha & ->).
    { rewrite EB. apply Forall_map, Forall_map, Forall_forall. intros b _. exists (bp b).
      split; [reflexivity|]. cbn. rewrite !map_length, !seq_length. split; reflexivity. }
    rewrite EB in Ha. destruct Ha as (qs & E & _ & ->).
    assert (map bp (batches_of s) = qs) as <-.
    { revert E. clear. generalize (map bp (batches_of s)); intros l. revert qs.
      induction l as [|[a b] l IH]; intros [|[a' b'] qs]; cbn; intros E; inversion E; subst; [reflexivity|].
      f_equal. apply IH. assumption. }
    cbn [extract_output comb np_combiner vec_pair fst snd].
    eexists _, _. split; [reflexivity|].
    split; [rewrite map_length; apply colmax_length|].
    split; [rewrite map_length; apply colmax_length|].
    intros j Hj. clear E.
    rewrite !map_map. cbn [bp fst snd].
    change (fun x => fst (bp x)) with (fun rows => map (fun j => reduce_max w (map (fun x => wrap w (0 - x)) (column j rows))) (seq 0 n)).
    change (fun x => snd (bp x)) with (fun rows => map (fun j => reduce_max w (column j rows)) (seq 0 n)).
    (* the j-th column *)
    assert (Hlo : dmin w < D) by (apply (dmin_w_lt_D d w Hw)).
    assert (Ecol : column j rows = concat (map (column j) (batches_of s))).
    { unfold rows, column. apply concat_map. }
    assert (Hcol : Forall (fun x => in_range d x /\ - dmax d <= x) (column j rows)).
    { unfold column. apply Forall_map. rewrite Forall_forall in *. intros r Hr.
      specialize (Hlen r Hr). specialize (HR r Hr). rewrite Forall_forall in HR. apply HR, nth_In. lia. }
    assert (Hcn : column j rows <> []) by (unfold column; destruct rows; [congruence|discriminate]).
    assert (Gmax : forall (h : Z -> Z),
       (forall x, In x (column j rows) -> D <= h x) ->
       is_max (nth j (colmax (map (fun rs => map (fun j => reduce_max w (map h (column j rs))) (seq 0 n)) (batches_of s))) 0)
              (map h (column j rows))).
    { intros h Hh. unfold colmax. rewrite nth_map_seq by exact Hj.
      assert (E : column j (map (fun rs => map (fun j => reduce_max w (map h (column j rs))) (seq 0 n)) (batches_of s))
                  = map (reduce_max w) (map (map h) (map (column j) (batches_of s)))).
      { unfold column at 1. rewrite !map_map. apply map_ext. intros rs. apply nth_map_seq, Hj. }
      rewrite E. clear E.
      assert (E : map h (column j rows) = concat (map (map h) (map (column j) (batches_of s))))
        by (rewrite Ecol; apply concat_map).
      rewrite E. apply fold_reduce_max.
      - exact Hlo.
      - rewrite <- E. destruct (column j rows); [congruence|discriminate].
      - rewrite <- E. intros y Hy. apply in_map_iff in Hy as (x & <- & Hx). apply Hh, Hx. }
    rewrite Forall_forall in Hcol.
    assert (Hneg : forall x, In x (column j rows) -> in_range w (0 - x)).
    { intros x Hx. destruct (Hcol x Hx) as [H1 H2].
      apply (neg_in_range d w x Hw H1). unfold D in *; lia. }
    split.
    - rewrite (nth_indep _ 0 (wrap d (wrap w (0 - wrap w 0)))) by (rewrite map_length, colmax_length; exact Hj).
      rewrite (map_nth (fun m => wrap d (wrap w (0 - wrap w m)))).
      destruct (Gmax (fun x => wrap w (0 - x))) as [Hin Hle].
      { intros x Hx. rewrite wrap_id by (apply Hneg, Hx). destruct (Hcol x Hx) as [H1 _].
        unfold in_range in H1. unfold D in *; lia. }
      set (m := nth j _ 0) in *. clearbody m. apply in_map_iff in Hin as (x & Ex & Hx).
      rewrite (wrap_id w (0 - x)) in Ex by (apply Hneg, Hx). subst m.
      rewrite (wrap_id w (0 - x)) by (apply Hneg, Hx).
      replace (0 - (0 - x)) with x by lia.
      rewrite (wrap_out d w) by (exact Hw || apply Hcol, Hx).
      split; [exact Hx|]. intros y Hy.
      specialize (Hle _ (in_map (fun z => wrap w (0 - z)) _ y Hy)). cbn beta in Hle.
      rewrite (wrap_id w (0 - y)) in Hle by (apply Hneg, Hy). lia.
    - rewrite (nth_indep _ 0 (wrap d (wrap w 0))) by (rewrite map_length, colmax_length; exact Hj).
      rewrite (map_nth (fun m => wrap d (wrap w m))).
      destruct (Gmax (fun x => x)) as [Hin Hle].
      { intros x Hx. apply Hcol, Hx. }
      rewrite map_id in Hin, Hle.
      assert (E : map (fun rs => map (fun j => reduce_max w (map (fun x => x) (column j rs))) (seq 0 n)) (batches_of s)
                  = map (fun rs => map (fun j => reduce_max w (column j rs)) (seq 0 n)) (batches_of s)).
      { apply map_ext. intros rs. apply map_ext. intros k. rewrite map_id. reflexivity. }
      rewrite E in Hin, Hle.
      set (m := nth j _ 0) in *. clearbody m.
      rewrite (wrap_out d w) by (exact Hw || apply Hcol, Hin).
      split; assumption.
  Qed.
End elementwise.

(** ** Sums *)

Lemma zsum_app l1 l2 : zsum (l1 ++ l2) = zsum l1 + zsum l2.
Proof. induction l1 as [|x l1 IH]; cbn; [reflexivity|]. unfold zsum in *. rewrite IH. lia. Qed.

Lemma zsum_concat ls : zsum (concat ls) = zsum (map zsum ls).
Proof. induction ls as [|l ls IH]; cbn; [reflexivity|]. rewrite zsum_app, IH. reflexivity. Qed.

Lemma zsum_perm l1 l2 : Permutation l1 l2 -> zsum l1 = zsum l2.
Proof. induction 1; unfold zsum in *; cbn [fold_right]; lia. Qed.

Section sums.
  Variables (o : int_dtype).
  Let comb := np_combiner (np_sum o) 0 [ScalarShape].

  Lemma wrap_wrap z : wrap o (wrap o z) = wrap o z.
  Proof. apply wrap_id, wrap_in_range. Qed.

  Lemma wrap_zsum_map l : wrap o (zsum (map (wrap o) l)) = wrap o (zsum l).
  Proof.
    induction l as [|x l IH]; [reflexivity|]. change (zsum (map (wrap o) (x :: l))) with (wrap o x + zsum (map (wrap o) l)).
    change (zsum (x :: l)) with (x + zsum l).
    rewrite wrap_add_idem, Z.add_comm, <- wrap_add_idem, IH, wrap_add_idem. f_equal. lia.
  Qed.

  (** The accumulator holds the exact sum of the batch sums modulo the output dtype. *)
  Definition Rsum (l : list (list arr)) (a : option (list arr)) : Prop :=
    exists zs z, l = map (fun z => [Sc z]) zs /\ a = Some [Sc z] /\ wrap o z = wrap o (zsum zs).

  Lemma Rsum_create : Rsum [] (create_accumulator comb).
  Proof. exists [], 0. repeat split. Qed.

  Lemma Rsum_add l a x : (exists z, x = [Sc z]) -> Rsum l a -> Rsum (l ++ [x]) (add_input comb a x).
  Proof.
    intros (y & ->) (zs & z & -> & -> & H).
    cbn [add_input comb np_combiner np_add_input first_is_default is_default_sub_accumulator].
    exists (zs ++ [y]), (if z =? 0 then y else wrap o (z + (y + 0))).
    split; [rewrite map_app; reflexivity|].
    split; [destruct (z =? 0); reflexivity|].
    rewrite zsum_app. cbn [zsum fold_right].
    destruct (Z.eqb_spec z 0) as [->|_].
    - rewrite <- wrap_add_idem, <- H, wrap_add_idem. f_equal. lia.
    - rewrite wrap_wrap, <- (wrap_add_idem o z), H, wrap_add_idem. reflexivity.
  Qed.

  Lemma Rsum_merge ls ags : ls <> [] -> Forall2 Rsum ls ags -> Rsum (concat ls) (merge_accumulators comb ags).
  Proof.
    intros _ HF2.
    assert (exists zss zs, ls = map (map (fun z => [Sc z])) zss /\ ags = map (fun z => Some [Sc z]) zs /\
              map (wrap o) zs = map (fun l => wrap o (zsum l)) zss) as (zss & zs & -> & -> & HW).
    { induction HF2 as [|l a ls ags (zs & z & -> & -> & H) _ (zss & zs' & -> & -> & HW)].
      - exists [], []. repeat split.
      - exists (zs :: zss), (z :: zs'). cbn. rewrite H, HW. repeat split. }
    clear HF2. cbn [merge_accumulators comb np_combiner]. rewrite np_merge_sc_single.
    assert (HS : wrap o (zsum (filter (fun p => negb (p =? 0)) zs)) = wrap o (zsum (concat zss))).
    { transitivity (wrap o (zsum zs)).
      - f_equal. clear. induction zs as [|z zs IH]; cbn; [reflexivity|].
        destruct (Z.eqb_spec z 0) as [->|_]; cbn; unfold zsum in *; lia.
      - rewrite <- wrap_zsum_map, HW, zsum_concat, <- (map_map zsum (wrap o)), wrap_zsum_map. reflexivity. }
    exists (concat zss), (match filter (fun p => negb (p =? 0)) zs with [] => 0 | (_ :: _) as qs => np_sum o qs end).
    split; [rewrite concat_map; reflexivity|].
    destruct (filter (fun p => negb (p =? 0)) zs) as [|q qs]; (split; [reflexivity|]).
    - exact HS.
    - unfold np_sum. rewrite wrap_wrap. exact HS.
  Qed.

  Lemma sum_result (g : list Z -> Z) s :
    exists z, analyze comb (map_sched (map_sched (fun xs => [Sc (g xs)])) s) = Some [Sc z] /\
      wrap o z = wrap o (zsum (map g (batches_of s))).
  Proof.
    set (f := fun xs => [Sc (g xs)]).
    assert (EB : batches_of (map_sched (map_sched f) s) = map (fun z => [Sc z]) (map g (batches_of s))).
    { unfold batches_of. rewrite elements_map. rewrite !flat_map_concat_map, map_map.
      rewrite (map_ext _ (fun x => map f (elements x))).
      - rewrite <- (map_map elements (map f)), <- concat_map. rewrite map_map. reflexivity.
      - intros x. apply elements_map. }
    destruct (analyze_rep comb Rsum (fun x => exists z, x = [Sc z]) Rsum_create Rsum_add Rsum_merge (map_sched (map_sched f) s))
      as (a & Ha & ->).
    { rewrite EB. apply Forall_map, Forall_forall. intros z _. exists z. reflexivity. }
    rewrite EB in Ha. destruct Ha as (zs & z & E & -> & H). exists z. split; [reflexivity|].
    assert (map g (batches_of s) = zs) as ->; [|exact H].
    revert E. clear. generalize (map g (batches_of s)); intros l. revert zs.
    induction l as [|a l IH]; intros [|b qs]; cbn; intros E; inversion E; subst; [reflexivity|].
    f_equal. apply IH. assumption.
  Qed.
End sums.

Lemma sum_exact d s :
  Forall (fun b => in_range d (zsum b)) (batches_of s) ->
  in_range (sum_output_dtype d) (zsum (rows_of s)) ->
  tft_sum d s = Some (zsum (rows_of s)).
Proof.
  intros HB HT. unfold tft_sum. cbv zeta.
  destruct (sum_result (sum_output_dtype d) (fun xs => wrap d (zsum xs)) s) as (z & -> & E).
  rewrite E. f_equal.
  rewrite (map_ext_in _ zsum).
  - rewrite <- zsum_concat. apply wrap_id, HT.
  - intros b Hb. rewrite Forall_forall in HB. apply wrap_id, HB, Hb.
Qed.

Lemma size_exact {X} (s : sched (sched (list X))) :
  Z.of_nat (length (concat (batches_of s))) < 2 ^ 63 ->
  tft_size s = Some (Z.of_nat (length (concat (batches_of s)))).
Proof.
  intros H. unfold tft_size.
  set (s' := map_sched (map_sched (map (fun _ => 1))) s).
  assert (EB : batches_of s' = map (map (fun _ => 1)) (batches_of s)).
  { unfold s', batches_of. rewrite elements_map. rewrite !flat_map_concat_map, map_map.
    rewrite (map_ext _ (fun x => map (map (fun _ => 1)) (elements x))).
    - rewrite <- (map_map elements (map (map (fun _ => 1)))), <- concat_map. reflexivity.
    - intros x. apply elements_map. }
  assert (EL : forall l : list X, zsum (map (fun _ => 1) l) = Z.of_nat (length l)).
  { induction l as [|x l IH]; [reflexivity|]. cbn [map length]. change (zsum (1 :: map (fun _ => 1) l)) with (1 + zsum (map (fun _ => 1) l)). lia. }
  assert (ET : zsum (rows_of s') = Z.of_nat (length (concat (batches_of s)))).
  { unfold rows_of. rewrite EB, <- concat_map. apply EL. }
  rewrite <- ET. apply sum_exact.
  - rewrite EB. apply Forall_map, Forall_forall. intros b Hb. rewrite EL.
    assert (length b <= length (concat (batches_of s)))%nat.
    { clear -Hb. induction (batches_of s) as [|c cs IH]; [contradiction|]. cbn. rewrite app_length.
      destruct Hb as [->|Hb]; [lia|]. specialize (IH Hb). lia. }
    unfold in_range. change (dmin Int64) with (- 2 ^ 63). change (dmax Int64) with (2 ^ 63 - 1). lia.
  - rewrite ET. unfold in_range. change (dmin (sum_output_dtype Int64)) with (- 2 ^ 63).
    change (dmax (sum_output_dtype Int64)) with (2 ^ 63 - 1). lia.
Qed.

Lemma wrap_same_width d o z : bits d = 64 -> o = sum_output_dtype d -> wrap o (wrap d z) = wrap o z.
Proof. intros Hd ->. destruct d; cbn in Hd; try discriminate; apply wrap_id, wrap_in_range. Qed.

Lemma sum_64bit d s :
  bits d = 64 -> in_range d (zsum (rows_of s)) -> tft_sum d s = Some (zsum (rows_of s)).
Proof.
  intros Hd HT. unfold tft_sum. cbv zeta.
  destruct (sum_result (sum_output_dtype d) (fun xs => wrap d (zsum xs)) s) as (z & -> & E).
  rewrite E. f_equal.
  assert (Eo : sum_output_dtype d = d) by (destruct d; cbn in Hd; try discriminate; reflexivity).
  rewrite Eo, <- (map_map zsum (wrap d)), wrap_zsum_map, <- zsum_concat. apply wrap_id, HT.
Qed.

(** The statements for [min_and_max]. *)
Lemma min_and_max_work d w s : minmax_work_dtype d = Some w -> min_and_max d s = min_and_max_in d w s.
Proof. unfold min_and_max. intros ->. reflexivity. Qed.

Lemma global_max_exact d w s :
  minmax_work_dtype d = Some w -> rows_of s <> [] ->
  Forall (in_range d) (rows_of s) -> Forall (fun x => x <> dmax d) (rows_of s) ->
  exists mn mx, min_and_max d s = Some (mn, mx) /\ is_max mx (rows_of s).
Proof. intros Hw. rewrite (min_and_max_work d w s Hw). apply max_exact, work_dtype_ok, Hw. Qed.
Lemma global_min_exact d w s :
  minmax_work_dtype d = Some w -> rows_of s <> [] ->
  Forall (in_range d) (rows_of s) -> Forall (fun x => x <> dmax d) (rows_of s) ->
  Forall (fun x => dmin w < x) (rows_of s) ->
  exists mn mx, min_and_max d s = Some (mn, mx) /\ is_min mn (rows_of s).
Proof. intros Hw. rewrite (min_and_max_work d w s Hw). apply min_exact_no_sentinel, work_dtype_ok, Hw. Qed.
Lemma global_min_exact_nonempty d w s :
  minmax_work_dtype d = Some w -> rows_of s <> [] -> Forall (fun b => b <> []) (batches_of s) ->
  Forall (in_range d) (rows_of s) -> Forall (fun x => dmin w < x) (rows_of s) ->
  exists mn mx, min_and_max d s = Some (mn, mx) /\ is_min mn (rows_of s).
Proof. intros Hw. rewrite (min_and_max_work d w s Hw). apply min_exact_sentinel, work_dtype_ok, Hw. Qed.
Lemma global_all_max d w s :
  minmax_work_dtype d = Some w -> Forall (fun b => b <> []) (batches_of s) ->
  Forall (fun x => x = dmax d) (rows_of s) ->
  min_and_max d s = Some (dmax d, wrap d (- dmax d)).
Proof. intros Hw. rewrite (min_and_max_work d w s Hw). apply all_max_result, work_dtype_ok, Hw. Qed.
