(** Batches of a sparse column, and columns of integers. *)
From Coq Require Import List ZArith Bool Lia.
From Verif Require Import CombineModel CombineProofs NumericModel NumericProofs SelModel SelSpec SelProofs.
Import ListNotations.
Local Open Scope Z_scope.

Lemma values_at_map {X Y} (f : X -> Y) j b : values_at j (map_values f b) = map f (values_at j b).
Proof.
  destruct b as [w es]. unfold values_at, map_values. cbn [entries]. rewrite map_map.
  induction es as [|[[r c] x] es IH]; [reflexivity|]. cbn [map filter fst snd].
  destruct (Nat.eqb c j); cbn [map fst snd]; rewrite IH; reflexivity.
Qed.

Lemma values_of_concat {X} j (bs : list (sbatch X)) : values_of j bs = concat (map (values_at j) bs).
Proof.
  unfold values_of. rewrite flat_map_concat_map. f_equal. apply map_ext. intro b.
  unfold values_at. induction (entries b) as [|[[r c] x] es IH]; [reflexivity|].
  cbn [flat_map filter fst snd]. destruct (Nat.eq_dec c j) as [E|E].
  - rewrite (proj2 (Nat.eqb_eq c j) E). cbn [map snd app]. f_equal. exact IH.
  - rewrite (proj2 (Nat.eqb_neq c j) E). exact IH.
Qed.

Definition batch_cell {X} (missing : X) (finite : X -> bool) (neg : X -> X) (max : list X -> X) (l : list X) : X :=
  if existsb finite l then max (map neg l) else missing.

Lemma count_zero {X} (finite : X -> bool) (l : list X) :
  (match map (fun x => if finite x then 1 else 0) l with [] => 0 | l' => zsum l' end =? 0)
  = negb (existsb finite l).
Proof.
  assert (forall l, 0 <= zsum (map (fun x => if finite x then 1 else 0) l)
            /\ (zsum (map (fun x => if finite x then 1 else 0) l) = 0 <-> existsb finite l = false)) as H.
  { clear. induction l as [|x l [IH1 IH2]]; [cbn; split; [lia|tauto]|].
    change (zsum (map (fun x => if finite x then 1 else 0) (x :: l)))
      with ((if finite x then 1 else 0) + zsum (map (fun x => if finite x then 1 else 0) l)).
    cbn [existsb]. destruct (finite x); cbn [orb]; [split; [lia|split; [lia|discriminate]]|].
    rewrite Z.add_0_l. split; assumption. }
  specialize (H l). destruct H as [_ H].
  replace (match map (fun x => if finite x then 1 else 0) l with [] => 0 | l' => zsum l' end)
    with (zsum (map (fun x => if finite x then 1 else 0) l)) by (destruct l; reflexivity).
  destruct (existsb finite l); cbn [negb].
  - apply Z.eqb_neq. intro E. apply H in E. discriminate.
  - apply Z.eqb_eq. apply H. reflexivity.
Qed.

Lemma batch_table {X} (zero missing : X) finite neg max b :
  sparse_minus_min_and_max zero missing finite neg max b
  = map GVec [map (fun j => batch_cell missing finite neg max (values_at j b)) (seq 0 (width b));
              map (fun j => batch_cell missing finite (fun x => x) max (values_at j b)) (seq 0 (width b))].
Proof.
  unfold sparse_minus_min_and_max, sparse_count, sparse_reduce, where_missing. cbn [map_values width map].
  rewrite !combine_map_seq, !map_map. cbn [fst snd].
  assert (forall f l (m : list X -> X),
    (if match map (fun x => if finite x then 1 else 0) l with [] => 0 | l' => zsum l' end =? 0
     then missing else match map f l with [] => zero | l' => m l' end)
    = batch_cell missing finite f m l) as H.
  { intros f l m. rewrite count_zero. unfold batch_cell. destruct l; cbn [existsb map]; [reflexivity|].
    destruct (finite x || existsb finite l); reflexivity. }
  f_equal; [|f_equal]; f_equal; apply map_ext; intro j; rewrite !values_at_map.
  - apply H.
  - specialize (H (fun x => x) (values_at j b) max). rewrite map_id in H. exact H.
Qed.

(** Maxima with a default. *)
Section ints.
  Variable D : Z.

  Definition Rmaxd (l : list Z) (x : Z) : Prop := (x = D \/ In x l) /\ forall y, In y l -> y <= x.

  Lemma Rmaxd_one x : Rmaxd [x] x.
  Proof. split; [right; left; reflexivity|]. intros y [<-|[]]. lia. Qed.

  Lemma Rmaxd_fn ls xs : ls <> [] -> Forall2 Rmaxd ls xs -> Rmaxd (concat ls) (list_max xs).
  Proof.
    intros N F. assert (xs <> []) as NX by (intros ->; inversion F; subst; congruence).
    destruct (list_max_spec xs NX) as [I M].
    assert (forall l, In l ls -> exists x, In x xs /\ Rmaxd l x) as A.
    { clear - F. induction F as [|l x ls xs H _ IH]; [contradiction|]. intros l' [<-|L].
      - exists x. split; [left; reflexivity|exact H].
      - destruct (IH l' L) as (x' & X & H'). exists x'. split; [right; exact X|exact H']. }
    assert (forall x, In x xs -> exists l, In l ls /\ Rmaxd l x) as B.
    { clear - F. induction F as [|l x ls xs H _ IH]; [contradiction|]. intros x' [<-|L].
      - exists l. split; [left; reflexivity|exact H].
      - destruct (IH x' L) as (l' & X & H'). exists l'. split; [right; exact X|exact H']. }
    split.
    - destruct (B _ I) as (l & L & [[H|H] _]); [left; exact H|right]. apply in_concat. exists l. auto.
    - intros y Y. apply in_concat in Y as (l & L & Y). destruct (A l L) as (x & Xi & [_ H]).
      specialize (H y Y). specialize (M x Xi). lia.
  Qed.
End ints.

(** The result, given the cells of all batches at one coordinate. *)
Lemma cells_greatest D missing m f vss :
  missing <= D -> concat vss <> [] -> (forall y, In y (concat vss) -> D <= f y) ->
  Rmaxd D (map (batch_cell missing (fun _ => true) f list_max) vss) m ->
  greatest_int m (map f (concat vss)).
Proof.
  intros MD N HD [H1 H2].
  assert (forall vs y, In vs vss -> In y vs -> f y <= m) as U.
  { intros vs y V Y. specialize (H2 (batch_cell missing (fun _ => true) f list_max vs)).
    assert (batch_cell missing (fun _ => true) f list_max vs = list_max (map f vs)) as E
      by (destruct vs; [contradiction|reflexivity]).
    rewrite E in H2. destruct (list_max_spec (map f vs)) as [_ M]; [destruct vs; [contradiction|discriminate]|].
    specialize (M (f y) (in_map f _ _ Y)).
    assert (list_max (map f vs) <= m); [|lia]. apply H2. rewrite <- E.
    apply (in_map (batch_cell missing (fun _ => true) f list_max)). exact V. }
  assert (m = D \/ m = missing -> In m (map f (concat vss))) as C.
  { intro E. destruct (concat vss) as [|y l] eqn:Ec; [congruence|].
    assert (In y (concat vss)) as Y by (rewrite Ec; left; reflexivity).
    specialize (HD y (or_introl eq_refl)). apply in_concat in Y as (vs & V & Y). specialize (U vs y V Y).
    left. lia. }
  split.
  - destruct H1 as [H1|H1]; [apply C; left; exact H1|]. apply in_map_iff in H1 as (vs & E & V).
    destruct vs as [|v vs]; [apply C; right; symmetry; exact E|].
    cbn [batch_cell existsb orb] in E. unfold batch_cell in E. cbn [existsb orb] in E.
    destruct (list_max_spec (map f (v :: vs))) as [I _]; [discriminate|]. rewrite E in I.
    apply in_map_iff in I as (y & Ey & Y). apply in_map_iff. exists y. split; [exact Ey|].
    apply in_concat. exists (v :: vs). auto.
  - intros x X. apply in_map_iff in X as (y & <- & Y). apply in_concat in Y as (vs & V & Y). apply (U vs y V Y).
Qed.

Lemma cells_missing D missing m f vss :
  concat vss = [] ->
  Rmaxd D (map (batch_cell missing (fun _ => true) f list_max) vss) m -> m = D \/ m = missing.
Proof.
  intros N [H1 _]. destruct H1 as [H1|H1]; [left; exact H1|right].
  apply in_map_iff in H1 as (vs & E & V).
  assert (vs = []) as -> by (destruct vs as [|v vs]; [reflexivity|];
    assert (In v (concat vss)) as H by (apply in_concat; exists (v :: vs); split; [exact V|left; reflexivity]);
    rewrite N in H; destruct H).
  symmetry. exact E.
Qed.

Lemma missing_below d w : work_ok d w -> missing_int w <= - dmax d.
Proof. intro E. work_destruct E; cbn; lia. Qed.

Section analysis.
  Context {X : Type} (zero missing default : X) (finite is_default : X -> bool) (neg : X -> X)
    (bmax fn : list X -> X) (R : list X -> X -> Prop) (P : X -> Prop).
  Hypothesis default_ok : is_default default = true.
  Hypothesis R_nil : R [] default.
  Hypothesis R_one : forall x, P x -> R [x] x.
  Hypothesis R_fn : forall ls xs, ls <> [] -> Forall2 R ls xs -> R (concat ls) (fn xs).

  (** Both outputs of the analysis, coordinate by coordinate. *)
  Lemma sparse_analysis n shape (s : sched (sched (sbatch X))) :
    instances n shape (batches_of s) ->
    (forall b j f, In b (batches_of s) -> f = neg \/ f = (fun x => x) ->
       P (batch_cell missing finite f bmax (values_at j b))) ->
    exists mns mxs,
      analyze (gnp_combiner fn default is_default [shape; shape])
        (map_sched (map_sched (sparse_minus_min_and_max zero missing finite neg bmax)) s)
      = Some [GVec mns; GVec mxs]
      /\ length mns = n /\ length mxs = n
      /\ forall j, (j < n)%nat ->
           R (map (fun b => batch_cell missing finite neg bmax (values_at j b)) (batches_of s)) (nth j mns default)
           /\ R (map (fun b => batch_cell missing finite (fun x => x) bmax (values_at j b)) (batches_of s))
                (nth j mxs default).
  Proof.
    intros [W SH] HP.
    set (tab := fun b => [map (fun j => batch_cell missing finite neg bmax (values_at j b)) (seq 0 (width b));
                          map (fun j => batch_cell missing finite (fun x => x) bmax (values_at j b)) (seq 0 (width b))]).
    rewrite Forall_forall in W.
    destruct (gnp_analyze fn default is_default 2 n shape R P ltac:(lia) default_ok
                ltac:(tauto) R_nil R_one R_fn
                (map_sched (map_sched (sparse_minus_min_and_max zero missing finite neg bmax)) s)
                (map tab (batches_of s))) as (vs & E & [L F] & H).
    - rewrite batches_of_map, map_map. apply map_ext. intro b. apply batch_table.
    - apply Forall_map, Forall_forall. intros b B. specialize (W b B). split.
      + split; [reflexivity|]. unfold tab. repeat constructor; rewrite map_length, seq_length; exact W.
      + unfold tab. repeat constructor; apply Forall_map, Forall_forall; intros j _; apply HP; auto.
    - intros E E0. destruct SH as [->|[_ N]]; [discriminate|]. apply N. destruct (batches_of s); [reflexivity|discriminate].
    - destruct vs as [|mns [|mxs [|? ?]]]; try discriminate L. exists mns, mxs.
      split; [exact E|]. inversion F as [|? ? F1 F']; subst. inversion F' as [|? ? F2 _]; subst.
      split; [reflexivity|]. split; [exact F2|]. intros j J.
      assert (forall i f, nth_error [neg; (fun x => x)] i = Some f -> forall b, In b (batches_of s) ->
                cell default i j (tab b) = batch_cell missing finite f bmax (values_at j b)) as C.
      { intros i f Ei b B. unfold cell, tab. specialize (W b B).
        destruct i as [|[|i]]; cbn in Ei; [| |destruct i; discriminate]; injection Ei as <-; cbn [nth];
          [exact (nth_map_seq default (fun j0 => batch_cell missing finite neg bmax (values_at j0 b)) (width b) j ltac:(lia))
          |exact (nth_map_seq default (fun j0 => batch_cell missing finite (fun x => x) bmax (values_at j0 b)) (width b) j ltac:(lia))]. }
      split.
      + specialize (H 0%nat j ltac:(lia) J). rewrite map_map in H.
        rewrite (map_ext_in _ _ _ (C 0%nat neg eq_refl)) in H. exact H.
      + specialize (H 1%nat j ltac:(lia) J). rewrite map_map in H.
        rewrite (map_ext_in _ _ _ (C 1%nat _ eq_refl)) in H. exact H.
  Qed.
End analysis.

Section int_columns.
  Variables (d w : int_dtype) (n : nat) (shape : oshape) (s : sched (sched (sbatch Z))).
  Hypothesis Hw0 : minmax_work_dtype d = Some w.
  Hypothesis Hs : instances n shape (batches_of s).

  Lemma int_result :
    exists mns mxs,
      sparse_min_and_max d shape s
      = Some (GVec (map (fun m => wrap d (wrap w (0 - wrap w m))) mns), GVec (map (fun m => wrap d (wrap w m)) mxs))
      /\ length mns = n /\ length mxs = n
      /\ forall j, (j < n)%nat ->
           Rmaxd (- dmax d) (map (batch_cell (missing_int w) (fun _ => true) (fun x => wrap w (0 - x)) list_max)
                               (map (values_at j) (batches_of s))) (nth j mns (- dmax d))
           /\ Rmaxd (- dmax d) (map (batch_cell (missing_int w) (fun _ => true) (fun x => x) list_max)
                               (map (values_at j) (batches_of s))) (nth j mxs (- dmax d)).
  Proof.
    destruct (sparse_analysis 0 (missing_int w) (- dmax d) (fun _ => true) (Z.eqb (- dmax d))
                (fun x => wrap w (0 - x)) list_max list_max (Rmaxd (- dmax d)) (fun _ => True)
                (Z.eqb_refl _) ltac:(split; [left; reflexivity|intros y []]) (fun x _ => Rmaxd_one _ x)
                (Rmaxd_fn (- dmax d)) n shape s Hs (fun _ _ _ _ _ => Logic.I)) as (mns & mxs & E & L1 & L2 & H).
    exists mns, mxs. unfold sparse_min_and_max. rewrite Hw0, E. cbn [gmap].
    split; [reflexivity|]. split; [exact L1|]. split; [exact L2|].
    intros j J. rewrite !map_map. apply H. exact J.
  Qed.

  Lemma int_columns :
    Forall (fun b => Forall (fun e => in_range d (snd e) /\ - dmax d <= snd e) (entries b)) (batches_of s) ->
    exists mins maxs, sparse_min_and_max d shape s = Some (GVec mins, GVec maxs)
      /\ length mins = n /\ length maxs = n
      /\ forall j, (j < n)%nat ->
         (values_of j (batches_of s) <> [] ->
            least_int (nth j mins 0) (values_of j (batches_of s))
            /\ greatest_int (nth j maxs 0) (values_of j (batches_of s)))
         /\ (values_of j (batches_of s) = [] ->
               (exists m, (m = - dmax d \/ m = missing_int w) /\ nth j mins 0 = wrap d (wrap w (0 - wrap w m)))
               /\ (exists m, (m = - dmax d \/ m = missing_int w) /\ nth j maxs 0 = wrap d (wrap w m))).
  Proof.
    intro HR. pose proof (work_dtype_ok d w Hw0) as Hw.
    destruct int_result as (mns & mxs & E & L1 & L2 & H).
    eexists. eexists. split; [exact E|]. rewrite !map_length. split; [exact L1|]. split; [exact L2|].
    intros j J. destruct (H j J) as [H1 H2]. clear H.
    assert (forall (f : Z -> Z) l, length l = n -> nth j (map f l) 0 = f (nth j l (- dmax d))) as NT.
    { intros f l L. rewrite (nth_indep _ 0 (f (- dmax d))) by (rewrite map_length, L; exact J). apply map_nth. }
    rewrite !NT by assumption. clear NT.
    rewrite values_of_concat. split.
    - intro N.
      assert (forall y, In y (concat (map (values_at j) (batches_of s))) -> in_range d y /\ - dmax d <= y) as HY.
      { intros y Y. apply in_concat in Y as (vs & V & Y). apply in_map_iff in V as (b & <- & B).
        rewrite Forall_forall in HR. specialize (HR b B). rewrite Forall_forall in HR.
        unfold values_at in Y. apply in_map_iff in Y as (e & <- & Ee). apply filter_In in Ee as [Ee _]. exact (HR e Ee). }
      set (vs := concat (map (values_at j) (batches_of s))) in *.
      assert (forall y, In y vs -> wrap w (0 - y) = 0 - y) as WN.
      { intros y Y. destruct (HY y Y) as [A B]. apply wrap_id. apply (neg_in_range d w y Hw A).
        pose proof (work_dmin d w Hw). lia. }
      split.
      + assert (forall y, In y vs -> - dmax d <= (fun x => wrap w (0 - x)) y) as G.
        { intros y Y. cbv beta. rewrite (WN y Y). destruct (HY y Y) as [A _]. unfold in_range in A. lia. }
        destruct (cells_greatest _ _ _ _ _ (missing_below d w Hw) N G H1) as [I M]. fold vs in I, M.
        set (m := nth j mns _) in *. apply in_map_iff in I as (x & Ex & Xi).
        rewrite (WN x Xi) in Ex. destruct (HY x Xi) as [Rx Dx].
        assert (wrap d (wrap w (0 - wrap w m)) = x) as ->.
        { rewrite <- Ex. rewrite (wrap_id w (0 - x)) by (rewrite <- (WN x Xi); apply wrap_in_range).
          replace (0 - (0 - x)) with x by lia. apply (wrap_out d w x Hw Rx). }
        split; [exact Xi|]. intros y Y. specialize (M (wrap w (0 - y)) (in_map _ _ _ Y)).
        rewrite (WN y Y) in M. lia.
      + destruct (cells_greatest _ _ _ (fun x => x) _ (missing_below d w Hw) N (fun y Y => proj2 (HY y Y)) H2) as [I M].
        fold vs in I, M. rewrite map_id in I, M. set (m := nth j mxs _) in *.
        rewrite (wrap_out d w m Hw (proj1 (HY m I))). split; assumption.
    - intro N. split; eexists; (split; [|reflexivity]); [exact (cells_missing _ _ _ _ _ N H1)|exact (cells_missing _ _ _ _ _ N H2)].
  Qed.
End int_columns.

(** Sums. *)
Section sums.
  Variable o : int_dtype.
  Definition Rsum (l : list Z) (x : Z) : Prop := x = wrap o (zsum l).

  Lemma Rsum_fn ls xs : ls <> [] -> Forall2 Rsum ls xs -> Rsum (concat ls) (np_sum o xs).
  Proof.
    intros _ F. unfold Rsum, np_sum. rewrite zsum_concat.
    assert (xs = map (wrap o) (map zsum ls)) as -> by (induction F as [|l x ls xs E _ IH]; [reflexivity|]; cbn; rewrite E, IH; reflexivity).
    generalize (map zsum ls). clear. intro l.
    induction l as [|x l IH]; [reflexivity|].
    change (wrap o (wrap o x + zsum (map (wrap o) l)) = wrap o (x + zsum l)).
    rewrite wrap_add_idem, Z.add_comm, <- wrap_add_idem, IH, wrap_add_idem. f_equal. lia.
  Qed.
End sums.

Lemma sum_columns d r n (s : sched (sched (sbatch Z))) :
  sparse_sum_dtype d = Some r -> instances n UnknownShape (batches_of s) ->
  (forall b j, In b (batches_of s) -> in_range r (total (values_of j [b]))) ->
  (forall j, in_range Int64 (total (values_of j (batches_of s)))) ->
  exists totals, sparse_sum d s = Some (GVec totals) /\ length totals = n
    /\ forall j, (j < n)%nat -> nth j totals 0 = total (values_of j (batches_of s)).
Proof.
  intros Hr [W SH] HB HT. unfold sparse_sum. rewrite Hr.
  assert (sum_output_dtype r = Int64 /\ (forall x, in_range r x -> in_range Int64 x)) as [-> RI].
  { destruct d; cbn in Hr; inversion Hr; subst; (split; [reflexivity|]); intros x; unfold in_range; cbn; lia. }
  destruct SH as [SH|[_ N]]; [discriminate|].
  set (tab := fun b : sbatch Z => [sparse_reduce 0 (fun l => wrap r (zsum l)) b]).
  assert (forall b j, In b (batches_of s) -> (j < n)%nat ->
            nth j (sparse_reduce 0 (fun l => wrap r (zsum l)) b) 0 = zsum (values_at j b)) as C.
  { intros b j B J. unfold sparse_reduce. rewrite Forall_forall in W. rewrite (W b B).
    rewrite (nth_map_seq 0 (fun j0 => match values_at j0 b with [] => 0 | l => wrap r (zsum l) end)) by exact J.
    specialize (HB b j B). rewrite values_of_concat in HB. cbn [map concat] in HB. rewrite app_nil_r in HB.
    destruct (values_at j b) as [|v l]; [reflexivity|]. apply wrap_id. exact HB. }
  destruct (gnp_analyze (np_sum Int64) 0 (Z.eqb 0) 1 n UnknownShape (Rsum Int64) (in_range Int64) ltac:(lia) eq_refl
              ltac:(tauto) ltac:(reflexivity)
              ltac:(intros x X; unfold Rsum; cbn; rewrite Z.add_0_r; symmetry; apply wrap_id; exact X) (Rsum_fn Int64)
              (map_sched (map_sched (fun b => [GVec (sparse_reduce 0 (fun l => wrap r (zsum l)) b)])) s)
              (map tab (batches_of s))) as (vs & E & [L F] & H).
  - rewrite batches_of_map, map_map. reflexivity.
  - apply Forall_map, Forall_forall. intros b B. rewrite Forall_forall in W. specialize (W b B). split.
    + split; [reflexivity|]. constructor; [|constructor]. unfold sparse_reduce. rewrite map_length, seq_length. exact W.
    + constructor; [|constructor]. apply Forall_map, Forall_forall. intros j J.
      destruct (values_at j b) as [|v l]; [unfold in_range; cbn; lia|]. apply RI. apply wrap_in_range.
  - intros _ E. apply N. destruct (batches_of s); [reflexivity|discriminate].
  - change [UnknownShape] with (repeat UnknownShape 1). rewrite E.
    destruct vs as [|v [|? ?]]; try discriminate L. inversion F as [|? ? F1 _]; subst. cbn [map gmap].
    eexists. split; [reflexivity|]. rewrite map_length. split; [reflexivity|]. intros j J.
    rewrite (nth_indep _ 0 (wrap Int64 0)) by (rewrite map_length; exact J). rewrite map_nth.
    specialize (H 0%nat j ltac:(lia) J). rewrite map_map in H. unfold cell in H. cbn [tab nth] in H.
    rewrite (map_ext_in _ (fun b => zsum (values_at j b))) in H by (intros b B; apply (C b j B J)).
    rewrite H. rewrite (wrap_id Int64) by apply wrap_in_range.
    specialize (HT j). rewrite values_of_concat in *. unfold total in *.
    change (fold_right Z.add 0 (concat (map (values_at j) (batches_of s))))
      with (zsum (concat (map (values_at j) (batches_of s)))) in *.
    rewrite zsum_concat, map_map in *. apply wrap_id. exact HT.
Qed.

Lemma entries_of_values {X} (P : X -> Prop) (bs : list (sbatch X)) :
  (forall j x, In x (values_of j bs) -> P x) -> Forall (fun b => Forall (fun e => P (snd e)) (entries b)) bs.
Proof.
  intro H. apply Forall_forall. intros b B. apply Forall_forall. intros [[r c] x] Ee. apply (H c).
  unfold values_of. apply in_flat_map. exists b. split; [exact B|]. apply in_flat_map. exists (r, c, x).
  split; [exact Ee|]. cbn [fst snd]. destruct (Nat.eq_dec c c); [left; reflexivity|congruence].
Qed.
